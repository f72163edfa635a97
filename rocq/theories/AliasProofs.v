(** Proofs about Alias.v: which arrays the object writes to, and what it reads. *)
From Verif Require Import Alias AliasSpec.

Section Proofs.
  Context {X : Type}.
  Variable K : kernel -> list (option X) -> X.
  Variable converges : list (option X) -> bool.
  Notation state := (@state X). Notation event := (@event X).
  Notation exec := (exec K). Notation execs := (execs K).
  Notation step := (step K converges). Notation runs := (runs K converges).
  Notation get_prop := (get_prop K). Notation get_props := (get_props K). Notation call := (call K converges).

  (** arrays written in place *)
  Definition inplace (c : acfg) (s : slot) : bool :=
    match s with
    | Qref | Uref | Ptref | BUa1 | BUa2 | BEp1 | BEp2 | BEp3 | BEp4 | BNc | BU | BLwa | BAs1 | BAs2
    | Lwa | As1 | As2 | Ua1 | Ua2 | Ep1 | Ep2 | Ep3 | Nc => true
    | Str => a_nh c
    | _ => false
    end.
  (** names of arrays that never are one of those *)
  Definition apart (c : acfg) (s : slot) : bool :=
    match s with
    | FieldU | FieldV | FieldT | Lat | LatA | Clat | Stat | IntU | IntV | IntT | Qgpv | Avort
    | OConv | ODiv | OLam | OPhi => true
    | Str => negb (a_nh c)
    | _ => false
    end.

  (** names of arrays that are one of those, and of which *)
  Definition partner (s : slot) : option slot :=
    match s with OF1 => Some BUa1 | OF2 => Some BUa2 | OF3 => Some BEp1 | OHeat => Some BEp4 | ONc => Some BNc | _ => None end.

  Definition safe (c : acfg) (l : nat) (st : state) : Prop := forall s, inplace c s = true -> env st s <> Some l.
  Definition sep (c : acfg) (st : state) : Prop :=
    forall s l, apart c s = true -> env st s = Some l -> safe c l st.
  Definition wf (st : state) : Prop := forall s l, env st s = Some l -> l < top st.

  Record inv (c : acfg) (own : list nat) (st : state) : Prop := {
    i_wf : wf st; i_sep : sep c st;
    i_own : forall l, In l own -> l < top st /\ safe c l st }.
  Record keep (c : acfg) (l : nat) (st st' : state) : Prop := {
    k_cell : cell st' l = cell st l; k_top : top st <= top st'; k_safe : safe c l st' }.

  Definition instr_ok (c : acfg) (own : list nat) (i : instr) : Prop :=
    match i with
    | Fresh _ _ _ => True
    | Into s _ _ => inplace c s = true
    | Bind s a => inplace c s = false /\
        (apart c s = true -> match a with Slot s' => apart c s' = true | Cell l => In l own end) /\
        match a with Cell l => In l own | _ => True end /\
        (apart c s = false -> match a with Slot s' => partner s = Some s' | Cell _ => False end)
    end.

  Lemma set_cell_same f l (x : X) : set_cell f l x l = x.
  Proof. unfold set_cell. now rewrite Nat.eqb_refl. Qed.
  Lemma set_cell_other f l (x : X) n : n <> l -> set_cell f l x n = f n.
  Proof. unfold set_cell. intros E. destruct (n =? l) eqn:H; trivial. apply Nat.eqb_eq in H. congruence. Qed.
  Lemma set_env_cases f s l s' : (s' = s /\ set_env f s l s' = l) \/ (s' <> s /\ set_env f s l s' = f s').
  Proof. unfold set_env. destruct (slot_eq_dec s' s); auto. Qed.

  Lemma top_exec st i : top st <= top (exec st i).
  Proof. destruct i; cbn; try lia. destruct (env st s); cbn; lia. Qed.

  Lemma exec_keep c own l st i : instr_ok c own i -> l < top st -> safe c l st -> keep c l st (exec st i).
  Proof.
    intros O L S. split; [|apply top_exec|].
    - destruct i; cbn; trivial.
      + apply set_cell_other. lia.
      + destruct (env st s) eqn:E; cbn; trivial. apply set_cell_other. cbn in O.
        intros ->. exact (S s O E).
    - intros s' I. destruct i; cbn.
      + destruct (set_env_cases (env st) s (Some (top st)) s') as [[_ ->]|[_ ->]].
        * intros [= E]. lia.
        * now apply S.
      + destruct (env st s) eqn:E; cbn; now apply S.
      + destruct (set_env_cases (env st) s (where_ st a) s') as [[-> _]|[_ ->]].
        * cbn in O. destruct O. congruence.
        * now apply S.
  Qed.

  Lemma apart_inplace c s : apart c s = true -> inplace c s = false.
  Proof. destruct s; cbn; try congruence; try discriminate. now destruct (a_nh c). Qed.

  Lemma exec_inv c own st i : instr_ok c own i -> inv c own st -> inv c own (exec st i).
  Proof.
    intros O [W P Q].
    assert (W' : wf (exec st i)).
    { intros s' l. destruct i; cbn.
      - destruct (set_env_cases (env st) s (Some (top st)) s') as [[_ ->]|[_ ->]].
        + intros [= <-]. lia.
        + intros E. specialize (W _ _ E). lia.
      - destruct (env st s); cbn; apply W.
      - destruct (set_env_cases (env st) s (where_ st a) s') as [[-> ->]|[_ ->]]; [|apply W].
        cbn in O. destruct O as (_ & _ & O & _). destruct a; cbn; [apply W|].
        intros [= <-]. now apply Q. }
    split; trivial.
    - intros s' l A E.
      destruct i; cbn in E.
      + destruct (set_env_cases (env st) s (Some (top st)) s') as [[-> E']|[N E']]; rewrite E' in E.
        * injection E as <-. intros w I. cbn.
          destruct (set_env_cases (env st) s (Some (top st)) w) as [[-> _]|[_ ->]].
          { rewrite (apart_inplace _ _ A) in I. discriminate. }
          intros E. apply W in E. lia.
        * apply (exec_keep c own l st (Fresh s k reads)); trivial; [now apply (W s')|now apply (P s')].
      + apply (exec_keep c own l st (Into s k reads)); trivial.
        * apply (W s'). destruct (env st s); trivial.
        * apply (P s'); trivial. destruct (env st s); trivial.
      + destruct (set_env_cases (env st) s (where_ st a) s') as [[-> E']|[N E']]; rewrite E' in E.
        * destruct O as (O1 & O2 & O3 & O4). specialize (O2 A).
          assert (L : l < top st /\ safe c l st).
          { destruct a; cbn in E; [split; [now apply (W s0)|now apply (P s0)]|].
            injection E as <-. now apply Q. }
          destruct L as [L1 L2].
          apply (exec_keep c own l st (Bind s a)); trivial. cbn. tauto.
        * apply (exec_keep c own l st (Bind s a)); trivial; [now apply (W s')|now apply (P s')].
    - intros l I. destruct (Q l I) as [Q1 Q2].
      destruct (exec_keep c own l st i O Q1 Q2) as [_ ? ?]. split; [lia|trivial].
  Qed.

  Lemma exec_wf c st i : instr_ok c [] i -> wf st -> wf (exec st i).
  Proof.
    intros O W s' l. destruct i; cbn.
    - destruct (set_env_cases (env st) s (Some (top st)) s') as [[_ ->]|[_ ->]].
      + intros [= <-]. lia.
      + intros E. specialize (W _ _ E). lia.
    - destruct (env st s); cbn; apply W.
    - destruct (set_env_cases (env st) s (where_ st a) s') as [[-> ->]|[_ ->]]; [|apply W].
      cbn in O. destruct O as (_ & _ & O & _). destruct a; cbn; [apply W|destruct O].
  Qed.
  Lemma instr_ok_more c own i : instr_ok c [] i -> instr_ok c own i.
  Proof.
    destruct i; cbn; trivial. intros (A & B & C & D). split; [|split; [|split]]; trivial.
    - intros H. specialize (B H). destruct a; trivial. destruct B.
    - destruct a; trivial. destruct C.
  Qed.

  (** *** Steps, for any invariant kept by single instructions *)
  Section Steps.
    Variable c : acfg.
    Variable J : state -> Prop.
    Hypothesis J_exec : forall st i, instr_ok c [] i -> J st -> J (exec st i).
    Hypothesis J_alloc : forall st x, J st -> J (fst (alloc st x)).
    Hypothesis J_flags : forall st n r l, J st -> J (flags st n r l).

    Definition good (st st' : state) : Prop :=
      J st' /\ forall l, l < top st -> safe c l st -> keep c l st st'.
    Lemma good_refl st : J st -> good st st.
    Proof. intros H. split; trivial. intros l L S. split; trivial. Qed.
    Lemma good_trans a b d : good a b -> good b d -> good a d.
    Proof.
      intros [_ G1] [I2 G2]. split; trivial. intros l L S.
      destruct (G1 l L S) as [E1 E2 E3]. destruct (G2 l ltac:(lia) E3) as [F1 F2 F3].
      split; [congruence|lia|trivial].
    Qed.
    Lemma good_execs is : forall st, Forall (instr_ok c []) is -> J st -> good st (execs st is).
    Proof.
      induction is as [|i is IH]; intros st F H; [now apply good_refl|].
      inversion F as [|? ? O F']; subst.
      apply (good_trans st (exec st i)); [|now apply IH; [|apply J_exec]].
      split; [now apply J_exec|]. intros l L S. now apply (exec_keep c []).
    Qed.
    Lemma good_flags st st' n r l : good st st' -> good st (flags st' n r l).
    Proof.
      intros [H G]. split; [now apply J_flags|].
      intros l' L S. destruct (G l' L S) as [E1 E2 E3]. split; [exact E1|exact E2|exact E3].
    Qed.
    Lemma good_alloc st x : J st -> good st (fst (alloc st x)).
    Proof.
      intros H. split; [now apply J_alloc|]. intros l L S.
      split; [cbn; apply set_cell_other; lia|cbn; lia|exact S].
    Qed.

    Lemma interpolate_ok : Forall (instr_ok c []) (interpolate c).
    Proof using. clear. destruct c as [[] [] []]; cbn; repeat constructor; cbn; auto; discriminate. Qed.
    Lemma refs_ok : Forall (instr_ok c []) refs.
    Proof using. clear. cbn; repeat constructor. Qed.
    Lemma lwa_only_ok : Forall (instr_ok c []) (lwa_only c).
    Proof using. clear. cbn; repeat constructor. Qed.
    Lemma fluxes_ok nc : Forall (instr_ok c []) (fluxes nc).
    Proof using. clear. cbn; repeat constructor; cbn; auto; discriminate. Qed.
    Lemma layerwise_ok nc : Forall (instr_ok c []) (layerwise c nc).
    Proof using. clear. destruct c as [? [] ?]; cbn; repeat constructor; cbn; auto. Qed.

    Lemma get_prop_good p st : J st -> good st (fst (get_prop c p st)).
    Proof.
      intros I. unfold Alias.get_prop.
      destruct (env st (prop_slot p)); [|now apply good_refl].
      destruct (needs_layerwise p && negb (layer_done st)); [now apply good_refl|].
      destruct (a_even c).
      - destruct (a_nh c && full_height_field p); [now apply good_refl|].
        cbn [fst alloc]. now apply good_alloc.
      - destruct p; cbn [fst]; try now apply good_refl. now apply (good_alloc st).
    Qed.
    Lemma get_props_good ps : forall st, J st -> good st (fst (get_props c ps st)).
    Proof.
      induction ps as [|p ps IH]; intros st I; cbn; [now apply good_refl|].
      pose proof (get_prop_good p st I) as G.
      destruct (Alias.get_prop K c p st) as [st1 [l|]]; cbn [fst] in *; trivial.
      specialize (IH st1 (proj1 G)).
      destruct (Alias.get_props K c ps st1) as [st2 [ls|]]; cbn [fst] in *; now apply (good_trans st st1).
    Qed.
    Lemma call_good m st : J st -> good st (fst (call c m st)).
    Proof.
      intros I. destruct m; cbn [Alias.call].
      - eapply good_trans; [apply good_execs; [apply interpolate_ok|trivial]|].
        apply get_props_good. apply (good_execs _ st interpolate_ok I).
      - pose proof (get_prop_good P_qgpv st I) as G.
        destruct (Alias.get_prop K c P_qgpv st) as [st0 [l|]]; cbn [fst] in *; trivial.
        pose proof (good_execs refs st0 refs_ok (proj1 G)) as G2.
        pose proof (good_trans _ _ _ G G2) as G3.
        cbv zeta. set (b := nonconv _ || _). clearbody b.
        pose proof (good_flags _ _ b (if b then refs_done (execs st0 refs) else true) (layer_done (execs st0 refs)) G3) as G4.
        eapply good_trans; [exact G4|]. apply get_props_good. apply G4.
      - destruct (has st Qgpv); cbn [fst]; [|now apply good_refl]. now apply good_execs; [apply lwa_only_ok|].
      - pose proof (get_prop_good P_qgpv st I) as G.
        destruct (Alias.get_prop K c P_qgpv st) as [st0 [l|]]; cbn [fst] in *; trivial.
        destruct (nonconv st0 || _ || _); cbn [fst]; trivial.
        eapply good_trans; [exact G|]. apply good_execs; [apply fluxes_ok|apply G].
      - destruct (_ && _ && _); cbn [fst]; [|now apply good_refl].
        apply good_flags. apply good_execs; [apply layerwise_ok|trivial].
    Qed.
    (** a step that does not overwrite [l] keeps it *)
    Hypothesis J_write : forall st l x, J st -> J (with_mem st (set_cell (cell st) l x) (top st) (env st)).
    Lemma step_good st e : J st ->
      match e with SetField f l => l < top st -> J (with_mem st (cell st) (top st) (set_env (env st) (field_slot f) (Some l))) | _ => True end ->
      J (fst (step c st e)) /\
      forall l, l < top st -> safe c l st -> leaves_alone l e -> keep c l st (fst (step c st e)).
    Proof.
      intros I O. destruct e; cbn [Alias.step].
      - destruct (call_good m st I) as [G1 G2]. split; auto.
      - destruct (get_prop_good p st I) as [G1 G2].
        destruct (Alias.get_prop K c p st) as [st1 [l|]]; cbn [one fst] in *; split; auto.
      - unfold get_raw. destruct (env st (raw_slot r)); cbn [one fst]; split; trivial; intros l' L S _; split; trivial.
      - destruct (good_alloc st x I) as (G1 & G3).
        cbn [alloc fst] in *. split; trivial. intros l L S _. now apply G3.
      - destruct (l <? top st) eqn:E; cbn [fst].
        + apply Nat.ltb_lt in E. split; [now apply O|].
          intros l' L S _. split; cbn; trivial. intros s I'.
          cbn. destruct (set_env_cases (env st) (field_slot f) (Some l) s) as [[-> _]|[_ ->]]; [|now apply S].
          destruct f; discriminate.
        + split; trivial. intros l' L S _. split; trivial.
      - destruct (l <? top st) eqn:E; cbn [fst].
        + split; [now apply J_write|].
          intros l' L S N. cbn in N. split; [cbn; apply set_cell_other; congruence|cbn; lia|exact S].
        + split; trivial. intros l' L S _. split; trivial.
    Qed.
  End Steps.

  (** *** The two invariants *)
  Lemma wf_alloc st x : wf st -> wf (fst (alloc st x)).
  Proof. intros W s l E. cbn in *. specialize (W _ _ E). lia. Qed.
  Lemma inv_alloc c own st x : inv c own st ->
    inv c own (fst (alloc st x)) /\ inv c (top st :: own) (fst (alloc st x)).
  Proof.
    intros [W P Q].
    assert (W' := wf_alloc st x W).
    assert (T : safe c (top st) (fst (alloc st x))).
    { intros s _ E. cbn in E. apply W in E. lia. }
    assert (Q' : forall l, In l own -> l < top (fst (alloc st x)) /\ safe c l (fst (alloc st x))).
    { intros l I. destruct (Q l I) as [Q1 Q2]. split; [cbn; lia|exact Q2]. }
    split; split; trivial.
    intros l [<-|I]; [split; [cbn; lia|trivial]|now apply Q'].
  Qed.

  Lemma wf_step c st e : wf st -> wf (fst (step c st e)) /\
    forall l, l < top st -> safe c l st -> leaves_alone l e -> keep c l st (fst (step c st e)).
  Proof.
    intros W. apply (step_good c wf); trivial.
    - intros. now apply (exec_wf c).
    - intros. now apply wf_alloc.
    - destruct e; trivial. intros L s l' E. cbn in E |- *.
      destruct (set_env_cases (env st) (field_slot f) (Some l) s) as [[_ Q]|[_ Q]]; rewrite Q in E.
      + injection E as <-. trivial.
      + now apply W in E.
  Qed.
  Lemma wf_runs c h : forall st, wf st -> wf (runs c st h) /\
    forall l, l < top st -> safe c l st -> Forall (leaves_alone l) h -> keep c l st (runs c st h).
  Proof.
    induction h as [|e h IH]; intros st I.
    - split; [exact I|]. intros l L S _. split; cbn; trivial.
    - destruct (wf_step c st e I) as [G1 G2]. destruct (IH _ G1) as [I' KK].
      split; [exact I'|].
      intros l L S F. inversion F as [|? ? F1 F2]; subst.
      destruct (G2 l L S F1) as [E1 E2 E3].
      destruct (KK l ltac:(lia) E3 F2) as [H1 H2 H3].
      change (runs c st (e :: h)) with (runs c (fst (step c st e)) h).
      split; [congruence|lia|trivial].
  Qed.

  Definition owned (own : list nat) (st : state) (e : event) : list nat :=
    match e with NewArray _ => top st :: own | _ => own end.
  Lemma inv_step c own st e : inv c own st -> match e with SetField _ l => In l own | _ => True end ->
    inv c (owned own st e) (fst (step c st e)).
  Proof.
    intros I O.
    assert (J : inv c own (fst (step c st e))).
    { apply (step_good c (inv c own)); trivial.
      - intros. apply exec_inv; trivial. now apply instr_ok_more.
      - intros. now apply inv_alloc.
      - intros st0 n r' l0 [? ? ?]; split; trivial.
      - intros st0 l0 x0 [? ? ?]; split; trivial.
      - destruct e; trivial. intros L. apply (exec_inv c own st (Bind (field_slot f) (Cell l))); trivial.
        destruct f; cbn; repeat split; auto; discriminate. }
    destruct e; trivial. cbn. now apply (inv_alloc c own st x).
  Qed.
  Lemma inv_runs c h : forall own st, inv c own st -> assigns_own K converges c own st h ->
    exists own', inv c own' (runs c st h).
  Proof.
    induction h as [|e h IH]; intros own st I A.
    - now exists own.
    - cbn in A. destruct A as [A1 A2]. exact (IH _ _ (inv_step c own st e I A1) A2).
  Qed.

  Lemma init_ok c : Forall (instr_ok c [0; 1; 2; 3]) (init c).
  Proof. destruct c as [[] [] []]; cbn [init map app a_even];
    repeat (apply Forall_cons; [cbn; try tauto; repeat split; auto; try discriminate; tauto|]); apply Forall_nil. Qed.
  Definition inputs := [0; 1; 2; 3].
  Lemma execs_inv c own is : forall st, Forall (instr_ok c own) is -> inv c own st ->
    inv c own (execs st is) /\ forall l, l < top st -> safe c l st -> keep c l st (execs st is).
  Proof.
    induction is as [|i is IH]; intros st F H.
    - split; trivial. intros l L S. split; cbn; trivial.
    - inversion F as [|? ? O F']; subst.
      destruct (IH (exec st i) F' (exec_inv _ _ _ _ O H)) as [I1 I2].
      split; [exact I1|]. intros l L S.
      destruct (exec_keep c own l st i O L S) as [E1 E2 E3].
      destruct (I2 l ltac:(lia) E3) as [G1 G2 G3].
      change (execs st (i :: is)) with (execs (exec st i) is). split; [congruence|lia|trivial].
  Qed.
  Lemma create_inv c u v t y : inv c inputs (create K c u v t y) /\
    forall l, l < 4 -> cell (create K c u v t y) l = match l with 0 => u | 1 => v | 2 => t | _ => y end.
  Proof.
    unfold create.
    set (s0 := {| cell := _; top := _; env := _; nonconv := _; refs_done := _; layer_done := _ |}).
    assert (I0 : inv c inputs s0).
    { split.
      - intros s l; discriminate.
      - intros s l _; discriminate.
      - intros l H. split; [cbn in H; cbn; lia|intros s _; discriminate]. }
    destruct (execs_inv c inputs (init c) s0 (init_ok c) I0) as [I1 I2].
    split; trivial. intros l L. rewrite (k_cell _ _ _ _ (I2 l L ltac:(intros s _; discriminate))). reflexivity.
  Qed.
End Proofs.
