(** Two names of one array: only the pairs listed in [partner].  From this: which arrays a call overwrites, and that
    a repeated call changes nothing. *)
From Verif Require Import Alias AliasSpec AliasProofs.

Section Proofs.
  Context {X : Type}.
  Variable K : kernel -> list (option X) -> X.
  Variable converges : list (option X) -> bool.
  Notation state := (@state X). Notation event := (@event X).
  Notation exec := (exec K). Notation execs := (execs K).
  Notation step := (step K converges). Notation runs := (runs K converges).
  Notation get_prop := (get_prop K). Notation get_props := (get_props K). Notation call := (call K converges).

  Definition ali (c : acfg) (st : state) : Prop := forall s w l,
    inplace c s = true -> env st s = Some l -> env st w = Some l -> w = s \/ partner w = Some s.
  Definition both (c : acfg) (own : list nat) (st : state) : Prop := inv c own st /\ ali c st.

  Lemma partner_inplace c s s' : inplace c s = true -> partner s = Some s' -> False.
  Proof. destruct s; discriminate. Qed.

  Lemma exec_ali c own st i : instr_ok c own i -> both c own st -> ali c (exec st i).
  Proof.
    intros O [[W P Q] A] s1 w l I E1 E2. destruct i as [s k rs|s k rs|s a]; cbn in E1, E2.
    - destruct (set_env_cases (env st) s (Some (top st)) s1) as [[-> D1]|[N1 D1]], (set_env_cases (env st) s (Some (top st)) w) as [[-> D2]|[N2 D2]];
        rewrite D1 in E1; rewrite D2 in E2; auto.
      + injection E1 as <-. apply W in E2. lia.
      + injection E2 as <-. apply W in E1. lia.
      + now apply (A s1 w l).
    - destruct (env st s); now apply (A s1 w l).
    - cbn in O. destruct O as (O1 & O2 & O3 & O4).
      destruct (set_env_cases (env st) s (where_ st a) s1) as [[-> D1]|[N1 D1]]; [congruence|rewrite D1 in E1].
      destruct (set_env_cases (env st) s (where_ st a) w) as [[-> D2]|[N2 D2]]; rewrite D2 in E2; [|now apply (A s1 w l)].
      destruct (apart c s) eqn:Ap.
      + specialize (O2 eq_refl). exfalso. destruct a as [s'|l']; cbn in E2.
        * exact (P _ _ O2 E2 _ I E1).
        * injection E2 as <-. exact (proj2 (Q _ O2) _ I E1).
      + specialize (O4 eq_refl). destruct a as [s'|l']; [|tauto]. cbn in E2. right.
        destruct (A s1 s' l I E1 E2) as [->|D]; trivial.
        exfalso. clear -O4 D. destruct s; try discriminate O4; injection O4 as <-; discriminate D.
  Qed.
  Lemma exec_both c own st i : instr_ok c own i -> both c own st -> both c own (exec st i).
  Proof. intros O B. split; [apply exec_inv; trivial; apply B|now apply (exec_ali c own)]. Qed.
  Lemma execs_both c own is : forall st, Forall (instr_ok c own) is -> both c own st -> both c own (execs st is).
  Proof. induction is as [|i is IH]; intros st F B; trivial. inversion F; subst. cbn. apply IH; trivial. now apply exec_both. Qed.
  Lemma both_step c own st e : both c own st -> match e with SetField _ l => In l own | _ => True end ->
    both c (owned own st e) (fst (step c st e)).
  Proof.
    intros B O. split; [now apply inv_step; [apply B|]|].
    assert (J : both c own (fst (step c st e))).
    { apply (step_good K converges c (both c own)); trivial.
      - intros. apply exec_both; trivial. now apply instr_ok_more.
      - intros st0 x0 [I0 A0]. split; [now apply inv_alloc|exact A0].
      - intros st0 n r' l0 [[? ? ?] ?]; split; trivial; split; trivial.
      - intros st0 l0 x0 [[? ? ?] ?]; split; trivial; split; trivial.
      - destruct e; trivial. intros L. apply (exec_both c own st (Bind (field_slot f) (Cell l))); trivial.
        destruct f; cbn; repeat split; auto; discriminate. }
    apply J.
  Qed.
  Lemma both_runs c h : forall own st, both c own st -> assigns_own K converges c own st h ->
    exists own', both c own' (runs c st h).
  Proof.
    induction h as [|e h IH]; intros own st I A.
    - now exists own.
    - cbn in A. destruct A as [A1 A2]. exact (IH _ _ (both_step c own st e I A1) A2).
  Qed.
  Lemma create_both c u v t y : both c inputs (create K c u v t y).
  Proof.
    split; [apply create_inv|]. unfold create.
    set (s0 := {| cell := _; top := _; env := _; nonconv := _; refs_done := _; layer_done := _ |}).
    apply (execs_both c inputs (init c) s0 (init_ok c)). split.
    - split.
      + intros s l; discriminate.
      + intros s l _; discriminate.
      + intros l H. split; [cbn in H; cbn; lia|intros s _; discriminate].
    - intros s w l _; discriminate.
  Qed.
  Lemma fewer c own own' st : (forall l, In l own' -> In l own) -> both c own st -> both c own' st.
  Proof. intros H [[W P Q] A]. split; trivial. split; trivial. auto. Qed.
  Lemma both_wf c own st : both c own st -> wf st. Proof. intros [[W _ _] _]. exact W. Qed.

  (** *** Which cells a list of instructions overwrites *)
  Definition into (s : slot) (i : @instr) : bool := match i with Into s' _ _ => if slot_eq_dec s s' then true else false | _ => false end.
  Lemma execs_leave c is l : forall st, Forall (instr_ok c []) is -> l < top st ->
    (forall s, existsb (into s) is = true -> env st s <> Some l) ->
    cell (execs st is) l = cell st l /\ l < top (execs st is).
  Proof.
    induction is as [|i is IH]; intros st F L H; [split; trivial|].
    inversion F as [|? ? O F']; subst.
    assert (C : cell (exec st i) l = cell st l).
    { destruct i as [s k rs|s k rs|s a]; cbn; trivial; [apply set_cell_other; lia|].
      destruct (env st s) eqn:E; cbn; trivial. apply set_cell_other. intros ->.
      apply (H s); trivial. cbn. destruct (slot_eq_dec s s); [reflexivity|congruence]. }
    assert (T := top_exec K st i).
    destruct (IH (exec st i) F' ltac:(lia)) as [D1 D2].
    - intros s E. specialize (H s). cbn in H. rewrite E, orb_true_r in H. specialize (H eq_refl).
      assert (I : inplace c s = true).
      { clear -F' E. induction F' as [|j js Q F' J]; [discriminate|]. cbn in E. apply orb_prop in E. destruct E as [E|E]; [|now apply J].
        destruct j; try discriminate. cbn in E. destruct (slot_eq_dec s s0); [subst; exact Q|discriminate]. }
      destruct i as [s' k rs|s' k rs|s' a]; cbn.
      + destruct (set_env_cases (env st) s' (Some (top st)) s) as [[_ ->]|[_ ->]]; [|exact H]. intros [= E']. lia.
      + destruct (env st s'); exact H.
      + destruct (set_env_cases (env st) s' (where_ st a) s) as [[-> _]|[_ ->]]; [|exact H].
        cbn in O. destruct O. congruence.
    - change (execs st (i :: is)) with (execs (exec st i) is). split; [congruence|exact D2].
  Qed.

  (** *** What the user can see of a state *)
  Record alike (st st' : state) : Prop := {
    a_peek : forall s, s <> As1 -> s <> As2 -> peek st' (Slot s) = peek st (Slot s);
    a_non : nonconv st' = nonconv st; a_refs : refs_done st' = refs_done st; a_layer : layer_done st' = layer_done st }.
  Record ext (st st' : state) : Prop := {
    e_peek : forall s, peek st' (Slot s) = peek st (Slot s);
    e_cell : forall l, l < top st -> cell st' l = cell st l;
    e_top : top st <= top st';
    e_non : nonconv st' = nonconv st; e_refs : refs_done st' = refs_done st; e_layer : layer_done st' = layer_done st }.
  Lemma ext_refl st : ext st st. Proof. split; trivial. Qed.
  Lemma ext_trans a b d : ext a b -> ext b d -> ext a d.
  Proof.
    intros [A1 A2 A3 A4 A5 A6] [B1 B2 B3 B4 B5 B6]. split; try congruence; try lia.
    intros l L. rewrite B2 by lia. now apply A2.
  Qed.
  Lemma ext_alike a b : ext a b -> alike a b.
  Proof. intros H. split; [intros; now apply e_peek|now apply e_non|now apply e_refs|now apply e_layer]. Qed.

  Lemma peek_env (a b : state) s : peek b (Slot s) = peek a (Slot s) -> (env a s = None <-> env b s = None).
  Proof. unfold peek; cbn. destruct (env a s), (env b s); split; congruence. Qed.
  Lemma has_peek (a b : state) s : peek b (Slot s) = peek a (Slot s) -> has b s = has a s.
  Proof. unfold peek, has; cbn. destruct (env a s), (env b s); congruence. Qed.

  Definition shows (r : state * option nat) : option X := option_map (cell (fst r)) (snd r).
  Lemma alloc_ext st x : wf st -> ext st (fst (alloc st x)).
  Proof.
    intros W. split; cbn; trivial; try lia.
    - intros s. unfold peek; cbn. destruct (env st s) eqn:E; trivial. apply W in E. rewrite set_cell_other by lia. reflexivity.
    - intros l L. apply set_cell_other. lia.
  Qed.
  Lemma get_prop_ext c p st : wf st -> ext st (fst (get_prop c p st)).
  Proof.
    intros W. unfold Alias.get_prop.
    destruct (env st (prop_slot p)); [|apply ext_refl].
    destruct (needs_layerwise p && negb (layer_done st)); [apply ext_refl|].
    destruct (a_even c).
    - destruct (a_nh c && full_height_field p); [apply ext_refl|]. now apply alloc_ext.
    - destruct p; try apply ext_refl. now apply (alloc_ext st).
  Qed.
  Lemma get_prop_wf c p st : wf st -> wf (fst (get_prop c p st)).
  Proof. intros W. apply (get_prop_good K c wf); trivial. intros; now apply wf_alloc. Qed.
  Lemma get_prop_shows c p st st' : alike st st' -> shows (get_prop c p st') = shows (get_prop c p st).
  Proof.
    intros [P _ _ L]. unfold Alias.get_prop. assert (Ps : peek st' (Slot (prop_slot p)) = peek st (Slot (prop_slot p))) by (apply P; destruct p; discriminate).
    assert (Q : peek st' (Slot Qref) = peek st (Slot Qref)) by (apply P; discriminate).
    assert (A1 : peek st' (Slot LatA) = peek st (Slot LatA)) by (apply P; discriminate). assert (A2 : peek st' (Slot Lat) = peek st (Slot Lat)) by (apply P; discriminate).
    cbn [map]. rewrite Ps, Q, A1, A2, L.
    unfold peek in Ps; cbn in Ps. destruct (env st (prop_slot p)) as [l|], (env st' (prop_slot p)) as [l'|]; try discriminate; trivial.
    destruct (needs_layerwise p && negb (layer_done st)); trivial. destruct (a_even c).
    - destruct (a_nh c && full_height_field p); trivial. unfold shows; cbn. now rewrite !set_cell_same.
    - destruct p; try exact Ps. unfold shows; cbn. now rewrite !set_cell_same.
  Qed.
  Definition shows_all (r : state * option (list nat)) : option (list X) := option_map (map (cell (fst r))) (snd r).
  Lemma get_props_ext c ps : forall st, wf st -> ext st (fst (get_props c ps st)) /\ wf (fst (get_props c ps st)).
  Proof.
    induction ps as [|p ps IH]; intros st W; cbn; [split; [apply ext_refl|exact W]|].
    pose proof (get_prop_ext c p st W) as E. pose proof (get_prop_wf c p st W) as W1.
    destruct (Alias.get_prop K c p st) as [st1 [l|]]; cbn [fst] in *; [|split; trivial].
    destruct (IH st1 W1) as [E2 W2]. destruct (Alias.get_props K c ps st1) as [st2 [ls|]]; cbn [fst] in *; (split; [now apply (ext_trans st st1)|exact W2]).
  Qed.
  Lemma get_prop_below c p st l : wf st -> snd (get_prop c p st) = Some l -> l < top (fst (get_prop c p st)).
  Proof.
    intros W. unfold Alias.get_prop. destruct (env st (prop_slot p)) eqn:E; [|discriminate].
    destruct (needs_layerwise p && negb (layer_done st)); [discriminate|]. destruct (a_even c).
    - destruct (a_nh c && full_height_field p); [discriminate|]. intros [= <-]. cbn. lia.
    - destruct p; intros [= <-]; cbn; try (now apply (W _ _ E)); lia.
  Qed.
  Lemma get_props_shows c ps : forall st st', wf st -> wf st' -> alike st st' -> shows_all (get_props c ps st') = shows_all (get_props c ps st).
  Proof.
    induction ps as [|p ps IH]; intros st st' W W' A; cbn; trivial.
    pose proof (get_prop_shows c p st st' A) as G.
    pose proof (get_prop_ext c p st W) as E. pose proof (get_prop_wf c p st W) as W1.
    pose proof (get_prop_ext c p st' W') as E'. pose proof (get_prop_wf c p st' W') as W1'.
    pose proof (fun l => get_prop_below c p st l W) as B. pose proof (fun l => get_prop_below c p st' l W') as B'.
    destruct (Alias.get_prop K c p st) as [st1 [l|]], (Alias.get_prop K c p st') as [st1' [l'|]]; cbn [fst snd] in *; try discriminate G; trivial.
    assert (A1 : alike st1 st1').
    { destruct A as [P1 P2 P3 P4], (ext_alike _ _ E) as [Q1 Q2 Q3 Q4], (ext_alike _ _ E') as [R1 R2 R3 R4].
      split; try congruence. intros s N1 N2. rewrite R1, P1, Q1; trivial. }
    specialize (IH st1 st1' W1 W1' A1).
    destruct (get_props_ext c ps st1 W1) as [X1 _], (get_props_ext c ps st1' W1') as [X2 _].
    destruct (Alias.get_props K c ps st1) as [st2 [ls|]], (Alias.get_props K c ps st1') as [st2' [ls'|]]; unfold shows_all in *; cbn in *; try discriminate IH; trivial.
    injection IH as IH. unfold shows in G; cbn in G. injection G as G. rewrite IH.
    rewrite (e_cell _ _ X1 l (B l eq_refl)), (e_cell _ _ X2 l' (B' l' eq_refl)), G. reflexivity.
  Qed.

  (** *** An instruction whose result is already there changes nothing *)
  Definition target (i : @instr) : slot := match i with Fresh s _ _ | Into s _ _ | Bind s _ => s end.
  Definition sources (i : @instr) : list src := match i with Fresh _ _ rs | Into _ _ rs => rs | Bind _ a => [a] end.
  Definition settled (st : state) (i : @instr) : Prop :=
    match i with
    | Fresh s k rs => peek st (Slot s) = Some (K k (map (peek st) rs))
    | Into s k rs => env st s = None \/ peek st (Slot s) = Some (K k (map (peek st) rs))
    | Bind s a => peek st (Slot s) = peek st a
    end.
  Definition known_src (st : state) (a : src) : Prop := match a with Slot _ => True | Cell l => l < top st end.

  (** the same without the flags *)
  Definition mext (st st' : state) : Prop :=
    (forall s, peek st' (Slot s) = peek st (Slot s)) /\ (forall l, l < top st -> cell st' l = cell st l) /\ top st <= top st'.
  Lemma ext_mext st st' : ext st st' -> mext st st'. Proof. intros [A B C _ _ _]. repeat split; trivial. Qed.
  Lemma mext_trans a b d : mext a b -> mext b d -> mext a d.
  Proof. intros (A1 & A2 & A3) (B1 & B2 & B3). split; [|split]; [intros; rewrite B1; apply A1|intros l L; rewrite B2 by lia; now apply A2|lia]. Qed.
  Lemma peek_ext st st' a : mext st st' -> known_src st a -> peek st' a = peek st a.
  Proof. intros (E1 & E2 & _) H. destruct a as [s|l]; [apply E1|]. unfold peek; cbn. f_equal. now apply E2. Qed.
  Lemma peeks_ext st st' rs : mext st st' -> Forall (known_src st) rs -> map (peek st') rs = map (peek st) rs.
  Proof. intros E F. induction F; cbn; trivial. f_equal; trivial. now apply peek_ext. Qed.
  Lemma known_more st st' rs : top st <= top st' -> Forall (known_src st) rs -> Forall (known_src st') rs.
  Proof. intros E F. eapply Forall_impl; [|exact F]. intros [s|l]; cbn; trivial. lia. Qed.
  Lemma settled_ext st st' i : mext st st' -> Forall (known_src st) (sources i) -> settled st i -> settled st' i.
  Proof.
    intros E F. destruct i as [s k rs|s k rs|s a]; cbn in *.
    - rewrite (proj1 E), (peeks_ext st st' rs E F). trivial.
    - rewrite (proj1 E), (peeks_ext st st' rs E F), (peek_env st st' s (proj1 E s)). trivial.
    - inversion F; subst. rewrite (proj1 E), (peek_ext st st' a E); trivial.
  Qed.
  Lemma exec_settled st i : wf st -> settled st i -> ext st (exec st i).
  Proof.
    intros W. destruct i as [s k rs|s k rs|s a]; cbn.
    - intros H. split; cbn; trivial; try lia.
      + intros w. unfold peek; cbn. destruct (set_env_cases (env st) s (Some (top st)) w) as [[-> ->]|[_ ->]].
        * rewrite set_cell_same. now symmetry.
        * destruct (env st w) eqn:E; trivial. apply W in E. rewrite set_cell_other by lia. reflexivity.
      + intros l L. apply set_cell_other. lia.
    - intros [H|H]; [rewrite H; apply ext_refl|].
      set (y := K k (map (peek st) rs)) in *. clearbody y.
      unfold peek in H; cbn in H. destruct (env st s) as [l|] eqn:E; [|apply ext_refl]. injection H as H.
      assert (C : forall m, set_cell (cell st) l y m = cell st m).
      { intros m. unfold set_cell. destruct (m =? l) eqn:M; trivial. apply Nat.eqb_eq in M. congruence. }
      split; cbn; trivial. intros w. unfold peek; cbn. destruct (env st w); trivial. now rewrite C.
    - intros H. split; cbn; trivial. intros w. unfold peek at 1; cbn.
      destruct (set_env_cases (env st) s (where_ st a) w) as [[-> ->]|[_ ->]]; trivial. now rewrite H.
  Qed.
  Lemma execs_settled c is : forall st, wf st -> Forall (instr_ok c []) is -> Forall (fun i => Forall (known_src st) (sources i)) is ->
    Forall (settled st) is -> ext st (execs st is) /\ wf (execs st is).
  Proof.
    induction is as [|i is IH]; intros st W O F S; [split; [apply ext_refl|exact W]|].
    inversion O as [|? ? O1 O2]; subst. inversion F as [|? ? F1 F2]; subst. inversion S as [|? ? S1 S2]; subst.
    pose proof (exec_settled st i W S1) as E.
    destruct (IH (exec st i)) as [E2 W2]; trivial.
    - now apply (exec_wf K c).
    - eapply Forall_impl; [|exact F2]. intros j. apply known_more. apply (e_top _ _ E).
    - rewrite Forall_forall in *. intros j I. apply (settled_ext st); auto. now apply ext_mext.
    - split; [|exact W2]. now apply (ext_trans st (exec st i)).
  Qed.

  (** *** After a run every result is there *)
  Definition touched (j : @instr) (w : slot) : bool :=
    (if slot_eq_dec w (target j) then true else false) ||
    match j, partner w with Into s _ _, Some s' => if slot_eq_dec s' s then true else false | _, _ => false end.
  Definition clear_of (j : @instr) (a : src) : bool := match a with Slot w => negb (touched j w) | Cell _ => true end.
  Fixpoint orderly (is : list (@instr)) : bool :=
    match is with
    | [] => true
    | i :: t => forallb (clear_of i) (sources i) &&
                forallb (fun j => forallb (clear_of j) (Slot (target i) :: sources i)) t && orderly t
    end.
  Definition given (c : acfg) (st : state) (a : src) : Prop := match a with Slot _ => True | Cell l => l < top st /\ safe c l st end.

  Lemma untouched c own st j a : instr_ok c own j -> both c own st -> given c st a -> clear_of j a = true -> peek (exec st j) a = peek st a.
  Proof.
    intros O [[W P Q] A] G C. destruct a as [w|l].
    - cbn in C. apply negb_true_iff, orb_false_iff in C. destruct C as [C1 C2].
      destruct (slot_eq_dec w (target j)) as [|N]; [discriminate|].
      destruct j as [s k rs|s k rs|s a]; cbn in N; unfold peek; cbn.
      + destruct (set_env_cases (env st) s (Some (top st)) w) as [[-> _]|[_ ->]]; [congruence|].
        destruct (env st w) eqn:E; trivial. apply W in E. rewrite set_cell_other by lia. reflexivity.
      + destruct (env st s) as [l|] eqn:E; trivial. cbn. destruct (env st w) as [l'|] eqn:E'; trivial.
        rewrite set_cell_other; trivial. intros ->.
        destruct (A s w l O E E') as [D|D]; [congruence|]. rewrite D in C2. destruct (slot_eq_dec s s); congruence.
      + destruct (set_env_cases (env st) s (where_ st a) w) as [[-> _]|[_ ->]]; congruence.
    - destruct G as [G1 G2]. unfold peek; cbn. f_equal. now apply (exec_keep K c own l st j O G1 G2).
  Qed.
  Lemma given_exec c own st j a : instr_ok c own j -> given c st a -> given c (exec st j) a.
  Proof.
    intros O G. destruct a as [w|l]; trivial. destruct G as [G1 G2].
    destruct (exec_keep K c own l st j O G1 G2) as [_ T S]. split; [lia|exact S].
  Qed.
  Lemma untouched_all c own st j rs : instr_ok c own j -> both c own st -> Forall (given c st) rs -> forallb (clear_of j) rs = true ->
    map (peek (exec st j)) rs = map (peek st) rs.
  Proof.
    intros O B G C. induction G as [|a rs Ga G IH]; trivial. cbn in *. apply andb_prop in C. destruct C as [C1 C2].
    rewrite (untouched c own st j a), IH; trivial.
  Qed.
  Lemma untouched_run c own is rs : forall st, Forall (instr_ok c own) is -> both c own st -> Forall (given c st) rs ->
    forallb (fun j => forallb (clear_of j) rs) is = true -> map (peek (execs st is)) rs = map (peek st) rs.
  Proof.
    induction is as [|j is IH]; intros st O B G C; trivial. inversion O; subst. cbn in C. apply andb_prop in C. destruct C as [C1 C2].
    change (execs st (j :: is)) with (execs (exec st j) is). rewrite IH; trivial.
    - now apply (untouched_all c own).
    - now apply exec_both.
    - eapply Forall_impl; [|exact G]. intros a. now apply (given_exec c own).
  Qed.
  Lemma settled_at_once c own st i : instr_ok c own i -> both c own st -> Forall (given c st) (sources i) ->
    forallb (clear_of i) (sources i) = true -> settled (exec st i) i.
  Proof.
    intros O B G C. assert (M := untouched_all c own st i (sources i) O B G C).
    destruct i as [s k rs|s k rs|s a]; cbn [settled sources] in *.
    - rewrite M. unfold peek; cbn. destruct (set_env_cases (env st) s (Some (top st)) s) as [[_ ->]|[N _]]; [|congruence].
      now rewrite set_cell_same.
    - rewrite M. unfold peek; cbn. destruct (env st s) as [l|] eqn:E; [right|now left]. cbn. rewrite E. now rewrite set_cell_same.
    - cbn [map] in M. assert (M' : peek (exec st (Bind s a)) a = peek st a) by congruence. rewrite M'. unfold peek at 1; cbn.
      destruct (set_env_cases (env st) s (where_ st a) s) as [[_ ->]|[N _]]; [|congruence]. reflexivity.
  Qed.
  Lemma into_env st is s : env st s = None -> Forall (fun j => target j <> s) is -> env (execs st is) s = None.
  Proof.
    revert st. induction is as [|j is IH]; intros st E F; trivial. inversion F as [|? ? N F']; subst. cbn. apply IH; trivial.
    destruct j as [w k rs|w k rs|w a]; cbn in *; unfold set_env; try (destruct (slot_eq_dec s w); congruence).
    now destruct (env st w).
  Qed.
  Lemma settled_stays c own is i : forall st, Forall (instr_ok c own) is -> both c own st -> Forall (given c st) (sources i) ->
    forallb (fun j => forallb (clear_of j) (Slot (target i) :: sources i)) is = true -> settled st i -> settled (execs st is) i.
  Proof.
    intros st O B G C S.
    assert (M := untouched_run c own is (Slot (target i) :: sources i) st O B (Forall_cons (P := given c st) (Slot (target i)) I G) C).
    cbn [map] in M. injection M as M1 M2. unfold settled in *. destruct i as [s k rs|s k rs|s a]; cbn [target sources] in *.
    - now rewrite M1, M2.
    - rewrite M1, M2. destruct S as [S|S]; [left|now right]. now apply (peek_env st (execs st is) s M1).
    - injection M2 as M2. now rewrite M1, M2.
  Qed.
  Lemma all_settled c own is : forall st, Forall (instr_ok c own) is -> both c own st -> Forall (fun i => Forall (given c st) (sources i)) is ->
    orderly is = true -> Forall (settled (execs st is)) is.
  Proof.
    induction is as [|i is IH]; intros st O B G C; constructor; inversion O as [|? ? O1 O2]; subst; inversion G as [|? ? G1 G2]; subst; cbn in C;
      apply andb_prop in C; destruct C as [C C3]; apply andb_prop in C; destruct C as [C1 C2].
    - change (execs st (i :: is)) with (execs (exec st i) is). apply (settled_stays c own); trivial.
      + now apply exec_both.
      + eapply Forall_impl; [|exact G1]. intros a. now apply (given_exec c own).
      + now apply (settled_at_once c own).
    - change (execs st (i :: is)) with (execs (exec st i) is). apply IH; trivial; [now apply exec_both|].
      eapply Forall_impl; [|exact G2]. intros j F. eapply Forall_impl; [|exact F]. intros a. now apply (given_exec c own).
  Qed.

  (** *** A call made twice *)
  Definition passes (c : acfg) (st : state) (m : method) : Prop :=
    match m with Fluxes (Some l) | Layerwise (Some l) => l < top st /\ safe c l st | _ => True end.

  Lemma rerun c is st0 st1 : both c [] st0 -> Forall (instr_ok c []) is -> Forall (fun i => Forall (given c st0) (sources i)) is -> orderly is = true ->
    mext (execs st0 is) st1 -> wf st1 -> ext st1 (execs st1 is) /\ wf (execs st1 is).
  Proof.
    intros B O G C E W. pose proof (all_settled c [] is st0 O B G C) as S.
    assert (T : top st0 <= top (execs st0 is)).
    { clear. revert st0. induction is as [|i is IH]; intros st0; trivial. change (execs st0 (i :: is)) with (execs (exec st0 i) is).
      pose proof (top_exec K st0 i). specialize (IH (exec st0 i)). lia. }
    apply (execs_settled c); trivial.
    - rewrite Forall_forall in *. intros i I. rewrite Forall_forall. intros [s|l] J; cbn; trivial.
      specialize (G i I). rewrite Forall_forall in G. destruct (G (Cell l) J) as [G1 _]. destruct E as (_ & _ & E). lia.
    - rewrite Forall_forall in *. intros i I. apply (settled_ext (execs st0 is)); auto.
      rewrite Forall_forall. intros [s|l] J; cbn; trivial.
      specialize (G i I). rewrite Forall_forall in G. destruct (G (Cell l) J) as [G1 _]. lia.
  Qed.
  Lemma nc_given c st nc : (match nc with Some l => l < top st /\ safe c l st | None => True end) -> Forall (given c st) (nc_src nc).
  Proof. destruct nc; cbn; repeat constructor; tauto. Qed.

  Lemma both_alloc c own st x : both c own st -> both c own (fst (alloc st x)).
  Proof. intros [I A]. split; [now apply inv_alloc|exact A]. Qed.
  Lemma get_prop_both c own p st : both c own st -> both c own (fst (get_prop c p st)).
  Proof. intros B. apply (get_prop_good K c (both c own)); trivial. intros; now apply both_alloc. Qed.
  Lemma safe_get_prop c p st l : wf st -> l < top st -> safe c l st -> l < top (fst (get_prop c p st)) /\ safe c l (fst (get_prop c p st)).
  Proof.
    intros W L S. destruct (get_prop_good K c wf ltac:(intros; now apply wf_alloc) p st W) as [_ G].
    destruct (G l L S) as [_ G2 G3]. split; [lia|exact G3].
  Qed.
  (** whether the property qgpv can be read *)
  Definition readable (c : acfg) (st : state) : bool := has st Qgpv && negb (a_even c && a_nh c).
  Lemma get_qgpv c st : both c [] st -> exists st0, ext st st0 /\ both c [] st0 /\
    if readable c st then exists l, get_prop c P_qgpv st = (st0, Some l) else get_prop c P_qgpv st = (st0, None).
  Proof.
    intros B. exists (fst (get_prop c P_qgpv st)). split; [apply get_prop_ext; apply (both_wf c [] _ B)|]. split; [now apply get_prop_both|].
    unfold readable, has, Alias.get_prop; cbn [prop_slot needs_layerwise andb full_height_field]. rewrite andb_true_r.
    destruct (env st Qgpv); cbn [andb fst]; trivial. destruct (a_even c); [destruct (a_nh c)|]; cbn; trivial; now eexists.
  Qed.
  Lemma readable_peek c st st' : peek st' (Slot Qgpv) = peek st (Slot Qgpv) -> readable c st' = readable c st.
  Proof. intros H. unfold readable. now rewrite (has_peek st st' Qgpv H). Qed.
  Lemma collect_shows (st st' : state) ss : (forall s, In s ss -> peek st' (Slot s) = peek st (Slot s)) ->
    option_map (map (cell st')) (collect (map (env st') ss)) = option_map (map (cell st)) (collect (map (env st) ss)).
  Proof.
    induction ss as [|s ss IH]; intros H; trivial. cbn [map collect].
    pose proof (H s (or_introl eq_refl)) as E. unfold peek in E; cbn in E.
    specialize (IH (fun w I => H w (or_intror I))).
    destruct (env st s), (env st' s); try discriminate E; trivial. injection E as E.
    destruct (collect (map (env st) ss)), (collect (map (env st') ss)); cbn in *; try discriminate IH; trivial.
    injection IH as IH. now rewrite E, IH.
  Qed.

  Lemma fluxes_given c st nc : (match nc with Some l => l < top st /\ safe c l st | None => True end) -> Forall (fun i => Forall (given c st) (sources i)) (fluxes nc).
  Proof. intros H. destruct nc as [l|]; repeat (constructor; [repeat (constructor; [first [exact Logic.I|exact H]|]); constructor|]); constructor. Qed.
  Lemma layerwise_given c st nc : (match nc with Some l => l < top st /\ safe c l st | None => True end) -> Forall (fun i => Forall (given c st) (sources i)) (layerwise c nc).
  Proof. intros H. destruct nc as [l|], c as [ev [] el]; repeat (constructor; [repeat (constructor; [first [exact Logic.I|exact H]|]); constructor|]); constructor. Qed.
  Lemma interpolate_given c st : Forall (fun i => Forall (given c st) (sources i)) (interpolate c).
  Proof. destruct c as [ev nh []]; repeat (constructor; [repeat (constructor; [exact Logic.I|]); constructor|]); constructor. Qed.
  Lemma refs_given c st : Forall (fun i => Forall (given c st) (sources i)) refs.
  Proof. repeat (constructor; [repeat (constructor; [exact Logic.I|]); constructor|]); constructor. Qed.
  Lemma lwa_only_given c st : Forall (fun i => Forall (given c st) (sources i)) (lwa_only c).
  Proof. destruct c as [ev [] el]; repeat (constructor; [repeat (constructor; [exact Logic.I|]); constructor|]); constructor. Qed.

  Lemma execs_flags is : forall st, nonconv (execs st is) = nonconv st /\ refs_done (execs st is) = refs_done st /\ layer_done (execs st is) = layer_done st.
  Proof.
    induction is as [|i is IH]; intros st; [auto|]. change (execs st (i :: is)) with (execs (exec st i) is). destruct (IH (exec st i)) as (-> & -> & ->).
    destruct i; cbn; auto. destruct (env st s); auto.
  Qed.

  Lemma fluxes_orderly nc : orderly (fluxes nc) = true. Proof. destruct nc; vm_compute; reflexivity. Qed.
  Lemma layerwise_orderly c nc : orderly (layerwise c nc) = true. Proof. destruct nc, c as [? [] ?]; vm_compute; reflexivity. Qed.
  Lemma fluxes_qgpv nc : forallb (fun j => forallb (clear_of j) [Slot Qgpv]) (fluxes nc) = true. Proof. destruct nc; vm_compute; reflexivity. Qed.
  Lemma layerwise_qgpv c nc : forallb (fun j => forallb (clear_of j) [Slot Qgpv]) (layerwise c nc) = true. Proof. destruct nc, c as [? [] ?]; vm_compute; reflexivity. Qed.
  Lemma lwa_again c st : a_nh c = false -> both c [] st -> let s1 := execs st (lwa_only c) in alike s1 (execs s1 (lwa_only c)).
  Proof.
    destruct c as [ev nh el]. intros N B s1. cbn in N. subst nh. set (c := {| a_even := ev; a_nh := false; a_evenly := el |}) in *.
    set (rs := [Slot Qgpv; Slot IntU; Slot Qref; Slot LatA]). set (k := Kern TLwaOnly).
    set (i3 := [Into BLwa (k BLwa) rs; Into BU (k BU) rs; Into Lwa (k Lwa) rs]).
    set (i2 := [Into As1 (k As1) (rs ++ [Slot As1]); Into As2 (k As2) (rs ++ [Slot As2])]).
    assert (O3 : Forall (instr_ok c []) i3) by (repeat constructor). assert (O2 : Forall (instr_ok c []) i2) by (repeat constructor).
    assert (Ap : forall s, execs s (lwa_only c) = execs (execs s i3) i2) by (intros s; exact (fold_left_app exec i3 i2 s)).
    assert (E1 : s1 = execs (execs st i3) i2) by apply Ap.
    rewrite Ap. clearbody s1.
    assert (B3 : both c [] (execs st i3)) by now apply execs_both.
    assert (B1 : both c [] s1) by (rewrite E1; now apply execs_both).
    assert (G3 : forall st', Forall (fun i => Forall (given c st') (sources i)) i3) by (intros; repeat constructor).
    assert (S3 : Forall (settled (execs st i3)) i3) by (apply (all_settled c []); trivial; reflexivity).
    assert (S1 : Forall (settled s1) i3).
    { rewrite Forall_forall in S3 |- *. intros i I. rewrite E1. apply (settled_stays c []); trivial; auto.
      - destruct I as [<-|[<-|[<-|[]]]]; repeat constructor.
      - destruct I as [<-|[<-|[<-|[]]]]; reflexivity. }
    destruct (execs_settled c i3 s1) as [X1 X2]; trivial.
    - apply (both_wf c [] _ B1).
    - repeat constructor.
    - assert (B4 : both c [] (execs s1 i3)) by now apply execs_both.
      assert (M : forall s, s <> As1 -> s <> As2 -> peek (execs (execs s1 i3) i2) (Slot s) = peek (execs s1 i3) (Slot s)).
      { intros s H1 H2. pose proof (untouched_run c [] i2 [Slot s] (execs s1 i3) O2 B4 ltac:(repeat constructor)) as M.
        cbn [map] in M. enough (H : forallb (fun j => forallb (clear_of j) [Slot s]) i2 = true) by (specialize (M H); congruence).
        cbn. unfold touched; cbn. destruct (slot_eq_dec s As1), (slot_eq_dec s As2); try contradiction. clear. destruct s; reflexivity. }
      split.
      + intros s H1 H2. rewrite M by trivial. apply (e_peek _ _ X1).
      + rewrite <- (e_non _ _ X1). apply execs_flags.
      + rewrite <- (e_refs _ _ X1). apply execs_flags.
      + rewrite <- (e_layer _ _ X1). apply execs_flags.
  Qed.

  Lemma again_interpolate c st : both c [] st -> let s1 := fst (call c Interpolate st) in
    ext s1 (fst (call c Interpolate s1)) /\ shows_all (call c Interpolate s1) = shows_all (call c Interpolate st).
  Proof.
    intros B s1. cbn [Alias.call] in s1 |- *. set (ps := [P_qgpv; _; _; _]) in *.
    assert (O := interpolate_ok c). assert (W0 : wf (execs st (interpolate c))) by (apply (both_wf c []); now apply execs_both).
    destruct (get_props_ext c ps _ W0) as [E1 W1]. fold s1 in E1, W1.
    destruct (rerun c (interpolate c) st s1 B O (interpolate_given c st) ltac:(destruct c as [[] [] []]; reflexivity) (ext_mext _ _ E1) W1) as [E2 W2].
    destruct (get_props_ext c ps _ W2) as [E3 _]. split; [now apply (ext_trans s1 (execs s1 (interpolate c)))|].
    apply get_props_shows; trivial. apply ext_alike. now apply (ext_trans _ s1).
  Qed.

  Lemma one_peek c is s st : Forall (instr_ok c []) is -> both c [] st -> forallb (fun j => forallb (clear_of j) [Slot s]) is = true ->
    peek (execs st is) (Slot s) = peek st (Slot s).
  Proof. intros O B C. pose proof (untouched_run c [] is [Slot s] st O B ltac:(repeat constructor) C) as M. cbn in M. congruence. Qed.
  Lemma again_refs c st : both c [] st -> let s1 := fst (call c Refs st) in
    ext s1 (fst (call c Refs s1)) /\ shows_all (call c Refs s1) = shows_all (call c Refs st).
  Proof.
    intros B s1. assert (D : s1 = fst (call c Refs st)) by reflexivity. clearbody s1. cbn [Alias.call] in D |- *. set (ps := [P_qref; P_uref; P_ptref]) in *. set (cs := [Slot Qgpv; Slot IntU; Slot IntT]) in *.
    destruct (get_qgpv c st B) as (st0 & E0 & B0 & G0). destruct (readable c st) eqn:R.
    2:{ rewrite G0 in D |- *. cbn [fst] in D. subst s1. destruct (get_qgpv c st0 B0) as (st2 & E2 & B2 & G2).
        rewrite (readable_peek c st st0 (e_peek _ _ E0 _)), R in G2. rewrite G2. split; [exact E2|reflexivity]. }
    destruct G0 as [l0 G0]. rewrite G0 in D |- *. cbn [fst] in D.
    set (b := negb (converges (map (peek st0) cs))) in *. set (stf := execs st0 refs) in *. set (non := nonconv stf || b) in *.
    set (sf := flags stf non (if non then refs_done stf else true) (layer_done stf)) in *.
    assert (Bf : both c [] stf) by (apply execs_both; trivial; apply refs_ok).
    assert (Bs : both c [] sf) by (destruct Bf as [[? ? ?] ?]; split; trivial; split; trivial).
    destruct (get_props_ext c ps sf (both_wf c [] _ Bs)) as [E1 W1]. rewrite <- D in E1, W1.
    assert (B1 : both c [] s1).
    { rewrite D. apply (get_props_good K c (both c [])); trivial. intros; now apply both_alloc. }
    assert (Q1 : forall s, In s [Qgpv; IntU; IntT] -> peek s1 (Slot s) = peek st0 (Slot s)).
    { intros s I. rewrite (e_peek _ _ E1). change (peek sf (Slot s)) with (peek stf (Slot s)). unfold stf. apply (one_peek c); trivial; [apply refs_ok|].
      destruct I as [<-|[<-|[<-|[]]]]; reflexivity. }
    destruct (get_qgpv c s1 B1) as (s1a & E1a & B1a & G1).
    rewrite (readable_peek c st s1) in G1 by (rewrite (Q1 Qgpv) by (cbn; tauto); apply (e_peek _ _ E0)). rewrite R in G1. destruct G1 as [l1 G1]. rewrite G1.
    assert (Eb : negb (converges (map (peek s1a) cs)) = b).
    { unfold b. do 2 f_equal. unfold cs; cbn [map]. rewrite !(e_peek _ _ E1a), !Q1 by (cbn; tauto). reflexivity. }
    rewrite Eb. set (s2f := execs s1a refs).
    destruct (rerun c refs st0 s1a B0 (refs_ok c) (refs_given c st0) eq_refl) as [E2 W2].
    { apply (mext_trans _ sf); [repeat split; trivial|]. apply ext_mext. now apply (ext_trans _ s1). }
    { apply (both_wf c [] _ B1a). }
    fold s2f in E2, W2.
    assert (E12 : ext s1 s2f) by now apply (ext_trans _ s1a).
    assert (Hn : nonconv s2f || b = non).
    { rewrite (e_non _ _ E12), (e_non _ _ E1). cbn. unfold non. now destruct (nonconv stf), b. }
    rewrite Hn. set (s2g := flags s2f non _ _).
    assert (Hr : (if non then refs_done s2f else true) = refs_done s1).
    { rewrite (e_refs _ _ E12), (e_refs _ _ E1). cbn. now destruct non. }
    assert (E3 : ext s1 s2g).
    { destruct E12 as [X1 X2 X3 X4 X5 X6]. split; trivial. symmetry. apply (e_non _ _ E1). }
    assert (W3 : wf s2g) by exact W2.
    destruct (get_props_ext c ps s2g W3) as [E4 _]. split; [now apply (ext_trans s1 s2g)|].
    apply get_props_shows; trivial; [apply (both_wf c [] _ Bs)|]. apply ext_alike. now apply (ext_trans _ s1).
  Qed.

  Definition flux_call (c : acfg) (is : list (@instr)) (os : list slot) (nc : option nat) (st : state) : state * option (list nat) :=
    match get_prop c P_qgpv st with
    | (st0, None) => (st0, None)
    | (st0, Some _) =>
        if nonconv st0 || negb (refs_done st0) || negb (known st0 nc) then (st0, None)
        else let st1 := execs st0 is in (st1, collect (map (env st1) os))
    end.
  Lemma again_flux_call c is os st nc s1 : both c [] st -> (match nc with Some l => l < top st /\ safe c l st | None => True end) ->
    Forall (instr_ok c []) is -> orderly is = true -> forallb (fun j => forallb (clear_of j) [Slot Qgpv]) is = true ->
    (forall s, (match nc with Some l => l < top s /\ safe c l s | None => True end) -> Forall (fun i => Forall (given c s) (sources i)) is) ->
    s1 = fst (flux_call c is os nc st) ->
    ext s1 (fst (flux_call c is os nc s1)) /\ shows_all (flux_call c is os nc s1) = shows_all (flux_call c is os nc st).
  Proof.
    intros B Ps Ok Ord Qc Gv D. unfold flux_call in D |- *.
    destruct (get_qgpv c st B) as (st0 & E0 & B0 & G0). destruct (readable c st) eqn:R.
    2:{ rewrite G0 in D |- *. cbn [fst] in D. subst s1. destruct (get_qgpv c st0 B0) as (st2 & E2 & B2 & G2).
        rewrite (readable_peek c st st0 (e_peek _ _ E0 _)), R in G2. rewrite G2. split; [exact E2|reflexivity]. }
    assert (Ps0 : match nc with Some l => l < top st0 /\ safe c l st0 | None => True end).
    { destruct nc as [l|]; trivial. destruct Ps as [P1 P2]. destruct G0 as [l0 G0].
      pose proof (safe_get_prop c P_qgpv st l (both_wf c [] _ B) P1 P2) as H. rewrite G0 in H. exact H. }
    assert (Kn : forall s : state, top st0 <= top s -> known s nc = true).
    { intros s T. destruct nc as [l|]; trivial. cbn. apply Nat.ltb_lt. lia. }
    destruct G0 as [l0 G0]. rewrite G0 in D |- *. rewrite (Kn st0) in D |- * by lia.
    destruct (nonconv st0 || negb (refs_done st0) || negb true) eqn:Cd.
    { cbn [fst] in D. subst s1. destruct (get_qgpv c st0 B0) as (st2 & E2 & B2 & G2).
      rewrite (readable_peek c st st0 (e_peek _ _ E0 _)), R in G2. destruct G2 as [l2 G2]. rewrite G2.
      rewrite (Kn st2) by apply (e_top _ _ E2). rewrite (e_non _ _ E2), (e_refs _ _ E2), Cd. split; [exact E2|reflexivity]. }
    cbn [fst] in D.
    assert (B1 : both c [] s1) by (rewrite D; apply execs_both; trivial; exact Ok).
    destruct (execs_flags is st0) as (F1 & F2 & F3). rewrite <- D in F1, F2, F3.
    assert (Q1 : peek s1 (Slot Qgpv) = peek st0 (Slot Qgpv)).
    { rewrite D. apply (one_peek c); [exact Ok|exact B0|exact Qc]. }
    assert (T1 : top st0 <= top s1).
    { rewrite D. cbn [fst]. clear. revert st0. induction is as [|i is IH]; intros st0; trivial.
      change (execs st0 (i :: is)) with (execs (exec st0 i) is). pose proof (top_exec K st0 i). specialize (IH (exec st0 i)). lia. }
    destruct (get_qgpv c s1 B1) as (s1a & E1a & B1a & G1).
    rewrite (readable_peek c st s1) in G1 by (rewrite Q1; apply (e_peek _ _ E0)). rewrite R in G1. destruct G1 as [l1 G1]. rewrite G1.
    rewrite (Kn s1a) by (pose proof (e_top _ _ E1a); lia). rewrite (e_non _ _ E1a), (e_refs _ _ E1a), F1, F2, Cd.
    destruct (rerun c is st0 s1a B0 (Ok) (Gv st0 Ps0)) as [E2 W2].
    { exact Ord. }
    { rewrite <- D. now apply ext_mext. }
    { apply (both_wf c [] _ B1a). }
    assert (E12 := ext_trans _ _ _ E1a E2). cbn [fst]. split; [exact E12|].
    unfold shows_all; cbn [fst snd]. apply collect_shows. intros s _. rewrite <- D. apply (e_peek _ _ E12).
  Qed.
  Lemma again_fluxes c st nc : both c [] st -> passes c st (Fluxes nc) -> let s1 := fst (call c (Fluxes nc) st) in
    ext s1 (fst (call c (Fluxes nc) s1)) /\ shows_all (call c (Fluxes nc) s1) = shows_all (call c (Fluxes nc) st).
  Proof.
    intros B Ps. apply (again_flux_call c (fluxes nc) [OF1; OF2; OF3; OConv; ODiv; OHeat; BLwa; BU; Lwa] st nc _ B Ps (fluxes_ok c nc) (fluxes_orderly nc) (fluxes_qgpv nc)).
    - intros s H. now apply fluxes_given.
    - reflexivity.
  Qed.


  Definition layer_call (c : acfg) (is : list (@instr)) (ok : bool) (nc : option nat) (st : state) : state * option (list nat) :=
    if has st Qgpv && known st nc && ok
    then let st1 := execs st is in (flags st1 (nonconv st1) (refs_done st1) true, Some [])
    else (st, None).
  Lemma again_layer_call c is ok st nc s1 : both c [] st -> (match nc with Some l => l < top st /\ safe c l st | None => True end) ->
    Forall (instr_ok c []) is -> orderly is = true -> forallb (fun j => forallb (clear_of j) [Slot Qgpv]) is = true ->
    Forall (fun i => Forall (given c st) (sources i)) is ->
    s1 = fst (layer_call c is ok nc st) ->
    ext s1 (fst (layer_call c is ok nc s1)) /\ shows_all (layer_call c is ok nc s1) = shows_all (layer_call c is ok nc st).
  Proof.
    intros B Ps Ok Ord Qc Gv D. unfold layer_call in D |- *.
    destruct (has st Qgpv && known st nc && ok) eqn:Cd; cbn [fst] in D.
    2:{ subst s1. rewrite Cd. split; [apply ext_refl|reflexivity]. }
    set (sf := execs st is) in *.
    assert (Bf : both c [] sf) by (now apply execs_both).
    assert (T1 : top st <= top sf).
    { unfold sf. clear. revert st. induction is as [|i is IH]; intros st0; trivial.
      change (execs st0 (i :: is)) with (execs (exec st0 i) is). pose proof (top_exec K st0 i). specialize (IH (exec st0 i)). lia. }
    assert (M1 : mext sf s1) by (rewrite D; repeat split; trivial).
    assert (Q1 : peek s1 (Slot Qgpv) = peek st (Slot Qgpv)).
    { rewrite (proj1 M1). now apply (one_peek c). }
    rewrite (has_peek st s1 Qgpv Q1). replace (known s1 nc) with (known st nc).
    2:{ destruct nc as [l|]; trivial. destruct Ps as [P1 _]. unfold known. rewrite (proj2 (Nat.ltb_lt l (top st)) P1). symmetry. apply Nat.ltb_lt. rewrite D. cbn [flags top]. lia. }
    rewrite Cd. destruct (rerun c is st s1 B Ok Gv Ord M1) as [E2 W2].
    { rewrite D. exact (both_wf c [] _ Bf). }
    split; [|reflexivity]. destruct E2 as [X1 X2 X3 X4 X5 X6]. split; trivial. rewrite D. reflexivity.
  Qed.
  Lemma again_layerwise c st nc : both c [] st -> passes c st (Layerwise nc) -> let s1 := fst (call c (Layerwise nc) st) in
    ext s1 (fst (call c (Layerwise nc) s1)) /\ shows_all (call c (Layerwise nc) s1) = shows_all (call c (Layerwise nc) st).
  Proof.
    intros B Ps. apply (again_layer_call c (layerwise c nc) (negb (a_even c && match nc with None => true | _ => false end)) st nc _ B Ps
      (layerwise_ok c nc) (layerwise_orderly c nc) (layerwise_qgpv c nc) (layerwise_given c st nc Ps)). reflexivity.
  Qed.

  Lemma again_lwa_only c st : both c [] st -> let s1 := fst (call c LwaOnly st) in
    alike s1 (fst (call c LwaOnly s1)) /\ shows_all (call c LwaOnly s1) = shows_all (call c LwaOnly st) /\
    (a_nh c = true -> ext s1 (fst (call c LwaOnly s1))).
  Proof.
    intros B s1. assert (D : s1 = fst (call c LwaOnly st)) by reflexivity. clearbody s1. cbn [Alias.call] in D |- *. destruct (has st Qgpv) eqn:H; cbn [fst] in D.
    2:{ subst s1. rewrite H. repeat split; trivial; intros; apply ext_refl. }
    assert (Q1 : peek s1 (Slot Qgpv) = peek st (Slot Qgpv)).
    { rewrite D. apply (one_peek c); [apply lwa_only_ok|exact B|]. destruct c as [ev [] el]; vm_compute; reflexivity. }
    rewrite (has_peek st s1 Qgpv Q1), H. cbn [fst].
    assert (E : a_nh c = true -> ext s1 (execs s1 (lwa_only c))).
    { intros N. destruct (rerun c (lwa_only c) st s1 B (lwa_only_ok c) (lwa_only_given c st)) as [E2 W2]; trivial.
      - destruct c as [ev [] el]; [reflexivity|discriminate].
      - rewrite <- D. repeat split; trivial.
      - rewrite D. apply (both_wf c []). apply execs_both; trivial. apply lwa_only_ok. }
    split; [|split; [reflexivity|exact E]].
    destruct (a_nh c) eqn:N; [apply ext_alike; now apply E|]. rewrite D. now apply lwa_again.
  Qed.
End Proofs.
