(** Overwriting arrays the object does not refer to changes nothing the object computes. *)
From Verif Require Import Alias AliasSpec AliasProofs.

Section Proofs.
  Context {X : Type}.
  Variable K : kernel -> list (option X) -> X.
  Variable converges : list (option X) -> bool.
  Notation state := (@state X). Notation event := (@event X).
  Notation exec := (exec K). Notation execs := (execs K).
  Notation step := (step K converges).
  Notation get_prop := (get_prop K). Notation get_props := (get_props K). Notation call := (call K converges).

  Record sim (D : nat -> Prop) (a b : state) : Prop := {
    s_env : forall s, env b s = env a s; s_top : top b = top a;
    s_non : nonconv b = nonconv a; s_refs : refs_done b = refs_done a; s_layer : layer_done b = layer_done a;
    s_cell : forall l, ~ D l -> cell b l = cell a l;
    s_avoid : forall s l, env a s = Some l -> ~ D l;
    s_below : forall l, D l -> l < top a;
    s_wf : wf a }.

  Definition clean_src (D : nat -> Prop) (x : src) : Prop := match x with Cell l => ~ D l | _ => True end.
  Definition clean (D : nat -> Prop) (i : instr) : Prop :=
    match i with
    | Fresh _ _ rs | Into _ _ rs => Forall (clean_src D) rs
    | Bind _ x => match x with Slot _ => True | Cell _ => False end
    end.

  Lemma where_sim D a b x : sim D a b -> where_ b x = where_ a x.
  Proof. intros H. destruct x; cbn; trivial. apply H. Qed.
  Lemma peek_sim D a b x : sim D a b -> clean_src D x -> peek b x = peek a x.
  Proof.
    intros H C. unfold peek. rewrite (where_sim D a b x H).
    destruct (where_ a x) as [l|] eqn:E; trivial. f_equal. apply H.
    destruct x; cbn in *; [now apply (s_avoid _ _ _ H s)|congruence].
  Qed.
  Lemma peeks_sim D a b xs : sim D a b -> Forall (clean_src D) xs -> map (peek b) xs = map (peek a) xs.
  Proof.
    intros H F. induction F; cbn; trivial. rewrite (peek_sim D a b x H), IHF; trivial.
  Qed.

  Lemma not_top D a b : sim D a b -> ~ D (top a).
  Proof. intros H C. apply (s_below _ _ _ H) in C. lia. Qed.

  Lemma exec_sim D a b i : sim D a b -> clean D i -> sim D (exec a i) (exec b i).
  Proof.
    intros H C. assert (T := not_top D a b H). destruct H as [H1 H2 H3 H4 H5 H6 H7 H8 H9].
    assert (H : sim D a b) by (split; trivial).
    destruct i as [s k rs|s k rs|s x]; cbn in C; unfold Alias.exec.
    - rewrite (peeks_sim D a b rs H C), H2.
      split; cbn; trivial; try congruence.
      + intros s'. unfold set_env. destruct (slot_eq_dec s' s); trivial.
      + intros l N. unfold set_cell. destruct (l =? top a); auto.
      + intros s' l. destruct (set_env_cases (env a) s (Some (top a)) s') as [[_ ->]|[_ ->]]; [|apply H7].
        intros [= <-]. trivial.
      + intros l N. apply H8 in N. lia.
      + intros s' l. cbn. destruct (set_env_cases (env a) s (Some (top a)) s') as [[_ ->]|[_ ->]].
        * intros [= <-]. lia.
        * intros E. apply H9 in E. lia.
    - rewrite H1, (peeks_sim D a b rs H C). destruct (env a s) as [l|] eqn:E; trivial.
      split; cbn; trivial; try congruence.
      intros l' N. unfold set_cell. destruct (l' =? l); auto.
    - rewrite (where_sim D a b x H).
      split; cbn; trivial; try congruence.
      + intros s'. unfold set_env. destruct (slot_eq_dec s' s); trivial.
      + intros s' l. destruct (set_env_cases (env a) s (where_ a x) s') as [[_ ->]|[_ ->]]; [|apply H7].
        destruct x; cbn; [apply H7|contradiction].
      + intros s' l. cbn. destruct (set_env_cases (env a) s (where_ a x) s') as [[_ ->]|[_ ->]]; [|apply H9].
        destruct x; cbn; [apply H9|contradiction].
  Qed.
  Lemma execs_sim D is : forall a b, sim D a b -> Forall (clean D) is -> sim D (execs a is) (execs b is).
  Proof.
    induction is as [|i is IH]; intros a b H F; trivial. inversion F; subst. cbn.
    apply IH; trivial. now apply exec_sim.
  Qed.

  Lemma alloc_sim D a b x : sim D a b -> sim D (fst (alloc a x)) (fst (alloc b x)).
  Proof.
    intros H. assert (T := not_top D a b H). destruct H as [H1 H2 H3 H4 H5 H6 H7 H8 H9].
    split; cbn; trivial; try congruence.
    - intros l N. rewrite H2. unfold set_cell. destruct (l =? top a); auto.
    - intros l N. apply H8 in N. lia.
    - intros s l E. cbn in *. apply H9 in E. lia.
  Qed.
  Lemma flags_sim D a b n r l : sim D a b -> sim D (flags a n r l) (flags b n r l).
  Proof. intros [H1 H2 H3 H4 H5 H6 H7 H8 H9]. split; trivial. Qed.

  Ltac none5 := cbn; split; [trivial|split; [trivial|split; [trivial|split; [lia|intros ? ?; discriminate]]]].
  Ltac none4 := cbn; split; [trivial|split; [trivial|split; [intros ? ? ?; discriminate|intros ? []]]].
  Definition is_copy (c : acfg) (p : prop) : bool := a_even c || match p with P_qref => true | _ => false end.

  (** a property read: same answer, an array that is not dirty, and a new one if it is a copy *)
  Lemma get_prop_sim D c p a b : sim D a b ->
    sim D (fst (get_prop c p a)) (fst (get_prop c p b)) /\
    snd (get_prop c p b) = snd (get_prop c p a) /\
    (forall s, env (fst (get_prop c p a)) s = env a s) /\ top a <= top (fst (get_prop c p a)) /\
    forall l, snd (get_prop c p a) = Some l -> ~ D l /\ l < top (fst (get_prop c p a)) /\
      (is_copy c p = true -> top a <= l).
  Proof.
    intros H. assert (T := not_top D a b H).
    unfold Alias.get_prop, is_copy. rewrite (s_env _ _ _ H), (s_layer _ _ _ H).
    destruct (env a (prop_slot p)) as [l|] eqn:E; [|none5].
    destruct (needs_layerwise p && negb (layer_done a)); [none5|].
    destruct (a_even c); cbn [orb].
    - destruct (a_nh c && full_height_field p); [none5|].
      rewrite (peeks_sim D a b [Slot (prop_slot p); Slot LatA; Slot Lat] H ltac:(repeat constructor)).
      cbn [alloc fst snd]. rewrite (s_top _ _ _ H).
      split; [|split; [trivial|split; [trivial|split; [cbn; lia|]]]]; cbn.
      + pose proof (alloc_sim D a b (K (Back p) (map (peek a) [Slot (prop_slot p); Slot LatA; Slot Lat])) H) as A.
        cbn in A. rewrite (s_top _ _ _ H) in A. exact A.
      + intros l' [= <-]. split; [exact T|split; [lia|lia]].
    - destruct p; cbn [fst snd]; try (split; [exact H|]; split; [trivial|]; split; [trivial|]; split; [lia|];
        intros l' [= <-]; split; [exact (s_avoid _ _ _ H _ _ E)|]; split; [exact (s_wf _ _ _ H _ _ E)|discriminate]).
      rewrite (peeks_sim D a b [Slot Qref; Slot LatA] H ltac:(repeat constructor)).
      cbn [alloc fst snd]. rewrite (s_top _ _ _ H).
      split; [|split; [trivial|split; [trivial|split; [cbn; lia|]]]]; cbn.
      + pose proof (alloc_sim D a b (K (Back P_qref) (map (peek a) [Slot Qref; Slot LatA])) H) as A.
        cbn in A. rewrite (s_top _ _ _ H) in A. exact A.
      + intros l' [= <-]. split; [exact T|split; [lia|lia]].
  Qed.

  Lemma get_props_sim D c ps : forall a b, sim D a b ->
    sim D (fst (get_props c ps a)) (fst (get_props c ps b)) /\
    snd (get_props c ps b) = snd (get_props c ps a) /\
    (forall s, env (fst (get_props c ps a)) s = env a s) /\ top a <= top (fst (get_props c ps a)) /\
    forall ls, snd (get_props c ps a) = Some ls ->
      length ls = length ps /\
      (forall l, In l ls -> ~ D l /\ l < top (fst (get_props c ps a))) /\
      (forall p l, In (p, l) (combine ps ls) -> is_copy c p = true -> top a <= l).
  Proof.
    induction ps as [|p ps IH]; intros a b H.
    - cbn. split; [trivial|split; [trivial|split; [trivial|split; [lia|]]]].
      intros ls [= <-]. split; [trivial|split; [intros ? []|intros ? ? []]].
    - destruct (get_prop_sim D c p a b H) as (S1 & S2 & S3 & S4 & S5).
      cbn [Alias.get_props].
      destruct (Alias.get_prop K c p a) as [a1 ra]; destruct (Alias.get_prop K c p b) as [b1 rb]; cbn [fst snd] in *.
      subst rb. destruct ra as [l|]; [|none5].
      destruct (S5 l eq_refl) as (L1 & L2 & L3).
      destruct (IH a1 b1 S1) as (I1 & I2 & I3 & I4 & I5).
      destruct (Alias.get_props K c ps a1) as [a2 ra]; destruct (Alias.get_props K c ps b1) as [b2 rb]; cbn [fst snd] in *.
      subst rb. destruct ra as [ls|]; cbn [fst snd].
      + destruct (I5 ls eq_refl) as (J1 & J2 & J3).
        split; [exact I1|]. split; [trivial|]. split; [intros s; now rewrite I3|]. split; [lia|].
        intros ls' [= <-]. split; [cbn; now rewrite J1|]. split.
        * intros l' [<-|I]; [split; [trivial|lia]|now apply J2].
        * intros p' l' [[= <- <-]|I] C; [now apply L3|]. apply J3 in I; trivial. lia.
      + split; [exact I1|]. split; [trivial|]. split; [intros s; now rewrite I3|]. split; [lia|discriminate].
  Qed.

  Lemma nc_clean D nc : match nc with Some l => ~ D l | None => True end -> Forall (clean_src D) (nc_src nc).
  Proof. destruct nc; cbn; intros; repeat constructor; trivial. Qed.
  Lemma fluxes_clean D nc : match nc with Some l => ~ D l | None => True end -> Forall (clean D) (fluxes nc).
  Proof.
    intros H. pose proof (nc_clean D nc H) as N. cbn.
    repeat (apply Forall_cons; [cbn; repeat (apply Forall_cons; [exact I|]); try exact N; try exact I; apply Forall_nil|]).
    apply Forall_nil.
  Qed.
  Lemma layerwise_clean D c nc : match nc with Some l => ~ D l | None => True end -> Forall (clean D) (layerwise c nc).
  Proof.
    intros H. pose proof (nc_clean D nc H) as N. destruct c as [? [] ?]; cbn;
    repeat (apply Forall_cons; [cbn; repeat (apply Forall_cons; [exact I|]); try exact N; try exact I; apply Forall_nil|]);
    apply Forall_nil.
  Qed.
  Lemma lwa_only_clean D c : Forall (clean D) (lwa_only c).
  Proof. destruct c as [? [] ?]; repeat constructor. Qed.
  Lemma refs_clean D : Forall (clean D) refs.
  Proof. repeat constructor. Qed.
  Lemma interpolate_clean D c : Forall (clean D) (interpolate c).
  Proof. destruct c as [? ? []]; repeat constructor. Qed.

  Lemma collect_in l : forall ls, collect l = Some ls -> forall x, In x ls -> In (Some x) l.
  Proof.
    induction l as [|[y|] l IH]; cbn; intros ls E x I.
    - injection E as <-. destruct I.
    - destruct (collect l) as [xs|]; [|discriminate]. injection E as <-.
      destruct I as [<-|I]; [now left|right; now apply (IH xs)].
    - discriminate.
  Qed.

  Definition passes (e : event) : option nat :=
    match e with
    | SetField _ l | Call (Fluxes (Some l)) | Call (Layerwise (Some l)) => Some l
    | _ => None
    end.

  (** the arrays in [ls] are new: not referred to by the object and not dirty *)
  Definition unshared (a : state) (ls : list nat) : Prop := forall l, In l ls -> l < top a /\ forall s, env a s <> Some l.

  Lemma fresh_unshared (a a' : state) ls : wf a -> (forall s, env a' s = env a s) ->
    (forall l, In l ls -> top a <= l /\ l < top a') -> unshared a' ls.
  Proof.
    intros W E H l I. destruct (H l I) as [H1 H2]. split; trivial. intros s Q. rewrite E in Q. apply W in Q. lia.
  Qed.

  Lemma call_sim D c m a b : sim D a b -> match passes (Call m) with Some l => ~ D l | None => True end ->
    sim D (fst (call c m a)) (fst (call c m b)) /\ snd (call c m b) = snd (call c m a) /\
    (forall ls l, snd (call c m a) = Some ls -> In l ls -> ~ D l) /\
    unshared (fst (call c m a)) (copies (X:=X) c (Call m) (snd (call c m a))).
  Proof.
    intros H P. destruct m as [| | |nc|nc]; cbn [Alias.call].
    - pose proof (execs_sim D _ a b H (interpolate_clean D c)) as H1.
      set (a1 := execs a (interpolate c)) in *. set (b1 := execs b (interpolate c)) in *. clearbody a1 b1.
      destruct (get_props_sim D c [P_qgpv; P_interpolated_u; P_interpolated_v; P_interpolated_theta] a1 b1 H1)
        as (S1 & S2 & S3 & S4 & S5).
      split; [exact S1|]. split; [exact S2|].
      destruct (snd (get_props c _ a1)) as [ls|] eqn:E.
      + destruct (S5 ls eq_refl) as (J1 & J2 & J3). split.
        * intros ls' l [= <-] I. now apply J2.
        * cbn [copies]. destruct (a_even c) eqn:A; [|intros l []].
          apply (fresh_unshared a1); trivial; [exact (s_wf _ _ _ H1)|].
          intros l I. split; [|now apply J2].
          destruct ls as [|l1 [|l2 [|l3 [|l4 [|]]]]]; try discriminate J1.
          assert (C : forall p, is_copy c p = true) by (intros; unfold is_copy; now rewrite A).
          destruct I as [<-|[<-|[<-|[<-|[]]]]].
          -- apply (J3 P_qgpv); cbn; auto.
          -- apply (J3 P_interpolated_u); cbn; auto.
          -- apply (J3 P_interpolated_v); cbn; auto.
          -- apply (J3 P_interpolated_theta); cbn; auto.
      + split; [discriminate|intros l []].
    - destruct (get_prop_sim D c P_qgpv a b H) as (S1 & S2 & S3 & S4 & S5).
      destruct (Alias.get_prop K c P_qgpv a) as [a0 ra]; destruct (Alias.get_prop K c P_qgpv b) as [b0 rb]; cbn [fst snd] in *.
      subst rb. destruct ra as [l0|]; cbn [fst snd]; [|none4].
      cbv zeta. rewrite (peeks_sim D a0 b0 [Slot Qgpv; Slot IntU; Slot IntT] S1 ltac:(repeat constructor)).
      pose proof (execs_sim D refs a0 b0 S1 (refs_clean D)) as H1.
      set (a1 := execs a0 refs) in *. set (b1 := execs b0 refs) in *. clearbody a1 b1.
      rewrite (s_non _ _ _ H1), (s_refs _ _ _ H1), (s_layer _ _ _ H1).
      set (n := nonconv a1 || _). set (r := if n then _ else _). clearbody n r.
      pose proof (flags_sim D a1 b1 n r (layer_done a1) H1) as H2.
      set (a2 := flags a1 _ _ _) in *. set (b2 := flags b1 _ _ _) in *. clearbody a2 b2.
      destruct (get_props_sim D c [P_qref; P_uref; P_ptref] a2 b2 H2) as (T1 & T2 & T3 & T4 & T5).
      split; [exact T1|]. split; [exact T2|].
      destruct (snd (get_props c [P_qref; P_uref; P_ptref] a2)) as [ls|] eqn:E.
      + destruct (T5 ls eq_refl) as (J1 & J2 & J3). split.
        * intros ls' l [= <-] I. now apply J2.
        * destruct ls as [|l1 [|l2 [|l3 [|]]]]; try discriminate J1.
          apply (fresh_unshared a2); trivial; [exact (s_wf _ _ _ H2)|].
          intros l I. cbn [copies] in I. destruct (a_even c) eqn:A.
          -- split; [|now apply J2].
             assert (C : forall p, is_copy c p = true) by (intros; unfold is_copy; now rewrite A).
             destruct I as [<-|[<-|[<-|[]]]].
             ++ apply (J3 P_qref); cbn; auto.
             ++ apply (J3 P_uref); cbn; auto.
             ++ apply (J3 P_ptref); cbn; auto.
          -- destruct I as [<-|[]]. split; [|apply J2; cbn; auto].
             apply (J3 P_qref); [cbn; auto|]. unfold is_copy. now rewrite A.
      + split; [discriminate|intros l []].
    - unfold has. rewrite (s_env _ _ _ H). destruct (env a Qgpv); cbn [fst snd copies].
      + split; [now apply execs_sim; [|apply lwa_only_clean]|]. split; trivial.
        split; [intros ls l [= <-] []|intros l []].
      + none4.
    - destruct (get_prop_sim D c P_qgpv a b H) as (S1 & S2 & S3 & S4 & S5).
      destruct (Alias.get_prop K c P_qgpv a) as [a0 ra]; destruct (Alias.get_prop K c P_qgpv b) as [b0 rb]; cbn [fst snd] in *.
      subst rb. destruct ra as [l0|]; cbn [fst snd]; [|none4].
      unfold known. rewrite (s_non _ _ _ S1), (s_refs _ _ _ S1), (s_top _ _ _ S1).
      destruct (nonconv a0 || _ || _); cbn [fst snd]; [none4|].
      assert (H1 : sim D (execs a0 (fluxes nc)) (execs b0 (fluxes nc))).
      { apply execs_sim; trivial. apply fluxes_clean. destruct nc; trivial. }
      set (a1 := execs a0 (fluxes nc)) in *. set (b1 := execs b0 (fluxes nc)) in *. clearbody a1 b1.
      split; [exact H1|]. split.
      + f_equal. apply map_ext. apply H1.
      + split.
        * intros ls l E I. pose proof (collect_in _ _ E _ I) as J.
          apply in_map_iff in J. destruct J as (s & J & _). exact (s_avoid _ _ _ H1 _ _ J).
        * cbn [copies]. destruct (collect _); intros ? [].
    - unfold has, known. rewrite (s_env _ _ _ H), (s_top _ _ _ H).
      destruct (_ && _ && _); cbn [fst snd copies].
      + assert (H1 : sim D (execs a (layerwise c nc)) (execs b (layerwise c nc))).
        { apply execs_sim; trivial. apply layerwise_clean. destruct nc; trivial. }
        rewrite (s_non _ _ _ H1), (s_refs _ _ _ H1).
        split; [now apply flags_sim|]. split; trivial. split; [intros ls l [= <-] []|intros l []].
      + none4.
  Qed.

  Lemma step_sim D c e a b : sim D a b -> is_write e = false -> match passes e with Some l => ~ D l | None => True end ->
    sim D (fst (step c a e)) (fst (step c b e)) /\ snd (step c b e) = snd (step c a e) /\
    (forall ls l, snd (step c a e) = Some ls -> In l ls -> ~ D l) /\
    unshared (fst (step c a e)) (copies c e (snd (step c a e))).
  Proof.
    intros H Wr P. destruct e as [m|p|r|x|f l|l x]; cbn [Alias.step].
    - now apply call_sim.
    - destruct (get_prop_sim D c p a b H) as (S1 & S2 & S3 & S4 & S5).
      destruct (Alias.get_prop K c p a) as [a0 ra]; destruct (Alias.get_prop K c p b) as [b0 rb]; cbn [fst snd] in *.
      subst rb. destruct ra as [l0|]; cbn [fst snd one]; [|none4].
      destruct (S5 l0 eq_refl) as (L1 & L2 & L3).
      split; [exact S1|]. split; trivial. split; [intros ls l [= <-] [<-|[]]; trivial|].
      assert (U : forall l, In l (copies (X:=X) c (Get p) (Some [l0])) -> is_copy c p = true /\ l = l0).
      { intros l I. unfold is_copy. cbn in I. destruct p; destruct (a_even c); cbn in *; try destruct I as [<-|[]]; tauto. }
      apply (fresh_unshared a); trivial; [exact (s_wf _ _ _ H)|].
      intros l I. destruct (U l I) as [C ->]. split; [now apply L3|exact L2].
    - unfold get_raw. rewrite (s_env _ _ _ H). destruct (env a (raw_slot r)) as [l|] eqn:E; cbn [one fst snd copies].
      + split; [exact H|]. split; trivial. split; [intros ls l' [= <-] [<-|[]]; exact (s_avoid _ _ _ H _ _ E)|intros l' []].
      + none4.
    - cbn [alloc fst snd copies]. split; [exact (alloc_sim D a b x H)|].
      rewrite (s_top _ _ _ H). split; trivial. split; [|intros l []].
      intros ls l [= <-] [<-|[]]. exact (not_top D a b H).
    - cbn [passes] in P. rewrite (s_top _ _ _ H). destruct (l <? top a) eqn:E; cbn [fst snd copies].
      + apply Nat.ltb_lt in E. destruct H as [H1 H2 H3 H4 H5 H6 H7 H8 H9].
        split; [|split; [trivial|split; [intros ls l' [= <-] []|intros l' []]]].
        split; cbn; trivial.
        * intros s. unfold set_env. destruct (slot_eq_dec s (field_slot f)); trivial.
        * intros s l'. destruct (set_env_cases (env a) (field_slot f) (Some l) s) as [[_ ->]|[_ ->]]; [|apply H7].
          intros [= <-]. trivial.
        * intros s l'. cbn. destruct (set_env_cases (env a) (field_slot f) (Some l) s) as [[_ ->]|[_ ->]]; [|apply H9].
          intros [= <-]. trivial.
      + split; [exact H|]. split; trivial. split; [discriminate|intros l' []].
    - discriminate.
  Qed.

  Definition dirty (edited : nat -> bool) (ok : list nat) (l : nat) : Prop := In l ok /\ edited l = true.

  Lemma more_dirty edited ok ls a b : sim (dirty edited ok) a b -> unshared a ls -> sim (dirty edited (ls ++ ok)) a b.
  Proof.
    intros [H1 H2 H3 H4 H5 H6 H7 H8 H9] U. split; trivial.
    - intros l N. apply H6. intros [I E]. apply N. split; trivial. apply in_or_app. now right.
    - intros s l E [I Q]. apply in_app_or in I. destruct I as [I|I].
      + destruct (U l I) as [_ V]. exact (V s E).
      + apply (H7 s l E). now split.
    - intros l [I Q]. apply in_app_or in I. destruct I as [I|I]; [now apply U|]. apply H8. now split.
  Qed.

  Lemma seen_sim c edited h : forall ok a b, sim (dirty edited ok) a b ->
    edits_only_copies K converges c edited ok a h ->
    seen K converges c a h = seen K converges c b (without_writes h).
  Proof.
    induction h as [|e h IH]; intros ok a b H C; trivial.
    cbn [edits_only_copies] in C. destruct C as [C1 C2].
    unfold without_writes. cbn [filter]. destruct (is_write e) eqn:Wr; cbn [negb].
    - destruct e as [| | | | |l x]; try discriminate. cbn [seen is_write app].
      apply (IH _ _ _) with (2 := C2). apply more_dirty.
      + cbn [Alias.step]. destruct (l <? top a) eqn:E; cbn [fst]; trivial.
        destruct H as [H1 H2 H3 H4 H5 H6 H7 H8 H9]. split; cbn; trivial.
        intros l' N. rewrite set_cell_other; [now apply H6|]. intros ->. now apply N.
      + cbn [Alias.step]. destruct (l <? top a); intros l' [].
    - assert (P : match passes e with Some l => ~ dirty edited ok l | None => True end).
      { clear -C1 Wr. destruct e as [[| | |[|]|[|]]| | | | |]; cbn [passes] in *; trivial; try discriminate; intros [_ Q]; congruence. }
      destruct (step_sim _ c e a b H Wr P) as (S1 & S2 & S3 & S4).
      cbn [seen]. rewrite Wr. f_equal.
      + f_equal. rewrite S2. destruct (snd (step c a e)) as [ls|]; trivial. cbn. f_equal.
        apply map_ext_in. intros l I. symmetry. apply S1. exact (S3 ls l eq_refl I).
      + apply (IH _ _ _) with (2 := C2). now apply more_dirty.
  Qed.

  (** *** Right after construction *)
  Definition binds_not (l : nat) (i : instr) : Prop := match i with Bind _ (Cell l') => l' <> l | _ => True end.
  Lemma exec_avoids l st i : l < top st -> (forall s, env st s <> Some l) -> binds_not l i ->
    l < top (exec st i) /\ forall s, env (exec st i) s <> Some l.
  Proof.
    intros L A B. split; [pose proof (top_exec K st i); lia|].
    intros s'. destruct i as [s k rs|s k rs|s x]; cbn in *.
    - destruct (set_env_cases (env st) s (Some (top st)) s') as [[_ ->]|[_ ->]]; [intros [= E]; lia|apply A].
    - destruct (env st s); cbn; apply A.
    - destruct (set_env_cases (env st) s (where_ st x) s') as [[_ ->]|[_ ->]]; [|apply A].
      destruct x; cbn; [apply A|congruence].
  Qed.
  Lemma execs_avoids l is : forall st, l < top st -> (forall s, env st s <> Some l) -> Forall (binds_not l) is ->
    forall s, env (execs st is) s <> Some l.
  Proof.
    induction is as [|i is IH]; intros st L A F; trivial. inversion F; subst.
    destruct (exec_avoids l st i L A H1). now apply IH.
  Qed.
  Lemma create_detached c u v t y l : In l (detached_inputs c) ->
    l < top (create K c u v t y) /\ forall s, env (create K c u v t y) s <> Some l.
  Proof.
    intros I. destruct (create_inv K c u v t y) as [J _].
    split.
    - apply (i_own _ _ _ J). unfold detached_inputs, in_u, in_v, in_t, inputs in *. destruct (a_even c); cbn in *; lia.
    - apply execs_avoids.
      + unfold detached_inputs, in_u, in_v, in_t in I. cbn [top]. destruct (a_even c); cbn in I; lia.
      + discriminate.
      + unfold detached_inputs, init in *. destruct (a_even c); cbn in I |- *;
        repeat (apply Forall_cons; [cbn; unfold in_u, in_v, in_t, in_ylat in *; try exact Logic.I; lia|]); apply Forall_nil.
  Qed.

  Theorem seen_equal c edited u v t y h :
    edits_only_copies K converges c edited (detached_inputs c) (create K c u v t y) h ->
    seen K converges c (create K c u v t y) h = seen K converges c (create K c u v t y) (without_writes h).
  Proof.
    apply seen_sim. destruct (create_inv K c u v t y) as [[W _ _] _].
    split; trivial.
    - intros s l E [I _]. destruct (create_detached c u v t y l I) as [_ A]. exact (A s E).
    - intros l [I _]. now apply create_detached.
  Qed.
End Proofs.
