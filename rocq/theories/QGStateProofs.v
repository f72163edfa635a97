From Verif Require Import Base QGState QGStateSpec.
From Coq Require Import Bool Lia.
Open Scope list_scope.
Open Scope nat_scope.

Lemma Exists_one {T} (P : T -> Prop) x : Exists P [x] <-> P x.
Proof. split; [intros H; inversion H as [? ? H1|? ? H1]; [exact H1 | inversion H1] | now constructor]. Qed.

Section P.
  Context {V I R X W F L : Type}.
  Variable b : backend V I R X W F L.
  Variable c : config.
  Notation answer := (answer I R W F L).
  Notation call := (call V X).
  Notation event := (call * answer)%type.

  Lemma run_app : forall ks1 ks2 o,
    run b c o (ks1 ++ ks2) =
    (fst (run b c (fst (run b c o ks1)) ks2), snd (run b c o ks1) ++ snd (run b c (fst (run b c o ks1)) ks2)).
  Proof.
    induction ks1 as [|k ks IH]; intros ks2 o; cbn [run app].
    - cbn. now destruct (run b c o ks2).
    - destruct (step b c o k) as [o1 a]. rewrite IH. destruct (run b c o1 ks) as [o2 tr]. reflexivity.
  Qed.

  Lemma run_snoc : forall ks k o,
    run b c o (ks ++ [k]) =
    (fst (step b c (fst (run b c o ks)) k), snd (run b c o ks) ++ [(k, snd (step b c (fst (run b c o ks)) k))]).
  Proof.
    intros ks k o. rewrite run_app. cbn [run]. destruct (step b c (fst (run b c o ks)) k). reflexivity.
  Qed.

  (** the flags *)
  Lemma step_nonconv : forall o k, o_nonconv (fst (step b c o k)) = true <->
    o_nonconv o = true \/ nonconvergent (k, snd (step b c o k)).
  Proof.
    intros o k. unfold nonconvergent, complains. cbn [fst snd].
    destruct k; cbn [step fst snd o_nonconv];
      try (split; [tauto | intros [H|[H _]]; [exact H | discriminate]]).
    - unfold interpolate_fields. destruct named_tuple; [destruct (read_qgpv _ _)|]; cbn;
        (split; [tauto | intros [H|[H _]]; [exact H | discriminate]]).
    - unfold compute_reference_states. destruct (read_qgpv c o) as [i|e] eqn:E.
      2: { cbn. split; [tauto|]. intros [H|[_ [[h H]|[n [s H]]]]]; [exact H| |discriminate].
           unfold read_qgpv in E. destruct (o_qgpv o); [destruct (c_even c && c_nh_only c); [|discriminate]|];
             injection E as E; subst e; discriminate. }
      destruct (o_nonconv o), (fails b c o i NHem), (c_raise c), (c_nh_only c), (fails b c o i SHem); cbn;
        split; intros H; try tauto; try discriminate; eauto;
        repeat match goal with
        | H : _ \/ _ |- _ => destruct H
        | H : _ /\ _ |- _ => destruct H
        | H : exists _, _ |- _ => destruct H
        end; try discriminate; right; split; eauto.
    - unfold compute_lwa_only. destruct (o_qgpv o); cbn; (split; [tauto | intros [H|[H _]]; [exact H | discriminate]]).
    - assert (Q : fst (compute_fluxes b c ncforce o) = o).
      { unfold compute_fluxes. destruct (read_qgpv c o); [|reflexivity].
        destruct (o_nonconv o); [reflexivity|]. destruct (negb (o_refs_done o)); [reflexivity|].
        destruct (ncforce_rows c (nlat_analysis c) ncforce) as [[n x]|]; [|reflexivity].
        destruct (n =? nlat_analysis c); reflexivity. }
      rewrite Q. split; [tauto | intros [H|[H _]]; [exact H | discriminate]].
    - assert (Q : o_nonconv (fst (compute_layerwise b c ncforce o)) = o_nonconv o).
      { unfold compute_layerwise. destruct (o_qgpv o); [|reflexivity].
        destruct (ncforce_rows c (c_nlat c) ncforce) as [[n x]|]; [|reflexivity].
        destruct (n =? nlat_analysis c); reflexivity. }
      rewrite Q. split; [tauto | intros [H|[H _]]; [exact H | discriminate]].
  Qed.

  Lemma fluxes_same : forall nc o, fst (compute_fluxes b c nc o) = o.
  Proof.
    intros nc o. unfold compute_fluxes. destruct (read_qgpv c o); [|reflexivity].
    destruct (o_nonconv o); [reflexivity|]. destruct (negb (o_refs_done o)); [reflexivity|].
    destruct (ncforce_rows c (nlat_analysis c) nc) as [[n x]|]; [|reflexivity].
    destruct (n =? nlat_analysis c); reflexivity.
  Qed.

  Lemma layer_fields : forall nc o, let o' := fst (compute_layerwise b c nc o) in
    o_fields o' = o_fields o /\ o_maxit o' = o_maxit o /\ o_qgpv o' = o_qgpv o /\ o_refs o' = o_refs o /\
    o_nonconv o' = o_nonconv o /\ o_refs_done o' = o_refs_done o.
  Proof.
    intros nc o. unfold compute_layerwise. destruct (o_qgpv o) eqn:E; cbn; [|now rewrite E].
    destruct (ncforce_rows c (c_nlat c) nc) as [[n x]|]; [|now cbn; rewrite E].
    destruct (n =? nlat_analysis c); cbn; rewrite ?E; repeat split; reflexivity.
  Qed.

  Lemma step_refs_done : forall o k, o_nonconv (fst (step b c o k)) = false ->
    (o_refs_done (fst (step b c o k)) = true <-> o_refs_done o = true \/ converged (k, snd (step b c o k))).
  Proof.
    intros o k. unfold converged. cbn [fst snd].
    destruct k; cbn [step fst snd o_refs_done];
      try (intros _; split; [tauto | intros [H|[H _]]; [exact H | discriminate]]).
    - intros _. unfold interpolate_fields. destruct named_tuple; [destruct (read_qgpv _ _)|]; cbn;
        (split; [tauto | intros [H|[H _]]; [exact H | discriminate]]).
    - unfold compute_reference_states. destruct (read_qgpv c o) as [i|e] eqn:E.
      2: { cbn. intros _. split; [tauto|]. intros [H|[_ [n [s H]]]]; [exact H|discriminate]. }
      destruct (o_nonconv o), (fails b c o i NHem), (c_raise c), (c_nh_only c), (fails b c o i SHem); cbn;
        intros NC; try discriminate; split; intros H; try tauto; try discriminate; eauto;
        repeat match goal with
        | H : _ \/ _ |- _ => destruct H
        | H : _ /\ _ |- _ => destruct H
        | H : exists _, _ |- _ => destruct H
        end; try discriminate; right; split; eauto.
    - intros _. unfold compute_lwa_only.
      destruct (o_qgpv o); cbn; (split; [tauto | intros [H|[H _]]; [exact H | discriminate]]).
    - intros _. rewrite fluxes_same. split; [tauto | intros [H|[H _]]; [exact H | discriminate]].
    - intros _. pose proof (layer_fields ncforce o) as Q. cbn zeta in Q. destruct Q as (_ & _ & _ & _ & _ & Q). rewrite Q.
      split; [tauto | intros [H|[H _]]; [exact H | discriminate]].
  Qed.

  Lemma step_layer_done : forall o k, o_layer_done (fst (step b c o k)) = true <->
    o_layer_done o = true \/ layerwise_completed (k, snd (step b c o k)).
  Proof.
    intros o k. unfold layerwise_completed.
    destruct k; cbn [step fst snd o_layer_done];
      try (split; [tauto | intros [H|[nc H]]; [exact H | discriminate]]).
    - unfold interpolate_fields. destruct named_tuple; [destruct (read_qgpv _ _)|]; cbn;
        (split; [tauto | intros [H|[nc H]]; [exact H | discriminate]]).
    - unfold compute_reference_states. destruct (read_qgpv c o) as [i|e] eqn:E.
      2: { cbn. split; [tauto|]. intros [H|[nc H]]; [exact H|discriminate]. }
      destruct (fails b c o i NHem), (c_raise c), (c_nh_only c), (fails b c o i SHem); cbn;
        (split; [tauto|intros [H|[nc H]]; [exact H|discriminate]]).
    - unfold compute_lwa_only.
      destruct (o_qgpv o); cbn; (split; [tauto | intros [H|[nc H]]; [exact H | discriminate]]).
    - rewrite fluxes_same. split; [tauto | intros [H|[nc H]]; [exact H | discriminate]].
    - unfold compute_layerwise. destruct (o_qgpv o); cbn; [|split; [tauto | intros [H|[nc H]]; [exact H | discriminate]]].
      destruct (ncforce_rows c (c_nlat c) ncforce) as [[n x]|]; cbn;
        [|split; [tauto | intros [H|[nc H]]; [exact H | discriminate]]].
      destruct (n =? nlat_analysis c); cbn; [|split; [tauto | intros [H|[nc H]]; [exact H | discriminate]]].
      split; [intros _; right; eauto | auto].
  Qed.

  Lemma step_qgpv : forall o k, o_qgpv (fst (step b c o k)) =
    match k with InterpolateFields _ => Some (b_interp b (o_fields o)) | _ => o_qgpv o end.
  Proof.
    intros o k. destruct k; cbn [step fst o_qgpv]; try reflexivity.
    - unfold interpolate_fields. destruct named_tuple; [destruct (read_qgpv _ _)|]; reflexivity.
    - unfold compute_reference_states. destruct (read_qgpv c o); [|reflexivity].
      destruct (fails b c o i NHem), (c_raise c), (c_nh_only c), (fails b c o i SHem); reflexivity.
    - unfold compute_lwa_only. destruct (o_qgpv o) eqn:E; cbn; now rewrite ?E.
    - now rewrite fluxes_same.
    - apply (layer_fields ncforce o).
  Qed.

  Lemma step_fields : forall o k,
    o_fields (fst (step b c o k)) = (match k with SetFields v => v | _ => o_fields o end) /\
    o_maxit (fst (step b c o k)) = (match k with SetMaxit n => n | _ => o_maxit o end).
  Proof.
    intros o k. destruct k; cbn [step fst o_fields o_maxit]; try (split; reflexivity).
    - unfold interpolate_fields. destruct named_tuple; [destruct (read_qgpv _ _)|]; split; reflexivity.
    - unfold compute_reference_states. destruct (read_qgpv c o); [|split; reflexivity].
      destruct (fails b c o i NHem), (c_raise c), (c_nh_only c), (fails b c o i SHem); split; reflexivity.
    - unfold compute_lwa_only. destruct (o_qgpv o) eqn:E; cbn; split; reflexivity.
    - rewrite fluxes_same. split; reflexivity.
    - pose proof (layer_fields ncforce o) as Q. cbn zeta in Q. intuition.
  Qed.

  Lemma step_refs_other : forall o k, k <> ComputeReferenceStates -> o_refs (fst (step b c o k)) = o_refs o.
  Proof.
    intros o k H. destruct k; cbn [step fst o_refs]; try reflexivity; try congruence.
    - unfold interpolate_fields. destruct named_tuple; [destruct (read_qgpv _ _)|]; reflexivity.
    - unfold compute_lwa_only. destruct (o_qgpv o) eqn:E; cbn; now rewrite ?E.
    - now rewrite fluxes_same.
    - apply (layer_fields ncforce o).
  Qed.

  (** the object after a history *)
  Definition after v m ks := fst (run b c (new_obj b v m) ks).

  Lemma after_snoc v m ks k : after v m (ks ++ [k]) = fst (step b c (after v m ks) k).
  Proof. unfold after. now rewrite run_snoc. Qed.
  Lemma history_snoc v m ks k :
    history b c v m (ks ++ [k]) = history b c v m ks ++ [(k, next b c v m ks k)].
  Proof. unfold history, next. now rewrite run_snoc. Qed.

  Lemma nonconv_inv v m ks : o_nonconv (after v m ks) = true <-> Exists nonconvergent (history b c v m ks).
  Proof.
    induction ks as [|k ks IH] using rev_ind.
    - cbn. split; [discriminate | intros H; inversion H].
    - rewrite after_snoc, history_snoc, step_nonconv, IH, Exists_app. unfold next. fold (after v m ks).
      rewrite Exists_one. reflexivity.
  Qed.

  Lemma refs_done_inv v m ks : o_nonconv (after v m ks) = false ->
    (o_refs_done (after v m ks) = true <-> Exists converged (history b c v m ks)).
  Proof.
    induction ks as [|k ks IH] using rev_ind; intros NC.
    - cbn. split; [discriminate | intros H; inversion H].
    - rewrite after_snoc in *. rewrite history_snoc, step_refs_done by exact NC.
      rewrite IH, Exists_app.
      + unfold next. fold (after v m ks).
        rewrite Exists_one. reflexivity.
      + destruct (o_nonconv (after v m ks)) eqn:E; [|reflexivity].
        assert (H : o_nonconv (fst (step b c (after v m ks) k)) = true) by (apply step_nonconv; now left). congruence.
  Qed.

  Lemma layer_inv v m ks : o_layer_done (after v m ks) = true <-> Exists layerwise_completed (history b c v m ks).
  Proof.
    induction ks as [|k ks IH] using rev_ind.
    - cbn. split; [discriminate | intros H; inversion H].
    - rewrite after_snoc, history_snoc, step_layer_done, IH, Exists_app. unfold next. fold (after v m ks).
      rewrite Exists_one. reflexivity.
  Qed.

  Lemma fields_after_snoc (v : V) (ks : list call) k :
    fields_after v (ks ++ [k]) = match k with SetFields w => w | _ => fields_after v ks end.
  Proof. revert v. induction ks as [|x ks IH]; intros v; [destruct k; reflexivity|]. destruct x; cbn; apply IH. Qed.
  Lemma maxit_after_snoc m (ks : list call) k :
    maxit_after m (ks ++ [k]) = match k with SetMaxit n => n | _ => maxit_after m ks end.
  Proof. revert m. induction ks as [|x ks IH]; intros v; [destruct k; reflexivity|]. destruct x; cbn; apply IH. Qed.
  Lemma interpolated_snoc (v : V) (l : option V) (ks : list call) k :
    interpolated_from l v (ks ++ [k]) =
    match k with InterpolateFields _ => Some (fields_after v ks) | _ => interpolated_from l v ks end.
  Proof. revert v l. induction ks as [|x ks IH]; intros v l; [destruct k; reflexivity|]. destruct x; cbn; apply IH. Qed.

  Lemma fields_inv v m ks : o_fields (after v m ks) = fields_after v ks /\ o_maxit (after v m ks) = maxit_after m ks.
  Proof.
    induction ks as [|k ks IH] using rev_ind; [split; reflexivity|].
    rewrite after_snoc, fields_after_snoc, maxit_after_snoc.
    destruct (step_fields (after v m ks) k) as [H1 H2]. rewrite H1, H2.
    destruct IH as [IH1 IH2]. split; destruct k; auto.
  Qed.

  Lemma qgpv_inv v m ks : o_qgpv (after v m ks) = option_map (b_interp b) (interpolated_from None v ks).
  Proof.
    induction ks as [|k ks IH] using rev_ind; [reflexivity|].
    rewrite after_snoc, step_qgpv, interpolated_snoc. destruct k; auto.
    cbn. f_equal. f_equal. apply fields_inv.
  Qed.

  Lemma interpolated_some v (l : option V) (ks : list call) : interpolated_from l v ks <> None <->
    l <> None \/ Exists is_interpolate ks.
  Proof.
    revert v l. induction ks as [|k ks IH]; intros v l.
    - cbn. split; [tauto|]. intros [H|H]; [exact H|inversion H].
    - assert (E : forall P, ~ is_interpolate k -> (P \/ Exists is_interpolate (k :: ks) <-> P \/ Exists is_interpolate ks)).
      { intros P N. split; (intros [H|H]; [now left|right]); [inversion H; [contradiction|assumption] | now constructor 2]. }
      destruct k; cbn [interpolated_from]; rewrite IH; try (rewrite E by (intros [t H]; discriminate); reflexivity).
      split; intros _; [right; constructor; now exists named_tuple | left; discriminate].
  Qed.

  (** C37 *)
  Lemma read_qgpv_ok v m ks : (exists i, read_qgpv c (after v m ks) = inl i) <->
    Exists is_interpolate ks /\ c_even c && c_nh_only c = false.
  Proof.
    unfold read_qgpv. rewrite qgpv_inv.
    pose proof (interpolated_some v None ks) as H.
    destruct (interpolated_from None v ks) as [w|]; cbn.
    - assert (E : Exists is_interpolate ks) by (destruct (proj1 H) as [N|N]; [discriminate|congruence|exact N]).
      destruct (c_even c && c_nh_only c); split.
      + intros [i Hi]; discriminate.
      + intros [_ N]; discriminate.
      + intros _; split; auto.
      + intros _; eauto.
    - split; [intros [i Hi]; discriminate|]. intros [E _]. exfalso. apply (proj2 H); auto.
  Qed.

  Lemma converged_needs v m ks : Exists converged (history b c v m ks) ->
    Exists is_interpolate ks /\ c_even c && c_nh_only c = false.
  Proof.
    induction ks as [|k ks IH] using rev_ind; [cbn; intros H; inversion H|].
    rewrite history_snoc, Exists_app. intros [H|H].
    - destruct (IH H) as [H1 H2]. split; [apply Exists_app; now left | exact H2].
    - apply (proj1 (Exists_one _ _)) in H; destruct H as [K [n [s A]]]. cbn [fst snd] in K, A. subst k. unfold next in A. cbn [step] in A.
      fold (after v m ks) in A. unfold compute_reference_states in A.
      destruct (read_qgpv c (after v m ks)) as [i|e] eqn:E; [|discriminate].
      destruct (proj1 (read_qgpv_ok v m ks) (ex_intro _ i E)) as [H2 H3].
      split; [apply Exists_app; now left | exact H3].
  Qed.

  Lemma flux_iff v m ks nc : acceptable c nc ->
    (returns (next b c v m ks (ComputeFluxes nc)) <->
     Exists converged (history b c v m ks) /\ ~ Exists nonconvergent (history b c v m ks)).
  Proof.
    intros A. rewrite <- nonconv_inv. unfold next. fold (after v m ks). cbn [step]. unfold compute_fluxes.
    split.
    - intros H. destruct (read_qgpv c (after v m ks)) as [i|e] eqn:E; [|exfalso; exact (H e eq_refl)].
      destruct (o_nonconv (after v m ks)) eqn:N; [exfalso; exact (H _ eq_refl)|].
      destruct (o_refs_done (after v m ks)) eqn:D; cbn [negb] in H; [|exfalso; exact (H _ eq_refl)].
      split; [apply refs_done_inv; assumption | discriminate].
    - intros [H1 H2]. destruct (converged_needs v m ks H1) as [H3 H4].
      destruct (proj2 (read_qgpv_ok v m ks) (conj H3 H4)) as [i E]. rewrite E.
      destruct (o_nonconv (after v m ks)) eqn:N; [congruence|].
      apply (refs_done_inv v m ks N) in H1. rewrite H1. cbn [negb].
      unfold ncforce_rows. destruct nc as [[n x]|]; cbn in A.
      + subst n. rewrite Nat.eqb_refl, Nat.eqb_refl. intros e; discriminate.
      + rewrite Nat.eqb_refl. intros e; discriminate.
  Qed.

  Lemma flux_order v m ks nc : returns (next b c v m ks (ComputeFluxes nc)) ->
    exists ks1 ks2, ks = ks1 ++ ComputeReferenceStates :: ks2 /\ Exists is_interpolate ks1 /\
      exists n s, next b c v m ks1 ComputeReferenceStates = Refs false n s.
  Proof.
    intros H.
    assert (H1 : Exists converged (history b c v m ks)).
    { unfold next in H. fold (after v m ks) in H. cbn [step] in H. unfold compute_fluxes in H.
      destruct (read_qgpv c (after v m ks)) as [i|e] eqn:E; [|exfalso; exact (H e eq_refl)].
      destruct (o_nonconv (after v m ks)) eqn:N; [exfalso; exact (H _ eq_refl)|].
      destruct (o_refs_done (after v m ks)) eqn:D; cbn [negb] in H; [|exfalso; exact (H _ eq_refl)].
      apply refs_done_inv; assumption. }
    clear H. induction ks as [|k ks IH] using rev_ind; [cbn in H1; inversion H1|].
    rewrite history_snoc, Exists_app in H1. destruct H1 as [H|H].
    - destruct (IH H) as (ks1 & ks2 & E & H2 & H3). exists ks1, (ks2 ++ [k]). subst ks.
      rewrite <- app_assoc. cbn. auto.
    - apply (proj1 (Exists_one _ _)) in H; destruct H as [K [n [s A]]]. cbn [fst snd] in K, A. subst k.
      exists ks, []. split; [reflexivity|].
      assert (C : Exists converged (history b c v m (ks ++ [ComputeReferenceStates]))).
      { rewrite history_snoc. apply Exists_app. right. constructor. split; [reflexivity | eauto]. }
      destruct (converged_needs v m _ C) as [H2 _]. split.
      + apply Exists_app in H2. destruct H2 as [H2|H2]; [exact H2|]. apply (proj1 (Exists_one _ _)) in H2; destruct H2 as [t H2]; discriminate.
      + eauto.
  Qed.

  (** C38 *)
  Lemma run_history_app v m ks ks' : exists tr, history b c v m (ks ++ ks') = history b c v m ks ++ tr.
  Proof. unfold history. rewrite run_app. cbn [snd]. eauto. Qed.

  Lemma no_recovery v m ks ks' nc : Exists nonconvergent (history b c v m ks) ->
    exists e, next b c v m (ks ++ ks') (ComputeFluxes nc) = Raised e.
  Proof.
    intros H.
    assert (H1 : o_nonconv (after v m (ks ++ ks')) = true).
    { apply nonconv_inv. destruct (run_history_app v m ks ks') as [tr E]. rewrite E. apply Exists_app. now left. }
    unfold next. fold (after v m (ks ++ ks')). cbn [step]. unfold compute_fluxes.
    destruct (read_qgpv c (after v m (ks ++ ks'))); [|cbn; eauto]. rewrite H1. cbn. eauto.
  Qed.

  (** C39 *)
  Lemma refs_after_compute v m ks n s w :
    next b c v m ks ComputeReferenceStates = Refs w n s ->
    exists u, interpolated_from None v ks = Some u /\
      o_refs (after v m (ks ++ [ComputeReferenceStates])) NHem = b_refs b (b_interp b u) NHem (maxit_after m ks) /\
      (c_nh_only c = false ->
       o_refs (after v m (ks ++ [ComputeReferenceStates])) SHem = b_refs b (b_interp b u) SHem (maxit_after m ks)).
  Proof.
    intros H. unfold next in H. fold (after v m ks) in H. rewrite after_snoc. cbn [step] in *.
    unfold compute_reference_states in *. destruct (read_qgpv c (after v m ks)) as [i|e] eqn:E; [|discriminate].
    unfold read_qgpv in E. rewrite qgpv_inv in E.
    destruct (interpolated_from None v ks) as [u|]; [|discriminate]. cbn [option_map] in E.
    assert (Ei : i = b_interp b u) by (destruct (c_even c && c_nh_only c); [discriminate | now injection E]).
    exists u. split; [reflexivity|]. subst i. destruct (fields_inv v m ks) as [_ M]. rewrite M in *.
    destruct (fails b c (after v m ks) (b_interp b u) NHem), (c_raise c), (c_nh_only c),
      (fails b c (after v m ks) (b_interp b u) SHem); cbn in *; try discriminate; split; auto; discriminate.
  Qed.

  Lemma refs_keep v m ks mid : Forall (fun k => k <> ComputeReferenceStates) mid ->
    o_refs (after v m (ks ++ mid)) = o_refs (after v m ks).
  Proof.
    induction mid as [|k mid IH] using rev_ind; [now rewrite app_nil_r|]. intros H.
    apply Forall_app in H. destruct H as [H1 H2]. inversion H2; subst.
    rewrite app_assoc, after_snoc, step_refs_other by assumption. now apply IH.
  Qed.

  Lemma interpolated_keep v (l : option V) (ks mid : list call) : Forall (fun k => ~ is_interpolate k) mid ->
    interpolated_from l v (ks ++ mid) = interpolated_from l v ks.
  Proof.
    induction mid as [|k mid IH] using rev_ind; [now rewrite app_nil_r|]. intros H.
    apply Forall_app in H. destruct H as [H1 H2]. inversion H2 as [|? ? N N2]; subst.
    rewrite app_assoc, interpolated_snoc, IH by exact H1. destruct k; try reflexivity.
    exfalso. apply N. now exists named_tuple.
  Qed.

  Lemma flux_value v m ks mid nc n s :
    Forall (fun k => k <> ComputeReferenceStates) mid ->
    returns (next b c v m ks ComputeReferenceStates) ->
    next b c v m (ks ++ ComputeReferenceStates :: mid) (ComputeFluxes nc) = Fluxes n s ->
    exists u w, interpolated_from None v ks = Some u /\
      interpolated_from None v (ks ++ ComputeReferenceStates :: mid) = Some w /\
      n = b_flux b (b_interp b w) (b_refs b (b_interp b u) NHem (maxit_after m ks)) (content nc) NHem /\
      s = south c (b_flux b (b_interp b w) (b_refs b (b_interp b u) SHem (maxit_after m ks)) (content nc) SHem).
  Proof.
    intros Hm Hr Hf.
    assert (HR : exists w0 n0 s0, next b c v m ks ComputeReferenceStates = Refs w0 n0 s0).
    { unfold next in *. cbn [step] in *. unfold compute_reference_states in *.
      destruct (read_qgpv c _); [|exfalso; eapply Hr; reflexivity].
      destruct (fails b c _ i NHem && c_raise c); [exfalso; eapply Hr; reflexivity|].
      destruct (negb (c_nh_only c) && fails b c _ i SHem && c_raise c); [exfalso; eapply Hr; reflexivity|].
      cbn. eauto. }
    destruct HR as (w0 & n0 & s0 & HR). destruct (refs_after_compute v m ks n0 s0 w0 HR) as (u & Hu & RN & RS).
    replace (ks ++ ComputeReferenceStates :: mid) with ((ks ++ [ComputeReferenceStates]) ++ mid) in *
      by (rewrite <- app_assoc; reflexivity).
    unfold next in Hf. fold (after v m ((ks ++ [ComputeReferenceStates]) ++ mid)) in Hf. cbn [step] in Hf.
    unfold compute_fluxes in Hf.
    destruct (read_qgpv c (after v m ((ks ++ [ComputeReferenceStates]) ++ mid))) as [i|e] eqn:E; [|discriminate].
    destruct (o_nonconv _); [discriminate|]. destruct (negb (o_refs_done _)); [discriminate|].
    assert (HX : exists x, ncforce_rows c (nlat_analysis c) nc = inl x /\ snd x = content nc).
    { unfold ncforce_rows in *. destruct nc as [[k x]|]; [|eexists; split; reflexivity].
      destruct (k =? nlat_analysis c); [eexists; split; reflexivity | discriminate]. }
    destruct HX as [[k x] [HX1 HX2]]. rewrite HX1 in Hf. cbn in HX2. subst x.
    destruct (k =? nlat_analysis c); [|discriminate]. cbn in Hf. injection Hf as Hn Hs.
    unfold read_qgpv in E. rewrite qgpv_inv in E.
    destruct (interpolated_from None v ((ks ++ [ComputeReferenceStates]) ++ mid)) as [w|]; [|discriminate].
    cbn [option_map] in E.
    assert (Ei : i = b_interp b w) by (destruct (c_even c && c_nh_only c); [discriminate | now injection E]).
    subst i. exists u, w. repeat split; auto.
    - now rewrite <- Hn, refs_keep, RN.
    - rewrite <- Hs. unfold south. destruct (c_nh_only c) eqn:EN; [reflexivity|].
      rewrite refs_keep by assumption. now rewrite RS.
  Qed.

  Lemma flux_consistent v m ks mid nc n s :
    Forall (fun k => k <> ComputeReferenceStates /\ ~ is_interpolate k) mid ->
    returns (next b c v m ks ComputeReferenceStates) ->
    next b c v m (ks ++ ComputeReferenceStates :: mid) (ComputeFluxes nc) = Fluxes n s ->
    exists u, interpolated_from None v (ks ++ ComputeReferenceStates :: mid) = Some u /\
      let i := b_interp b u in
      n = b_flux b i (b_refs b i NHem (maxit_after m ks)) (content nc) NHem /\
      s = south c (b_flux b i (b_refs b i SHem (maxit_after m ks)) (content nc) SHem).
  Proof.
    intros Hm Hr Hf.
    assert (H1 : Forall (fun k => k <> ComputeReferenceStates) mid) by (eapply Forall_impl; [|exact Hm]; cbn; tauto).
    destruct (flux_value v m ks mid nc n s H1 Hr Hf) as (u & w & Hu & Hw & Hn & Hs).
    exists u. assert (E : Some w = Some u).
    { rewrite <- Hw, <- Hu. replace (ks ++ ComputeReferenceStates :: mid) with ((ks ++ [ComputeReferenceStates]) ++ mid)
        by (rewrite <- app_assoc; reflexivity).
      rewrite interpolated_keep by (eapply Forall_impl; [|exact Hm]; cbn; tauto).
      rewrite interpolated_snoc. reflexivity. }
    injection E as E. subst w. auto.
  Qed.

  (** C40 *)
  Lemma layer_iff v m ks : returns (next b c v m ks ReadLayer) <-> Exists layerwise_completed (history b c v m ks).
  Proof.
    rewrite <- layer_inv. unfold next. fold (after v m ks). cbn [step snd]. unfold read_layer.
    destruct (o_layer_done (after v m ks)); split; intros H; try reflexivity.
    - intros e; discriminate.
    - exfalso. exact (H _ eq_refl).
    - discriminate.
  Qed.
  Lemma layer_error v m ks : ~ Exists layerwise_completed (history b c v m ks) ->
    next b c v m ks ReadLayer = Raised NotComputedYet.
  Proof.
    rewrite <- layer_inv. unfold next. fold (after v m ks). cbn [step snd]. unfold read_layer.
    destruct (o_layer_done (after v m ks)); [congruence | reflexivity].
  Qed.

  (** C41 *)
  Lemma lwa_only_iff v m ks : returns (next b c v m ks ComputeLwaOnly) <-> Exists is_interpolate ks.
  Proof.
    unfold next. fold (after v m ks). cbn [step]. unfold compute_lwa_only. rewrite qgpv_inv.
    pose proof (interpolated_some v None ks) as H.
    destruct (interpolated_from None v ks) as [w|]; cbn.
    - split; [intros _|intros _ e; discriminate]. destruct (proj1 H) as [N|N]; [discriminate|congruence|exact N].
    - split; [intros N; exfalso; exact (N _ eq_refl)|]. intros E. exfalso. apply (proj2 H); auto.
  Qed.

  Lemma layerwise_iff v m ks nc : acceptable c nc ->
    (returns (next b c v m ks (ComputeLayerwise nc)) <->
     Exists is_interpolate ks /\ (nc = None -> c_even c = false)).
  Proof.
    intros A. unfold next. fold (after v m ks). cbn [step]. unfold compute_layerwise. rewrite qgpv_inv.
    pose proof (interpolated_some v None ks) as H.
    destruct (interpolated_from None v ks) as [w|]; cbn.
    - assert (E : Exists is_interpolate ks) by (destruct (proj1 H) as [N|N]; [discriminate|congruence|exact N]).
      unfold ncforce_rows. destruct nc as [[n x]|]; cbn in A.
      + subst n. rewrite Nat.eqb_refl, Nat.eqb_refl. split; [intros _; split; [exact E|discriminate] | intros _ e; discriminate].
      + unfold nlat_analysis. destruct (c_even c).
        * assert (Q : c_nlat c =? c_nlat c + 1 = false) by (apply Nat.eqb_neq; lia). rewrite Q.
          split; [intros N; exfalso; exact (N _ eq_refl) | intros [_ N]; specialize (N eq_refl); discriminate].
        * rewrite Nat.eqb_refl. split; [auto | intros _ e; discriminate].
    - split; [intros N; exfalso; exact (N _ eq_refl)|]. intros [E _]. exfalso. apply (proj2 H); auto.
  Qed.

  Lemma refs_initial v m ks : Forall (fun k => k <> ComputeReferenceStates) ks ->
    o_refs (after v m ks) = fun _ => b_refs0 b.
  Proof. intros H. change ks with ([] ++ ks). rewrite refs_keep by exact H. reflexivity. Qed.

  Lemma lwa_only_zero v m ks n s : Forall (fun k => k <> ComputeReferenceStates) ks ->
    next b c v m ks ComputeLwaOnly = Lwa n s ->
    exists u, interpolated_from None v ks = Some u /\ n = b_lwa b (b_interp b u) (b_refs0 b) NHem.
  Proof.
    intros H. unfold next. fold (after v m ks). cbn [step]. unfold compute_lwa_only. rewrite qgpv_inv.
    destruct (interpolated_from None v ks) as [u|]; cbn; [|discriminate].
    intros E. injection E as E1 E2. exists u. split; [reflexivity|]. rewrite <- E1, (refs_initial v m ks H). reflexivity.
  Qed.

  Lemma read_refs_zero v m ks : Forall (fun k => k <> ComputeReferenceStates) ks ->
    next b c v m ks ReadRefs = Refs false (b_refs0 b) (south c (b_refs0 b)).
  Proof.
    intros H. unfold next. fold (after v m ks). cbn [step snd]. unfold read_refs. now rewrite (refs_initial v m ks H).
  Qed.

  (** northern-only mode on an even grid *)
  Lemma even_nh_dead v m ks : c_even c = true -> c_nh_only c = true ->
    (exists e, next b c v m ks ComputeReferenceStates = Raised e) /\
    (forall nc, exists e, next b c v m ks (ComputeFluxes nc) = Raised e) /\
    (exists e, next b c v m ks (InterpolateFields true) = Raised e).
  Proof.
    intros E N. unfold next. fold (after v m ks).
    assert (Q : forall o : @obj V I R L, exists e, read_qgpv c o = inr e).
    { intros o. unfold read_qgpv. rewrite E, N. destruct (o_qgpv o); cbn; eauto. }
    repeat split; intros; cbn [step].
    - unfold compute_reference_states. destruct (Q (after v m ks)) as [e H]. rewrite H. cbn. eauto.
    - unfold compute_fluxes. destruct (Q (after v m ks)) as [e H]. rewrite H. cbn. eauto.
    - unfold interpolate_fields. match goal with |- context [read_qgpv c ?o] => destruct (Q o) as [e H] end.
      rewrite H. cbn. eauto.
  Qed.

  Lemma nonconvergent_needs v m ks : Exists nonconvergent (history b c v m ks) -> Exists is_interpolate ks.
  Proof.
    induction ks as [|k ks IH] using rev_ind; [cbn; intros H; inversion H|].
    rewrite history_snoc, Exists_app. intros [H|H]; [apply Exists_app; left; auto|].
    apply (proj1 (Exists_one _ _)) in H. destruct H as [K A]. cbn [fst snd] in K, A. subst k.
    apply Exists_app. left. unfold next in A. cbn [step] in A. fold (after v m ks) in A.
    unfold compute_reference_states in A. destruct (read_qgpv c (after v m ks)) as [i|e] eqn:E.
    - apply (read_qgpv_ok v m ks). eauto.
    - cbn [snd] in A. destruct A as [[h A]|[n [s A]]]; [|discriminate]. injection A as ->.
      unfold read_qgpv in E. destruct (o_qgpv (after v m ks)); [destruct (c_even c && c_nh_only c)|]; discriminate.
  Qed.

  Lemma lwa_only_after_nonconvergence v m ks :
    Exists nonconvergent (history b c v m ks) -> returns (next b c v m ks ComputeLwaOnly).
  Proof. intros H. apply lwa_only_iff. eapply nonconvergent_needs. exact H. Qed.
End P.

(** C44 *)
Lemma sor_loop_spec : forall fuel nnn met,
  let r := sor_loop fuel nnn met in
  nnn <= r <= nnn + fuel /\ (forall n, nnn <= n < r -> ~ (2 <= n /\ met n = true)) /\
  (r < nnn + fuel -> 2 <= r /\ met r = true).
Proof.
  induction fuel as [|f IH]; intros nnn met; cbn [sor_loop].
  - cbn zeta. repeat split; intros; lia.
  - destruct ((1 <? nnn) && met nnn) eqn:E; cbn zeta.
    + apply andb_true_iff in E. destruct E as [E1 E2]. apply Nat.ltb_lt in E1.
      repeat split; intros; try lia. exact E2.
    + destruct (IH (nnn + 1) met) as (H1 & H2 & H3). cbn zeta in H1, H2, H3.
      split; [lia|]. split; [|intros Hr; apply H3; lia]. intros n Hn.
      destruct (Nat.eq_dec n nnn) as [->|D]; [|apply H2; lia].
      intros [A B]. rewrite B, andb_true_r in E. apply Nat.ltb_ge in E. lia.
Qed.

Lemma num_of_iter_met maxits met n : 2 <= n <= maxits -> met n = true ->
  (forall k, 2 <= k < n -> met k = false) -> num_of_iter maxits met = n.
Proof.
  intros H M F. unfold num_of_iter. destruct (sor_loop_spec maxits 1 met) as (H1 & H2 & H3). cbn zeta in *.
  set (r := sor_loop maxits 1 met) in *.
  destruct (lt_eq_lt_dec r n) as [[L|E]|G]; [|exact E|].
  - destruct H3 as [A B]; [lia|]. rewrite F in B by lia. discriminate.
  - exfalso. apply (H2 n); [lia|]. split; [lia|exact M].
Qed.

Lemma num_of_iter_none maxits met : (forall k, 2 <= k <= maxits -> met k = false) -> num_of_iter maxits met = maxits + 1.
Proof.
  intros F. unfold num_of_iter. destruct (sor_loop_spec maxits 1 met) as (H1 & H2 & H3). cbn zeta in *.
  set (r := sor_loop maxits 1 met) in *. destruct (Nat.eq_dec r (1 + maxits)) as [E|N]; [lia|].
  destruct H3 as [A B]; [lia|]. rewrite F in B by lia. discriminate.
Qed.

Lemma flagged_iff maxits met : maxits <= num_of_iter maxits met <-> forall n, 2 <= n < maxits -> met n = false.
Proof.
  unfold num_of_iter. destruct (sor_loop_spec maxits 1 met) as (H1 & H2 & H3). cbn zeta in *.
  set (r := sor_loop maxits 1 met) in *. split.
  - intros H n Hn. destruct (met n) eqn:E; [|reflexivity]. exfalso. apply (H2 n); [lia|]. split; [lia|exact E].
  - intros H. destruct (le_lt_dec maxits r) as [L|G]; [exact L|]. destruct H3 as [A B]; [lia|].
    rewrite H in B by lia. discriminate.
Qed.

Lemma reported_iff {V I R X W F L} (b : backend V I R X W F L) c v maxit ks u :
  c_class c = NH18 -> c_even c && c_nh_only c = false -> interpolated_from None v ks = Some u ->
  (complains (next b c v maxit ks ComputeReferenceStates) <->
   exists h, (h = SHem -> c_nh_only c = false) /\
     forall n, 2 <= n < maxit_after maxit ks -> b_meets b (b_interp b u) h n = false).
Proof.
  intros HC HE HU. unfold next. cbn [step]. fold (after b c v maxit ks).
  unfold compute_reference_states, read_qgpv. rewrite qgpv_inv, HU. cbn [option_map]. rewrite HE.
  assert (HF : forall h, fails b c (after b c v maxit ks) (b_interp b u) h = true <->
    forall n, 2 <= n < maxit_after maxit ks -> b_meets b (b_interp b u) h n = false).
  { intros h. unfold fails. rewrite HC. destruct (fields_inv b c v maxit ks) as [_ M]. rewrite M.
    rewrite Nat.leb_le. apply flagged_iff. }
  unfold complains. cbn [fst snd].
  transitivity (exists h, (h = SHem -> c_nh_only c = false) /\ fails b c (after b c v maxit ks) (b_interp b u) h = true).
  2: { split; intros [h [H1 H2]]; exists h; (split; [exact H1 | now apply HF]). }
  clear HF. set (o := after b c v maxit ks). set (i := b_interp b u).
  destruct (fails b c o i NHem) eqn:FN, (fails b c o i SHem) eqn:FS, (c_raise c), (c_nh_only c) eqn:EN; cbn;
    (split; [intros Q; first [exists NHem; split; [discriminate | assumption] |
                             exists SHem; split; [reflexivity | assumption] |
                             exfalso; destruct Q as [[h Q]|[n [s Q]]]; discriminate] |
             intros [h [H1 H2]]; first [left; eexists; reflexivity | right; do 2 eexists; reflexivity |
                             exfalso; destruct h; [congruence | specialize (H1 eq_refl); congruence]]]).
Qed.
