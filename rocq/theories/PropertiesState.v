(** Properties C37-C41, C44 and C77-C80: which calls on a QGField succeed, and from which data.

    [history b c v maxit ks] is the list of calls ks with their answers on a fresh object created with
    fields v; [next b c v maxit ks k] is the answer of call k after them.  b stands for arbitrary
    numerical kernels, c for the constructor options. *)
From Verif Require Import Base QGState QGStateSpec QGStateProofs.
Open Scope list_scope.
Open Scope nat_scope.

(** a small backend for the examples: fields are numbers, the residual test is met from sweep [v] on,
    results record what they were computed from *)
Definition demo : backend nat nat (nat * nat) nat (nat * (nat * nat)) (nat * (nat * nat)) (nat * (nat * nat)) :=
  {| b_interp := fun v => v; b_meets := fun i _ n => i <=? n; b_refs := fun i _ m => (i, m); b_refs0 := (0, 0);
     b_lwa := fun i r _ => (i, r); b_flux := fun i r _ _ => (i, r); b_layer := fun i r _ _ => (i, r);
     b_lay0 := (0, (0, 0)) |}.
Definition demo_cfg : config := {| c_class := NH18; c_nh_only := false; c_even := false; c_raise := true; c_nlat := 9 |}.
Definition demo_warn : config := {| c_class := NH18; c_nh_only := false; c_even := false; c_raise := false; c_nlat := 9 |}.
Definition demo_even : config := {| c_class := NH18; c_nh_only := false; c_even := true; c_raise := true; c_nlat := 8 |}.

Section Lifecycle.
  Variables (V I R X W F L : Type) (b : backend V I R X W F L) (c : config) (v : V) (maxit : nat).

  (** C37, both directions: with an ncforce of the right shape the flux computation returns exactly in the
      histories with a converged compute_reference_states and no non-convergent one. *)
  Theorem C37_fluxes_return_iff_every_solve_converged :
    forall ks nc, acceptable c nc ->
      (returns (next b c v maxit ks (ComputeFluxes nc)) <->
       Exists converged (history b c v maxit ks) /\ ~ Exists nonconvergent (history b c v maxit ks)).
  Proof. exact (flux_iff b c v maxit). Qed.

  (** and interpolate_fields came before that converged call *)
  Theorem C37_fluxes_need_interpolation_then_reference_states :
    forall ks nc, returns (next b c v maxit ks (ComputeFluxes nc)) ->
      exists ks1 ks2, ks = ks1 ++ ComputeReferenceStates :: ks2 /\ Exists is_interpolate ks1 /\
        exists n s, next b c v maxit ks1 ComputeReferenceStates = Refs false n s.
  Proof. exact (flux_order b c v maxit). Qed.

  (** C38: recovery never happens, whatever is called afterwards. *)
  Theorem C38_no_recovery_after_nonconvergence :
    forall ks ks' nc, Exists nonconvergent (history b c v maxit ks) ->
      exists e, next b c v maxit (ks ++ ks') (ComputeFluxes nc) = Raised e.
  Proof. exact (no_recovery b c v maxit). Qed.

  (** C39, the true part: without an interpolate_fields call since the last compute_reference_states, the
      fluxes combine the fields of the last interpolation with the reference state of these same fields. *)
  Theorem C39_fluxes_use_matching_reference_state_partial :
    forall ks mid nc n s,
      Forall (fun k => k <> ComputeReferenceStates /\ ~ is_interpolate k) mid ->
      returns (next b c v maxit ks ComputeReferenceStates) ->
      next b c v maxit (ks ++ ComputeReferenceStates :: mid) (ComputeFluxes nc) = Fluxes n s ->
      exists u, interpolated_from None v (ks ++ ComputeReferenceStates :: mid) = Some u /\
        let i := b_interp b u in
        n = b_flux b i (b_refs b i NHem (maxit_after maxit ks)) (content nc) NHem /\
        s = south c (b_flux b i (b_refs b i SHem (maxit_after maxit ks)) (content nc) SHem).
  Proof. exact (flux_consistent b c v maxit). Qed.
  (** what is returned in general: u is what the reference state saw, w what the fields are from *)
  Theorem C39_fluxes_in_general :
    forall ks mid nc n s,
      Forall (fun k => k <> ComputeReferenceStates) mid ->
      returns (next b c v maxit ks ComputeReferenceStates) ->
      next b c v maxit (ks ++ ComputeReferenceStates :: mid) (ComputeFluxes nc) = Fluxes n s ->
      exists u w, interpolated_from None v ks = Some u /\
        interpolated_from None v (ks ++ ComputeReferenceStates :: mid) = Some w /\
        n = b_flux b (b_interp b w) (b_refs b (b_interp b u) NHem (maxit_after maxit ks)) (content nc) NHem /\
        s = south c (b_flux b (b_interp b w) (b_refs b (b_interp b u) SHem (maxit_after maxit ks)) (content nc) SHem).
  Proof. exact (flux_value b c v maxit). Qed.

  (** C40. *)
  Theorem C40_layerwise_readable_iff_computed :
    forall ks, returns (next b c v maxit ks ReadLayer) <-> Exists layerwise_completed (history b c v maxit ks).
  Proof. exact (layer_iff b c v maxit). Qed.
  Theorem C40_layerwise_read_before_computation_raises :
    forall ks, ~ Exists layerwise_completed (history b c v maxit ks) ->
      next b c v maxit ks ReadLayer = Raised NotComputedYet.
  Proof. exact (layer_error b c v maxit). Qed.

  (** C41: what they do require is interpolate_fields only. *)
  Theorem C41_lwa_only_requires_exactly_interpolation :
    forall ks, returns (next b c v maxit ks ComputeLwaOnly) <-> Exists is_interpolate ks.
  Proof. exact (lwa_only_iff b c v maxit). Qed.
  Theorem C41_layerwise_requires_exactly_interpolation :
    forall ks nc, acceptable c nc ->
      (returns (next b c v maxit ks (ComputeLayerwise nc)) <->
       Exists is_interpolate ks /\ (nc = None -> c_even c = false)).
  Proof. exact (layerwise_iff b c v maxit). Qed.
  Theorem C41_lwa_without_reference_state_uses_zeros :
    forall ks n s, Forall (fun k => k <> ComputeReferenceStates) ks ->
      next b c v maxit ks ComputeLwaOnly = Lwa n s ->
      exists u, interpolated_from None v ks = Some u /\ n = b_lwa b (b_interp b u) (b_refs0 b) NHem.
  Proof. exact (lwa_only_zero b c v maxit). Qed.

  (** C77: on an even grid the layerwise computation never succeeds without an ncforce argument. *)
  Theorem C77_layerwise_on_even_grid_refuted :
    c_even c = true -> forall ks, ~ returns (next b c v maxit ks (ComputeLayerwise None)).
  Proof.
    intros E ks H. apply (layerwise_iff b c v maxit ks None Logic.I) in H. destruct H as [_ H].
    rewrite (H eq_refl) in E. discriminate.
  Qed.
  Theorem C77_layerwise_on_odd_grid_partial :
    c_even c = false -> forall ks, Exists is_interpolate ks -> returns (next b c v maxit ks (ComputeLayerwise None)).
  Proof. intros E ks H. apply (layerwise_iff b c v maxit ks None Logic.I). auto. Qed.

  (** C78: in northern-only mode on an even grid nothing beyond interpolation can ever be computed. *)
  Theorem C78_northern_only_even_grid_pipeline_refuted :
    c_even c = true -> c_nh_only c = true -> forall ks,
      (exists e, next b c v maxit ks ComputeReferenceStates = Raised e) /\
      (forall nc, exists e, next b c v maxit ks (ComputeFluxes nc) = Raised e) /\
      (exists e, next b c v maxit ks (InterpolateFields true) = Raised e).
  Proof. exact (fun E N ks => even_nh_dead b c v maxit ks E N). Qed.

  (** C79: reading a reference state that was never computed returns the initial zeros. *)
  Theorem C79_uncomputed_reference_state_reads_as_zero_refuted :
    forall ks, Forall (fun k => k <> ComputeReferenceStates) ks ->
      next b c v maxit ks ReadRefs = Refs false (b_refs0 b) (south c (b_refs0 b)).
  Proof. exact (read_refs_zero b c v maxit). Qed.

  (** C80: the documented way out after non-convergence. *)
  Theorem C80_lwa_only_available_after_nonconvergence :
    forall ks, Exists nonconvergent (history b c v maxit ks) -> returns (next b c v maxit ks ComputeLwaOnly).
  Proof. exact (lwa_only_after_nonconvergence b c v maxit). Qed.
End Lifecycle.
Print Assumptions C37_fluxes_return_iff_every_solve_converged.
Print Assumptions C37_fluxes_need_interpolation_then_reference_states.
Print Assumptions C38_no_recovery_after_nonconvergence.
Print Assumptions C39_fluxes_use_matching_reference_state_partial.
Print Assumptions C39_fluxes_in_general.
Print Assumptions C40_layerwise_readable_iff_computed.
Print Assumptions C40_layerwise_read_before_computation_raises.
Print Assumptions C41_lwa_only_requires_exactly_interpolation.
Print Assumptions C41_layerwise_requires_exactly_interpolation.
Print Assumptions C41_lwa_without_reference_state_uses_zeros.
Print Assumptions C77_layerwise_on_even_grid_refuted.
Print Assumptions C77_layerwise_on_odd_grid_partial.
Print Assumptions C78_northern_only_even_grid_pipeline_refuted.
Print Assumptions C79_uncomputed_reference_state_reads_as_zero_refuted.
Print Assumptions C80_lwa_only_available_after_nonconvergence.

Example C37_hypotheses_met :
  history demo demo_cfg 3 10 [ComputeFluxes None; InterpolateFields true; ComputeFluxes None; ComputeReferenceStates;
                              ComputeFluxes None; ComputeFluxes (Some (9, 0)); ComputeFluxes (Some (8, 0))]
  = [(ComputeFluxes None, Raised QgpvMissing); (InterpolateFields true, Qgpv 3);
     (ComputeFluxes None, Raised RefsNotComputed); (ComputeReferenceStates, Refs false (3, 10) (Some (3, 10)));
     (ComputeFluxes None, Fluxes (3, (3, 10)) (Some (3, (3, 10))));
     (ComputeFluxes (Some (9, 0)), Fluxes (3, (3, 10)) (Some (3, (3, 10))));
     (ComputeFluxes (Some (8, 0)), Raised ShapeAssertion)].
Proof. reflexivity. Qed.

(** C38 as stated fails: the first solve exhausts maxit, the second one converges and says so, and the
    fluxes stay unavailable. *)
Theorem C38_recovery_after_failed_solve_refuted :
  exists (b : backend nat nat (nat * nat) nat (nat * (nat * nat)) (nat * (nat * nat)) (nat * (nat * nat))) c v maxit ks,
    Exists nonconvergent (history b c v maxit ks) /\
    (exists n s, next b c v maxit ks ComputeReferenceStates = Refs false n s) /\
    forall nc, ~ returns (next b c v maxit (ks ++ [ComputeReferenceStates]) (ComputeFluxes nc)).
Proof.
  exists demo, demo_cfg, 5, 4, [InterpolateFields true; ComputeReferenceStates; SetMaxit 10].
  assert (H : Exists nonconvergent
    (history demo demo_cfg 5 4 [InterpolateFields true; ComputeReferenceStates; SetMaxit 10])).
  { cbn. apply Exists_cons_tl, Exists_cons_hd. split; [reflexivity|]. left. exists NHem. reflexivity. }
  split; [exact H|]. split; [cbn; eauto|].
  intros nc N. destruct (C38_no_recovery_after_nonconvergence _ _ _ _ _ _ _ _ _ _ _ _ [ComputeReferenceStates] nc H) as [e E].
  exact (N e E).
Qed.
Print Assumptions C38_recovery_after_failed_solve_refuted.

(** C39 as stated fails: new fields, a new interpolate_fields, and the old reference state. *)
Theorem C39_stale_reference_state_refuted :
  exists (b : backend nat nat (nat * nat) nat (nat * (nat * nat)) (nat * (nat * nat)) (nat * (nat * nat))) c v w maxit,
    next b c v maxit [InterpolateFields true; ComputeReferenceStates; SetFields w; InterpolateFields true] (ComputeFluxes None)
    = Fluxes (b_flux b (b_interp b w) (b_refs b (b_interp b v) NHem maxit) None NHem)
        (Some (b_flux b (b_interp b w) (b_refs b (b_interp b v) SHem maxit) None SHem)) /\
    b_flux b (b_interp b w) (b_refs b (b_interp b v) NHem maxit) None NHem
    <> b_flux b (b_interp b w) (b_refs b (b_interp b w) NHem maxit) None NHem.
Proof. exists demo, demo_cfg, 3, 4, 10. split; [reflexivity | cbn; discriminate]. Qed.
Print Assumptions C39_stale_reference_state_refuted.
Example C39_hypotheses_met :
  returns (next demo demo_cfg 3 10 [InterpolateFields true] ComputeReferenceStates) /\
  exists n s, next demo demo_cfg 3 10 ([InterpolateFields true] ++ ComputeReferenceStates :: [ReadQgpv; ComputeLwaOnly])
    (ComputeFluxes None) = Fluxes n s.
Proof. split; [intros e; cbn; discriminate | cbn; eauto]. Qed.

Example C40_hypotheses_met :
  snd (nth 3 (history demo demo_cfg 3 10 [ReadLayer; InterpolateFields false; ComputeLayerwise None; ReadLayer]) (ReadQgpv, Done_))
  = Layers (3, (0, 0)) (Some (3, (0, 0))) /\
  ~ Exists layerwise_completed (history demo demo_cfg 3 10 [InterpolateFields false; ReadLayer]).
Proof.
  split; [reflexivity|]. cbn. intros H. repeat (inversion H as [? ? [nc E]|? ? H1]; subst; [discriminate|]; clear H; rename H1 into H).
  inversion H.
Qed.

(** C41 as stated fails for both methods, for all kernels and fields. *)
Theorem C41_computes_without_reference_state_refuted :
  forall (V I R X W F L : Type) (b : backend V I R X W F L) v maxit,
    returns (next b demo_cfg v maxit [InterpolateFields false] ComputeLwaOnly) /\
    returns (next b demo_cfg v maxit [InterpolateFields false] (ComputeLayerwise None)).
Proof. intros. split; intros e; cbn; discriminate. Qed.
Print Assumptions C41_computes_without_reference_state_refuted.

(** C44.  [met n]: the solver's tolerance test holds after sweep n (the code tests from sweep 2 on). *)
Theorem C44_reported_iteration_count :
  forall maxits met,
    (forall n, 2 <= n <= maxits -> met n = true -> (forall k, 2 <= k < n -> met k = false) -> num_of_iter maxits met = n) /\
    ((forall k, 2 <= k <= maxits -> met k = false) -> num_of_iter maxits met = maxits + 1).
Proof. split; [exact (num_of_iter_met maxits met) | exact (num_of_iter_none maxits met)]. Qed.
Print Assumptions C44_reported_iteration_count.

(** exactly when the solve is reported as non-convergent: convergence before the last iteration counts *)
Theorem C44_convergence_before_last_iteration_partial :
  forall (V I R X W F L : Type) (b : backend V I R X W F L) c v maxit ks u,
    c_class c = NH18 -> c_even c && c_nh_only c = false -> interpolated_from None v ks = Some u ->
    (complains (next b c v maxit ks ComputeReferenceStates) <->
     exists h, (h = SHem -> c_nh_only c = false) /\
       forall n, 2 <= n < maxit_after maxit ks -> b_meets b (b_interp b u) h n = false).
Proof. exact @reported_iff. Qed.
Print Assumptions C44_convergence_before_last_iteration_partial.

(** and C44 as stated fails at the last iteration, for every maxit >= 2 *)
Theorem C44_convergence_on_last_iteration_refuted :
  forall maxit, 2 <= maxit ->
  exists (b : backend nat nat (nat * nat) nat (nat * (nat * nat)) (nat * (nat * nat)) (nat * (nat * nat))) v,
    b_meets b (b_interp b v) NHem maxit = true /\ b_meets b (b_interp b v) SHem maxit = true /\
    num_of_iter maxit (b_meets b (b_interp b v) NHem) = maxit /\
    next b demo_cfg v maxit [InterpolateFields true] ComputeReferenceStates = Raised (NonConvergent NHem).
Proof.
  intros maxit H. exists demo, maxit. cbn [demo b_meets b_interp].
  assert (E : num_of_iter maxit (fun n => maxit <=? n) = maxit).
  { apply num_of_iter_met; [lia | apply Nat.leb_refl | intros k Hk; apply Nat.leb_gt; lia]. }
  repeat split; try apply Nat.leb_refl; [exact E|].
  unfold next. cbn -[num_of_iter Nat.leb]. unfold fails. cbn -[num_of_iter Nat.leb]. rewrite E, Nat.leb_refl. reflexivity.
Qed.
Print Assumptions C44_convergence_on_last_iteration_refuted.
Example C44_hypotheses_met :
  interpolated_from (X := nat) None 3 [InterpolateFields true] = Some 3 /\
  ~ complains (next demo demo_warn 3 4 [InterpolateFields true] ComputeReferenceStates) /\
  complains (next demo demo_warn 4 4 [InterpolateFields true] ComputeReferenceStates).
Proof.
  split; [reflexivity|]. split.
  - cbn. intros [[h H]|[n [s H]]]; discriminate.
  - cbn. right; eauto.
Qed.

Example C77_hypotheses_met :
  history demo demo_even 3 10 [InterpolateFields true; ComputeReferenceStates; ComputeFluxes None; ComputeLayerwise None]
  = [(InterpolateFields true, Qgpv 3); (ComputeReferenceStates, Refs false (3, 10) (Some (3, 10)));
     (ComputeFluxes None, Fluxes (3, (3, 10)) (Some (3, (3, 10)))); (ComputeLayerwise None, Raised KernelRejects)].
Proof. reflexivity. Qed.
Example C80_hypotheses_met :
  Exists nonconvergent (history demo demo_warn 5 3 [InterpolateFields true; ComputeReferenceStates]).
Proof. cbn. apply Exists_cons_tl, Exists_cons_hd. split; [reflexivity|]. right. do 2 eexists. reflexivity. Qed.
