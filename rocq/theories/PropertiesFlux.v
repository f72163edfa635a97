(** Properties of the LWA and flux kernels (compute_flux_dirinv.f90, compute_lwa_only_nhn22.f90) and of the
    vertical averages taken in oopinterface.py.  Vocabulary: FluxSpec.v. *)
From Verif Require Import Base Spec SpecFacts Flux FluxSpec FluxProofs.
From Coq Require Import String.
Open Scope R_scope.
Open Scope list_scope.

(** a small grid used by the examples: 5 latitudes, 3 in the hemisphere, 1 longitude, 4 levels *)
Definition D0 (b : nat) : fluxdims R :=
  {| imax := 1; jmax := 5; kmax := 4; nd := 3; jb := b; jd := 3 - b; is_nhem := true;
     f_a := 1; f_om := 1; f_dz := 1; f_h := 1; f_rr := 1; f_cp := 1; f_prefac := 1 |}.
Example D0_sizes : hemisphere_sizes (D0 0) /\ hemisphere_sizes (D0 1).
Proof. unfold hemisphere_sizes; cbn; lia. Qed.
Example D0_points : analysed_row (D0 0) 2 /\ analysed_row (D0 1) 2 /\ interior_level (D0 0) 2 /\ interior_level (D0 1) 3.
Proof. unfold analysed_row, interior_level; cbn; lia. Qed.

(** C45 *)
Theorem C45_lwa_kernel_is_displaced_contour_integral :
  forall (D : fluxdims R) (pv : arr3 R) (qref : arr2 R) (i j k : nat),
    analysed_row D j -> interior_level D k ->
    (is_nhem D = true ->
       astar1 D pv qref i j k = high_pv_south D pv qref i j k /\ astar2 D pv qref i j k = low_pv_north D pv qref i j k) /\
    (is_nhem D = false ->
       astar1 D pv qref i j k = low_pv_north D pv qref i j k /\ astar2 D pv qref i j k = high_pv_south D pv qref i j k).
Proof.
  intros D pv qref i j k Hj Hk. destruct (astar_in D pv qref i j k Hj Hk) as [E1 E2].
  split; intros H; rewrite H in E1, E2; auto.
Qed.
Print Assumptions C45_lwa_kernel_is_displaced_contour_integral.

Theorem C45_lwa_kernel_zero_outside :
  forall (D : fluxdims R) (pv : arr3 R) (qref : arr2 R) (i j k : nat),
    ~ (analysed_row D j /\ interior_level D k) -> astar1 D pv qref i j k = 0 /\ astar2 D pv qref i j k = 0.
Proof. exact astar_out. Qed.
Print Assumptions C45_lwa_kernel_zero_outside.

Theorem C45_lwa_kernel_nonnegative :
  forall (D : fluxdims R) (pv : arr3 R) (qref : arr2 R) (i j k : nat),
    hemisphere_sizes D -> 0 <= f_a D -> 0 <= astar1 D pv qref i j k /\ 0 <= astar2 D pv qref i j k.
Proof.
  intros D pv qref i j k (S1 & S2 & S3 & S4 & S5) Ha.
  destruct (analysed D j k) eqn:E.
  - apply analysed_true in E. destruct E as [Hj Hk]. destruct (astar_in D pv qref i j k Hj Hk) as [-> ->].
    assert (H := analysed_row_nd D j Hj).
    assert (0 <= low_pv_north D pv qref i j k) by (apply low_pv_north_nonneg; auto; lia).
    assert (0 <= high_pv_south D pv qref i j k) by (apply high_pv_south_nonneg; auto; lia).
    destruct (is_nhem D); auto.
  - apply analysed_false in E. destruct (astar_out D pv qref i j k E) as [-> ->]. lra.
Qed.
Print Assumptions C45_lwa_kernel_nonnegative.

(** the southern component is positive in a concrete case: row 2, PV 1 at the equator against Qref 0 *)
Example C45_nontrivial : 0 < astar1 (D0 0) (fun _ _ _ => 1) (fun _ _ => 0) 1%nat 2%nat 2%nat.
Proof.
  destruct (C45_lwa_kernel_is_displaced_contour_integral (D0 0) (fun _ _ _ => 1) (fun _ _ => 0) 1%nat 2%nat 2%nat) as [H _];
    try (unfold analysed_row, interior_level; cbn; lia).
  destruct (H eq_refl) as [-> _]. unfold high_pv_south, element, latitude, row_spacing, Sum; cbn [D0 f_a is_nhem jmax Nat.sub seq map fold_right INR].
  unfold ppart. rewrite Rmax_left by lra. replace ((1 - 1) * (PI / (1 + 1 + 1 + 1))) with 0 by ring. rewrite cos_0. assert (H1 := PI_RGT_0). lra.
Qed.

(** C46: for any arithmetic *)
Theorem C46_kernels_return_same_lwa :
  forall (A : Type) (N : Num A) (D : fluxdims A) (pv : arr3 A) (qref : arr2 A) (i j k : nat),
    lo_astar1 D pv qref i j k = astar1 D pv qref i j k /\ lo_astar2 D pv qref i j k = astar2 D pv qref i j k.
Proof. intros. split; [apply lo_astar1_eq|apply lo_astar2_eq]. Qed.
Print Assumptions C46_kernels_return_same_lwa.

(** C35 *)
Theorem C35_barotropic_lwa_paths_agree :
  forall (D : fluxdims R) (pv : arr3 R) (qref : arr2 R) (i j : nat),
    lo_astarbaro D pv qref i j = py_astar_baro D (fun k => INR k * f_dz D) pv qref i j.
Proof.
  intros. rewrite <- (Rmult_1_l (lo_astarbaro D pv qref i j)).
  replace 1 with (exp (- 0 / f_h D)) by (unfold Rdiv; rewrite Ropp_0, Rmult_0_l; apply exp_0).
  rewrite <- py_astar_baro_Sum. unfold py_astar_baro. rewrite !column_average_Sum. f_equal; apply Sum_ext; intros; rewrite Rplus_0_l; reflexivity.
Qed.
Print Assumptions C35_barotropic_lwa_paths_agree.
(** the height used by the python side is the model's uniform height *)
Example C35_height : forall dz k, uniform_height dz k = INR k * dz.
Proof. intros. unfold uniform_height. rewrite BaseFacts.nofnat_INR. reflexivity. Qed.

(** C36 *)
Theorem C36_u_baro_paths_agree_refuted :
  exists (D : fluxdims R) (uu : arr3 R) (i j : nat),
    hemisphere_sizes D /\ is_nhem D = true /\ analysed_row D j /\
    lo_ubaro D uu i j <> py_u_baro D (uniform_height (f_dz D)) uu i j.
Proof.
  exists (D0 0), (fun _ _ k => if Nat.eqb k 4 then 1 else 0), 1%nat, 2%nat.
  split; [apply D0_sizes|]. split; [reflexivity|]. split; [unfold analysed_row; cbn; lia|].
  rewrite lo_ubaro_Sum by (unfold analysed_row; cbn; lia). rewrite py_u_baro_Sum.
  unfold Sum. cbn [D0 kmax Nat.sub Nat.add seq map fold_right Nat.eqb f_dz f_h f_prefac].
  intros C. assert (H := exp_pos (- (INR 4 - 1) * 1 / 1)). lra.
Qed.
Print Assumptions C36_u_baro_paths_agree_refuted.

Theorem C36_u_baro_paths_partial :
  forall (D : fluxdims R) (uu : arr3 R) (i j : nat),
    hemisphere_sizes D -> is_nhem D = true -> (2 <= kmax D)%nat ->
    (analysed_row D j ->
       py_u_baro D (uniform_height (f_dz D)) uu i j =
       lo_ubaro D uu i j
       + uu i (field_row D j) (kmax D) * exp (- (INR (kmax D) - 1) * f_dz D / f_h D) * (f_dz D / f_prefac D)) /\
    (~ analysed_row D j -> lo_ubaro D uu i j = 0).
Proof.
  intros D uu i j (S1 & S2 & S3 & S4 & S5) North Hk. split.
  - intros Hj. rewrite lo_ubaro_Sum by assumption. rewrite py_u_baro_Sum.
    replace (kmax D + 1)%nat with (S (kmax D)) by lia. rewrite Sum_S_r by lia.
    replace (j + (jmax D - nd D))%nat with (field_row D j); [reflexivity|].
    unfold field_row. rewrite North. lia.
  - apply lo_ubaro_out.
Qed.
Print Assumptions C36_u_baro_paths_partial.

(** C47: no boundary index is safe, the reference wind is always read at row 0; with jb = 0 two arrays
    are also written at row 0 *)
Theorem C47_memory_bounds_refuted :
  forall D : fluxdims R, hemisphere_sizes D -> (jb D + 2 <= nd D)%nat -> (3 <= kmax D)%nat ->
    exists x, In x (flux_refs D) /\ ~ in_bounds x.
Proof.
  intros D S Hr Hk. exists ("uref"%string, [jd D; kmax D], [0%Z; 2%Z]).
  apply stray_read_occurs; auto. exists 2%nat. split; [unfold interior_level; lia|reflexivity].
Qed.
Print Assumptions C47_memory_bounds_refuted.

Theorem C47_memory_bounds_partial :
  forall (D : fluxdims R) (x : string * list nat * list Z),
    hemisphere_sizes D -> (jb D + 2 <= nd D)%nat ->
    (In x (flux_refs D) /\ ~ in_bounds x <->
     (exists k, interior_level D k /\ x = ("uref"%string, [jd D; kmax D], [0%Z; Z.of_nat k])) \/
     (jb D = 0%nat /\ exists i k o, (1 <= i <= imax D)%nat /\ interior_level D k /\ (o = "ep2"%string \/ o = "ep3"%string) /\
        x = (o, [imax D; nd D; kmax D], [Z.of_nat i; 0%Z; Z.of_nat k]))).
Proof.
  intros D x S Hr. split.
  - intros [Hin Hnb]. destruct (flux_refs_classified D S Hr x Hin) as [H|[H|H]]; [contradiction|left; exact H|right; exact H].
  - intros [H|H]; [apply stray_read_occurs|apply stray_write_occurs]; auto.
Qed.
Print Assumptions C47_memory_bounds_partial.

(** C48: the deviation used at the southernmost analysed row is not one from a reference wind of that
    level at all: it changes when only the reference wind of the level below changes *)
Theorem C48_momentum_flux_south_refuted :
  forall (D : fluxdims R) (i k : nat),
    hemisphere_sizes D -> is_nhem D = true -> (jb D + 2 <= nd D)%nat -> (3 <= nd D)%nat ->
    interior_level D k -> (1 <= i <= imax D)%nat ->
    exists (uu vv : arr3 R) (uref uref' : arr2 R),
      (forall j, uref j k = uref' j k) /\
      ep3 D uu vv uref i (jb D + 1)%nat k <> ep3 D uu vv uref' i (jb D + 1)%nat k.
Proof.
  intros D i k S North Hb H3 Hk Hi.
  exists (fun _ _ _ => 1), (fun _ _ _ => 1), (fun _ _ => 0), (fun _ k' => if Nat.eqb k' (k - 1) then 1 else 0).
  assert (Hk2 : (2 <= k)%nat) by (unfold interior_level in Hk; lia). split.
  - intros j. destruct (Nat.eqb_spec k (k - 1)); [lia|reflexivity].
  - rewrite !ep3_first by assumption. unfold momentum_flux. rewrite Nat.eqb_refl.
    assert (H := cos_first_row D S North Hb H3). unfold Rsqr. intros C. assert (0 < cos (latitude D (jb D)) * cos (latitude D (jb D))) by nra. lra.
Qed.
Print Assumptions C48_momentum_flux_south_refuted.

Theorem C48_momentum_flux_partial :
  forall (D : fluxdims R) (uu vv : arr3 R) (uref : arr2 R) (i j k : nat),
    hemisphere_sizes D -> is_nhem D = true -> (1 <= i <= imax D)%nat -> analysed_row D j -> interior_level D k ->
    (* north neighbour, always *)
    ep2 D uu vv uref i j k = momentum_flux D uu vv (uref (j + 1 - jb D)%nat k) i (j + 1) k /\
    (* south neighbour, except in the first analysed row *)
    ((jb D + 2 <= j)%nat -> ep3 D uu vv uref i j k = momentum_flux D uu vv (uref (j - 1 - jb D)%nat k) i (j - 1) k) /\
    (* there the deviation is taken from the polar reference wind of the level below *)
    (j = (jb D + 1)%nat -> ep3 D uu vv uref i j k = momentum_flux D uu vv (uref (jd D) (k - 1)%nat) i (j - 1) k).
Proof.
  intros D uu vv uref i j k S North Hi Hj Hk. split; [apply ep2_main; assumption|]. split.
  - intros H. apply ep3_main; assumption.
  - intros ->. rewrite ep3_first; auto.
    + replace (jb D + 1 - 1)%nat with (jb D) by lia. reflexivity.
    + unfold analysed_row in Hj. rewrite North in Hj. lia.
Qed.
Print Assumptions C48_momentum_flux_partial.

(** C49 *)
Theorem C49_f1_is_reference_wind_times_lwa :
  forall (D : fluxdims R) (pv : arr3 R) (qref uref : arr2 R) (i j k : nat),
    hemisphere_sizes D -> is_nhem D = true -> analysed_row D j -> interior_level D k ->
    ua1 D pv qref uref i j k = uref (j - jb D)%nat k * (astar1 D pv qref i j k + astar2 D pv qref i j k).
Proof. intros D pv qref uref i j k S North Hj Hk. rewrite ua1_in by assumption. unfold ref_row. rewrite North. reflexivity. Qed.
Print Assumptions C49_f1_is_reference_wind_times_lwa.

Theorem C49_undisturbed_flow_has_no_fluxes :
  forall (D : fluxdims R) (pv uu vv pt : arr3 R) (tn0 : nat -> R) (qref uref tref : arr2 R),
    hemisphere_sizes D -> is_nhem D = true ->
    (forall i r k, (1 <= r <= nd D)%nat -> pv i (field_row D r) k = qref r k) ->
    (forall r s k, (1 <= r <= s)%nat -> (s <= nd D)%nat -> qref r k <= qref s k) ->
    (forall i r k, (jb D + 1 <= r <= nd D)%nat -> uu i (field_row D r) k = uref (r - jb D)%nat k) ->
    (forall i r k, (jb D + 1 <= r <= nd D)%nat -> pt i (field_row D r) k = tref (r - jb D)%nat k) ->
    (forall i j k, vv i j k = 0) ->
    forall i j k,
      astar1 D pv qref i j k = 0 /\ astar2 D pv qref i j k = 0 /\ ua1 D pv qref uref i j k = 0 /\
      ua2 D pv uu qref uref i j k = 0 /\ ep1 D uu vv pt tn0 uref tref i j k = 0 /\
      ep2 D uu vv uref i j k = 0 /\ ep3 D uu vv uref i j k = 0 /\ ep4 D vv pt tn0 tref i j = 0.
Proof. exact undisturbed_zero. Qed.
Print Assumptions C49_undisturbed_flow_has_no_fluxes.
(** such a flow exists: PV growing northwards, solid wind and stratification *)
Example C49_nonvacuous : exists (pv uu vv pt : arr3 R) (qref uref tref : arr2 R),
    (forall i r k, (1 <= r <= nd (D0 0))%nat -> pv i (field_row (D0 0) r) k = qref r k) /\
    (forall r s k, (1 <= r <= s)%nat -> (s <= nd (D0 0))%nat -> qref r k <= qref s k) /\
    (forall i r k, (jb (D0 0) + 1 <= r <= nd (D0 0))%nat -> uu i (field_row (D0 0) r) k = uref (r - jb (D0 0))%nat k) /\
    (forall i r k, (jb (D0 0) + 1 <= r <= nd (D0 0))%nat -> pt i (field_row (D0 0) r) k = tref (r - jb (D0 0))%nat k) /\
    (forall i j k, vv i j k = 0) /\ qref 1%nat 2%nat < qref 2%nat 2%nat.
Proof.
  exists (fun _ j _ => INR (j - 2)), (fun _ _ k => INR k), (fun _ _ _ => 0), (fun _ _ k => 300 + INR k),
    (fun r _ => INR r), (fun _ k => INR k), (fun _ k => 300 + INR k).
  split; [|split; [|split; [|split; [|split]]]]; auto.
  - intros i r k Hr. f_equal. unfold field_row. cbn. lia.
  - intros. apply le_INR. lia.
  - cbn [INR]. lra.
Qed.

(** C81: on an "evenly spaced pseudoheight grid" the heights start at [h0], the height of the first pressure
    level *)
Theorem C81_barotropic_lwa_paths_agree_on_pseudoheight_input_refuted :
  forall (D : fluxdims R) (pv : arr3 R) (qref : arr2 R) (i j : nat) (h0 : R),
    0 < f_h D -> h0 <> 0 -> lo_astarbaro D pv qref i j <> 0 ->
    py_astar_baro D (fun k => h0 + INR k * f_dz D) pv qref i j <> lo_astarbaro D pv qref i j.
Proof.
  intros D pv qref i j h0 Hh H0 Hl. rewrite py_astar_baro_Sum. intros C.
  assert (E : exp (- h0 / f_h D) = 1). { apply (Rmult_eq_reg_r (lo_astarbaro D pv qref i j)); [|exact Hl]. rewrite C. ring. }
  rewrite <- exp_0 in E. apply exp_inv in E. apply H0. apply (f_equal (fun x => x * f_h D)) in E. field_simplify in E; lra.
Qed.
Print Assumptions C81_barotropic_lwa_paths_agree_on_pseudoheight_input_refuted.
(** 900 hPa is a possible first level, its height is not 0, and the LWA in the denominator can be positive *)
Example C81_height_nonzero : plev_to_height 7000 900 <> 0.
Proof.
  unfold plev_to_height. assert (H : ln (900 / 1000) < ln 1) by (apply ln_increasing; lra). rewrite ln_1 in H. lra.
Qed.
Example C81_lwa_nonzero : lo_astarbaro (D0 0) (fun _ _ _ => 1) (fun _ _ => 0) 1%nat 2%nat <> 0.
Proof.
  rewrite lo_astarbaro_Sum. apply Rgt_not_eq. cbn [D0 kmax f_dz f_h f_prefac]. unfold Sum; cbn [Nat.sub seq map fold_right].
  assert (N := fun k => C45_lwa_kernel_nonnegative (D0 0) (fun _ _ _ => 1) (fun _ _ => 0) 1 2 k (proj1 D0_sizes) Rle_0_1).
  assert (P := C45_nontrivial). destruct (N 2%nat) as [_ N2]. destruct (N 3%nat) as [N3 N3'].
  assert (E1 := exp_pos (- (INR 2 - 1) * 1 / 1)). assert (E2 := exp_pos (- (INR 3 - 1) * 1 / 1)).
  unfold D0 in *. cbn [Nat.sub] in *. nra.
Qed.
Theorem C81_barotropic_lwa_paths_partial :
  forall (D : fluxdims R) (pv : arr3 R) (qref : arr2 R) (i j : nat) (h0 : R),
    py_astar_baro D (fun k => h0 + INR k * f_dz D) pv qref i j = exp (- h0 / f_h D) * lo_astarbaro D pv qref i j.
Proof. intros. apply py_astar_baro_Sum. Qed.
Print Assumptions C81_barotropic_lwa_paths_partial.

(** C82 *)
Theorem C82_forcing_is_displaced_integral :
  forall (D : fluxdims R) (pv ncforce : arr3 R) (qref : arr2 R) (i j k : nat),
    (analysed_row D j -> interior_level D k ->
       ncforce3d D pv ncforce qref i j k =
       displaced D pv qref i j k (fun r => ncforce i (field_row D r) k * element D r)) /\
    (~ (analysed_row D j /\ interior_level D k) -> ncforce3d D pv ncforce qref i j k = 0).
Proof.
  intros. split.
  - intros Hj Hk. unfold ncforce3d. rewrite fill_in by assumption. apply sum_ncforce_R. apply analysed_row_nd. assumption.
  - apply fill_out.
Qed.
Print Assumptions C82_forcing_is_displaced_integral.
Theorem C82_forcing_linear :
  forall (D : fluxdims R) (pv f g : arr3 R) (qref : arr2 R) (a b : R) (i j k : nat),
    ncforce3d D pv (fun i j k => a * f i j k + b * g i j k) qref i j k =
    a * ncforce3d D pv f qref i j k + b * ncforce3d D pv g qref i j k.
Proof. exact ncforce3d_linear. Qed.
Print Assumptions C82_forcing_linear.
(** without forcing the term is zero: the default *)
Theorem C82_no_forcing :
  forall (D : fluxdims R) (pv : arr3 R) (qref : arr2 R) (i j k : nat), ncforce3d D pv (fun _ _ _ => 0) qref i j k = 0.
Proof.
  intros. assert (H := C82_forcing_linear D pv (fun _ _ _ => 0) (fun _ _ _ => 0) qref 0 0 i j k).
  rewrite !Rmult_0_l, Rplus_0_l in H. exact H.
Qed.
Print Assumptions C82_no_forcing.

(** C83 *)
Theorem C83_f2_formula :
  forall (D : fluxdims R) (pv uu : arr3 R) (qref uref : arr2 R) (i j k : nat),
    hemisphere_sizes D -> is_nhem D = true -> analysed_row D j -> interior_level D k ->
    ua2 D pv uu qref uref i j k =
    displaced D pv qref i j k (fun r =>
      (pv i (field_row D r) k - qref j k)
      * (uu i (field_row D r) k * cos (latitude D j) - uref (j - jb D)%nat k * cos (latitude D r))
      * (f_a D * row_spacing D)).
Proof. intros D pv uu qref uref i j k S North Hj Hk. rewrite ua2_in by assumption. unfold ref_row. rewrite North. reflexivity. Qed.
Print Assumptions C83_f2_formula.
Theorem C83_f3_formula :
  forall (D : fluxdims R) (uu vv pt : arr3 R) (tn0 : nat -> R) (uref tref : arr2 R) (i j k : nat),
    hemisphere_sizes D -> is_nhem D = true -> analysed_row D j -> interior_level D k ->
    let u_e := uu i (field_row D j) k - uref (j - jb D)%nat k in
    let v_e := vv i (field_row D j) k in
    let t_e := pt i (field_row D j) k - tref (j - jb D)%nat k in
    let height := (INR k - 1) * f_dz D in
    let stability := (tn0 (k + 1)%nat - tn0 (k - 1)%nat) / (2 * f_dz D) in
    f_dz D <> 0 -> tn0 (k + 1)%nat <> tn0 (k - 1)%nat ->
    ep1 D uu vv pt tn0 uref tref i j k =
    (v_e² - u_e² - f_rr D / f_h D * exp (- (f_rr D / f_cp D) * height / f_h D) * t_e² / stability) / 2 * cos (latitude D j).
Proof.
  intros D uu vv pt tn0 uref tref i j k S North Hj Hk u_e v_e t_e height stability Hz Ht. rewrite ep1_in by assumption.
  unfold ref_row. rewrite North. fold u_e v_e t_e height.
  replace (2 * f_dz D / (tn0 (k + 1)%nat - tn0 (k - 1)%nat)) with (/ stability).
  - unfold Rdiv. ring.
  - unfold stability. field. split; [lra|exact Hz].
Qed.
Print Assumptions C83_f3_formula.
Theorem C83_heat_flux_formula :
  forall (D : fluxdims R) (vv pt : arr3 R) (tn0 : nat -> R) (tref : arr2 R) (i j : nat),
    hemisphere_sizes D -> is_nhem D = true -> (3 <= kmax D)%nat ->
    (analysed_row D j ->
     let heat k := vv i (field_row D j) k * (pt i (field_row D j) k - tref (j - jb D)%nat k) in
     ep4 D vv pt tn0 tref i j =
     2 * f_om D * sin (latitude D j) * cos (latitude D j) * f_dz D / f_prefac D
     * (exp (- f_dz D / f_h D) * heat 2%nat / (tn0 3%nat - tn0 1%nat) + heat 1%nat / 2 / (tn0 2%nat - tn0 1%nat))) /\
    (~ analysed_row D j -> ep4 D vv pt tn0 tref i j = 0).
Proof.
  intros D vv pt tn0 tref i j S North Hk. split.
  - intros Hj heat. rewrite ep4_in by assumption. unfold ref_row. rewrite North. unfold heat, Rdiv. ring.
  - intros H. apply ep4_out. tauto.
Qed.
Print Assumptions C83_heat_flux_formula.

(** C84: everything outside the analysed rows and levels is zero, except one row of the momentum flux terms *)
Theorem C84_zero_outside_analysed_rows_refuted :
  forall (D : fluxdims R) (i k : nat),
    hemisphere_sizes D -> is_nhem D = true -> jb D = 0%nat -> (2 <= jd D)%nat -> interior_level D k -> (1 <= i <= imax D)%nat ->
    exists (uu vv : arr3 R) (uref : arr2 R), ep2 D uu vv uref i (nd D) (k - 1)%nat <> 0 /\ ~ analysed_row D (nd D).
Proof.
  intros D i k S North Hb Hjd Hk Hi. exists (fun _ _ _ => 1), (fun _ _ _ => 1), (fun _ _ => 0).
  assert (E := ep2_edge D North S (fun _ _ _ => 1) (fun _ _ _ => 1) (fun _ _ => 0) i k Hi Hk Hjd).
  unfold edge_row, edge_level in E. rewrite Hb in E. cbn [Nat.eqb] in E. rewrite E. split.
  - unfold latitude. rewrite North. cbn [Nat.add INR]. replace ((1 - 1) * row_spacing D) with 0 by ring. rewrite cos_0. unfold Rsqr. lra.
  - unfold analysed_row. rewrite North. destruct S as [S _]. lia.
Qed.
Print Assumptions C84_zero_outside_analysed_rows_refuted.
Theorem C84_zero_outside_analysed_rows_partial :
  forall (D : fluxdims R) (pv uu vv pt ncforce : arr3 R) (tn0 : nat -> R) (qref uref tref : arr2 R) (i j k : nat),
    hemisphere_sizes D -> is_nhem D = true -> (1 <= i <= imax D)%nat -> (1 <= j <= nd D)%nat -> (1 <= k <= kmax D)%nat ->
    ~ (analysed_row D j /\ interior_level D k) ->
    astar1 D pv qref i j k = 0 /\ astar2 D pv qref i j k = 0 /\ ncforce3d D pv ncforce qref i j k = 0 /\
    ua1 D pv qref uref i j k = 0 /\ ua2 D pv uu qref uref i j k = 0 /\ ep1 D uu vv pt tn0 uref tref i j k = 0 /\
    (* the momentum flux terms, except in the row next to the boundary (the pole, if the boundary is the equator) *)
    (j <> (if Nat.eqb (jb D) 0 then nd D else jb D) -> ep2 D uu vv uref i j k = 0 /\ ep3 D uu vv uref i j k = 0).
Proof.
  intros D pv uu vv pt ncforce tn0 qref uref tref i j k S North Hi Hj Hk Hn.
  destruct (astar_out D pv qref i j k Hn) as [-> ->].
  do 5 (split; [first [reflexivity|apply fill_out; assumption]|]). split; [apply fill_out; assumption|].
  intros Hne. apply ep_none; auto.
Qed.
Print Assumptions C84_zero_outside_analysed_rows_partial.
(** what the pole row contains when the boundary is the equator: the equatorial flux of the level above *)
Theorem C84_pole_row_content_partial :
  forall (D : fluxdims R) (uu vv : arr3 R) (uref : arr2 R) (i k : nat),
    hemisphere_sizes D -> is_nhem D = true -> jb D = 0%nat -> (2 <= jd D)%nat -> interior_level D k -> (1 <= i <= imax D)%nat ->
    ep2 D uu vv uref i (nd D) (k - 1)%nat = (uu i (field_row D 2) k - uref 2%nat k) * vv i (field_row D 2) k /\
    ep3 D uu vv uref i (nd D) (k - 1)%nat =
      (uu i (field_row D 1) k - uref 1%nat k) * vv i (field_row D 1) k * (cos (row_spacing D))².
Proof.
  intros D uu vv uref i k S North Hb Hjd Hk Hi.
  assert (E2 := ep2_edge D North S uu vv uref i k Hi Hk Hjd).
  assert (E3 := ep3_edge D North S uu vv uref i k Hi Hk). 
  unfold edge_row, edge_level in E2, E3. rewrite Hb in E2, E3. cbn [Nat.eqb Nat.add] in E2, E3. rewrite E2, E3 by lia. split.
  - unfold latitude. rewrite North. cbn [INR]. replace ((1 - 1) * row_spacing D) with 0 by ring. rewrite cos_0. unfold Rsqr. ring.
  - unfold latitude. rewrite North. cbn [INR]. replace ((0 - 1) * row_spacing D) with (- row_spacing D) by ring. rewrite cos_neg. reflexivity.
Qed.
Print Assumptions C84_pole_row_content_partial.
