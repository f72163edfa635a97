(** C163: sign of the wave activity when the kernels round every result.  C164: the bins of the reference state solver in
    single precision. *)
From Verif Require Import Base Spec Flux FluxSpec RefStates RefStatesSpec RoundSpec RoundProofs FluxProofs.
From Flocq Require Import Core.
Open Scope R_scope.
Local Notation rounded rnd := (RndNum rnd).
Local Notation single := (RndNum rnd32).

(** ** C163 *)
(** Full statement: the two parts of the wave activity are never negative, whatever the rounding.  Proved: they are not if no
    computed latitude of the hemisphere lies beyond a right angle; the rest is refuted below. *)
Theorem C163_rounded_activity_nonnegative_partial :
  forall (rnd : R -> R) (D : fluxdims R) (pv : arr3 R) (qref : arr2 R) (i j k : nat),
  monotone rnd -> rnd 0 = 0 -> is_nhem D = true -> 0 <= f_a D ->
  (forall r, (1 <= r <= nd D)%nat -> 0 <= cos (computed_latitude rnd D r)) ->
  0 <= @astar1 R (rounded rnd) D pv qref i j k /\ 0 <= @astar2 R (rounded rnd) D pv qref i j k /\
  0 <= @lo_astar1 R (rounded rnd) D pv qref i j k /\ 0 <= @lo_astar2 R (rounded rnd) D pv qref i j k.
Proof.
  intros rnd D pv qref i j k M Z N Ha Hc.
  destruct (astar_rounded_pos rnd M Z D pv qref i j k Ha) as [A B]; [intros r Hr; rewrite lat_rounded by (assumption || lia); apply Hc, Hr|].
  assert (E1 : @lo_astar1 R (rounded rnd) D pv qref i j k = @astar1 R (rounded rnd) D pv qref i j k) by (unfold lo_astar1, astar1, fill, sum_above; rewrite N; reflexivity).
  assert (E2 : @lo_astar2 R (rounded rnd) D pv qref i j k = @astar2 R (rounded rnd) D pv qref i j k) by (unfold lo_astar2, astar2, fill, sum_below; rewrite N; reflexivity).
  rewrite E1, E2. auto.
Qed.
Print Assumptions C163_rounded_activity_nonnegative_partial.

(** In single precision the computed latitude of the pole is 13176795/2^23 > pi/2 on every usual grid, and both kernels return a
    negative activity for a column whose only low PV is at the pole; compute_lwa_only returns a negative barotropic activity. *)
Theorem C163_single_precision_activity_nonnegative_refuted :
  forall (D : fluxdims R) (pv : arr3 R) (qref : arr2 R) (i j : nat),
  is_nhem D = true -> jmax D = (2 * nd D - 1)%nat -> usual_number_of_latitudes (jmax D) -> (3 <= kmax D)%nat -> 1 <= f_a D ->
  0 < f_dz D <= f_h D -> rnd32 (f_dz D) = f_dz D -> 0 < f_prefac D <= bpow radix2 20 * f_dz D ->
  analysed_row D j -> (forall k, interior_level D k -> low_at_the_pole_only D pv qref (bpow radix2 (-60)) i j k) ->
  PI / 2 < computed_latitude rnd32 D (nd D) /\
  (forall k, interior_level D k -> @astar1 R single D pv qref i j k = 0 /\ @astar2 R single D pv qref i j k < 0) /\
  @lo_astarbaro R single D pv qref i j < 0.
Proof.
  intros D pv qref i j N S2 U K Ha Hz Fz Hp Hj Low. split; [|split].
  - rewrite (proj1 (pole_row D U S2)). pose proof pi_bounds. powers. lra.
  - intros k Hk. destruct (astar_single D N U S2 Ha pv qref i j k (Low k Hk) Hj Hk) as (A & B & _). pose proof (bpow_gt_0 radix2 (-106)). split; [exact A|lra].
  - pose proof (baro_single D Hz Fz Hp pv qref i j (fun k Hk => proj2 (proj2 (astar_single D N U S2 Ha pv qref i j k (Low k Hk) Hj Hk))) K).
    pose proof (bpow_gt_0 radix2 (-128)). lra.
Qed.
Print Assumptions C163_single_precision_activity_nonnegative_refuted.

(** In southern mode the same happens on every grid: row 1 is put at -13176795/2^23 < -pi/2. *)
Theorem C163_southern_activity_nonnegative_refuted :
  forall (D : fluxdims R) (pv : arr3 R) (qref : arr2 R) (i j : nat),
  is_nhem D = false -> (2 <= jmax D)%nat -> (Z.of_nat (jmax D) <= 2 ^ 20)%Z -> (3 <= kmax D)%nat -> 1 <= f_a D ->
  0 < f_dz D <= f_h D -> rnd32 (f_dz D) = f_dz D -> 0 < f_prefac D <= bpow radix2 20 * f_dz D ->
  analysed_row D j -> (forall k, interior_level D k -> high_at_the_south_pole_only D pv qref (bpow radix2 (-60)) i j k) ->
  (forall k, interior_level D k -> @astar1 R single D pv qref i j k = 0 /\ @astar2 R single D pv qref i j k < 0) /\
  @lo_astarbaro R single D pv qref i j < 0.
Proof.
  intros D pv qref i j N J1 J2 K Ha Hz Fz Hp Hj High. assert (J : (2 <= jmax D)%nat /\ (Z.of_nat (jmax D) <= 2 ^ 20 + 1)%Z) by (split; lia). split.
  - intros k Hk. destruct (astar_south D N J Ha pv qref i j k (High k Hk) Hj Hk) as (A & B & _). pose proof (bpow_gt_0 radix2 (-106)). split; [exact A|lra].
  - pose proof (baro_single D Hz Fz Hp pv qref i j (fun k Hk => proj2 (proj2 (astar_south D N J Ha pv qref i j k (High k Hk) Hj Hk))) K).
    pose proof (bpow_gt_0 radix2 (-128)). lra.
Qed.
Print Assumptions C163_southern_activity_nonnegative_refuted.

(** the default one-degree grid with 49 levels *)
Definition C163_grid : fluxdims R :=
  {| imax := 360; jmax := 181; kmax := 49; nd := 91; jb := 5; jd := 86; is_nhem := true;
     f_a := 6378000; f_om := 7 / 100000; f_dz := 1000; f_h := 7000; f_rr := 287; f_cp := 1004; f_prefac := 6500 |}.
Definition C163_pv : arr3 R := fun i j k => if Nat.eqb j 181 then -1 else 0.
Example C163_case : @lo_astarbaro R single C163_grid C163_pv (fun _ _ => 0) 7%nat 40%nat < 0.
Proof.
  assert (B : bpow radix2 20 = 1048576) by (powers; lra).
  apply (C163_single_precision_activity_nonnegative_refuted C163_grid C163_pv (fun _ _ => 0) 7%nat 40%nat); unfold C163_grid; cbn [is_nhem jmax nd kmax f_a f_dz f_h f_prefac jb]; try rewrite B; try lra; try lia; try reflexivity.
  - right. cbn [In]. auto 10.
  - apply (rnd32_int 1000). lia.
  - unfold analysed_row. cbn. lia.
  - intros k Hk. unfold low_at_the_pole_only, field_row, C163_pv. cbn [is_nhem nd]. split.
    + intros r Hr. destruct (Nat.eqb_spec (r + 91 - 1) 181); [lia|reflexivity].
    + cbn. pose proof (bpow_le radix2 (-60) 0 ltac:(lia)) as H. change (bpow radix2 0) with 1 in H. cbn in H. lra.
Qed.

(** ** C164 *)
(** The bin a grid point is sorted into by the solver of QGFieldNH18 exists, in single precision as in exact arithmetic (C51): the
    solver's histogram arrays are not indexed out of bounds when the values at the level differ by at least 2^-100. *)
Theorem C164_bins_in_bounds :
  forall (P : rsdims R) (pv : arr3 R) (k : nat) (M m : R) (i j : nat),
  (2 <= s_npart P)%nat -> (Z.of_nat (s_npart P) <= 2 ^ 22)%Z -> level_max P pv k M -> level_min P pv k m -> bpow radix2 (-100) <= M - m ->
  grid_point P i j ->
  (1 <= @bin R single RTrunc P pv k (i, j) <= Z.of_nat (s_npart P))%Z.
Proof. intros P pv k M m i j Np Nb HM Hm Far G. exact (bin_single P pv k Np Nb M m HM Hm Far i j G). Qed.
Print Assumptions C164_bins_in_bounds.

(** a row of four values *)
Definition C164_dims : rsdims R :=
  {| s_nlon := 4; s_nlat := 1; s_kmax := 3; s_jd := 1; s_npart := 4; s_maxits := 10; s_a := 1; s_om := 1; s_dz := 1; s_eps := 1; s_h := 1;
     s_dphi := 1; s_dlambda := 1; s_r := 1; s_cp := 1; s_rjac := 1 |}.
Example C164_case : (1 <= @bin R single RTrunc C164_dims (fun i _ _ => (INR i / 3)%R) 2%nat (1%nat, 1%nat) <= 4)%Z.
Proof.
  assert (B : bpow radix2 (-100) <= 1) by exact (bpow_le radix2 (-100) 0 ltac:(lia)).
  apply (C164_bins_in_bounds C164_dims (fun i _ _ => INR i / 3) 2%nat (4 / 3) (1 / 3)); [cbn; lia|cbn; lia| | |replace (4 / 3 - 1 / 3) with 1 by field; exact B|unfold grid_point; cbn; lia].
  - split; [|exists 4%nat, 1%nat; split; [unfold grid_point; cbn; lia|cbn; lra]]. intros i j [H _]. cbn in H.
    assert (INR i <= INR 4) by (apply le_INR; lia). cbn in *. lra.
  - split; [|exists 1%nat, 1%nat; split; [unfold grid_point; cbn; lia|cbn; lra]]. intros i j [H _]. cbn in H.
    assert (INR 1 <= INR i) by (apply le_INR; lia). cbn in *. lra.
Qed.
