(** Properties C30-C34 and C74-C76: grid set-up of QGField and interpolation back to the user's grid. *)
From Verif Require Import Spec Base Grid GridSpec GridProofs.
Open Scope R_scope.

(** C30.  lg_n, lg_ylat: the analysis grid; lg_eq: equator_idx (1-based). *)
Theorem C30_equator_index_marks_the_only_zero :
  forall nlat (ylat : nat -> R) g, check_and_flip_ylat nlat ylat = Done g ->
    (1 <= lg_eq g <= lg_n g)%nat /\
    (forall k, (k < lg_n g)%nat -> (lg_ylat g k = 0 <-> (k + 1)%nat = lg_eq g)).
Proof. exact accepted_grid. Qed.
Print Assumptions C30_equator_index_marks_the_only_zero.

Theorem C30_descending_first_step_rejected :
  forall nlat (ylat : nat -> R), (2 <= nlat)%nat -> ylat 1%nat < ylat 0%nat ->
    check_and_flip_ylat nlat ylat = Raise TypeError.
Proof. exact descending_rejected. Qed.
Print Assumptions C30_descending_first_step_rejected.

Theorem C30_acceptance_condition :
  forall nlat (ylat : nat -> R),
    (exists g, check_and_flip_ylat nlat ylat = Done g) <->
    (2 <= nlat)%nat /\ ylat 0%nat <= ylat 1%nat /\
    ((Nat.Even nlat /\ forall k, (k < nlat)%nat -> ylat k <> 0) \/
     exists i, (i < nlat)%nat /\ ylat i = 0 /\ forall k, (k < nlat)%nat -> ylat k = 0 -> k = i).
Proof. exact accepted_iff. Qed.
Print Assumptions C30_acceptance_condition.
Example C30_hypotheses_met : exists g, check_and_flip_ylat 3 (fun k => INR k - INR 1) = Done g.
Proof. destruct (offcentre_accepted 3 1) as (g & E & _); [lia|lia|]. exists g; exact E. Qed.

(** C31.  True in exact arithmetic (C30_acceptance_condition), and in binary64 whenever 180/nlat is a dyadic
    fraction; false in binary64 for nlat = 78. *)
Theorem C31_even_grids_accepted_partial :
  forall n c s (ylat : nat -> R), (0 < n)%nat -> Nat.Even n ->
    (Z.of_nat n * c = 180 * 2 ^ Z.of_nat s)%Z -> (s <= 45)%nat ->
    ylat 0%nat <= ylat 1%nat -> (forall k, (k < n)%nat -> ylat k <> 0) ->
    exists g, @check_and_flip_ylat R (RndNum rnd64) n ylat = Done g /\ lg_eq g = (n / 2 + 1)%nat /\ lg_n g = (n + 1)%nat.
Proof. exact accepted64. Qed.
Print Assumptions C31_even_grids_accepted_partial.
Example C31_hypotheses_met : (Z.of_nat 120 * 3 = 180 * 2 ^ Z.of_nat 1)%Z /\ (Z.of_nat 192 * 15 = 180 * 2 ^ Z.of_nat 4)%Z.
Proof. split; reflexivity. Qed.

Theorem C31_even_grids_accepted_refuted :
  forall ylat : nat -> B64,
    SpecFloat.SFltb (SpecFloat.SFsub 53 1024 (ylat 1%nat) (ylat 0%nat)) (SpecFloat.S754_zero false) = false ->
    (forall k, (k < 78)%nat -> SpecFloat.SFeqb (ylat k) (SpecFloat.S754_zero false) = false) ->
    @check_and_flip_ylat B64 B64Num 78 ylat = Raise IndexError.
Proof. exact rejected64. Qed.
Print Assumptions C31_even_grids_accepted_refuted.
Example C31_refuted_hypotheses_met :
  let ylat := fun k => @nofZ B64 B64Num (2 * Z.of_nat k - 77) in
  SpecFloat.SFltb (SpecFloat.SFsub 53 1024 (ylat 1%nat) (ylat 0%nat)) (SpecFloat.S754_zero false) = false /\
  forallb (fun k => negb (SpecFloat.SFeqb (ylat k) (SpecFloat.S754_zero false))) (seq 0 78) = true.
Proof. vm_compute. split; reflexivity. Qed.

(** C32.  Symmetric ascending grids are always accepted and centred; but every off-centre grid is
    accepted too. *)
Theorem C32_symmetric_grids_are_centred_partial :
  forall nlat (ylat : nat -> R), (2 <= nlat)%nat -> ascending nlat ylat ->
    (forall k, (k < nlat)%nat -> ylat (nlat - 1 - k)%nat = - ylat k) ->
    exists g, check_and_flip_ylat nlat ylat = Done g /\ (2 * lg_eq g)%nat = (lg_n g + 1)%nat /\
      (forall k, (k < lg_n g)%nat -> lg_ylat g (lg_n g - 1 - k)%nat = - lg_ylat g k).
Proof. exact symmetric_accepted. Qed.
Print Assumptions C32_symmetric_grids_are_centred_partial.
Example C32_hypotheses_met : ascending 4 (fun k => INR k - 3 / 2) /\
  (forall k, (k < 4)%nat -> INR (4 - 1 - k) - 3 / 2 = - (INR k - 3 / 2)).
Proof.
  split.
  - intros a b H. assert (INR a < INR b) by (apply lt_INR; lia). lra.
  - intros k H. rewrite minus_INR by lia. cbn [INR Nat.sub]. lra.
Qed.

Theorem C32_accepted_grids_are_centred_refuted :
  forall n p, (2 <= n)%nat -> (p < n)%nat ->
    exists g, check_and_flip_ylat n (fun k => INR k - INR p) = Done g /\ lg_n g = n /\ lg_eq g = (p + 1)%nat.
Proof. exact offcentre_accepted. Qed.
Print Assumptions C32_accepted_grids_are_centred_refuted.

(** C33. *)
Theorem C33_analysis_heights_below_data_top :
  forall nlev plev H kmax dz k, check_valid_plev nlev plev H kmax dz = None -> 0 <= dz -> (k < kmax)%nat ->
    uniform_height dz k <= plev_to_height H (plev (nlev - 1)%nat).
Proof. exact accepted_plev. Qed.
Print Assumptions C33_analysis_heights_below_data_top.

Theorem C33_interpolated_values_between_bracketing_levels :
  forall nlev plev H kmax dz (y : nat -> R) k,
    check_valid_plev nlev plev H kmax dz = None -> 0 < H -> 0 <= dz ->
    (forall l, (l < nlev)%nat -> 0 < plev l) -> (forall a b, (a < b < nlev)%nat -> plev b < plev a) ->
    (k < kmax)%nat -> plev_to_height H (plev 0%nat) <= uniform_height dz k ->
    exists lo, (S lo < nlev)%nat /\
      plev_to_height H (plev lo) <= uniform_height dz k <= plev_to_height H (plev (S lo)) /\
      Rmin (y lo) (y (S lo)) <= interp1d nlev (fun l => plev_to_height H (plev l)) y (uniform_height dz k)
        <= Rmax (y lo) (y (S lo)).
Proof. exact vertical_no_extrapolation. Qed.
Print Assumptions C33_interpolated_values_between_bracketing_levels.
Example C33_hypotheses_met :
  let plev := fun k => 1000 / (1 + INR k) in
  check_valid_plev 3 plev 7000 2 1000 = None /\ plev_to_height 7000 (plev 0%nat) <= uniform_height 1000 1.
Proof.
  cbv zeta. split.
  - unfold check_valid_plev. cbn [Nat.ltb Nat.leb Nat.sub].
    destruct (BaseFacts.Rltb_spec 0 (1000 / (1 + INR 1) - 1000 / (1 + INR 0))) as [C|_]; [cbn in C; lra|].
    destruct (BaseFacts.Rltb_spec (plev_to_height 7000 (1000 / (1 + INR 2))) (IZR (Z.of_nat 2 - 1) * 1000)) as [C|_]; [|reflexivity].
    exfalso. unfold plev_to_height in C. cbn [INR Z.of_nat Z.sub Z.add Z.opp Z.pos_sub Pos.of_succ_nat Pos.pred_double Pos.succ] in C.
    replace (1000 / (1 + (1 + 1)) / 1000) with (/ 3) in C by field. rewrite ln_Rinv in C by lra.
    assert (1 / 7 < ln 3); [|lra]. apply exp_lt_inv. rewrite exp_ln by lra.
    apply Rlt_le_trans with (exp 1); [apply exp_increasing; lra|exact exp_le_3].
  - unfold plev_to_height. rewrite uniform_height_R. cbn [INR]. replace (1000 / (1 + 0) / 1000) with 1 by field. rewrite ln_1. lra.
Qed.

(** the interpolation reproduces data on nodes and linear profiles everywhere *)
Theorem C33_interpolation_exact_on_nodes_and_lines :
  forall n (x y : nat -> R), (2 <= n)%nat -> ascending n x ->
    (forall k, (k < n)%nat -> interp1d n x y (x k) = y k) /\
    (forall a b v, (forall k, (k < n)%nat -> y k = a + b * x k) -> interp1d n x y v = a + b * v).
Proof. intros n x y Hn Asc. split; intros; [apply interp1d_node|apply interp1d_line]; assumption. Qed.
Print Assumptions C33_interpolation_exact_on_nodes_and_lines.

(** C34.  uniform_height dz k = k dz.  The average of a constant is too large by an explicit factor. *)
Theorem C34_vertical_average_preserves_constants_refuted :
  forall kmax dz H c, (3 <= kmax)%nat -> dz <> 0 -> c <> 0 ->
    vertical_average kmax (uniform_height dz) dz H (prefactor kmax dz H) 1 (fun _ => c) <> c.
Proof. exact average_const_wrong. Qed.
Print Assumptions C34_vertical_average_preserves_constants_refuted.

Theorem C34_vertical_average_of_constant_value_partial :
  forall kmax dz H c, (3 <= kmax)%nat -> dz <> 0 ->
    vertical_average kmax (uniform_height dz) dz H (prefactor kmax dz H) 1 (fun _ => c) =
    c * (1 + exp (- (INR (kmax - 1) * dz) / H) / Sum 1 (kmax - 1) (fun k => exp (- (INR k * dz) / H))).
Proof. exact average_const. Qed.
Print Assumptions C34_vertical_average_of_constant_value_partial.

(** it is a genuine average for columns that vanish at the top level *)
Theorem C34_vertical_average_bounds_partial :
  forall kmax dz H v m M, (3 <= kmax)%nat -> dz <> 0 -> v (kmax - 1)%nat = 0 ->
    (forall k, (1 <= k < kmax - 1)%nat -> m <= v k <= M) ->
    m <= vertical_average kmax (uniform_height dz) dz H (prefactor kmax dz H) 1 v <= M.
Proof. exact average_bounds. Qed.
Print Assumptions C34_vertical_average_bounds_partial.

Theorem C34_vertical_average_linear :
  forall kmax dz H P low a b v w,
    vertical_average kmax (uniform_height dz) dz H P low (fun k => a * v k + b * w k) =
    a * vertical_average kmax (uniform_height dz) dz H P low v + b * vertical_average kmax (uniform_height dz) dz H P low w.
Proof. exact average_linear. Qed.
Print Assumptions C34_vertical_average_linear.
Example C34_hypotheses_met : (3 <= 49)%nat /\ (1000 : R) <> 0 /\ (fun k => if (k =? 48)%nat then 0 else 5) (49 - 1)%nat = 0.
Proof. split; [lia|split; [lra|reflexivity]]. Qed.

(** C74.  Shapes of the three input fields. *)
Theorem C74_accepted_wind_shapes_partial :
  forall nlon nlat ylat nlev plev us vs ts kmax dz np H nh ev g,
    qg_init nlon nlat ylat nlev plev us vs ts kmax dz np H nh ev = Done g ->
    us = [nlev; nlat; nlon] /\ vs = [nlev; nlat; nlon] /\ g_nlat g = nlat /\ g_nlon g = nlon /\
    g_dphi g = 180 / INR (lg_n (g_lat g) - 1) * (PI / 180) /\ g_dlambda g = 360 / INR nlon * (PI / 180).
Proof. intros. edestruct init_shapes as (A & B & _ & _ & C & D & E & F & _); [eassumption|]. repeat split; assumption. Qed.
Print Assumptions C74_accepted_wind_shapes_partial.

(** a temperature field without the level axis, or with a single level, is accepted like the full one *)
Theorem C74_temperature_shape_checked_refuted :
  forall nlon nlat ylat nlev plev us vs kmax dz np H nh ev,
    let with_t := fun ts => qg_init nlon nlat ylat nlev plev us vs ts kmax dz np H nh ev in
    with_t [nlat; nlon] = with_t [nlev; nlat; nlon] /\ with_t [1%nat; nlat; nlon] = with_t [nlev; nlat; nlon].
Proof.
  intros. destruct (t_shapes_accepted nlev nlat nlon) as [A B]. split; apply init_t_shape; assumption.
Qed.
Print Assumptions C74_temperature_shape_checked_refuted.
Example C74_hypotheses_met : exists g,
  qg_init 4 3 (fun k => INR k - INR 1) 2 (fun k => 1000 - 100 * INR k) [2; 3; 4]%nat [2; 3; 4]%nat [3; 4]%nat 1 1000 None 7000 false true = Done g.
Proof.
  rewrite init_t_shape by (apply t_shapes_accepted). unfold qg_init. cbn [Nat.ltb Nat.leb broadcast_shapes rev app bcast Nat.eqb option_map].
  destruct (offcentre_accepted 3 1) as (g & E & _); [lia|lia|]. rewrite E. cbn [list_eqb Nat.eqb andb negb]. eexists. reflexivity.
Qed.

(** C75.  lg_need: the input grid was even and is being interpolated.  Variables holding all latitudes (QGPV,
    interpolated winds and potential temperature) cannot be returned in northern-only mode. *)
Theorem C75_even_grid_northern_only_returns_fields_refuted :
  forall nlat (ylat : nat -> R) g var, check_and_flip_ylat nlat ylat = Done g -> lg_need g = true ->
    return_interp true nlat ylat g (lg_n g) var = Raise ValueError.
Proof. exact return_full_rejected. Qed.
Print Assumptions C75_even_grid_northern_only_returns_fields_refuted.

(** C76.  rows: latitude rows of a stored result; out: rows returned to the user. *)
Theorem C76_returned_values_stay_in_range :
  forall (nh : bool) nlat (ylat : nat -> R) g var m M,
    check_and_flip_ylat nlat ylat = Done g ->
    (forall k, (k < nlat)%nat -> -90 <= ylat k <= 90) -> (forall k, (nlat / 2 <= k < nlat)%nat -> 0 <= ylat k) ->
    let rows := if nh then lg_eq g else lg_n g in
    let out := if nh then if lg_need g then (nlat / 2)%nat else lg_eq g else nlat in
    (forall k, (k < rows)%nat -> m <= var k <= M) ->
    exists r, return_interp nh nlat ylat g rows var = Done r /\ forall k, (k < out)%nat -> m <= r k <= M.
Proof. exact return_range. Qed.
Print Assumptions C76_returned_values_stay_in_range.
Example C75_C76_hypotheses_met : exists g,
  check_and_flip_ylat 2 (fun k => INR k - 1 / 2) = Done g /\ lg_need g = true.
Proof.
  destruct (proj2 (accepted_iff 2 (fun k => INR k - 1 / 2))) as [g E].
  - split; [lia|]. split; [cbn [INR]; lra|]. left. split; [exists 1%nat; lia|]. intros [|[|k]] Hk; cbn [INR]; try lra; lia.
  - exists g. split; [exact E|]. unfold check_and_flip_ylat in E. cbn [Nat.ltb Nat.leb] in E. destruct nltb; [discriminate|].
    assert (C : count_zero 2 (fun k => INR k - 1 / 2) = 0%nat).
    { apply count_zero_0. intros [|[|k]] Hk; toR; try lia; apply BaseFacts.Reqb_false; cbn [INR]; lra. }
    rewrite C in E. cbn [Nat.even andb Nat.eqb] in E. destruct first_zero; [|discriminate]. injection E as <-. reflexivity.
Qed.
