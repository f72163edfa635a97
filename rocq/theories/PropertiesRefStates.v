(** Properties of the reference state solver of QGFieldNH18: C51-C53, C55, C85 (with the solver of the code) and C95-C101. *)
From Verif Require Import Base BaseFacts Spec SpecFacts Flux FluxSpec FluxProofs Pipeline PipelineSpec PipelineProofs PropertiesPipeline
  RefStates RefStatesSpec RefStatesProofs RefStatesProofs2 RefStatesProofs3 RefStatesProofs4 RefStatesProofs5 RefStatesProofs6.
From Coq Require Import FunctionalExtensionality Permutation ZifyNat.
Ltac Zify.zify_post_hook ::= Z.to_euclidean_division_equations.
Open Scope R_scope.

(** ** C51: what area belongs to a contour *)
(** every cell goes to one of the bins 1..npart, and bin nn holds the cells between contours nn+1 and nn *)
Theorem C51_bins_stay_in_bounds :
  forall (P : rsdims R) (pv : arr3 R) (k : nat) (M m : R),
    (2 <= s_npart P)%nat -> level_max P pv k M -> level_min P pv k m -> m < M ->
    forall i j, grid_point P i j -> (1 <= bin P pv k (i, j) <= Z.of_nat (s_npart P))%Z /\
      forall nn, (1 <= nn)%nat -> (bin P pv k (i, j) = Z.of_nat nn <-> contour P M m (nn + 1) < pv i j k <= contour P M m nn).
Proof.
  intros P pv k M m Np HM Hm Hmm i j Hg. split; [apply (bin_range P pv k M m); assumption|]. intros nn Hn.
  rewrite <- Z.eqb_eq, (bin_iff P pv k M m HM Hm Hmm Np i j nn Hg Hn). unfold between.
  destruct (Rlt_dec (contour P M m (nn + 1)) (pv i j k)), (Rle_dec (pv i j k) (contour P M m nn)); split; intros X; try lra; try discriminate X; reflexivity.
Qed.
Print Assumptions C51_bins_stay_in_bounds.

(** the cumulative area of contour nn, compared with the area the contour encloses: one contour interval too many at the bottom,
    and the cells above the second contour missing *)
Theorem C51_cumulative_area_partial :
  forall (P : rsdims R) (pv : arr3 R) (k : nat) (M m : R),
    (2 <= s_npart P)%nat -> level_max P pv k M -> level_min P pv k m -> m < M ->
    forall nn, (2 <= nn <= s_npart P)%nat ->
      aan P pv k nn = area_of P pv k (above (contour P M m nn))
                      + area_of P pv k (between (contour P M m (nn + 1)) (contour P M m nn)) - area_of P pv k (between (contour P M m 2) (contour P M m 1)).
Proof. intros P pv k M m Np HM Hm Hmm nn Hn. assert (X := aan_error P pv k M m HM Hm Hmm Np nn ltac:(lia)). lra. Qed.
Print Assumptions C51_cumulative_area_partial.

(** the full claim fails *)
Theorem C51_contour_area_refuted :
  exists (P : rsdims R) (pv : arr3 R) (k nn : nat) (M m : R),
    pole_to_pole P /\ level_max P pv k M /\ level_min P pv k m /\ m < M /\ (1 <= nn <= s_npart P)%nat /\
    aan P pv k nn = 0 /\ area_of P pv k (above (contour P M m nn)) > PI * PI / 2.
Proof.
  exists (tiny 1 3), pv_hole, 2%nat, 2%nat, 2, 1. split; [apply tiny_grid|]. split; [apply hole_max|]. split; [apply hole_min|]. split; [lra|]. split; [cbn; lia|].
  split; [apply hole_last|]. rewrite tiny_area. assert (C : contour (tiny 1 3) 2 1 2 = 1) by (unfold contour, tiny; cbn [s_npart INR]; field). rewrite C.
  unfold pv_hole. cbn [Nat.eqb]. unfold above. destruct (Rlt_dec 1 2); [|lra]. destruct (s_facts) as (S0 & _). assert (P0 := PI_RGT_0). assert (X : 0 < PI * PI / 2) by nra.
  set (y := PI * PI / 2) in *. nra.
Qed.
Print Assumptions C51_contour_area_refuted.

(** nevertheless the contour reported for a row encloses the area of the cap north of it, up to two contour intervals *)
Theorem C51_reported_contour_encloses_the_cap :
  forall (P : rsdims R) (pv : arr3 R) (k j : nat) (M m b : R),
    pole_to_pole P -> 0 < s_a P -> 0 < s_om P -> (2 <= k <= s_kmax P - 1)%nat -> (2 <= j <= s_jd P - 1)%nat ->
    level_max P pv k M -> level_min P pv k m -> m < M ->
    cap_area P j < area_of P pv k (at_most (contour P M m 2)) ->
    (forall nn, (1 <= nn <= s_npart P)%nat -> area_of P pv k (between (contour P M m (nn + 1)) (contour P M m nn)) <= b) ->
    - (2 * b) <= area_of P pv k (above (rs_qref P pv j k * (2 * s_om P * sin (lat P j)))) - cap_area P j <= b.
Proof.
  intros P pv k j M m b G Ha Ho Hk Hj HM Hm Hmm Hf Hb. apply (area_match P G Ha Ho pv k M m); try assumption.
  rewrite (aan_last P G pv k M m HM Hm Hmm). exact Hf.
Qed.
Print Assumptions C51_reported_contour_encloses_the_cap.
Example C51_case : let P := tiny 1 3 in
  pole_to_pole P /\ 0 < s_a P /\ 0 < s_om P /\ level_max P pv_pole 2 1 /\ level_min P pv_pole 2 0 /\
  cap_area P 2 < area_of P pv_pole 2 (at_most (contour P 1 0 2)).
Proof.
  cbv zeta. split; [apply tiny_grid|]. split; [cbn; lra|]. split; [cbn; lra|]. split; [apply pole_max|]. split; [apply pole_min|].
  rewrite <- (aan_last (tiny 1 3) (tiny_grid 1 3) pv_pole 2 1 0 (pole_max _ _ 2) (pole_min _ _ 2) ltac:(lra)). change (s_npart (tiny 1 3)) with 2%nat. rewrite pole_last, cap_2.
  assert (R := pole_room). destruct s_facts as (S0 & S1 & _). assert (P0 := PI_RGT_0). nra.
Qed.

(** ** C52: range and monotonicity of the reference PV *)
Theorem C52_reference_pv_in_range_and_monotone_partial :
  forall (P : rsdims R) (pv : arr3 R) (k : nat) (M m : R),
    pole_to_pole P -> 0 < s_a P -> 0 < s_om P -> (2 <= k <= s_kmax P - 1)%nat ->
    level_max P pv k M -> level_min P pv k m -> m < M ->
    let Q j := rs_qref P pv j k * (2 * s_om P * sin (lat P j)) in
    forall j1 j2, (2 <= j1 <= j2)%nat -> (j2 <= s_jd P)%nat -> cap_area P j1 < area_of P pv k (at_most (contour P M m 2)) \/ j1 = s_jd P ->
      m <= Q j1 <= M /\ m <= Q j2 <= M /\ Q j1 <= Q j2 /\ Q (s_jd P) = M.
Proof.
  intros P pv k M m G Ha Ho Hk HM Hm Hmm Q j1 j2 H1 H2 Hf. rewrite <- (aan_last P G pv k M m HM Hm Hmm) in Hf.
  assert (F1 : found P pv k j1) by (unfold found; tauto).
  assert (F2 : found P pv k j2).
  { destruct (Nat.eq_dec j2 (s_jd P)) as [E|E]; [left; exact E|]. right. destruct Hf as [Hf|Hf]; [|lia].
    assert (C := cap_area_antitone P G j1 j2 ltac:(lia) H2). lra. }
  split; [apply (Qphys_range P G Ha Ho pv k M m); auto; lia|]. split; [apply (Qphys_range P G Ha Ho pv k M m); auto; lia|].
  split; [apply (Qphys_monotone P G Ha Ho pv k M m); auto; lia|].
  unfold Q. rewrite (rs_qref_value P G Ho) by lia. rewrite Nat.eqb_refl. apply qmax_level. exact HM.
Qed.
Print Assumptions C52_reference_pv_in_range_and_monotone_partial.

(** rows whose cap is larger than the area below the second contour get zero, whatever the PV *)
Theorem C52_unbracketed_row_is_zero :
  forall (P : rsdims R) (pv : arr3 R) (k : nat) (M m : R),
    pole_to_pole P -> 0 < s_a P -> 0 < s_om P -> (2 <= k <= s_kmax P - 1)%nat -> level_max P pv k M -> level_min P pv k m -> m < M ->
    forall j, (2 <= j < s_jd P)%nat -> area_of P pv k (at_most (contour P M m 2)) <= cap_area P j -> rs_qref P pv j k = 0.
Proof.
  intros P pv k M m G Ha Ho Hk HM Hm Hmm j Hj Hf. rewrite <- (aan_last P G pv k M m HM Hm Hmm) in Hf.
  assert (X := Qphys_not_found P G Ha Ho pv k M m Hk HM Hm Hmm j Hj Hf). unfold Qphys in X. apply Rmult_integral in X. destruct X as [X|X]; [exact X|].
  assert (S := sin_inside P G j ltac:(lia)). assert (0 < 2 * s_om P * sin (lat P j)) by (repeat apply Rmult_lt_0_compat; lra). lra.
Qed.
Print Assumptions C52_unbracketed_row_is_zero.
Theorem C52_range_refuted :
  exists (P : rsdims R) (pv : arr3 R) (k j : nat) (M m : R),
    pole_to_pole P /\ 0 < s_a P /\ 0 < s_om P /\ (2 <= k <= s_kmax P - 1)%nat /\ (2 <= j <= s_jd P)%nat /\ level_max P pv k M /\ level_min P pv k m /\
    rs_qref P pv j k * (2 * s_om P * sin (lat P j)) < m.
Proof.
  exists (tiny 1 3), pv_hole, 2%nat, 2%nat, 2, 1. split; [apply tiny_grid|]. split; [cbn; lra|]. split; [cbn; lra|]. split; [cbn; lia|]. split; [cbn; lia|].
  split; [apply hole_max|]. split; [apply hole_min|]. rewrite hole_qref. lra.
Qed.
Print Assumptions C52_range_refuted.

(** ** C53: the wind and the elliptic equation *)
(** a full red-black pass (two sweeps) changes nothing exactly when the wind solves the discrete problem *)
Theorem C53_pass_without_change_iff_solution :
  forall (P : rsdims R) (pv uu pt : arr3 R) (stat : nat -> R) (g1 g2 : arr2 R),
    pole_to_pole P -> physical P stat ->
    forall (n : nat) (om1 om2 : R) (w : arr2 R), om1 <> 0 -> om2 <> 0 ->
    (forall j k, used_point P j k -> fst (sweep P pv uu pt stat g1 g2 n om1 w) j k = w j k) /\
    (forall j k, used_point P j k -> fst (sweep P pv uu pt stat g1 g2 (S n) om2 w) j k = w j k)
    <-> solves P stat (rs_qref P pv) w /\ boundary P (u_equator P pv uu g1 g2) (zonal P pt) w.
Proof.
  intros P pv uu pt stat g1 g2 G H n o1 o2 w N1 N2. assert (J3 := proj1 G). assert (K3 := proj1 (proj2 (proj2 (proj2 G)))).
  exact (fixed_point P pv uu pt stat g1 g2 K3 J3 G H n o1 o2 w N1 N2).
Qed.
Print Assumptions C53_pass_without_change_iff_solution.
Example C53_case : forall eps n, pole_to_pole (tiny eps n) /\ physical (tiny eps n) one_level. Proof. intros. split; [apply tiny_grid|apply tiny_physical]. Qed.

(** what reported convergence guarantees: on the points treated last the residual is below the tolerance *)
Theorem C53_converged_residual_partial :
  forall (P : rsdims R) (pv uu pt : arr3 R) (stat : nat -> R) (g1 g2 : arr2 R),
    pole_to_pole P -> physical P stat -> 0 <= s_rjac P < 1 ->
    let n := rs_num_of_iter P pv uu pt stat g1 g2 in (n <= s_maxits P)%nat ->
    exists w : arr2 R,
      boundary P (u_equator P pv uu g1 g2) (zonal P pt) w /\
      (forall j k, (2 <= j <= s_jd P - 1)%nat -> rs_uref P pv uu pt stat g1 g2 j k = w j k / cos (lat P j)) /\
      norm_colour P n (residual P stat (rs_qref P pv) w) < s_eps P * norm_all P (forcing P (rs_qref P pv)).
Proof. intros P pv uu pt stat g1 g2 G H Hr n Hn. exact (converged P pv uu pt stat g1 g2 G H Hr Hn). Qed.
Print Assumptions C53_converged_residual_partial.
(** convergence is reported in a concrete case *)
Example C53_converged_case : forall g1 g2, (rs_num_of_iter (tiny (1 / 2) 3) pv_pole zero3 zero3 one_level g1 g2 <= s_maxits (tiny (1 / 2) 3))%nat /\ 0 <= s_rjac (tiny (1 / 2) 3) < 1.
Proof. intros g1 g2. destruct (false_convergence (1 / 2) 3 g1 g2 ltac:(lia) ltac:(lra)) as (N & _). split; [rewrite N; cbn; lia|cbn; lra]. Qed.

(** and not more: for the rjac of the code and every tolerance up to one half the solver can report convergence after three
    sweeps although the residual exceeds four fifths of the forcing *)
Theorem C53_reported_convergence_refuted :
  exists (P : R -> nat -> rsdims R) (pv uu pt : arr3 R) (stat : nat -> R),
    forall eps maxits g1 g2, 0 < eps <= 1 / 2 -> (3 <= maxits)%nat ->
      let p := P eps maxits in
      pole_to_pole p /\ physical p stat /\ s_rjac p = 19 / 20 /\ s_eps p = eps /\ s_maxits p = maxits /\
      (rs_num_of_iter p pv uu pt stat g1 g2 <= s_maxits p)%nat /\
      0 < norm_all p (forcing p (rs_qref p pv)) /\
      forall w, boundary p (u_equator p pv uu g1 g2) (zonal p pt) w ->
        (forall j k, (2 <= j <= s_jd p - 1)%nat -> rs_uref p pv uu pt stat g1 g2 j k = w j k / cos (lat p j)) ->
        4 / 5 * norm_all p (forcing p (rs_qref p pv)) < norm_all p (residual p stat (rs_qref p pv) w).
Proof.
  exists tiny, pv_pole, zero3, zero3, one_level. intros eps maxits g1 g2 He Hm p.
  split; [apply tiny_grid|]. split; [apply tiny_physical|]. split; [reflexivity|]. split; [reflexivity|]. split; [reflexivity|].
  destruct (false_convergence eps maxits g1 g2 Hm He) as (N & F & W). fold p in N, F, W. split; [rewrite N; exact Hm|]. split; [exact F|].
  intros w (B1 & B2 & B3) U. apply W.
  - intros k Hk. apply (B2 k Hk).
  - apply (B2 2%nat). cbn. lia.
  - intros k Hk. apply U. cbn. lia.
Qed.
Print Assumptions C53_reported_convergence_refuted.

(** ** C55: hemispheric mean potential temperature *)
Theorem C55_hemispheric_mean_theta_kept :
  forall (P : rsdims R) (pv uu pt : arr3 R) (stat : nat -> R) (g1 g2 : arr2 R), pole_to_pole P ->
    forall k, (1 <= k <= s_kmax P)%nat ->
      hemispheric_mean P (rs_tref P pv uu pt stat g1 g2) k = hemispheric_mean P (zonal P pt) k.
Proof. intros P pv uu pt stat g1 g2 G k Hk. exact (tref_mean P pv uu pt stat g1 g2 G k Hk). Qed.
Print Assumptions C55_hemispheric_mean_theta_kept.
Example C55_case : pole_to_pole (tiny 1 3). Proof. apply tiny_grid. Qed.

(** ** C95: thermal wind balance *)
Theorem C95_thermal_wind_balance :
  forall (P : rsdims R) (pv uu pt : arr3 R) (stat : nat -> R) (g1 g2 : arr2 R), pole_to_pole P -> s_a P <> 0 ->
    let u := rs_uref P pv uu pt stat g1 g2 in let t := rs_tref P pv uu pt stat g1 g2 in
    forall j k, inside P j k ->
      (t (j + 1)%nat k - t (j - 1)%nat k) / (2 * s_dphi P * s_a P)
      = - (2 * s_om P * sin (lat P j)) * (s_h P / s_r P) * exp (s_r P / s_cp P * height P k / s_h P)
        * ((u j (k + 1)%nat - u j (k - 1)%nat) / (2 * s_dz P)).
Proof. intros P pv uu pt stat g1 g2 G Ha u t j k I. exact (thermal_wind P pv uu pt stat g1 g2 G j k I Ha). Qed.
Print Assumptions C95_thermal_wind_balance.
Example C95_case : inside (tiny 1 3) 2 2 /\ s_a (tiny 1 3) <> 0. Proof. split; [apply inside_22|cbn; lra]. Qed.

(** ** C96: the reference wind on the edges of the hemisphere *)
Theorem C96_edges_of_the_reference_wind :
  forall (P : rsdims R) (pv uu pt : arr3 R) (stat : nat -> R) (g1 g2 : arr2 R), pole_to_pole P -> physical P stat -> 0 <= s_rjac P < 1 ->
    let u := rs_uref P pv uu pt stat g1 g2 in
    (forall k, u 1%nat k = zonal P uu 1 k) /\
    (forall j, (2 <= j <= s_jd P - 1)%nat -> u j 1%nat = 0) /\
    (forall k, u (s_jd P) k = 2 * u (s_jd P - 1)%nat k - u (s_jd P - 2)%nat k).
Proof.
  intros P pv uu pt stat g1 g2 G H Hr u. split; [|split].
  - intros k. apply uref_equator; assumption.
  - intros j Hj. apply uref_ground; assumption.
  - intros k. apply uref_pole; assumption.
Qed.
Print Assumptions C96_edges_of_the_reference_wind.
Example C96_case : forall g1 g2, rs_uref (tiny (1 / 2) 3) pv_pole zero3 zero3 one_level g1 g2 2 1 = 0.
Proof. intros g1 g2. apply (C96_edges_of_the_reference_wind (tiny (1 / 2) 3) pv_pole zero3 zero3 one_level g1 g2 (tiny_grid _ _) (tiny_physical _ _) ltac:(cbn; lra)). cbn. lia. Qed.
(** the boundary value used in the inversion is not the one reported *)
Theorem C96_equatorial_value_used_refuted :
  exists (P : rsdims R) (pv uu pt : arr3 R) (stat : nat -> R) (k : nat),
    pole_to_pole P /\ physical P stat /\ (2 <= k <= s_kmax P - 1)%nat /\
    forall g1 g2, u_equator P pv uu g1 g2 k < rs_uref P pv uu pt stat g1 g2 1 k.
Proof.
  exists (tiny 1 3), pv_pole, zero3, zero3, one_level, 2%nat. split; [apply tiny_grid|]. split; [apply tiny_physical|]. split; [cbn; lia|]. intros g1 g2.
  rewrite uref_equator by apply tiny_grid. unfold zonal. rewrite (Sum_zero _ _ _) by reflexivity. assert (X := pole_equator 1 3 g1 g2). unfold Rdiv. lra.
Qed.
Print Assumptions C96_equatorial_value_used_refuted.

(** ** C97: the discrete problem has at most one solution *)
Theorem C97_unique_reference_wind :
  forall (P : rsdims R) (stat : nat -> R), pole_to_pole P -> physical P stat ->
    forall (w0 : nat -> R) (t q w1 w2 : arr2 R),
      solves P stat q w1 -> boundary P w0 t w1 -> solves P stat q w2 -> boundary P w0 t w2 ->
      forall j k, (2 <= j <= s_jd P - 1)%nat -> (1 <= k <= s_kmax P)%nat -> w1 j k = w2 j k.
Proof. intros P stat G H w0 t q w1 w2 S1 B1 S2 B2. exact (unique P stat G H w0 t q w1 w2 S1 S2 B1 B2). Qed.
Print Assumptions C97_unique_reference_wind.
(** a solution exists for constant data, so the hypotheses can be met *)
Example C97_case : let P := tiny 1 3 in
  solves P one_level (fun _ _ => 0) (fun _ _ => 0) /\ boundary P (fun _ => 0) (fun _ _ => 0) (fun _ _ => 0).
Proof.
  cbv zeta. split.
  - intros j k _. unfold residual. cbv zeta. unfold Rdiv. ring.
  - repeat split; intros; try reflexivity. unfold Rdiv. ring.
Qed.

(** ** C98: only the values in each latitude circle matter, not their longitudes *)
Theorem C98_reference_states_ignore_longitudes :
  forall (P : rsdims R) (pv uu pt pv' uu' pt' : arr3 R) (stat : nat -> R) (g1 g2 : arr2 R),
    pole_to_pole P ->
    let circle (x : arr3 R) j k := map (fun i => x i j k) (seq 1 (s_nlon P)) in
    (forall j k, (1 <= j <= s_nlat P)%nat ->
       Permutation (circle pv j k) (circle pv' j k) /\ Permutation (circle uu j k) (circle uu' j k) /\ Permutation (circle pt j k) (circle pt' j k)) ->
    rs_num_of_iter P pv uu pt stat g1 g2 = rs_num_of_iter P pv' uu' pt' stat g1 g2 /\
    forall j k, (1 <= j <= s_jd P)%nat -> (1 <= k <= s_kmax P)%nat ->
      rs_qref P pv j k = rs_qref P pv' j k /\
      rs_uref P pv uu pt stat g1 g2 j k = rs_uref P pv' uu' pt' stat g1 g2 j k /\
      rs_tref P pv uu pt stat g1 g2 j k = rs_tref P pv' uu' pt' stat g1 g2 j k.
Proof.
  intros P pv uu pt pv' uu' pt' stat g1 g2 G circle E.
  destruct (rows_only P pv uu pt pv' uu' pt' stat g1 g2 G) as (H1 & H2 & H3); try (intros j k Hj; apply (E j k Hj)).
  split; [exact H1|]. intros j k Hj Hk. split; [apply H2|apply H3; assumption].
Qed.
Print Assumptions C98_reference_states_ignore_longitudes.
(** in particular for a rotation of the whole state *)
Example C98_case : exists x x' : arr3 R, (exists i, x i 1%nat 1%nat <> x' i 1%nat 1%nat) /\
  forall j k, Permutation (map (fun i => x i j k) (seq 1 2)) (map (fun i => x' i j k) (seq 1 2)).
Proof.
  exists (fun i _ _ => INR i), (fun i _ _ => INR (3 - i)). split; [exists 1%nat; cbn; lra|]. intros j k. cbn [seq map Nat.sub]. apply perm_swap.
Qed.

(** ** C99: no result depends on uninitialised memory *)
Theorem C99_deterministic_when_bracketed_partial :
  forall (P : rsdims R) (pv uu pt : arr3 R) (stat : nat -> R) (g1 g2 g1' g2' : arr2 R),
    pole_to_pole P -> 0 < s_a P ->
    (forall k, (2 <= k <= s_kmax P - 1)%nat -> exists M m, level_max P pv k M /\ level_min P pv k m /\ m < M /\
       cap_area P 1 < area_of P pv k (at_most (contour P M m 2))) ->
    rs_num_of_iter P pv uu pt stat g1 g2 = rs_num_of_iter P pv uu pt stat g1' g2' /\
    forall j k, (1 <= j <= s_jd P)%nat -> (1 <= k <= s_kmax P)%nat ->
      rs_uref P pv uu pt stat g1 g2 j k = rs_uref P pv uu pt stat g1' g2' j k /\
      rs_tref P pv uu pt stat g1 g2 j k = rs_tref P pv uu pt stat g1' g2' j k.
Proof.
  intros P pv uu pt stat g1 g2 g1' g2' G Ha B. apply garbage_free; [exact G|exact Ha|]. intros k Hk. destruct (B k Hk) as (M & m & HM & Hm & Hmm & C). split.
  - exists M, m. auto.
  - rewrite (aan_last P G pv k M m HM Hm Hmm). exact C.
Qed.
Print Assumptions C99_deterministic_when_bracketed_partial.
Example C99_case : let P := tiny 1 3 in
  forall k, (2 <= k <= s_kmax P - 1)%nat -> exists M m, level_max P pv_pole k M /\ level_min P pv_pole k m /\ m < M /\
     cap_area P 1 < area_of P pv_pole k (at_most (contour P M m 2)).
Proof.
  cbv zeta. intros k _. exists 1, 0. split; [apply pole_max|]. split; [apply pole_min|]. split; [lra|].
  rewrite <- (aan_last (tiny 1 3) (tiny_grid 1 3) pv_pole k 1 0 (pole_max _ _ k) (pole_min _ _ k) ltac:(lra)). change (s_npart (tiny 1 3)) with 2%nat.
  rewrite pole_last, cap_1. apply pole_room.
Qed.
(** otherwise cref(1,k) is never written, and the reference wind depends on what the memory held *)
Theorem C99_uninitialised_circulation_refuted :
  exists (P : rsdims R) (pv uu pt : arr3 R) (stat : nat -> R) (j k : nat),
    pole_to_pole P /\ physical P stat /\ (2 <= j <= s_jd P - 1)%nat /\ (2 <= k <= s_kmax P - 1)%nat /\
    forall g1 g1' g2, g1 1%nat k <> g1' 1%nat k -> rs_uref P pv uu pt stat g1 g2 j k <> rs_uref P pv uu pt stat g1' g2 j k.
Proof.
  exists (tiny 1 3), pv_hole, zero3, zero3, one_level, 2%nat, 2%nat. split; [apply tiny_grid|]. split; [apply tiny_physical|]. split; [cbn; lia|]. split; [cbn; lia|].
  intros g1 g1' g2 Hg. apply hole_garbage; [lia|lra|exact Hg].
Qed.
Print Assumptions C99_uninitialised_circulation_refuted.

(** ** C100: at the level below the top the reference temperature gradient is the zonal mean one *)
Theorem C100_top_temperature_gradient :
  forall (P : rsdims R) (pv uu pt : arr3 R) (stat : nat -> R) (g1 g2 : arr2 R), pole_to_pole P -> physical P stat -> 0 <= s_rjac P < 1 ->
    (rs_num_of_iter P pv uu pt stat g1 g2 <= s_maxits P)%nat ->
    let t := rs_tref P pv uu pt stat g1 g2 in let k := (s_kmax P - 1)%nat in
    forall j, (2 <= j <= s_jd P - 1)%nat -> t (j + 1)%nat k - t (j - 1)%nat k = zonal P pt (j + 1) k - zonal P pt (j - 1) k.
Proof. intros P pv uu pt stat g1 g2 G H Hr Hn t k j Hj. exact (tref_top P pv uu pt stat g1 g2 G H Hr j Hn Hj). Qed.
Print Assumptions C100_top_temperature_gradient.
Example C100_case : let P := tiny (1 / 2) 3 in
  pole_to_pole P /\ physical P one_level /\ 0 <= s_rjac P < 1 /\
  (rs_num_of_iter P pv_pole zero3 zero3 one_level (fun _ _ => 0%R) (fun _ _ => 0%R) <= s_maxits P)%nat.
Proof.
  cbv zeta. split; [apply tiny_grid|]. split; [apply tiny_physical|]. split; [cbn; lra|].
  destruct (false_convergence (1 / 2) 3 (fun _ _ => 0) (fun _ _ => 0) ltac:(lia) ltac:(lra)) as (-> & _). cbn. lia.
Qed.

(** ** C101: the iteration count tells whether the solver converged *)
Theorem C101_iteration_count :
  forall (P : rsdims R) (pv uu pt : arr3 R) (stat : nat -> R) (g1 g2 : arr2 R), pole_to_pole P ->
    let n := rs_num_of_iter P pv uu pt stat g1 g2 in
    (exists met, n = QGState.num_of_iter (s_maxits P) met) /\
    (n <= s_maxits P \/ n = s_maxits P + 1)%nat /\
    (n = (s_maxits P + 1)%nat -> forall j k, (2 <= j <= s_jd P - 1)%nat -> rs_uref P pv uu pt stat g1 g2 j k = 0).
Proof.
  intros P pv uu pt stat g1 g2 G n. split; [|split].
  - apply count_is_loop; assumption.
  - apply num_of_iter_cases; assumption.
  - intros E j k Hj. apply not_converged; [assumption| fold n; lia|assumption].
Qed.
Print Assumptions C101_iteration_count.
(** both outcomes occur: C53_converged_case and C100_case *)
Example C101_case : forall g1 g2, let n := rs_num_of_iter (tiny (1 / 2) 3) pv_pole zero3 zero3 one_level g1 g2 in (n <= 3 \/ n = 4)%nat.
Proof. intros g1 g2 n. exact (proj1 (proj2 (C101_iteration_count (tiny (1 / 2) 3) pv_pole zero3 zero3 one_level g1 g2 (tiny_grid _ _)))). Qed.

(** ** C85 with the solver of the code in place of an arbitrary one *)
Theorem C85_northern_results_same_nh18_solver :
  forall (c : pconf R) (npart maxit : nat) (tol rjac : R) (stat : nat -> R) (g1 g2 : arr2 R)
         (q : arr3 R) (f : fields R) (nc : arr3 R) (av : averages R),
    symmetric_grid c -> p_jb c = 0%nat -> (2 <= p_nlon c)%nat -> (2 <= p_kmax c)%nat -> (3 <= p_eq c)%nat ->
    let solver := nh18_solver c npart maxit tol rjac stat g1 g2 in
    let c1 := with_flag c true in let c0 := with_flag c false in
    let r1 := refs_nh18 c1 solver q f zero_refs in let r0 := refs_nh18 c0 solver q f zero_refs in
    let b1 := barotropic_terms c1 (north_args c1 q f nc av r1) (south_args c1 q f nc av r1) in
    let b0 := barotropic_terms c0 (north_args c0 q f nc av r0) (south_args c0 q f nc av r0) in
    same_north_refs c r1 r0 /\ same_north_fluxes c b1 b0 /\
    same_north2 c (div_momentum_flux c1 b1) (div_momentum_flux c0 b0) /\ same_north2 c (conv_zonal_flux c1 b1) (conv_zonal_flux c0 b0) /\
    same_north2 c (flux_vector_phi c1 f r1) (flux_vector_phi c0 f r0) /\
    same_north_layers c (layerwise_terms c1 (north_args c1 q f nc av r1) (south_args c1 q f nc av r1))
                        (layerwise_terms c0 (north_args c0 q f nc av r0) (south_args c0 q f nc av r0)) /\
    same_north_lwa_only c (lwa_only c1 q f r1) (lwa_only c0 q f r0) /\
    exists d1 d0, stretch_term c1 f av r1 = Some d1 /\ stretch_term c0 f av r0 = Some d0 /\
      forall i r k, lon_ok c i -> (1 <= r <= p_eq c)%nat -> lev_ok c k -> d1 i (p_eq c - 1 + r)%nat k = d0 i (p_eq c - 1 + r)%nat k.
Proof.
  intros c npart maxit tol rjac stat g1 g2 q f nc av G Hb Hl K E solver. apply C85_northern_results_same_nh18; try assumption.
  intros k Hk. apply nh18_equator; assumption.
Qed.
Print Assumptions C85_northern_results_same_nh18_solver.
Example C85_solver_case : symmetric_grid (cfg 0 true) /\ p_jb (cfg 0 true) = 0%nat /\ (2 <= p_nlon (cfg 0 true))%nat /\ (2 <= p_kmax (cfg 0 true))%nat /\ (3 <= p_eq (cfg 0 true))%nat.
Proof. split; [apply cfg_symmetric; lia|]. cbn. lia. Qed.

(** ** C55, C95 and C96 for the arrays an object reports *)
Lemma nh18_grid c npart maxit tol rjac : symmetric_grid c -> regular c npart -> pole_to_pole (nh18_dims c npart maxit tol rjac).
Proof.
  intros (G1 & G2 & _) (R1 & R2 & R3 & R4 & R5 & R6 & _). repeat split; cbn [nh18_dims s_jd s_nlat s_nlon s_kmax s_npart s_dphi s_dlambda]; assumption.
Qed.
Lemma zonal_clip c npart maxit tol rjac (x : arr3 R) j k : symmetric_grid c -> (1 <= j <= p_eq c)%nat -> lev_ok c k ->
  zonal (nh18_dims c npart maxit tol rjac) (clip3 c x) j k = row_mean c x (p_eq c - 1 + j) k /\
  zonal (nh18_dims c npart maxit tol rjac) (clip3 c (flip3 c x)) j k = row_mean c x (p_eq c + 1 - j) k.
Proof.
  intros (G1 & G2 & _) Hj Hk. unfold zonal, row_mean. cbn [nh18_dims s_jd s_nlon]. unfold lev_ok in Hk.
  assert (C : forall y i, (1 <= i < p_nlon c + 1)%nat -> clip3 c y i (j + p_eq c - 1)%nat k = y i (j + p_eq c - 1)%nat k).
  { intros y i Hi. unfold clip3. repeat match goal with |- context [Nat.leb ?a ?b] => destruct (Nat.leb_spec a b); [|lia] end. reflexivity. }
  split; f_equal; apply Sum_ext; intros i Hi; rewrite C by exact Hi.
  - replace (j + p_eq c - 1)%nat with (p_eq c - 1 + j)%nat by lia. reflexivity.
  - unfold flip3. replace (p_nlat c + 1 - (j + p_eq c - 1))%nat with (p_eq c + 1 - j)%nat by lia. reflexivity.
Qed.
Lemma lat_dims c npart maxit tol rjac j : lat (nh18_dims c npart maxit tol rjac) j = p_dphi c * (INR j - 1).
Proof. reflexivity. Qed.

(** thermal wind balance at every interior row, except the first northern one when both hemispheres are computed (its southern
    neighbour, the equator, then holds the southern solution) *)
Theorem C95_reported_states_balanced :
  forall (c : pconf R) (npart maxit : nat) (tol rjac : R) (stat : nat -> R) (g1 g2 : arr2 R) (q : arr3 R) (f : fields R) (old : refstate R),
    symmetric_grid c -> regular c npart ->
    let r := refs_nh18 c (nh18_solver c npart maxit tol rjac stat g1 g2) q f old in
    forall k, (2 <= k <= p_kmax c - 1)%nat ->
      (p_nh c = true -> forall j, (2 <= j <= p_eq c - 1)%nat -> balanced c (uref_ r) (ptref_ r) j (p_dphi c * (INR j - 1)) k) /\
      (p_nh c = false -> forall J, (2 <= J <= p_nlat c - 1)%nat -> J <> p_eq c -> J <> (p_eq c + 1)%nat ->
         balanced c (uref_ r) (ptref_ r) J (latitude c J) k).
Proof.
  intros c npart maxit tol rjac stat g1 g2 q f old G Rg r k Hk. assert (GP := nh18_grid c npart maxit tol rjac G Rg).
  assert (Ha : p_a c <> 0) by (destruct Rg as (_ & _ & _ & _ & _ & _ & X & _); lra).
  set (solver := nh18_solver c npart maxit tol rjac stat g1 g2) in *.
  assert (B : forall pv uu pt j, (2 <= j <= p_eq c - 1)%nat ->
    balanced c (uref_ (solver pv uu pt)) (ptref_ (solver pv uu pt)) j (p_dphi c * (INR j - 1)) k).
  { intros pv uu pt j Hj. exact (C95_thermal_wind_balance _ pv uu pt (one_based stat) g1 g2 GP Ha j k (conj Hj Hk)). }
  split.
  - intros Hn j Hj. assert (X := B (clip3 c q) (clip3 c (u_ f)) (clip3 c (theta_ f)) j Hj). unfold balanced in *.
    assert (N := reported_north_only c solver q f old Hn). fold r in N.
    rewrite (proj1 (proj2 (N j (k + 1)%nat ltac:(lia)))), (proj1 (proj2 (N j (k - 1)%nat ltac:(lia)))),
      (proj2 (proj2 (N (j + 1)%nat k ltac:(lia)))), (proj2 (proj2 (N (j - 1)%nat k ltac:(lia)))). exact X.
  - intros Hn J HJ N1 N2. destruct (Nat.lt_ge_cases (p_eq c) J) as [L|L].
    + set (j := (J - (p_eq c - 1))%nat). assert (G2 := proj1 (proj2 G)). assert (X := B (clip3 c q) (clip3 c (u_ f)) (clip3 c (theta_ f)) j ltac:(unfold j; lia)). unfold balanced in *.
      assert (N := reported_north c G solver q f old Hn). fold r in N. cbv zeta in N.
      assert (E1 := proj1 (proj2 (N j (k + 1)%nat ltac:(unfold j; lia)))). assert (E2 := proj1 (proj2 (N j (k - 1)%nat ltac:(unfold j; lia)))).
      assert (E3 := proj2 (proj2 (N (j + 1)%nat k ltac:(unfold j; lia)))). assert (E4 := proj2 (proj2 (N (j - 1)%nat k ltac:(unfold j; lia)))).
      replace (p_eq c - 1 + j)%nat with J in E1, E2 by (unfold j; lia). replace (p_eq c - 1 + (j + 1))%nat with (J + 1)%nat in E3 by (unfold j; lia).
      replace (p_eq c - 1 + (j - 1))%nat with (J - 1)%nat in E4 by (unfold j; lia). rewrite E1, E2, E3, E4.
      replace (latitude c J) with (p_dphi c * (INR j - 1)); [exact X|]. unfold latitude. f_equal. unfold j. rewrite minus_INR, minus_INR by lia. cbn [INR]. ring.
    + set (j := (p_eq c + 1 - J)%nat). assert (G2 := proj1 (proj2 G)). assert (X := B (clip3 c (neg3 (flip3 c q))) (clip3 c (flip3 c (u_ f))) (clip3 c (flip3 c (theta_ f))) j ltac:(unfold j; lia)). unfold balanced in *.
      assert (N := reported_south c solver q f old Hn). fold r in N. cbv zeta in N.
      assert (E1 := proj1 (proj2 (N j (k + 1)%nat ltac:(unfold j; lia)))). assert (E2 := proj1 (proj2 (N j (k - 1)%nat ltac:(unfold j; lia)))).
      assert (E3 := proj2 (proj2 (N (j + 1)%nat k ltac:(unfold j; lia)))). assert (E4 := proj2 (proj2 (N (j - 1)%nat k ltac:(unfold j; lia)))).
      replace (p_eq c + 1 - j)%nat with J in E1, E2 by (unfold j; lia). replace (p_eq c + 1 - (j + 1))%nat with (J - 1)%nat in E3 by (unfold j; lia).
      replace (p_eq c + 1 - (j - 1))%nat with (J + 1)%nat in E4 by (unfold j; lia). rewrite E1, E2, E3, E4.
      replace (latitude c J) with (- (p_dphi c * (INR j - 1))). 2: { unfold latitude, j. rewrite minus_INR, plus_INR by lia. cbn [INR]. ring. }
      rewrite sin_neg. set (S := sin _) in *. set (T1 := ptref_ _ (j + 1)%nat k) in *. set (T2 := ptref_ _ (j - 1)%nat k) in *.
      replace ((T2 - T1) / (2 * p_dphi c * p_a c)) with (- ((T1 - T2) / (2 * p_dphi c * p_a c))) by (unfold Rdiv; ring). rewrite X. unfold Rdiv. ring.
Qed.
Print Assumptions C95_reported_states_balanced.

(** the hemispheric mean temperature and the equatorial wind of the reported arrays *)
Theorem C55_reported_mean_theta :
  forall (c : pconf R) (npart maxit : nat) (tol rjac : R) (stat : nat -> R) (g1 g2 : arr2 R) (q : arr3 R) (f : fields R) (old : refstate R),
    symmetric_grid c -> regular c npart ->
    let r := refs_nh18 c (nh18_solver c npart maxit tol rjac stat g1 g2) q f old in
    forall k, lev_ok c k ->
      (p_nh c = true -> cap_mean c (fun j => ptref_ r j k) = cap_mean c (fun j => row_mean c (theta_ f) (p_eq c - 1 + j) k)) /\
      (p_nh c = false -> cap_mean c (fun j => ptref_ r (p_eq c + 1 - j)%nat k) = cap_mean c (fun j => row_mean c (theta_ f) (p_eq c + 1 - j) k)).
Proof.
  intros c npart maxit tol rjac stat g1 g2 q f old G Rg r k Hk. assert (GP := nh18_grid c npart maxit tol rjac G Rg).
  set (solver := nh18_solver c npart maxit tol rjac stat g1 g2) in *. set (P := nh18_dims c npart maxit tol rjac) in *.
  assert (B : forall pv uu pt, cap_mean c (fun j => ptref_ (solver pv uu pt) j k) = cap_mean c (fun j => zonal P pt j k)).
  { intros pv uu pt. exact (C55_hemispheric_mean_theta_kept P pv uu pt (one_based stat) g1 g2 GP k Hk). }
  assert (E : forall x y : nat -> R, (forall j, (1 <= j <= p_eq c)%nat -> x j = y j) -> cap_mean c x = cap_mean c y).
  { intros x y Hxy. unfold cap_mean. f_equal. apply Sum_ext. intros j Hj. rewrite Hxy by lia. reflexivity. }
  split; intros Hn.
  - rewrite (E _ (fun j => ptref_ (solver (clip3 c q) (clip3 c (u_ f)) (clip3 c (theta_ f))) j k)).
    + rewrite B. apply E. intros j Hj. apply (zonal_clip c npart maxit tol rjac (theta_ f) j k G Hj Hk).
    + intros j Hj. apply (reported_north_only c solver q f old Hn j k ltac:(lia)).
  - rewrite (E _ (fun j => ptref_ (solver (clip3 c (neg3 (flip3 c q))) (clip3 c (flip3 c (u_ f))) (clip3 c (flip3 c (theta_ f)))) j k)).
    + rewrite B. apply E. intros j Hj. apply (zonal_clip c npart maxit tol rjac (theta_ f) j k G Hj Hk).
    + intros j Hj. apply (reported_south c solver q f old Hn j k Hj).
Qed.
Print Assumptions C55_reported_mean_theta.
Definition real_cfg (b : bool) : pconf R :=
  {| p_nlon := 4; p_nlat := 5; p_kmax := 4; p_eq := 3; p_jb := 0; p_jd := 3; p_nh := b; p_a := 6378000; p_om := 7 / 100000; p_dz := 1000; p_h := 7000;
     p_rr := 287; p_cp := 1004; p_prefac := 1; p_dphi := PI / 4; p_dlambda := PI / 2; p_tol := 0;
     p_height := fun k => 1000 * INR k; p_ylat := fun j => 45 * (INR j - 2); p_clat := fun j => cos (PI / 4 * (INR j - 2)) |}.
Example C95_object_case : forall b, symmetric_grid (real_cfg b) /\ regular (real_cfg b) 2.
Proof.
  intros b. split.
  - (split; [cbn; lia|]); (split; [cbn; lia|]); (split; [cbn; lia|]); (split; [cbn; lia|]);
      intros j Hj; cbn [real_cfg p_nlat p_ylat p_clat] in *; do 5 (destruct j as [|j]; [cbn [INR Nat.sub]; split; [lra|rewrite <- cos_neg; f_equal; lra]|]); lia.
  - repeat split; cbn; try lia; try lra; field.
Qed.

(** ** C102: the equatorial boundary condition of the inversion *)
Theorem C102_equatorial_boundary_condition :
  forall (P : rsdims R) (pv uu : arr3 R) (g1 g2 : arr2 R) (k : nat) (M m : R),
    pole_to_pole P -> 0 < s_a P -> (2 <= k <= s_kmax P - 1)%nat -> level_max P pv k M -> level_min P pv k m -> m < M ->
    cap_area P 1 < area_of P pv k (at_most (contour P M m 2)) ->
    exists nn t, (1 <= nn <= s_npart P - 1)%nat /\ 0 <= t < 1 /\
      (* t interpolates between contours nn and nn + 1 so that the area between them and the second contour is a hemisphere *)
      let area n := area_of P pv k (between (contour P M m (n + 1)) (contour P M m 2)) in
      let circulation n := circulation_of P pv k (between (contour P M m (n + 1)) (contour P M m 2)) in
      area nn * (1 - t) + area (nn + 1)%nat * t = cap_area P 1 /\
      u_equator P pv uu g1 g2 k =
        zonal P uu 1 k + (circulation nn * (1 - t) + circulation (nn + 1)%nat * t
                          - Sum 1 (s_jd P) (fun j => (zonal P pv j k + zonal P pv (j + 1) k) / 2 * (2 * PI * (s_a P)² * s_dphi P * cos (lat P j + s_dphi P / 2))))
                         / (2 * PI * s_a P).
Proof. intros P pv uu g1 g2 k M m G Ha Hk HM Hm Hmm Hf. exact (equator_value P G Ha pv k M m Hk HM Hm Hmm uu g1 g2 Hf). Qed.
Print Assumptions C102_equatorial_boundary_condition.
Example C102_case : forall eps n, pole_to_pole (tiny eps n) /\ level_max (tiny eps n) pv_pole 2 1 /\ level_min (tiny eps n) pv_pole 2 0 /\
  cap_area (tiny eps n) 1 < area_of (tiny eps n) pv_pole 2 (at_most (contour (tiny eps n) 1 0 2)).
Proof.
  intros eps n. split; [apply tiny_grid|]. split; [|split].
  - split; [intros i j _; unfold pv_pole; destruct (Nat.eqb j 5); lra|]. exists 1%nat, 5%nat. split; [cbv; lia|reflexivity].
  - split; [intros i j _; unfold pv_pole; destruct (Nat.eqb j 5); lra|]. exists 1%nat, 1%nat. split; [cbv; lia|reflexivity].
  - unfold area_of, cap_area, cell_area, global_lat, lat, contour. cbn [tiny s_nlat s_nlon s_a s_dphi s_dlambda s_npart]. cbn [Nat.add].
    rewrite (Sum_S_l 1), (Sum_S_l 2), (Sum_S_l 3), (Sum_S_l 4), (Sum_S_l 5), (Sum_empty 6) by lia.
    rewrite !(Sum_S_l 1), !(Sum_empty 2) by lia. unfold pv_pole, at_most. cbn [Nat.eqb INR].
    repeat match goal with |- context [Rle_dec ?x ?y] => destruct (Rle_dec x y); [try lra|try (exfalso; lra)] end.
    replace (PI / 4 * (1 - 1) - PI / 2) with (- (PI / 2)) by field. replace (PI / 4 * (1 + 1 - 1) - PI / 2) with (- (PI / 4)) by field.
    replace (PI / 4 * (1 + 1 + 1 - 1) - PI / 2) with 0 by field. replace (PI / 4 * (1 + 1 + 1 + 1 - 1) - PI / 2) with (PI / 4) by field.
    replace (PI / 4 * (1 - 1)) with 0 by ring. rewrite !cos_neg, cos_PI2, cos_0, sin_0. unfold Rsqr.
    assert (P3 := PI2_3_2). assert (C : 1 / 2 < cos (PI / 4)).
    { assert (X : cos (PI / 3) < cos (PI / 4)) by (apply cos_decreasing_1; lra). rewrite cos_PI3 in X. lra. }
    set (x := cos (PI / 4)) in *. assert (0 < PI * PI) by nra. nra.
Qed.

(** ** C51 and C52 for the arrays an object reports *)
Section ReportedPV.
  Variables (c : pconf R) (npart maxit : nat) (tol rjac : R).
  Hypothesis G : symmetric_grid c.
  Hypothesis Rg : regular c npart.
  Variable q : arr3 R.
  Variable k : nat.
  Hypothesis Hk : (2 <= k <= p_kmax c - 1)%nat.
  Let P := nh18_dims c npart maxit tol rjac.
  Let N := clip3 c q.
  Let S := clip3 c (neg3 (flip3 c q)).
  Lemma N_value i J : (1 <= i <= p_nlon c)%nat -> (1 <= J <= p_nlat c)%nat -> N i J k = q i J k.
  Proof.
    intros Hi HJ. unfold N, clip3. repeat match goal with |- context [Nat.leb ?a ?b] => destruct (Nat.leb_spec a b); [|lia] end. reflexivity.
  Qed.
  Lemma S_value i J : (1 <= i <= p_nlon c)%nat -> (1 <= J <= p_nlat c)%nat -> S i (p_nlat c + 1 - J)%nat k = - q i J k.
  Proof.
    intros Hi HJ. unfold S, clip3. repeat match goal with |- context [Nat.leb ?a ?b] => destruct (Nat.leb_spec a b); [|lia] end.
    unfold neg3, flip3. cbn [andb nopp RNum]. replace (p_nlat c + 1 - (p_nlat c + 1 - J))%nat with J by lia. reflexivity.
  Qed.
  Lemma N_max M : field_max c q k M -> level_max P N k M.
  Proof.
    intros (H1 & i & J & Hi & HJ & E). split.
    - intros i' j' [X Y]. rewrite N_value by assumption. apply H1; assumption.
    - exists i, J. split; [split; assumption|]. rewrite N_value by assumption. exact E.
  Qed.
  Lemma N_min m : field_min c q k m -> level_min P N k m.
  Proof.
    intros (H1 & i & J & Hi & HJ & E). split.
    - intros i' j' [X Y]. rewrite N_value by assumption. apply H1; assumption.
    - exists i, J. split; [split; assumption|]. rewrite N_value by assumption. exact E.
  Qed.
  Lemma S_max m : field_min c q k m -> level_max P S k (- m).
  Proof.
    intros (H1 & i & J & Hi & HJ & E). split.
    - intros i' j' [X Y]. cbn in X, Y. replace j' with (p_nlat c + 1 - (p_nlat c + 1 - j'))%nat by lia. rewrite S_value by lia.
      assert (Z := H1 i' (p_nlat c + 1 - j')%nat X ltac:(lia)). lra.
    - exists i, (p_nlat c + 1 - J)%nat. split; [split; cbn; lia|]. rewrite S_value by assumption. lra.
  Qed.
  Lemma S_min M : field_max c q k M -> level_min P S k (- M).
  Proof.
    intros (H1 & i & J & Hi & HJ & E). split.
    - intros i' j' [X Y]. cbn in X, Y. replace j' with (p_nlat c + 1 - (p_nlat c + 1 - j'))%nat by lia. rewrite S_value by lia.
      assert (Z := H1 i' (p_nlat c + 1 - j')%nat X ltac:(lia)). lra.
    - exists i, (p_nlat c + 1 - J)%nat. split; [split; cbn; lia|]. rewrite S_value by assumption. lra.
  Qed.
  Lemma half_turn : PI / 2 = p_dphi c * (INR (p_eq c) - 1).
  Proof. destruct Rg as (R1 & _ & _ & _ & R5 & _). rewrite <- R5, minus_INR by lia. cbn [INR]. ring. Qed.
  Lemma cell_cos J : global_lat P J = latitude c J.
  Proof. unfold global_lat, lat, latitude. cbn [P nh18_dims s_dphi]. rewrite half_turn. ring. Qed.
  Lemma N_area B : area_of P N k B = area_where c q k B.
  Proof.
    unfold area_of, area_where. apply Sum_ext. intros J HJ. apply Sum_ext. intros i Hi. cbn [P nh18_dims s_nlat s_nlon] in HJ, Hi.
    unfold cell_area. rewrite N_value, cell_cos by lia. reflexivity.
  Qed.
  Lemma S_area B : area_of P S k B = area_where c q k (fun x => B (- x)).
  Proof.
    unfold area_of, area_where. rewrite (Sum_reflect (p_nlat c + 1) 1 (s_nlat P + 1)) by (cbn; lia). cbn [P nh18_dims s_nlat s_nlon].
    replace (Datatypes.S (p_nlat c + 1) - (p_nlat c + 1))%nat with 1%nat by lia. replace (Datatypes.S (p_nlat c + 1) - 1)%nat with (p_nlat c + 1)%nat by lia.
    apply Sum_ext. intros J HJ. apply Sum_ext. intros i Hi. rewrite S_value by lia. destruct (B (- q i J k)); [|reflexivity].
    unfold cell_area. fold P. rewrite cell_cos. cbn [P nh18_dims s_a s_dphi s_dlambda]. f_equal. rewrite <- cos_neg. f_equal.
    unfold latitude. destruct G as (G1 & G2 & _). rewrite minus_INR, plus_INR, G2, minus_INR, mult_INR by lia. cbn [INR]. ring.
  Qed.
  Lemma area_where_ext B B' : (forall x, B x = B' x) -> area_where c q k B = area_where c q k B'.
  Proof. intros E. unfold area_where. apply Sum_ext. intros J _. apply Sum_ext. intros i _. rewrite E. reflexivity. Qed.
End ReportedPV.

(** northern rows: the PV of the reference state lies in the range of the PV of the level, increases northwards and reaches the maximum at
    the pole; and the contour of a row encloses the area north of it within two contour intervals *)
Theorem C52_reported_north_partial :
  forall (c : pconf R) (npart maxit : nat) (tol rjac : R) (stat : nat -> R) (g1 g2 : arr2 R) (q : arr3 R) (f : fields R) (old : refstate R),
    symmetric_grid c -> regular c npart -> p_nh c = false ->
    let r := refs_nh18 c (nh18_solver c npart maxit tol rjac stat g1 g2) q f old in
    forall k M m, (2 <= k <= p_kmax c - 1)%nat -> field_max c q k M -> field_min c q k m -> m < M ->
    let d := (M - m) / (INR npart - 1) in
    let Q J := qref_ r J k * (2 * p_om c * sin (latitude c J)) in
    (forall J1 J2, (p_eq c < J1 <= J2)%nat -> (J2 <= p_nlat c)%nat -> north_of c J1 < area_where c q k (at_most (M - d)) ->
       m <= Q J1 <= M /\ m <= Q J2 <= M /\ Q J1 <= Q J2) /\ Q (p_nlat c) = M /\
    forall J b, (p_eq c < J < p_nlat c)%nat -> north_of c J < area_where c q k (at_most (M - d)) ->
      (forall x, area_where c q k (between (x - d) x) <= b) ->
      - (2 * b) <= area_where c q k (above (Q J)) - north_of c J <= b.
Proof.
  intros c npart maxit tol rjac stat g1 g2 q f old G Rg Hn r k M m Hk HM Hm Hmm d Q. assert (GP := nh18_grid c npart maxit tol rjac G Rg).
  set (P := nh18_dims c npart maxit tol rjac) in *. assert (G2 := proj1 (proj2 G)).
  assert (Ha : 0 < s_a P) by (cbn; apply Rg). assert (Ho : 0 < s_om P) by (cbn; apply Rg). assert (R1 := proj1 Rg).
  assert (HM' := N_max c npart maxit tol rjac q k Hk M HM). assert (Hm' := N_min c npart maxit tol rjac q k Hk m Hm). fold P in HM', Hm'.
  assert (A := N_area c npart maxit tol rjac Rg q k Hk). fold P in A.
  assert (C2 : contour P M m 2 = M - d) by (unfold contour, d; cbn [P nh18_dims s_npart INR]; unfold Rdiv; ring).
  assert (L : forall J, (p_eq c <= J)%nat -> lat P (J - (p_eq c - 1)) = latitude c J).
  { intros J HJ. unfold lat, latitude. cbn [P nh18_dims s_dphi]. rewrite minus_INR, minus_INR by lia. cbn [INR]. ring. }
  assert (V : forall J, (p_eq c < J)%nat -> Q J = rs_qref P (clip3 c q) (J - (p_eq c - 1)) k * (2 * s_om P * sin (lat P (J - (p_eq c - 1))))).
  { intros J HJ. unfold Q. assert (X := proj1 (reported_north c G (nh18_solver c npart maxit tol rjac stat g1 g2) q f old Hn (J - (p_eq c - 1)) k ltac:(lia))).
    cbv zeta in X. fold r in X. replace (p_eq c - 1 + (J - (p_eq c - 1)))%nat with J in X by lia. rewrite X, L by lia. reflexivity. }
  assert (CA : forall J, (p_eq c <= J)%nat -> cap_area P (J - (p_eq c - 1)) = north_of c J) by (intros J HJ; unfold cap_area, north_of; rewrite L by exact HJ; reflexivity).
  assert (E : Q (p_nlat c) = M).
  { rewrite V by lia. replace (p_nlat c - (p_eq c - 1))%nat with (s_jd P) by (cbn; lia).
    assert (J3 : (3 <= s_jd P)%nat) by exact R1.
    destruct (C52_reference_pv_in_range_and_monotone_partial P (clip3 c q) k M m GP Ha Ho Hk HM' Hm' Hmm (s_jd P) (s_jd P) ltac:(lia) ltac:(lia) (or_intror eq_refl)) as (_ & _ & _ & X). exact X. }
  split; [|split; [exact E|]].
  - intros J1 J2 H1 H2 Hf. rewrite !V by lia. rewrite <- CA, <- A, <- C2 in Hf by lia.
    destruct (C52_reference_pv_in_range_and_monotone_partial P (clip3 c q) k M m GP Ha Ho Hk HM' Hm' Hmm (J1 - (p_eq c - 1)) (J2 - (p_eq c - 1)) ltac:(lia) ltac:(cbn; lia) (or_introl Hf)) as (X1 & X2 & X3 & _).
    split; [exact X1|split; [exact X2|exact X3]].
  - intros J b HJ Hf Hb. rewrite V by lia. rewrite <- CA, <- A, <- C2 in Hf by lia. rewrite <- A, <- CA by lia.
    apply (C51_reported_contour_encloses_the_cap P (clip3 c q) k (J - (p_eq c - 1)) M m b); try assumption; try (cbn; lia).
    intros nn Hnn. rewrite A. replace (contour P M m (nn + 1)) with (contour P M m nn - d); [apply Hb|]. unfold contour, d. rewrite plus_INR. cbn [P nh18_dims s_npart INR]. unfold Rdiv. ring.
Qed.
Print Assumptions C52_reported_north_partial.

(** southern rows: the mirror statement *)
Theorem C52_reported_south_partial :
  forall (c : pconf R) (npart maxit : nat) (tol rjac : R) (stat : nat -> R) (g1 g2 : arr2 R) (q : arr3 R) (f : fields R) (old : refstate R),
    symmetric_grid c -> regular c npart -> p_nh c = false ->
    let r := refs_nh18 c (nh18_solver c npart maxit tol rjac stat g1 g2) q f old in
    forall k M m, (2 <= k <= p_kmax c - 1)%nat -> field_max c q k M -> field_min c q k m -> m < M ->
    let d := (M - m) / (INR npart - 1) in
    let Q J := qref_ r J k * (2 * p_om c * sin (latitude c J)) in
    (forall J1 J2, (1 <= J1 <= J2)%nat -> (J2 < p_eq c)%nat -> south_of c J2 < area_where c q k (at_least (m + d)) ->
       m <= Q J1 <= M /\ m <= Q J2 <= M /\ Q J1 <= Q J2) /\ Q 1%nat = m /\
    forall J b, (1 < J < p_eq c)%nat -> south_of c J < area_where c q k (at_least (m + d)) ->
      (forall x, area_where c q k (fun y => between (x - d) x (- y)) <= b) ->
      - (2 * b) <= area_where c q k (below (Q J)) - south_of c J <= b.
Proof.
  intros c npart maxit tol rjac stat g1 g2 q f old G Rg Hn r k M m Hk HM Hm Hmm d Q. assert (GP := nh18_grid c npart maxit tol rjac G Rg).
  set (P := nh18_dims c npart maxit tol rjac) in *. assert (G2 := proj1 (proj2 G)).
  assert (Ha : 0 < s_a P) by (cbn; apply Rg). assert (Ho : 0 < s_om P) by (cbn; apply Rg). assert (R1 := proj1 Rg).
  assert (HM' := S_max c npart maxit tol rjac q k Hk m Hm). assert (Hm' := S_min c npart maxit tol rjac q k Hk M HM). fold P in HM', Hm'.
  set (X := clip3 c (neg3 (flip3 c q))) in *. assert (Hmm' : - M < - m) by lra.
  assert (A := S_area c npart maxit tol rjac G Rg q k Hk). fold P in A. fold X in A.
  assert (C2 : contour P (- m) (- M) 2 = - (m + d)) by (unfold contour, d; cbn [P nh18_dims s_npart INR]; unfold Rdiv; ring).
  assert (L : forall J, (J <= p_eq c)%nat -> lat P (p_eq c + 1 - J) = - latitude c J).
  { intros J HJ. unfold lat, latitude. cbn [P nh18_dims s_dphi]. rewrite minus_INR, plus_INR by lia. cbn [INR]. ring. }
  assert (V : forall J, (1 <= J <= p_eq c)%nat -> - Q J = rs_qref P X (p_eq c + 1 - J) k * (2 * s_om P * sin (lat P (p_eq c + 1 - J)))).
  { intros J HJ. unfold Q. assert (Y := proj1 (reported_south c (nh18_solver c npart maxit tol rjac stat g1 g2) q f old Hn (p_eq c + 1 - J) k ltac:(lia))).
    cbv zeta in Y. fold r in Y. replace (p_eq c + 1 - (p_eq c + 1 - J))%nat with J in Y by lia. rewrite Y, L, sin_neg by lia. cbn [nh18_solver qref_]. fold P. fold X.
    cbn [P nh18_dims s_om]. ring. }
  assert (CA : forall J, (J <= p_eq c)%nat -> cap_area P (p_eq c + 1 - J) = south_of c J).
  { intros J HJ. unfold cap_area, south_of. rewrite L, sin_neg by exact HJ. cbn [P nh18_dims s_a]. ring. }
  assert (AL : area_of P X k (at_most (contour P (- m) (- M) 2)) = area_where c q k (at_least (m + d))).
  { rewrite A, C2. apply area_where_ext. intros x. unfold at_most, at_least. destruct (Rle_dec (- x) (- (m + d))), (Rle_dec (m + d) x); lra || reflexivity. }
  split; [|split].
  - intros J1 J2 H1 H2 Hf. assert (V1 := V J1 ltac:(lia)). assert (V2 := V J2 ltac:(lia)). rewrite <- CA, <- AL in Hf by lia.
    destruct (C52_reference_pv_in_range_and_monotone_partial P X k (- m) (- M) GP Ha Ho Hk HM' Hm' Hmm' (p_eq c + 1 - J2) (p_eq c + 1 - J1) ltac:(lia) ltac:(cbn; lia) (or_introl Hf)) as (X1 & X2 & X3 & _).
    rewrite <- V1, <- V2 in *. lra.
  - assert (V1 := V 1%nat ltac:(lia)). replace (p_eq c + 1 - 1)%nat with (s_jd P) in V1 by (cbn; lia). assert (J3 : (3 <= s_jd P)%nat) by exact R1.
    destruct (C52_reference_pv_in_range_and_monotone_partial P X k (- m) (- M) GP Ha Ho Hk HM' Hm' Hmm' (s_jd P) (s_jd P) ltac:(lia) ltac:(lia) (or_intror eq_refl)) as (_ & _ & _ & Y).
    cbv beta in Y. lra.
  - intros J b HJ Hf Hb. assert (V1 := V J ltac:(lia)). rewrite <- CA, <- AL in Hf by lia.
    assert (Y := C51_reported_contour_encloses_the_cap P X k (p_eq c + 1 - J) (- m) (- M) b GP Ha Ho Hk ltac:(cbn; lia) HM' Hm' Hmm' Hf).
    rewrite <- V1, A, CA in Y by lia. rewrite (area_where_ext c q k (fun x => above (- Q J) (- x)) (below (Q J))) in Y.
    + apply Y. intros nn Hnn. rewrite A. replace (contour P (- m) (- M) (nn + 1)) with (contour P (- m) (- M) nn - d); [apply Hb|].
      unfold contour, d. rewrite plus_INR. cbn [P nh18_dims s_npart INR]. unfold Rdiv. ring.
    + intros x. unfold above, below. destruct (Rlt_dec (- Q J) (- x)), (Rlt_dec x (Q J)); lra || reflexivity.
Qed.
Print Assumptions C52_reported_south_partial.
Definition two_poles : arr3 R := fun _ J _ => if Nat.eqb J 5 then 1 else if Nat.eqb J 1 then -1 else 0.
Example C52_object_case : let c := real_cfg false in
  symmetric_grid c /\ regular c 3 /\ field_max c two_poles 2 1 /\ field_min c two_poles 2 (-1) /\
  north_of c 4 < area_where c two_poles 2 (at_most (1 - (1 - -1) / (INR 3 - 1))) /\
  south_of c 2 < area_where c two_poles 2 (at_least (-1 + (1 - -1) / (INR 3 - 1))).
Proof.
  intros c. split; [apply C95_object_case|]. split; [repeat split; cbn; try lia; try lra; field|]. split; [|split].
  - split; [intros i J _ _; unfold two_poles; destruct (Nat.eqb J 5), (Nat.eqb J 1); lra|]. exists 1%nat, 5%nat. cbn. repeat split; lia.
  - split; [intros i J _ _; unfold two_poles; destruct (Nat.eqb J 5), (Nat.eqb J 1); lra|]. exists 1%nat, 1%nat. cbn. repeat split; lia.
  - assert (P3 := PI2_3_2). assert (C : 1 / 2 < cos (PI / 4)).
    { assert (X : cos (PI / 3) < cos (PI / 4)) by (apply cos_decreasing_1; lra). rewrite cos_PI3 in X. lra. }
    assert (Sn : 0 < sin (PI / 4)) by (apply sin_gt_0; lra).
    unfold north_of, south_of, area_where, latitude. cbn [c real_cfg p_nlat p_nlon p_a p_dphi p_dlambda p_eq]. cbn [Nat.add].
    set (a2 := 6378000²). assert (0 < a2) by (unfold a2, Rsqr; lra). clearbody a2.
    rewrite !(Sum_S_l 1 6), !(Sum_S_l 2 6), !(Sum_S_l 3 6), !(Sum_S_l 4 6), !(Sum_S_l 5 6), !(Sum_empty 6 6) by lia.
    rewrite !(Sum_S_l 1 5), !(Sum_S_l 2 5), !(Sum_S_l 3 5), !(Sum_S_l 4 5), !(Sum_empty 5 5) by lia.
    unfold two_poles, at_most, at_least. cbn [Nat.eqb INR].
    repeat match goal with |- context [Rle_dec ?x ?y] => destruct (Rle_dec x y); [try (exfalso; lra)|try (exfalso; lra)] end.
    replace (PI / 4 * (1 + 1 - (1 + 1 + 1))) with (- (PI / 4)) by field. replace (PI / 4 * (1 - (1 + 1 + 1))) with (- (PI / 2)) by field.
    replace (PI / 4 * (1 + 1 + 1 - (1 + 1 + 1))) with 0 by field. replace (PI / 4 * (1 + 1 + 1 + 1 - (1 + 1 + 1))) with (PI / 4) by field.
    replace (PI / 4 * (1 + 1 + 1 + 1 + 1 - (1 + 1 + 1))) with (PI / 2) by field.
    rewrite !cos_neg, sin_neg, cos_PI2, cos_0. set (x := cos (PI / 4)) in *. set (y := sin (PI / 4)) in *.
    assert (0 < a2 * PI) by nra. set (z := a2 * PI) in *. assert (W : 2 < PI * (1 / 2 + x)) by nra. assert (Y := Rmult_lt_compat_l z 2 (PI * (1 / 2 + x)) ltac:(lra) W).
    assert (V : 0 < z * y) by nra.
    replace (2 * PI * a2 * (1 - y)) with (2 * z - 2 * (z * y)) by (unfold z; ring). replace (2 * PI * a2 * (1 + - y)) with (2 * z - 2 * (z * y)) by (unfold z; ring).
    match goal with |- _ < ?e1 /\ _ < ?e2 => replace e1 with (z * (PI * (1 / 2 + x))) by (unfold z; field); replace e2 with (z * (PI * (1 / 2 + x))) by (unfold z; field) end. lra.
Qed.
