(** Proofs for C182, continued: the grid, the interpolations, reading, and whole sessions *)
From Coq Require Import Reals Lra Lia List FunctionalExtensionality.
From Verif Require Import Base BaseFacts Grid GridProofs Flux Utilities Qgpv Pipeline RefStates DirInv Object Session InfluenceProofs UnitSpec UnitProofs UnitProofs2 UnitProofs3.
Import ListNotations.
Open Scope R_scope.

Lemma interp1d_y q n x y v : interp1d n x (scale1 q y) v = q * interp1d n x y v.
Proof. unfold interp1d. cbv zeta. unfold scale1. toR. unfold Rdiv. ring. Qed.
Lemma interp1d_x l n x y v : 0 < l -> interp1d n (fun i => l * x i) y (l * v) = interp1d n x y v.
Proof.
  intros L. assert (E : searchsorted n (fun i => l * x i) (l * v) = searchsorted n x v).
  { induction n as [|n IH]; cbn [searchsorted]; [reflexivity|]. rewrite IH. toR. rewrite Rltb_pos by assumption. reflexivity. }
  unfold interp1d. cbv zeta. rewrite E. set (hi := Nat.min _ _). toR.
  replace (l * x hi - l * x (hi - 1)%nat) with (l * (x hi - x (hi - 1)%nat)) by ring. unfold Rdiv. rewrite Rinv_mult. generalize (/ (x hi - x (hi - 1)%nat)) as z. intros z. field. lra.
Qed.

(** reading *)
Lemma back_u q w o m x : back w o m (scale1 q x) = match back w o m x with Done y => Done (scale1 q y) | Raise e => Raise e end.
Proof.
  unfold back, return_interp. destruct (lg_need _); [|reflexivity]. destruct (w_nh w); unfold interp1d_checked; cbv zeta; (destruct (Nat.eqb _ _); [|reflexivity]);
    (apply f_equal; extensionality k; unfold scale1 at 2; apply interp1d_y).
Qed.
Lemma read_map_u q w o m x : read_map w o m (scale2 q x) = map_in q (read_map w o m x).
Proof.
  unfold read_map, each. 
  assert (E : forall i, back w o m (fun r => scale2 q x (i + 1)%nat (r + 1)%nat) = match back w o m (fun r => x (i + 1)%nat (r + 1)%nat) with Done y => Done (scale1 q y) | Raise e => Raise e end)
    by (intros i; exact (back_u q w o m (fun r => x (i + 1)%nat (r + 1)%nat))).
  rewrite E. destruct (back w o m (fun r => x (0 + 1)%nat (r + 1)%nat)); cbn [map_in]; [|reflexivity]. apply f_equal. extensionality row. extensionality i. rewrite E. destruct (back w o m (fun r => x (i + 1)%nat (r + 1)%nat)); [reflexivity|ring].
Qed.
Lemma read_profile_u q w o m x : read_profile w o m (scale2 q x) = map_in q (read_profile w o m x).
Proof.
  unfold read_profile, each.
  assert (E : forall i, back w o m (fun r => scale2 q x (r + 1)%nat (i + 1)%nat) = match back w o m (fun r => x (r + 1)%nat (i + 1)%nat) with Done y => Done (scale1 q y) | Raise e => Raise e end)
    by (intros i; exact (back_u q w o m (fun r => x (r + 1)%nat (i + 1)%nat))).
  rewrite E. destruct (back w o m (fun r => x (r + 1)%nat (0 + 1)%nat)); cbn [map_in]; [|reflexivity]. apply f_equal. extensionality row. extensionality i. rewrite E. destruct (back w o m (fun r => x (r + 1)%nat (row + 1)%nat)); [reflexivity|ring].
Qed.
Lemma read_field_u q w o m x : read_field w o m (scale3 q x) = field_in q (read_field w o m x).
Proof.
  unfold read_field.
  assert (E : forall k, read_map w o m (fun i j => scale3 q x i j k) = map_in q (read_map w o m (fun i j => x i j k))) by (intros k; exact (read_map_u q w o m (fun i j => x i j k))).
  rewrite E. destruct (read_map w o m (fun i j => x i j 1%nat)); cbn [map_in field_in]; [|reflexivity]. apply f_equal. extensionality k. extensionality row. extensionality i. rewrite E.
  destruct (read_map w o m (fun i j => x i j (k + 1)%nat)); cbn [map_in]; [reflexivity|ring].
Qed.

Definition grid_units (l : R) (g : grid) : grid :=
  {| g_kmax := g_kmax g; g_height := scale1 l (g_height g); g_dz := l * g_dz g; g_nlev := g_nlev g; g_nlat := g_nlat g; g_nlon := g_nlon g;
     g_input_ylat := g_input_ylat g; g_lat := g_lat g; g_jd := g_jd g; g_dphi := g_dphi g; g_dlambda := g_dlambda g; g_npart := g_npart g; g_nh := g_nh g;
     g_prefactor := l * g_prefactor g; g_H := l * g_H g |}.

Section SessionUnits.
  Variables c l kt : R.
  Hypothesis Hc : 0 < c.
  Hypothesis Hl : 0 < l.
  Hypothesis Ht : 0 < kt.
  Let c0 : c <> 0. Proof. lra. Qed.
  Let l0 : l <> 0. Proof. lra. Qed.
  Let k0 : kt <> 0. Proof. lra. Qed.
  Variable w : qgargs.
  Notation w' := (in_units c l kt w).
  Ltac pw := cbn [in_units w_nlon w_nlat w_nlev w_ylat w_plev w_u w_v w_t w_kmax w_maxit w_dz w_npart w_tol w_rjac w_H w_cp w_rr w_om w_a w_nh w_evenly].

  Lemma height_u p : plev_to_height (l * w_H w) p = l * plev_to_height (w_H w) p.
  Proof. unfold plev_to_height. ring. Qed.
  Lemma prefactor_u n dz H : prefactor n (l * dz) (l * H) = l * prefactor n dz H.
  Proof.
    unfold prefactor. apply nsum_scal. intros k. toR. replace (- nofnat (k + 1) * (l * dz)) with (l * (- nofnat (k + 1) * dz)) by ring. rewrite ratio by assumption. ring.
  Qed.
  Lemma grid_of_u : grid_of w' = match grid_of w with Done g => Done (grid_units l g) | Raise e => Raise e end.
  Proof.
    unfold grid_of. pw. unfold qg_init. cbv zeta. destruct (w_evenly w).
    - destruct (Nat.ltb _ _); [reflexivity|]. destruct (broadcast_shapes _ _); [|reflexivity]. destruct (check_and_flip_ylat _ _) as [lat|]; [|reflexivity].
      repeat (destruct (negb _); [reflexivity|]). apply f_equal. unfold grid_units. cbn [g_kmax g_height g_dz g_nlev g_nlat g_nlon g_input_ylat g_lat g_jd g_dphi g_dlambda g_npart g_nh g_prefactor g_H].
      rewrite !height_u. replace (l * plev_to_height (w_H w) (w_plev w 1) - l * plev_to_height (w_H w) (w_plev w 0)) with (l * (plev_to_height (w_H w) (w_plev w 1%nat) - plev_to_height (w_H w) (w_plev w 0%nat))) by ring.
      rewrite prefactor_u. f_equal. extensionality k. apply height_u.
    - assert (V : check_valid_plev (w_nlev w) (w_plev w) (l * w_H w) (w_kmax w) (l * w_dz w) = check_valid_plev (w_nlev w) (w_plev w) (w_H w) (w_kmax w) (w_dz w)).
      { unfold check_valid_plev. rewrite height_u. replace (IZR (Z.of_nat (w_kmax w) - 1) * (l * w_dz w)) with (l * (IZR (Z.of_nat (w_kmax w) - 1) * w_dz w)) by ring. rewrite Rltb_pos by assumption. reflexivity. }
      rewrite V. clear V. destruct (check_valid_plev (w_nlev w) (w_plev w) (w_H w) (w_kmax w) (w_dz w)); [reflexivity|]. destruct (broadcast_shapes _ _); [|reflexivity]. destruct (check_and_flip_ylat _ _) as [lat|]; [|reflexivity].
      repeat (destruct (negb _); [reflexivity|]). apply f_equal. unfold grid_units. cbn [g_kmax g_height g_dz g_nlev g_nlat g_nlon g_input_ylat g_lat g_jd g_dphi g_dlambda g_npart g_nh g_prefactor g_H].
      rewrite prefactor_u. f_equal. extensionality k. unfold uniform_height, scale1. toR. ring.
  Qed.

  Variable k : class.
  Variable g : grid.
  Notation g' := (grid_units l g).
  Notation o := (object_of k w g).
  Notation o' := (object_of k w' g').
  Lemma conf_u : ob_conf o' = conf_units c l kt (ob_conf o).
  Proof. reflexivity. Qed.
  Lemma data_height_u : data_height w' = fun i => l * data_height w i.
  Proof. extensionality i. unfold data_height. pw. apply height_u. Qed.
  Lemma theta_data_u : theta_data w' = fun a b d => kt * theta_data w a b d.
  Proof.
    extensionality i. extensionality j. extensionality m. unfold theta_data. rewrite data_height_u. pw. rewrite Rmult_assoc. do 3 f_equal.
    rewrite (ratio (l * l * c * c * / kt)) by (assert (I := Rinv_0_lt_compat kt Ht); apply Rgt_not_eq; repeat apply Rmult_lt_0_compat; assumption). replace (w_rr w / w_cp w * (l * data_height w i)) with (l * (w_rr w / w_cp w * data_height w i)) by ring. apply ratio, l0.
  Qed.
  Lemma to_analysis_u q lat (x : field3) : to_analysis w' lat (fun a b d => q * x a b d) = fun a b d => q * to_analysis w lat x a b d.
  Proof. extensionality i. extensionality j. extensionality m. unfold to_analysis. pw. destruct (lg_need lat); [|reflexivity]. apply (interp1d_y q _ _ (fun r => x i r m)). Qed.
  Lemma to_levels_u q (x : field3) : to_levels w' g' (fun a b d => q * x a b d) = fun a b d => q * to_levels w g x a b d.
  Proof.
    extensionality a. extensionality b. extensionality d. unfold to_levels. pw. destruct (w_evenly w); [reflexivity|]. unfold vertical_interpolation. pw. rewrite data_height_u. cbn [grid_units g_height]. unfold scale1 at 1.
    rewrite interp1d_x by assumption. apply (interp1d_y q _ _ (fun l => x l b d)).
  Qed.
  Lemma to_levels_s (x : field3) : to_levels w' g' x = to_levels w g x.
  Proof.
    extensionality a. extensionality b. extensionality d. unfold to_levels. pw. destruct (w_evenly w); [reflexivity|]. unfold vertical_interpolation. pw. rewrite data_height_u. cbn [grid_units g_height]. unfold scale1 at 1.
    apply interp1d_x. assumption.
  Qed.
  Lemma interpolated_u : interpolated w' o' = fields_units c l kt (interpolated w o).
  Proof.
    unfold interpolated, fields_units. cbn [object_of ob_grid ob_u ob_v ob_theta u_ v_ theta_]. pw. change (g_lat g') with (g_lat g). rewrite theta_data_u, !to_analysis_u, !to_levels_u. reflexivity.
  Qed.
  Variable lib : library.
  Hypothesis LF : unit_free l kt lib.
  Notation lib' := (memory_in c l lib).
  Lemma domain_u : domain lib' k w' o' = av_units l kt (domain lib k w o).
  Proof.
    destruct LF as [L1 L2].
    assert (A : forall y h, lb_spline lib (w_nlev w) (data_height w') (scale1 kt y) (l * h) = kt * lb_spline lib (w_nlev w) (data_height w) y h) by (intros; rewrite data_height_u; apply L1).
    assert (B : forall y h, lb_dspline lib (w_nlev w) (data_height w') (scale1 kt y) (l * h) = / l * kt * lb_dspline lib (w_nlev w) (data_height w) y h) by (intros; rewrite data_height_u; apply L2).
    unfold domain. cbv zeta. rewrite conf_u. change (domain_nh18 (conf_units c l kt (ob_conf o))) with (domain_nh18 (ob_conf o)). change (domain_nhn22 (conf_units c l kt (ob_conf o))) with (domain_nhn22 (ob_conf o)).
    cbn [object_of ob_theta ob_grid grid_units g_height memory_in lb_spline lb_dspline]. pw. change (g_lat g') with (g_lat g). rewrite theta_data_u, to_analysis_u.
    set (th := to_analysis w (g_lat g) (theta_data w)).
    assert (S1 : forall C : pconf R, (fun i => t0_south C (fun a b => kt * th i a b)) = scale1 kt (fun i => t0_south C (th i))).
    { intros C. extensionality i. unfold scale1, t0_south. cbv zeta. toR. unfold Rdiv. rewrite <- Rmult_assoc. apply (f_equal (fun y => y * / csm C)). apply nsum_scal. intros r. rewrite <- Rmult_assoc. f_equal. apply nsum_scal. intros a. toR. ring. }
    assert (S2 : forall C : pconf R, (fun i => t0_north C (fun a b => kt * th i a b)) = scale1 kt (fun i => t0_north C (th i))).
    { intros C. extensionality i. unfold scale1, t0_north. cbv zeta. toR. unfold Rdiv. rewrite <- Rmult_assoc. apply (f_equal (fun y => y * / csm C)). apply nsum_scal. intros r. rewrite <- Rmult_assoc. f_equal. apply nsum_scal. intros a. toR. ring. }
    destruct k; unfold domain_nh18, domain_nhn22, averages_nh18, averages_nhn22, av_units; cbv zeta; cbn [tn0 ts0 stat_n stat_s]; rewrite S1, S2;
      (f_equal; extensionality m; change (scale1 l (g_height g) m) with (l * g_height g m); rewrite ?A, ?B; unfold scale1; first [reflexivity|toR; ring]).
  Qed.
  Lemma the_pv_u : the_pv lib' k w' o' = scale3 c (the_pv lib k w o).
  Proof.
    unfold the_pv. rewrite conf_u, interpolated_u, domain_u. destruct k; [apply pv_nh18_u|apply pv_nhn22_u]; assumption.
  Qed.
  Lemma the_refs_u : the_refs lib' k w' o' = refs_units c l kt (the_refs lib k w o).
  Proof.
    unfold the_refs. cbv zeta. rewrite conf_u, interpolated_u, domain_u, the_pv_u. destruct k.
    - apply (refs_nh18_u c l kt Hc Hl Ht).
    - apply (refs_nhn22_u c l kt Hc Hl Ht).
  Qed.
  Lemma stored_u q (x : field3) : stored (fun a b d => q * x a b d) = scale3 q (stored x).
  Proof. reflexivity. Qed.

  Lemma lo_astar1_u D pv qref : lo_astar1 (flux_units c l kt D) (scale3 c pv) (scale2 c qref) = scale3 (l * c) (lo_astar1 D pv qref).
  Proof.
    apply fill_u. intros i j m. cbn [flux_units nd is_nhem]. apply loop_scal. intros jj s. cbv zeta. rewrite (aa_u c l kt). change (grow (flux_units c l kt D) jj) with (grow D jj). unfold scale3, scale2. toR.
    rewrite <- Rmult_minus_distr_l, Rltb_pos0, Rleb_pos0 by assumption. destruct (is_nhem D); (match goal with |- (if ?b then _ else _) = _ => destruct b end); ring.
  Qed.
  Lemma lo_astar2_u D pv qref : lo_astar2 (flux_units c l kt D) (scale3 c pv) (scale2 c qref) = scale3 (l * c) (lo_astar2 D pv qref).
  Proof.
    apply fill_u. intros i j m. cbn [flux_units nd is_nhem]. apply loop_scal. intros jj s. cbv zeta. rewrite (aa_u c l kt). change (grow (flux_units c l kt D) jj) with (grow D jj). unfold scale3, scale2. toR.
    rewrite <- Rmult_minus_distr_l, Rltb_pos0, Rleb_pos0 by assumption. destruct (is_nhem D); (match goal with |- (if ?b then _ else _) = _ => destruct b end); ring.
  Qed.
  Lemma lo_weight_u D m : lo_weight (flux_units c l kt D) m = lo_weight D m.
  Proof. unfold lo_weight. cbn [flux_units f_dz f_h]. toR. f_equal. replace (l * f_dz D * nfloat m 1) with (l * (f_dz D * nfloat m 1)) by ring. apply ratio_neg, l0. Qed.
  Lemma lo_dc_u D : lo_dc (flux_units c l kt D) = lo_dc D.
  Proof. unfold lo_dc. cbn [flux_units f_dz f_prefac]. toR. apply ratio, l0. Qed.
  Lemma lo_astarbaro_u D pv qref : lo_astarbaro (flux_units c l kt D) (scale3 c pv) (scale2 c qref) = scale2 (l * c) (lo_astarbaro D pv qref).
  Proof. ex2. unfold lo_astarbaro, scale2 at 3. cbn [flux_units Flux.kmax]. apply loop_scal. intros p s. rewrite lo_astar1_u, lo_astar2_u, lo_weight_u, lo_dc_u. unfold scale3. toR. ring. Qed.
  Lemma lo_ubaro_u D uu : lo_ubaro (flux_units c l kt D) (scale3 (l * c) uu) = scale2 (l * c) (lo_ubaro D uu).
  Proof.
    ex2. unfold lo_ubaro, scale2. change (jstart (flux_units c l kt D)) with (jstart D). change (jend (flux_units c l kt D)) with (jend D). destruct (_ && _); [|toR; ring].
    cbn [flux_units Flux.kmax]. apply loop_scal. intros p s. rewrite lo_weight_u, lo_dc_u. change (grow (flux_units c l kt D) j) with (grow D j). unfold scale3. toR. ring.
  Qed.

  Definition only_units (x : lwaonly R) : lwaonly R :=
    {| o_lwa_baro := scale2 (l * c) (o_lwa_baro x); o_u_baro := scale2 (l * c) (o_u_baro x); o_lwa := scale3 (l * c) (o_lwa x);
       o_astar1 := scale3 (l * c) (o_astar1 x); o_astar2 := scale3 (l * c) (o_astar2 x) |}.
  Lemma lwa_only_u C q f r : lwa_only (conf_units c l kt C) (scale3 c q) (fields_units c l kt f) (refs_units c l kt r) = only_units (lwa_only C q f r).
  Proof.
    assert (lc : 0 < l * c) by nra.
    unfold lwa_only, only_units. cbv zeta. cbn [o_lwa_baro o_u_baro o_lwa o_astar1 o_astar2 fields_units u_]. rewrite (unit_u c l kt). cbn [conf_units p_eq].
    rewrite (last_rows_u c l kt), first_rows_u, neg2_u, !(flip3_u c l kt), !neg3_u, !(clip2_u c l kt), !(clip3_u c l kt), !(dims_u c l kt), !lo_astarbaro_u, !lo_ubaro_u, !lo_astar1_u, !lo_astar2_u.
    f_equal.
    - apply global2_u; reflexivity.
    - apply global2_u; reflexivity.
    - apply global3_u; apply (abs_u c l kt); assumption || reflexivity.
    - extensionality i. extensionality j. extensionality m. unfold set_nhem, scale3. change (rows (conf_units c l kt C)) with (rows C). destruct (Nat.leb _ _); toR; [ring|apply Rabs_scal, lc].
    - extensionality i. extensionality j. extensionality m. unfold set_nhem, scale3. change (rows (conf_units c l kt C)) with (rows C). destruct (Nat.leb _ _); toR; [ring|apply Rabs_scal, lc].
  Qed.

  Variable nc : field3.
  Notation nc' := (force_in_units c nc).
  Notation x := (analyse lib k w o nc).
  Notation x' := (analyse lib' k w' o' nc').
  Definition stores_units (y : stores) : stores :=
    {| s_f := fields_units c l kt (s_f y); s_av := av_units l kt (s_av y); s_q := scale3 c (s_q y); s_refs := refs_units c l kt (s_refs y); s_baro := baro_units c l (s_baro y);
       s_layer := layer_units c l (s_layer y); s_only := only_units (s_only y); s_div := scale2 (l * c * c) (s_div y);
       s_conv := (fun i j => conv_factor c l (ob_conf o) j * s_conv y i j); s_lambda := scale2 (l * l * c * c) (s_lambda y); s_phi := scale2 (l * l * c * c) (s_phi y);
       s_stretch := match s_stretch y with Some d => Some (scale3 (l * c * c) d) | None => None end |}.
  Lemma analyse_u : x' = stores_units x.
  Proof.
    rewrite !analyse_assemble. rewrite conf_u, interpolated_u, domain_u, the_pv_u, the_refs_u.
    set (q := the_pv lib k w o). set (f := interpolated w o). set (av := domain lib k w o). set (r := the_refs lib k w o). set (C := ob_conf o). clearbody q f av r.
    unfold force_in_units. rewrite stored_u. unfold assemble, stores_units. cbv zeta. cbn [s_f s_av s_q s_refs s_baro s_layer s_only s_div s_conv s_lambda s_phi s_stretch]. fold C. clearbody C.
    rewrite north_args_u, south_args_u, barotropic_u, layerwise_u, lwa_only_u, div_u, conv_u, lambda_u, phi_u, stretch_term_u by assumption. reflexivity.
  Qed.
  Lemma iterations_same north : iterations lib' w' o' x' north = iterations lib w o x north.
  Proof.
    rewrite analyse_u. unfold iterations. cbv zeta. cbn [stores_units s_q s_f s_av fields_units av_units u_ theta_ stat_n]. rewrite conf_u.
    set (q := s_q x). set (f := s_f x). set (av := s_av x). set (C := ob_conf o). clearbody q f av C.
    assert (E : forall a b d, rs_num_of_iter (nh18_dims (conf_units c l kt C) (g_npart (ob_grid o')) (w_maxit w') (w_tol w') (w_rjac w')) (scale3 c a) (scale3 (l * c) b) (scale3 kt d) (one_based (scale1 (/ l * kt) (stat_n av))) (lb_mem1 lib') (lb_mem2 lib')
      = rs_num_of_iter (nh18_dims C (g_npart (ob_grid o)) (w_maxit w) (w_tol w) (w_rjac w)) a b d (one_based (stat_n av)) (lb_mem1 lib) (lb_mem2 lib)).
    { intros a b d. assert (E := iterations_u c l kt Hc Hl Ht (nh18_dims C (g_npart g) (w_maxit w) (w_tol w) (w_rjac w)) a b d (one_based (stat_n av)) (lb_mem1 lib) (lb_mem2 lib)).
      change (rs_units c l kt (nh18_dims C (g_npart g) (w_maxit w) (w_tol w) (w_rjac w))) with (nh18_dims (conf_units c l kt C) (g_npart g) (w_maxit w) (w_tol w) (w_rjac w)) in E.
      change (scale1 (/ l * kt) (one_based (stat_n av))) with (one_based (scale1 (/ l * kt) (stat_n av))) in E. exact E. }
    destruct north; [rewrite !clip3_u|rewrite !flip3_u, neg3_u, !clip3_u]; apply E.
  Qed.
  Lemma nonconvergent_same : nonconvergent lib' k w' o' x' = nonconvergent lib k w o x.
  Proof.
    unfold nonconvergent. assert (E : forall north, fails lib' k w' o' x' north = fails lib k w o x north).
    { intros north. unfold fails. rewrite iterations_same. reflexivity. }
    rewrite !E. reflexivity.
  Qed.
  Lemma read_u : read w' o' x' = set_conv (read_map w o (rows (ob_conf o)) (s_conv x')) (results_in c l kt (read w o x)).
  Proof.
    rewrite analyse_u. set (y := x). clearbody y. unfold read, set_conv, results_in. cbv zeta. rewrite conf_u. set (C := ob_conf o). change (rows (conf_units c l kt C)) with (rows C). change (p_nlat (conf_units c l kt C)) with (p_nlat C).
    change (read_map w' o') with (read_map w o). change (read_field w' o') with (read_field w o). change (read_profile w' o') with (read_profile w o).
    cbn [out_qgpv out_u out_v out_theta out_stat_n out_stat_s out_qref out_uref out_ptref out_f1 out_f2 out_f3 out_conv out_div out_heat out_lambda out_phi out_lwa_baro out_u_baro out_nc_baro out_lwa out_ua1 out_ua2 out_ep1 out_ep2 out_ep3 out_stretch
      stores_units s_f s_av s_q s_refs s_baro s_layer s_only s_div s_conv s_lambda s_phi s_stretch fields_units av_units baro_units layer_units u_ v_ theta_ stat_n stat_s uref_ ptref_
      b_lwa b_u b_ua1 b_ua2 b_ep1 b_ep2 b_ep3 b_ep4 b_nc b_lwa3 l_ua1 l_ua2 l_ep1 l_ep2 l_ep3].
    rewrite unit_u. cbn [refs_units uref_ ptref_]. clearbody C. rewrite !read_map_u, !read_field_u, !read_profile_u.
    f_equal; try reflexivity. destruct (s_stretch y); [|reflexivity]. exact (read_field_u (l * c * c) w o (rows C) (fun i j m => a i (p_nlat C - rows C + j)%nat m)).
  Qed.
  Lemma read_lwa_u : read_lwa w' o' x' = lwa_results_in c l kt (read_lwa w o x).
  Proof.
    unfold read_lwa. cbv zeta. rewrite read_u. unfold lwa_results_in. cbn [lo_qref lo_uref lo_ptref lo_lwa_baro lo_u_baro lo_lwa set_conv results_in out_qref out_uref out_ptref]. rewrite analyse_u.
    set (y := x). clearbody y. cbn [stores_units s_only only_units o_lwa_baro o_u_baro o_lwa]. rewrite conf_u. change (rows (conf_units c l kt (ob_conf o))) with (rows (ob_conf o)).
    change (read_map w' o') with (read_map w o). change (read_field w' o') with (read_field w o). rewrite !read_map_u, read_field_u. reflexivity.
  Qed.
End SessionUnits.
