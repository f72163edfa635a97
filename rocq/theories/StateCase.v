(** Concrete sessions for the theorems about reference states: a westerly at one point of the equator, in an isentropic atmosphere, for which the
    iterative solver converges; and a wider grid for the direct inversion. *)
From Verif Require Import Base BaseFacts Spec SpecFacts Grid GridSpec GridProofs Flux FluxSpec FluxProofs Pipeline PipelineSpec PipelineProofs RefStates RefStatesSpec RefStatesProofs RefStatesProofs4 DirInv DirInvSpec DirInvProofs3
  Object ObjectSpec ObjectProofs ObjectProofs2 ObjectProofs3 ObjectProofs4 FormulaSpec FormulaProofs FormulaProofs2 Session SessionSpec SessionProofs StateSpec StateProofs StateProofs2 StateProofs3 StateProofs4 StateProofs5 PropertiesObject PropertiesFormula.
From Coq Require Import ZifyNat FunctionalExtensionality.
Ltac Zify.zify_post_hook ::= Z.to_euclidean_division_equations.
Open Scope R_scope.

(** whatever the data, some tolerance is met in the second iteration unless there is no gradient of reference PV *)
Lemma tolerance_exists (c : pconf R) n m rj pv uu pt st g1 g2 : (2 <= m)%nat -> 0 < anormf (nh18_dims c n m 0 rj) pv ->
  exists tol, rs_num_of_iter (nh18_dims c n m tol rj) pv uu pt st g1 g2 = 2%nat.
Proof.
  intros Hm HF. set (P := fun tol => nh18_dims c n m tol rj).
  set (s1 := sweep (P 0) pv uu pt st g1 g2 1 1 (fun _ _ => 0)). set (s2 := sweep (P 0) pv uu pt st g1 g2 2 (next_omega (P 0) 1 1) (fst s1)).
  exists (snd s2 / anormf (P 0) pv + 1). set (tol := snd s2 / anormf (P 0) pv + 1). unfold rs_num_of_iter, solution. cbn [none nzero RNum].
  destruct m as [|[|m]]; [lia|lia|]. change (s_maxits (nh18_dims c n (S (S m)) tol rj)) with (S (S m)). cbn [iterate]. cbn [none nzero RNum].
  change (sweep (nh18_dims c n (S (S m)) tol rj) pv uu pt st g1 g2 1 1 (fun _ _ => 0)) with s1. destruct s1 as [u1 a1] eqn:E1. cbn [fst] in *.
  change (Nat.ltb 1 1) with false. cbn [andb]. change (sweep (nh18_dims c n (S (S m)) tol rj) pv uu pt st g1 g2 2 (next_omega (nh18_dims c n (S (S m)) tol rj) 1 1) u1) with s2.
  destruct s2 as [u2 a2] eqn:E2. change (Nat.ltb 1 2) with true. cbn [andb nltb nmul RNum].
  change (anormf (nh18_dims c n (S (S m)) tol rj) pv) with (anormf (P 0) pv). change (s_eps (nh18_dims c n (S (S m)) tol rj)) with tol. fold (P 0) in HF. cbn [snd] in tol.
  destruct (Rltb_spec a2 (tol * anormf (P 0) pv)) as [L|L]; [reflexivity|]. exfalso. unfold tol in L. replace ((a2 / anormf (P 0) pv + 1) * anormf (P 0) pv) with (a2 + anormf (P 0) pv) in L by (field; lra). lra.
Qed.

Definition isentropic_library : library := {| lb_spline := fun _ _ _ _ => 300; lb_dspline := fun _ _ _ _ => 1; lb_inverse := gauss_inverse; lb_mem1 := fun _ _ => 3; lb_mem2 := fun _ _ => 5 |}.
Definition jet_args (tol : R) : qgargs :=
  {| w_nlon := 4; w_nlat := 5; w_nlev := 4; w_ylat := fun j => -90 + INR j * 45;
     w_plev := fun l => 1000 * exp (- INR l / 7); w_u := fun l j i => if Nat.eqb j 2 && Nat.eqb i 0 then 1 else 0; w_v := fun _ _ _ => 0;
     w_t := fun l _ _ => 300 * exp (- (287 / 1004 * INR l / 7));
     w_kmax := 3; w_maxit := 10; w_dz := 1; w_npart := Some 2%nat; w_tol := tol; w_rjac := 1 / 2; w_H := 7; w_cp := 1004; w_rr := 287; w_om := 1; w_a := 6;
     w_nh := true; w_evenly := false |}.
Lemma jet_height tol l : data_height (jet_args tol) l = INR l.
Proof. unfold data_height, plev_to_height. cbn [jet_args w_H w_plev]. replace (1000 * exp (- INR l / 7) / 1000) with (exp (- INR l / 7)) by field. rewrite ln_exp. field. Qed.
Lemma jet_usable tol : usable NH18 (jet_args tol).
Proof.
  unfold usable, balanced_latitudes. cbn [jet_args w_nlat w_ylat w_nlon w_nlev w_evenly w_npart w_kmax boundary]. split; [split; [lia|]; split; [intros j Hj; rewrite S_INR; lra|]|].
  - right. split; [reflexivity|]. change (5 / 2)%nat with 2%nat. cbn [INR]. lra.
  - repeat split; lia.
Qed.
Lemma jet_accepted tol : accepted_levels (jet_args tol).
Proof.
  split; [cbn; lia|]. intros _. split.
  - cbn [jet_args w_plev INR]. apply Rmult_le_compat_l; [lra|]. apply Rlt_le, exp_increasing. lra.
  - rewrite jet_height. cbn. lra.
Qed.
Lemma jet_poles tol : pole_to_pole_latitudes (jet_args tol).
Proof. intros row Hr. cbn [jet_args w_ylat w_nlat]. change (5 - 1)%nat with 4%nat. cbn [INR]. f_equal. f_equal. field. Qed.
Lemma jet_constants tol : physical_constants (jet_args tol).
Proof. unfold physical_constants, thickness. cbn. repeat split; lra. Qed.
Lemma jet_slopes tol l : t_slope NH18 (jet_args tol) isentropic_library true l = 1.
Proof. unfold t_slope, smooth. cbn [isentropic_library lb_dspline]. field. Qed.
Lemma jet_means tol l : t_mean NH18 (jet_args tol) isentropic_library true l = 300.
Proof. unfold t_mean, smooth. cbn [isentropic_library lb_spline]. field. Qed.
Lemma interp1d_const m (y : nat -> R) a v : interp1d m y (fun _ => a) v = a.
Proof. unfold interp1d. toR. unfold Rdiv. ring. Qed.

Section Jet.
  Variables (tol : R) (nc : field3) (g : grid) (t : tables).
  Local Notation w := (jet_args tol).
  Local Notation lib := isentropic_library.
  Local Notation o := (object_of NH18 w g).
  Local Notation x := (analyse lib NH18 w o nc).
  Hypothesis Hg : grid_of w = Done g.
  Hypothesis T : are_stored x (ob_conf o) t.
  Local Notation U := (jet_usable tol).
  Lemma jet_field (y : field3) (a : nat -> nat -> R) : (forall l j i, y l j i = a j i) ->
    forall l row i, stored (to_levels w g (to_analysis w (g_lat g) y)) (i + 1)%nat (row + 1)%nat (l + 1)%nat = a row i.
  Proof.
    intros H l row i. unfold stored, to_levels. cbn [jet_args w_evenly]. unfold vertical_interpolation. replace (i + 1 - 1)%nat with i by lia. replace (row + 1 - 1)%nat with row by lia. replace (l + 1 - 1)%nat with l by lia.
    rewrite <- (interp1d_const (w_nlev w) (data_height w) (a row i) (g_height g l)). f_equal. extensionality l'. unfold to_analysis.
    destruct (lat_facts NH18 w g U Hg) as (L1 & _). rewrite L1. change (Nat.even (w_nlat w)) with false. cbv iota. apply H.
  Qed.
  Lemma jet_u l row i : t_u t l row i = if Nat.eqb row 2 && Nat.eqb i 0 then 1 else 0.
  Proof. destruct T as (_ & T2 & _). rewrite T2. exact (jet_field (w_u w) (fun j i => if Nat.eqb j 2 && Nat.eqb i 0 then 1 else 0) (fun _ _ _ => eq_refl) l row i). Qed.
  Lemma jet_v l row i : t_v t l row i = 0.
  Proof. destruct T as (_ & _ & T3 & _). rewrite T3. exact (jet_field (w_v w) (fun _ _ => 0) (fun _ _ _ => eq_refl) l row i). Qed.
  Lemma jet_theta l row i : t_theta t l row i = 300.
  Proof.
    destruct T as (_ & _ & _ & T4 & _). rewrite T4. refine (jet_field (theta_data w) (fun _ _ => 300) _ l row i). intros l' j i'. unfold theta_data. rewrite jet_height. cbn [jet_args w_t w_rr w_cp w_H].
    rewrite Rmult_assoc, <- exp_plus, Rplus_opp_l, exp_0. ring.
  Qed.
  (** relative vorticity next to the jet *)
  Local Notation s := (sin (PI / 4)).
  Definition jet_curl : R := 1 / (2 * 6 * s * (PI / 4)).
  Lemma s_pos : 0.7 < s < 0.71.
  Proof.
    rewrite sin_PI4. assert (S2 : sqrt 2 * sqrt 2 = 2) by (apply sqrt_sqrt; lra). assert (P2 := sqrt_lt_R0 2 ltac:(lra)). assert (N : sqrt 2 <> 0) by lra.
    assert (E : 1 / sqrt 2 = sqrt 2 / 2) by (field_simplify_eq; [nra|exact N]). rewrite E. split; nra.
  Qed.
  Lemma jet_curl_pos : 0 < jet_curl.
  Proof. unfold jet_curl. assert (A := s_pos). assert (B := PI_RGT_0). apply Rdiv_lt_0_compat; [lra|]. apply Rmult_lt_0_compat; [|lra]. lra. Qed.
  Lemma jet_lat row : row_lat w row = - PI / 2 + INR row * (PI / 4).
  Proof. unfold row_lat, step. cbn [jet_args w_nlat]. change (5 - 1)%nat with 4%nat. cbn [INR]. f_equal. f_equal. field. Qed.
  Lemma sin_m4 : sin (- (PI / 4)) = - s. Proof. apply sin_neg. Qed.
  Lemma cos_m4 : cos (- (PI / 4)) = s. Proof. rewrite cos_neg, cos_PI4, sin_PI4. reflexivity. Qed.
  Lemma cos_4 : cos (PI / 4) = s. Proof. rewrite cos_PI4, sin_PI4. reflexivity. Qed.
  Lemma lat_0 : row_lat w 0 = - (PI / 2). Proof. rewrite jet_lat. cbn [INR]. field. Qed.
  Lemma lat_1 : row_lat w 1 = - (PI / 4). Proof. rewrite jet_lat. cbn [INR]. field. Qed.
  Lemma lat_2 : row_lat w 2 = 0. Proof. rewrite jet_lat. cbn [INR]. field. Qed.
  Lemma lat_3 : row_lat w 3 = PI / 4. Proof. rewrite jet_lat. cbn [INR]. field. Qed.
  Lemma lat_4 : row_lat w 4 = PI / 2. Proof. rewrite jet_lat. cbn [INR]. field. Qed.
  Lemma jet_step : step w = PI / 4. Proof. unfold step. cbn [jet_args w_nlat]. change (5 - 1)%nat with 4%nat. cbn [INR]. field. Qed.
  Local Notation vort := (vorticity_inside w (t_u t 1%nat) (t_v t 1%nat)).
  Lemma jet_row1 i : vort 1 i = - (2 * s) - (if Nat.eqb i 0 then jet_curl else 0).
  Proof.
    unfold vorticity_inside. rewrite !jet_v, !jet_u, lat_1, jet_step. cbn [Nat.add Nat.sub]. rewrite lat_0, lat_2, sin_m4, cos_m4, cos_neg, cos_PI2, cos_0. cbn [jet_args w_a w_om Nat.eqb andb]. unfold jet_curl.
    assert (A := s_pos). assert (B := PI_RGT_0). destruct (Nat.eqb i 0); field; split; lra.
  Qed.
  Lemma jet_row3 i : vort 3 i = 2 * s + (if Nat.eqb i 0 then jet_curl else 0).
  Proof.
    unfold vorticity_inside. rewrite !jet_v, !jet_u, lat_3, jet_step. cbn [Nat.add Nat.sub]. rewrite lat_4, lat_2, cos_4, cos_PI2, cos_0. cbn [jet_args w_a w_om Nat.eqb andb]. unfold jet_curl.
    assert (A := s_pos). assert (B := PI_RGT_0). destruct (Nat.eqb i 0); field; split; lra.
  Qed.
  Lemma jet_row2 i : vort 2 i = 0.
  Proof.
    unfold vorticity_inside. rewrite !jet_v, !jet_u, lat_2, jet_step. cbn [Nat.add Nat.sub]. rewrite lat_1, lat_3, cos_m4, cos_4, sin_0, cos_0. cbn [jet_args w_a w_om Nat.eqb andb]. field. assert (B := PI_RGT_0). lra.
  Qed.
  Definition jet_pv (row i : nat) : R :=
    match row with 0%nat => - (2 * s) - jet_curl / 4 | 1%nat => - (2 * s) - (if Nat.eqb i 0 then jet_curl else 0) | 2%nat => 0 | 3%nat => 2 * s + (if Nat.eqb i 0 then jet_curl else 0) | _ => 2 * s + jet_curl / 4 end.
  Lemma four_mean (y : nat -> R) : zonal_average w y = (y 0%nat + y 1%nat + y 2%nat + y 3%nat) / 4.
  Proof. unfold zonal_average. cbn [jet_args w_nlon]. rewrite !Sum_S_r by lia. rewrite Sum_empty by lia. cbn [INR]. field. Qed.
  Lemma jet_vorticity row i : (row < 5)%nat -> vorticity w (t_u t 1%nat) (t_v t 1%nat) row i = jet_pv row i.
  Proof.
    intros Hr. unfold vorticity. change (w_nlat w - 1)%nat with 4%nat. change (w_nlat w - 2)%nat with 3%nat.
    destruct row as [|[|[|[|[|row]]]]]; [| | | | |lia]; cbn [Nat.eqb jet_pv].
    - rewrite four_mean, !jet_row1. cbn [Nat.eqb]. field.
    - apply jet_row1.
    - apply jet_row2.
    - apply jet_row3.
    - rewrite four_mean, !jet_row3. cbn [Nat.eqb]. field.
  Qed.
  Lemma jet_inner : inner_level w 1. Proof. unfold inner_level. cbn. lia. Qed.
  Lemma jet_qgpv row i : (row < 5)%nat -> (i < 4)%nat -> t_qgpv t 1%nat row i = jet_pv row i.
  Proof.
    intros Hr Hi. destruct (FormulaProofs6.qgpv_formula lib NH18 w nc g t U Hg eq_refl T 1 row i) as [A _]; [exact Hi|exact Hr|cbn; lia|]. rewrite (A jet_inner). rewrite jet_vorticity by exact Hr.
    unfold stretching_of. rewrite !jet_theta, !jet_means. unfold Rdiv. ring.
  Qed.
  Lemma jet_north row i : towards_pole t true 1 row i = t_qgpv t 1%nat row i. Proof. unfold towards_pole, sign. ring. Qed.
  Lemma jet_greatest : greatest w (towards_pole t true 1) (2 * s + jet_curl).
  Proof.
    assert (A := s_pos). assert (B := jet_curl_pos). split.
    - intros row i Hr Hi. cbn [jet_args w_nlat w_nlon] in Hr, Hi. rewrite jet_north, jet_qgpv by assumption. destruct row as [|[|[|[|row]]]]; cbn [jet_pv]; try (destruct (Nat.eqb i 0)); lra.
    - exists 3%nat, 0%nat. cbn [jet_args w_nlat w_nlon]. split; [lia|]. split; [lia|]. rewrite jet_north, jet_qgpv by lia. reflexivity.
  Qed.
  Lemma jet_least : least w (towards_pole t true 1) (- (2 * s) - jet_curl).
  Proof.
    assert (A := s_pos). assert (B := jet_curl_pos). split.
    - intros row i Hr Hi. cbn [jet_args w_nlat w_nlon] in Hr, Hi. rewrite jet_north, jet_qgpv by assumption. destruct row as [|[|[|[|row]]]]; cbn [jet_pv]; try (destruct (Nat.eqb i 0)); lra.
    - exists 1%nat, 0%nat. cbn [jet_args w_nlat w_nlon]. split; [lia|]. split; [lia|]. rewrite jet_north, jet_qgpv by lia. reflexivity.
  Qed.
  Local Notation M := (2 * s + jet_curl).
  Local Notation m := (- (2 * s) - jet_curl).
  Lemma jet_contour : M - (M - m) / (INR (contours NH18 w) - 1) = m.
  Proof. unfold contours. cbn [jet_args w_npart INR]. field. Qed.
  (** one cell has the smallest value, which is less than the cap *)
  Lemma jet_lowest : area_where w (towards_pole t true 1) (up_to (M - (M - m) / (INR (contours NH18 w) - 1))) <= cap w 1.
  Proof.
    rewrite jet_contour. assert (A := s_pos). assert (B := jet_curl_pos). assert (P0 := PI_RGT_0). assert (P4 := PI_4).
    assert (E : area_where w (towards_pole t true 1) (up_to m) = 36 * (PI / 4) * (2 * PI / 4) * s).
    { unfold area_where. change (w_nlat w) with 5%nat. change (w_nlon w) with 4%nat. rewrite jet_step. change (w_a w) with 6.
      assert (V : forall row i, (row < 5)%nat -> (i < 4)%nat -> up_to m (towards_pole t true 1 row i) = Nat.eqb row 1 && Nat.eqb i 0).
      { intros row i Hr Hi. rewrite jet_north, jet_qgpv by assumption. unfold up_to. destruct row as [|[|[|[|row]]]]; cbn [jet_pv Nat.eqb andb]; try (destruct (Nat.eqb i 0)); destruct (Rle_dec _ _) as [L|L]; try reflexivity; lra. }
      rewrite !Sum_S_r by lia. rewrite !Sum_empty by lia. rewrite !V by lia. cbn [Nat.eqb andb]. rewrite lat_1, cos_m4. unfold Rsqr. cbn [INR]. field. }
    rewrite E. unfold cap, angle. rewrite jet_step. cbn [jet_args w_a INR]. rewrite Rmult_1_l. unfold Rsqr. nra.
  Qed.
  Lemma jet_reported d : (d <= 2)%nat -> reported w true d.
  Proof. intros H. unfold reported, half. cbn. auto. Qed.
  Lemma jet_mM : m < M. Proof. assert (A := s_pos). assert (B := jet_curl_pos). lra. Qed.
  Lemma jet_pole_value : pole_ref w t true 1 2 = M.
  Proof. apply (pv_pole lib NH18 w nc g t U Hg eq_refl T (jet_poles tol) true 1 M m); [cbn; lra|cbn; lra|apply jet_inner|apply jet_greatest|apply jet_least|apply jet_mM|apply (jet_reported 2); lia]. Qed.
  Lemma jet_inner_value : pole_ref w t true 1 1 = 0.
  Proof.
    apply (pv_none lib NH18 w nc g t U Hg eq_refl T (jet_poles tol) true 1 M m); [cbn; lra|cbn; lra|apply jet_inner|apply jet_greatest|apply jet_least|apply jet_mM|apply jet_reported; lia| |apply jet_lowest].
    unfold half. cbn. lia.
  Qed.
  (** more than the cap has positive PV *)
  Lemma jet_northern_area : cap w 1 < area_where w (towards_pole t true 1) (exceeds 0).
  Proof.
    assert (A := s_pos). assert (B := jet_curl_pos). assert (P0 := PI_RGT_0). assert (P3 := PI2_3_2).
    assert (E : area_where w (towards_pole t true 1) (exceeds 0) = 4 * (36 * (PI / 4) * (2 * PI / 4) * s)).
    { unfold area_where. change (w_nlat w) with 5%nat. change (w_nlon w) with 4%nat. rewrite jet_step. change (w_a w) with 6.
      assert (V : forall row i, (row < 5)%nat -> (i < 4)%nat -> exceeds 0 (towards_pole t true 1 row i) = Nat.leb 3 row).
      { intros row i Hr Hi. rewrite jet_north, jet_qgpv by assumption. unfold exceeds. destruct row as [|[|[|[|row]]]]; cbn [jet_pv Nat.leb]; try (destruct (Nat.eqb i 0)); destruct (Rlt_dec _ _) as [L|L]; try reflexivity; lra. }
      rewrite !Sum_S_r by lia. rewrite !Sum_empty by lia. rewrite !V by lia. cbn [Nat.leb]. rewrite lat_3, lat_4, cos_4, cos_PI2. unfold Rsqr. cbn [INR]. field. }
    rewrite E. unfold cap, angle. rewrite jet_step. cbn [jet_args w_a INR]. rewrite Rmult_1_l. unfold Rsqr. nra.
  Qed.
  Lemma jet_forced : 0 < total w (forced w (scaled_ref w t true)).
  Proof.
    unfold total. change (half w) with 2%nat. change (result_levels w - 1)%nat with 2%nat. rewrite !Sum_S_r by lia. rewrite !Sum_empty by lia. unfold forced, scaled_ref. cbn [Nat.add Nat.sub Nat.eqb]. rewrite (Sum_S_r 1 1) by lia. rewrite Sum_empty by lia. rewrite jet_pole_value, jet_inner_value.
    change (w_om w) with 1. change (w_a w) with 6. unfold angle. rewrite jet_step. cbn [INR]. replace ((1 + 1) * (PI / 4)) with (PI / 2) by field. rewrite sin_PI2.
    assert (A := s_pos). assert (B := jet_curl_pos). assert (P0 := PI_RGT_0). rewrite !Rplus_0_l. apply Rabs_pos_lt. apply Rgt_not_eq. apply Rmult_lt_0_compat; [lra|].
    replace (0 / (2 * 1 * sin (1 * (PI / 4)))) with 0 by (unfold Rdiv; ring). lra.
  Qed.
End Jet.

Lemma solver_stores lib w m tol rjac o nc : let w' := solver_args w m tol rjac in
  s_f (analyse lib NH18 w' o nc) = s_f (analyse lib NH18 w o nc) /\ s_av (analyse lib NH18 w' o nc) = s_av (analyse lib NH18 w o nc) /\ s_q (analyse lib NH18 w' o nc) = s_q (analyse lib NH18 w o nc).
Proof.
  intros w'. assert (A : domain lib NH18 w' o = domain lib NH18 w o) by reflexivity. assert (F : interpolated w' o = interpolated w o) by reflexivity.
  unfold analyse. cbv zeta. cbn [s_f s_av s_q]. rewrite A, F. repeat split.
Qed.

(** a session of QGFieldNH18 that returns *)
Lemma jet_converges nc : exists tol x, session isentropic_library NH18 (jet_args tol) nc = Done x /\ forall named raising, session_with_fluxes isentropic_library NH18 (jet_args tol) named raising nc = Returned x.
Proof.
  destruct (tables_of isentropic_library NH18 (jet_args 0) nc (jet_usable 0) (jet_accepted 0) eq_refl) as [t Ht]. destruct Ht as (U & Od & x0 & Hs & Hr). destruct (session_stored _ _ _ _ _ _ U Od Hs Hr) as (g & Hg & T). clear Hs Hr.
  set (lib := isentropic_library) in *. set (w := jet_args 0) in *. set (o := object_of NH18 w g) in *. set (x := analyse lib NH18 w o nc) in *.
  assert (F : 0 < anormf (nh18_dims (ob_conf o) (g_npart (ob_grid o)) 10 0 (1 / 2)) (clip3 (ob_conf o) (s_q x))).
  { assert (J := jet_forced 0 nc g t Hg T). fold w in J. rewrite anormf_R by exact (StateProofs.pole_P lib NH18 w nc g t U Hg T).
    change (nh18_dims (ob_conf o) (g_npart (ob_grid o)) 10 0 (1 / 2)) with (StateProofs.P NH18 w g).
    rewrite (norm_all_at lib w nc g t U Hg Od T ltac:(intros l _; unfold w, lib; rewrite jet_slopes; lra) _ (forced w (scaled_ref w t true))); [exact J|].
    intros d l Hd Hl. destruct (StateProofs.dims_common lib NH18 w nc g t U Hg Od T) as (_ & _ & _ & _ & D5 & D6 & _ & _ & D9 & _). unfold forcing, forced. rewrite D5, D6, D9.
    assert (Ho : w_om w <> 0) by (cbn; lra). assert (R1 := jet_reported 0 1 ltac:(lia)). fold w in R1.
    rewrite !(scaled_at lib NH18 w nc g t U Hg Od T (jet_poles 0)) by (assumption || lia). unfold StateProofs4.Q. replace (d + 1 - 1)%nat with (d - 1 + 1)%nat by lia. reflexivity. }
  destruct (tolerance_exists (ob_conf o) (g_npart (ob_grid o)) 10 (1 / 2) (clip3 (ob_conf o) (s_q x)) (clip3 (ob_conf o) (u_ (s_f x))) (clip3 (ob_conf o) (theta_ (s_f x))) (one_based (stat_n (s_av x))) (lb_mem1 lib) (lb_mem2 lib) ltac:(lia) F) as [tol Ht].
  exists tol. destruct (C131_session_succeeds_exactly_when lib NH18 (jet_args tol) nc (jet_usable tol)) as (Q & _). destruct (proj2 Q (conj (jet_accepted tol) (fun _ => eq_refl))) as [y Hy].
  exists y. split; [exact Hy|]. intros named raising. assert (A := with_fluxes_cases lib NH18 (jet_args tol) named raising nc (jet_usable tol)). rewrite Hy in A. destruct A as (g' & Hg' & _ & ->).
  assert (G : g' = g). { assert (E : Done g' = Done g) by (rewrite <- Hg, <- Hg'; reflexivity). injection E as ->. reflexivity. } subst g'.
  set (o' := object_of NH18 (jet_args tol) g). set (x' := analyse lib NH18 (jet_args tol) o' nc).
  assert (N : iterations lib (jet_args tol) o' x' true = 2%nat).
  { rewrite <- Ht. destruct (solver_stores lib w 10 tol (1 / 2) o nc) as (E1 & E2 & E3). change (solver_args w 10 tol (1 / 2)) with (jet_args tol) in E1, E2, E3. change o' with o in *. fold x in E1, E2, E3.
    unfold x'. revert E1 E2 E3. generalize (analyse lib NH18 (jet_args tol) o' nc) as y'. clear. intros y' E1 E2 E3. unfold iterations. cbv zeta. rewrite E1, E2, E3. reflexivity. }
  unfold nonconvergent, fails. rewrite N. reflexivity.
Qed.

(** a wider grid, for the direct inversion *)
Definition wide_args (nh : bool) : qgargs :=
  {| w_nlon := 4; w_nlat := 7; w_nlev := 4; w_ylat := fun j => -90 + INR j * 30;
     w_plev := fun l => 1000 * exp (- INR l / 7); w_u := fun l j i => INR (l + j * i); w_v := fun l j i => INR (l * i) - INR j; w_t := fun l j i => 300 + INR (l * j + i);
     w_kmax := 3; w_maxit := 10; w_dz := 1; w_npart := None; w_tol := 1; w_rjac := 1 / 2; w_H := 7; w_cp := 1004; w_rr := 287; w_om := 1; w_a := 6;
     w_nh := nh; w_evenly := false |}.
Lemma wide_height nh l : data_height (wide_args nh) l = INR l.
Proof. unfold data_height, plev_to_height. cbn [wide_args w_H w_plev]. replace (1000 * exp (- INR l / 7) / 1000) with (exp (- INR l / 7)) by field. rewrite ln_exp. field. Qed.
Lemma wide_usable k nh : (boundary k <= 3)%nat -> usable k (wide_args nh).
Proof.
  intros B. unfold usable, balanced_latitudes. cbn [wide_args w_nlat w_ylat w_nlon w_nlev w_evenly w_npart w_kmax]. split; [split; [lia|]; split; [intros j Hj; rewrite S_INR; lra|]|].
  - right. split; [reflexivity|]. change (7 / 2)%nat with 3%nat. cbn [INR]. lra.
  - repeat split; [lia|lia|]. change (7 / 2)%nat with 3%nat. exact B.
Qed.
Lemma wide_accepted nh : accepted_levels (wide_args nh).
Proof.
  split; [cbn; lia|]. intros _. split.
  - cbn [wide_args w_plev INR]. apply Rmult_le_compat_l; [lra|]. apply Rlt_le, exp_increasing. lra.
  - rewrite wide_height. cbn. lra.
Qed.
Lemma wide_poles nh : pole_to_pole_latitudes (wide_args nh).
Proof. intros row Hr. cbn [wide_args w_ylat w_nlat]. change (7 - 1)%nat with 6%nat. cbn [INR]. f_equal. f_equal. field. Qed.
Lemma wide_constants nh : physical_constants (wide_args nh).
Proof. unfold physical_constants, thickness. cbn. repeat split; lra. Qed.
Lemma wide_slopes k nh north l : t_slope k (wide_args nh) isentropic_library north l = 1.
Proof. unfold t_slope, smooth. cbn [isentropic_library lb_dspline]. destruct k; [field|reflexivity]. Qed.

(** a constant wind *)
Definition steady_args : qgargs := with_data (some_args true true) (fun _ _ _ => 1) (fun _ _ _ => 0) (fun _ _ _ => 300).
Lemma steady_usable k : (boundary k <= 1)%nat -> usable k steady_args. Proof. exact (some_usable k true true). Qed.
Lemma steady_accepted : accepted_levels steady_args. Proof. exact (some_accepted true true). Qed.
Lemma steady_u lib nc g t k : (boundary k <= 1)%nat -> grid_of steady_args = Done g -> are_stored (analyse lib k steady_args (object_of k steady_args g) nc) (ob_conf (object_of k steady_args g)) t ->
  forall l row i, t_u t l row i = 1.
Proof.
  intros B Hg T l row i. destruct T as (_ & T2 & _). rewrite T2. change (stored (to_levels steady_args g (to_analysis steady_args (g_lat g) (fun _ _ _ => 1))) (i + 1)%nat (row + 1)%nat (l + 1)%nat = 1).
  unfold stored, to_levels. change (w_evenly steady_args) with false. cbv iota. unfold vertical_interpolation.
  transitivity (interp1d (w_nlev steady_args) (data_height steady_args) (fun _ => 1) (g_height g (l + 1 - 1)%nat)); [|apply interp1d_const]. f_equal. extensionality l'. unfold to_analysis.
  destruct (lat_facts k steady_args g (steady_usable k B) Hg) as (L1 & _). rewrite L1. reflexivity.
Qed.
