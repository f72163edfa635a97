(** Proofs for C196: the fields, the potential vorticity and the wave activity *)
From Coq Require Import Reals Lra Lia List FunctionalExtensionality.
From Verif Require Import Base BaseFacts Spec SpecFacts Grid GridProofs Flux Utilities Qgpv Pipeline PipelineSpec PipelineProofs RotateSpec RefStates DirInv Object ObjectSpec ObjectProofs ObjectProofs2 ObjectProofs4
  Session SessionProofs InfluenceSpec InfluenceProofs OffsetSpec.
Open Scope R_scope.

Lemma interp1d_plus b n x y v : interp1d n x (fun i => y i + b) v = interp1d n x y v + b.
Proof. unfold interp1d. cbv zeta. toR. unfold Rdiv. ring. Qed.

(** reading a stored array plus a constant *)
Lemma back_plus b w o m x : back w o m (fun r => x r + b) = match back w o m x with Done y => Done (fun r => y r + b) | Raise e => Raise e end.
Proof.
  unfold back, return_interp. destruct (lg_need _); [|reflexivity]. destruct (w_nh w); unfold interp1d_checked; cbv zeta; (destruct (Nat.eqb _ _); [|reflexivity]);
    (apply f_equal; extensionality r; apply interp1d_plus).
Qed.
Lemma back_alike w o m (x y : nat -> R) : (exists a b, back w o m x = Done a /\ back w o m y = Done b) \/ (exists e, back w o m x = Raise e /\ back w o m y = Raise e).
Proof.
  unfold back, return_interp. destruct lg_need; [|left; eauto]. destruct (w_nh w); unfold interp1d_checked; destruct Nat.eqb; try (right; eauto; fail); left; eauto.
Qed.
Lemma each_plus b (h h' : nat -> res (nat -> R)) : (forall i, h' i = match h i with Done y => Done (fun r => y r + b) | Raise e => Raise e end) ->
  (forall i, (exists a d, h i = Done a /\ h O = Done d) \/ (exists e, h i = Raise e /\ h O = Raise e)) ->
  each h' = match each h with Done y => Done (fun row i => y row i + b) | Raise e => Raise e end.
Proof.
  intros H A. unfold each. rewrite H. destruct (h O) as [z|e] eqn:E; [|reflexivity]. apply f_equal. extensionality row. extensionality i. rewrite H.
  destruct (A i) as [(a & d & E1 & _)|(e & _ & E2)]; [rewrite E1; reflexivity|first [discriminate|congruence]].
Qed.
Lemma read_map_plus b w o m x : read_map w o m (fun i j => x i j + b) = match read_map w o m x with Done y => Done (fun row i => y row i + b) | Raise e => Raise e end.
Proof. unfold read_map. apply each_plus; intros i; [apply (back_plus b w o m (fun r => x (i + 1)%nat (r + 1)%nat))|apply back_alike]. Qed.
Lemma read_profile_plus b w o m x : read_profile w o m (fun i j => x i j + b) = match read_profile w o m x with Done y => Done (fun l row => y l row + b) | Raise e => Raise e end.
Proof.
  unfold read_profile. rewrite (each_plus b (fun l => back w o m (fun r => x (r + 1)%nat (l + 1)%nat))).
  - destruct (each _); reflexivity.
  - intros l. apply (back_plus b w o m (fun r => x (r + 1)%nat (l + 1)%nat)).
  - intros l. apply back_alike.
Qed.
Lemma read_field_plus b w o m x : read_field w o m (fun i j l => x i j l + b) = match read_field w o m x with Done y => Done (fun l row i => y l row i + b) | Raise e => Raise e end.
Proof.
  unfold read_field. assert (E : forall l, read_map w o m (fun i j => x i j l + b) = match read_map w o m (fun i j => x i j l) with Done y => Done (fun row i => y row i + b) | Raise e => Raise e end)
    by (intros l; apply (read_map_plus b w o m (fun i j => x i j l))).
  assert (A : forall l, (exists a d, read_map w o m (fun i j => x i j l) = Done a /\ read_map w o m (fun i j => x i j 1%nat) = Done d) \/ (exists e, read_map w o m (fun i j => x i j l) = Raise e /\ read_map w o m (fun i j => x i j 1%nat) = Raise e)).
  { intros l. unfold read_map, each. destruct (back_alike w o m (fun r => x (0 + 1)%nat (r + 1)%nat l) (fun r => x (0 + 1)%nat (r + 1)%nat 1%nat)) as [(a & d & -> & ->)|(e & -> & ->)]; [left|right]; eauto. }
  rewrite E. destruct (read_map w o m (fun i j => x i j 1%nat)) as [z|e] eqn:E1; [|reflexivity]. apply f_equal. extensionality l. extensionality row. extensionality i. rewrite E.
  destruct (A (l + 1)%nat) as [(a & d & E2 & _)|(e & _ & E2)]; [rewrite E2; reflexivity|discriminate].
Qed.

Section Offset.
  Variables (b : R) (k : class) (w : qgargs) (g : grid).
  Hypothesis U : usable k w.
  Hypothesis Hg : grid_of w = Done g.
  Hypothesis Sym : symmetric_latitudes w.
  Hypothesis In : forall j, (j < w_nlat w)%nat -> -90 <= w_ylat w j <= 90.
  Hypothesis Bd : (boundary k < w_nlat w / 2)%nat.
  Notation w' := (warmer b w).
  Notation o := (object_of k w g).
  Notation o' := (object_of k w' g).
  Notation c := (ob_conf o).
  Notation f := (interpolated w o).
  Notation f' := (interpolated w' o').

  Lemma theta_data_b : theta_data w' = fun z y x => theta_data w z y x + b.
  Proof.
    extensionality z. extensionality y. extensionality x. unfold theta_data, data_height, plev_to_height. unfold warmer. cbn [with_data w_t w_rr w_cp w_H w_plev].
    rewrite Rmult_plus_distr_r, Rmult_assoc, <- exp_plus, Rplus_opp_l, exp_0. ring.
  Qed.
  Lemma to_analysis_b x : to_analysis w' (g_lat g) (fun z y i => x z y i + b) = fun z y i => to_analysis w (g_lat g) x z y i + b.
  Proof.
    extensionality z. extensionality y. extensionality i. unfold to_analysis. unfold warmer. cbn [with_data w_nlat w_ylat]. destruct (lg_need _); [|reflexivity]. apply interp1d_plus.
  Qed.
  Lemma to_levels_b x : to_levels w' g (fun z y i => x z y i + b) = fun z y i => to_levels w g x z y i + b.
  Proof.
    extensionality z. extensionality y. extensionality i. unfold to_levels, warmer. cbn [with_data w_evenly]. destruct (w_evenly w); [reflexivity|].
    unfold vertical_interpolation. cbn [with_data w_nlev w_plev w_H]. apply interp1d_plus.
  Qed.
  Lemma theta_b : theta_ f' = fun i j l => theta_ f i j l + b.
  Proof.
    extensionality i. extensionality j. extensionality l. unfold interpolated. cbn [theta_ object_of ob_theta ob_grid]. unfold stored. rewrite theta_data_b, to_analysis_b, to_levels_b. reflexivity.
  Qed.
  Lemma u_b : u_ f' = u_ f.
  Proof. reflexivity. Qed.
  Lemma v_b : v_ f' = v_ f.
  Proof. reflexivity. Qed.
  Lemma conf_b : ob_conf o' = c.
  Proof. reflexivity. Qed.

  (** the hemispheric means *)
  Lemma csm_pos : 0 < csm c.
  Proof.
    destruct (conf_facts k w g U Hg) as (_ & C2 & _ & _ & _ & C6 & _). unfold csm. rewrite C6. set (m := (w_nlat w / 2 + 1 - boundary k)%nat). assert (M : (2 <= m)%nat) by (unfold m; lia). clearbody m.
    assert (N4 := proj1 (proj1 U)).
    assert (P : 0 < p_clat c 1%nat).
    { cbn [object_of ob_conf conf_of p_clat].
      assert (Y : -90 < lg_ylat (g_lat g) 1 < 0).
      { destruct (lat_facts k w g U Hg) as (_ & _ & _ & L3 & L4). destruct (proj1 U) as (_ & Asc & Eq). destruct Eq as [[E _]|[E Z]].
        - rewrite (L3 E). unfold linspace_lat. toR.
          assert (N : 4 <= INR (w_nlat w)) by (apply (le_INR 4) in N4; cbn in N4; lra).
          rewrite ?nofnat_INR. cbn [INR]. assert (Q : 180 / INR (w_nlat w) <= 45) by (apply Rmult_le_reg_r with (INR (w_nlat w)); [lra|]; unfold Rdiv; rewrite Rmult_assoc, Rinv_l by lra; lra).
          assert (Q0 : 0 < 180 / INR (w_nlat w)) by (apply Rdiv_lt_0_compat; lra). destruct (Nat.eqb_spec 1 (w_nlat w)); [lia|].
          replace (90 - -90) with 180 by lra. lra.
        - rewrite (L4 E). assert (A0 := Asc 0%nat ltac:(lia)). assert (I0 := In 0%nat ltac:(lia)). split; [lra|].
          assert (W : forall d, (1 + d < w_nlat w)%nat -> w_ylat w 1%nat <= w_ylat w (1 + d)%nat).
          { induction d as [|d IH]; intros Hd; [apply Rle_refl|]. assert (A1 := Asc (1 + d)%nat ltac:(lia)). specialize (IH ltac:(lia)). replace (1 + S d)%nat with (S (1 + d)) by lia. lra. }
          assert (H2 : (2 <= w_nlat w / 2)%nat) by lia.
          assert (A2 := Asc 1%nat ltac:(lia)).
          assert (W2 : forall d, (2 + d < w_nlat w)%nat -> w_ylat w 2%nat <= w_ylat w (2 + d)%nat).
          { induction d as [|d IH]; intros Hd; [apply Rle_refl|]. assert (A1 := Asc (2 + d)%nat ltac:(lia)). specialize (IH ltac:(lia)). replace (2 + S d)%nat with (S (2 + d)) by lia. lra. }
          assert (V := W2 (w_nlat w / 2 - 2)%nat ltac:(lia)). replace (2 + (w_nlat w / 2 - 2))%nat with (w_nlat w / 2)%nat in V by lia. lra. }
      apply Rabs_pos_lt, Rgt_not_eq. apply cos_gt_0; unfold deg2rad; toR; assert (Pi := PI_RGT_0); nra. }
    destruct m as [|[|m]]; try lia. rewrite rsum_S_l. assert (E0 : 0 <= p_clat c 0%nat) by apply Rabs_pos. rewrite rsum_S_l.
    assert (Z : 0 <= rsum m (fun i => p_clat c (S (S i)))) by (apply rsum_nonneg; intros; apply Rabs_pos). lra.
  Qed.
  Lemma row_b (th : nat -> nat -> R) j : (1 <= p_nlon c)%nat -> rsum (p_nlon c) (fun i => (th j i + b) * p_clat c j) / INR (p_nlon c) = rsum (p_nlon c) (fun i => th j i * p_clat c j) / INR (p_nlon c) + b * p_clat c j.
  Proof.
    intros H. assert (L : 0 < INR (p_nlon c)) by (apply lt_0_INR; lia).
    rewrite (rsum_ext _ _ (fun i => th j i * p_clat c j + b * p_clat c j)) by (intros; ring). rewrite rsum_plus, rsum_const. field. lra.
  Qed.
  Lemma nlon_pos : (1 <= p_nlon c)%nat.
  Proof. destruct (conf_facts k w g U Hg) as (C1 & _). rewrite C1. destruct U as (_ & N & _). lia. Qed.
  Lemma t0_south_b th : t0_south c (fun y i => th y i + b) = t0_south c th + b.
  Proof.
    assert (P := csm_pos). unfold t0_south.
    change (rsum (p_jd c) (fun j => rsum (p_nlon c) (fun i => (th j i + b) * p_clat c j) / @nofnat R RNum (p_nlon c)) / csm c = rsum (p_jd c) (fun j => rsum (p_nlon c) (fun i => th j i * p_clat c j) / @nofnat R RNum (p_nlon c)) / csm c + b).
    rewrite !nofnat_INR. rewrite (rsum_ext _ _ (fun j => rsum (p_nlon c) (fun i => th j i * p_clat c j) / INR (p_nlon c) + b * p_clat c j)) by (intros; apply row_b, nlon_pos).
    rewrite rsum_plus, rsum_scal. change (rsum (p_jd c) (p_clat c)) with (csm c). field. lra.
  Qed.
  Lemma t0_north_b th : t0_north c (fun y i => th y i + b) = t0_north c th + b.
  Proof.
    assert (P := csm_pos). unfold t0_north. cbv zeta.
    change (rsum (p_jd c) (fun r => rsum (p_nlon c) (fun i => (th (p_nlat c - p_jd c + r)%nat i + b) * p_clat c (p_nlat c - p_jd c + r)%nat) / @nofnat R RNum (p_nlon c)) / csm c
      = rsum (p_jd c) (fun r => rsum (p_nlon c) (fun i => th (p_nlat c - p_jd c + r)%nat i * p_clat c (p_nlat c - p_jd c + r)%nat) / @nofnat R RNum (p_nlon c)) / csm c + b).
    rewrite !nofnat_INR. rewrite (rsum_ext _ _ (fun r => rsum (p_nlon c) (fun i => th (p_nlat c - p_jd c + r)%nat i * p_clat c (p_nlat c - p_jd c + r)%nat) / INR (p_nlon c) + b * p_clat c (p_nlat c - p_jd c + r)%nat)) by (intros; apply row_b, nlon_pos).
    rewrite rsum_plus, rsum_scal, (north_weights c (conf_symmetric k w g U Hg Sym)). field. lra.
  Qed.

  Variable lib : library.
  Hypothesis OF : offset_free b lib.
  Notation av := (domain lib k w o).
  Notation av' := (domain lib k w' o').
  Lemma domain_b : av' = {| tn0 := fun l => tn0 av l + b; ts0 := fun l => ts0 av l + b; stat_n := stat_n av; stat_s := stat_s av |}.
  Proof.
    destruct OF as [L1 L2]. unfold domain. cbv zeta. rewrite conf_b. cbn [object_of ob_theta ob_grid]. rewrite theta_data_b, to_analysis_b.
    change (data_height w') with (data_height w). change (w_nlev w') with (w_nlev w). set (th := to_analysis w (g_lat g) (theta_data w)). set (C := c) in *.
    assert (S1 : (fun l => t0_south C (fun y i => th l y i + b)) = fun l => t0_south C (th l) + b) by (extensionality l; apply t0_south_b).
    assert (S2 : (fun l => t0_north C (fun y i => th l y i + b)) = fun l => t0_north C (th l) + b) by (extensionality l; apply t0_north_b).
    destruct k; unfold domain_nh18, domain_nhn22, averages_nh18, averages_nhn22; cbv zeta; cbn [tn0 ts0 stat_n stat_s]; rewrite S1, S2; f_equal; extensionality l; rewrite ?L1, ?L2; toR; try reflexivity; unfold nhalf; toR; field.
  Qed.

  (** the potential vorticity *)
  Notation q := (the_pv lib k w o).
  Notation q' := (the_pv lib k w' o').
  Lemma clip_theta i j l : lon_ok c i -> lat_ok c j -> lev_ok c l -> clip3 c (theta_ f') i j l = clip3 c (theta_ f) i j l + b.
  Proof.
    intros Hi Hj Hl. rewrite theta_b. unfold clip3, lon_ok, lat_ok, lev_ok in *.
    replace (Nat.leb 1 i && Nat.leb i (p_nlon c) && Nat.leb 1 j && Nat.leb j (p_nlat c) && Nat.leb 1 l && Nat.leb l (p_kmax c))%bool with true; [reflexivity|].
    symmetry. repeat (apply andb_true_intro; split); apply Nat.leb_le; lia.
  Qed.
  Lemma stretch_b hh h (th th' : arr3 R) tp tm sp sm fa i j l : th' i j (l + 1)%nat = th i j (l + 1)%nat + b -> th' i j (l - 1)%nat = th i j (l - 1)%nat + b ->
    @stretch R RNum hh h th' (tp + b) (tm + b) sp sm fa i j l = stretch hh h th tp tm sp sm fa i j l.
  Proof. intros E1 E2. unfold stretch. cbv zeta. rewrite E1, E2. toR. do 3 f_equal; [f_equal|f_equal]; f_equal; ring. Qed.
  Lemma interior_b l : (Nat.leb 2 l && Nat.leb l (p_kmax c - 1))%bool = true -> lev_ok c (l + 1) /\ lev_ok c (l - 1).
  Proof. intros E. apply andb_prop in E. destruct E as [E1 E2]. apply Nat.leb_le in E1, E2. unfold lev_ok. lia. Qed.
  Lemma pv_b i j l : lon_ok c i -> lat_ok c j -> q' i j l = q i j l.
  Proof.
    intros Hi Hj. unfold the_pv. rewrite conf_b, domain_b. assert (T := clip_theta i j). assert (I := interior_b l). set (C := c) in *. set (A := av) in *.
    destruct k; [unfold pv_nh18, qgpv_nh18|unfold pv_nhn22, qgpv_nhn22]; cbv zeta; cbn [tn0 ts0 stat_n stat_s];
      (destruct (Nat.leb 2 l && Nat.leb l (p_kmax C - 1))%bool; [|reflexivity]); destruct (I eq_refl) as [I1 I2]; (apply f_equal2; [reflexivity|]); apply f_equal.
    - apply stretch_b; apply T; assumption.
    - destruct (Nat.leb j (p_eq C)); apply stretch_b; apply T; assumption.
  Qed.
  Lemma clip_pv : clip3 c q' = clip3 c q.
  Proof. apply clip3_ext. intros i j l Hi Hj _. apply pv_b; assumption. Qed.
  Lemma clip_pv_south : clip3 c (neg3 (flip3 c q')) = clip3 c (neg3 (flip3 c q)).
  Proof. apply clip3_ext. intros i j l Hi Hj _. unfold neg3, flip3. rewrite pv_b; [reflexivity|assumption|]. unfold lat_ok in *. lia. Qed.
  Notation r := (the_refs lib k w o).
  Notation r' := (the_refs lib k w' o').
  Lemma qref_b : qref_ r' = qref_ r.
  Proof.
    unfold the_refs. cbv zeta. rewrite conf_b, domain_b. assert (E1 := clip_pv). assert (E2 := clip_pv_south). set (C := c) in *. set (Q := q) in *. set (Q' := q') in *. clearbody Q Q'.
    destruct k; [unfold refs_nh18, nh18_solver|unfold refs_nhn22, nhn22_inversion]; cbv zeta; rewrite E1, E2; destruct (p_nh C); unfold store_south, store_north; cbn [qref_]; reflexivity.
  Qed.

  (** reading *)
  Lemma read_range m0 b0 (y y' : arr3 R) : m0 = p_nlat c -> (forall i j l, lon_ok c i -> lat_ok c j -> lev_ok c l -> y' i j l = y i j l + b0) ->
    outcome (differ_by b0 w) (read_field w o m0 y) (read_field w' o' m0 y').
  Proof.
    intros -> H. set (y1 := fun i j l => y i j l + b0).
    assert (E : outcome (rolled_field w 0 (w_nlat w)) (read_field w o (p_nlat c) y1) (read_field w' o' (p_nlat c) y')).
    { apply (read_field_turned_gen k w g 0 U Hg); [apply (rows2 k w g U Hg)|apply (result_rows_le k w g U Hg)|]. intros i j l Hi Hj Hl. rewrite H by assumption. unfold y1. f_equal.
      assert (N := nlon_pos). unfold turn, lon_ok in *. f_equal. rewrite Nat.add_0_r, Nat.mod_small by lia. lia. }
    assert (E1 : read_field w o (p_nlat c) y1 = match read_field w o (p_nlat c) y with Done z => Done (fun l row i => z l row i + b0) | Raise e => Raise e end).
    { apply read_field_plus. }
    rewrite E1 in E. destruct (read_field w o (p_nlat c) y) as [z|e], (read_field w' o' (p_nlat c) y') as [z'|e']; try exact E.
    cbn [outcome] in *. intros l row i Hl Hr Hi. rewrite (E l row i Hl Hr Hi). rewrite Nat.add_0_r, Nat.mod_small by exact Hi. reflexivity.
  Qed.
  Variable nc : field3.
  Notation x := (read w o (analyse lib k w o nc)).
  Notation x' := (read w' o' (analyse lib k w' o' nc)).
  Lemma fields_b : warmer_fields b w x x'.
  Proof.
    unfold warmer_fields. rewrite !analyse_assemble. unfold read, assemble. cbv zeta. rewrite conf_b.
    cbn [out_qgpv out_u out_v out_theta out_stat_n out_stat_s out_u_baro s_f s_av s_q s_refs s_baro].
    split; [apply read_range; [reflexivity|]; intros; rewrite theta_b; reflexivity|].
    split; [apply read_range; [reflexivity|]; intros; rewrite Rplus_0_r; apply pv_b; assumption|].
    rewrite domain_b. cbn [stat_n stat_s]. do 4 (split; [reflexivity|]).
    unfold barotropic_terms. cbv zeta. cbn [b_u]. unfold k_u_baro, north_args, south_args. cbn [i_uu]. rewrite u_b. reflexivity.
  Qed.
  Lemma activity_b : same_activity x x' /\ same_forcing x x'.
  Proof.
    assert (Q := qref_b). assert (E1 := clip_pv). assert (E2 := clip_pv_south).
    unfold same_activity, same_forcing. rewrite !analyse_assemble. unfold read, assemble. cbv zeta. rewrite conf_b.
    cbn [out_qref out_lwa out_lwa_baro out_nc_baro s_f s_av s_q s_refs s_baro].
    assert (A : qref_correct_unit c r' = qref_correct_unit c r) by (unfold qref_correct_unit; rewrite Q; reflexivity).
    unfold barotropic_terms. cbv zeta. cbn [b_lwa b_lwa3 b_nc]. unfold k_lwa_baro, k_astar1, k_astar2, k_ncforce, north_args, south_args. cbn [i_pv i_uu i_nc i_qref]. rewrite A, E1, E2. repeat split; reflexivity.
  Qed.
End Offset.
