(** Proofs about the reference state solver: means, thermal wind, and the relaxation. *)
From Verif Require Import Base BaseFacts Spec SpecFacts Flux FluxSpec FluxProofs RefStates RefStatesSpec RefStatesProofs.
From Coq Require Import FunctionalExtensionality.
Open Scope R_scope.

Section Means.
  Variable P : rsdims R.
  Variables pv uu pt : arr3 R.
  Variable stat : nat -> R.
  Variables g1 g2 : arr2 R.

  Lemma zonal_mean_R x j k : @zonal_mean R RNum P x j k = zonal P x j k.
  Proof.
    unfold zonal_mean, zonal. rewrite (loop_sum _ _ (fun i => / INR (s_nlon P) * x i (j + s_jd P - 1)%nat k)).
    - rewrite Sum_scal. unfold Rdiv. ring.
    - intros i s _. cbn [nadd ndiv RNum]. rewrite nofnat_INR. unfold Rdiv. ring.
  Qed.

  Hypothesis G : pole_to_pole P.
  Lemma dphi_pos : 0 < s_dphi P.
  Proof.
    destruct G as (Hj & _ & _ & _ & _ & Hd & _). assert (HP := PI_RGT_0). assert (0 < INR (s_jd P - 1)) by (apply lt_0_INR; lia).
    apply Rmult_lt_reg_r with (INR (s_jd P - 1)); lra.
  Qed.
  Lemma lat_pole : lat P (s_jd P) = PI / 2.
  Proof. destruct G as (Hj & _ & _ & _ & _ & Hd & _). unfold lat. rewrite <- Hd, minus_INR by lia. reflexivity. Qed.
  Lemma lat_inside j : (2 <= j <= s_jd P - 1)%nat -> s_dphi P <= lat P j <= PI / 2 - s_dphi P.
  Proof.
    intros Hj. assert (D := dphi_pos). rewrite <- lat_pole. unfold lat.
    assert (A1 : INR 2 <= INR j) by (apply le_INR; lia). assert (A2 : INR j + 1 <= INR (s_jd P)) by (rewrite <- S_INR; apply le_INR; lia). cbn [INR] in A1.
    split; nra.
  Qed.
  Lemma lat_row j : (1 <= j <= s_jd P)%nat -> 0 <= lat P j <= PI / 2.
  Proof.
    intros Hj. assert (D := dphi_pos). rewrite <- lat_pole. unfold lat.
    assert (A1 : INR 1 <= INR j) by (apply le_INR; lia). assert (A2 : INR j <= INR (s_jd P)) by (apply le_INR; lia). cbn [INR] in A1.
    split; [apply Rmult_le_pos; lra|apply Rmult_le_compat_l; lra].
  Qed.
  Lemma sin_inside j : (2 <= j <= s_jd P - 1)%nat -> 0 < sin (lat P j).
  Proof. intros Hj. assert (D := dphi_pos). destruct (lat_inside j Hj). assert (H1 := PI_RGT_0). apply sin_gt_0; lra. Qed.
  Lemma cos_inside j : (2 <= j <= s_jd P - 1)%nat -> 0 < cos (lat P j).
  Proof. intros Hj. assert (D := dphi_pos). destruct (lat_inside j Hj). assert (H1 := PI_RGT_0). apply cos_gt_0; lra. Qed.
  Lemma cos_row j : (1 <= j <= s_jd P)%nat -> 0 <= cos (lat P j).
  Proof. intros Hj. destruct (lat_row j Hj). assert (H1 := PI_RGT_0). apply cos_ge_0; lra. Qed.
  Lemma weights_pos : 0 < Sum 1 (s_jd P + 1) (fun j => cos (lat P j)).
  Proof.
    assert (H3 := proj1 G). rewrite Sum_S_l by lia. assert (H : 0 <= Sum 2 (s_jd P + 1) (fun j => cos (lat P j))) by (apply Sum_nonneg; intros j Hj; apply cos_row; lia).
    replace (lat P 1) with 0 by (unfold lat; cbn [INR]; ring). rewrite cos_0. lra.
  Qed.

  Lemma row_lat_R j : @row_lat R RNum P (j + s_jd P - 1) = lat P j.
  Proof.
    destruct G as (Hj & _ & _ & _ & _ & Hd & _). unfold row_lat, lat. rewrite nfloat_R, nhalf_half. cbn [nmul nsub npi RNum].
    rewrite minus_INR in Hd by lia. rewrite minus_INR, plus_INR by lia. cbn [INR] in *.
    replace (1 / 2 * PI) with (s_dphi P * (INR (s_jd P) - 1)) by (rewrite Hd; field). ring.
  Qed.
  Lemma tb_R k : @tb R RNum P pt k = hemispheric_mean P (zonal P pt) k.
  Proof.
    assert (N : (s_nlat P + 1 - s_jd P)%nat = s_jd P) by (destruct G as (Hj & Hn & _); lia).
    unfold tb, hemispheric_mean. rewrite N. cbn [ndiv RNum]. f_equal; [|f_equal]; apply loop_sum; intros j s _; rewrite row_lat_R; cbn [nadd nmul ncos RNum].
    - unfold tbar. rewrite zonal_mean_R. reflexivity.
    - reflexivity.
  Qed.
  Lemma tg_R k : @tg R RNum RTrunc P pv uu pt stat g1 g2 k = hemispheric_mean P (fun j k => tref0 P pv uu pt stat g1 g2 k j) k.
  Proof.
    unfold tg, hemispheric_mean. cbn [ndiv RNum]. f_equal; [|f_equal]; apply loop_sum; intros j s _; rewrite phi_lat; reflexivity.
  Qed.
  Lemma mean_shift (x : arr2 R) d k : hemispheric_mean P (fun j k => x j k + d) k = hemispheric_mean P x k + d.
  Proof.
    unfold hemispheric_mean. assert (W := weights_pos).
    replace (Sum 1 (s_jd P + 1) (fun j => cos (lat P j) * (x j k + d)))
      with (Sum 1 (s_jd P + 1) (fun j => cos (lat P j) * x j k) + d * Sum 1 (s_jd P + 1) (fun j => cos (lat P j))).
    - field. lra.
    - rewrite <- Sum_scal, <- Sum_plus. apply Sum_ext. intros; ring.
  Qed.
  Lemma mean_ext (x y : arr2 R) k k' : (forall j, (1 <= j <= s_jd P)%nat -> x j k = y j k') -> hemispheric_mean P x k = hemispheric_mean P y k'.
  Proof. intros H. unfold hemispheric_mean. f_equal. apply Sum_ext. intros j Hj. rewrite H by lia. reflexivity. Qed.
  Lemma tref1_mean k : hemispheric_mean P (tref1 P pv uu pt stat g1 g2) k = @tb R RNum P pt k.
  Proof.
    rewrite (mean_ext _ (fun j k' => tref0 P pv uu pt stat g1 g2 k j + (@tb R RNum P pt k - tg P pv uu pt stat g1 g2 k)) k k) by (intros; reflexivity).
    rewrite (mean_shift (fun j _ => tref0 P pv uu pt stat g1 g2 k j)). rewrite tg_R.
    rewrite (mean_ext (fun j _ => tref0 P pv uu pt stat g1 g2 k j) (fun j k => tref0 P pv uu pt stat g1 g2 k j) k k) by (intros; reflexivity). ring.
  Qed.
  Lemma tref_mean k : (1 <= k <= s_kmax P)%nat ->
    hemispheric_mean P (rs_tref P pv uu pt stat g1 g2) k = hemispheric_mean P (zonal P pt) k.
  Proof.
    intros Hk. rewrite <- tb_R. unfold rs_tref. destruct (Nat.eq_dec k (s_kmax P)) as [->|N1]; [|destruct (Nat.eq_dec k 1) as [->|N2]].
    - rewrite (mean_ext _ (fun j k => tref1 P pv uu pt stat g1 g2 j k + (@tb R RNum P pt (s_kmax P) - @tb R RNum P pt (s_kmax P - 1))) _ (s_kmax P - 1)).
      + rewrite mean_shift, tref1_mean. ring.
      + intros j _. rewrite Nat.eqb_refl. cbn [nadd nsub RNum]. ring.
    - rewrite (mean_ext _ (fun j k => tref1 P pv uu pt stat g1 g2 j k + (@tb R RNum P pt 1 - @tb R RNum P pt 2)) _ 2).
      + rewrite mean_shift, tref1_mean. ring.
      + intros j _. destruct (Nat.eqb_spec 1 (s_kmax P)); [lia|]. cbn [Nat.eqb nadd nsub RNum]. ring.
    - rewrite (mean_ext _ (tref1 P pv uu pt stat g1 g2) k k); [apply tref1_mean|]. intros j _.
      destruct (Nat.eqb_spec k (s_kmax P)); [lia|]. destruct (Nat.eqb_spec k 1); [lia|]. reflexivity.
  Qed.

  Lemma tref0_S j k : (2 <= j)%nat -> tref0 P pv uu pt stat g1 g2 k (j + 1) = tref0 P pv uu pt stat g1 g2 k (j - 1) + 2 * ty P pv uu pt stat g1 g2 k j * s_dphi P.
  Proof.
    intros Hj. destruct j as [|[|j]]; try lia. replace (S (S j) + 1)%nat with (S (S (S j))) by lia. replace (S (S j) - 1)%nat with (S j) by lia. reflexivity.
  Qed.
  Lemma thermal_wind j k : inside P j k -> s_a P <> 0 ->
    (rs_tref P pv uu pt stat g1 g2 (j + 1) k - rs_tref P pv uu pt stat g1 g2 (j - 1) k) / (2 * s_dphi P * s_a P)
    = - (2 * s_om P * sin (lat P j)) * (s_h P / s_r P) * exp (s_r P / s_cp P * height P k / s_h P)
      * ((rs_uref P pv uu pt stat g1 g2 j (k + 1) - rs_uref P pv uu pt stat g1 g2 j (k - 1)) / (2 * s_dz P)).
  Proof.
    intros [Hj Hk] Ha. unfold rs_tref. destruct (Nat.eqb_spec k (s_kmax P)); [lia|]. destruct (Nat.eqb_spec k 1); [lia|].
    unfold tref1. rewrite tref0_S by lia. unfold ty. rewrite phi_lat. unfold zlev, rkappa. rewrite nfloat_R. cbn [nadd nsub nmul ndiv nopp nsin nexp nofZ RNum INR].
    unfold height. set (E := exp _). set (S := sin _). set (D := rs_uref _ _ _ _ _ _ _ j (k + 1) - rs_uref _ _ _ _ _ _ _ j (k - 1)). assert (Dp := dphi_pos).
    set (x1 := tref0 _ _ _ _ _ _ _ k (j - 1)). set (y := @tb R RNum P pt k - tg _ _ _ _ _ _ _ k).
    replace (x1 + 2 * (- (2 * s_om P * S) * (D / (2 * s_dz P)) * s_a P * s_h P * E / s_r P) * s_dphi P + y - (x1 + y))
      with (2 * (- (2 * s_om P * S) * (D / (2 * s_dz P)) * s_a P * s_h P * E / s_r P) * s_dphi P) by ring.
    unfold Rdiv.
    replace (/ (2 * s_dphi P * s_a P)) with (/ 2 * / s_dphi P * / s_a P) by (field; lra).
    replace (2 * (- (2 * s_om P * S) * (D * / (2 * s_dz P)) * s_a P * s_h P * E * / s_r P) * s_dphi P * (/ 2 * / s_dphi P * / s_a P))
      with ((2 * / 2) * (s_dphi P * / s_dphi P) * (s_a P * / s_a P) * (- (2 * s_om P * S) * (D * / (2 * s_dz P)) * s_h P * E * / s_r P)) by ring.
    rewrite !Rinv_r by lra. ring.
  Qed.
End Means.

(** ** Qref *)
Section Qref.
  Variable P : rsdims R.
  Hypothesis G : pole_to_pole P.
  Hypothesis Ha : 0 < s_a P.
  Hypothesis Hom : 0 < s_om P.
  Variable pv : arr3 R.

  Lemma cell_area_nonneg j : (1 <= j <= s_nlat P)%nat -> 0 <= cell_area P j.
  Proof.
    intros Hj. assert (D := dphi_pos P G). assert (HP := PI_RGT_0). destruct G as (H3 & Hn & Hl & _ & _ & Hd & Hl2). unfold cell_area.
    assert (Dl : 0 < s_dlambda P). { assert (0 < INR (s_nlon P)) by (apply lt_0_INR; lia). apply Rmult_lt_reg_r with (INR (s_nlon P)); lra. }
    apply Rmult_le_pos; [repeat apply Rmult_le_pos; try lra; unfold Rsqr; nra|].
    unfold global_lat, lat. rewrite minus_INR in Hd by lia. cbn [INR] in Hd.
    assert (A1 : INR 1 <= INR j) by (apply le_INR; lia). assert (A2 : INR j <= 2 * INR (s_jd P) - 1).
    { assert (X : (j <= 2 * s_jd P - 1)%nat) by lia. apply le_INR in X. rewrite minus_INR, mult_INR in X by lia. cbn [INR] in X. lra. }
    cbn [INR] in A1. apply cos_ge_0; nra.
  Qed.
  Lemma cap_area_pos j : (1 <= j <= s_jd P - 1)%nat -> 0 <= cap_area P j.
  Proof.
    intros _. unfold cap_area. assert (HP := PI_RGT_0). destruct (SIN_bound (lat P j)). apply Rmult_le_pos; [|lra]. unfold Rsqr. nra.
  Qed.
  Lemma cap_area_antitone j1 j2 : (1 <= j1 <= j2)%nat -> (j2 <= s_jd P)%nat -> cap_area P j2 <= cap_area P j1.
  Proof.
    intros H1 H2. unfold cap_area. assert (HP := PI_RGT_0). apply Rmult_le_compat_l; [unfold Rsqr; nra|].
    assert (S : sin (lat P j1) <= sin (lat P j2)); [|lra].
    destruct (lat_row P G j1 ltac:(lia)). destruct (lat_row P G j2 ltac:(lia)). apply sin_incr_1; try lra.
    unfold lat. apply Rmult_le_compat_l; [left; apply (dphi_pos P G)|]. apply Rplus_le_compat_r, le_INR. lia.
  Qed.

  (** Qref in the units of PV *)
  Lemma interior_true k : (2 <= k <= s_kmax P - 1)%nat -> @interior R P k = true.
  Proof. intros H. unfold interior. destruct (Nat.leb_spec 2 k); [|lia]. destruct (Nat.leb_spec k (s_kmax P - 1)); [reflexivity|lia]. Qed.
  Lemma sin_row j : (2 <= j <= s_jd P)%nat -> 0 < sin (lat P j).
  Proof.
    intros Hj. destruct (lat_row P G j ltac:(lia)) as [L1 L2]. assert (HP := PI_RGT_0). assert (D := dphi_pos P G). apply sin_gt_0; [|lra].
    unfold lat. apply Rmult_lt_0_compat; [exact D|]. assert (X : (2 <= j)%nat) by lia. apply le_INR in X. cbn [INR] in X. lra.
  Qed.
  Lemma rs_qref_value j k : (2 <= j <= s_jd P)%nat -> (2 <= k <= s_kmax P - 1)%nat ->
    @rs_qref R RNum RTrunc P pv j k * (2 * s_om P * sin (lat P j)) =
    if Nat.eqb j (s_jd P) then @qmax R RNum P pv k else @at_row R RNum RTrunc P pv k j (@qn R RNum P pv k) 0.
  Proof.
    intros Hj Hk. unfold rs_qref. destruct (Nat.eqb_spec j 1); [lia|]. cbn [andb]. unfold qref1. destruct (Nat.leb_spec 2 j); [|lia].
    unfold qref0. rewrite (interior_true k Hk). rewrite phi_lat. cbn [ndiv nmul nsin nofZ nzero RNum]. set (x := if Nat.eqb j (s_jd P) then _ else _).
    assert (S := sin_row j Hj). field. split; lra.
  Qed.
  Lemma rs_qref_edge j k : (k = 1 \/ k = s_kmax P)%nat -> @rs_qref R RNum RTrunc P pv j k = 0.
  Proof.
    intros Hk. destruct G as (_ & _ & _ & K & _). assert (I : @interior R P k = false).
    { unfold interior. destruct (Nat.leb_spec 2 k); [|reflexivity]. destruct (Nat.leb_spec k (s_kmax P - 1)); [lia|reflexivity]. }
    unfold rs_qref, qref1, qref0. rewrite I. rewrite andb_false_r. cbn [ndiv nzero RNum]. destruct (Nat.leb 2 j); [unfold Rdiv; ring|reflexivity].
  Qed.

  Variables (k : nat) (M m : R).
  Hypothesis Hk : (2 <= k <= s_kmax P - 1)%nat.
  Hypothesis HM : level_max P pv k M.
  Hypothesis Hm : level_min P pv k m.
  Hypothesis Hmm : m < M.
  Let npart2 : (2 <= s_npart P)%nat. Proof. destruct G as (_ & _ & _ & _ & H & _). exact H. Qed.
  Definition Qphys (j : nat) : R := @rs_qref R RNum RTrunc P pv j k * (2 * s_om P * sin (lat P j)).
  Definition found (j : nat) : Prop := j = s_jd P \/ cap_area P j < @aan R RNum RTrunc P pv k (s_npart P).
  Lemma found_bracket j : (2 <= j < s_jd P)%nat -> cap_area P j < @aan R RNum RTrunc P pv k (s_npart P) ->
    exists nn, (1 <= nn <= s_npart P - 1)%nat /\ @bracketed R RNum RTrunc P pv k j nn = true.
  Proof.
    intros Hj Hf. apply bracket_exists; [exact npart2|].
    split; [|exact Hf]. apply cap_area_pos. lia.
  Qed.
  Lemma Qphys_range j : (2 <= j <= s_jd P)%nat -> found j -> m <= Qphys j <= M.
  Proof.
    intros Hj Hf. unfold Qphys. rewrite rs_qref_value by assumption. destruct (Nat.eqb_spec j (s_jd P)) as [E|E].
    - rewrite (qmax_level P pv k M HM). lra.
    - destruct Hf as [Hf|Hf]; [contradiction|]. apply at_row_range; auto using cell_area_nonneg; try lra. apply found_bracket; [lia|exact Hf].
  Qed.
  Lemma Qphys_monotone j1 j2 : (2 <= j1 <= j2)%nat -> (j2 <= s_jd P)%nat -> found j1 -> Qphys j1 <= Qphys j2.
  Proof.
    intros H1 H2 Hf. destruct (Nat.eq_dec j2 (s_jd P)) as [->|N2].
    - destruct (Qphys_range j1 ltac:(lia) Hf) as [_ U]. unfold Qphys at 2. rewrite rs_qref_value by lia. rewrite Nat.eqb_refl, (qmax_level P pv k M HM). exact U.
    - destruct Hf as [->|Hf]; [lia|]. assert (C := cap_area_antitone j1 j2 ltac:(lia) H2).
      destruct (found_bracket j1 ltac:(lia) Hf) as (n1 & A1 & B1). destruct (found_bracket j2 ltac:(lia) ltac:(lra)) as (n2 & A2 & B2).
      unfold Qphys. rewrite !rs_qref_value by lia. destruct (Nat.eqb_spec j1 (s_jd P)); [lia|]. destruct (Nat.eqb_spec j2 (s_jd P)); [lia|].
      apply at_row_antitone with (M := M) (m := m) (n1 := n1) (n2 := n2); auto using cell_area_nonneg.
  Qed.
  Lemma Qphys_not_found j : (2 <= j < s_jd P)%nat -> @aan R RNum RTrunc P pv k (s_npart P) <= cap_area P j -> Qphys j = 0.
  Proof.
    intros Hj Hf. unfold Qphys. rewrite rs_qref_value by lia. destruct (Nat.eqb_spec j (s_jd P)); [lia|].
    apply at_row_none with (M := M) (m := m); auto using cell_area_nonneg.
  Qed.
End Qref.
