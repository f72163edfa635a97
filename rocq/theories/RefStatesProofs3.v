(** Proofs about the relaxation of the reference state solver. *)
From Verif Require Import Base BaseFacts Spec SpecFacts Flux FluxSpec FluxProofs RefStates RefStatesSpec RefStatesProofs RefStatesProofs2.
From Coq Require Import FunctionalExtensionality ZifyNat.
Ltac Zify.zify_post_hook ::= Z.to_euclidean_division_equations.
Open Scope R_scope.

Lemma range_snoc lo hi : (lo <= hi + 1)%nat -> range lo (S hi) = range lo hi ++ [S hi].
Proof. intros H. unfold range. replace (S hi + 1 - lo)%nat with (S (hi + 1 - lo)) by lia. rewrite seq_S. f_equal. f_equal. lia. Qed.
Lemma range_empty lo hi : (hi < lo)%nat -> range lo hi = [].
Proof. intros H. unfold range. replace (hi + 1 - lo)%nat with O by lia. reflexivity. Qed.

Section Sweep.
  Variable P : rsdims R.
  Variables pv uu pt : arr3 R.
  Variable stat : nat -> R.
  Variables g1 g2 : arr2 R.
  Hypothesis K3 : (3 <= s_kmax P)%nat.
  Hypothesis J3 : (3 <= s_jd P)%nat.
  Notation resid := (@resid R RNum RTrunc P pv stat).
  Notation ejk := (@ejk R RNum P stat).
  Notation point := (@point R RNum RTrunc P pv stat).
  Notation uz := (@uz_top R RNum P pt).

  (** one point, in terms of the wind before the sweep *)
  Definition relaxed (n : nat) (om : R) (u : arr2 R) (j k : nat) : R :=
    if colour n j k then (if Reqb (ejk j k) 0 then 0 else u j k - om * resid u j k / ejk j k) else u j k.
  Definition changed (n : nat) (u : arr2 R) (j k : nat) : R := if colour n j k then Rabs (resid u j k) else 0.
  Definition new_row (n : nat) (om : R) (u : arr2 R) (j k : nat) : R :=
    if Nat.eqb k (s_kmax P) then (if Nat.eqb (s_kmax P - 2) 1 then 0 else relaxed n om u j (s_kmax P - 2)) - uz j
    else if Nat.eqb k 1 then 0 else if Nat.leb 2 k && Nat.leb k (s_kmax P - 1) then relaxed n om u j k else u j k.

  Lemma colour_next n j k : colour n j k = true -> colour n (j - 1) k = true -> (1 <= j)%nat -> False.
  Proof. unfold colour. intros H1 H2 Hj. apply Nat.eqb_eq in H1, H2. lia. Qed.
  Lemma colour_step n j k : colour n j k = true -> (1 <= j)%nat -> (1 <= k)%nat ->
    colour n (j + 1) k = false /\ colour n (j - 1) k = false /\ colour n j (k + 1) = false /\ colour n j (k - 1) = false.
  Proof. unfold colour. intros H Hj Hk. apply Nat.eqb_eq in H. repeat split; apply Nat.eqb_neq; lia. Qed.
  Lemma colour_other n j k : colour (S n) j k = negb (colour n j k).
  Proof.
    unfold colour. destruct (Nat.eqb_spec ((j + k) mod 2) (n mod 2)); destruct (Nat.eqb_spec ((j + k) mod 2) (S n mod 2)); try reflexivity; exfalso; lia.
  Qed.

  Lemma resid_ext u v j k : u (j + 1)%nat k = v (j + 1)%nat k -> u (j - 1)%nat k = v (j - 1)%nat k -> u j (k + 1)%nat = v j (k + 1)%nat ->
    u j (k - 1)%nat = v j (k - 1)%nat -> u j k = v j k -> resid u j k = resid v j k.
  Proof. intros E1 E2 E3 E4 E5. unfold RefStates.resid. rewrite E1, E2, E3, E4, E5. reflexivity. Qed.

  (** the interior points of row j, when the rows north of it are untouched and the row to the south has
      kept the values of the other colour *)
  Lemma inner n om u u0 s0 j m : (2 <= j)%nat -> (m <= s_kmax P - 1)%nat ->
    (forall k, u0 j k = u j k) -> (forall k, u0 (j + 1)%nat k = u (j + 1)%nat k) ->
    (forall k, (2 <= k <= s_kmax P - 1)%nat -> colour n j k = true -> u0 (j - 1)%nat k = u (j - 1)%nat k) ->
    fold_left (point n om j) (range 2 m) (u0, s0) =
    ((fun j' k' => if Nat.eqb j' j && (Nat.leb 2 k' && Nat.leb k' m) then relaxed n om u j k' else u0 j' k'), s0 + Sum 2 (m + 1) (changed n u j)).
  Proof.
    intros Hj Hm E0 E1 E2. induction m as [|m IH].
    - rewrite range_empty by lia. cbn [fold_left]. rewrite Sum_empty by lia. rewrite Rplus_0_r. f_equal.
      extensionality j'. extensionality k'. destruct (Nat.leb_spec 2 k'), (Nat.leb_spec k' 0); try lia; rewrite ?andb_false_r; reflexivity.
    - destruct (Nat.eq_dec m 0) as [->|Hm0].
      { rewrite range_empty by lia. cbn [fold_left]. rewrite Sum_empty by lia. rewrite Rplus_0_r. f_equal.
        extensionality j'. extensionality k'. destruct (Nat.leb_spec 2 k'), (Nat.leb_spec k' 1); try lia; rewrite ?andb_false_r; reflexivity. }
      rewrite range_snoc by lia. rewrite fold_left_app, (IH ltac:(lia)). cbn [fold_left]. set (w := fun j' k' => _).
      unfold RefStates.point. change (Nat.eqb ((j + S m) mod 2) (n mod 2)) with (colour n j (S m)).
      replace (S m + 1)%nat with (S (m + 1)) by lia. rewrite Sum_S_r by lia. replace (m + 1)%nat with (S m) by lia.
      destruct (colour n j (S m)) eqn:C.
      + destruct (colour_step n j (S m) C ltac:(lia) ltac:(lia)) as (C1 & C2 & C3 & C4).
        assert (W : forall k', (k' = S m \/ k' = S m + 1 \/ k' = S m - 1)%nat -> w j k' = u j k').
        { intros k' Hk'. unfold w. rewrite Nat.eqb_refl. cbn [andb]. destruct (Nat.leb_spec 2 k'), (Nat.leb_spec k' m); cbn [andb]; try apply E0.
          unfold relaxed. replace k' with (S m - 1)%nat by lia. rewrite C4. reflexivity. }
        assert (R : resid w j (S m) = resid u j (S m)).
        { apply resid_ext; try (apply W; lia).
          - unfold w. destruct (Nat.eqb_spec (j + 1) j); [lia|]. cbn [andb]. apply E1.
          - unfold w. destruct (Nat.eqb_spec (j - 1) j); [lia|]. cbn [andb]. apply E2; [lia|exact C]. }
        rewrite R, (W (S m)) by lia. cbn [nadd nsub nmul ndiv nabs nzero neqb RNum]. f_equal.
        * extensionality j'. extensionality k'. unfold set2, w. destruct (Nat.eqb_spec j' j) as [->|]; cbn [andb]; [|reflexivity].
          destruct (Nat.eqb_spec k' (S m)) as [->|Hk'].
          -- destruct (Nat.leb_spec 2 (S m)); [|lia]. destruct (Nat.leb_spec (S m) (S m)); [|lia]. cbn [andb]. unfold relaxed. rewrite C. reflexivity.
          -- destruct (Nat.leb_spec 2 k'); cbn [andb]; [|reflexivity]. destruct (Nat.leb_spec k' m), (Nat.leb_spec k' (S m)); try lia; reflexivity.
        * unfold changed at 3. rewrite C. ring.
      + f_equal.
        * extensionality j'. extensionality k'. unfold w. destruct (Nat.eqb_spec j' j) as [->|]; cbn [andb]; [|reflexivity].
          destruct (Nat.leb_spec 2 k'); cbn [andb]; [|reflexivity]. destruct (Nat.leb_spec k' m), (Nat.leb_spec k' (S m)); try lia; try reflexivity.
          replace k' with (S m) by lia. unfold relaxed. rewrite C. apply E0.
        * unfold changed at 3. rewrite C. ring.
  Qed.

  Lemma rows_done n om u s0 J : (1 <= J)%nat ->
    fold_left (@sor_row R RNum RTrunc P pv pt stat n om) (range 2 J) (u, s0) =
    ((fun j k => if Nat.leb 2 j && Nat.leb j J then new_row n om u j k else u j k), s0 + Sum 2 (J + 1) (fun j => Sum 2 (s_kmax P) (changed n u j))).
  Proof.
    intros HJ. induction J as [|J IH]; [lia|]. destruct (Nat.eq_dec J 0) as [->|NJ].
    - rewrite range_empty by lia. cbn [fold_left]. rewrite Sum_empty by lia. rewrite Rplus_0_r. f_equal.
      extensionality j'. extensionality k'. destruct (Nat.leb_spec 2 j'), (Nat.leb_spec j' 1); try lia; reflexivity.
    - rewrite range_snoc by lia. rewrite fold_left_app, (IH ltac:(lia)). cbn [fold_left]. set (w := fun j' k' => _). unfold sor_row.
      assert (W0 : forall j' k', (J < j')%nat -> w j' k' = u j' k').
      { intros j' k' H. unfold w. destruct (Nat.leb_spec 2 j'), (Nat.leb_spec j' J); try lia; reflexivity. }
      rewrite (inner n om u w _ (S J) (s_kmax P - 1)); [|lia|lia|intros; apply W0; lia|intros; apply W0; lia|].
      2: { intros k Hk C. unfold w. replace (S J - 1)%nat with J by lia. destruct (Nat.leb_spec 2 J), (Nat.leb_spec J J); try lia; cbn [andb]; try reflexivity.
           unfold new_row. destruct (Nat.eqb_spec k (s_kmax P)); [lia|]. destruct (Nat.eqb_spec k 1); [lia|].
           destruct (Nat.leb_spec 2 k), (Nat.leb_spec k (s_kmax P - 1)); try lia. cbn [andb]. unfold relaxed.
           destruct (colour n J k) eqn:C'; [|reflexivity]. exfalso. apply (colour_next n (S J) k C); [replace (S J - 1)%nat with J by lia; exact C'|lia]. }
      f_equal.
      + extensionality j'. extensionality k'. unfold set2. cbn [nsub nzero RNum]. rewrite Nat.eqb_refl. cbn [andb].
        destruct (Nat.eqb_spec j' (S J)) as [->|Hj'].
        * destruct (Nat.leb_spec 2 (S J)), (Nat.leb_spec (S J) (S J)); try lia. cbn [andb]. unfold new_row.
          destruct (Nat.eqb_spec k' (s_kmax P)) as [->|Hk'].
          -- destruct (Nat.eqb_spec (s_kmax P - 2) 1); [reflexivity|].
             destruct (Nat.leb_spec 2 (s_kmax P - 2)), (Nat.leb_spec (s_kmax P - 2) (s_kmax P - 1)); try lia. reflexivity.
          -- destruct (Nat.eqb_spec k' 1); [reflexivity|]. destruct (Nat.leb 2 k' && Nat.leb k' (s_kmax P - 1)); [reflexivity|]. apply W0. lia.
        * cbn [andb]. unfold w. destruct (Nat.leb_spec 2 j'); cbn [andb]; [|reflexivity]. destruct (Nat.leb_spec j' J), (Nat.leb_spec j' (S J)); try lia; reflexivity.
      + replace (S J + 1)%nat with (S (J + 1)) by lia. rewrite Sum_S_r by lia. replace (J + 1)%nat with (S J) by lia.
        replace (s_kmax P - 1 + 1)%nat with (s_kmax P) by lia. ring.
  Qed.

  (** a whole sweep *)
  Notation sweep := (@sweep R RNum RTrunc P pv uu pt stat g1 g2).
  Notation u_eq := (@u_equator R RNum RTrunc P pv uu g1 g2).
  Definition swept (n : nat) (om : R) (u : arr2 R) (j k : nat) : R :=
    if Nat.eqb j 1 then u_eq k else if Nat.eqb j (s_jd P) then 0 else if Nat.leb 2 j && Nat.leb j (s_jd P - 1) then new_row n om u j k else u j k.
  Lemma sweep_eq n om u : sweep n om u = (swept n om u, norm_colour P n (resid u)).
  Proof.
    unfold RefStates.sweep. rewrite rows_done by lia. unfold swept, norm_colour. replace (s_jd P - 1 + 1)%nat with (s_jd P) by lia.
    cbn [nzero RNum]. rewrite Rplus_0_l. reflexivity.
  Qed.
  Lemma swept_inside n om u j k : inside P j k -> swept n om u j k = relaxed n om u j k.
  Proof.
    intros [Hj Hk]. unfold swept. destruct (Nat.eqb_spec j 1); [lia|]. destruct (Nat.eqb_spec j (s_jd P)); [lia|].
    destruct (Nat.leb_spec 2 j), (Nat.leb_spec j (s_jd P - 1)); try lia. cbn [andb]. unfold new_row.
    destruct (Nat.eqb_spec k (s_kmax P)); [lia|]. destruct (Nat.eqb_spec k 1); [lia|].
    destruct (Nat.leb_spec 2 k), (Nat.leb_spec k (s_kmax P - 1)); try lia. reflexivity.
  Qed.
  Lemma swept_equator n om u k : swept n om u 1 k = u_eq k. Proof. reflexivity. Qed.
  Lemma swept_pole n om u k : swept n om u (s_jd P) k = 0.
  Proof. unfold swept. destruct (Nat.eqb_spec (s_jd P) 1); [lia|]. rewrite Nat.eqb_refl. reflexivity. Qed.
  Lemma swept_row n om u j k : (2 <= j <= s_jd P - 1)%nat -> swept n om u j k = new_row n om u j k.
  Proof.
    intros Hj. unfold swept. destruct (Nat.eqb_spec j 1); [lia|]. destruct (Nat.eqb_spec j (s_jd P)); [lia|].
    destruct (Nat.leb_spec 2 j), (Nat.leb_spec j (s_jd P - 1)); try lia. reflexivity.
  Qed.
  Lemma swept_ground n om u j : (2 <= j <= s_jd P - 1)%nat -> swept n om u j 1 = 0.
  Proof. intros Hj. rewrite swept_row by exact Hj. unfold new_row. destruct (Nat.eqb_spec 1 (s_kmax P)); [lia|]. reflexivity. Qed.
  Lemma swept_top n om u j : (2 <= j <= s_jd P - 1)%nat -> swept n om u j (s_kmax P) = swept n om u j (s_kmax P - 2) - uz j.
  Proof.
    intros Hj. rewrite !swept_row by exact Hj. unfold new_row. rewrite Nat.eqb_refl. f_equal.
    destruct (Nat.eqb_spec (s_kmax P - 2) (s_kmax P)); [lia|]. destruct (Nat.eqb_spec (s_kmax P - 2) 1); [reflexivity|].
    destruct (Nat.leb_spec 2 (s_kmax P - 2)), (Nat.leb_spec (s_kmax P - 2) (s_kmax P - 1)); try lia. reflexivity.
  Qed.

  (** ** the residual is the one of the discrete elliptic equation *)
  Hypothesis G : pole_to_pole P.
  Notation q := (@rs_qref R RNum RTrunc P pv).
  Lemma phip_lat j : @phip R RNum P j = lat P j + s_dphi P / 2.
  Proof. unfold phip, lat. rewrite nofnat_INR, nhalf_half. cbn [nmul nsub RNum]. field. Qed.
  Lemma phim_lat j : @phim R RNum P j = lat P j - s_dphi P / 2.
  Proof. unfold phim, lat. rewrite nofnat_INR, nhalf_half. cbn [nmul nsub nadd none RNum]. field. Qed.
  Lemma zlev_height k : @zlev R RNum P k = height P k.
  Proof. unfold zlev, height. rewrite nfloat_R. reflexivity. Qed.
  Hypothesis H : physical P stat.
  Lemma half_level_density k k' :
    @half_level R RNum P (@zlev R RNum P k) (@zlev R RNum P k') (stat k) (stat k') = density P stat k k'.
  Proof.
    destruct H as (_ & _ & _ & Hh & _ & Hc & _). unfold half_level, density, rkappa. rewrite !zlev_height, nhalf_half.
    cbn [nmul nadd nopp ndiv nexp RNum]. rewrite <- exp_plus. f_equal; [|field]. f_equal. field. split; lra.
  Qed.
  Definition vertical (j k : nat) : R :=
    4 * (s_om P)² * s_h P * (s_a P)² * sin (lat P j) * (s_dphi P)² / (s_r P * cos (lat P j) * (s_dz P)²) * exp (height P k / s_h P).
  Lemma fact_vertical j k : (2 <= j <= s_jd P - 1)%nat -> @fact R RNum P j * exp (@zlev R RNum P k / s_h P) = vertical j k.
  Proof.
    intros Hj. destruct H as (_ & _ & Hz & _ & Hr & _ & _). assert (C := cos_inside P G j Hj). unfold fact, vertical. rewrite phi_lat, zlev_height.
    cbn [nmul ndiv nsin ncos nofZ RNum]. f_equal. unfold Rsqr. field. repeat split; lra.
  Qed.
  Lemma cjk_R j k : (2 <= j <= s_jd P - 1)%nat -> @cjk R RNum P stat j k = density P stat (k + 1) k * vertical j k.
  Proof. intros Hj. unfold cjk. rewrite half_level_density, <- fact_vertical by exact Hj. cbn [nmul ndiv nexp RNum]. ring. Qed.
  Lemma djk_R j k : (2 <= j <= s_jd P - 1)%nat -> @djk R RNum P stat j k = density P stat (k - 1) k * vertical j k.
  Proof. intros Hj. unfold djk. rewrite half_level_density, <- fact_vertical by exact Hj. cbn [nmul ndiv nexp RNum]. ring. Qed.
  Lemma ajk_R j : @ajk R RNum P j = / (sin (lat P j + s_dphi P / 2) * cos (lat P j + s_dphi P / 2)).
  Proof. unfold ajk. rewrite phip_lat. cbn [none ndiv nmul nsin ncos RNum]. unfold Rdiv. ring. Qed.
  Lemma bjk_R j : @bjk R RNum P j = / (sin (lat P j - s_dphi P / 2) * cos (lat P j - s_dphi P / 2)).
  Proof. unfold bjk. rewrite phim_lat. cbn [none ndiv nmul nsin ncos RNum]. unfold Rdiv. ring. Qed.
  Lemma resid_R u j k : inside P j k -> resid u j k = residual P stat q u j k.
  Proof.
    intros [Hj Hk]. unfold RefStates.resid, residual. unfold RefStates.ejk, fjk.
    cbn [nadd nsub nmul nopp RNum]. rewrite cjk_R, djk_R, ajk_R, bjk_R by exact Hj. cbv zeta. fold (vertical j k).
    set (X := sin (lat P j + _) * _). set (Y := sin (lat P j - _) * _). unfold Rdiv. ring.
  Qed.
  Lemma coefficients_pos j k : inside P j k ->
    0 < @ajk R RNum P j /\ 0 < @bjk R RNum P j /\ 0 < @cjk R RNum P stat j k /\ 0 < @djk R RNum P stat j k.
  Proof.
    intros [Hj Hk]. destruct (lat_inside P G j Hj) as [L1 L2]. assert (D := dphi_pos P G). assert (HP := PI_RGT_0).
    assert (V : 0 < vertical j k).
    { destruct H as (Ha & Ho & Hz & Hh & Hr & Hc & Hs). assert (C := cos_inside P G j Hj). assert (S := sin_inside P G j Hj). unfold vertical, Rsqr.
      apply Rmult_lt_0_compat; [|apply exp_pos]. apply Rdiv_lt_0_compat; repeat apply Rmult_lt_0_compat; lra. }
    assert (De : forall k', (1 <= k' <= s_kmax P)%nat -> 0 < density P stat k' k).
    { intros k' Hk'. destruct H as (_ & _ & _ & _ & _ & _ & Hs). unfold density. apply Rdiv_lt_0_compat; [apply exp_pos|].
      assert (X1 := Hs k ltac:(lia)). assert (X2 := Hs k' Hk'). lra. }
    rewrite ajk_R, bjk_R, cjk_R, djk_R by exact Hj. split; [|split; [|split]].
    - apply Rinv_0_lt_compat, Rmult_lt_0_compat; [apply sin_gt_0|apply cos_gt_0]; lra.
    - apply Rinv_0_lt_compat, Rmult_lt_0_compat; [apply sin_gt_0|apply cos_gt_0]; lra.
    - apply Rmult_lt_0_compat; [apply De; lia|exact V].
    - apply Rmult_lt_0_compat; [apply De; lia|exact V].
  Qed.
  Lemma ejk_neg j k : inside P j k -> ejk j k < 0.
  Proof. intros I. destruct (coefficients_pos j k I) as (A1 & A2 & A3 & A4). unfold RefStates.ejk. cbn [nsub nopp RNum]. lra. Qed.
  Lemma relaxed_R n om u j k : inside P j k ->
    relaxed n om u j k = if colour n j k then u j k - om * residual P stat q u j k / ejk j k else u j k.
  Proof.
    intros I. unfold relaxed. assert (E := ejk_neg j k I). destruct (Reqb_spec (ejk j k) 0); [lra|]. rewrite resid_R by exact I. reflexivity.
  Qed.

  (** ** boundary conditions *)
  Lemma top_condition j (w : arr2 R) : (2 <= j <= s_jd P - 1)%nat ->
    (w j (s_kmax P) = w j (s_kmax P - 2)%nat - uz j <->
     (w j (s_kmax P) - w j (s_kmax P - 2)%nat) / (2 * s_dz P) * (2 * s_om P * sin (lat P j))
       = - s_r P / s_h P * exp (- (s_r P / s_cp P) * height P (s_kmax P - 1) / s_h P) * cos (lat P j)
         * ((zonal P pt (j + 1) (s_kmax P - 1) - zonal P pt (j - 1) (s_kmax P - 1)) / (2 * s_dphi P * s_a P))).
  Proof.
    intros Hj. destruct H as (Ha & Ho & Hz & Hh & Hr & Hc & _). assert (S := sin_inside P G j Hj). assert (D := dphi_pos P G).
    unfold uz_top, tbar. rewrite !zonal_mean_R, phi_lat, zlev_height. unfold rkappa. cbn [nmul nsub ndiv nopp nexp ncos nsin nofZ RNum].
    replace (- height P (s_kmax P - 1) * (s_r P / s_cp P) / s_h P) with (- (s_r P / s_cp P) * height P (s_kmax P - 1) / s_h P) by (unfold Rdiv; ring).
    set (E := exp _). set (dT := zonal P pt (j + 1) (s_kmax P - 1) - zonal P pt (j - 1) (s_kmax P - 1)). set (c := cos (lat P j)). set (s := sin (lat P j)) in *.
    set (x := w j (s_kmax P)). set (y := w j (s_kmax P - 2)%nat). set (v := s_dz P * s_r P * c * E * dT / (2 * s_om P * s * s_dphi P * s_h P * s_a P)).
    assert (Ev : - s_r P / s_h P * E * c * (dT / (2 * s_dphi P * s_a P)) = - v * (s_om P * s / s_dz P)).
    { unfold v. field. repeat split; lra. }
    rewrite Ev. replace ((x - y) / (2 * s_dz P) * (2 * s_om P * s)) with ((x - y) * (s_om P * s / s_dz P)) by (field; lra).
    assert (F : 0 < s_om P * s / s_dz P) by (apply Rdiv_lt_0_compat; [apply Rmult_lt_0_compat|]; lra).
    split; [intros ->; ring|]. intros X. apply Rmult_eq_reg_r in X; lra.
  Qed.
  Lemma swept_boundary n om u : boundary P u_eq (zonal P pt) (swept n om u).
  Proof.
    split; [|split].
    - intros j Hj. apply swept_ground. exact Hj.
    - intros k Hk. rewrite swept_pole, swept_equator. split; reflexivity.
    - intros j Hj. apply top_condition; [exact Hj|]. apply swept_top. exact Hj.
  Qed.

  (** ** fixed points *)
  Definition on_grid (j k : nat) : Prop := (1 <= j <= s_jd P)%nat /\ (1 <= k <= s_kmax P)%nat.
  (** the corner values of the equatorial and polar rows are never used *)
  Definition used (j k : nat) : Prop := on_grid j k /\ (j = 1 \/ j = s_jd P -> 2 <= k <= s_kmax P - 1)%nat.
  Definition unchanged (n : nat) (om : R) (u : arr2 R) : Prop := forall j k, used j k -> fst (sweep n om u) j k = u j k.
  Lemma fixed_point n om1 om2 u : om1 <> 0 -> om2 <> 0 ->
    (unchanged n om1 u /\ unchanged (S n) om2 u <-> solves P stat q u /\ boundary P u_eq (zonal P pt) u).
  Proof.
    intros O1 O2. unfold unchanged. setoid_rewrite sweep_eq. cbn [fst]. split.
    - intros [F1 F2]. split.
      + intros j k I. assert (U : used j k) by (unfold used, on_grid; destruct I; lia). assert (E := ejk_neg j k I).
        assert (Z : forall o, o <> 0 -> u j k - o * residual P stat q u j k / ejk j k = u j k -> residual P stat q u j k = 0).
        { intros o Ho X. assert (Y : o * residual P stat q u j k / ejk j k = 0) by lra. unfold Rdiv in Y.
          apply Rmult_integral in Y. destruct Y as [Y|Y]; [|assert (W := Rinv_neq_0_compat (ejk j k) ltac:(lra)); contradiction].
          apply Rmult_integral in Y. destruct Y; [contradiction|assumption]. }
        specialize (F1 j k U). specialize (F2 j k U). rewrite swept_inside, relaxed_R in F1, F2 by exact I. rewrite colour_other in F2.
        destruct (colour n j k); cbn [negb] in F2; [exact (Z om1 O1 F1)|exact (Z om2 O2 F2)].
      + assert (B := swept_boundary n om1 u). destruct B as (B1 & B2 & B3). split; [|split].
        * intros j Hj. rewrite <- F1 by (unfold used, on_grid; lia). apply B1. exact Hj.
        * intros k Hk. rewrite <- !F1 by (unfold used, on_grid; lia). apply B2. exact Hk.
        * intros j Hj. rewrite <- !F1 by (unfold used, on_grid; lia). apply B3. exact Hj.
    - intros [Sv (B1 & B2 & B3)].
      assert (X : forall n' om j k, used j k -> swept n' om u j k = u j k).
      { intros n' om j k [[U1 U2] U3]. destruct (Nat.eq_dec j 1) as [->|J1]; [rewrite swept_equator; symmetry; apply B2; lia|].
        destruct (Nat.eq_dec j (s_jd P)) as [->|Jd]; [rewrite swept_pole; symmetry; apply B2; lia|].
        assert (Hj : (2 <= j <= s_jd P - 1)%nat) by lia.
        assert (In : forall k, (2 <= k <= s_kmax P - 1)%nat -> swept n' om u j k = u j k).
        { intros k' Hk'. assert (I : inside P j k') by (split; assumption). rewrite swept_inside, relaxed_R by exact I. rewrite (Sv j k' I).
          destruct (colour n' j k'); [|reflexivity]. unfold Rdiv. ring. }
        destruct (Nat.eq_dec k 1) as [->|K1]; [rewrite swept_ground by exact Hj; symmetry; apply B1; exact Hj|].
        destruct (Nat.eq_dec k (s_kmax P)) as [->|Kx]; [|apply In; lia].
        rewrite swept_top by exact Hj. symmetry. rewrite (proj2 (top_condition j u Hj) (B3 j Hj)). f_equal.
        destruct (Nat.eq_dec (s_kmax P - 2) 1) as [E|E]; [rewrite E, swept_ground by exact Hj; apply B1; exact Hj|symmetry; apply In; lia]. }
      split; intros j k U; apply X; exact U.
  Qed.
End Sweep.
