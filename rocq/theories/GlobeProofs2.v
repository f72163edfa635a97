(** A meridional wind on the equator: the wave activity at opposite latitudes differs. *)
From Verif Require Import Base BaseFacts Spec SpecFacts Grid GridProofs Pipeline PipelineSpec RefStates RefStatesSpec RefStatesProofs FluxProofs Object ObjectSpec ObjectProofs ObjectProofs4
  Xarray XarraySpec GlobeSpec.
Open Scope R_scope.

(** four longitudes, latitudes 45 degrees apart, three levels; no zonal wind, uniform potential temperature, a meridional wind at one point of the equator *)
Definition eq_wind : field3 := fun _ j i => if Nat.eqb j 2 && Nat.eqb i 0 then 4 else 0.
Definition uniform_theta : field3 := fun l _ _ => 300 * exp (- (INR l / 7)).
Definition eq_args : qgargs :=
  {| w_nlon := 4; w_nlat := 5; w_nlev := 3; w_ylat := fun j => 45 * INR j - 90;
     w_plev := fun l => 1000 * exp (- INR l / 7); w_u := fun _ _ _ => 0; w_v := eq_wind; w_t := uniform_theta;
     w_kmax := 3; w_maxit := 10; w_dz := 1; w_npart := Some 2%nat; w_tol := 1; w_rjac := 1; w_H := 7; w_cp := 1; w_rr := 1; w_om := 1; w_a := 1;
     w_nh := false; w_evenly := true |}.
Definition eq_library : library :=
  {| lb_spline := fun m _ y _ => match m with O => 0 | _ => y O end; lb_dspline := fun m _ y _ => match m with O => 0 | _ => 1 + y O * y O end;
     lb_inverse := fun _ a => a; lb_mem1 := fun _ _ => 3; lb_mem2 := fun _ _ => 5 |}.
Lemma eq_data_only : data_only eq_library.
Proof. split; intros [|m] x y y' h H; try reflexivity; cbn; rewrite (H 0%nat) by lia; reflexivity. Qed.
Lemma eq_height l : data_height eq_args l = INR l.
Proof. unfold data_height, plev_to_height. cbn [eq_args w_H w_plev]. replace (1000 * exp (- INR l / 7) / 1000) with (exp (- INR l / 7)) by field. rewrite ln_exp. field. Qed.
Lemma eq_theta l j i : theta_data eq_args l j i = 300.
Proof.
  unfold theta_data. rewrite eq_height. cbn [eq_args w_t w_rr w_cp w_H]. unfold uniform_theta. rewrite Rmult_assoc, <- exp_plus.
  replace (- (INR l / 7) + 1 / 1 * INR l / 7) with 0 by field. rewrite exp_0. ring.
Qed.
Lemma eq_usable : usable NH18 eq_args.
Proof.
  unfold usable, balanced_latitudes. cbn [eq_args w_nlat w_ylat w_nlon w_nlev w_evenly w_npart w_kmax boundary].
  split; [split; [lia|]; split; [intros j Hj; rewrite S_INR; lra|]|split; [lia|]; split; [lia|]; split; [lia|lia]].
  right. split; [reflexivity|]. change (5 / 2)%nat with 2%nat. cbn [INR]. lra.
Qed.
Lemma eq_accepted : accepted_levels eq_args.
Proof. split; [cbn; lia|]. cbn. discriminate. Qed.

(** the reference PV of a row whose cap is larger than the cells at the minimum *)
Section Zero.
  Variables (P : rsdims R) (pv : arr3 R) (p : nat) (cc : R).
  Hypothesis Hlon : s_nlon P = 4%nat. Hypothesis Hlat : s_nlat P = 5%nat. Hypothesis Hk : s_kmax P = 3%nat. Hypothesis Hjd : s_jd P = 3%nat. Hypothesis Hnp : s_npart P = 2%nat.
  Hypothesis Ha : s_a P = 1. Hypothesis Hphi : s_dphi P = PI / 4. Hypothesis Hlam : s_dlambda P = PI / 2.
  Hypothesis Hc : 0 < cc.
  Hypothesis Pp : p = 2%nat \/ p = 4%nat.
  Hypothesis Low : pv p 3%nat 2%nat = - cc.
  Hypothesis High : pv (6 - p)%nat 3%nat 2%nat = cc.
  Hypothesis Rest : forall i j, (1 <= i <= 4)%nat -> (1 <= j <= 5)%nat -> (i, j) <> (p, 3%nat) -> - cc < pv i j 2%nat <= cc.
  Lemma zero_bin i j : (1 <= i <= 4)%nat -> (1 <= j <= 5)%nat -> Z.eqb (@bin R RNum RTrunc P pv 2 (i, j)) 2 = Nat.eqb i p && Nat.eqb j 3.
  Proof.
    intros Hi Hj.
    assert (HM : level_max P pv 2 cc).
    { split; [|exists (6 - p)%nat, 3%nat; split; [unfold grid_point; lia|exact High]]. intros i' j' (Gi & Gj). rewrite Hlon in Gi. rewrite Hlat in Gj.
      destruct (Nat.eq_dec i' p) as [->|]; [destruct (Nat.eq_dec j' 3) as [->|]|]; [rewrite Low; lra|apply Rest; [lia|lia|congruence]|apply Rest; [lia|lia|congruence]]. }
    assert (Hm : level_min P pv 2 (- cc)).
    { split; [|exists p, 3%nat; split; [unfold grid_point; lia|exact Low]]. intros i' j' (Gi & Gj). rewrite Hlon in Gi. rewrite Hlat in Gj.
      destruct (Nat.eq_dec i' p) as [->|]; [destruct (Nat.eq_dec j' 3) as [->|]|]; [rewrite Low; lra|apply Rlt_le, Rest; [lia|lia|congruence]|apply Rlt_le, Rest; [lia|lia|congruence]]. }
    assert (B := bin_iff P pv 2 cc (- cc) HM Hm ltac:(lra) ltac:(lia) i j 2 ltac:(unfold grid_point; lia) ltac:(lia)). change (Z.of_nat 2) with 2%Z in B. rewrite B. clear B.
    unfold RefStatesSpec.between, contour. rewrite Hnp. cbn [INR Nat.add].
    destruct (Nat.eqb_spec i p) as [->|Ni]; [destruct (Nat.eqb_spec j 3) as [->|Nj]|]; cbn [andb].
    - rewrite Low. destruct Rlt_dec; [|lra]. destruct Rle_dec; [reflexivity|lra].
    - assert (Q := Rest p j Hi Hj ltac:(congruence)). destruct Rlt_dec; [|reflexivity]. destruct Rle_dec; [lra|reflexivity].
    - assert (Q := Rest i j Hi Hj ltac:(congruence)). destruct Rlt_dec; [|reflexivity]. destruct Rle_dec; [lra|reflexivity].
  Qed.
  Lemma fold_ext {S T : Type} (f h : S -> T -> S) l : (forall x t, In t l -> f x t = h x t) -> forall x, fold_left f l x = fold_left h l x.
  Proof. induction l as [|t l IH]; intros E x; [reflexivity|]. cbn [fold_left]. rewrite (E x t) by (left; reflexivity). apply IH. intros; apply E; right; assumption. Qed.
  Lemma zero_an : @an R RNum RTrunc P pv 2 2 = PI * PI / 8.
  Proof.
    assert (D : @da R RNum P 3 = PI * PI / 8).
    { unfold da. rewrite Ha, Hphi, Hlam, nfloat_R, nhalf_half. cbn [nmul nadd nopp ncos npi RNum INR]. match goal with |- context [cos ?x] => replace x with 0 by lra end. rewrite cos_0. field. }
    unfold an. rewrite (fold_ext _ (fun x q => if Nat.eqb (fst q) p && Nat.eqb (snd q) 3 then x + @da R RNum P 3 else x)).
    2:{ intros x (i, j) Hin. apply in_cells in Hin. destruct Hin as (Gi & Gj). cbn [fst snd] in *. change (Z.of_nat 2) with 2%Z. rewrite zero_bin by lia.
        destruct (Nat.eqb_spec i p); [destruct (Nat.eqb_spec j 3) as [->|]|]; reflexivity. }
    rewrite D. unfold cells, do_, range. rewrite Hlat, Hlon. destruct Pp as [-> | ->]; cbv [Nat.add Nat.sub seq flat_map map app fold_left fst snd Nat.eqb andb nzero RNum]; ring.
  Qed.
  Lemma zero_qref : @rs_qref R RNum RTrunc P pv 2 2 = 0.
  Proof.
    unfold rs_qref. cbn [Nat.eqb andb]. unfold qref1. cbn [Nat.leb]. unfold qref0, RefStates.interior. rewrite Hk, Hjd. cbn [Nat.leb Nat.sub Nat.eqb andb].
    unfold at_row, range. rewrite Hnp. cbn [Nat.sub Nat.add seq fold_left]. unfold bracketed. cbn [Nat.add]. unfold aan at 2. cbn [cumulate].
    rewrite zero_an, alat_cap. unfold cap_area, lat. rewrite Ha, Hphi. cbn [nadd nzero nltb nleb ndiv RNum INR].
    replace (PI / 4 * (1 + 1 - 1)) with (PI / 4) by lra. rewrite sin_PI4.
    assert (Q : Rltb (2 * PI * 1² * (1 - 1 / sqrt 2)) (0 + PI * PI / 8) = false).
    { apply not_true_iff_false. rewrite Rltb_true. assert (P4 := PI_4). assert (P0 := PI_RGT_0).
      assert (S1 : 14 / 10 < sqrt 2) by (apply Rsqr_incrst_0; [rewrite Rsqr_sqrt by lra; unfold Rsqr; lra|lra|apply sqrt_pos]).
      assert (S2 : 1 / sqrt 2 < 75 / 100).
      { apply Rmult_lt_reg_r with (sqrt 2); [lra|]. unfold Rdiv at 1. rewrite Rmult_assoc, Rinv_l by lra. lra. }
      unfold Rsqr. nra. }
    rewrite Q, andb_false_r. unfold Rdiv. ring.
  Qed.
End Zero.

(** the vorticity of the state *)
Section Vorticity.
  Variables u v : arr3 R.
  Hypothesis U0 : forall i j, (1 <= i <= 4)%nat -> (1 <= j <= 5)%nat -> u i j 2%nat = 0.
  Hypothesis V0 : forall i j, (1 <= i <= 4)%nat -> (1 <= j <= 5)%nat -> v i j 2%nat = if Nat.eqb i 1 && Nat.eqb j 3 then 4 else 0.
  Definition planet (j : nat) : R := if Nat.eqb j 3 then 0 else if Nat.leb j 3 then - sqrt 2 else sqrt 2.
  Definition shear (i j : nat) : R := if Nat.eqb j 3 then if Nat.eqb i 2 then - (8 / PI) else if Nat.eqb i 4 then 8 / PI else 0 else 0.
  Lemma lat_value j : @lat_nh18 R RNum 5 j 1 = (INR j - 3) * (PI / 4).
  Proof. unfold lat_nh18. rewrite nfloat_R. cbn [nofZ nofnat nmul nadd ndiv npi RNum Nat.sub Z.of_nat Pos.of_succ_nat Pos.succ INR]. field. Qed.
  Lemma dphi_value : @dphi_q R RNum 5 = PI / 4.
  Proof. unfold dphi_q. cbn [nofZ nofnat ndiv npi RNum Nat.sub]. f_equal. Qed.
  Lemma sqrt2_half : 2 * (1 / sqrt 2) = sqrt 2.
  Proof. assert (S0 : 0 < sqrt 2) by (apply sqrt_lt_R0; lra). apply Rmult_eq_reg_r with (sqrt 2); [|lra]. rewrite sqrt_sqrt by lra. field. lra. Qed.
  Lemma vort_inside i j : (1 <= i <= 4)%nat -> (2 <= j <= 4)%nat -> @avort_interior R RNum 4 5 1 1 (lat_nh18 5) u v i j 2 = planet j + shear i j.
  Proof.
    intros Hi Hj. unfold avort_interior. rewrite dphi_value, lat_value.
    assert (W : (1 <= east 4 i <= 4)%nat /\ (1 <= west 4 i <= 4)%nat).
    { assert (i = 1 \/ i = 2 \/ i = 3 \/ i = 4)%nat as [-> | [-> | [-> | ->]]] by lia; cbn; lia. }
    rewrite (U0 i (j + 1)), (U0 i (j - 1)), (V0 (east 4 i) j), (V0 (west 4 i) j) by lia. clear W.
    cbn [nofZ nmul nadd nsub ndiv nopp nsin ncos RNum]. set (y3 := cos (lat_nh18 5 j 0)). set (y4 := cos (lat_nh18 5 j 2)). clearbody y3 y4.
    replace (0 * y3 - 0 * y4) with 0 by ring. match goal with |- _ + _ + - 0 / ?d = _ => replace (- 0 / d) with 0 by (unfold Rdiv; ring) end. rewrite Rplus_0_r. assert (P0 := PI_RGT_0).
    assert (j = 2 \/ j = 3 \/ j = 4)%nat as [-> | [-> | ->]] by lia; unfold planet, shear; cbn [Nat.eqb Nat.leb andb INR]; rewrite ?andb_false_r, ?andb_true_r.
    - replace ((1 + 1 - 3) * (PI / 4)) with (- (PI / 4)) by lra. rewrite sin_neg, sin_PI4. replace (2 * 1 * - (1 / sqrt 2)) with (- (2 * (1 / sqrt 2))) by ring. rewrite sqrt2_half. unfold Rdiv. ring.
    - replace ((1 + 1 + 1 - 3) * (PI / 4)) with 0 by lra. rewrite sin_0, cos_0.
      assert (i = 1 \/ i = 2 \/ i = 3 \/ i = 4)%nat as [-> | [-> | [-> | ->]]] by lia; cbn [east west Nat.eqb Nat.add Nat.sub]; field; lra.
    - replace ((1 + 1 + 1 + 1 - 3) * (PI / 4)) with (PI / 4) by lra. rewrite sin_PI4. replace (2 * 1 * (1 / sqrt 2)) with (2 * (1 / sqrt 2)) by ring. rewrite sqrt2_half. unfold Rdiv. ring.
  Qed.
  Lemma vort i j : (1 <= i <= 4)%nat -> (1 <= j <= 5)%nat -> @avort R RNum 4 5 1 1 (lat_nh18 5) u v i j 2 = planet j + shear i j.
  Proof.
    intros Hi Hj. unfold avort. destruct (Nat.eqb_spec j 5) as [->|]; [|destruct (Nat.eqb_spec j 1) as [->|]; [|apply vort_inside; lia]].
    - unfold loop, range. cbn [Nat.sub Nat.add seq fold_left]. rewrite !vort_inside by lia. unfold planet, shear. rewrite nofnat_INR; cbn [INR Nat.eqb Nat.leb nzero nadd ndiv RNum Z.of_nat Pos.of_succ_nat Pos.succ]. field.
    - unfold loop, range. cbn [Nat.sub Nat.add seq fold_left]. rewrite !vort_inside by lia. unfold planet, shear. rewrite nofnat_INR; cbn [INR Nat.eqb Nat.leb nzero nadd ndiv RNum Z.of_nat Pos.of_succ_nat Pos.succ]. field.
  Qed.
End Vorticity.

Section State.
  Variable g : grid.
  Hypothesis Hg : grid_of eq_args = Done g.
  Local Notation o := (object_of NH18 eq_args g).
  Local Notation c := (ob_conf o).
  Local Notation f := (interpolated eq_args o).
  Local Notation av := (domain eq_library NH18 eq_args o).
  Lemma eq_c : p_nlon c = 4%nat /\ p_nlat c = 5%nat /\ p_kmax c = 3%nat /\ p_eq c = 3%nat /\ p_jb c = 0%nat /\ p_jd c = 3%nat /\ p_nh c = false /\
    p_dphi c = PI / 4 /\ p_dlambda c = PI / 2 /\ g_npart g = 2%nat /\ p_a c = 1 /\ p_om c = 1.
  Proof.
    destruct (conf_facts NH18 eq_args g eq_usable Hg) as (C1 & C2 & C3 & C4 & C5 & C6 & C7).
    destruct (grid_inv eq_args g Hg) as (_ & _ & _ & _ & G1 & _ & G2 & G3 & _). destruct (lat_facts NH18 eq_args g eq_usable Hg) as (_ & L1 & _).
    repeat split; try assumption.
    - cbn [object_of ob_conf conf_of p_dphi]. rewrite G2, L1. change (analysis_rows eq_args - 1)%nat with 4%nat. cbn [INR]. field.
    - cbn [object_of ob_conf conf_of p_dlambda]. rewrite G3. cbn [eq_args w_nlon INR]. field.
  Qed.
  Lemma eq_f : u_ f = stored (fun _ _ _ => 0) /\ v_ f = stored eq_wind /\ forall i j k, theta_ f i j k = 300.
  Proof.
    unfold interpolated. cbn [u_ v_ theta_ object_of ob_u ob_v ob_theta]. rewrite !(to_analysis_odd NH18 eq_args g eq_usable Hg eq_refl).
    split; [reflexivity|]. split; [reflexivity|]. intros. apply eq_theta.
  Qed.
  Lemma eq_clat j : (j <= 4)%nat -> p_clat c j = Rabs (cos (PI / 4 * (INR j - 2))).
  Proof.
    intros _. cbn [object_of ob_conf conf_of p_clat]. destruct (lat_facts NH18 eq_args g eq_usable Hg) as (_ & _ & _ & _ & L4). rewrite (L4 eq_refl). cbn [eq_args w_ylat].
    f_equal. f_equal. unfold deg2rad. cbn [nmul ndiv npi nofZ RNum]. field.
  Qed.
  Lemma eq_mean (x : nat -> nat -> R) : (forall j i, x j i = 300) -> t0_south c x = 300 /\ t0_north c x = 300.
  Proof.
    intros X. destruct eq_c as (C1 & C2 & _ & _ & _ & C6 & _). unfold t0_south, t0_north, csm. rewrite C1, C2, C6. cbn [nsum Nat.sub Nat.add]. rewrite !X, !eq_clat by lia. cbn [INR].
    replace (PI / 4 * (1 + 1 - 2)) with 0 by lra. replace (PI / 4 * (1 + 1 + 1 + 1 - 2)) with (- (PI / 4 * (0 - 2))) by lra. replace (PI / 4 * (1 + 1 + 1 - 2)) with (- (PI / 4 * (1 - 2))) by lra.
    rewrite !cos_neg, cos_0, Rabs_R1. assert (Q1 := Rabs_pos (cos (PI / 4 * (0 - 2)))). assert (Q2 := Rabs_pos (cos (PI / 4 * (1 - 2)))).
    set (a := Rabs (cos (PI / 4 * (0 - 2)))) in *. set (b := Rabs (cos (PI / 4 * (1 - 2)))) in *. clearbody a b.
    rewrite nofnat_INR. cbn [INR nadd nzero nmul ndiv RNum]. split; field; lra.
  Qed.
  Lemma eq_t0 l : tn0 av l = 300.
  Proof.
    unfold domain, domain_nh18, averages_nh18. cbn [tn0 eq_library lb_spline eq_args w_nlev object_of ob_conf ob_theta].
    rewrite !(to_analysis_odd NH18 eq_args g eq_usable Hg eq_refl). destruct (eq_mean (theta_data eq_args 0%nat)) as (E1 & E2); [intros; apply eq_theta|].
    cbn [object_of ob_conf] in E1, E2. rewrite E1, E2, nhalf_half. cbn [nmul nadd RNum]. lra.
  Qed.
  Lemma eq_clip x i j : (1 <= i <= 4)%nat -> (1 <= j <= 5)%nat -> forall k, (1 <= k <= 3)%nat -> clip3 c x i j k = x i j k.
  Proof.
    intros Hi Hj k Hk. destruct eq_c as (C1 & C2 & C3 & _). unfold clip3. rewrite C1, C2, C3.
    destruct (Nat.leb_spec 1 i), (Nat.leb_spec i 4), (Nat.leb_spec 1 j), (Nat.leb_spec j 5), (Nat.leb_spec 1 k), (Nat.leb_spec k 3); try lia; reflexivity.
  Qed.
  Lemma eq_pv i j : (1 <= i <= 4)%nat -> (1 <= j <= 5)%nat -> pv_nh18 c f av i j 2%nat = planet j + shear i j.
  Proof.
    intros Hi Hj. destruct eq_c as (C1 & C2 & C3 & _ & _ & _ & _ & _ & _ & _ & C11 & C12). destruct eq_f as (F1 & F2 & F3).
    unfold pv_nh18, qgpv_nh18. rewrite C1, C2, C3, C11, C12. cbn [Nat.leb Nat.sub andb]. rewrite vort.
    - unfold stretch. rewrite !eq_clip by lia. rewrite !F3. unfold one_based. rewrite !eq_t0. cbn [nsub nmul ndiv nadd RNum]. unfold Rdiv. ring.
    - intros i' j' Hi' Hj'. rewrite eq_clip by lia. rewrite F1. reflexivity.
    - intros i' j' Hi' Hj'. rewrite eq_clip by lia. rewrite F2. unfold stored, eq_wind. rewrite andb_comm.
      replace (Nat.eqb (i' - 1) 0) with (Nat.eqb i' 1) by (destruct (Nat.eqb_spec i' 1), (Nat.eqb_spec (i' - 1) 0); lia || reflexivity).
      replace (Nat.eqb (j' - 1) 2) with (Nat.eqb j' 3) by (destruct (Nat.eqb_spec j' 3), (Nat.eqb_spec (j' - 1) 2); lia || reflexivity). reflexivity.
    - exact Hi.
    - exact Hj.
  Qed.
  Definition eq_dims : rsdims R := nh18_dims c (g_npart g) 10 1 1.
  Lemma eq_bounds : 0 < sqrt 2 < 3 / 2 /\ 2 <= 8 / PI.
  Proof.
    split; [split; [apply sqrt_lt_R0; lra|]|].
    - apply Rsqr_incrst_0; [rewrite Rsqr_sqrt by lra; unfold Rsqr; lra|apply sqrt_pos|lra].
    - assert (P4 := PI_4). assert (P0 := PI_RGT_0). apply Rmult_le_reg_r with PI; [lra|]. unfold Rdiv. rewrite Rmult_assoc, Rinv_l by lra. lra.
  Qed.
  Lemma eq_qref pv p : (p = 2%nat \/ p = 4%nat) -> (forall i j, (1 <= i <= 4)%nat -> (1 <= j <= 5)%nat ->
      pv i j 2%nat = if Nat.eqb j 3 then if Nat.eqb i p then - (8 / PI) else if Nat.eqb i (6 - p) then 8 / PI else 0 else planet j) ->
    @rs_qref R RNum RTrunc eq_dims pv 2 2 = 0.
  Proof.
    intros Hp V. destruct eq_c as (C1 & C2 & C3 & C4 & _ & _ & _ & C8 & C9 & C10 & C11 & _). destruct eq_bounds as (B1 & B2).
    apply (zero_qref eq_dims pv p (8 / PI)); try assumption; try lra.
    - rewrite V by lia. rewrite !Nat.eqb_refl. reflexivity.
    - rewrite V by lia. rewrite !Nat.eqb_refl. destruct (Nat.eqb_spec (6 - p) p); [lia|reflexivity].
    - intros i j Hi Hj Ne. rewrite V by lia. unfold planet. destruct (Nat.eqb_spec j 3) as [->|].
      + destruct (Nat.eqb_spec i p) as [->|]; [congruence|]. destruct (Nat.eqb i (6 - p)); lra.
      + destruct (Nat.leb j 3); lra.
  Qed.
  Lemma eq_shear i j : planet j + shear i j = if Nat.eqb j 3 then if Nat.eqb i 2 then - (8 / PI) else if Nat.eqb i 4 then 8 / PI else 0 else planet j.
  Proof. unfold planet, shear. destruct (Nat.eqb j 3); [|lra]. destruct (Nat.eqb i 2), (Nat.eqb i 4); lra. Qed.
  Local Notation pv := (pv_nh18 c f av).
  Lemma north_pv i j : (1 <= i <= 4)%nat -> (1 <= j <= 5)%nat -> clip3 c pv i j 2%nat = if Nat.eqb j 3 then if Nat.eqb i 2 then - (8 / PI) else if Nat.eqb i 4 then 8 / PI else 0 else planet j.
  Proof. intros Hi Hj. rewrite eq_clip, eq_pv by lia. apply eq_shear. Qed.
  Lemma south_pv i j : (1 <= i <= 4)%nat -> (1 <= j <= 5)%nat ->
    clip3 c (neg3 (flip3 c pv)) i j 2%nat = if Nat.eqb j 3 then if Nat.eqb i 4 then - (8 / PI) else if Nat.eqb i 2 then 8 / PI else 0 else planet j.
  Proof.
    intros Hi Hj. rewrite eq_clip by lia. unfold neg3, flip3. destruct eq_c as (_ & C2 & _). rewrite C2, eq_pv, eq_shear by lia. cbn [nopp RNum]. unfold planet.
    assert (j = 1 \/ j = 2 \/ j = 3 \/ j = 4 \/ j = 5)%nat as [-> | [-> | [-> | [-> | ->]]]] by lia; cbn [Nat.sub Nat.add Nat.eqb Nat.leb]; try lra.
    destruct (Nat.eqb_spec i 2), (Nat.eqb_spec i 4); try lia; lra.
  Qed.
  (** the activity of one hemisphere at the second longitude, 45 degrees *)
  Lemma eq_activity pvx (q : arr2 R) s : q 2%nat 2%nat = 0 -> pvx 2%nat 3%nat 2%nat = s -> pvx 2%nat 4%nat 2%nat = sqrt 2 -> pvx 2%nat 5%nat 2%nat = sqrt 2 ->
    astar1 (dims c) pvx q 2%nat 2%nat 2%nat + astar2 (dims c) pvx q 2%nat 2%nat 2%nat = if Rlt_dec 0 s then s * (PI / 4) else 0.
  Proof.
    intros Q P3 P4 P5. destruct eq_c as (C1 & C2 & C3 & C4 & C5 & C6 & _ & _ & _ & _ & C11 & _). destruct eq_bounds as (B1 & _).
    assert (A1 : @Flux.aa R RNum (dims c) 1 = PI / 4).
    { unfold Flux.aa, Flux.lat_of, Flux.dp. cbn [dims f_a is_nhem jmax]. rewrite C2, C11, nfloat_R, nofnat_INR. cbn [Nat.sub INR npi nmul ndiv ncos RNum].
      match goal with |- context [cos ?x] => replace x with 0 by lra end. rewrite cos_0. field. }
    assert (An : @analysed R (dims c) 2 2 = true).
    { unfold analysed, jstart, jend. cbn [dims is_nhem kmax jb Flux.nd]. rewrite C3, C4, C5. reflexivity. }
    unfold astar1, astar2. cbn [dims is_nhem]. unfold fill. rewrite An. unfold sum_above, sum_below. cbn [dims Flux.nd]. rewrite C4. unfold loop, range. cbn [Nat.sub Nat.add seq fold_left].
    unfold Flux.above, Flux.below, Flux.qe, Flux.grow. cbn [dims is_nhem Flux.nd]. rewrite C4, Q. cbn [Nat.add Nat.sub Nat.leb Nat.ltb]. rewrite P3, P4, P5, ?andb_false_r, ?andb_true_r.
    cbn [nsub nadd nmul nzero RNum nltb nleb]. fold (dims c). rewrite A1.
    assert (L : Rleb (sqrt 2 - 0) 0 = false) by (unfold Rleb; destruct Rle_dec; [lra|reflexivity]). rewrite L.
    unfold Rltb. destruct (Rlt_dec 0 (s - 0)), (Rlt_dec 0 s); lra.
  Qed.
  Local Notation st := (analyse eq_library NH18 eq_args o (fun _ _ _ => 0)).
  Lemma eq_refs : qref_ (s_refs st) 4%nat 2%nat = 0 /\ qref_ (s_refs st) 2%nat 2%nat = 0.
  Proof.
    destruct eq_c as (_ & C2 & _ & C4 & _ & _ & C7 & _). cbn [analyse s_refs]. unfold refs_nh18. rewrite C7. cbn [store_south store_north qref_ nh18_solver].
    unfold set_shem, set_nhem, rows. rewrite C7, C2, C4. cbn [Nat.leb Nat.sub Nat.add].
    split; [apply (eq_qref _ 2); [left; reflexivity|exact north_pv]|apply (eq_qref _ 4); [right; reflexivity|exact south_pv]].
  Qed.
  Lemma eq_lwa : b_lwa3 (s_baro st) 2%nat 4%nat 2%nat = 0 /\ b_lwa3 (s_baro st) 2%nat 2%nat 2%nat = 2.
  Proof.
    destruct eq_c as (_ & C2 & C3 & C4 & _ & _ & C7 & _). destruct eq_refs as (R1 & R2). destruct eq_bounds as (_ & B2). assert (P0 := PI_RGT_0).
    cbn [analyse s_baro s_refs] in *. set (r := refs_nh18 c _ _ _ _) in *. clearbody r. cbn [barotropic_terms b_lwa3]. unfold global3, set_shem, set_nhem, rows. rewrite C7, C2, C4. cbn [Nat.leb Nat.sub Nat.add].
    unfold k_astar1, k_astar2. cbn [north_args south_args i_pv i_qref nadd RNum].
    rewrite (eq_activity _ _ (- (8 / PI))); [rewrite (eq_activity _ _ (8 / PI))| | | |].
    - destruct (Rlt_dec 0 (- (8 / PI))); [lra|]. destruct (Rlt_dec 0 (8 / PI)); [|lra]. cbn [nabs RNum]. rewrite Rabs_R0. split; [reflexivity|].
      replace (8 / PI * (PI / 4)) with 2 by (field; lra). apply Rabs_pos_eq. lra.
    - unfold clip2. rewrite C4, C3. cbn [Nat.leb andb]. unfold neg2, first_rows_rev, qref_correct_unit. cbn [Nat.add Nat.sub]. rewrite R2. cbn [nopp nmul RNum]. ring.
    - rewrite south_pv by lia. reflexivity.
    - rewrite south_pv by lia. reflexivity.
    - rewrite south_pv by lia. reflexivity.
    - unfold clip2. rewrite C4, C3. cbn [Nat.leb andb]. unfold last_rows, qref_correct_unit, rows. rewrite C7, C2. cbn [Nat.add Nat.sub]. rewrite R1. cbn [nmul RNum]. ring.
    - rewrite north_pv by lia. reflexivity.
    - rewrite north_pv by lia. reflexivity.
    - rewrite north_pv by lia. reflexivity.
  Qed.
End State.

Lemma eq_differs : exists x, session eq_library NH18 eq_args (fun _ _ _ => 0) = Done x /\ ~ same_activity eq_args x.
Proof.
  destruct (proj1 (grid_exists NH18 eq_args eq_usable) eq_accepted) as [g Hg].
  destruct (session_global eq_library NH18 eq_args (fun _ _ _ => 0) g eq_usable Hg eq_refl) as (E & _). eexists. split; [exact E|]. clear E.
  intros (A & _). unfold gives in A. cbn [read out_lwa] in A. rewrite (field_odd NH18 eq_args g eq_usable Hg _ _ eq_refl) in A.
  assert (Q := A 1%nat 3%nat 1%nat). cbn [eq_args w_nlat w_nlon result_levels w_evenly w_nlev Nat.sub Nat.add] in Q.
  destruct (eq_lwa g Hg) as (L1 & L2). specialize (Q ltac:(lia) ltac:(lia) ltac:(lia)). rewrite L1, L2 in Q. lra.
Qed.
