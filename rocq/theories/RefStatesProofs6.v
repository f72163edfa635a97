(** Proofs about the reference state solver: the area enclosed by the reported contour, and a small grid on which
    the solver can be run by hand. *)
From Verif Require Import Base BaseFacts Spec SpecFacts Flux FluxSpec FluxProofs RefStates RefStatesSpec RefStatesProofs RefStatesProofs2 RefStatesProofs3 RefStatesProofs4 RefStatesProofs5.
From Coq Require Import FunctionalExtensionality ZifyNat.
Ltac Zify.zify_post_hook ::= Z.to_euclidean_division_equations.
Open Scope R_scope.

Section Match.
  Variable P : rsdims R.
  Hypothesis G : pole_to_pole P.
  Hypothesis Ha : 0 < s_a P.
  Hypothesis Hom : 0 < s_om P.
  Variable pv : arr3 R.
  Variables (k : nat) (M m : R).
  Hypothesis Hk : (2 <= k <= s_kmax P - 1)%nat.
  Hypothesis HM : level_max P pv k M.
  Hypothesis Hm : level_min P pv k m.
  Hypothesis Hmm : m < M.
  Let Np : (2 <= s_npart P)%nat. Proof. exact (proj1 (proj2 (proj2 (proj2 (proj2 G))))). Qed.
  Let Cp := cell_area_nonneg P G Ha.

  Lemma aan_last : @aan R RNum RTrunc P pv k (s_npart P) = area_of P pv k (at_most (contour P M m 2)).
  Proof.
    clear Cp Hk Ha Hom. rewrite (aan_area P pv k M m HM Hm Hmm Np) by lia. unfold area_of. apply Sum_ext. intros j Hj. apply Sum_ext. intros i Hi.
    assert (X := proj1 Hm i j ltac:(unfold grid_point; lia)). assert (Y := step_pos P M m Hmm Np).
    assert (Z : contour P M m (s_npart P + 1) < m). { replace (s_npart P + 1)%nat with (S (s_npart P)) by lia. rewrite contour_S, (contour_last P M m Np). lra. }
    unfold between, at_most. destruct (Rlt_dec (contour P M m (s_npart P + 1)) (pv i j k)); [reflexivity|lra].
  Qed.

  Lemma area_above_mono q1 q2 : q1 <= q2 -> area_of P pv k (above q2) <= area_of P pv k (above q1).
  Proof.
    intros L. unfold area_of. apply Sum_le. intros j Hj. apply Sum_le. intros i Hi. assert (X := Cp j ltac:(lia)). unfold above.
    destruct (Rlt_dec q2 (pv i j k)), (Rlt_dec q1 (pv i j k)); lra.
  Qed.
  Lemma aan_error1 : @aan R RNum RTrunc P pv k 1 = 0 /\ area_of P pv k (above (contour P M m 1)) = 0.
  Proof.
    split; [reflexivity|]. rewrite (area_above_between P pv k M HM Np), (contour_1 P M m). apply (area_empty P pv k).
  Qed.
  Let B (nn : nat) := area_of P pv k (between (contour P M m (nn + 1)) (contour P M m nn)).
  Lemma enclosed nn : (1 <= nn)%nat -> area_of P pv k (above (contour P M m nn)) = @aan R RNum RTrunc P pv k nn - B nn + B 1.
  Proof.
    intros Hn. destruct (Nat.eq_dec nn 1) as [->|N1]; [destruct aan_error1 as [-> ->]; ring|].
    assert (X := aan_error P pv k M m HM Hm Hmm Np nn ltac:(lia)). unfold B. cbn [Nat.add]. lra.
  Qed.
  Lemma area_match j b : (2 <= j <= s_jd P - 1)%nat -> cap_area P j < @aan R RNum RTrunc P pv k (s_npart P) ->
    (forall nn, (1 <= nn <= s_npart P)%nat -> B nn <= b) ->
    - (2 * b) <= area_of P pv k (above (Qphys P pv k j)) - cap_area P j <= b.
  Proof.
    intros Hj Hf Hb. destruct (found_bracket P G pv k Hk j ltac:(lia) Hf) as (nn & Hn & Br).
    assert (W := weight_range P pv k j nn Br). assert (Bt := Br). apply bracket_true in Bt.
    assert (Q : Qphys P pv k j = contour P M m nn * (1 - weight P pv k j nn) + contour P M m (nn + 1) * weight P pv k j nn).
    { unfold Qphys. rewrite (rs_qref_value P G Hom pv j k) by lia. destruct (Nat.eqb_spec j (s_jd P)); [lia|].
      rewrite (at_row_bracketed P pv k M m HM Hm Hmm Np Cp j nn) by assumption. rewrite !(qn_contour P pv k M m HM Hm). reflexivity. }
    assert (St := step_pos P M m Hmm Np). assert (C := contour_S P M m nn). replace (S nn) with (nn + 1)%nat in C by lia.
    set (w := weight P pv k j nn) in *. set (c1 := contour P M m nn) in *. set (c2 := contour P M m (nn + 1)) in *. set (d := (M - m) / (INR (s_npart P) - 1)) in *.
    assert (L1 : c2 <= Qphys P pv k j <= c1) by (rewrite Q, C; split; nra).
    assert (A1 := area_above_mono c2 _ (proj1 L1)). assert (A2 := area_above_mono _ c1 (proj2 L1)).
    unfold c1 in A2. rewrite (enclosed nn) in A2 by lia. unfold c2 in A1. rewrite (enclosed (nn + 1)) in A1 by lia.
    assert (Sn := aan_S P pv k Np nn ltac:(lia)). rewrite (an_area P pv k M m HM Hm Hmm Np (S nn)) in Sn by lia. replace (S nn) with (nn + 1)%nat in Sn by lia.
    fold (B (nn + 1)) in Sn. assert (X1 := Hb 1%nat ltac:(lia)). assert (X2 := Hb nn ltac:(lia)). assert (X3 := Hb (nn + 1)%nat ltac:(lia)).
    assert (P1 : 0 <= B 1) by (apply area_nonneg; [exact Np|exact Cp]). lra.
  Qed.

  Lemma circulation_split q1 q2 q3 : q1 <= q2 <= q3 ->
    circulation_of P pv k (between q1 q3) = circulation_of P pv k (between q1 q2) + circulation_of P pv k (between q2 q3).
  Proof.
    intros Hq. unfold circulation_of. rewrite <- Sum_plus. apply Sum_ext. intros j _. rewrite <- Sum_plus. apply Sum_ext. intros i _. unfold between.
    destruct (Rlt_dec q1 (pv i j k)), (Rle_dec (pv i j k) q3), (Rle_dec (pv i j k) q2), (Rlt_dec q2 (pv i j k)); lra.
  Qed.
  Lemma ccn_circulation nn : (1 <= nn)%nat -> @ccn R RNum RTrunc P pv k nn = circulation_of P pv k (between (contour P M m (nn + 1)) (contour P M m 2)).
  Proof.
    intros Hn. unfold ccn. destruct nn as [|nn]; [lia|]. clear Hn. induction nn as [|nn IH].
    - cbn [cumulate Nat.add]. unfold circulation_of. symmetry. apply Sum_zero. intros j _. apply Sum_zero. intros i _. unfold between.
      destruct (Rlt_dec (contour P M m 2) (pv i j k)), (Rle_dec (pv i j k) (contour P M m 2)); lra.
    - change (cumulate (cn P pv k) (S (S nn))) with (cumulate (cn P pv k) (S nn) + cn P pv k (S (S nn))). rewrite IH, (cn_circulation P pv k M m HM Hm Hmm Np) by lia.
      rewrite (circulation_split (contour P M m (S (S nn) + 1)) (contour P M m (S (S nn))) (contour P M m 2)).
      + replace (S nn + 1)%nat with (S (S nn)) by lia. cbn [nadd RNum]. ring.
      + assert (Hs := step_pos P M m Hmm Np). replace (S (S nn) + 1)%nat with (S (S (S nn))) by lia. rewrite (contour_S P M m (S (S nn))). split; [lra|].
        unfold contour. apply Rplus_le_compat_l, Ropp_le_contravar, Rmult_le_compat_r; [lra|].
        apply Rplus_le_compat_r, le_INR. lia.
  Qed.
  Lemma cbar_from_sum n : (n <= s_jd P - 1)%nat -> @cbar_from R RNum P pv k n =
    Sum (s_jd P - n) (s_jd P) (fun j => (zonal P pv j k + zonal P pv (j + 1) k) / 2 * (2 * PI * (s_a P)² * s_dphi P * cos (lat P j + s_dphi P / 2))).
  Proof.
    induction n as [|n IH]; intros Hn; [rewrite Sum_empty by lia; reflexivity|]. cbn [cbar_from]. rewrite IH by lia.
    rewrite (Sum_S_l (s_jd P - S n)) by lia. replace (S (s_jd P - S n)) with (s_jd P - n)%nat by lia. unfold qbar. rewrite !zonal_mean_R, nhalf_half, nofnat_INR.
    cbn [nadd nsub nmul nofZ npi ncos RNum]. replace (s_dphi P * (INR (s_jd P - S n) - 1 / 2)) with (lat P (s_jd P - S n) + s_dphi P / 2) by (unfold lat; field). unfold Rsqr. field.
  Qed.
  Lemma equator_value uu g1 g2 : cap_area P 1 < area_of P pv k (at_most (contour P M m 2)) ->
    exists nn t, (1 <= nn <= s_npart P - 1)%nat /\ 0 <= t < 1 /\
      let area n := area_of P pv k (between (contour P M m (n + 1)) (contour P M m 2)) in
      let circulation n := circulation_of P pv k (between (contour P M m (n + 1)) (contour P M m 2)) in
      area nn * (1 - t) + area (nn + 1)%nat * t = cap_area P 1 /\
      @u_equator R RNum RTrunc P pv uu g1 g2 k =
        zonal P uu 1 k + (circulation nn * (1 - t) + circulation (nn + 1)%nat * t
                          - Sum 1 (s_jd P) (fun j => (zonal P pv j k + zonal P pv (j + 1) k) / 2 * (2 * PI * (s_a P)² * s_dphi P * cos (lat P j + s_dphi P / 2))))
                         / (2 * PI * s_a P).
  Proof.
    intros Hf. rewrite <- aan_last in Hf. assert (J3 := proj1 G).
    destruct (bracket_exists P pv k Np 1) as (nn & Hn & Hb); [split; [apply cap_area_pos; auto; lia|exact Hf]|].
    assert (W := weight_range P pv k 1 nn Hb). exists nn, (weight P pv k 1 nn). split; [exact Hn|]. split; [exact W|]. cbv zeta beta. rewrite <- !(aan_area P pv k M m HM Hm Hmm Np) by lia.
    apply bracket_true in Hb as Hb'. split.
    - unfold weight. field. lra.
    - unfold u_equator, ubar. rewrite zonal_mean_R. cbn [nadd nsub nmul ndiv nofZ npi RNum]. f_equal. f_equal.
      rewrite <- !ccn_circulation by lia. unfold cref, cbar. rewrite interior_true by exact Hk. destruct (Nat.ltb_spec 1 (s_jd P)); [|lia]. cbn [andb].
      rewrite (at_row_bracketed P pv k M m HM Hm Hmm Np Cp 1 nn) by assumption. rewrite cbar_from_sum by lia. replace (s_jd P - (s_jd P - 1))%nat with 1%nat by lia. reflexivity.
  Qed.
End Match.

(** ** three rows, three levels *)
Definition tiny (eps : R) (maxits : nat) : rsdims R :=
  {| s_nlon := 1; s_nlat := 5; s_kmax := 3; s_jd := 3; s_npart := 2; s_maxits := maxits; s_a := 1; s_om := 1; s_dz := 1; s_eps := eps; s_h := 1;
     s_dphi := PI / 4; s_dlambda := 2 * PI; s_r := 1; s_cp := 2; s_rjac := 19 / 20 |}.
Definition one_level : nat -> R := fun _ => 1.
Definition pv_pole : arr3 R := fun _ j _ => if Nat.eqb j 5 then 1 else 0.
Definition pv_hole : arr3 R := fun _ j _ => if Nat.eqb j 5 then 1 else 2.
Definition zero3 : arr3 R := fun _ _ _ => 0.

Lemma tiny_grid eps n : pole_to_pole (tiny eps n).
Proof. repeat split; cbn; try lia; field. Qed.
Lemma tiny_physical eps n : physical (tiny eps n) one_level.
Proof. repeat split; cbn; try lra. intros k _. unfold one_level. lra. Qed.

Section Tiny.
  Variable eps : R.
  Variable maxits : nat.
  Let P := tiny eps maxits.
  Let G : pole_to_pole P := tiny_grid eps maxits.
  Let H : physical P one_level := tiny_physical eps maxits.
  Let s := sin (PI / 4).
  Lemma s_facts : 0 < s /\ s * s = 1 / 2 /\ cos (PI / 4) = s.
  Proof.
    assert (S := sin2_cos2 (PI / 4)). unfold Rsqr in S. assert (C : cos (PI / 4) = s) by (unfold s; rewrite cos_PI4, sin_PI4; reflexivity).
    rewrite C in S. fold s in S. assert (0 < s) by (apply sin_gt_0; assert (X := PI_RGT_0); lra). split; [assumption|split; [lra|exact C]].
  Qed.
  Lemma lat_1 : lat P 1 = 0. Proof. unfold lat, P, tiny. cbn [s_dphi INR]. ring. Qed.
  Lemma lat_2 : lat P 2 = PI / 4. Proof. unfold lat, P, tiny. cbn [s_dphi INR]. field. Qed.
  Lemma lat_3 : lat P 3 = PI / 2. Proof. unfold lat, P, tiny. cbn [s_dphi INR]. field. Qed.
  Lemma sum_one (f : nat -> R) n : Sum n (n + 1) f = f n.
  Proof. replace (n + 1)%nat with (S n) by lia. rewrite Sum_S_r, Sum_empty by lia. ring. Qed.
  Lemma norm_one x n : norm_colour P n x = if colour n 2 2 then Rabs (x 2%nat 2%nat) else 0.
  Proof. unfold norm_colour. change (s_jd P) with (2 + 1)%nat. change (s_kmax P) with (2 + 1)%nat. rewrite !sum_one. reflexivity. Qed.
  Lemma norm_all_one x : norm_all P x = Rabs (x 2%nat 2%nat).
  Proof. unfold norm_all. change (s_jd P) with (2 + 1)%nat. change (s_kmax P) with (2 + 1)%nat. rewrite !sum_one. reflexivity. Qed.
  Lemma inside_22 : inside P 2 2. Proof. unfold inside. cbn. lia. Qed.
  Lemma tiny_cells j : (1 <= j <= 5)%nat -> cell_area P j = PI * PI / 2 * match j with 1 => 0 | 2 => s | 3 => 1 | 4 => s | 5 => 0 | _ => 0 end.
  Proof.
    intros Hj. unfold cell_area, global_lat, lat. destruct s_facts as (_ & _ & C). unfold P, tiny. cbn [s_a s_dphi s_dlambda]. unfold Rsqr.
    assert (X : cos (PI / 4 * (INR j - 1) - PI / 2) = match j with 1 => 0 | 2 => s | 3 => 1 | 4 => s | 5 => 0 | _ => 0 end).
    { rewrite cos_minus, cos_PI2, sin_PI2.
      destruct j as [|[|[|[|[|[|]]]]]]; try lia; cbn [INR].
      - replace (PI / 4 * (1 - 1)) with 0 by ring. rewrite sin_0. ring.
      - replace (PI / 4 * (1 + 1 - 1)) with (PI / 4) by field. fold s. ring.
      - replace (PI / 4 * (1 + 1 + 1 - 1)) with (PI / 2) by field. rewrite sin_PI2. ring.
      - replace (PI / 4 * (1 + 1 + 1 + 1 - 1)) with (PI / 4 + PI / 2) by field. rewrite sin_plus, cos_PI2, sin_PI2, C. ring.
      - replace (PI / 4 * (1 + 1 + 1 + 1 + 1 - 1)) with PI by field. rewrite sin_PI. ring. }
    rewrite X. field.
  Qed.
  Lemma tiny_area x k S : area_of P x k S = PI * PI / 2 * ((if S (x 1 2 k)%nat then s else 0) + (if S (x 1 3 k)%nat then 1 else 0) + (if S (x 1 4 k)%nat then s else 0)).
  Proof.
    unfold area_of. change (s_nlon P + 1)%nat with (1 + 1)%nat. change (s_nlat P + 1)%nat with 6%nat.
    rewrite (Sum_ext 1 6 _ (fun j => if S (x 1%nat j k) then cell_area P j else 0)) by (intros; apply sum_one).
    rewrite !Sum_S_r by lia. rewrite Sum_empty by lia. rewrite !tiny_cells by lia. destruct (S (x 1%nat 1%nat k)), (S (x 1%nat 2%nat k)), (S (x 1%nat 3%nat k)), (S (x 1%nat 4%nat k)), (S (x 1%nat 5%nat k)); field.
  Qed.
  Lemma cap_1 : cap_area P 1 = 2 * PI. Proof. unfold cap_area. rewrite lat_1, sin_0. unfold Rsqr. cbn. ring. Qed.
  Lemma cap_2 : cap_area P 2 = 2 * PI * (1 - s). Proof. unfold cap_area. rewrite lat_2. fold s. unfold Rsqr. cbn. ring. Qed.
  Lemma pole_max k : level_max P pv_pole k 1.
  Proof.
    split; [intros i j _; unfold pv_pole; destruct (Nat.eqb j 5); lra|]. exists 1%nat, 5%nat. split; [unfold grid_point; cbn; lia|reflexivity].
  Qed.
  Lemma pole_min k : level_min P pv_pole k 0.
  Proof.
    split; [intros i j _; unfold pv_pole; destruct (Nat.eqb j 5); lra|]. exists 1%nat, 1%nat. split; [unfold grid_point; cbn; lia|reflexivity].
  Qed.
  Lemma hole_max k : level_max P pv_hole k 2.
  Proof.
    split; [intros i j _; unfold pv_hole; destruct (Nat.eqb j 5); lra|]. exists 1%nat, 1%nat. split; [unfold grid_point; cbn; lia|reflexivity].
  Qed.
  Lemma hole_min k : level_min P pv_hole k 1.
  Proof.
    split; [intros i j _; unfold pv_hole; destruct (Nat.eqb j 5); lra|]. exists 1%nat, 5%nat. split; [unfold grid_point; cbn; lia|reflexivity].
  Qed.
  Lemma pole_last k : @aan R RNum RTrunc P pv_pole k 2 = PI * PI / 2 * (1 + 2 * s).
  Proof.
    change 2%nat with (s_npart P) at 1. rewrite (aan_last P G pv_pole k 1 0 (pole_max k) (pole_min k) ltac:(lra)), tiny_area.
    assert (C : contour P 1 0 2 = 0) by (unfold contour, P, tiny; cbn [s_npart INR]; field). rewrite C.
    unfold pv_pole. cbn [Nat.eqb]. unfold at_most. destruct (Rle_dec 0 0); [|lra]. ring.
  Qed.
  Lemma hole_last k : @aan R RNum RTrunc P pv_hole k 2 = 0.
  Proof.
    change 2%nat with (s_npart P) at 1. rewrite (aan_last P G pv_hole k 2 1 (hole_max k) (hole_min k) ltac:(lra)), tiny_area.
    assert (C : contour P 2 1 2 = 1) by (unfold contour, P, tiny; cbn [s_npart INR]; field). rewrite C.
    unfold pv_hole. cbn [Nat.eqb]. unfold at_most. destruct (Rle_dec 2 1); [lra|]. ring.
  Qed.

  (** ** the iteration on one interior point *)
  Section Run.
    Variables pv uu pt : arr3 R.
    Variables g1 g2 : arr2 R.
    Notation q := (@rs_qref R RNum RTrunc P pv).
    Notation swept := (swept P pv uu pt one_level g1 g2).
    Notation resid := (@resid R RNum RTrunc P pv one_level).
    Hypothesis Hpt : forall i j k, pt i j k = 0.
    Let ue := @u_equator R RNum RTrunc P pv uu g1 g2 2.
    Let f := forcing P q 2 2.
    Let e := @ejk R RNum P one_level 2 2.
    Let b := @bjk R RNum P 2.
    Definition om1 : R := 1 / (1 - 1 / 2 * (19 / 20 * (19 / 20))).
    Let w1 := swept 1 1 (fun _ _ => 0).
    Let w2 := swept 2 om1 w1.
    Let K3 : (3 <= s_kmax P)%nat. Proof. cbn. lia. Qed.
    Let J3 : (3 <= s_jd P)%nat. Proof. cbn. lia. Qed.
    Lemma uz_zero : @uz_top R RNum P pt 2 = 0.
    Proof.
      unfold uz_top, tbar. rewrite !zonal_mean_R. unfold zonal. rewrite !(Sum_zero _ _ (fun i => pt i _ _)) by (intros; apply Hpt).
      cbn [nmul nsub ndiv RNum]. unfold Rdiv. ring.
    Qed.
    Lemma w1_22 : w1 2%nat 2%nat = 0.
    Proof. unfold w1. rewrite swept_inside; [|exact K3|exact J3|exact inside_22]. unfold relaxed. reflexivity. Qed.
    Lemma resid_w1 : resid w1 2%nat 2%nat = b * ue + f.
    Proof.
      unfold RefStates.resid. cbn [Nat.add Nat.sub]. rewrite w1_22.
      assert (E1 : w1 3%nat 2%nat = 0) by (unfold w1; change 3%nat with (s_jd P) at 1; apply swept_pole; [exact K3|exact J3]).
      assert (E2 : w1 1%nat 2%nat = ue) by reflexivity.
      assert (E3 : w1 2%nat 1%nat = 0) by (unfold w1; apply swept_ground; [exact K3|exact J3|cbn; lia]).
      assert (E4 : w1 2%nat 3%nat = 0).
      { unfold w1. change 3%nat with (s_kmax P) at 1. rewrite swept_top; [|exact K3|exact J3|cbn; lia]. fold w1. change (s_kmax P - 2)%nat with 1%nat. rewrite E3, uz_zero. ring. }
      rewrite E1, E2, E3, E4. unfold fjk, f, forcing. cbn [Nat.add Nat.sub nadd nsub nmul nopp RNum]. fold b. ring.
    Qed.
    Lemma w2_22 : w2 2%nat 2%nat = - om1 * (b * ue + f) / e.
    Proof.
      unfold w2. rewrite swept_inside; [|exact K3|exact J3|exact inside_22]. unfold relaxed. change (colour 2 2 2) with true. cbv iota.
      assert (N := ejk_neg P one_level K3 J3 G H 2 2 inside_22). destruct (Reqb_spec (@ejk R RNum P one_level 2 2) 0); [lra|].
      rewrite w1_22, resid_w1. fold e. field. unfold e. lra.
    Qed.
    Lemma w3_same om : swept 3 om w2 2%nat 2%nat = w2 2%nat 2%nat.
    Proof. rewrite swept_inside; [|exact K3|exact J3|exact inside_22]. unfold relaxed. reflexivity. Qed.
    Lemma resid_w3 om : resid (swept 3 om w2) 2%nat 2%nat = resid w2 2%nat 2%nat.
    Proof.
      unfold RefStates.resid. cbn [Nat.add Nat.sub]. rewrite w3_same. change 3%nat with (s_jd P) at 2. change 3%nat with (s_kmax P).
      assert (E1 : forall n o v, swept n o v (s_jd P) 2%nat = 0) by (intros; apply swept_pole; [exact K3|exact J3]).
      assert (E3 : forall n o v, swept n o v 2%nat 1%nat = 0) by (intros; apply swept_ground; [exact K3|exact J3|cbn; lia]).
      assert (E4 : forall n o v, swept n o v 2%nat (s_kmax P) = - @uz_top R RNum P pt 2).
      { intros. rewrite swept_top; [|exact K3|exact J3|cbn; lia]. change (s_kmax P - 2)%nat with 1%nat. rewrite E3. ring. }
      unfold w2. rewrite !E1, !E3, !E4. reflexivity.
    Qed.
    Lemma run : (3 <= maxits)%nat -> 0 < eps -> f <> 0 ->
      (fst (@solution R RNum RTrunc P pv uu pt one_level g1 g2) 2%nat 2%nat = - om1 * (b * ue + f) / e) /\
      (eps * Rabs f <= Rabs (b * ue + f) ->
         @rs_num_of_iter R RNum RTrunc P pv uu pt one_level g1 g2 = 3%nat /\
         exists om, fst (@solution R RNum RTrunc P pv uu pt one_level g1 g2) = swept 3 om w2).
    Proof.
      intros Hn He Hf. assert (Af : @anormf R RNum RTrunc P pv = Rabs f).
      { rewrite (anormf_R P pv G), norm_all_one. reflexivity. }
      assert (O : @next_omega R RNum P 1 1 = om1) by reflexivity.
      unfold rs_num_of_iter, solution. assert (Em : s_maxits P = S (S (S (maxits - 3)))) by (cbn; lia). rewrite Em. cbn [none nzero RNum].
      unfold iterate. rewrite ?(sweep_eq P pv uu pt one_level g1 g2 K3 J3). change (Nat.ltb 1 1) with false. cbn [andb]. rewrite O. fold w1. rewrite ?(sweep_eq P pv uu pt one_level g1 g2 K3 J3). fold w2.
      change (Nat.ltb 1 2) with true. cbn [andb nltb nmul RNum]. rewrite Af, norm_one. change (colour 2 2 2) with true. cbv iota. rewrite resid_w1.
      change (s_eps P) with eps.
      destruct (Rltb_spec (Rabs (b * ue + f)) (eps * Rabs f)) as [L|L].
      - cbn [fst snd]. split; [exact w2_22|]. intros X. lra.
      - rewrite ?(sweep_eq P pv uu pt one_level g1 g2 K3 J3), norm_one. change (Nat.ltb 1 3) with true. change (colour 3 2 2) with false. cbn [andb]. cbv iota.
        assert (Z : 0 < eps * Rabs f) by (apply Rmult_lt_0_compat; [exact He|apply Rabs_pos_lt; exact Hf]).
        destruct (Rltb_spec 0 (eps * Rabs f)) as [Y|Y]; [|lra]. cbn [fst snd]. split; [rewrite w3_same; exact w2_22|]. intros _. split; [reflexivity|eexists; reflexivity].
    Qed.
  End Run.

  Lemma q_extrapolated pv : @rs_qref R RNum RTrunc P pv 1 2 = 2 * @rs_qref R RNum RTrunc P pv 2 2 - @rs_qref R RNum RTrunc P pv 3 2.
  Proof. reflexivity. Qed.
  Lemma q_pole pv M : level_max P pv 2 M -> @rs_qref R RNum RTrunc P pv 3 2 = M / 2.
  Proof.
    intros HM. assert (X := rs_qref_value P G ltac:(cbn; lra) pv 3 2 ltac:(cbn; lia) ltac:(cbn; lia)). rewrite lat_3, sin_PI2 in X. change (Nat.eqb 3 (s_jd P)) with true in X.
    rewrite (qmax_level P pv 2 M HM) in X. change (s_om P) with 1 in X. lra.
  Qed.
  Lemma forcing_22 pv : forcing P (@rs_qref R RNum RTrunc P pv) 2 2 = PI / 2 * (@rs_qref R RNum RTrunc P pv 3 2 - @rs_qref R RNum RTrunc P pv 2 2).
  Proof. unfold forcing. cbn [Nat.add Nat.sub]. rewrite q_extrapolated. change (s_om P) with 1. change (s_a P) with 1. change (s_dphi P) with (PI / 4). field. Qed.
  Lemma pole_room : 2 * PI < PI * PI / 2 * (1 + 2 * s).
  Proof.
    destruct s_facts as (S0 & S1 & _). assert (Hs : 1 / 2 < s) by nra. assert (P3 := PI_4). assert (P0 := PI_RGT_0). assert (P2 := PI2_1).
    assert (X : 4 < PI * (1 + 2 * s)) by nra. replace (PI * PI / 2 * (1 + 2 * s)) with (PI / 2 * (PI * (1 + 2 * s))) by field. nra.
  Qed.
  Lemma pole_bracket j : (j = 1 \/ j = 2)%nat -> @bracketed R RNum RTrunc P pv_pole 2 j 1 = true.
  Proof.
    intros Hj. apply bracket_true. change (@aan R RNum RTrunc P pv_pole 2 1) with 0. change (1 + 1)%nat with 2%nat. rewrite pole_last.
    assert (R := pole_room). destruct s_facts as (S0 & S1 & _). assert (S2 : s < 1) by nra. assert (P0 := PI_RGT_0). destruct Hj as [->| ->]; [rewrite cap_1|rewrite cap_2]; nra.
  Qed.
  Lemma pole_forcing : forcing P (@rs_qref R RNum RTrunc P pv_pole) 2 2 < 0.
  Proof.
    rewrite forcing_22, (q_pole pv_pole 1 (pole_max 2)). assert (X := rs_qref_value P G ltac:(cbn; lra) pv_pole 2 2 ltac:(cbn; lia) ltac:(cbn; lia)).
    change (Nat.eqb 2 (s_jd P)) with false in X. cbv iota in X. rewrite lat_2 in X. fold s in X. change (s_om P) with 1 in X.
    rewrite (at_row_bracketed P pv_pole 2 1 0 (pole_max 2) (pole_min 2) ltac:(lra) ltac:(cbn; lia) (cell_area_nonneg P G ltac:(cbn; lra)) 2 1) in X; [|cbn; lia|apply pole_bracket; lia].
    rewrite !(qn_contour P pv_pole 2 1 0 (pole_max 2) (pole_min 2)) in X. rewrite (contour_1 P 1 0) in X.
    assert (C : contour P 1 0 (1 + 1) = 0) by (unfold contour, P, tiny; cbn [s_npart INR Nat.add]; field). rewrite C in X.
    assert (W : weight P pv_pole 2 2 1 < 1 - s).
    { unfold weight. change (@aan R RNum RTrunc P pv_pole 2 1) with 0. change (1 + 1)%nat with 2%nat. rewrite pole_last, cap_2. assert (R := pole_room).
      destruct s_facts as (S0 & S1 & _). assert (S2 : s < 1) by nra. assert (P0 := PI_RGT_0). set (D := PI * PI / 2 * (1 + 2 * s)) in *.
      rewrite !Rminus_0_r. apply Rmult_lt_reg_r with D; [lra|]. unfold Rdiv. rewrite Rmult_assoc, Rinv_l by lra. nra. }
    destruct s_facts as (S0 & S1 & _). assert (P0 := PI_RGT_0). set (q2 := @rs_qref R RNum RTrunc P pv_pole 2 2) in *. assert (Q : 1 / 2 < q2) by nra. nra.
  Qed.
  Lemma pole_equator g1 g2 : @u_equator R RNum RTrunc P pv_pole zero3 g1 g2 2 < 0.
  Proof.
    unfold u_equator. assert (U : @ubar R RNum P zero3 1 2 = 0).
    { unfold ubar. rewrite zonal_mean_R. unfold zonal. rewrite (Sum_zero _ _ _) by reflexivity. unfold Rdiv. ring. }
    assert (Cr : @cref R RNum RTrunc P pv_pole g1 1 2 = 0).
    { unfold cref. change (@interior R P 2 && Nat.ltb 1 (s_jd P))%bool with true. cbv iota.
      rewrite (at_row_bracketed P pv_pole 2 1 0 (pole_max 2) (pole_min 2) ltac:(lra) ltac:(cbn; lia) (cell_area_nonneg P G ltac:(cbn; lra)) 1 1); [|cbn; lia|apply pole_bracket; lia].
      change (@ccn R RNum RTrunc P pv_pole 2 1) with 0. change (@ccn R RNum RTrunc P pv_pole 2 (1 + 1)) with (0 + @cn R RNum RTrunc P pv_pole 2 2).
      rewrite (cn_circulation P pv_pole 2 1 0 (pole_max 2) (pole_min 2) ltac:(lra) ltac:(cbn; lia) 2) by lia.
      assert (Z : forall S, (forall x, S x = true -> x <= 0) -> circulation_of P pv_pole 2 S = 0).
      { intros S HS. unfold circulation_of. apply Sum_zero. intros j _. apply Sum_zero. intros i _. destruct (S (pv_pole i j 2%nat)) eqn:E; [|reflexivity].
        apply HS in E. unfold pv_pole in *. destruct (Nat.eqb j 5); [lra|ring]. }
      rewrite Z; [ring|]. intros x. assert (C : contour P 1 0 2 = 0) by (unfold contour, P, tiny; cbn [s_npart INR]; field). rewrite C.
      unfold between. destruct (Rlt_dec _ x); [|discriminate]. destruct (Rle_dec x 0); [intros _; assumption|discriminate]. }
    assert (Cb : 0 < @cbar R RNum P pv_pole g2 1 2).
    { unfold cbar. change (@interior R P 2) with true. cbv iota. change (s_jd P - 1)%nat with 2%nat.
      assert (Z : forall r, @qbar R RNum P pv_pole r 2 = pv_pole 1%nat (r + 2)%nat 2%nat).
      { intros r. unfold qbar. rewrite zonal_mean_R. unfold zonal. change (s_nlon P + 1)%nat with (1 + 1)%nat. rewrite sum_one. change (s_jd P) with 3%nat. replace (r + 3 - 1)%nat with (r + 2)%nat by lia.
        change (s_nlon P) with 1%nat. cbn [INR]. field. }
      cbn [cbar_from]. rewrite !Z. change (s_jd P) with 3%nat. cbn [Nat.add Nat.sub]. change (pv_pole 1 5 2)%nat with 1. change (pv_pole 1 4 2)%nat with 0. change (pv_pole 1 3 2)%nat with 0.
      rewrite nhalf_half, !nofnat_INR. cbn [nadd nsub nmul nzero nofZ npi ncos RNum]. change (s_a P) with 1. change (s_dphi P) with (PI / 4). cbn [INR].
      assert (P0 := PI_RGT_0). assert (K : 0 < cos (PI / 4 * (1 + 1 - 1 / 2))) by (apply cos_gt_0; lra).
      set (cc := cos (PI / 4 * (1 + 1 - 1 / 2))) in *. set (c0 := cos (PI / 4 * (1 - 1 / 2))).
      replace (0 + 1 / 2 * (1 + 0) * 1 * (PI / 4) * 2 * PI * 1 * cc + 1 / 2 * (0 + 0) * 1 * (PI / 4) * 2 * PI * 1 * c0) with (PI * PI / 4 * cc) by field.
      apply Rmult_lt_0_compat; [nra|exact K]. }
    rewrite U, Cr. change (s_a P) with 1. cbn [nadd nsub nmul ndiv nofZ npi RNum]. assert (P0 := PI_RGT_0).
    set (cb := cbar P pv_pole g2 1 2) in *. replace (0 + (0 - cb) / (2 * PI * 1)) with (- (cb * / (2 * PI))) by (field; lra).
    assert (0 < cb * / (2 * PI)) by (apply Rmult_lt_0_compat; [exact Cb|apply Rinv_0_lt_compat; lra]). lra.
  Qed.

  Lemma om1_range : 9 / 5 < om1 < 19 / 10.
  Proof. unfold om1. lra. Qed.
  Lemma b_pos : 0 < @bjk R RNum P 2. Proof. apply (coefficients_pos P one_level ltac:(cbn; lia) ltac:(cbn; lia) G H 2 2 inside_22). Qed.
  (** reported as converged after three sweeps, with a residual as large as the forcing *)
  Lemma false_convergence g1 g2 : (3 <= maxits)%nat -> 0 < eps <= 1 / 2 ->
    @rs_num_of_iter R RNum RTrunc P pv_pole zero3 zero3 one_level g1 g2 = 3%nat /\
    0 < norm_all P (forcing P (@rs_qref R RNum RTrunc P pv_pole)) /\
    forall w, (forall k, (2 <= k <= s_kmax P - 1)%nat -> w 1%nat k = @u_equator R RNum RTrunc P pv_pole zero3 g1 g2 k) -> w 3%nat 2%nat = 0 ->
      (forall k, (1 <= k <= s_kmax P)%nat -> @rs_uref R RNum RTrunc P pv_pole zero3 zero3 one_level g1 g2 2 k = w 2%nat k / cos (lat P 2)) ->
      4 / 5 * norm_all P (forcing P (@rs_qref R RNum RTrunc P pv_pole)) < norm_all P (residual P one_level (@rs_qref R RNum RTrunc P pv_pole) w).
  Proof.
    intros Hn He. assert (F := pole_forcing). assert (U := pole_equator g1 g2). assert (B := b_pos). assert (O := om1_range).
    set (f := forcing P (rs_qref P pv_pole) 2 2) in *. set (ue := u_equator P pv_pole zero3 g1 g2 2) in *. set (b := @bjk R RNum P 2) in *.
    assert (Ab : Rabs f <= Rabs (b * ue + f)). { assert (b * ue < 0) by nra. rewrite !Rabs_left by lra. lra. }
    destruct (run pv_pole zero3 zero3 g1 g2 ltac:(reflexivity) Hn ltac:(lra) ltac:(fold f; lra)) as [_ R].
    destruct R as [R1 (om & R2)]. { fold f ue b. assert (0 <= Rabs f) by apply Rabs_pos. nra. }
    split; [exact R1|]. rewrite !norm_all_one. fold f. split; [apply Rabs_pos_lt; lra|]. intros w W1 W3 W2.
    assert (Cc : cos (lat P 2) <> 0) by (rewrite lat_2; destruct s_facts as (S0 & _ & ->); lra).
    assert (E : residual P one_level (rs_qref P pv_pole) w 2 2 = (1 - om1) * (b * ue + f)).
    { rewrite <- (resid_R P pv_pole one_level G H w 2 2 inside_22). unfold b, ue, f. rewrite <- (resid_w1 pv_pole zero3 zero3 g1 g2 ltac:(reflexivity)).
      rewrite <- (resid_after P pv_pole zero3 zero3 one_level g1 g2 G H 2 om1 (fun _ _ => 0) 1 1 2 2 inside_22 eq_refl).
      rewrite <- (resid_w3 pv_pole zero3 zero3 g1 g2 ltac:(reflexivity) om).
      assert (Q : forall k, (1 <= k <= 3)%nat -> w 2%nat k = fst (@solution R RNum RTrunc P pv_pole zero3 zero3 one_level g1 g2) 2%nat k).
      { intros k Hk. assert (X := W2 k Hk). rewrite (uref_row P pv_pole zero3 zero3 one_level g1 g2 G 2 k ltac:(cbn; lia)) in X.
        apply Rmult_eq_reg_r in X; [|apply Rinv_neq_0_compat; exact Cc]. symmetry. exact X. }
      rewrite R2 in Q. unfold resid. cbn [Nat.add Nat.sub]. rewrite !Q by lia. rewrite (W1 2%nat) by (cbn; lia). rewrite W3. reflexivity. }
    rewrite norm_all_one, E, Rabs_mult. rewrite (Rabs_left (1 - om1)) by lra. assert (0 < Rabs f) by (apply Rabs_pos_lt; lra). nra.
  Qed.

  (** a hole over the pole: no contour encloses enough area *)
  Lemma hole_qref : @rs_qref R RNum RTrunc P pv_hole 2 2 = 0.
  Proof.
    assert (X := Qphys_not_found P G ltac:(cbn; lra) ltac:(cbn; lra) pv_hole 2 2 1 ltac:(cbn; lia) (hole_max 2) (hole_min 2) ltac:(lra) 2 ltac:(cbn; lia)).
    change (s_npart P) with 2%nat in X. rewrite hole_last, cap_2 in X. destruct s_facts as (S0 & S1 & _). assert (P0 := PI_RGT_0). specialize (X ltac:(nra)).
    unfold Qphys in X. rewrite lat_2 in X. fold s in X. change (s_om P) with 1 in X. apply Rmult_integral in X. lra.
  Qed.
  Lemma hole_forcing : forcing P (@rs_qref R RNum RTrunc P pv_hole) 2 2 = PI / 2.
  Proof. rewrite forcing_22, (q_pole pv_hole 2 (hole_max 2)), hole_qref. field. Qed.
  Lemma hole_cref g : @cref R RNum RTrunc P pv_hole g 1 2 = g 1%nat 2%nat.
  Proof.
    unfold cref. change (@interior R P 2 && Nat.ltb 1 (s_jd P))%bool with true. cbv iota.
    apply at_row_none with (M := 2) (m := 1); try (cbn; lia); try lra; [apply hole_max|apply hole_min|apply cell_area_nonneg; [exact G|cbn; lra]|].
    change (s_npart P) with 2%nat. rewrite hole_last, cap_1. assert (P0 := PI_RGT_0). lra.
  Qed.
  Lemma hole_garbage g1 g1' g2 : (3 <= maxits)%nat -> 0 < eps -> g1 1%nat 2%nat <> g1' 1%nat 2%nat ->
    @rs_uref R RNum RTrunc P pv_hole zero3 zero3 one_level g1 g2 2 2 <> @rs_uref R RNum RTrunc P pv_hole zero3 zero3 one_level g1' g2 2 2.
  Proof.
    intros Hn He Hg E. rewrite !(uref_row P pv_hole zero3 zero3 one_level _ g2 G 2 2 ltac:(cbn; lia)) in E.
    assert (Cc : 0 < cos (lat P 2)) by (rewrite lat_2; destruct s_facts as (S0 & _ & ->); lra).
    apply Rmult_eq_reg_r in E; [|apply Rinv_neq_0_compat; lra].
    assert (F : forcing P (rs_qref P pv_hole) 2 2 <> 0) by (rewrite hole_forcing; assert (P0 := PI_RGT_0); lra).
    rewrite (proj1 (run pv_hole zero3 zero3 g1 g2 ltac:(reflexivity) Hn He F)), (proj1 (run pv_hole zero3 zero3 g1' g2 ltac:(reflexivity) Hn He F)) in E.
    assert (En := ejk_neg P one_level ltac:(cbn; lia) ltac:(cbn; lia) G H 2 2 inside_22). apply Rmult_eq_reg_r in E; [|apply Rinv_neq_0_compat; lra].
    assert (O := om1_range). apply Rmult_eq_reg_l in E; [|lra]. apply Rplus_eq_reg_r in E. assert (B := b_pos). apply Rmult_eq_reg_l in E; [|lra].
    unfold u_equator in E. rewrite !hole_cref in E. cbn [nadd nsub nmul ndiv nofZ npi RNum] in E. change (s_a P) with 1 in E. apply Rplus_eq_reg_l in E. assert (P0 := PI_RGT_0).
    apply Rmult_eq_reg_r in E; [|apply Rinv_neq_0_compat; lra]. apply Hg. unfold Rminus in E. apply Rplus_eq_reg_r in E. exact E.
  Qed.
End Tiny.
