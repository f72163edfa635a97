(** Proofs about the QGPV routines. *)
From Verif Require Import Base BaseFacts Spec SpecFacts Flux FluxProofs Qgpv QgpvSpec.
Open Scope R_scope.

Section QgpvProofs.
  Variables (nlon nlat kmax : nat) (a omega H : R).
  Hypothesis Hlat : (3 <= nlat)%nat.
  Hypothesis Hlon : (2 <= nlon)%nat.

  Definition dphi_s : R := PI / INR (nlat - 1).
  Lemma dphi_q_R : @dphi_q R RNum nlat = dphi_s.
  Proof. unfold dphi_q. rewrite nofnat_INR. reflexivity. Qed.
  Lemma n1_pos : 0 < INR (nlat - 1). Proof. apply lt_0_INR. lia. Qed.
  Lemma dphi_pos : 0 < dphi_s.
  Proof. unfold dphi_s. apply Rdiv_lt_0_compat; [apply PI_RGT_0|apply n1_pos]. Qed.
  Lemma lat_nh18_R j d : @lat_nh18 R RNum nlat j d = glat nlat (j + 1) - INR d * dphi_s.
  Proof.
    unfold lat_nh18, glat, dphi_s. rewrite nfloat_R, nofnat_INR, plus_INR. cbn [nadd nsub nmul ndiv nofZ npi RNum INR].
    assert (P := n1_pos). field. lra.
  Qed.
  Lemma lat_nhn22_R j d : @lat_nhn22 R RNum nlat j d = glat nlat (j + 1) - INR d * dphi_s.
  Proof.
    unfold lat_nhn22, glat, dphi_s. rewrite nfloat_R, nofnat_INR, nhalf_R, plus_INR. cbn [nadd nsub nopp nmul ndiv nofZ npi RNum INR].
    assert (P := n1_pos). field. lra.
  Qed.
  (** any latitude function with this property gives the vorticity of the specification *)
  Variable lat : nat -> nat -> R.
  Hypothesis lat_ok : forall j d, lat j d = glat nlat (j + 1) - INR d * dphi_s.
  Lemma lat0 j : lat j 0%nat = glat nlat (j + 1). Proof. rewrite lat_ok. cbn [INR]. ring. Qed.
  Lemma lat1 j : lat j 1%nat = glat nlat j.
  Proof. rewrite lat_ok. unfold glat, dphi_s. rewrite plus_INR. cbn [INR]. assert (P := n1_pos). field. lra. Qed.
  Lemma lat2 j : (1 <= j)%nat -> lat j 2%nat = glat nlat (j - 1).
  Proof. intros. rewrite lat_ok. unfold glat, dphi_s. rewrite plus_INR, (minus_INR j 1) by lia. cbn [INR]. assert (P := n1_pos). field. lra. Qed.
  Lemma east_next i : (1 <= i <= nlon)%nat -> east nlon i = next_lon nlon i.
  Proof. intros. unfold east, next_lon. destruct (Nat.eqb_spec i nlon); [reflexivity|]. destruct (Nat.eqb_spec i 1); lia. Qed.
  Lemma west_prev i : (1 <= i <= nlon)%nat -> west nlon i = prev_lon nlon i.
  Proof.
    intros. unfold west, prev_lon. destruct (Nat.eqb_spec i nlon); destruct (Nat.eqb_spec i 1); lia.
  Qed.

  Lemma avort_interior_R u v i j k : (1 <= i <= nlon)%nat -> (1 <= j)%nat ->
    @avort_interior R RNum nlon nlat a omega lat u v i j k = abs_vorticity nlon nlat a omega dphi_s dphi_s u v i j k.
  Proof.
    intros Hi Hj. unfold avort_interior, abs_vorticity. cbv zeta. rewrite dphi_q_R, lat0, lat1, lat2, east_next, west_prev by assumption.
    cbn [nadd nsub nopp nmul ndiv nofZ nsin ncos RNum]. unfold Rdiv. ring.
  Qed.

  Definition interior_avort u v := abs_vorticity nlon nlat a omega dphi_s dphi_s u v.
  Lemma avort_R u v i j k : (1 <= i <= nlon)%nat -> (1 <= j <= nlat)%nat ->
    @avort R RNum nlon nlat a omega lat u v i j k =
    (if Nat.eqb j 1 then zonal_mean nlon (interior_avort u v) 2 k
     else if Nat.eqb j nlat then zonal_mean nlon (interior_avort u v) (nlat - 1) k
     else interior_avort u v i j k).
  Proof.
    intros Hi Hj. unfold avort.
    assert (G : forall r, (1 <= r)%nat -> @loop R RNum nlon (fun i' s => s + avort_interior nlon nlat a omega lat u v i' r k / nofnat nlon)%R = zonal_mean nlon (interior_avort u v) r k).
    { intros r Hr. unfold zonal_mean. rewrite (loop_sum _ _ (fun i' => avort_interior nlon nlat a omega lat u v i' r k / INR nlon)).
      - rewrite nofnat_INR || idtac. unfold Rdiv. rewrite Rmult_comm, <- Sum_scal. apply Sum_ext. intros i' Hi'.
        rewrite avort_interior_R by lia. unfold interior_avort. ring.
      - intros. rewrite nofnat_INR. reflexivity. }
    destruct (Nat.eqb_spec j nlat) as [E|E]; destruct (Nat.eqb_spec j 1) as [E1|E1]; try lia.
    - apply G. lia.
    - apply G. lia.
    - apply avort_interior_R; lia.
  Qed.
  Lemma zmav_R u v j k : (1 <= j <= nlat)%nat ->
    @zmav R RNum nlon nlat a omega lat u v j k = zonal_mean nlon (@avort R RNum nlon nlat a omega lat u v) j k.
  Proof.
    intros Hj. unfold zmav, zonal_mean. rewrite (loop_sum _ _ (fun i => avort nlon nlat a omega lat u v i j k / INR nlon)).
    - unfold Rdiv. rewrite Rmult_comm, <- Sum_scal. apply Sum_ext. intros; ring.
    - intros. rewrite nofnat_INR. reflexivity.
  Qed.
End QgpvProofs.

Section QgpvFacts.
  Variables (nlon nlat kmax : nat) (a omega H : R) (height : nat -> R).
  Hypothesis Hlat : (3 <= nlat)%nat.
  Hypothesis Hlon : (2 <= nlon)%nat.
  Local Notation dphi := (PI / INR (nlat - 1)).

  Lemma glat_mirror j : (1 <= j <= nlat)%nat -> glat nlat (nlat + 1 - j) = - glat nlat j.
  Proof.
    intros Hj. unfold glat. rewrite (minus_INR (nlat + 1) j), plus_INR by lia. cbn [INR].
    assert (P : 0 < INR (nlat - 1)) by (apply lt_0_INR; lia). rewrite (minus_INR nlat 1) in * by lia. cbn [INR] in *. field. lra.
  Qed.
  Lemma glat_mirror_south j : (1 <= j <= nlat)%nat -> glat nlat (nlat + 1 - j - 1) = - glat nlat (j + 1).
  Proof.
    intros Hj. unfold glat. rewrite (minus_INR (nlat + 1 - j) 1), (minus_INR (nlat + 1) j), !plus_INR by lia || idtac. cbn [INR].
    assert (P : 0 < INR (nlat - 1)) by (apply lt_0_INR; lia). rewrite (minus_INR nlat 1) in * by lia. cbn [INR] in *. field. lra.
  Qed.
  Lemma glat_mirror_north j : (1 <= j <= nlat)%nat -> glat nlat (nlat + 1 - j + 1) = - glat nlat (j - 1).
  Proof.
    intros Hj. unfold glat. rewrite plus_INR, (minus_INR j 1), (minus_INR (nlat + 1) j), !plus_INR by lia. cbn [INR].
    assert (P : 0 < INR (nlat - 1)) by (apply lt_0_INR; lia). rewrite (minus_INR nlat 1) in * by lia. cbn [INR] in *. field. lra.
  Qed.
  Lemma cos_glat_pos j : (2 <= j <= nlat - 1)%nat -> 0 < cos (glat nlat j).
  Proof.
    intros Hj. assert (P : 0 < INR (nlat - 1)) by (apply lt_0_INR; lia). assert (Q := PI_RGT_0).
    assert (E : PI * (INR j - 1) / INR (nlat - 1) = PI * ((INR j - 1) * / INR (nlat - 1))) by (unfold Rdiv; ring).
    assert (I : 0 < / INR (nlat - 1)) by (apply Rinv_0_lt_compat; lra).
    assert (HI : INR (nlat - 1) * / INR (nlat - 1) = 1) by (apply Rinv_r; lra).
    assert (H1 : INR j - 1 = INR (j - 1)) by (rewrite minus_INR by lia; reflexivity).
    assert (H2 : 0 < INR (j - 1)) by (apply lt_0_INR; lia).
    assert (H3 : INR (j - 1) < INR (nlat - 1)) by (apply lt_INR; lia).
    assert (Y : 0 < INR (j - 1) * / INR (nlat - 1) < 1).
    { split; [apply Rmult_lt_0_compat; assumption|]. rewrite <- HI. apply Rmult_lt_compat_r; assumption. }
    unfold glat. rewrite E, H1. generalize dependent (INR (j - 1) * / INR (nlat - 1)). intros y Y.
    apply cos_gt_0; nra.
  Qed.

  Lemma abs_vorticity_mirror dl dp u v i j k : (1 <= j <= nlat)%nat ->
    abs_vorticity nlon nlat a omega dl dp (mirror nlat u) (negated (mirror nlat v)) i j k =
    - abs_vorticity nlon nlat a omega dl dp u v i (nlat + 1 - j) k.
  Proof.
    intros Hj. unfold abs_vorticity, mirror, negated. rewrite glat_mirror, glat_mirror_south, glat_mirror_north by exact Hj.
    rewrite sin_neg, !cos_neg. replace (nlat + 1 - (j + 1))%nat with (nlat + 1 - j - 1)%nat by lia.
    replace (nlat + 1 - (j - 1))%nat with (nlat + 1 - j + 1)%nat by lia. unfold Rdiv. ring.
  Qed.
  Lemma zonal_mean_opp x y j k : (forall i, (1 <= i <= nlon)%nat -> x i j k = - y i) ->
    zonal_mean nlon x j k = - (Sum 1 (nlon + 1) y / INR nlon).
  Proof.
    intros E. unfold zonal_mean. rewrite (Sum_ext _ _ _ (fun i => (-1) * y i)).
    - rewrite Sum_scal. unfold Rdiv. ring.
    - intros i Hi. rewrite E by lia. ring.
  Qed.

  Section AnyLat.
    Variable lat : nat -> nat -> R.
    Hypothesis lat_ok : forall j d, lat j d = glat nlat (j + 1) - INR d * dphi.
    Local Notation av u v := (@avort R RNum nlon nlat a omega lat u v).
    Local Notation zm u v := (@zmav R RNum nlon nlat a omega lat u v).

    Lemma avort_mirror u v i j k : (1 <= i <= nlon)%nat -> (1 <= j <= nlat)%nat ->
      av (mirror nlat u) (negated (mirror nlat v)) i j k = - av u v i (nlat + 1 - j)%nat k.
    Proof.
      intros Hi Hj. rewrite !(avort_R nlon nlat a omega Hlat Hlon lat lat_ok) by lia.
      destruct (Nat.eqb_spec j 1) as [E|E].
      - subst j. replace (nlat + 1 - 1)%nat with nlat by lia. destruct (Nat.eqb_spec nlat 1); [lia|]. rewrite Nat.eqb_refl.
        rewrite (zonal_mean_opp _ (fun i => interior_avort nlon nlat a omega u v i (nlat - 1)%nat k)); [reflexivity|].
        intros i' Hi'. unfold interior_avort. rewrite abs_vorticity_mirror by lia. replace (nlat + 1 - 2)%nat with (nlat - 1)%nat by lia. reflexivity.
      - destruct (Nat.eqb_spec j nlat) as [E2|E2].
        + subst j. replace (nlat + 1 - nlat)%nat with 1%nat by lia. cbn [Nat.eqb].
          rewrite (zonal_mean_opp _ (fun i => interior_avort nlon nlat a omega u v i 2%nat k)); [reflexivity|].
          intros i' Hi'. unfold interior_avort. rewrite abs_vorticity_mirror by lia. replace (nlat + 1 - (nlat - 1))%nat with 2%nat by lia. reflexivity.
        + destruct (Nat.eqb_spec (nlat + 1 - j) 1); [lia|]. destruct (Nat.eqb_spec (nlat + 1 - j) nlat); [lia|].
          unfold interior_avort. apply abs_vorticity_mirror. lia.
    Qed.
    Lemma zmav_mirror u v j k : (1 <= j <= nlat)%nat ->
      zm (mirror nlat u) (negated (mirror nlat v)) j k = - zm u v (nlat + 1 - j)%nat k.
    Proof.
      intros Hj. rewrite !(zmav_R nlon nlat a omega) by lia.
      apply (zonal_mean_opp _ (fun i => av u v i (nlat + 1 - j)%nat k)). intros i Hi. apply avort_mirror; lia.
    Qed.

    (** longitudes can be relabelled *)
    Lemma next_lon_range i : (1 <= i <= nlon)%nat -> (1 <= next_lon nlon i <= nlon)%nat.
    Proof. intros. unfold next_lon. destruct (Nat.eqb_spec i nlon); lia. Qed.
    Lemma next_prev i : (1 <= i <= nlon)%nat -> next_lon nlon (prev_lon nlon i) = i /\ prev_lon nlon (next_lon nlon i) = i.
    Proof.
      intros. unfold next_lon, prev_lon. destruct (Nat.eqb_spec i nlon); destruct (Nat.eqb_spec i 1); subst; split;
        repeat match goal with |- context [Nat.eqb ?x ?y] => destruct (Nat.eqb_spec x y) end; lia.
    Qed.
    Lemma Sum_rotate (f : nat -> R) : Sum 1 (nlon + 1) (fun i => f (next_lon nlon i)) = Sum 1 (nlon + 1) f.
    Proof.
      replace (nlon + 1)%nat with (S nlon) by lia. rewrite Sum_S_r by lia. rewrite (Sum_S_l 1 (S nlon) f) by lia.
      rewrite Rplus_comm. f_equal.
      - f_equal. unfold next_lon. rewrite Nat.eqb_refl. reflexivity.
      - replace (Sum 2 (S nlon) f) with (Sum (1 + 1) (nlon + 1) f) by (f_equal; lia). rewrite Sum_shift.
        apply Sum_ext. intros i Hi. unfold next_lon. destruct (Nat.eqb_spec i nlon); [lia|]. f_equal; lia.
    Qed.
    Lemma abs_vorticity_rotated dl dp u v i j k : (1 <= i <= nlon)%nat ->
      abs_vorticity nlon nlat a omega dl dp (rotated nlon u) (rotated nlon v) i j k =
      abs_vorticity nlon nlat a omega dl dp u v (next_lon nlon i) j k.
    Proof.
      intros Hi. unfold abs_vorticity, rotated. destruct (next_prev i Hi) as [E1 E2]. rewrite E1, E2. reflexivity.
    Qed.
    Lemma avort_rotated u v i j k : (1 <= i <= nlon)%nat -> (1 <= j <= nlat)%nat ->
      av (rotated nlon u) (rotated nlon v) i j k = av u v (next_lon nlon i) j k.
    Proof.
      intros Hi Hj. assert (Hn := next_lon_range i Hi). rewrite !(avort_R nlon nlat a omega Hlat Hlon lat lat_ok) by lia.
      assert (G : forall r, zonal_mean nlon (interior_avort nlon nlat a omega (rotated nlon u) (rotated nlon v)) r k =
                            zonal_mean nlon (interior_avort nlon nlat a omega u v) r k).
      { intros r. unfold zonal_mean. f_equal. rewrite <- (Sum_rotate (fun i => interior_avort nlon nlat a omega u v i r k)).
        apply Sum_ext. intros i' Hi'. apply abs_vorticity_rotated. lia. }
      rewrite !G. destruct (Nat.eqb j 1); [reflexivity|]. destruct (Nat.eqb j nlat); [reflexivity|]. apply abs_vorticity_rotated. exact Hi.
    Qed.
    Lemma zmav_rotated u v j k : (1 <= j <= nlat)%nat -> zm (rotated nlon u) (rotated nlon v) j k = zm u v j k.
    Proof.
      intros Hj. rewrite !(zmav_R nlon nlat a omega) by lia. unfold zonal_mean. f_equal.
      rewrite <- (Sum_rotate (fun i => av u v i j k)). apply Sum_ext. intros i Hi. apply avort_rotated; lia.
    Qed.
  End AnyLat.

  Lemma lat_nh18_ok j d : @lat_nh18 R RNum nlat j d = glat nlat (j + 1) - INR d * dphi.
  Proof. exact (lat_nh18_R nlon nlat Hlat Hlon j d). Qed.
  Lemma lat_nhn22_ok j d : @lat_nhn22 R RNum nlat j d = glat nlat (j + 1) - INR d * dphi.
  Proof. exact (lat_nhn22_R nlon nlat Hlat Hlon j d). Qed.

  Definition interior (k : nat) : Prop := (2 <= k <= kmax - 1)%nat.
  Lemma interior_true k : Nat.leb 2 k && Nat.leb k (kmax - 1) = true <-> interior k.
  Proof. unfold interior. rewrite Bool.andb_true_iff, !Nat.leb_le. reflexivity. Qed.

  Lemma stretch_R theta t0 stat factor i j k :
    exp (height k / H) * @stretch R RNum H height theta (t0 (k + 1)%nat) (t0 (k - 1)%nat) (stat (k + 1)%nat) (stat (k - 1)%nat) factor i j k
    = factor * stretching H height t0 stat theta i j k.
  Proof. unfold stretch, stretching. cbv zeta. cbn [nsub nmul ndiv nopp nexp RNum]. unfold Rdiv. ring. Qed.

  Lemma qgpv_nh18_R u v theta t0 stat i j k : interior k ->
    @qgpv_nh18 R RNum nlon nlat kmax a omega H height u v theta t0 stat i j k =
    @avort R RNum nlon nlat a omega (lat_nh18 nlat) u v i j k
    + @zmav R RNum nlon nlat a omega (lat_nh18 nlat) u v j k * stretching H height t0 stat theta i j k.
  Proof.
    intros Hk. unfold qgpv_nh18. apply interior_true in Hk. rewrite Hk. cbn [nadd nmul nexp ndiv RNum]. rewrite stretch_R. reflexivity.
  Qed.
  Lemma qgpv_nhn22_R jd u v theta ts0 tn0 stats statn i j k : interior k -> (1 <= j)%nat ->
    @qgpv_nhn22 R RNum nlon nlat kmax a omega H height jd u v theta ts0 tn0 stats statn i j k =
    @avort R RNum nlon nlat a omega (lat_nhn22 nlat) u v i j k
    + 2 * omega * sin (glat nlat j) *
      (if Nat.leb j jd then stretching H height ts0 stats theta i j k else stretching H height tn0 statn theta i j k).
  Proof.
    intros Hk Hj. unfold qgpv_nhn22. apply interior_true in Hk. rewrite Hk. cbn [nadd nmul nexp ndiv nofZ nsin RNum].
    replace (@lat_nhn22 R RNum nlat j 1) with (glat nlat j) by (symmetry; exact (lat1 nlon nlat Hlat Hlon _ lat_nhn22_ok j)).
    destruct (Nat.leb j jd); rewrite stretch_R; reflexivity.
  Qed.
  Lemma qgpv_outside_nh18 u v theta t0 stat i j k : ~ interior k ->
    @qgpv_nh18 R RNum nlon nlat kmax a omega H height u v theta t0 stat i j k = 0.
  Proof.
    intros Hk. unfold qgpv_nh18. destruct (Nat.leb 2 k && Nat.leb k (kmax - 1)) eqn:E; [|reflexivity]. apply interior_true in E. contradiction.
  Qed.
  Lemma qgpv_outside_nhn22 jd u v theta ts0 tn0 stats statn i j k : ~ interior k ->
    @qgpv_nhn22 R RNum nlon nlat kmax a omega H height jd u v theta ts0 tn0 stats statn i j k = 0.
  Proof.
    intros Hk. unfold qgpv_nhn22. destruct (Nat.leb 2 k && Nat.leb k (kmax - 1)) eqn:E; [|reflexivity]. apply interior_true in E. contradiction.
  Qed.
  Lemma stretching_mirror t0 stat theta i j k : stretching H height t0 stat (mirror nlat theta) i j k = stretching H height t0 stat theta i (nlat + 1 - j) k.
  Proof. reflexivity. Qed.
  Lemma interior_dec k : {interior k} + {~ interior k}.
  Proof. unfold interior. destruct (le_dec 2 k); destruct (le_dec k (kmax - 1)); (left; lia) || (right; lia). Qed.

  Lemma qgpv_nh18_mirror u v theta t0 stat i j k : (1 <= i <= nlon)%nat -> (1 <= j <= nlat)%nat ->
    @qgpv_nh18 R RNum nlon nlat kmax a omega H height (mirror nlat u) (negated (mirror nlat v)) (mirror nlat theta) t0 stat i j k =
    - @qgpv_nh18 R RNum nlon nlat kmax a omega H height u v theta t0 stat i (nlat + 1 - j)%nat k.
  Proof.
    intros Hi Hj. destruct (interior_dec k) as [Hk|Hk].
    - rewrite !qgpv_nh18_R by exact Hk. rewrite (avort_mirror _ lat_nh18_ok), (zmav_mirror _ lat_nh18_ok), stretching_mirror by lia. ring.
    - rewrite !qgpv_outside_nh18 by exact Hk. ring.
  Qed.
  Lemma qgpv_nhn22_mirror jd u v theta ts0 tn0 stats statn i j k : (1 <= i <= nlon)%nat -> (1 <= j <= nlat)%nat ->
    nlat = (2 * jd - 1)%nat ->
    @qgpv_nhn22 R RNum nlon nlat kmax a omega H height jd (mirror nlat u) (negated (mirror nlat v)) (mirror nlat theta) tn0 ts0 statn stats i j k =
    - @qgpv_nhn22 R RNum nlon nlat kmax a omega H height jd u v theta ts0 tn0 stats statn i (nlat + 1 - j)%nat k.
  Proof.
    intros Hi Hj Hd. destruct (interior_dec k) as [Hk|Hk].
    - rewrite !qgpv_nhn22_R by (exact Hk || lia). rewrite (avort_mirror _ lat_nhn22_ok) by lia. rewrite !stretching_mirror.
      rewrite glat_mirror by lia. rewrite sin_neg.
      destruct (Nat.eq_dec j jd) as [E|E].
      + assert (Z : glat nlat j = 0).
        { subst j. unfold glat. rewrite Hd. replace (2 * jd - 1 - 1)%nat with (2 * (jd - 1))%nat by lia. rewrite mult_INR, minus_INR by lia. cbn [INR].
          assert (0 < INR jd - 1). { assert (INR 2 <= INR jd) by (apply le_INR; lia). cbn [INR] in *. lra. } field. lra. }
        rewrite Z, sin_0. ring.
      + destruct (Nat.leb_spec j jd); destruct (Nat.leb_spec (nlat + 1 - j) jd); try lia; ring.
    - rewrite !qgpv_outside_nhn22 by exact Hk. ring.
  Qed.

  Lemma solid_body_interior U u v i j k : a <> 0 ->
    (forall i j k, u i j k = U * cos (glat nlat j)) -> (forall i j k, v i j k = 0) -> (2 <= j <= nlat - 1)%nat ->
    abs_vorticity nlon nlat a omega dphi dphi u v i j k = (2 * omega + U / a * (sin (2 * dphi) / dphi)) * sin (glat nlat j).
  Proof.
    intros Ha Hu Hv Hj. unfold abs_vorticity. rewrite !Hu, !Hv.
    assert (C := cos_glat_pos j Hj).
    assert (P : 0 < INR (nlat - 1)) by (apply lt_0_INR; lia). assert (Q := PI_RGT_0).
    assert (Dp : 0 < dphi) by (apply Rdiv_lt_0_compat; assumption).
    assert (E1 : glat nlat (j + 1) = glat nlat j + dphi).
    { unfold glat. rewrite plus_INR. cbn [INR]. field. lra. }
    assert (E2 : glat nlat (j - 1) = glat nlat j - dphi).
    { unfold glat. rewrite (minus_INR j 1) by lia. cbn [INR]. field. lra. }
    rewrite E1, E2. generalize dependent (glat nlat j). intros p C _ _. generalize dependent dphi. intros d Dp.
    rewrite cos_plus, cos_minus, sin_2a. field. split; lra.
  Qed.
End QgpvFacts.

Section QgpvMore.
  Variables (nlon nlat kmax : nat) (a omega H : R) (height : nat -> R).
  Hypothesis Hlat : (3 <= nlat)%nat.
  Hypothesis Hlon : (2 <= nlon)%nat.
  Local Notation dphi := (PI / INR (nlat - 1)).
  Variable lat : nat -> nat -> R.
  Hypothesis lat_ok : forall j d, lat j d = glat nlat (j + 1) - INR d * dphi.

  Lemma avort_pole u v i j k : (1 <= i <= nlon)%nat -> j = 1%nat \/ j = nlat ->
    @avort R RNum nlon nlat a omega lat u v i j k =
    zonal_mean nlon (@avort R RNum nlon nlat a omega lat u v) (if Nat.eqb j 1 then 2 else nlat - 1) k.
  Proof.
    intros Hi Hj. rewrite (avort_R nlon nlat a omega Hlat Hlon lat lat_ok) by lia.
    destruct Hj as [E|E]; subst j; cbn [Nat.eqb].
    - unfold zonal_mean. f_equal. apply Sum_ext. intros i' Hi'. rewrite (avort_R nlon nlat a omega Hlat Hlon lat lat_ok) by lia.
      cbn [Nat.eqb]. destruct nlat as [|[|[|n]]] eqn:E2; try lia; reflexivity.
    - destruct (Nat.eqb_spec nlat 1); [lia|]. rewrite Nat.eqb_refl.
      unfold zonal_mean. f_equal. apply Sum_ext. intros i' Hi'. rewrite (avort_R nlon nlat a omega Hlat Hlon lat lat_ok) by lia.
      destruct (Nat.eqb_spec (nlat - 1) 1); [lia|]. destruct (Nat.eqb_spec (nlat - 1) nlat); [lia|]. reflexivity.
  Qed.

  Lemma avort_inside u v i j k : (1 <= i <= nlon)%nat -> (2 <= j <= nlat - 1)%nat ->
    @avort R RNum nlon nlat a omega lat u v i j k = abs_vorticity nlon nlat a omega dphi dphi u v i j k.
  Proof.
    intros Hi Hj. rewrite (avort_R nlon nlat a omega Hlat Hlon lat lat_ok) by lia.
    destruct (Nat.eqb_spec j 1); [lia|]. destruct (Nat.eqb_spec j nlat); [lia|]. reflexivity.
  Qed.

  Lemma Sum_const lo hi c : (lo <= hi)%nat -> Sum lo hi (fun _ => c) = INR (hi - lo) * c.
  Proof.
    intros Hle. induction hi; [replace lo with 0%nat by lia; rewrite Sum_empty by lia; cbn; ring|].
    destruct (Nat.eq_dec lo (S hi)) as [E|E].
    - rewrite Sum_empty by lia. replace (S hi - lo)%nat with 0%nat by lia. cbn; ring.
    - rewrite Sum_S_r by lia. rewrite IHhi by lia. replace (S hi - lo)%nat with (S (hi - lo)) by lia. rewrite S_INR. ring.
  Qed.
  Lemma solid_body_avort U u v i j k : a <> 0 ->
    (forall i j k, u i j k = U * cos (glat nlat j)) -> (forall i j k, v i j k = 0) -> (1 <= i <= nlon)%nat -> (1 <= j <= nlat)%nat ->
    @avort R RNum nlon nlat a omega lat u v i j k =
    (2 * omega + U / a * (sin (2 * dphi) / dphi)) * sin (glat nlat (Nat.min (Nat.max j 2) (nlat - 1))).
  Proof.
    intros Ha Hu Hv Hi Hj.
    assert (G : forall i j, (1 <= i <= nlon)%nat -> (2 <= j <= nlat - 1)%nat ->
      @avort R RNum nlon nlat a omega lat u v i j k = (2 * omega + U / a * (sin (2 * dphi) / dphi)) * sin (glat nlat j)).
    { intros i' j' Hi' Hj'. rewrite avort_inside by lia. apply solid_body_interior; assumption || lia. }
    assert (P : 0 < INR nlon) by (apply lt_0_INR; lia).
    assert (ZM : forall r, (2 <= r <= nlat - 1)%nat -> zonal_mean nlon (@avort R RNum nlon nlat a omega lat u v) r k =
       (2 * omega + U / a * (sin (2 * dphi) / dphi)) * sin (glat nlat r)).
    { intros r Hr. unfold zonal_mean. rewrite (Sum_ext _ _ _ (fun _ => (2 * omega + U / a * (sin (2 * dphi) / dphi)) * sin (glat nlat r))).
      - rewrite Sum_const by lia. replace (nlon + 1 - 1)%nat with nlon by lia. unfold Rdiv. rewrite Rmult_comm, <- Rmult_assoc, Rinv_l by lra. ring.
      - intros. apply G; lia. }
    destruct (Nat.eq_dec j 1) as [E|E]; [|destruct (Nat.eq_dec j nlat) as [E'|E']].
    - subst j. rewrite avort_pole by auto. cbn [Nat.eqb]. rewrite ZM by lia. f_equal. f_equal. f_equal. lia.
    - rewrite E' at 1. rewrite avort_pole by auto. destruct (Nat.eqb_spec nlat 1); [lia|]. rewrite ZM by lia. f_equal. f_equal. f_equal. lia.
    - rewrite G by lia. f_equal. f_equal. f_equal. lia.
  Qed.
  Lemma stretching_rest t0 stat theta i j k : (forall i j k, theta i j k = t0 k) -> stretching H height t0 stat theta i j k = 0.
  Proof. intros E. unfold stretching. rewrite !E. unfold Rdiv. ring. Qed.

  Lemma wrong_spacing k : (3 <= nlon)%nat -> nlon <> (2 * (nlat - 1))%nat -> a <> 0 ->
    exists u v, @avort R RNum nlon nlat a omega lat u v 1 2 k <> abs_vorticity nlon nlat a omega (2 * PI / INR nlon) dphi u v 1 2 k.
  Proof.
    intros H3 Hne Ha. exists (fun _ _ _ => 0), (fun i _ _ => if Nat.eqb i 2 then 1 else 0).
    rewrite avort_inside by lia. unfold abs_vorticity. cbv beta.
    assert (N1 : next_lon nlon 1 = 2%nat) by (unfold next_lon; destruct (Nat.eqb_spec 1 nlon); lia).
    assert (N2 : prev_lon nlon 1 = nlon) by reflexivity. rewrite N1, N2. cbn [Nat.eqb].
    destruct (Nat.eqb_spec nlon 2); [lia|]. assert (C := cos_glat_pos nlon nlat Hlat Hlon 2 ltac:(lia)).
    assert (P : 0 < INR (nlat - 1)) by (apply lt_0_INR; lia). assert (P2 : 0 < INR nlon) by (apply lt_0_INR; lia). assert (Q := PI_RGT_0).
    intros E.
    assert (E2 : (1 - 0) / (2 * a * cos (glat nlat 2) * dphi) = (1 - 0) / (2 * a * cos (glat nlat 2) * (2 * PI / INR nlon))) by lra.
    assert (X : 2 * a * cos (glat nlat 2) <> 0) by (intro Z; apply Rmult_integral in Z; destruct Z; lra).
    set (x := 2 * a * cos (glat nlat 2)) in *.
    assert (E3 : INR (nlat - 1) / (x * PI) = INR nlon / (2 * x * PI)).
    { transitivity ((1 - 0) / (x * dphi)); [field; repeat split; lra|]. rewrite E2. field. repeat split; lra. }
    assert (E4 : INR nlon = 2 * INR (nlat - 1)).
    { replace (INR nlon) with (INR nlon / (2 * x * PI) * (2 * x * PI)) by (field; repeat split; lra).
      rewrite <- E3. field. repeat split; lra. }
    apply Hne. apply INR_eq. rewrite mult_INR. cbn [INR]. lra.
  Qed.
  Lemma right_spacing u v i j k : nlon = (2 * (nlat - 1))%nat ->
    abs_vorticity nlon nlat a omega dphi dphi u v i j k = abs_vorticity nlon nlat a omega (2 * PI / INR nlon) dphi u v i j k.
  Proof.
    intros E. replace (2 * PI / INR nlon) with dphi; [reflexivity|]. rewrite E at 1. rewrite mult_INR. cbn [INR].
    assert (P : 0 < INR (nlat - 1)) by (apply lt_0_INR; lia). field. lra.
  Qed.
End QgpvMore.
