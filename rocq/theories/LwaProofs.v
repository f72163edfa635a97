From Verif Require Import Basis SpecFacts.
Open Scope R_scope.

Lemma ltb_lt_true a b : (a < b)%nat -> Nat.ltb a b = true.
Proof. apply Nat.ltb_lt. Qed.
Lemma ltb_lt_false a b : (b <= a)%nat -> Nat.ltb a b = false.
Proof. apply Nat.ltb_ge. Qed.

Lemma anti_mask_low (ve : nat -> nat -> R) j r i : (r <= j)%nat -> anticyclonic_mask ve j r i = 0.
Proof. intros H; unfold anticyclonic_mask; rewrite ltb_lt_true by lia; reflexivity. Qed.
Lemma anti_mask_high (ve : nat -> nat -> R) j r i : (j < r)%nat ->
  anticyclonic_mask ve j r i = if Rltb (ve r i) 0 then - (1) else 0.
Proof. intros H; unfold anticyclonic_mask; rewrite ltb_lt_false by lia; reflexivity. Qed.
Lemma cyc_mask_low (ve : nat -> nat -> R) j r i : (r <= j)%nat ->
  cyclonic_mask ve j r i = if Rltb 0 (ve r i) then 1 else 0.
Proof. intros H; unfold cyclonic_mask; rewrite ltb_lt_true by lia; reflexivity. Qed.
Lemma cyc_mask_high (ve : nat -> nat -> R) j r i : (j < r)%nat -> cyclonic_mask ve j r i = 0.
Proof. intros H; unfold cyclonic_mask; rewrite ltb_lt_false by lia; reflexivity. Qed.

Lemma ra_last (c nlat : nat) (vort : nat -> nat -> R) q dmu j i : (nlat <= S j)%nat ->
  lwa_return_array nlat vort q dmu c j i = 0.
Proof. intros H; unfold lwa_return_array; rewrite ltb_lt_false by lia; reflexivity. Qed.

Lemma ra0_spec nlat (vort : nat -> nat -> R) q dmu j i : (S j < nlat)%nat ->
  lwa_return_array nlat vort q dmu 0 j i = Sum (S j) nlat (fun r => ppart (q j - vort r i) * dmu r).
Proof.
  intros H; unfold lwa_return_array; rewrite ltb_lt_true by lia.
  rewrite Sum_rsum. set (n' := (nlat - S j)%nat). replace nlat with (S j + n')%nat by lia. rewrite rsum_app.
  rewrite (rsum_zero (S j)).
  2:{ intros r Hr; rewrite anti_mask_low by lia; toR; lra. }
  toR; rewrite Rplus_0_l. apply rsum_ext; intros k Hk. f_equal.
  rewrite anti_mask_high by lia. unfold vort_e; toR.
  destruct (Rltb_spec (vort (S j + k)%nat i - q j) 0).
  - rewrite ppart_id by lra; lra.
  - rewrite ppart_0 by lra; lra.
Qed.

Lemma ra1_spec nlat (vort : nat -> nat -> R) q dmu j i : (S j < nlat)%nat ->
  lwa_return_array nlat vort q dmu 1 j i = Sum 0 (S j) (fun r => ppart (vort r i - q j) * dmu r).
Proof.
  intros H; unfold lwa_return_array; rewrite ltb_lt_true by lia.
  rewrite Sum0_rsum. rewrite (rsum_trunc nlat (S j)).
  2: lia. 2:{ intros r Hr; rewrite cyc_mask_high by lia; toR; lra. }
  apply rsum_ext; intros k Hk; toR. f_equal.
  rewrite cyc_mask_low by lia. unfold vort_e; toR.
  destruct (Rltb_spec 0 (vort k i - q j)).
  - rewrite ppart_id by lra; lra.
  - rewrite ppart_0 by lra; lra.
Qed.

(** ** specification of LWA *)
From Verif Require Import LwaSpec.

Lemma component_spec nlat vort q dmu nc j i : (j < nlat)%nat ->
  out_component (fst (lwa nlat vort q dmu true nc)) 0 j i = Some (lwa_anticyclonic nlat vort q dmu j i) /\
  out_component (fst (lwa nlat vort q dmu true nc)) 1 j i = Some (lwa_cyclonic nlat vort q dmu j i).
Proof.
  intros Hj. cbn [lwa fst out_component].
  unfold lwa_anticyclonic, lwa_cyclonic. destruct (Nat.eq_dec (S j) nlat) as [E|E].
  - rewrite !ra_last by lia. destruct (Nat.eqb_spec (S j) nlat); [split; reflexivity|contradiction].
  - destruct (Nat.eqb_spec (S j) nlat); [contradiction|]. rewrite ra0_spec, ra1_spec by lia. split; reflexivity.
Qed.

Lemma total_spec nlat vort q dmu nc j i : (j < nlat)%nat ->
  out_total (fst (lwa nlat vort q dmu false nc)) j i =
    Some (lwa_anticyclonic nlat vort q dmu j i + lwa_cyclonic nlat vort q dmu j i).
Proof.
  intros Hj. destruct (component_spec nlat vort q dmu nc j i Hj) as (H0 & H1).
  cbn [lwa fst out_component out_total] in *. injection H0 as H0. injection H1 as H1.
  rewrite <- H0, <- H1. reflexivity.
Qed.

(** rounding: sign of a rounded sum *)
Section Rnd.
  Variable rnd : R -> R.
  Hypothesis rnd_mono : monotone rnd.
  Hypothesis rnd_0 : rnd 0 = 0.

  Lemma rnd_nonneg x : 0 <= x -> 0 <= rnd x.
  Proof. intros H; rewrite <- rnd_0; apply rnd_mono; assumption. Qed.
  Lemma rnd_nonpos x : x <= 0 -> rnd x <= 0.
  Proof. intros H; rewrite <- rnd_0; apply rnd_mono; assumption. Qed.

  Lemma nsum_rnd_nonneg n f : (forall i, (i < n)%nat -> 0 <= f i) -> 0 <= @nsum R (RndNum rnd) n f.
  Proof.
    induction n as [|n IH]; intros H; cbn; [lra|].
    apply rnd_nonneg. assert (0 <= f n) by (apply H; lia).
    assert (0 <= @nsum R (RndNum rnd) n f) by (apply IH; intros; apply H; lia). lra.
  Qed.

  Lemma ra_rnd_nonneg nlat vort q dmu c j i : (forall r, (r < nlat)%nat -> 0 <= dmu r) ->
    0 <= @lwa_return_array R (RndNum rnd) nlat vort q dmu c j i.
  Proof.
    intros H; unfold lwa_return_array. destruct (Nat.ltb j (nlat - 1)); [|cbn; lra].
    apply nsum_rnd_nonneg; intros r Hr. specialize (H r Hr).
    cbn [nadd nsub nmul nopp nltb nzero none RndNum]. apply rnd_nonneg, Rmult_le_pos; [|exact H].
    apply rnd_nonneg. unfold vort_e; cbn [nsub RndNum].
    destruct c as [|c].
    - unfold anticyclonic_mask; cbn [nadd nsub nmul nopp nltb nzero none RndNum].
      destruct (Nat.ltb r (j + 1)); [lra|].
      destruct (Rltb_spec (rnd (vort r i - q j)) 0); nra.
    - unfold cyclonic_mask; cbn [nadd nsub nmul nopp nltb nzero none RndNum].
      destruct (Nat.ltb r (j + 1)); cbn [andb]; [|lra].
      destruct (Rltb_spec 0 (rnd (vort r i - q j))); nra.
  Qed.

  Lemma lwa_rnd_nonneg nlat vort q dmu flag nc :
    (forall r, (r < nlat)%nat -> 0 <= dmu r) ->
    match fst (@lwa R (RndNum rnd) nlat vort q dmu flag nc) with
    | Partitioned a => forall c j i, 0 <= a c j i
    | Single a => forall j i, 0 <= a j i
    end.
  Proof.
    intros H; unfold lwa. destruct flag; cbn [fst].
    - intros c j i; apply ra_rnd_nonneg, H.
    - intros j i. cbn [nadd RndNum]. apply rnd_nonneg.
      pose proof (ra_rnd_nonneg nlat vort q dmu 0 j i H).
      pose proof (ra_rnd_nonneg nlat vort q dmu 1 j i H). lra.
  Qed.
End Rnd.

(** zero iff undisturbed *)
Lemma spec_sum_zero_iff nlat vort q dmu j i : (S j < nlat)%nat ->
  (forall r, (r < nlat)%nat -> 0 < dmu r) ->
  (lwa_anticyclonic nlat vort q dmu j i = 0 <-> (forall r, (j < r < nlat)%nat -> q j <= vort r i)) /\
  (lwa_cyclonic nlat vort q dmu j i = 0 <-> (forall r, (r <= j)%nat -> vort r i <= q j)).
Proof.
  intros Hj Hd. unfold lwa_anticyclonic, lwa_cyclonic.
  destruct (Nat.eqb_spec (S j) nlat); [lia|]. split; split; intros H.
  - intros r Hr. assert (E : ppart (q j - vort r i) * dmu r = 0).
    { refine (Sum_eq0 (S j) nlat (fun r => ppart (q j - vort r i) * dmu r) _ H r _); [|lia].
      intros k Hk; apply Rmult_le_pos; [apply ppart_nonneg|left; apply Hd; lia]. }
    assert (0 < dmu r) by (apply Hd; lia).
    assert (P : ppart (q j - vort r i) = 0) by (destruct (Rmult_integral _ _ E); [assumption|lra]).
    apply ppart_eq0 in P; lra.
  - apply Sum_zero; intros r Hr. rewrite ppart_0; [lra|]. specialize (H r); lra || (assert (q j <= vort r i) by (apply H; lia); lra).
  - intros r Hr. assert (E : ppart (vort r i - q j) * dmu r = 0).
    { refine (Sum_eq0 0 (S j) (fun r => ppart (vort r i - q j) * dmu r) _ H r _); [|lia].
      intros k Hk; apply Rmult_le_pos; [apply ppart_nonneg|left; apply Hd; lia]. }
    assert (0 < dmu r) by (apply Hd; lia).
    assert (P : ppart (vort r i - q j) = 0) by (destruct (Rmult_integral _ _ E); [assumption|lra]).
    apply ppart_eq0 in P; lra.
  - apply Sum_zero; intros r Hr. assert (vort r i <= q j) by (apply H; lia). rewrite ppart_0; lra.
Qed.

Lemma total_zero_iff nlat vort q dmu nc j i : (S j < nlat)%nat ->
  (forall r, (r < nlat)%nat -> 0 < dmu r) ->
  (out_total (fst (lwa nlat vort q dmu false nc)) j i = Some 0 <-> undisturbed nlat vort q j i).
Proof.
  intros Hj Hd. rewrite total_spec by lia.
  destruct (spec_sum_zero_iff nlat vort q dmu j i Hj Hd) as [Ha Hc].
  assert (Pa : 0 <= lwa_anticyclonic nlat vort q dmu j i /\ 0 <= lwa_cyclonic nlat vort q dmu j i).
  { unfold lwa_anticyclonic, lwa_cyclonic. destruct (Nat.eqb_spec (S j) nlat); [split; lra|].
    split; apply Sum_nonneg; intros r Hr; (apply Rmult_le_pos; [apply ppart_nonneg|left; apply Hd; lia]). }
  unfold undisturbed. rewrite <- Ha, <- Hc. split.
  - intros E; injection E as E; lra.
  - intros [-> ->]; f_equal; lra.
Qed.

Lemma column_local nlat vort vort' q dmu flag j i i' :
  (forall r, (r < nlat)%nat -> vort r i = vort' r i') -> (j < nlat)%nat ->
  out_component (fst (lwa nlat vort q dmu flag None)) 0 j i = out_component (fst (lwa nlat vort' q dmu flag None)) 0 j i' /\
  out_component (fst (lwa nlat vort q dmu flag None)) 1 j i = out_component (fst (lwa nlat vort' q dmu flag None)) 1 j i' /\
  out_total (fst (lwa nlat vort q dmu flag None)) j i = out_total (fst (lwa nlat vort' q dmu flag None)) j i'.
Proof.
  intros H Hj.
  assert (Ea : lwa_anticyclonic nlat vort q dmu j i = lwa_anticyclonic nlat vort' q dmu j i').
  { unfold lwa_anticyclonic. destruct (Nat.eqb_spec (S j) nlat); [reflexivity|].
    apply Sum_ext; intros r Hr; rewrite H by lia; reflexivity. }
  assert (Ec : lwa_cyclonic nlat vort q dmu j i = lwa_cyclonic nlat vort' q dmu j i').
  { unfold lwa_cyclonic. destruct (Nat.eqb_spec (S j) nlat); [reflexivity|].
    apply Sum_ext; intros r Hr; rewrite H by lia; reflexivity. }
  destruct flag.
  - destruct (component_spec nlat vort q dmu None j i Hj) as [-> ->].
    destruct (component_spec nlat vort' q dmu None j i' Hj) as [-> ->].
    rewrite Ea, Ec. auto.
  - rewrite !total_spec by assumption. rewrite Ea, Ec. auto.
Qed.

Lemma affine nlat vort q dmu a b j i : 0 < a -> (j < nlat)%nat ->
  lwa_anticyclonic nlat (fun r i => a * vort r i + b) (fun r => a * q r + b) dmu j i =
    a * lwa_anticyclonic nlat vort q dmu j i /\
  lwa_cyclonic nlat (fun r i => a * vort r i + b) (fun r => a * q r + b) dmu j i =
    a * lwa_cyclonic nlat vort q dmu j i.
Proof.
  intros Ha Hj. unfold lwa_anticyclonic, lwa_cyclonic. destruct (Nat.eqb_spec (S j) nlat); [split; lra|].
  rewrite <- !Sum_scal. split; apply Sum_ext; intros r Hr.
  - replace (a * q j + b - (a * vort r i + b)) with (a * (q j - vort r i)) by lra.
    rewrite ppart_scal by lra; lra.
  - replace (a * vort r i + b - (a * q j + b)) with (a * (vort r i - q j)) by lra.
    rewrite ppart_scal by lra; lra.
Qed.

Lemma affine_out nlat vort q dmu a b j i : 0 < a -> (j < nlat)%nat ->
  let sv := fun r i => a * vort r i + b in
  let sq := fun r => a * q r + b in
  (forall c, (c < 2)%nat -> exists x,
    out_component (fst (lwa nlat vort q dmu true None)) c j i = Some x /\
    out_component (fst (lwa nlat sv sq dmu true None)) c j i = Some (a * x)) /\
  exists x, out_total (fst (lwa nlat vort q dmu false None)) j i = Some x /\
    out_total (fst (lwa nlat sv sq dmu false None)) j i = Some (a * x).
Proof.
  intros Ha Hj sv sq. destruct (affine nlat vort q dmu a b j i Ha Hj) as [E0 E1].
  fold sv sq in E0, E1.
  destruct (component_spec nlat vort q dmu None j i Hj) as [F0 F1].
  destruct (component_spec nlat sv sq dmu None j i Hj) as [G0 G1].
  split.
  - intros c Hc. destruct c as [|[|c]]; [| |lia].
    + eexists; split; [exact F0|]. rewrite G0, E0; reflexivity.
    + eexists; split; [exact F1|]. rewrite G1, E1; reflexivity.
  - eexists; split; [apply total_spec; assumption|]. rewrite total_spec by assumption.
    rewrite E0, E1. f_equal; lra.
Qed.

Lemma bigsigma_spec nlat vort q dmu flag f j i : (j < nlat)%nat ->
  exists s, snd (lwa nlat vort q dmu flag (Some f)) = Some s /\
            s j i = forcing_integral nlat vort q dmu f j i.
Proof.
  intros Hj. exists (lwa_bigsigma nlat vort q dmu f). split; [destruct flag; reflexivity|].
  unfold lwa_bigsigma, forcing_integral.
  destruct (Nat.eqb_spec (S j) nlat) as [E|E].
  - rewrite ltb_lt_false by lia. reflexivity.
  - rewrite ltb_lt_true by lia. rewrite !Sum_rsum.
    set (n' := (nlat - S j)%nat). replace nlat with (S j + n')%nat at 1 by lia. rewrite rsum_app.
    rewrite Nat.sub_0_r. unfold Rminus. rewrite <- rsum_opp. f_equal.
    + apply rsum_ext; intros r Hr. rewrite anti_mask_low, cyc_mask_low by lia. unfold vort_e; toR.
      cbn [Nat.add]. unfold indic.
      destruct (Rltb_spec 0 (vort r i - q j)), (Rlt_dec (q j) (vort r i)); lra.
    + apply rsum_ext; intros r Hr. rewrite anti_mask_high, cyc_mask_high by lia. unfold vort_e; toR.
      unfold indic.
      destruct (Rltb_spec (vort (S j + r)%nat i - q j) 0), (Rlt_dec (vort (S j + r)%nat i) (q j)); lra.
Qed.

Lemma forcing_linear nlat vort q dmu f g a b j i :
  forcing_integral nlat vort q dmu (fun r i => a * f r i + b * g r i) j i =
  a * forcing_integral nlat vort q dmu f j i + b * forcing_integral nlat vort q dmu g j i.
Proof.
  unfold forcing_integral. destruct (Nat.eqb_spec (S j) nlat); [lra|].
  rewrite (Sum_ext 0 (S j) _ (fun r => a * (indic (Rlt_dec (q j) (vort r i)) * f r i * dmu r) + b * (indic (Rlt_dec (q j) (vort r i)) * g r i * dmu r))) by (intros; lra).
  rewrite (Sum_ext (S j) nlat _ (fun r => a * (indic (Rlt_dec (vort r i) (q j)) * f r i * dmu r) + b * (indic (Rlt_dec (vort r i) (q j)) * g r i * dmu r))) by (intros; lra).
  rewrite !Sum_plus, !Sum_scal. lra.
Qed.

Lemma bigsigma_linear nlat vort q dmu flag f g a b j i : (j < nlat)%nat ->
  exists sf sg s,
    snd (lwa nlat vort q dmu flag (Some f)) = Some sf /\
    snd (lwa nlat vort q dmu flag (Some g)) = Some sg /\
    snd (lwa nlat vort q dmu flag (Some (fun r i => a * f r i + b * g r i))) = Some s /\
    s j i = a * sf j i + b * sg j i.
Proof.
  intros Hj.
  destruct (bigsigma_spec nlat vort q dmu flag f j i Hj) as (sf & Hsf & Ef).
  destruct (bigsigma_spec nlat vort q dmu flag g j i Hj) as (sg & Hsg & Eg).
  destruct (bigsigma_spec nlat vort q dmu flag (fun r i => a * f r i + b * g r i) j i Hj) as (s & Hs & Es).
  exists sf, sg, s. repeat split; try assumption. rewrite Es, Ef, Eg. apply forcing_linear.
Qed.

(** 1-Lipschitz in the field, for the weighted L1 distance along the column *)
Lemma ppart_lip x y : Rabs (ppart x - ppart y) <= Rabs (x - y).
Proof.
  unfold ppart, Rmax. destruct (Rle_dec x 0), (Rle_dec y 0);
    unfold Rabs; repeat destruct Rcase_abs; lra.
Qed.
Lemma Sum_abs lo hi f : Rabs (Sum lo hi f) <= Sum lo hi (fun r => Rabs (f r)).
Proof.
  rewrite !Sum_rsum. induction (hi - lo)%nat as [|n IH]; [rewrite !rsum_0, Rabs_R0; lra|].
  rewrite !rsum_S. eapply Rle_trans; [apply Rabs_triang|]. lra.
Qed.
Lemma lipschitz nlat vort vort' q dmu j i : (j < nlat)%nat ->
  (forall r, (r < nlat)%nat -> 0 <= dmu r) ->
  exists x y, out_total (fst (lwa nlat vort q dmu false None)) j i = Some x /\
    out_total (fst (lwa nlat vort' q dmu false None)) j i = Some y /\
    Rabs (x - y) <= Sum 0 nlat (fun r => Rabs (vort r i - vort' r i) * dmu r).
Proof.
  intros Hj Hd. do 2 eexists. split; [apply total_spec; assumption|]. split; [apply total_spec; assumption|].
  unfold lwa_anticyclonic, lwa_cyclonic. destruct (Nat.eqb_spec (S j) nlat).
  - replace (0 + 0 - (0 + 0)) with 0 by lra. rewrite Rabs_R0. apply Sum_nonneg; intros r Hr.
    apply Rmult_le_pos; [apply Rabs_pos|apply Hd; lia].
  - rewrite (Sum_split 0 (S j) nlat) by lia.
    match goal with |- Rabs (?a + ?b - (?c + ?d)) <= _ => replace (a + b - (c + d)) with ((b - d) + (a - c)) by lra end.
    eapply Rle_trans; [apply Rabs_triang|]. apply Rplus_le_compat; rewrite <- Sum_minus;
      (eapply Rle_trans; [apply Sum_abs|]); apply Sum_le; intros r Hr;
      rewrite <- Rmult_minus_distr_r, Rabs_mult, (Rabs_right (dmu r)) by (apply Rle_ge, Hd; lia);
      apply Rmult_le_compat_r; try (apply Hd; lia);
      (eapply Rle_trans; [apply ppart_lip|]); right; [f_equal; lra|].
    rewrite <- Rabs_Ropp; f_equal; lra.
Qed.

Lemma symmetric_zero nlat (vort : nat -> nat -> R) q dmu nc : nondecreasing nlat q ->
  (forall r i, (r < nlat)%nat -> vort r i = q r) ->
  (forall r, (r < nlat)%nat -> 0 < dmu r) ->
  forall j i, (S j < nlat)%nat -> out_total (fst (lwa nlat vort q dmu false nc)) j i = Some 0.
Proof.
  intros Hq Hv Hd j i Hj. apply total_zero_iff; [assumption..|]. split; intros r Hr.
  - rewrite Hv by lia. apply Hq; lia.
  - rewrite Hv by lia. apply Hq; lia.
Qed.

Lemma nonzero_example :
  out_total (fst (lwa 2 (fun r (_ : nat) => match r with O => 1 | S _ => 0 end) (fun _ => 0) (fun _ => 1) false None)) 0 0 = Some 1.
Proof.
  rewrite total_spec by lia. f_equal. unfold lwa_anticyclonic, lwa_cyclonic, Sum, ppart, Rmax; cbn.
  repeat destruct Rle_dec; lra.
Qed.
