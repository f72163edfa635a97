(** Relative accuracy of basis.lwa under rounding. *)
From Verif Require Import Base BaseFacts Spec SpecFacts Basis LwaProofs RoundSpec.
From Coq Require Import Lra Lia Psatz.
Open Scope R_scope.

Lemma abs_both x y : Rabs x <= y -> - y <= x <= y.
Proof. unfold Rabs. destruct (Rcase_abs x); lra. Qed.
Section Accuracy.
  Variables (u : R) (rnd : R -> R).
  Hypothesis H : relative_rounding u rnd.
  Local Notation Rd := (RndNum rnd).
  Lemma u_range : 0 <= u < 1. Proof. exact (proj1 H). Qed.
  Lemma r0 : rnd 0 = 0.
  Proof. pose proof (proj2 H 0) as E. rewrite Rabs_R0, Rmult_0_r, Rminus_0_r in E. destruct (Req_dec (rnd 0) 0) as [E0|E0]; [exact E0|]. pose proof (Rabs_pos_lt _ E0). lra. Qed.
  Lemma r_pos x : 0 <= x -> (1 - u) * x <= rnd x <= (1 + u) * x.
  Proof. intros Hx. pose proof (proj2 H x) as E. rewrite (Rabs_pos_eq x) in E by exact Hx. apply abs_both in E. lra. Qed.
  Lemma r_neg x : x <= 0 -> (1 + u) * x <= rnd x <= (1 - u) * x.
  Proof. intros Hx. pose proof (proj2 H x) as E. rewrite (Rabs_left1 x) in E by exact Hx. apply abs_both in E. lra. Qed.
  Lemma low_pow n : 0 <= (1 - u) ^ n. Proof. pose proof u_range. apply pow_le. lra. Qed.
  Lemma high_pow n : 1 <= (1 + u) ^ n. Proof. pose proof u_range. apply pow_R1_Rle. lra. Qed.
  Lemma low_pow1 n : (1 - u) ^ n <= 1. Proof. pose proof u_range. apply Rle_trans with (1 ^ n); [apply pow_incr; lra|rewrite pow1; lra]. Qed.
  Lemma within_pos n x y : 0 <= x -> within u n x y -> 0 <= y.
  Proof. intros Hx [W _]. pose proof (low_pow n). nra. Qed.
  Lemma within_refl x : within u 0 x x.
  Proof. unfold within. cbn. lra. Qed.
  Lemma within_rnd n x y : 0 <= x -> within u n x y -> within u (S n) x (rnd y).
  Proof.
    intros Hx W. pose proof (within_pos n x y Hx W) as Hy. destruct W as [W1 W2]. destruct (r_pos y Hy) as [R1 R2]. pose proof u_range. unfold within. cbn [pow]. split.
    - apply Rle_trans with ((1 - u) * y); [|exact R1]. rewrite Rmult_assoc. apply Rmult_le_compat_l; lra.
    - apply Rle_trans with ((1 + u) * y); [exact R2|]. rewrite Rmult_assoc. apply Rmult_le_compat_l; lra.
  Qed.
  Lemma within_mul n x y d : 0 <= d -> within u n x y -> within u n (x * d) (y * d).
  Proof. intros Hd [W1 W2]. split; rewrite <- Rmult_assoc; apply Rmult_le_compat_r; assumption. Qed.
  Lemma within_weaken n m x y : 0 <= x -> (n <= m)%nat -> within u n x y -> within u m x y.
  Proof.
    intros Hx Hm [W1 W2]. pose proof u_range. replace m with (n + (m - n))%nat by lia. unfold within. rewrite !pow_add. pose proof (low_pow n). pose proof (high_pow (m - n)). pose proof (high_pow n). pose proof (low_pow (m - n)).
    pose proof (low_pow1 (m - n)). split.
    - apply Rle_trans with ((1 - u) ^ n * x); [|exact W1]. rewrite <- (Rmult_1_r ((1 - u) ^ n)) at 2. apply Rmult_le_compat_r; [exact Hx|]. apply Rmult_le_compat_l; assumption.
    - apply Rle_trans with ((1 + u) ^ n * x); [exact W2|]. rewrite <- (Rmult_1_r ((1 + u) ^ n)) at 1. apply Rmult_le_compat_r; [exact Hx|]. apply Rmult_le_compat_l; [apply Rle_trans with 1; [apply Rle_0_1|assumption]|assumption].
  Qed.
  Lemma within_add n a b a' b' : within u n a a' -> within u n b b' -> within u n (a + b) (a' + b').
  Proof. intros [A1 A2] [B1 B2]. unfold within. rewrite !Rmult_plus_distr_l. split; apply Rplus_le_compat; assumption. Qed.

  Lemma within_nsum m n (f g : nat -> R) : (forall r, (r < n)%nat -> 0 <= f r /\ within u m (f r) (g r)) ->
    0 <= @nsum R RNum n f /\ within u (m + n) (@nsum R RNum n f) (@nsum R Rd n g).
  Proof.
    induction n as [|n IH]; intros Hf; cbn [nsum nzero nadd RNum RndNum]; [split; [lra|]; unfold within; rewrite !Rmult_0_r; lra|].
    destruct IH as [I1 I2]; [auto|]. destruct (Hf n (Nat.lt_succ_diag_r n)) as [F1 F2]. split; [lra|]. rewrite Nat.add_succ_r. apply within_rnd; [lra|].
    apply within_add; [exact I2|]. apply (within_weaken m); [exact F1|lia|exact F2].
  Qed.

  Lemma term_low x q d : 0 <= d -> within u 3 (ppart (q - x) * d) (rnd (rnd (rnd (x - q) * (if Rltb (rnd (x - q)) 0 then - (1) else 0)) * d)).
  Proof.
    intros Hd. pose proof u_range. unfold ppart. destruct (Rle_dec 0 (x - q)) as [L|L].
    - destruct (r_pos _ L) as [P1 _]. assert (0 <= rnd (x - q)) by nra. rewrite Rmax_right by lra. destruct (Rltb_spec (rnd (x - q)) 0); [lra|]. rewrite Rmult_0_r, r0, Rmult_0_l, r0. unfold within. rewrite !Rmult_0_r. lra.
    - assert (P : x - q < 0) by lra. destruct (r_neg (x - q) ltac:(lra)) as [N1 N2]. assert (rnd (x - q) < 0) by nra. rewrite Rmax_left by lra. destruct (Rltb_spec (rnd (x - q)) 0); [|lra].
      apply within_rnd; [apply Rmult_le_pos; lra|]. apply within_mul; [exact Hd|]. apply within_rnd; [lra|]. unfold within. cbn [pow]. lra.
  Qed.
  Lemma term_high x q d : 0 <= d -> within u 3 (ppart (x - q) * d) (rnd (rnd (rnd (x - q) * (if Rltb 0 (rnd (x - q)) then 1 else 0)) * d)).
  Proof.
    intros Hd. pose proof u_range. unfold ppart. destruct (Rle_dec (x - q) 0) as [L|L].
    - destruct (r_neg _ L) as [_ P1]. assert (rnd (x - q) <= 0) by nra. rewrite Rmax_right by lra. destruct (Rltb_spec 0 (rnd (x - q))); [lra|]. rewrite Rmult_0_r, r0, Rmult_0_l, r0. unfold within. rewrite !Rmult_0_r. lra.
    - assert (P : 0 < x - q) by lra. destruct (r_pos (x - q) ltac:(lra)) as [N1 N2]. assert (0 < rnd (x - q)) by nra. rewrite Rmax_left by lra. destruct (Rltb_spec 0 (rnd (x - q))); [|lra].
      apply within_rnd; [apply Rmult_le_pos; lra|]. apply within_mul; [exact Hd|]. apply within_rnd; [lra|]. unfold within. cbn [pow]. lra.
  Qed.

  (** |y - x| is at most n relative errors of a *)
  Definition off (n : nat) (a x y : R) : Prop := Rabs x <= a /\ Rabs (y - x) <= ((1 + u) ^ n - 1) * a.
  Lemma off_rnd n a x y : off n a x y -> off (S n) a x (rnd y).
  Proof.
    intros [A E]. split; [exact A|]. pose proof u_range as U. pose proof (proj2 H y) as Y. pose proof (Rabs_triang (rnd y - y) (y - x)) as T. replace (rnd y - y + (y - x)) with (rnd y - x) in T by ring.
    pose proof (Rabs_triang (y - x) x) as T2. replace (y - x + x) with y in T2 by ring. cbn [pow]. set (p := (1 + u) ^ n) in *. clearbody p.
    apply Rle_trans with (u * Rabs y + (p - 1) * a); [lra|]. assert (u * Rabs y <= u * ((p - 1) * a + a)) by (apply Rmult_le_compat_l; lra). nra.
  Qed.
  Lemma off_mul n a x y d : 0 <= d -> off n a x y -> off n (a * d) (x * d) (y * d).
  Proof.
    intros D [A E]. split; [rewrite Rabs_mult, (Rabs_pos_eq d D); apply Rmult_le_compat_r; assumption|]. replace (y * d - x * d) with ((y - x) * d) by ring.
    rewrite Rabs_mult, (Rabs_pos_eq d D), <- Rmult_assoc. apply Rmult_le_compat_r; assumption.
  Qed.
  Lemma off_weaken n m a x y : (n <= m)%nat -> off n a x y -> off m a x y.
  Proof.
    intros L [A E]. split; [exact A|]. eapply Rle_trans; [exact E|]. apply Rmult_le_compat_r; [pose proof (Rabs_pos x); lra|]. apply Rplus_le_compat_r. apply Rle_pow; [pose proof u_range; lra|exact L].
  Qed.
  Lemma off_add n a b x y x' y' : off n a x x' -> off n b y y' -> off n (a + b) (x + y) (x' + y').
  Proof.
    intros [A E] [B F]. split; [eapply Rle_trans; [apply Rabs_triang|]; apply Rplus_le_compat; assumption|]. replace (x' + y' - (x + y)) with ((x' - x) + (y' - y)) by ring.
    rewrite Rmult_plus_distr_l. eapply Rle_trans; [apply Rabs_triang|]. apply Rplus_le_compat; assumption.
  Qed.
  Lemma off_nsum m n (a f g : nat -> R) : (forall r, (r < n)%nat -> off m (a r) (f r) (g r)) -> off (m + n) (@nsum R RNum n a) (@nsum R RNum n f) (@nsum R Rd n g).
  Proof.
    induction n as [|n IH]; intros Hf; cbn [nsum nzero nadd RNum RndNum]; [split; [rewrite Rabs_R0; lra|rewrite Rminus_0_r, Rabs_R0, Rmult_0_r; lra]|].
    rewrite Nat.add_succ_r. apply off_rnd, off_add; [apply IH; auto|]. apply (off_weaken m); [lia|auto].
  Qed.
  Lemma off_unit x s : Rabs s <= 1 -> off 1 (Rabs x * Rabs s) (x * s) (x * rnd s).
  Proof.
    intros S. split; [rewrite Rabs_mult; lra|]. replace (x * rnd s - x * s) with (x * (rnd s - s)) by ring. rewrite Rabs_mult. cbn [pow]. pose proof (proj2 H s) as E. pose proof (Rabs_pos x).
    apply Rle_trans with (Rabs x * (u * Rabs s)); [apply Rmult_le_compat_l; assumption|]. lra.
  Qed.

  Variables (nlat : nat) (vort : nat -> nat -> R) (q dmu : nat -> R).
  Hypothesis Hd : forall r, (r < nlat)%nat -> 0 <= dmu r.
  Lemma component_accurate c j i : 0 <= @lwa_return_array R RNum nlat vort q dmu c j i /\
    within u (nlat + 3) (@lwa_return_array R RNum nlat vort q dmu c j i) (@lwa_return_array R Rd nlat vort q dmu c j i).
  Proof.
    unfold lwa_return_array. destruct (Nat.ltb j (nlat - 1)); [|cbn [nzero RNum RndNum]; split; [lra|unfold within; rewrite !Rmult_0_r; lra]]. rewrite (Nat.add_comm nlat 3). apply within_nsum. intros r Hr. specialize (Hd r Hr).
    assert (Z : 0 <= 0 /\ within u 3 0 0) by (split; [lra|unfold within; rewrite !Rmult_0_r; lra]).
    destruct c; unfold anticyclonic_mask, cyclonic_mask, vort_e; cbn [nmul nsub nopp none nzero nltb RNum RndNum].
    - destruct (Nat.ltb r (j + 1)).
      + rewrite !Rmult_0_r, !Rmult_0_l, r0, Rmult_0_l, r0. exact Z.
      + replace ((vort r i - q j) * (if Rltb (vort r i - q j) 0 then - (1) else 0) * dmu r) with (ppart (q j - vort r i) * dmu r).
        * split; [apply Rmult_le_pos; [apply Rmax_r|exact Hd]|apply term_low, Hd].
        * f_equal. unfold ppart. destruct (Rltb_spec (vort r i - q j) 0); [rewrite Rmax_left by lra; ring|rewrite Rmax_right by lra; ring].
    - destruct (Nat.ltb r (j + 1)); cbn [andb].
      + replace ((vort r i - q j) * (if Rltb 0 (vort r i - q j) then 1 else 0) * dmu r) with (ppart (vort r i - q j) * dmu r).
        * split; [apply Rmult_le_pos; [apply Rmax_r|exact Hd]|apply term_high, Hd].
        * f_equal. unfold ppart. destruct (Rltb_spec 0 (vort r i - q j)); [rewrite Rmax_left by lra; ring|rewrite Rmax_right by lra; ring].
      + rewrite !Rmult_0_r, !Rmult_0_l, r0, Rmult_0_l, r0. exact Z.
  Qed.
  (** the masks are the same with and without rounding *)
  Lemma sign_same x y : Rltb (rnd (x - y)) 0 = Rltb (x - y) 0 /\ Rltb 0 (rnd (x - y)) = Rltb 0 (x - y).
  Proof.
    pose proof u_range. destruct (Rtotal_order (x - y) 0) as [L|[L|L]].
    - destruct (r_neg (x - y) ltac:(lra)) as [_ N]. assert (rnd (x - y) < 0) by nra. split; destruct (Rltb_spec (rnd (x - y)) 0), (Rltb_spec (x - y) 0), (Rltb_spec 0 (rnd (x - y))), (Rltb_spec 0 (x - y)); reflexivity || lra.
    - rewrite L, r0. split; reflexivity.
    - destruct (r_pos (x - y) ltac:(lra)) as [N _]. assert (0 < rnd (x - y)) by nra. split; destruct (Rltb_spec (rnd (x - y)) 0), (Rltb_spec (x - y) 0), (Rltb_spec 0 (rnd (x - y))), (Rltb_spec 0 (x - y)); reflexivity || lra.
  Qed.
  Local Notation mask_sum j r i := (@anticyclonic_mask R RNum (@vort_e R RNum vort q j) j r i + @cyclonic_mask R RNum (@vort_e R RNum vort q j) j r i).
  Lemma forcing_accurate f j i : (S j < nlat)%nat ->
    off (3 + nlat) (@nsum R RNum nlat (fun r => Rabs (f r i) * Rabs (mask_sum j r i) * dmu r)) (@lwa_bigsigma R RNum nlat vort q dmu f j i) (@lwa_bigsigma R Rd nlat vort q dmu f j i).
  Proof.
    intros Hj. unfold lwa_bigsigma. rewrite ltb_lt_true by lia. apply off_nsum. intros r Hr. specialize (Hd r Hr).
    assert (M : @anticyclonic_mask R Rd (@vort_e R Rd vort q j) j r i = @anticyclonic_mask R RNum (@vort_e R RNum vort q j) j r i /\ @cyclonic_mask R Rd (@vort_e R Rd vort q j) j r i = @cyclonic_mask R RNum (@vort_e R RNum vort q j) j r i).
    { unfold anticyclonic_mask, cyclonic_mask, vort_e. cbn [nltb nsub nzero none nopp RNum RndNum]. destruct (sign_same (vort r i) (q j)) as [-> ->]. split; reflexivity. }
    destruct M as [-> ->]. cbn [nmul nadd RNum RndNum]. apply off_rnd, off_mul; [exact Hd|]. apply off_rnd. apply off_unit.
    unfold anticyclonic_mask, cyclonic_mask. cbn [nltb nzero none nopp RNum]. destruct (Nat.ltb r (j + 1)); cbn [andb]; [destruct (Rltb 0 _)|destruct (Rltb _ 0)]; unfold Rabs; destruct (Rcase_abs _); lra.
  Qed.
  Lemma size_spec f j i : (S j < nlat)%nat -> @nsum R RNum nlat (fun r => Rabs (f r i) * Rabs (mask_sum j r i) * dmu r) = forcing_size nlat vort q dmu f j i.
  Proof.
    intros Hj. unfold forcing_size. destruct (Nat.eqb_spec (S j) nlat) as [E|E]; [lia|]. rewrite !Sum_rsum. change (@nsum R RNum) with (@nsum R RNum).
    set (n' := (nlat - S j)%nat). replace nlat with (S j + n')%nat at 1 by lia. rewrite rsum_app. rewrite Nat.sub_0_r. f_equal.
    - apply rsum_ext; intros r Hr. rewrite anti_mask_low, cyc_mask_low by lia. unfold vort_e; toR. cbn [Nat.add]. unfold indic.
      destruct (Rltb_spec 0 (vort r i - q j)), (Rlt_dec (q j) (vort r i)); try lra; rewrite Rplus_0_l, ?Rabs_R1, ?Rabs_R0; lra.
    - apply rsum_ext; intros r Hr. rewrite anti_mask_high, cyc_mask_high by lia. unfold vort_e; toR. unfold indic.
      destruct (Rltb_spec (vort (S j + r)%nat i - q j) 0), (Rlt_dec (vort (S j + r)%nat i) (q j)); try lra; rewrite Rplus_0_r, ?Rabs_Ropp, ?Rabs_R1, ?Rabs_R0; lra.
  Qed.
End Accuracy.
