(** Accuracy of the wave-activity kernels under rounding. *)
From Verif Require Import Base BaseFacts Spec SpecFacts Fortran Flux FluxSpec FluxProofs RoundSpec AccuracyProofs.
From Coq Require Import Lra Lia Psatz.
Open Scope R_scope.

Lemma diff_by_derivative (f f' : R -> R) : (forall c, derivable_pt_lim f c (f' c)) -> (forall c, Rabs (f' c) <= 1) ->
  forall x y, Rabs (f y - f x) <= Rabs (y - x).
Proof.
  intros Hd Hb. assert (K : forall x y, x < y -> Rabs (f y - f x) <= Rabs (y - x)).
  { intros x y L. destruct (MVT_cor2 f f' x y L) as (c & E & _); [intros c _; apply Hd|]. rewrite E, Rabs_mult. rewrite <- (Rmult_1_l (Rabs (y - x))) at 2.
    apply Rmult_le_compat_r; [apply Rabs_pos|apply Hb]. }
  intros x y. destruct (Rtotal_order x y) as [L|[->|L]]; [apply K, L| |].
  - rewrite !Rminus_diag_eq by reflexivity. lra.
  - rewrite (Rabs_minus_sym (f y)), (Rabs_minus_sym y). apply K, L.
Qed.
Lemma cos_close x y : Rabs (cos y - cos x) <= Rabs (y - x).
Proof.
  apply (diff_by_derivative cos (fun c => - sin c)); [intros c; apply derivable_pt_lim_cos|]. intros c. rewrite Rabs_Ropp. destruct (SIN_bound c). apply Rabs_le. lra.
Qed.
Lemma exp_neg_close x y : 0 <= x -> 0 <= y -> Rabs (exp (- y) - exp (- x)) <= Rabs (y - x).
Proof.
  assert (K : forall x y, 0 <= x -> x < y -> Rabs (exp (- y) - exp (- x)) <= Rabs (y - x)).
  { intros a b Ha L. pose proof (exp_increasing (- b) (- a) ltac:(lra)). rewrite Rabs_left by lra. rewrite Rabs_pos_eq by lra.
    pose proof (exp_ineq1_le (- (b - a))) as E. replace (- b) with (- a + - (b - a)) by ring. rewrite exp_plus. pose proof (exp_pos (- a)) as P.
    assert (exp (- a) <= 1) by (rewrite <- exp_0; destruct (Req_dec a 0) as [->|]; [rewrite Ropp_0; lra|left; apply exp_increasing; lra]). nra. }
  intros Hx Hy. destruct (Rtotal_order x y) as [L|[->|L]]; [apply K; assumption|rewrite !Rminus_diag_eq by reflexivity; lra|].
  rewrite Rabs_minus_sym, (Rabs_minus_sym y). apply K; assumption.
Qed.

Section Kernel.
  Variables (u : R) (rnd : R -> R).
  Hypothesis H : relative_rounding u rnd.
  Local Notation Rd := (RndNum rnd).
  Local Notation off := (off u).
  Let U := u_range u rnd H.

  Lemma pow_ge1 n : 1 <= (1 + u) ^ n. Proof. exact (high_pow u rnd H n). Qed.
  Lemma off_prod n m a b x y z w : off n a x y -> off m b z w -> off (n + m) (a * b) (x * z) (y * w).
  Proof.
    intros [A E] [B G]. pose proof (Rabs_pos x). pose proof (Rabs_pos z). split; [rewrite Rabs_mult; apply Rmult_le_compat; assumption|].
    replace (y * w - x * z) with ((y - x) * z + y * (w - z)) by ring. eapply Rle_trans; [apply Rabs_triang|]. rewrite !Rabs_mult, pow_add.
    pose proof (Rabs_triang (y - x) x) as T. replace (y - x + x) with y in T by ring. pose proof (pow_ge1 n) as P. pose proof (pow_ge1 m) as Q. pose proof (Rabs_pos (y - x)). pose proof (Rabs_pos (w - z)). pose proof (Rabs_pos y).
    set (p := (1 + u) ^ n) in *. set (q := (1 + u) ^ m) in *. clearbody p q.
    assert (Y : Rabs y <= p * a) by lra.
    assert (X1 : Rabs (y - x) * Rabs z <= (p - 1) * a * b) by (apply Rmult_le_compat; assumption).
    assert (X2 : Rabs y * Rabs (w - z) <= p * a * ((q - 1) * b)) by (apply Rmult_le_compat; assumption).
    replace ((p * q - 1) * (a * b)) with ((p - 1) * a * b + p * a * ((q - 1) * b)) by ring. lra.
  Qed.
  Lemma off_exact x : off 0 (Rabs x) x x.
  Proof. split; [lra|]. rewrite Rminus_diag_eq by reflexivity. rewrite Rabs_R0. cbn. lra. Qed.
  Lemma off_exact_pos x : 0 <= x -> off 0 x x x.
  Proof. intros X. rewrite <- (Rabs_pos_eq x X) at 1. apply off_exact. Qed.
  Lemma off_more n a b x y : a <= b -> off n a x y -> off n b x y.
  Proof. intros L [A E]. split; [lra|]. eapply Rle_trans; [exact E|]. apply Rmult_le_compat_l; [pose proof (pow_ge1 n); lra|exact L]. Qed.
  Lemma off_neg n a x y : off n a x y -> off n a (- x) (- y).
  Proof. intros [A E]. split; [rewrite Rabs_Ropp; exact A|]. replace (- y - - x) with (- (y - x)) by ring. rewrite Rabs_Ropp. exact E. Qed.
  Lemma off_sub n a b x y x' y' : off n a x x' -> off n b y y' -> off n (a + b) (x - y) (x' - y').
  Proof. intros A B. unfold Rminus. apply off_add; [exact A|apply off_neg, B]. Qed.
  Lemma off_0 n : off n 0 0 0.
  Proof. split; [rewrite Rabs_R0; lra|rewrite Rminus_0_r, Rabs_R0; lra]. Qed.
  Lemma off_lift (f : R -> R) n a b x y : a <= b -> Rabs (f x) <= b -> Rabs (f y - f x) <= Rabs (y - x) -> off n a x y -> off n b (f x) (f y).
  Proof.
    intros L B C [A E]. split; [exact B|]. eapply Rle_trans; [exact C|]. eapply Rle_trans; [exact E|]. apply Rmult_le_compat_l; [pose proof (pow_ge1 n); lra|exact L].
  Qed.

  Variable D : fluxdims R.
  Variables (pv : arr3 R) (qref : arr2 R).
  Hypothesis Ha : 0 <= f_a D.
  Hypothesis Hs : (2 <= nd D)%nat /\ jmax D = (2 * nd D - 1)%nat.
  Hypothesis Hint : forall n, (n <= jmax D)%nat -> rnd (INR n) = INR n.

  Lemma float_exact r d : (d <= r)%nat -> (r <= jmax D)%nat -> @nfloat R Rd r d = INR (r - d).
  Proof. intros L M. unfold nfloat. cbn [nofZ RndNum]. rewrite <- Nat2Z.inj_sub by exact L. rewrite <- INR_IZR_INZ. apply Hint. lia. Qed.
  Lemma spacing_pos : 0 < row_spacing D.
  Proof. unfold row_spacing. apply Rdiv_lt_0_compat; [apply PI_RGT_0|]. apply lt_0_INR. lia. Qed.
  Lemma spacing_off : off 2 (row_spacing D) (row_spacing D) (@Flux.dp R Rd D).
  Proof.
    unfold Flux.dp. cbn [ndiv npi RndNum]. unfold nofnat. cbn [nofZ RndNum]. rewrite <- INR_IZR_INZ, Hint by lia. unfold row_spacing, Rdiv.
    assert (P : 0 < / INR (jmax D - 1)) by (apply Rinv_0_lt_compat, lt_0_INR; lia).
    apply (off_rnd u rnd H), off_mul; [lra|]. apply (off_rnd u rnd H), off_exact_pos. pose proof PI_RGT_0. lra.
  Qed.
  Lemma steps_off r : (1 <= r <= nd D)%nat -> off 3 (PI / 2) (row_spacing D * INR (r - 1)) (rnd (@Flux.dp R Rd D * @nfloat R Rd r 1)).
  Proof.
    intros Hr. rewrite float_exact by lia. apply (off_rnd u rnd H). apply (off_more 2 (row_spacing D * INR (r - 1))).
    - unfold row_spacing. assert (P : 0 < INR (jmax D - 1)) by (apply lt_0_INR; lia). apply (Rmult_le_reg_r (INR (jmax D - 1))); [exact P|].
      replace (PI / INR (jmax D - 1) * INR (r - 1) * INR (jmax D - 1)) with (PI * INR (r - 1)) by (field; lra).
      assert (L : 2 * INR (r - 1) <= INR (jmax D - 1)) by (replace 2 with (INR 2) by reflexivity; rewrite <- mult_INR; apply le_INR; lia). pose proof PI_RGT_0. nra.
    - apply off_mul; [apply pos_INR|exact spacing_off].
  Qed.
  Lemma lat_off r : (1 <= r <= nd D)%nat -> off 4 PI (FluxSpec.latitude D r) (@Flux.lat_of R Rd D r 1).
  Proof.
    intros Hr. pose proof PI_RGT_0. unfold FluxSpec.latitude, Flux.lat_of. cbn [nmul nsub RndNum npi]. pose proof (steps_off r Hr) as St. assert (Er : INR r - 1 = INR (r - 1)) by (rewrite minus_INR by lia; cbn; lra). rewrite Er. destruct (is_nhem D).
    - apply (off_more 4 (PI / 2)); [lra|]. replace (INR (r - 1) * row_spacing D) with (row_spacing D * INR (r - 1)) by ring. apply (off_weaken u rnd H 3 4 _ _ _ ltac:(lia) St).
    - replace (INR (r - 1) * row_spacing D) with (row_spacing D * INR (r - 1)) by ring. apply (off_rnd u rnd H 3). apply (off_more 3 (PI / 2 + PI / 2)); [lra|]. apply off_sub; [exact St|].
      apply (off_rnd u rnd H 2). unfold nhalf. cbn [ndiv none nofZ RndNum]. change (IZR 2) with (INR 2). rewrite Hint by lia.
      replace (PI / INR 2) with (1 / INR 2 * PI) by (cbn; field). assert (G1 : off 1 (1 / INR 2) (1 / INR 2) (rnd (1 / INR 2))) by (apply (off_rnd u rnd H 0), off_exact_pos; cbn; lra).
      assert (G2 : off 1 PI PI (rnd PI)) by (apply (off_rnd u rnd H 0), off_exact_pos; lra). exact (off_prod 1 1 _ _ _ _ _ _ G1 G2).
  Qed.
  Lemma element_off r : (1 <= r <= nd D)%nat -> off 9 (f_a D * row_spacing D * PI) (element D r) (@Flux.aa R Rd D r).
  Proof.
    intros Hr. unfold element, Flux.aa. cbn [nmul ncos RndNum]. apply (off_rnd u rnd H 8). apply (off_prod 3 5).
    - apply (off_rnd u rnd H 2). replace (f_a D * row_spacing D) with (row_spacing D * f_a D) by ring. replace (f_a D * @Flux.dp R Rd D) with (@Flux.dp R Rd D * f_a D) by ring.
      apply off_mul; [exact Ha|exact spacing_off].
    - apply (off_rnd u rnd H 4). apply (off_lift cos 4 PI); [lra| |apply cos_close|apply lat_off, Hr]. pose proof PI_ineq 0. destruct (COS_bound (FluxSpec.latitude D r)). pose proof PI2_1. apply Rabs_le. lra.
  Qed.
  Lemma sign_leb x y : Rleb (rnd (x - y)) 0 = Rleb (x - y) 0.
  Proof.
    pose proof U. destruct (Rle_dec (x - y) 0) as [L|L].
    - destruct (r_neg u rnd H (x - y) L) as [_ P]. destruct (Rleb_spec (rnd (x - y)) 0), (Rleb_spec (x - y) 0); try reflexivity; nra.
    - destruct (r_pos u rnd H (x - y) ltac:(lra)) as [P _]. assert (0 < rnd (x - y)) by nra. destruct (Rleb_spec (rnd (x - y)) 0), (Rleb_spec (x - y) 0); try reflexivity; lra.
  Qed.
  Lemma below_same i j k r : @Flux.below R Rd D pv qref i j k r = @Flux.below R RNum D pv qref i j k r.
  Proof. unfold Flux.below, Flux.qe. cbn [nleb nsub nzero RndNum RNum]. rewrite sign_leb. reflexivity. Qed.
  Lemma above_same i j k r : @Flux.above R Rd D pv qref i j k r = @Flux.above R RNum D pv qref i j k r.
  Proof. unfold Flux.above, Flux.qe. cbn [nltb nsub nzero RndNum RNum]. rewrite (proj2 (sign_same u rnd H _ _)). reflexivity. Qed.
  Lemma qe_off i j k r : off 1 (Rabs (@Flux.qe R RNum D pv qref i j k r)) (@Flux.qe R RNum D pv qref i j k r) (@Flux.qe R Rd D pv qref i j k r).
  Proof. unfold Flux.qe. cbn [nsub RndNum RNum]. apply (off_rnd u rnd H 0), off_exact. Qed.

  (** accumulation with a test *)
  Lemma loop_off m n (t : nat -> bool) (a f g : nat -> R) (p p' : nat -> R -> R) :
    (forall r, (1 <= r <= n)%nat -> t r = true -> off m (a r) (f r) (g r)) ->
    (forall r s, p r s = if t r then s + f r else s) -> (forall r s, p' r s = if t r then rnd (s + g r) else s) ->
    off (m + n) (@loop R RNum n (fun r s => if t r then s + a r else s)) (@loop R RNum n p) (@loop R Rd n p').
  Proof.
    intros Hf Hp Hp'. induction n as [|n IH]; [cbn [loop nzero RNum RndNum]; apply off_0|]. cbn [loop]. rewrite Hp, Hp', Nat.add_succ_r.
    specialize (IH ltac:(intros; apply Hf; [lia|assumption])). destruct (t (S n)) eqn:T.
    - apply (off_rnd u rnd H), off_add; [exact IH|]. apply (off_weaken u rnd H m); [lia|]. apply Hf; [lia|exact T].
    - apply (off_weaken u rnd H (m + n)); [lia|exact IH].
  Qed.
  Definition flat : R := f_a D * row_spacing D * PI.
  Lemma flat_pos : 0 <= flat.
  Proof. unfold flat. pose proof spacing_pos. pose proof PI_RGT_0. apply Rmult_le_pos; [apply Rmult_le_pos; lra|lra]. Qed.
  Lemma below_off i j k : (1 <= j <= nd D)%nat ->
    off (11 + nd D) (Sum j (nd D + 1) (fun r => ppart (qref j k - pv i (field_row D r) k)) * flat) (@sum_below R RNum D pv qref i j k) (@sum_below R Rd D pv qref i j k).
  Proof.
    intros Hj. assert (E : Sum j (nd D + 1) (fun r => ppart (qref j k - pv i (field_row D r) k)) * flat =
      @loop R RNum (nd D) (fun r s => if @Flux.below R RNum D pv qref i j k r then s + Rabs (@Flux.qe R RNum D pv qref i j k r) * flat else s)).
    { rewrite (loop_sum _ _ (fun r => if Nat.leb j r then ppart (qref j k - pv i (field_row D r) k) * flat else 0)).
      2: { intros r s Hr. unfold Flux.below, Flux.qe. change (grow D) with (field_row D). cbn [nleb nsub nzero RNum]. unfold ppart. destruct (Rleb_spec (pv i (field_row D r) k - qref j k) 0) as [L|L]; cbn [andb];
           destruct (Nat.leb j r); try ring; [rewrite Rabs_left1, Rmax_left by lra; ring|rewrite Rmax_right by lra; ring]. }
      rewrite (Sum_split 1 j (nd D + 1)) by lia. rewrite (Sum_zero 1 j), Rplus_0_l.
      2: { intros r Hr. destruct (Nat.leb_spec j r); [lia|reflexivity]. }
      rewrite Rmult_comm, <- Sum_scal. apply Sum_ext. intros r Hr. destruct (Nat.leb_spec j r); [ring|lia]. }
    rewrite E. unfold sum_below. eapply (loop_off 11 (nd D) (@Flux.below R RNum D pv qref i j k) _ (fun r => - (@Flux.qe R RNum D pv qref i j k r * @Flux.aa R RNum D r)) (fun r => - rnd (@Flux.qe R Rd D pv qref i j k r * @Flux.aa R Rd D r))).
    - intros r Hr _. apply off_neg. apply (off_rnd u rnd H 10). apply (off_prod 1 9); [apply qe_off|].
      assert (EE : @Flux.aa R RNum D r = element D r) by (apply aa_R). rewrite EE. apply element_off, Hr.
    - intros r s. destruct (Flux.below D pv qref i j k r); reflexivity.
    - intros r s. rewrite below_same. destruct (Flux.below D pv qref i j k r); reflexivity.
  Qed.
  Lemma above_off i j k : (1 <= j <= nd D)%nat ->
    off (11 + nd D) (Sum 1 j (fun r => ppart (pv i (field_row D r) k - qref j k)) * flat) (@sum_above R RNum D pv qref i j k) (@sum_above R Rd D pv qref i j k).
  Proof.
    intros Hj. assert (E : Sum 1 j (fun r => ppart (pv i (field_row D r) k - qref j k)) * flat =
      @loop R RNum (nd D) (fun r s => if @Flux.above R RNum D pv qref i j k r then s + Rabs (@Flux.qe R RNum D pv qref i j k r) * flat else s)).
    { rewrite (loop_sum _ _ (fun r => if Nat.ltb r j then ppart (pv i (field_row D r) k - qref j k) * flat else 0)).
      2: { intros r s Hr. unfold Flux.above, Flux.qe. change (grow D) with (field_row D). cbn [nltb nsub nzero RNum]. unfold ppart. destruct (Rltb_spec 0 (pv i (field_row D r) k - qref j k)) as [L|L]; cbn [andb];
           destruct (Nat.ltb r j); try ring; [rewrite Rabs_pos_eq, Rmax_left by lra; ring|rewrite Rmax_right by lra; ring]. }
      rewrite (Sum_split 1 j (nd D + 1)) by lia. rewrite (Sum_zero j (nd D + 1)), Rplus_0_r.
      2: { intros r Hr. destruct (Nat.ltb_spec r j); [lia|reflexivity]. }
      rewrite Rmult_comm, <- Sum_scal. apply Sum_ext. intros r Hr. destruct (Nat.ltb_spec r j); [ring|lia]. }
    rewrite E. unfold sum_above. eapply (loop_off 11 (nd D) (@Flux.above R RNum D pv qref i j k) _ (fun r => @Flux.qe R RNum D pv qref i j k r * @Flux.aa R RNum D r) (fun r => rnd (@Flux.qe R Rd D pv qref i j k r * @Flux.aa R Rd D r))).
    - intros r Hr _. apply (off_rnd u rnd H 10). apply (off_prod 1 9); [apply qe_off|].
      assert (EE : @Flux.aa R RNum D r = element D r) by (apply aa_R). rewrite EE. apply element_off, Hr.
    - intros r s. destruct (Flux.above D pv qref i j k r); reflexivity.
    - intros r s. rewrite above_same. destruct (Flux.above D pv qref i j k r); reflexivity.
  Qed.

  (** the displaced PV of row j without the cosine: Sum |pv - qref| over the displaced air *)
  Definition anti_pv (i j k : nat) : R := Sum j (nd D + 1) (fun r => ppart (qref j k - pv i (field_row D r) k)).
  Definition cyc_pv (i j k : nat) : R := Sum 1 j (fun r => ppart (pv i (field_row D r) k - qref j k)).
  Lemma anti_pos i j k : 0 <= anti_pv i j k. Proof. apply Sum_nonneg. intros. apply Rmax_r. Qed.
  Lemma cyc_pos i j k : 0 <= cyc_pv i j k. Proof. apply Sum_nonneg. intros. apply Rmax_r. Qed.
  Lemma total_off i j k :
    off (12 + nd D) ((anti_pv i j k + cyc_pv i j k) * flat) (@astar1 R RNum D pv qref i j k + @astar2 R RNum D pv qref i j k)
      (rnd (@astar1 R Rd D pv qref i j k + @astar2 R Rd D pv qref i j k)).
  Proof.
    apply (off_rnd u rnd H (11 + nd D)). unfold astar1, astar2, fill. destruct (analysed D j k) eqn:E.
    - apply analysed_true in E. destruct E as [Hj _]. assert (Hn : (1 <= j <= nd D)%nat) by (unfold analysed_row in Hj; destruct (is_nhem D); lia).
      pose proof (below_off i j k Hn) as B. pose proof (above_off i j k Hn) as A. fold (anti_pv i j k) in B. fold (cyc_pv i j k) in A. rewrite Rmult_plus_distr_r. destruct (is_nhem D); [rewrite Rplus_comm|]; apply off_add; assumption.
    - cbn [nzero RNum RndNum]. apply (off_more (11 + nd D) (0 + 0)); [|apply off_add; apply off_0].
      pose proof flat_pos. pose proof (anti_pos i j k). pose proof (cyc_pos i j k). rewrite Rplus_0_l. apply Rmult_le_pos; lra.
  Qed.

  Hypothesis Hz : 0 < f_dz D /\ 0 < f_h D /\ 0 < f_prefac D.
  Hypothesis HintK : forall n, (n <= kmax D)%nat -> rnd (INR n) = INR n.
  (** height in scale heights *)
  Definition scaled_height (k : nat) : R := INR (k - 1) * f_dz D / f_h D.
  Lemma scaled_pos k : 0 <= scaled_height k.
  Proof. unfold scaled_height. apply Rmult_le_pos; [apply Rmult_le_pos; [apply pos_INR|lra]|]. left. apply Rinv_0_lt_compat. lra. Qed.
  Lemma weight_off k : (1 <= k <= kmax D)%nat -> off 3 (1 + scaled_height k) (exp (- scaled_height k)) (@lo_weight R Rd D k).
  Proof.
    intros Hk. unfold lo_weight. cbn [nexp nopp ndiv nmul RndNum]. assert (Fk : @nfloat R Rd k 1 = INR (k - 1)).
    { unfold nfloat. cbn [nofZ RndNum]. change 1%Z with (Z.of_nat 1). rewrite <- Nat2Z.inj_sub by lia. rewrite <- INR_IZR_INZ. apply HintK. lia. }
    rewrite Fk. apply (off_rnd u rnd H 2). pose proof (scaled_pos k) as P.
    assert (O : off 2 (scaled_height k) (- scaled_height k) (rnd (- rnd (f_dz D * INR (k - 1)) / f_h D))).
    { apply (off_rnd u rnd H 1). unfold scaled_height, Rdiv. rewrite Ropp_mult_distr_l. apply off_mul; [left; apply Rinv_0_lt_compat; lra|]. apply off_neg.
      rewrite (Rmult_comm (f_dz D)). apply (off_rnd u rnd H 0), off_exact_pos. apply Rmult_le_pos; [apply pos_INR|lra]. }
    assert (W : rnd (- rnd (f_dz D * INR (k - 1)) / f_h D) <= 0).
    { assert (0 <= f_dz D * INR (k - 1)) by (apply Rmult_le_pos; [lra|apply pos_INR]). destruct (r_pos u rnd H _ H0) as [R1 _]. pose proof U.
      assert (0 <= rnd (f_dz D * INR (k - 1))) by nra. assert (X : - rnd (f_dz D * INR (k - 1)) / f_h D <= 0).
      { unfold Rdiv. assert (0 < / f_h D) by (apply Rinv_0_lt_compat; lra). nra. }
      destruct (r_neg u rnd H _ X) as [_ R2]. nra. }
    set (y := rnd (- rnd (f_dz D * INR (k - 1)) / f_h D)) in *. clearbody y. pose proof (exp_neg_close (scaled_height k) (- y) P ltac:(lra)) as C. rewrite Ropp_involutive in C.
    destruct O as [_ O2]. replace (y - - scaled_height k) with (- (- y - scaled_height k)) in O2 by ring. rewrite Rabs_Ropp in O2. split.
    - rewrite Rabs_pos_eq by (left; apply exp_pos). assert (exp (- scaled_height k) <= 1) by (rewrite <- exp_0; destruct P as [P|P]; [left; apply exp_increasing; lra|rewrite <- P, Ropp_0; lra]). lra.
    - eapply Rle_trans; [exact C|]. eapply Rle_trans; [exact O2|]. apply Rmult_le_compat_l; [pose proof (pow_ge1 2); lra|lra].
  Qed.
  Lemma dc_off : off 1 (f_dz D / f_prefac D) (f_dz D / f_prefac D) (@lo_dc R Rd D).
  Proof. unfold lo_dc. cbn [ndiv RndNum]. apply (off_rnd u rnd H 0), off_exact_pos. left. apply Rdiv_lt_0_compat; lra. Qed.
  Lemma baro_off i j : (2 <= kmax D)%nat ->
    off (18 + nd D + (kmax D - 2)) (Sum 2 (kmax D) (fun k => (anti_pv i j k + cyc_pv i j k) * flat * (1 + scaled_height k) * (f_dz D / f_prefac D)))
      (@lo_astarbaro R RNum D pv qref i j) (@lo_astarbaro R Rd D pv qref i j).
  Proof.
    intros K. set (a := fun k => (anti_pv i j k + cyc_pv i j k) * flat * (1 + scaled_height k) * (f_dz D / f_prefac D)).
    assert (E : Sum 2 (kmax D) a = @loop R RNum (kmax D - 2) (fun p s => if true then s + a (p + 1)%nat else s)).
    { rewrite (loop_sum _ _ (fun p => a (p + 1)%nat)) by reflexivity. rewrite <- Sum_shift. f_equal; lia. }
    rewrite E. unfold lo_astarbaro.
    refine (loop_off (18 + nd D) (kmax D - 2) (fun _ => true) (fun p => a (p + 1)%nat)
      (fun p => (@astar1 R RNum D pv qref i j (p + 1)%nat + @astar2 R RNum D pv qref i j (p + 1)%nat) * @lo_weight R RNum D (p + 1) * @lo_dc R RNum D)
      (fun p => rnd (rnd (rnd (@astar1 R Rd D pv qref i j (p + 1)%nat + @astar2 R Rd D pv qref i j (p + 1)%nat) * @lo_weight R Rd D (p + 1)) * @lo_dc R Rd D)) _ _ _ _ _).
    - intros p Hp _. unfold a. replace (18 + nd D)%nat with (S (S (12 + nd D + 3) + 1)) by lia. apply (off_rnd u rnd H). apply off_prod; [|exact dc_off].
      apply (off_rnd u rnd H). apply off_prod; [apply total_off|].
      assert (W : @lo_weight R RNum D (p + 1) = exp (- scaled_height (p + 1))).
      { unfold lo_weight, scaled_height. rewrite nfloat_R. cbn [nexp nopp ndiv nmul RNum]. f_equal. rewrite minus_INR by lia. cbn [INR]. unfold Rdiv. ring. }
      rewrite W. apply weight_off. lia.
    - intros p s. rewrite lo_astar1_eq, lo_astar2_eq. reflexivity.
    - intros p s. rewrite lo_astar1_eq, lo_astar2_eq. reflexivity.
  Qed.
End Kernel.
