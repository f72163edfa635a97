(** Proofs about rounded arithmetic. *)
From Verif Require Import Base BaseFacts Spec SpecFacts Flux FluxSpec FluxProofs RefStates RefStatesSpec RefStatesProofs RoundSpec.
From Flocq Require Import Core Relative.
From Coq Require Import Lra Lia Psatz Ratan.
Open Scope R_scope.

Local Instance prec24 : Prec_gt_0 24 := eq_refl.
Lemma rnd32_le : monotone rnd32.
Proof. intros x y H. apply round_le; auto using FLT_exp_valid, valid_rnd_N. apply FLT_exp_valid. exact prec24. Qed.
Lemma rnd32_0 : rnd32 0 = 0.
Proof. apply round_0, valid_rnd_N. Qed.
(** integers of 24 bits times a power of two *)
Lemma rnd32_exact m e : (Z.abs m < 2 ^ 24)%Z -> (-149 <= e)%Z -> rnd32 (IZR m * bpow radix2 e) = IZR m * bpow radix2 e.
Proof.
  intros Hm He. apply round_generic; [apply valid_rnd_N|]. apply generic_format_FLT. exists (Float radix2 m e); [reflexivity|exact Hm|exact He].
Qed.
Lemma rnd32_pow e : (-149 <= e)%Z -> rnd32 (bpow radix2 e) = bpow radix2 e.
Proof. intros He. rewrite <- (Rmult_1_l (bpow radix2 e)). exact (rnd32_exact 1 e eq_refl He). Qed.
Lemma rnd32_opp x : rnd32 (- x) = - rnd32 x.
Proof. apply round_NE_opp. Qed.
Lemma rnd32_int m : (Z.abs m < 2 ^ 24)%Z -> rnd32 (IZR m) = IZR m.
Proof. intros H. rewrite <- (Rmult_1_r (IZR m)). exact (rnd32_exact m 0 H ltac:(lia)). Qed.
(** the number closest to x *)
Lemma rnd32_at x m e : (2 ^ 23 <= m < 2 ^ 24)%Z -> (-149 <= e)%Z -> bpow radix2 (23 + e) <= x < bpow radix2 (24 + e) -> Rabs (x * bpow radix2 (- e) - IZR m) < / 2 ->
  rnd32 x = IZR m * bpow radix2 e.
Proof.
  intros Hm He Hx Hn. unfold rnd32, round, scaled_mantissa, F2R. cbn [Fnum Fexp].
  assert (M : (mag radix2 x = 24 + e :> Z)%Z). { apply mag_unique_pos. replace (24 + e - 1)%Z with (23 + e)%Z by ring. exact Hx. }
  assert (C : cexp radix2 (FLT_exp (-149) 24) x = e). { unfold cexp, FLT_exp. rewrite M. lia. }
  rewrite C. rewrite (Znearest_imp _ _ m Hn). reflexivity.
Qed.

(** ** pi *)
Lemma pi_bounds : 3.14159263 < PI < 3.1415927.
Proof.
  destruct (PI_2_3_7_ineq 3) as [L U]. cbn [sum_f_R0 Nat.mul Nat.add] in L, U. unfold tg_alt, PI_2_3_7_tg, Ratan_seq in L, U. cbn [pow Nat.mul Nat.add INR] in L, U.
  split; lra.
Qed.

Lemma rnd32_pi : rnd32 PI = IZR 13176795 * bpow radix2 (-22).
Proof.
  pose proof pi_bounds. apply rnd32_at; [lia|lia| |]; cbn [bpow Z.opp Z.add Z.pos_sub Pos.add Pos.pred_double Zpower_pos Pos.iter radix_val radix2]; cbn -[IZR]; [lra|].
  apply Rabs_def1; lra.
Qed.

(** ** the pole in single precision *)
Ltac powers := cbn [Z.opp Z.add Z.pos_sub Pos.add Pos.succ Pos.pred_double]; cbn -[IZR].
Ltac near := apply rnd32_at; [lia|lia| |]; powers; [lra|apply Rabs_def1; lra].
Lemma pole_computed z y m e : (Z.abs z < 2 ^ 24)%Z -> (Z.abs y < 2 ^ 24)%Z ->
  rnd32 (IZR 13176795 * bpow radix2 (-22) / IZR z) = IZR m * bpow radix2 e ->
  rnd32 (IZR m * bpow radix2 e * IZR y) = IZR 13176795 * bpow radix2 (-23) ->
  rnd32 (rnd32 (rnd32 PI / rnd32 (IZR z)) * rnd32 (IZR y)) = IZR 13176795 * bpow radix2 (-23).
Proof. intros Hz Hy E1 E2. rewrite rnd32_pi, !rnd32_int by assumption. rewrite E1, E2. reflexivity. Qed.
Lemma pole_powers s : (1 <= s <= 20)%nat ->
  rnd32 (rnd32 (rnd32 PI / rnd32 (IZR (2 ^ Z.of_nat s))) * rnd32 (IZR (2 ^ (Z.of_nat s - 1)))) = IZR 13176795 * bpow radix2 (-23).
Proof.
  intros Hs. change 2%Z with (radix_val radix2) at 1 2. rewrite !IZR_Zpower by lia. rewrite rnd32_pi, !rnd32_pow by lia.
  assert (E : IZR 13176795 * bpow radix2 (-22) / bpow radix2 (Z.of_nat s) = IZR 13176795 * bpow radix2 (-22 - Z.of_nat s)).
  { unfold Rdiv. rewrite <- bpow_opp, Rmult_assoc, <- bpow_plus. reflexivity. }
  rewrite E, rnd32_exact by lia. rewrite Rmult_assoc, <- bpow_plus. replace (-22 - Z.of_nat s + (Z.of_nat s - 1))%Z with (-23)%Z by ring.
  apply rnd32_exact; lia.
Qed.
Lemma pole_row D : usual_number_of_latitudes (jmax D) -> jmax D = (2 * nd D - 1)%nat ->
  computed_latitude rnd32 D (nd D) = IZR 13176795 * bpow radix2 (-23) /\ (Z.of_nat (jmax D) <= 2 ^ 20 + 1)%Z /\ (2 <= nd D)%nat.
Proof.
  intros U S. unfold computed_latitude. rewrite !INR_IZR_INZ. destruct U as [(s & Hs & E)|U].
  - assert (P : Z.of_nat (2 ^ s) = (2 ^ Z.of_nat s)%Z) by (rewrite Nat2Z.inj_pow; reflexivity).
    assert (Q : (2 ^ Z.of_nat s = 2 * 2 ^ (Z.of_nat s - 1))%Z) by (rewrite <- Z.pow_succ_r by lia; f_equal; lia).
    assert (0 < 2 ^ (Z.of_nat s - 1))%Z by (apply Z.pow_pos_nonneg; lia).
    assert (2 ^ Z.of_nat s <= 2 ^ 20)%Z by (apply Z.pow_le_mono_r; lia).
    replace (Z.of_nat (jmax D - 1)) with (2 ^ Z.of_nat s)%Z by lia. replace (Z.of_nat (nd D - 1)) with (2 ^ (Z.of_nat s - 1))%Z by lia.
    rewrite pole_powers by exact Hs. split; [reflexivity|]. split; lia.
  - cbn [In] in U.
    assert (N : nd D = Nat.div2 (jmax D + 1)). { rewrite S. replace (2 * nd D - 1 + 1)%nat with (2 * nd D)%nat; [rewrite Nat.div2_double; reflexivity|]. repeat (destruct U as [U|U]; [lia|]). destruct U. }
    repeat match type of U with _ = _ \/ _ => destruct U as [U|U] | False => destruct U end; rewrite N, <- U; (split; [|split; [apply Z.leb_le; reflexivity|apply Nat.leb_le; reflexivity]]); cbn [Nat.add Nat.div2 Nat.sub]; cbn [Z.of_nat Pos.of_succ_nat Pos.succ].
    + apply (pole_computed _ _ 11712707 (-28)); [lia|lia|near|near].
    + apply (pole_computed _ _ 9370165 (-28)); [lia|lia|near|near].
    + apply (pole_computed _ _ 14055248 (-29)); [lia|lia|near|near].
    + apply (pole_computed _ _ 11712707 (-29)); [lia|lia|near|near].
    + apply (pole_computed _ _ 9370165 (-29)); [lia|lia|near|near].
    + apply (pole_computed _ _ 14055248 (-30)); [lia|lia|near|near].
    + apply (pole_computed _ _ 9370165 (-30)); [lia|lia|near|near].
    + apply (pole_computed _ _ 9370165 (-31)); [lia|lia|near|near].
Qed.
Lemma pole_cos : cos (IZR 13176795 * bpow radix2 (-23)) <= - bpow radix2 (-27).
Proof.
  pose proof pi_bounds as [B1 B2]. set (x := IZR 13176795 * bpow radix2 (-23)). set (d := x - PI / 2).
  assert (D : bpow radix2 (-26) <= d <= / 10) by (unfold d, x; powers; lra).
  replace x with (PI / 2 + d) by (unfold d; ring). rewrite <- (sin_shift (PI / 2 + d)). replace (PI / 2 - (PI / 2 + d)) with (- d) by ring. rewrite sin_neg.
  apply Ropp_le_contravar. clearbody d. clear x B1 B2. assert (0 < bpow radix2 (-26)) by apply bpow_gt_0.
  assert (L : d - d ^ 3 / 6 <= sin d). { destruct (pre_sin_bound d 0 ltac:(lra) ltac:(lra)) as [L _]. unfold sin_approx, sum_f_R0, sin_term in L. cbn in L. lra. }
  assert (d ^ 3 <= d / 100) by (replace (d ^ 3) with (d * (d * d)) by ring; assert (d * d <= / 10 * / 10) by (apply Rmult_le_compat; lra); nra).
  replace (bpow radix2 (-27)) with (bpow radix2 (-26) / 2) by (powers; lra). lra.
Qed.

(** ** the kernels *)
Section Kernel.
  Variable rnd : R -> R.
  Hypothesis mono : monotone rnd.
  Hypothesis zero : rnd 0 = 0.
  Variable D : fluxdims R.
  Local Notation Rd := (RndNum rnd).
  Lemma rnd_pos x : 0 <= x -> 0 <= rnd x.
  Proof. intros H. rewrite <- zero. apply mono, H. Qed.
  Lemma rnd_neg x : x <= 0 -> rnd x <= 0.
  Proof. intros H. rewrite <- zero. apply mono, H. Qed.
  Lemma lat_rounded r : is_nhem D = true -> (1 <= r)%nat -> @Flux.lat_of R Rd D r 1 = computed_latitude rnd D r.
  Proof.
    intros N Hr. unfold Flux.lat_of, computed_latitude, Flux.dp, nofnat, nfloat. rewrite N. cbn [nmul ndiv npi nofZ RndNum]. rewrite !INR_IZR_INZ. do 4 f_equal. rewrite Nat2Z.inj_sub by lia. reflexivity.
  Qed.
  Lemma element_pos r : 0 <= f_a D -> 0 <= cos (@Flux.lat_of R Rd D r 1) -> 0 <= @Flux.aa R Rd D r.
  Proof.
    intros Ha Hc. unfold Flux.aa, Flux.dp, nofnat. cbn [nmul ndiv npi nofZ ncos RndNum]. apply rnd_pos, Rmult_le_pos; [|apply rnd_pos, Hc].
    apply rnd_pos, Rmult_le_pos; [exact Ha|]. apply rnd_pos. apply Rmult_le_pos; [apply rnd_pos; pose proof PI_RGT_0; lra|].
    destruct (Req_dec (rnd (IZR (Z.of_nat (jmax D - 1)))) 0) as [E|E]; [rewrite E, Rinv_0; lra|]. apply Rlt_le, Rinv_0_lt_compat.
    assert (0 <= rnd (IZR (Z.of_nat (jmax D - 1)))) by (apply rnd_pos, IZR_le; lia). lra.
  Qed.
  Lemma sums_pos pv qref i j k n : (forall r, (1 <= r <= n)%nat -> 0 <= @Flux.aa R Rd D r) ->
    0 <= @loop R Rd n (fun jj s => if @Flux.below R Rd D pv qref i j k jj then @nsub R Rd s (@nmul R Rd (@Flux.qe R Rd D pv qref i j k jj) (@Flux.aa R Rd D jj)) else s) /\
    0 <= @loop R Rd n (fun jj s => if @Flux.above R Rd D pv qref i j k jj then @nadd R Rd s (@nmul R Rd (@Flux.qe R Rd D pv qref i j k jj) (@Flux.aa R Rd D jj)) else s).
  Proof.
    induction n as [|n IH]; intros Ha; cbn [loop]; [cbn [nzero RndNum]; lra|]. destruct (IH ltac:(intros r Hr; apply Ha; lia)) as [I1 I2]. specialize (Ha (S n) ltac:(lia)).
    revert I1 I2. generalize (@loop R Rd n (fun jj s => if @Flux.below R Rd D pv qref i j k jj then @nsub R Rd s (@nmul R Rd (@Flux.qe R Rd D pv qref i j k jj) (@Flux.aa R Rd D jj)) else s)) as s1.
    generalize (@loop R Rd n (fun jj s => if @Flux.above R Rd D pv qref i j k jj then @nadd R Rd s (@nmul R Rd (@Flux.qe R Rd D pv qref i j k jj) (@Flux.aa R Rd D jj)) else s)) as s2. intros s2 s1 I1 I2.
    unfold Flux.below, Flux.above. cbn [nleb nltb nzero nadd nsub nmul RndNum]. unfold Rleb, Rltb. split.
    - destruct (Rle_dec _ 0) as [L|L]; cbn [andb]; [|exact I1]. destruct (Nat.leb j (S n)); [|exact I1]. apply rnd_pos.
      assert (rnd (@Flux.qe R Rd D pv qref i j k (S n) * @Flux.aa R Rd D (S n)) <= 0) by (apply rnd_neg; nra). lra.
    - destruct (Rlt_dec 0 _) as [L|L]; cbn [andb]; [|exact I2]. destruct (Nat.ltb (S n) j); [|exact I2]. apply rnd_pos.
      assert (0 <= rnd (@Flux.qe R Rd D pv qref i j k (S n) * @Flux.aa R Rd D (S n))) by (apply rnd_pos; nra). lra.
  Qed.
  Lemma astar_rounded_pos pv qref i j k : 0 <= f_a D -> (forall r, (1 <= r <= nd D)%nat -> 0 <= cos (@Flux.lat_of R Rd D r 1)) ->
    0 <= @astar1 R Rd D pv qref i j k /\ 0 <= @astar2 R Rd D pv qref i j k.
  Proof.
    intros Ha Hc. destruct (sums_pos pv qref i j k (nd D)) as [S1 S2]; [intros r Hr; apply element_pos; auto|].
    unfold astar1, astar2, fill, sum_below, sum_above. destruct (analysed D j k); [|cbn [nzero RndNum]; lra]. destruct (is_nhem D); split; assumption.
  Qed.
End Kernel.

Local Notation S32 := (RndNum rnd32).
Lemma rnd32_pow_le e x : (-149 <= e)%Z -> bpow radix2 e <= x -> bpow radix2 e <= rnd32 x.
Proof. intros He H. rewrite <- (rnd32_pow e He). apply rnd32_le, H. Qed.
Lemma rnd32_pow_ge e x : (-149 <= e)%Z -> x <= bpow radix2 e -> rnd32 x <= bpow radix2 e.
Proof. intros He H. rewrite <- (rnd32_pow e He). apply rnd32_le, H. Qed.
Lemma rnd32_neg_pow e x : (-149 <= e)%Z -> x <= - bpow radix2 e -> rnd32 x <= - bpow radix2 e.
Proof. intros He H. rewrite <- (rnd32_pow e He), <- rnd32_opp. apply rnd32_le, H. Qed.
Lemma pow_mul e f g : (e + f = g)%Z -> bpow radix2 e * bpow radix2 f = bpow radix2 g.
Proof. intros <-. symmetry. apply bpow_plus. Qed.
Lemma neg_mul x y e f g : (e + f = g)%Z -> x <= - bpow radix2 e -> bpow radix2 f <= y -> x * y <= - bpow radix2 g.
Proof.
  intros E Hx Hy. rewrite <- (pow_mul e f g E). pose proof (bpow_gt_0 radix2 e). pose proof (bpow_gt_0 radix2 f).
  assert (bpow radix2 e * bpow radix2 f <= (- x) * y) by (apply Rmult_le_compat; lra). lra.
Qed.
Lemma neg_neg x y e f g : (e + f = g)%Z -> x <= - bpow radix2 e -> y <= - bpow radix2 f -> bpow radix2 g <= x * y.
Proof.
  intros E Hx Hy. rewrite <- (pow_mul e f g E). pose proof (bpow_gt_0 radix2 e). pose proof (bpow_gt_0 radix2 f).
  assert (bpow radix2 e * bpow radix2 f <= (- x) * (- y)) by (apply Rmult_le_compat; lra). lra.
Qed.

Lemma spacing_single D : (2 <= jmax D)%nat /\ (Z.of_nat (jmax D) <= 2 ^ 20 + 1)%Z -> bpow radix2 (-19) <= @Flux.dp R S32 D.
Proof.
    intros [H2 J]. unfold Flux.dp, nofnat. cbn [ndiv npi nofZ RndNum]. apply rnd32_pow_le; [lia|]. assert (T : bpow radix2 1 <= rnd32 PI) by (apply rnd32_pow_le; [lia|]; pose proof pi_bounds; powers; lra).
      assert (L : rnd32 (IZR (Z.of_nat (jmax D - 1))) <= bpow radix2 20).
      { apply rnd32_pow_ge; [lia|]. change 20%Z with (20%Z) at 1. rewrite <- (IZR_Zpower radix2 20) by lia. apply IZR_le. change (radix_val radix2 ^ 20)%Z with (2 ^ 20)%Z. lia. }
      assert (G : bpow radix2 0 <= rnd32 (IZR (Z.of_nat (jmax D - 1)))).
      { apply rnd32_pow_le; [lia|]. change (bpow radix2 0) with 1. apply IZR_le. lia. }
      change (bpow radix2 0) with 1 in G. apply Rmult_le_reg_r with (rnd32 (IZR (Z.of_nat (jmax D - 1)))); [lra|]. unfold Rdiv. rewrite Rmult_assoc, Rinv_l, Rmult_1_r by lra.
      apply Rle_trans with (bpow radix2 (-19) * bpow radix2 20); [apply Rmult_le_compat_l; [apply bpow_ge_0|exact L]|]. rewrite (pow_mul (-19) 20 1 eq_refl). exact T.
Qed.
Section Single.
  Variable D : fluxdims R.
  Hypothesis N : is_nhem D = true.
  Hypothesis U : usual_number_of_latitudes (jmax D).
  Hypothesis S2 : jmax D = (2 * nd D - 1)%nat.
  Hypothesis Ha : 1 <= f_a D.

  Lemma pole_element : @Flux.aa R S32 D (nd D) <= - bpow radix2 (-46).
  Proof.
    destruct (pole_row D U S2) as (P & J & H2). unfold Flux.aa. cbn [nmul ncos RndNum]. rewrite lat_rounded, P by (assumption || lia).
    assert (C : rnd32 (cos (IZR 13176795 * bpow radix2 (-23))) <= - bpow radix2 (-27)) by (apply rnd32_neg_pow; [lia|apply pole_cos]).
    apply rnd32_neg_pow; [lia|]. rewrite Rmult_comm. apply (neg_mul _ _ (-27) (-19)); [reflexivity|exact C|].
    apply rnd32_pow_le; [lia|]. unfold Flux.dp, nofnat. cbn [ndiv npi nofZ RndNum].
    pose proof (spacing_single D ltac:(split; lia)) as Q. unfold Flux.dp, nofnat in Q. cbn [ndiv npi nofZ RndNum] in Q.
    assert (0 < bpow radix2 (-19)) by apply bpow_gt_0. nra.
  Qed.

  Variables (pv : arr3 R) (qref : arr2 R) (i j k : nat).
  Hypothesis Low : low_at_the_pole_only D pv qref (bpow radix2 (-60)) i j k.
  Lemma eddy_zero r : (1 <= r < nd D)%nat -> @Flux.qe R S32 D pv qref i j k r = 0.
  Proof. intros Hr. unfold Flux.qe. cbn [nsub RndNum]. pose proof (proj1 Low r Hr) as E. unfold field_row in E. unfold grow. rewrite E, Rminus_eq_0. apply rnd32_0. Qed.
  Lemma eddy_pole : @Flux.qe R S32 D pv qref i j k (nd D) <= - bpow radix2 (-60).
  Proof. unfold Flux.qe. cbn [nsub RndNum]. pose proof (proj2 Low) as E. unfold field_row in E. unfold grow. apply rnd32_neg_pow; [lia|]. lra. Qed.
  Lemma nothing_south n : (n <= nd D)%nat ->
    @loop R S32 n (fun jj s => if @Flux.above R S32 D pv qref i j k jj then @nadd R S32 s (@nmul R S32 (@Flux.qe R S32 D pv qref i j k jj) (@Flux.aa R S32 D jj)) else s) = 0.
  Proof.
    induction n as [|n IH]; intros Hn; cbn [loop]; [reflexivity|]. unfold Flux.above at 1. cbn [nltb nzero RndNum].
    assert (L : @Flux.qe R S32 D pv qref i j k (S n) <= 0).
    { destruct (Nat.eq_dec (S n) (nd D)) as [E|E]; [rewrite E; pose proof eddy_pole; pose proof (bpow_gt_0 radix2 (-60)); lra|rewrite eddy_zero by lia; lra]. }
    unfold Rltb. destruct (Rlt_dec 0 _) as [C|C]; [lra|]. cbn [andb]. apply IH. lia.
  Qed.
  Lemma nothing_before n : (n < nd D)%nat ->
    @loop R S32 n (fun jj s => if @Flux.below R S32 D pv qref i j k jj then @nsub R S32 s (@nmul R S32 (@Flux.qe R S32 D pv qref i j k jj) (@Flux.aa R S32 D jj)) else s) = 0.
  Proof.
    induction n as [|n IH]; intros Hn; cbn [loop]; [reflexivity|]. rewrite IH by lia. rewrite eddy_zero by lia. destruct (Flux.below _ _ _ _ _ _ _); [|reflexivity].
    cbn [nsub nmul RndNum]. rewrite Rmult_0_l, rnd32_0, Rminus_0_r. apply rnd32_0.
  Qed.
  Lemma pole_only : (j <= nd D)%nat ->
    @loop R S32 (nd D) (fun jj s => if @Flux.below R S32 D pv qref i j k jj then @nsub R S32 s (@nmul R S32 (@Flux.qe R S32 D pv qref i j k jj) (@Flux.aa R S32 D jj)) else s) <= - bpow radix2 (-106).
  Proof.
    intros Hj. destruct (pole_row D U S2) as (_ & _ & H2). assert (X : exists n, nd D = S n) by (exists (nd D - 1)%nat; lia). destruct X as [n E]. rewrite E. cbn [loop]. rewrite nothing_before by lia. rewrite <- E.
    pose proof eddy_pole as Q. pose proof pole_element as A. unfold Flux.below. cbn [nleb nzero nsub nmul RndNum]. unfold Rleb.
    destruct (Rle_dec _ 0) as [C|C]; [|pose proof (bpow_gt_0 radix2 (-60)); lra]. rewrite (proj2 (Nat.leb_le j (nd D))) by lia. cbn [andb].
    apply rnd32_neg_pow; [lia|]. assert (bpow radix2 (-106) <= rnd32 (@Flux.qe R S32 D pv qref i j k (nd D) * @Flux.aa R S32 D (nd D))); [|lra].
    apply rnd32_pow_le; [lia|]. apply (neg_neg _ _ (-60) (-46)); [reflexivity|exact Q|exact A].
  Qed.
  Lemma astar_single : analysed_row D j -> interior_level D k ->
    @astar1 R S32 D pv qref i j k = 0 /\ @astar2 R S32 D pv qref i j k <= - bpow radix2 (-106) /\
    @lo_astar1 R S32 D pv qref i j k = 0 /\ @lo_astar2 R S32 D pv qref i j k <= - bpow radix2 (-106).
  Proof.
    intros Hj Hk. unfold astar1, astar2, lo_astar1, lo_astar2, fill, sum_above, sum_below. rewrite (proj2 (analysed_true D j k)) by auto. rewrite !N.
    assert (Hj' : (j <= nd D)%nat) by (unfold analysed_row in Hj; rewrite N in Hj; lia).
    pose proof (nothing_south (nd D) (Nat.le_refl _)) as A. pose proof (pole_only Hj') as B. split; [exact A|]. split; [exact B|]. split; [exact A|exact B].
  Qed.
End Single.

(** southern mode: the pole is at -rnd(pi)/2 on every grid *)
Section South.
  Variable D : fluxdims R.
  Hypothesis N : is_nhem D = false.
  Hypothesis J : (2 <= jmax D)%nat /\ (Z.of_nat (jmax D) <= 2 ^ 20 + 1)%Z.
  Hypothesis Ha : 1 <= f_a D.

  Lemma south_lat : @Flux.lat_of R S32 D 1 1 = - (IZR 13176795 * bpow radix2 (-23)).
  Proof.
    unfold Flux.lat_of, nfloat, nhalf. rewrite N. cbn [nsub nmul nofZ ndiv npi none RndNum]. change (Z.of_nat 1 - Z.of_nat 1)%Z with 0%Z. rewrite rnd32_0, Rmult_0_r, rnd32_0, rnd32_pi.
    assert (H : rnd32 (1 / rnd32 2) = bpow radix2 (-1)).
    { assert (T : rnd32 2 = 2) by exact (rnd32_pow 1 ltac:(lia)). rewrite T. replace (1 / 2) with (bpow radix2 (-1)) by (powers; lra). apply rnd32_pow. lia. }
    rewrite H. replace (bpow radix2 (-1) * (IZR 13176795 * bpow radix2 (-22))) with (IZR 13176795 * bpow radix2 (-23)).
    - rewrite rnd32_exact by lia. rewrite Rminus_0_l, rnd32_opp, rnd32_exact by lia. reflexivity.
    - rewrite <- (pow_mul (-1) (-22) (-23) eq_refl). ring.
  Qed.
  Lemma south_element : @Flux.aa R S32 D 1 <= - bpow radix2 (-46).
  Proof.
    unfold Flux.aa. cbn [nmul ncos RndNum]. rewrite south_lat, cos_neg.
    assert (C : rnd32 (cos (IZR 13176795 * bpow radix2 (-23))) <= - bpow radix2 (-27)) by (apply rnd32_neg_pow; [lia|apply pole_cos]).
    apply rnd32_neg_pow; [lia|]. rewrite Rmult_comm. apply (neg_mul _ _ (-27) (-19)); [reflexivity|exact C|].
    apply rnd32_pow_le; [lia|]. pose proof (spacing_single D J). assert (0 < bpow radix2 (-19)) by apply bpow_gt_0. nra.
  Qed.

  Variables (pv : arr3 R) (qref : arr2 R) (i j k : nat).
  Hypothesis High : high_at_the_south_pole_only D pv qref (bpow radix2 (-60)) i j k.
  Lemma south_zero r : (2 <= r <= nd D)%nat -> @Flux.qe R S32 D pv qref i j k r = 0.
  Proof. intros Hr. unfold Flux.qe. cbn [nsub RndNum]. pose proof (proj1 High r Hr) as E. unfold field_row in E. unfold grow. rewrite E, Rminus_eq_0. apply rnd32_0. Qed.
  Lemma south_pole : bpow radix2 (-60) <= @Flux.qe R S32 D pv qref i j k 1.
  Proof. unfold Flux.qe. cbn [nsub RndNum]. pose proof (proj2 High) as E. unfold field_row in E. unfold grow. apply rnd32_pow_le; [lia|]. lra. Qed.
  Lemma south_below n : (n <= nd D)%nat ->
    @loop R S32 n (fun jj s => if @Flux.below R S32 D pv qref i j k jj then @nsub R S32 s (@nmul R S32 (@Flux.qe R S32 D pv qref i j k jj) (@Flux.aa R S32 D jj)) else s) = 0.
  Proof.
    induction n as [|n IH]; intros Hn; cbn [loop]; [reflexivity|]. rewrite IH by lia. destruct n as [|n].
    - unfold Flux.below. cbn [nleb nzero RndNum]. unfold Rleb. destruct (Rle_dec _ 0) as [C|C]; [|reflexivity].
      pose proof south_pole. pose proof (bpow_gt_0 radix2 (-60)). lra.
    - rewrite south_zero by lia. destruct (Flux.below _ _ _ _ _ _ _); [|reflexivity]. cbn [nsub nmul RndNum]. rewrite Rmult_0_l, rnd32_0, Rminus_0_r. apply rnd32_0.
  Qed.
  Lemma south_above n : (1 < j)%nat -> (n < nd D)%nat ->
    @loop R S32 (S n) (fun jj s => if @Flux.above R S32 D pv qref i j k jj then @nadd R S32 s (@nmul R S32 (@Flux.qe R S32 D pv qref i j k jj) (@Flux.aa R S32 D jj)) else s) <= - bpow radix2 (-106).
  Proof.
    intros Hj. induction n as [|n IH]; intros Hn.
    - cbn [loop]. unfold Flux.above. cbn [nltb nzero nadd nmul RndNum]. unfold Rltb. pose proof south_pole as Q. pose proof south_element as A. pose proof (bpow_gt_0 radix2 (-60)).
      destruct (Rlt_dec 0 _) as [C|C]; [|lra]. rewrite (proj2 (Nat.ltb_lt 1 j)) by lia. cbn [andb]. apply rnd32_neg_pow; [lia|].
      assert (rnd32 (@Flux.qe R S32 D pv qref i j k 1 * @Flux.aa R S32 D 1) <= - bpow radix2 (-106)); [|lra].
      apply rnd32_neg_pow; [lia|]. rewrite Rmult_comm. apply (neg_mul _ _ (-46) (-60)); [reflexivity|exact A|exact Q].
    - specialize (IH ltac:(lia)). remember (S n) as p eqn:Ep. cbn [loop]. unfold Flux.above at 1. cbn [nltb nzero RndNum]. rewrite south_zero by lia. unfold Rltb.
      destruct (Rlt_dec 0 0) as [C|C]; [lra|]. cbn [andb]. exact IH.
  Qed.
  Lemma astar_south : analysed_row D j -> interior_level D k ->
    @astar1 R S32 D pv qref i j k = 0 /\ @astar2 R S32 D pv qref i j k <= - bpow radix2 (-106) /\
    @lo_astar1 R S32 D pv qref i j k = 0 /\ @lo_astar2 R S32 D pv qref i j k <= - bpow radix2 (-106).
  Proof.
    intros Hj Hk. unfold astar1, astar2, lo_astar1, lo_astar2, fill, sum_above, sum_below. rewrite (proj2 (analysed_true D j k)) by auto. rewrite !N.
    assert (Hj' : (2 <= j <= nd D)%nat) by (unfold analysed_row in Hj; rewrite N in Hj; lia).
    pose proof (south_below (nd D) (Nat.le_refl _)) as A. pose proof (south_above (nd D - 1) ltac:(lia) ltac:(lia)) as B. replace (S (nd D - 1)) with (nd D) in B by lia.
    split; [exact A|]. split; [exact B|]. split; [exact A|exact B].
  Qed.
End South.

Section Baro.
  Variable D : fluxdims R.
  Hypothesis Hz : 0 < f_dz D <= f_h D.
  Hypothesis Fz : rnd32 (f_dz D) = f_dz D.
  Hypothesis Hp : 0 < f_prefac D <= bpow radix2 20 * f_dz D.
  Variables (pv : arr3 R) (qref : arr2 R) (i j : nat).
  Hypothesis Low : forall k, interior_level D k -> @lo_astar1 R S32 D pv qref i j k = 0 /\ @lo_astar2 R S32 D pv qref i j k <= - bpow radix2 (-106).
  Lemma dc_single : bpow radix2 (-20) <= @lo_dc R S32 D.
  Proof.
    unfold lo_dc. cbn [ndiv RndNum]. apply rnd32_pow_le; [lia|]. apply Rmult_le_reg_r with (f_prefac D); [lra|]. unfold Rdiv. rewrite Rmult_assoc, Rinv_l, Rmult_1_r by lra.
    apply Rle_trans with (bpow radix2 (-20) * (bpow radix2 20 * f_dz D)); [apply Rmult_le_compat_l; [apply bpow_ge_0|lra]|]. rewrite <- Rmult_assoc, (pow_mul (-20) 20 0 eq_refl). change (bpow radix2 0) with 1. lra.
  Qed.
  Lemma weight_single_pos k : 0 <= @lo_weight R S32 D k.
  Proof. unfold lo_weight. cbn [nexp RndNum]. apply (rnd_pos rnd32 rnd32_le rnd32_0), Rlt_le, exp_pos. Qed.
  Lemma weight_single : bpow radix2 (-2) <= @lo_weight R S32 D 2.
  Proof.
    unfold lo_weight, nfloat. cbn [nexp nopp ndiv nmul nofZ RndNum Z.of_nat Pos.of_succ_nat Pos.succ]. change (2 - 1)%Z with 1%Z. apply rnd32_pow_le; [lia|].
    assert (O : rnd32 (IZR 1) = 1) by exact (rnd32_pow 0 ltac:(lia)). rewrite O, Rmult_1_r.
    rewrite Fz. assert (E : - bpow radix2 0 <= rnd32 (- f_dz D / f_h D)).
    { rewrite <- (rnd32_pow 0 ltac:(lia)), <- rnd32_opp. apply rnd32_le. change (bpow radix2 0) with 1. apply Rmult_le_reg_r with (f_h D); [lra|]. unfold Rdiv. rewrite Rmult_assoc, Rinv_l, Rmult_1_r by lra. lra. }
    change (bpow radix2 0) with 1 in E. apply Rle_trans with (exp (- (1))).
    - rewrite exp_Ropp. pose proof exp_le_3. pose proof (exp_pos 1). powers. apply Rinv_le_contravar; lra.
    - destruct (Req_dec (- (1)) (rnd32 (- f_dz D / f_h D))) as [<-|X]; [lra|]. apply Rlt_le, exp_increasing. lra.
  Qed.
  Lemma baro_passes n : (n <= kmax D - 2)%nat ->
    @loop R S32 n (fun p s => @nadd R S32 s (@nmul R S32 (@nmul R S32 (@nadd R S32 (@lo_astar1 R S32 D pv qref i j (p + 1)%nat) (@lo_astar2 R S32 D pv qref i j (p + 1)%nat)) (@lo_weight R S32 D (p + 1)%nat)) (@lo_dc R S32 D)))
    <= (if Nat.eqb n 0 then 0 else - bpow radix2 (-128)).
  Proof.
    induction n as [|n IH]; intros Hn; cbn [loop Nat.eqb]; [cbn [nzero RndNum]; lra|]. specialize (IH ltac:(lia)). revert IH.
    generalize (@loop R S32 n (fun p s => @nadd R S32 s (@nmul R S32 (@nmul R S32 (@nadd R S32 (@lo_astar1 R S32 D pv qref i j (p + 1)%nat) (@lo_astar2 R S32 D pv qref i j (p + 1)%nat)) (@lo_weight R S32 D (p + 1)%nat)) (@lo_dc R S32 D)))).
    intros s IH. assert (Hk : interior_level D (S n + 1)%nat) by (unfold interior_level; lia).
    destruct (Low _ Hk) as [E1 E2]. rewrite E1. cbn [nadd nmul RndNum]. rewrite Rplus_0_l.
    assert (A : rnd32 (@lo_astar2 R S32 D pv qref i j (S n + 1)%nat) <= - bpow radix2 (-106)) by (apply rnd32_neg_pow; [lia|exact E2]).
    pose proof dc_single as C. pose proof (weight_single_pos (S n + 1)%nat) as W. pose proof (bpow_gt_0 radix2 (-20)). pose proof (bpow_gt_0 radix2 (-106)). pose proof (bpow_gt_0 radix2 (-128)).
    destruct n as [|n]; cbn [Nat.eqb] in IH.
    - pose proof weight_single as W2. change (1 + 1)%nat with 2%nat in *.
      assert (T1 : rnd32 (rnd32 (@lo_astar2 R S32 D pv qref i j 2%nat) * @lo_weight R S32 D 2%nat) <= - bpow radix2 (-108)).
      { apply rnd32_neg_pow; [lia|]. apply (neg_mul _ _ (-106) (-2)); [reflexivity|exact A|exact W2]. }
      apply rnd32_neg_pow; [lia|].
      assert (T2 : rnd32 (rnd32 (rnd32 (@lo_astar2 R S32 D pv qref i j 2%nat) * @lo_weight R S32 D 2%nat) * @lo_dc R S32 D) <= - bpow radix2 (-128)).
      { apply rnd32_neg_pow; [lia|]. apply (neg_mul _ _ (-108) (-20)); [reflexivity|exact T1|exact C]. }
      lra.
    - apply rnd32_neg_pow; [lia|].
      assert (T1 : rnd32 (rnd32 (@lo_astar2 R S32 D pv qref i j (S (S n) + 1)%nat) * @lo_weight R S32 D (S (S n) + 1)%nat) <= 0) by (apply (rnd_neg rnd32 rnd32_le rnd32_0); nra).
      assert (T2 : rnd32 (rnd32 (rnd32 (@lo_astar2 R S32 D pv qref i j (S (S n) + 1)%nat) * @lo_weight R S32 D (S (S n) + 1)%nat) * @lo_dc R S32 D) <= 0) by (apply (rnd_neg rnd32 rnd32_le rnd32_0); nra).
      lra.
  Qed.
  Lemma baro_single : (3 <= kmax D)%nat -> @lo_astarbaro R S32 D pv qref i j <= - bpow radix2 (-128).
  Proof.
    intros K. pose proof (baro_passes (kmax D - 2) (Nat.le_refl _)) as B. destruct (kmax D - 2)%nat eqn:E; [lia|]. cbn [Nat.eqb] in B. unfold lo_astarbaro. rewrite E. exact B.
  Qed.
End Baro.

(** ** the bins of the reference state solver *)
Lemma rnd32_error x : bpow radix2 (-126) <= x -> (1 - bpow radix2 (-24)) * x <= rnd32 x.
Proof.
  intros H. pose proof (bpow_gt_0 radix2 (-126)).
  pose proof (relative_error_N_FLT radix2 (-149) 24 eq_refl (fun z => negb (Z.even z)) x) as E. specialize (E ltac:(rewrite Rabs_pos_eq by lra; exact H)).
  rewrite (Rabs_pos_eq x) in E by lra. fold (rnd32 x) in E. apply Rabs_le_inv in E.
  assert (B : / 2 * bpow radix2 (- (24) + 1) = bpow radix2 (-24)) by (apply (pow_mul (-1) (-23)); reflexivity). rewrite B in E.
  clear B. revert E. generalize (bpow radix2 (-24)). intros b E. lra.
Qed.
Section Bins.
  Variables (P : rsdims R) (pv : arr3 R) (k : nat).
  Hypothesis Np : (2 <= s_npart P)%nat.
  Hypothesis Nb : (Z.of_nat (s_npart P) <= 2 ^ 22)%Z.
  Variables M m : R.
  Hypothesis HM : level_max P pv k M.
  Hypothesis Hm : level_min P pv k m.
  Hypothesis Far : bpow radix2 (-100) <= M - m.
  Lemma qmax_single : @RefStates.qmax R S32 P pv k = M.
  Proof. exact (qmax_level P pv k M HM). Qed.
  Lemma qmin_single : @RefStates.qmin R S32 P pv k = m.
  Proof. exact (qmin_level P pv k m Hm). Qed.
  Lemma bin_single i j : grid_point P i j -> (1 <= @bin R S32 RTrunc P pv k (i, j) <= Z.of_nat (s_npart P))%Z.
  Proof.
    intros G. unfold bin, RefStates.dq. rewrite qmax_single, qmin_single. unfold nfloat. cbn [nsub ndiv nofZ RndNum fst snd].
    set (n := Z.of_nat (s_npart P)) in *. change (Z.of_nat 1) with 1%Z. rewrite (rnd32_int (n - 1)) by lia.
    set (x := rnd32 (M - pv i j k)). set (d := rnd32 (M - m)).
    assert (X : 0 <= x <= d).
    { split; [apply (rnd_pos rnd32 rnd32_le rnd32_0); pose proof (proj1 HM i j G); lra|]. apply rnd32_le. pose proof (proj1 Hm i j G). lra. }
    assert (B : bpow radix2 (-100) <= d) by (apply rnd32_pow_le; [lia|exact Far]).
    clearbody x d. assert (N1 : 1 <= IZR (n - 1)) by (apply IZR_le; lia).
    assert (N2 : IZR (n - 1) <= bpow radix2 22) by (rewrite <- (IZR_Zpower radix2 22) by lia; apply IZR_le; change (radix_val radix2 ^ 22)%Z with (2 ^ 22)%Z; lia).
    assert (NN : IZR (n - 1) + 1 = IZR n) by (rewrite minus_IZR; ring).
    set (r := IZR (n - 1)) in *.
    assert (Q : bpow radix2 (-122) <= d / r).
    { apply Rmult_le_reg_r with r; [lra|]. unfold Rdiv. rewrite Rmult_assoc, Rinv_l, Rmult_1_r by lra.
      apply Rle_trans with (bpow radix2 (-122) * bpow radix2 22); [apply Rmult_le_compat_l; [apply bpow_ge_0|exact N2]|]. rewrite (pow_mul (-122) 22 (-100) eq_refl). exact B. }
    assert (Q' : bpow radix2 (-126) <= d / r) by (eapply Rle_trans; [|exact Q]; apply bpow_le; lia).
    pose proof (rnd32_error _ Q') as E. pose proof (bpow_gt_0 radix2 (-126)) as Z0. set (w := rnd32 (d / r)) in *. clearbody w.
    assert (E24 : bpow radix2 (-24) = / 16777216) by (powers; lra). rewrite E24 in E.
    assert (W : 0 < w) by lra.
    assert (B22 : bpow radix2 22 = 4194304) by (powers; lra). rewrite B22 in N2.
    assert (T : x / w <= r + / 2).
    { apply Rmult_le_reg_r with w; [exact W|]. unfold Rdiv at 1. rewrite Rmult_assoc, Rinv_l, Rmult_1_r by lra.
      apply Rle_trans with d; [lra|]. apply Rle_trans with ((r + / 2) * ((1 - / 16777216) * (d / r))); [|apply Rmult_le_compat_l; lra].
      assert (D0 : d = r * (d / r)) by (field; lra). set (t := d / r) in *. rewrite D0 at 1. assert (0 < t) by lra. nra. }
    assert (X0 : 0 <= x / w) by (apply Rmult_le_pos; [lra|apply Rlt_le, Rinv_0_lt_compat, W]).
    assert (Y : 0 <= rnd32 (x / w) <= r + / 2).
    { split; [apply (rnd_pos rnd32 rnd32_le rnd32_0), X0|]. assert (F : rnd32 (IZR (2 * n - 1) * bpow radix2 (-1)) = IZR (2 * n - 1) * bpow radix2 (-1)) by (apply rnd32_exact; lia).
      assert (G2 : IZR (2 * n - 1) * bpow radix2 (-1) = r + / 2) by (rewrite minus_IZR, mult_IZR, <- NN; powers; lra). rewrite G2 in F. rewrite <- F. apply rnd32_le, T. }
    unfold ntrunc, RTrunc. set (y := rnd32 (x / w)) in *. clearbody y. destruct (Rle_dec 0 y) as [_|C]; [|lra].
    destruct (archimed y) as [A1 A2]. replace (Z.succ (up y - 1)) with (up y) by lia. split.
    - apply lt_IZR in A1 || idtac. assert (0 < up y)%Z by (apply lt_IZR; lra). lia.
    - assert (up y < n + 1)%Z by (apply lt_IZR; rewrite plus_IZR; lra). lia.
  Qed.
End Bins.
