(** C165: accuracy of basis.lwa in floating point. *)
From Verif Require Import Base Spec SpecFacts Basis LwaSpec LwaProofs RoundSpec AccuracyProofs.
From Flocq Require Import Core Relative.
From Coq Require Import Lra Lia Psatz.
Open Scope R_scope.

(** Both components, and the total, are the exact integrals up to nlat + 4 relative rounding errors: no cancellation, whatever the data.  The sums are
    taken row by row; numpy's pairwise order has no more roundings per term. *)
Theorem C165_relative_accuracy :
  forall (u : R) (rnd : R -> R) (nlat : nat) (vort : nat -> nat -> R) (q dmu : nat -> R) (ncforce : option (nat -> nat -> R)) (j i : nat),
  relative_rounding u rnd -> (forall r, (r < nlat)%nat -> 0 <= dmu r) -> (j < nlat)%nat ->
  exists a c t,
    out_component (fst (@lwa R (RndNum rnd) nlat vort q dmu true ncforce)) 0 j i = Some a /\
    out_component (fst (@lwa R (RndNum rnd) nlat vort q dmu true ncforce)) 1 j i = Some c /\
    out_total (fst (@lwa R (RndNum rnd) nlat vort q dmu false ncforce)) j i = Some t /\
    within u (nlat + 3) (lwa_anticyclonic nlat vort q dmu j i) a /\
    within u (nlat + 3) (lwa_cyclonic nlat vort q dmu j i) c /\
    within u (nlat + 4) (lwa_anticyclonic nlat vort q dmu j i + lwa_cyclonic nlat vort q dmu j i) t.
Proof.
  intros u rnd nlat vort q dmu nc j i H Hd Hj. unfold lwa. cbn [fst out_component out_total].
  destruct (component_accurate u rnd H nlat vort q dmu Hd 0 j i) as [A1 A2]. destruct (component_accurate u rnd H nlat vort q dmu Hd 1 j i) as [B1 B2].
  destruct (component_spec nlat vort q dmu nc j i Hj) as [E1 E2]. cbn [lwa fst out_component] in E1, E2. injection E1 as E1. injection E2 as E2. rewrite E1 in A1, A2. rewrite E2 in B1, B2.
  do 3 eexists. split; [reflexivity|]. split; [reflexivity|]. split; [reflexivity|]. split; [exact A2|]. split; [exact B2|].
  cbn [nadd RndNum]. replace (nlat + 4)%nat with (S (nlat + 3)) by lia. apply (within_rnd u rnd H); [lra|]. apply within_add; assumption.
Qed.
Print Assumptions C165_relative_accuracy.

(** in plain terms: a relative error of at most 2 (nlat + 4) u *)
Lemma within_error u n x y : 0 <= u -> INR n * u <= / 2 -> 0 <= x -> within u n x y -> Rabs (y - x) <= 2 * INR n * u * x.
Proof.
  intros U B Hx [W1 W2].
  assert (L : forall m, INR m * u <= / 2 -> 1 - INR m * u <= (1 - u) ^ m).
  { induction m as [|m IH]; intros Hm; [cbn; lra|]. rewrite S_INR in Hm. pose proof (pos_INR m). assert (INR m * u >= 0) by nra. specialize (IH ltac:(lra)). rewrite S_INR. cbn [pow]. set (p := (1 - u) ^ m) in *. clearbody p. nra. }
  assert (G : forall m, INR m * u <= / 2 -> (1 + u) ^ m * (1 - INR m * u) <= 1).
  { induction m as [|m IH]; intros Hm; [cbn; lra|]. rewrite S_INR in Hm. pose proof (pos_INR m). assert (INR m * u >= 0) by nra. specialize (IH ltac:(lra)). rewrite S_INR. cbn [pow].
    assert (P : 0 < (1 + u) ^ m) by (apply pow_lt; lra). set (p := (1 + u) ^ m) in *. clearbody p. apply Rle_trans with (p * (1 - INR m * u)); [|exact IH].
    replace ((1 + u) * p * (1 - (INR m + 1) * u)) with (p * (1 - INR m * u - u * u * (INR m + 1))) by ring. apply Rmult_le_compat_l; [lra|]. assert (0 <= u * u * (INR m + 1)) by (apply Rmult_le_pos; [nra|lra]). lra. }
  specialize (L n B). specialize (G n B). pose proof (pos_INR n). assert (T : 0 <= INR n * u) by nra. set (t := INR n * u) in *. replace (2 * INR n * u * x) with (2 * t * x) by (unfold t; ring).
  set (p := (1 + u) ^ n) in *. set (m := (1 - u) ^ n) in *. clearbody p m t.
  assert (P : p <= 1 + 2 * t) by nra. apply Rabs_le. split; [assert ((1 - t) * x <= m * x) by (apply Rmult_le_compat_r; lra); nra|].
  assert (p * x <= (1 + 2 * t) * x) by (apply Rmult_le_compat_r; lra). lra.
Qed.
Theorem C165_relative_error_bound :
  forall (u : R) (rnd : R -> R) (nlat : nat) (vort : nat -> nat -> R) (q dmu : nat -> R) (ncforce : option (nat -> nat -> R)) (j i : nat),
  relative_rounding u rnd -> (forall r, (r < nlat)%nat -> 0 <= dmu r) -> (j < nlat)%nat -> INR (nlat + 4) * u <= / 2 ->
  exists t, out_total (fst (@lwa R (RndNum rnd) nlat vort q dmu false ncforce)) j i = Some t /\
    let exact := lwa_anticyclonic nlat vort q dmu j i + lwa_cyclonic nlat vort q dmu j i in
    Rabs (t - exact) <= 2 * INR (nlat + 4) * u * exact.
Proof.
  intros u rnd nlat vort q dmu nc j i H Hd Hj B. destruct (C165_relative_accuracy u rnd nlat vort q dmu nc j i H Hd Hj) as (a & c & t & _ & _ & E & _ & _ & W).
  exists t. split; [exact E|]. cbv zeta. apply within_error; [apply H|exact B| |exact W].
  destruct (component_accurate u rnd H nlat vort q dmu Hd 0 j i) as [A1 _]. destruct (component_accurate u rnd H nlat vort q dmu Hd 1 j i) as [B1 _].
  destruct (component_spec nlat vort q dmu nc j i Hj) as [E1 E2]. cbn [lwa fst out_component] in E1, E2. injection E1 as E1. injection E2 as E2. rewrite E1 in A1. rewrite E2 in B1. lra.
Qed.
Print Assumptions C165_relative_error_bound.

(** The forcing term can cancel; its error is small compared with the integral of the size of the forcing over the displaced air. *)
Theorem C165_forcing_accuracy :
  forall (u : R) (rnd : R -> R) (nlat : nat) (vort f : nat -> nat -> R) (q dmu : nat -> R) (p : bool) (j i : nat),
  relative_rounding u rnd -> (forall r, (r < nlat)%nat -> 0 <= dmu r) -> (j < nlat)%nat ->
  exists b, snd (@lwa R (RndNum rnd) nlat vort q dmu p (Some f)) = Some b /\
    Rabs (b j i - forcing_integral nlat vort q dmu f j i) <= ((1 + u) ^ (nlat + 3) - 1) * forcing_size nlat vort q dmu f j i.
Proof.
  intros u rnd nlat vort f q dmu p j i H Hd Hj. exists (@lwa_bigsigma R (RndNum rnd) nlat vort q dmu f). split; [destruct p; reflexivity|].
  destruct (bigsigma_spec nlat vort q dmu p f j i Hj) as (s & Es & E). assert (X : s = @lwa_bigsigma R RNum nlat vort q dmu f) by (destruct p; injection Es as <-; reflexivity). rewrite X in E. rewrite <- E.
  destruct (Nat.eq_dec (S j) nlat) as [L|L].
  - unfold lwa_bigsigma, forcing_size. rewrite ltb_lt_false by lia. destruct (Nat.eqb_spec (S j) nlat); [|contradiction]. cbn [nzero RNum RndNum]. rewrite Rminus_0_r, Rabs_R0, Rmult_0_r. lra.
  - rewrite <- (size_spec nlat vort q dmu f j i) by lia. rewrite (Nat.add_comm nlat 3). apply (forcing_accurate u rnd H nlat vort q dmu Hd f j i). lia.
Qed.
Print Assumptions C165_forcing_accuracy.

(** 53-bit rounding to nearest even, without underflow and overflow, is such a rounding; a hundred and eighty-one rows give an error below 5e-14 *)
Example C165_double_precision : relative_rounding (bpow radix2 (-53)) (round radix2 (FLX_exp 53) ZnearestE) /\ 2 * INR (181 + 4) * bpow radix2 (-53) <= 5 / 100000000000000.
Proof.
  split.
  - split; [split; [apply bpow_ge_0|apply (bpow_lt radix2 (-53) 0); lia]|]. intros x.
    pose proof (relative_error_N_FLX radix2 53 eq_refl (fun z => negb (Z.even z)) x) as E. replace (bpow radix2 (-53)) with (/ 2 * bpow radix2 (- (53) + 1)); [exact E|].
    change (/ 2) with (bpow radix2 (-1)). rewrite <- bpow_plus. reflexivity.
  - rewrite INR_IZR_INZ. change (Z.of_nat (181 + 4)) with 185%Z. change (bpow radix2 (-53)) with (/ IZR (Z.pow_pos 2 53)). change (Z.pow_pos 2 53) with 9007199254740992%Z. lra.
Qed.
