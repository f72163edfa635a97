From Coq Require Import Reals ZArith List Lra Lia Psatz.
From Flocq Require Import Core Relative.
From Verif Require Import Heights.
Open Scope R_scope.
Local Notation fexp := (FLT_exp (-1074) 53).
Local Instance v64 : Valid_exp fexp. Proof. apply FLT_exp_valid. reflexivity. Qed.

(** rounding of a number between 2^(52+e) and 2^(53+e) *)
Lemma rnd64_is x M e : (-1074 <= e)%Z -> bpow radix2 (52 + e) <= x < bpow radix2 (53 + e) -> Rabs (x - IZR M * bpow radix2 e) < bpow radix2 e / 2 ->
  rnd64 x = IZR M * bpow radix2 e.
Proof.
  intros He Hx Hd. unfold rnd64, round, F2R. cbn [Fnum Fexp].
  assert (X0 : 0 < x) by (apply Rlt_le_trans with (2 := proj1 Hx); apply bpow_gt_0).
  assert (Mg : mag radix2 x = (53 + e)%Z :> Z). { apply mag_unique_pos. replace (53 + e - 1)%Z with (52 + e)%Z by lia. exact Hx. }
  assert (C : cexp radix2 fexp x = e). { unfold cexp. rewrite Mg. unfold FLT_exp. lia. }
  rewrite C. f_equal. f_equal. unfold scaled_mantissa. rewrite C. apply Znearest_imp.
  assert (B := bpow_gt_0 radix2 e). rewrite bpow_opp. replace (x * / bpow radix2 e - IZR M) with ((x - IZR M * bpow radix2 e) * / bpow radix2 e) by (field; lra).
  rewrite Rabs_mult, (Rabs_pos_eq (/ bpow radix2 e)) by (left; apply Rinv_0_lt_compat; exact B).
  apply Rmult_lt_reg_r with (bpow radix2 e); [exact B|]. rewrite Rmult_assoc, Rinv_l by lra. lra.
Qed.
Lemma rnd64_fix x : generic_format radix2 fexp x -> rnd64 x = x.
Proof. apply round_generic. apply valid_rnd_N. Qed.
Lemma rnd64_le x y : x <= y -> rnd64 x <= rnd64 y.
Proof. apply round_le; [apply v64|apply valid_rnd_N]. Qed.
(** integers and half integers *)
Lemma format_small (M e : Z) : (-1074 <= e)%Z -> (Z.abs M <= 2 ^ 53)%Z -> generic_format radix2 fexp (IZR M * bpow radix2 e).
Proof.
  intros He HM. destruct (Z.eq_dec (Z.abs M) (2 ^ 53)) as [E|E].
  - assert (Em : IZR M * bpow radix2 e = F2R (Float radix2 (M / 2) (e + 1))).
    { unfold F2R. cbn [Fnum Fexp]. rewrite bpow_plus. change (bpow radix2 1) with 2. assert (D : M = (2 * (M / 2))%Z) by (destruct (Z.abs_eq_cases M (2 ^ 53)) as [Y|Y]; [rewrite E; reflexivity|rewrite Y; reflexivity|rewrite Y; reflexivity]).
      rewrite D at 1. rewrite mult_IZR. ring. }
    rewrite Em. apply generic_format_FLT. exists (Float radix2 (M / 2) (e + 1)); [reflexivity| |cbn [Fexp]; lia].
    cbn [Fnum]. change (Zpower radix2 53) with (2 ^ 53)%Z. assert (Z.abs (M / 2) <= 2 ^ 52)%Z; [|lia].
    destruct (Z.abs_eq_cases M (2 ^ 53)) as [Y|Y]; [rewrite E; reflexivity|rewrite Y|rewrite Y]; vm_compute; discriminate.
  - change (IZR M * bpow radix2 e) with (F2R (Float radix2 M e)). apply generic_format_FLT. exists (Float radix2 M e); [reflexivity| |exact He].
    cbn [Fnum]. change (Zpower radix2 53) with (2 ^ 53)%Z. lia.
Qed.
Lemma format_int (n : Z) : (Z.abs n <= 2 ^ 53)%Z -> generic_format radix2 fexp (IZR n).
Proof. intros H. replace (IZR n) with (IZR n * bpow radix2 0) by (cbn; ring). apply format_small; [lia|exact H]. Qed.

Section Count.
  Variables (kmax : nat) (dz : R).
  Hypotheses (Dz : 0 < dz) (Small : (Z.of_nat kmax < 2 ^ 52)%Z).
  Local Notation n := (INR kmax).

  Lemma count_exact : rnd64 (n * dz) = n * dz -> arange_length rnd64 (rnd64 (n * dz)) dz = kmax.
  Proof.
    intros E. unfold arange_length. rewrite E. replace (n * dz / dz) with n by (field; lra).
    rewrite INR_IZR_INZ, rnd64_fix by (apply format_int; lia). rewrite Zceil_IZR. apply Nat2Z.id.
  Qed.
  (** the product is not so small that precision is lost *)
  Hypothesis Normal : bpow radix2 (-1022) <= dz.
  Hypothesis Some_ : (1 <= kmax)%nat.
  Lemma count_near : arange_length rnd64 (rnd64 (n * dz)) dz = kmax \/ arange_length rnd64 (rnd64 (n * dz)) dz = (kmax + 1)%nat.
  Proof.
    assert (N1 : 1 <= n) by (apply (le_INR 1); exact Some_).
    assert (N2 : n <= IZR (2 ^ 52)) by (rewrite INR_IZR_INZ; apply IZR_le; lia).
    set (p := rnd64 (n * dz)).
    assert (P : Rabs (p - n * dz) <= / 2 * bpow radix2 (- 53 + 1) * Rabs (n * dz)).
    { unfold p, rnd64. apply relative_error_N_FLT; [reflexivity|]. rewrite Rabs_pos_eq by (apply Rmult_le_pos; lra). change (-1074 + 53 - 1)%Z with (-1022)%Z. assert (0 <= (n - 1) * dz) by (apply Rmult_le_pos; lra). lra. }
    rewrite (Rabs_pos_eq (n * dz)) in P by (apply Rmult_le_pos; lra).
    assert (B : / 2 * bpow radix2 (- 53 + 1) * IZR (2 ^ 52) = / 2). { change (bpow radix2 (- 53 + 1)) with (/ IZR (2 ^ 52)). field. apply not_0_IZR. vm_compute. discriminate. }
    assert (Q : Rabs (p - n * dz) <= / 2 * dz).
    { eapply Rle_trans; [exact P|]. rewrite <- (Rmult_assoc _ n dz). apply Rmult_le_compat_r; [lra|].
      assert (X := bpow_gt_0 radix2 (- 53 + 1)). rewrite <- B at 2. apply Rmult_le_compat_l; [lra|exact N2]. }
    assert (Q1 : - (/ 2 * dz) <= p - n * dz <= / 2 * dz) by (split; [|]; destruct (Rcase_abs (p - n * dz)); [rewrite Rabs_left in Q by lra|rewrite Rabs_right in Q by lra|rewrite Rabs_left in Q by lra|rewrite Rabs_right in Q by lra]; lra).
    assert (D : n - / 2 <= p / dz <= n + / 2).
    { split; apply Rmult_le_reg_r with dz; try exact Dz; unfold Rdiv; rewrite Rmult_assoc, Rinv_l, Rmult_1_r by lra; lra. }
    assert (L : rnd64 (n - / 2) = n - / 2).
    { apply rnd64_fix. replace (n - / 2) with (IZR (2 * Z.of_nat kmax - 1) * bpow radix2 (-1)).
      2:{ rewrite minus_IZR, mult_IZR, <- INR_IZR_INZ. change (bpow radix2 (-1)) with (/ 2). field. }
      apply format_small; lia. }
    assert (U : rnd64 (n + / 2) = n + / 2).
    { apply rnd64_fix. replace (n + / 2) with (IZR (2 * Z.of_nat kmax + 1) * bpow radix2 (-1)).
      2:{ rewrite plus_IZR, mult_IZR, <- INR_IZR_INZ. change (bpow radix2 (-1)) with (/ 2). field. }
      apply format_small; lia. }
    assert (R1 := rnd64_le _ _ (proj1 D)). assert (R2 := rnd64_le _ _ (proj2 D)). rewrite L in R1. rewrite U in R2.
    unfold arange_length. fold p. set (y := rnd64 (p / dz)) in *.
    assert (C1 : (Z.of_nat kmax <= Zceil y)%Z). { apply Z.lt_pred_le. apply lt_IZR. eapply Rlt_le_trans; [|apply Zceil_ub]. unfold Z.pred. rewrite plus_IZR, <- INR_IZR_INZ. lra. }
    assert (C2 : (Zceil y <= Z.of_nat kmax + 1)%Z). { apply Zceil_glb. rewrite plus_IZR, <- INR_IZR_INZ. lra. }
    lia.
  Qed.
End Count.
