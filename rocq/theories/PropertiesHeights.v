(** C193: the number of heights that reach the direct inversion of QGFieldNHN22. *)
From Coq Require Import Reals ZArith List Lra Lia.
From Flocq Require Import Core.
From Verif Require Import Heights HeightsProofs.
Import ListNotations.
Open Scope R_scope.

(** without rounding the heights are those of the levels, for every spacing and number of levels *)
Theorem C193_heights_are_the_levels_in_exact_arithmetic :
  forall (dz : R) (static_stability : list R), 0 < dz ->
    matrix_b4_call (fun x => x) dz static_stability = Done (level_heights (fun x => x) (length static_stability) dz).
Proof.
  intros dz st D. unfold matrix_b4_call, inversion_heights, arange, level_heights, arange_length.
  set (n := length st). replace (INR n * dz / dz) with (INR n) by (field; lra). rewrite INR_IZR_INZ, Zceil_IZR, Nat2Z.id.
  rewrite map_length, seq_length, Nat.eqb_refl. reflexivity.
Qed.
Print Assumptions C193_heights_are_the_levels_in_exact_arithmetic.

(** in binary64 they are not: with 97 levels 170.1 metres apart there are 98 heights, and the call is refused *)
Theorem C193_heights_are_the_levels_refuted :
  exists dz, dz = rnd64 (1701 / 10) /\ forall static_stability, length static_stability = 97%nat ->
    length (inversion_heights rnd64 97 dz) = 98%nat /\ matrix_b4_call rnd64 dz static_stability = Raise ValueError.
Proof.
  exists (rnd64 (1701 / 10)). split; [reflexivity|]. intros st L.
  assert (P : forall e, bpow radix2 (Z.neg e) = / IZR (2 ^ Z.pos e)) by (intros e; change (Z.neg e) with (- Z.pos e)%Z; rewrite bpow_opp, <- IZR_Zpower by lia; reflexivity).
  assert (E : rnd64 (1701 / 10) = IZR 5984861692310323 * bpow radix2 (-45)).
  { apply rnd64_is; [lia| |]; change (52 + -45)%Z with 7%Z; change (53 + -45)%Z with 8%Z; rewrite ?(P 45%positive); change (2 ^ 45)%Z with 35184372088832%Z.
    - change (bpow radix2 7) with 128. change (bpow radix2 8) with 256. lra.
    - apply Rabs_def1; lra. }
  set (dz := rnd64 (1701 / 10)) in *.
  assert (Q : rnd64 (INR 97 * dz) = IZR 4535403001203917 * bpow radix2 (-38)).
  { rewrite E, INR_IZR_INZ. change (Z.of_nat 97) with 97%Z. rewrite (P 45%positive). change (2 ^ 45)%Z with 35184372088832%Z.
    apply rnd64_is; [lia| |]; change (52 + -38)%Z with 14%Z; change (53 + -38)%Z with 15%Z; rewrite ?(P 38%positive); change (2 ^ 38)%Z with 274877906944%Z.
    - change (bpow radix2 14) with 16384. change (bpow radix2 15) with 32768. lra.
    - apply Rabs_def1; lra. }
  assert (D : rnd64 (rnd64 (INR 97 * dz) / dz) = IZR 6825768185233409 * bpow radix2 (-46)).
  { rewrite Q, E, (P 45%positive), (P 38%positive). change (2 ^ 45)%Z with 35184372088832%Z. change (2 ^ 38)%Z with 274877906944%Z.
    replace (4535403001203917 * / 274877906944 / (5984861692310323 * / 35184372088832)) with (4535403001203917 * 128 / 5984861692310323) by field.
    apply rnd64_is; [lia| |]; change (52 + -46)%Z with 6%Z; change (53 + -46)%Z with 7%Z; rewrite ?(P 46%positive); change (2 ^ 46)%Z with 70368744177664%Z.
    - change (bpow radix2 6) with 64. change (bpow radix2 7) with 128. lra.
    - apply Rabs_def1; lra. }
  assert (N : length (inversion_heights rnd64 97 dz) = 98%nat).
  { unfold inversion_heights, arange, arange_length. rewrite map_length, seq_length, D.
    replace (Zceil (IZR 6825768185233409 * bpow radix2 (-46))) with 98%Z; [reflexivity|]. symmetry. apply Zceil_imp.
    rewrite (P 46%positive). change (2 ^ 46)%Z with 70368744177664%Z. change (98 - 1)%Z with 97%Z. lra. }
  split; [exact N|]. unfold matrix_b4_call. rewrite L, N. reflexivity.
Qed.
Print Assumptions C193_heights_are_the_levels_refuted.

(** there is never more than one height too many, none is missing *)
Theorem C193_at_most_one_height_too_many :
  forall (dz : R) (kmax : nat), (1 <= kmax)%nat -> (Z.of_nat kmax < 2 ^ 52)%Z -> bpow radix2 (-1022) <= dz ->
    length (inversion_heights rnd64 kmax dz) = kmax \/ length (inversion_heights rnd64 kmax dz) = (kmax + 1)%nat.
Proof.
  intros dz kmax K S N. unfold inversion_heights, arange. rewrite map_length, seq_length. apply count_near; try assumption.
  apply Rlt_le_trans with (2 := N). apply bpow_gt_0.
Qed.
Print Assumptions C193_at_most_one_height_too_many.

(** if the product of number and spacing is a binary64 number, the heights are those of the levels; in particular for spacings of a whole
    number of metres *)
Theorem C193_heights_are_the_levels_partial :
  forall (dz : R) (static_stability : list R), 0 < dz -> (Z.of_nat (length static_stability) < 2 ^ 52)%Z ->
    rnd64 (INR (length static_stability) * dz) = INR (length static_stability) * dz ->
    matrix_b4_call rnd64 dz static_stability = Done (level_heights rnd64 (length static_stability) dz).
Proof.
  intros dz st D S E. unfold matrix_b4_call, inversion_heights, arange, level_heights. rewrite (count_exact _ _ D S E).
  rewrite map_length, seq_length, Nat.eqb_refl. reflexivity.
Qed.
Print Assumptions C193_heights_are_the_levels_partial.
Theorem C193_whole_spacings :
  forall (d : Z) (static_stability : list R), (0 < d)%Z -> (Z.of_nat (length static_stability) * d <= 2 ^ 53)%Z -> (Z.of_nat (length static_stability) < 2 ^ 52)%Z ->
    matrix_b4_call rnd64 (IZR d) static_stability = Done (map (fun i => INR i * IZR d) (seq 0 (length static_stability))).
Proof.
  intros d st D P S. rewrite C193_heights_are_the_levels_partial; [|apply (IZR_lt 0); exact D|exact S|].
  - f_equal. apply map_ext_in. intros i Hi. apply in_seq in Hi. rewrite INR_IZR_INZ, <- mult_IZR. apply rnd64_fix, format_int.
    assert (Z.of_nat i <= Z.of_nat (length st))%Z by lia. rewrite Z.abs_eq; nia.
  - rewrite INR_IZR_INZ, <- mult_IZR. apply rnd64_fix, format_int. rewrite Z.abs_eq; nia.
Qed.
Print Assumptions C193_whole_spacings.
(** the default: 49 levels 1000 metres apart *)
Example C193_case : matrix_b4_call rnd64 1000 (repeat 1 49) = Done (map (fun i => INR i * 1000) (seq 0 49)) /\ bpow radix2 (-1022) <= 1000.
Proof.
  split.
  - assert (X := C193_whole_spacings 1000 (repeat 1 49)). rewrite repeat_length in X. apply X; vm_compute; [reflexivity|discriminate|reflexivity].
  - apply Rle_trans with (bpow radix2 0); [apply bpow_le; lia|cbn; lra].
Qed.

(** C137 in rounded arithmetic: the suggested number is accepted whatever the (monotone) rounding; in binary64 at most one level more is *)
Theorem C137_suggestion_accepted_in_floating_point :
  forall (rnd : R -> R) (hmax dz : R), (forall x y, x <= y -> rnd x <= rnd y) -> rnd hmax = hmax -> 0 <= hmax -> 0 < dz ->
    levels_accepted rnd hmax dz (suggested_levels hmax dz).
Proof.
  intros rnd hmax dz M F H D. unfold levels_accepted, suggested_levels. apply Rle_not_lt. apply Rle_trans with (rnd hmax); [apply M|rewrite F; apply Rle_refl].
  assert (Q : 0 <= hmax / dz) by (apply Rmult_le_pos; [exact H|left; apply Rinv_0_lt_compat; exact D]).
  assert (Z0 : (0 <= Zfloor (hmax / dz))%Z) by (apply Zfloor_lub; exact Q).
  rewrite INR_IZR_INZ, Nat2Z.inj_sub, Z2Nat.id by lia. replace (Zfloor (hmax / dz) + 1 - Z.of_nat 1)%Z with (Zfloor (hmax / dz)) by lia.
  assert (L := Zfloor_lb (hmax / dz)). apply Rmult_le_compat_r with (r := dz) in L; [|lra].
  replace (hmax / dz * dz) with hmax in L by (field; lra). exact L.
Qed.
Print Assumptions C137_suggestion_accepted_in_floating_point.
Theorem C137_at_most_one_level_more_in_binary64 :
  forall (hmax dz : R) (kmax : nat), 0 <= hmax -> bpow radix2 (-1022) <= dz -> hmax <= IZR (2 ^ 52) * dz ->
    levels_accepted rnd64 hmax dz kmax -> (kmax <= suggested_levels hmax dz + 1)%nat.
Proof.
  intros hmax dz kmax H D B A. assert (D0 : 0 < dz) by (apply Rlt_le_trans with (2 := D); apply bpow_gt_0).
  destruct (le_lt_dec kmax (suggested_levels hmax dz + 1)) as [L|L]; [exact L|]. exfalso. apply A. clear A.
  unfold suggested_levels in L.
  assert (Q : 0 <= hmax / dz) by (apply Rmult_le_pos; [exact H|left; apply Rinv_0_lt_compat; exact D0]).
  assert (Z0 : (0 <= Zfloor (hmax / dz))%Z) by (apply Zfloor_lub; exact Q).
  assert (U := Zfloor_ub (hmax / dz)). apply Rmult_lt_compat_r with (r := dz) in U; [|exact D0]. replace (hmax / dz * dz) with hmax in U by (field; lra).
  assert (K : IZR (Zfloor (hmax / dz)) + 2 <= INR (kmax - 1)).
  { rewrite INR_IZR_INZ. rewrite <- plus_IZR. apply IZR_le. lia. }
  set (x := INR (kmax - 1) * dz). assert (X : hmax + dz <= x).
  { unfold x. apply Rle_trans with ((IZR (Zfloor (hmax / dz)) + 2) * dz); [lra|apply Rmult_le_compat_r; lra]. }
  apply Rlt_le_trans with (rnd64 (hmax + dz)); [|apply rnd64_le; exact X].
  assert (E : Rabs (rnd64 (hmax + dz) - (hmax + dz)) <= / 2 * bpow radix2 (- 53 + 1) * Rabs (hmax + dz)).
  { unfold rnd64. apply Relative.relative_error_N_FLT; [reflexivity|]. rewrite Rabs_pos_eq by lra. change (-1074 + 53 - 1)%Z with (-1022)%Z. lra. }
  rewrite (Rabs_pos_eq (hmax + dz)) in E by lra. change (bpow radix2 (- 53 + 1)) with (/ IZR (2 ^ 52)) in E.
  change (2 ^ 52)%Z with 4503599627370496%Z in *. assert (E2 := Rle_abs (- (rnd64 (hmax + dz) - (hmax + dz)))). rewrite Rabs_Ropp in E2. lra.
Qed.
Print Assumptions C137_at_most_one_level_more_in_binary64.
(** data up to 48.5 km, levels 1 km apart: 49 levels *)
Example C137_floating_point_case : rnd64 48500 = 48500 /\ suggested_levels 48500 1000 = 49%nat /\ 48500 <= IZR (2 ^ 52) * 1000.
Proof.
  split; [apply rnd64_fix, (format_int 48500); vm_compute; discriminate|]. split.
  - unfold suggested_levels. replace (Zfloor (48500 / 1000)) with 48%Z; [reflexivity|]. symmetry. apply Zfloor_imp. change (48 + 1)%Z with 49%Z. lra.
  - change (2 ^ 52)%Z with 4503599627370496%Z. lra.
Qed.
