(** C175: accuracy of the wave-activity kernels in floating point. *)
From Verif Require Import Base Spec SpecFacts Flux FluxSpec FluxProofs RoundSpec AccuracyProofs PropertiesAccuracy FluxAccuracyProofs.
From Flocq Require Import Core Relative.
From Coq Require Import Lra Lia Psatz.
Open Scope R_scope.

(** the excess of PV over the contour of row j in the rows south of it, and its deficit in the rows from j on; not weighted *)
Definition excess_south (D : fluxdims R) (pv : arr3 R) (qref : arr2 R) (i j k : nat) : R := Sum 1 j (fun r => ppart (pv i (field_row D r) k - qref j k)).
Definition deficit_north (D : fluxdims R) (pv : arr3 R) (qref : arr2 R) (i j k : nat) : R := Sum j (nd D + 1) (fun r => ppart (qref j k - pv i (field_row D r) k)).
(** whole numbers up to n are represented exactly *)
Definition exact_integers (rnd : R -> R) (n : nat) : Prop := forall m, (m <= n)%nat -> rnd (INR m) = INR m.

(** Both parts of the wave activity returned by the two kernels are the exact integrals up to nd + 11 relative rounding errors of the
    integral without the cosine (times pi: the error of a computed cosine is that of the latitude).  Near the pole the cosine is small
    and nothing better can hold: see C163. *)
Theorem C175_wave_activity_accuracy :
  forall (u : R) (rnd : R -> R) (D : fluxdims R) (pv : arr3 R) (qref : arr2 R) (i j k : nat),
  relative_rounding u rnd -> exact_integers rnd (jmax D) -> 0 <= f_a D -> (2 <= nd D)%nat -> jmax D = (2 * nd D - 1)%nat ->
  analysed_row D j -> interior_level D k ->
  let high := if is_nhem D then @astar1 R (RndNum rnd) D pv qref i j k else @astar2 R (RndNum rnd) D pv qref i j k in
  let low := if is_nhem D then @astar2 R (RndNum rnd) D pv qref i j k else @astar1 R (RndNum rnd) D pv qref i j k in
  Rabs (high - high_pv_south D pv qref i j k) <= ((1 + u) ^ (nd D + 11) - 1) * (PI * f_a D * row_spacing D * excess_south D pv qref i j k) /\
  Rabs (low - low_pv_north D pv qref i j k) <= ((1 + u) ^ (nd D + 11) - 1) * (PI * f_a D * row_spacing D * deficit_north D pv qref i j k) /\
  @lo_astar1 R (RndNum rnd) D pv qref i j k = @astar1 R (RndNum rnd) D pv qref i j k /\
  @lo_astar2 R (RndNum rnd) D pv qref i j k = @astar2 R (RndNum rnd) D pv qref i j k.
Proof.
  intros u rnd D pv qref i j k H Hi Ha Hn Hs Hj Hk high low.
  assert (Hr : (1 <= j <= nd D)%nat) by (unfold analysed_row in Hj; destruct (is_nhem D); lia).
  destruct (below_off u rnd H D pv qref Ha (conj Hn Hs) Hi i j k Hr) as [_ B]. destruct (above_off u rnd H D pv qref Ha (conj Hn Hs) Hi i j k Hr) as [_ A].
  destruct (astar_in D pv qref i j k Hj Hk) as [X1 X2].
  assert (E : forall f, fill D f i j k = f i j k) by (intros f; unfold fill; rewrite (proj2 (analysed_true D j k) (conj Hj Hk)); reflexivity).
  unfold astar1 in X1. unfold astar2 in X2. rewrite E in X1, X2. replace (nd D + 11)%nat with (11 + nd D)%nat by lia.
  pose proof (proj2 (analysed_true D j k) (conj Hj Hk)) as An.
  assert (Hh : high = @sum_above R (RndNum rnd) D pv qref i j k) by (unfold high, astar1, astar2; unfold fill; rewrite An; destruct (is_nhem D); reflexivity).
  assert (Hl : low = @sum_below R (RndNum rnd) D pv qref i j k) by (unfold low, astar1, astar2; unfold fill; rewrite An; destruct (is_nhem D); reflexivity).
  rewrite Hh, Hl. split; [|split; [|split]].
  - replace (high_pv_south D pv qref i j k) with (@sum_above R RNum D pv qref i j k) by (destruct (is_nhem D); assumption).
    replace (PI * f_a D * row_spacing D * excess_south D pv qref i j k) with (excess_south D pv qref i j k * flat D) by (unfold flat; ring). exact A.
  - replace (low_pv_north D pv qref i j k) with (@sum_below R RNum D pv qref i j k) by (destruct (is_nhem D); assumption).
    replace (PI * f_a D * row_spacing D * deficit_north D pv qref i j k) with (deficit_north D pv qref i j k * flat D) by (unfold flat; ring). exact B.
  - apply lo_astar1_eq.
  - apply lo_astar2_eq.
Qed.
Print Assumptions C175_wave_activity_accuracy.

(** The barotropic wave activity of compute_lwa_only: every level adds its share, larger by one plus its height in scale heights
    (the error of the exponential weight). *)
Theorem C175_barotropic_activity_accuracy :
  forall (u : R) (rnd : R -> R) (D : fluxdims R) (pv : arr3 R) (qref : arr2 R) (i j : nat),
  relative_rounding u rnd -> exact_integers rnd (jmax D) -> exact_integers rnd (kmax D) -> 0 <= f_a D -> (2 <= nd D)%nat -> jmax D = (2 * nd D - 1)%nat ->
  (2 <= kmax D)%nat -> 0 < f_dz D -> 0 < f_h D -> 0 < f_prefac D ->
  Rabs (@lo_astarbaro R (RndNum rnd) D pv qref i j - @lo_astarbaro R RNum D pv qref i j) <=
  ((1 + u) ^ (nd D + kmax D + 16) - 1) *
    Sum 2 (kmax D) (fun k => PI * f_a D * row_spacing D * (deficit_north D pv qref i j k + excess_south D pv qref i j k)
                             * (1 + INR (k - 1) * f_dz D / f_h D) * (f_dz D / f_prefac D)).
Proof.
  intros u rnd D pv qref i j H Hi Hk Ha Hn Hs K Z1 Z2 Z3.
  destruct (baro_off u rnd H D pv qref Ha (conj Hn Hs) Hi (conj Z1 (conj Z2 Z3)) Hk i j K) as [_ B]. replace (nd D + kmax D + 16)%nat with (18 + nd D + (kmax D - 2))%nat by lia.
  erewrite Sum_ext; [exact B|]. intros k _. cbv beta. unfold flat, scaled_height, anti_pv, cyc_pv, deficit_north, excess_south. ring.
Qed.
Print Assumptions C175_barotropic_activity_accuracy.

(** 24-bit rounding to nearest even (no underflow or overflow), 181 latitudes and 49 levels: the factor is below 3e-5 *)
Example C175_single_precision :
  relative_rounding (bpow radix2 (-24)) (round radix2 (FLX_exp 24) ZnearestE) /\ exact_integers (round radix2 (FLX_exp 24) ZnearestE) 181 /\
  exact_integers (round radix2 (FLX_exp 24) ZnearestE) 49 /\ (1 + bpow radix2 (-24)) ^ (91 + 49 + 16) - 1 <= 3 / 100000.
Proof.
  assert (X : forall n, (Z.of_nat n <= 181)%Z -> exact_integers (round radix2 (FLX_exp 24) ZnearestE) n).
  { intros n Hn m Hm. apply round_generic; [apply valid_rnd_N|]. apply generic_format_FLX. exists (Float radix2 (Z.of_nat m) 0).
    - unfold F2R. cbn [Fnum Fexp bpow]. rewrite INR_IZR_INZ. lra.
    - cbn [Fnum]. rewrite Z.abs_eq by lia. apply Z.le_lt_trans with 181%Z; [lia|reflexivity]. }
  split; [|split; [apply X; lia|split; [apply X; lia|]]].
  - split; [split; [apply bpow_ge_0|apply (bpow_lt radix2 (-24) 0); lia]|]. intros x.
    pose proof (relative_error_N_FLX radix2 24 eq_refl (fun z => negb (Z.even z)) x) as E. replace (bpow radix2 (-24)) with (/ 2 * bpow radix2 (- (24) + 1)); [exact E|].
    change (/ 2) with (bpow radix2 (-1)). rewrite <- bpow_plus. reflexivity.
  - pose proof (within_error (bpow radix2 (-24)) 156 1 ((1 + bpow radix2 (-24)) ^ 156)) as E.
    assert (V : bpow radix2 (-24) = / 16777216) by reflexivity. change (91 + 49 + 16)%nat with 156%nat. rewrite V in *.
    assert (I : INR 156 = 156) by (rewrite INR_IZR_INZ; reflexivity). rewrite I in E.
    specialize (E ltac:(lra) ltac:(lra) ltac:(lra)). assert (W : within (/ 16777216) 156 1 ((1 + / 16777216) ^ 156)).
    { split; [rewrite Rmult_1_r; apply pow_incr; lra|lra]. }
    specialize (E W). apply Rle_trans with (2 * 156 * / 16777216 * 1); [|lra]. eapply Rle_trans; [apply Rle_abs|exact E].
Qed.
