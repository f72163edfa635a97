From Verif Require Import EqvlatSpec Basis SpecFacts LwaProofs.
Open Scope R_scope.

(** ** linspace *)
Lemma linspace_lin (a b : R) n i : (1 < n)%nat -> (i < n)%nat ->
  linspace a b n i = INR i * ((b - a) / INR (n - 1)) + a.
Proof.
  intros Hn Hi. unfold linspace. rewrite (ltb_lt_true 1 n) by assumption. cbn [andb].
  destruct (Nat.eqb_spec i (n - 1)) as [->|E].
  - assert (INR (n - 1) <> 0) by (apply not_0_INR; lia). field; assumption.
  - rewrite !nofnat_INR. reflexivity.
Qed.
Lemma linspace_1 (a b : R) i : linspace a b 1 i = a.
Proof. reflexivity. Qed.
Lemma linspace_0 (a b : R) n : (1 <= n)%nat -> linspace a b n 0 = a.
Proof.
  intros H. destruct (Nat.eq_dec n 1) as [->|]; [reflexivity|].
  rewrite linspace_lin by lia. cbn [INR]. lra.
Qed.
Lemma linspace_last (a b : R) n : (1 < n)%nat -> linspace a b n (n - 1) = b.
Proof. intros H. unfold linspace. rewrite (ltb_lt_true 1 n) by assumption. rewrite Nat.eqb_refl. reflexivity. Qed.
Lemma linspace_mono (a b : R) n : a <= b -> (1 <= n)%nat -> nondecreasing n (linspace a b n).
Proof.
  intros Hab Hn i k Hk. destruct (Nat.eq_dec n 1) as [->|]; [rewrite !linspace_1; lra|].
  rewrite !linspace_lin by lia.
  assert (0 <= (b - a) / INR (n - 1)).
  { apply Rmult_le_pos; [lra|]. left; apply Rinv_0_lt_compat, lt_0_INR; lia. }
  assert (INR i <= INR k) by (apply le_INR; lia). nra.
Qed.
Lemma linspace_range (a b : R) n i : a <= b -> (1 <= n)%nat -> (i < n)%nat -> a <= linspace a b n i <= b.
Proof.
  intros Hab Hn Hi. destruct (Nat.eq_dec n 1) as [->|]; [rewrite linspace_1; lra|].
  pose proof (linspace_mono a b n Hab Hn) as M.
  split.
  - rewrite <- (linspace_0 a b n) at 1 by lia. apply M; lia.
  - rewrite <- (linspace_last a b n) at 2 by lia. apply M; lia.
Qed.
Lemma linspace_affine (c d a b : R) n i : (1 <= n)%nat -> (i < n)%nat ->
  linspace (c * a + d) (c * b + d) n i = c * linspace a b n i + d.
Proof.
  intros Hn Hi. destruct (Nat.eq_dec n 1) as [->|]; [rewrite !linspace_1; lra|].
  rewrite !linspace_lin by lia. assert (INR (n - 1) <> 0) by (apply not_0_INR; lia). field; assumption.
Qed.

(** ** digitize *)
Lemma filter_length_le {T} (p : T -> bool) l : (length (filter p l) <= length l)%nat.
Proof. induction l as [|x l IH]; cbn; [lia|]. destruct (p x); cbn; lia. Qed.
Lemma prefix_count (p : nat -> bool) n :
  (forall i k, (i <= k < n)%nat -> p k = true -> p i = true) ->
  forall i, (i < n)%nat -> (p i = true <-> (i < length (filter p (seq 0 n)))%nat).
Proof.
  induction n as [|n IH]; intros Hp i Hi; [lia|].
  rewrite seq_S, filter_app, app_length. cbn [Nat.add filter].
  assert (L : (length (filter p (seq 0 n)) <= n)%nat).
  { rewrite <- (seq_length n 0) at 2. apply filter_length_le. }
  assert (IH' : forall i, (i < n)%nat -> (p i = true <-> (i < length (filter p (seq 0 n)))%nat)).
  { apply IH. intros a b Hab; apply Hp; lia. }
  destruct (p n) eqn:En.
  - (* all true *)
    assert (Hall : forall a, (a < n)%nat -> (a < length (filter p (seq 0 n)))%nat).
    { intros a Ha; apply IH'; [assumption|]. apply (Hp a n); [lia|assumption]. }
    assert (length (filter p (seq 0 n)) = n).
    { destruct n as [|m]; [lia|]. specialize (Hall m); lia. }
    cbn [length]. split; [lia|]. intros _. apply (Hp i n); [lia|assumption].
  - cbn [length]. rewrite Nat.add_0_r. destruct (Nat.eq_dec i n) as [->|Hne].
    + split; [congruence|lia].
    + apply IH'; lia.
Qed.
Lemma digitize_le (bins : nat -> R) n x k : nondecreasing n bins -> (k < n)%nat ->
  (digitize bins n x <= k)%nat <-> x < bins k.
Proof.
  intros M Hk. unfold digitize.
  assert (P : forall i l, (i <= l < n)%nat -> nleb (bins l) x = true -> nleb (bins i) x = true).
  { intros i l Hl; toR. rewrite !Rleb_true. intros H; pose proof (M i l Hl); lra. }
  pose proof (prefix_count (fun k => nleb (bins k) x) n P k Hk) as E. cbn beta in E.
  split; intros H.
  - destruct (Rlt_or_le x (bins k)) as [|C]; [assumption|].
    assert (nleb (bins k) x = true) by (toR; apply Rleb_true; assumption). apply E in H0. lia.
  - destruct (le_lt_dec (length (filter (fun k0 => nleb (bins k0) x) (seq 0 n))) k) as [|C]; [assumption|].
    apply E in C. toR. apply Rleb_true in C. lra.
Qed.

(** ** cumulative area *)
Section Cells.
  Variable cells : list (R * R).
  Hypothesis cells_ne : cells <> [].

  Lemma cells_vals_ne : map fst cells <> [].
  Proof. destruct cells; [congruence|discriminate]. Qed.
  Lemma bins_mono n : (1 <= n)%nat -> nondecreasing n (vort_bins cells n).
  Proof. intros H; apply linspace_mono; [apply lmin_le_lmax|assumption]. Qed.
  Lemma cell_ge_min c n : (1 <= n)%nat -> In c cells -> vort_bins cells n 0 <= fst c.
  Proof.
    intros Hn Hc. unfold vort_bins. rewrite linspace_0 by assumption.
    apply lmin_le. apply in_map; assumption.
  Qed.
  Lemma digitize_pos c n : (1 <= n)%nat -> In c cells -> (1 <= digitize (vort_bins cells n) n (fst c))%nat.
  Proof.
    intros Hn Hc. destruct (digitize (vort_bins cells n) n (fst c)) eqn:E; [|lia].
    assert (L : (digitize (vort_bins cells n) n (fst c) <= 0)%nat) by lia.
    apply digitize_le in L; [|apply bins_mono; assumption|lia].
    pose proof (cell_ge_min c n Hn Hc). lra.
  Qed.

  (** generic cumulative bin sum *)
  Lemma cum_bins (w : R * R -> R) n k : (1 <= n)%nat -> (k < n)%nat ->
    rsum (S k) (fun i => match i with O => 0 | S _ =>
       rlsum (map w (filter (fun c => Nat.eqb (digitize (vort_bins cells n) n (fst c)) i) cells)) end)
    = SumL cells (fun c => if Rlt_dec (fst c) (vort_bins cells n k) then w c else 0).
  Proof.
    intros Hn Hk.
    transitivity (SumL cells (fun c => if Nat.leb (digitize (vort_bins cells n) n (fst c)) k then w c else 0)).
    - clear Hk. induction k as [|k IH].
      + rewrite rsum_S, rsum_0. symmetry. rewrite SumL_zero; [lra|].
        intros c Hc. pose proof (digitize_pos c n Hn Hc).
        destruct (Nat.leb_spec (digitize (vort_bins cells n) n (fst c)) 0); [lia|reflexivity].
      + rewrite rsum_S, IH, <- SumL_rlsum, SumL_filter, <- SumL_plus.
        apply SumL_ext; intros c Hc.
        destruct (Nat.eqb_spec (digitize (vort_bins cells n) n (fst c)) (S k));
          destruct (Nat.leb_spec (digitize (vort_bins cells n) n (fst c)) k);
          destruct (Nat.leb_spec (digitize (vort_bins cells n) n (fst c)) (S k)); try lia; lra.
    - apply SumL_ext; intros c Hc.
      pose proof (digitize_le (vort_bins cells n) n (fst c) k (bins_mono n Hn) Hk) as E.
      destruct (Nat.leb_spec (digitize (vort_bins cells n) n (fst c)) k) as [H|H];
        destruct (Rlt_dec (fst c) (vort_bins cells n k)) as [H'|H']; try reflexivity.
      + apply E in H; contradiction.
      + apply E in H'; lia.
  Qed.

  Lemma aq_spec n k : (1 <= n)%nat -> (k < n)%nat ->
    fawa_aq cells n k = SumL cells (fun c => if Rlt_dec (fst c) (vort_bins cells n k) then snd c else 0).
  Proof.
    intros Hn Hk. rewrite <- (cum_bins snd n k Hn Hk). unfold fawa_aq, ncumsum.
    apply rsum_ext; intros [|i] Hi; reflexivity.
  Qed.
  Lemma cq_spec n k : (1 <= n)%nat -> (k < n)%nat ->
    fawa_cq cells n k = SumL cells (fun c => if Rlt_dec (fst c) (vort_bins cells n k) then snd c * fst c else 0).
  Proof.
    intros Hn Hk. rewrite <- (cum_bins (fun c => snd c * fst c) n k Hn Hk). unfold fawa_cq, ncumsum.
    apply rsum_ext; intros [|i] Hi; reflexivity.
  Qed.
  Lemma aq_0 n : (1 <= n)%nat -> fawa_aq cells n 0 = 0.
  Proof. intros Hn. unfold fawa_aq, ncumsum. rewrite rsum_S, rsum_0. toR. lra. Qed.

  Hypothesis area_nonneg : forall c, In c cells -> 0 <= snd c.

  Lemma aq_mono n : (1 <= n)%nat -> nondecreasing n (fawa_aq cells n).
  Proof.
    intros Hn i k Hk. rewrite !aq_spec by lia. apply SumL_le; intros c Hc.
    pose proof (bins_mono n Hn i k Hk). specialize (area_nonneg c Hc).
    destruct (Rlt_dec (fst c) (vort_bins cells n i)), (Rlt_dec (fst c) (vort_bins cells n k)); lra.
  Qed.
  Lemma aq_range n k : (1 <= n)%nat -> (k < n)%nat -> 0 <= fawa_aq cells n k <= SumL cells snd.
  Proof.
    intros Hn Hk. rewrite aq_spec by lia. split.
    - apply SumL_nonneg; intros c Hc. specialize (area_nonneg c Hc). destruct Rlt_dec; lra.
    - apply SumL_le; intros c Hc. specialize (area_nonneg c Hc). destruct Rlt_dec; lra.
  Qed.
End Cells.

(** ** arcsine and equivalent latitude *)
Lemma asin_mono x y : -1 <= x -> x <= y -> y <= 1 -> asin x <= asin y.
Proof.
  intros Hx Hxy Hy. destruct (Rle_or_lt (asin x) (asin y)) as [|C]; [assumption|].
  pose proof (asin_bound x) as [Bx1 Bx2]. pose proof (asin_bound y) as [By1 By2].
  pose proof (sin_increasing_1 (asin y) (asin x) ltac:(lra) ltac:(lra) ltac:(lra) ltac:(lra) C) as S.
  rewrite !sin_asin in S by lra. lra.
Qed.
Lemma asin_strict x y : -1 <= x -> x < y -> y <= 1 -> asin x < asin y.
Proof.
  intros Hx Hxy Hy. destruct (asin_mono x y) as [|E]; try lra.
  apply (f_equal sin) in E. rewrite !sin_asin in E by lra. lra.
Qed.

Lemma rad2deg_mono x y : x <= y -> rad2deg x <= rad2deg y.
Proof.
  intros H; unfold rad2deg; toR. apply Rmult_le_compat_r; [|assumption].
  apply Rmult_le_pos; [lra|]. left; apply Rinv_0_lt_compat, PI_RGT_0.
Qed.
Lemma rad2deg_strict x y : x < y -> rad2deg x < rad2deg y.
Proof.
  intros H; unfold rad2deg; toR. apply Rmult_lt_compat_r; [|assumption].
  apply Rmult_lt_0_compat; [lra|]. apply Rinv_0_lt_compat, PI_RGT_0.
Qed.


Lemma two_pi_a2 a : 0 < a -> 0 < 2 * PI * (a * a).
Proof.
  intros Ha. pose proof PI_RGT_0. apply Rmult_lt_0_compat; [lra|]. apply Rmult_lt_0_compat; assumption.
Qed.
Lemma eqv_arg_range a x : 0 < a -> 0 <= x <= sphere a -> -1 <= x / (2 * PI * (a * a)) - 1 <= 1.
Proof.
  intros Ha [H0 H1]. unfold sphere in H1. pose proof PI_RGT_0.
  assert (P : 0 < 2 * PI * (a * a)) by (apply two_pi_a2; assumption).
  split.
  - assert (0 <= x / (2 * PI * (a * a))) by (apply Rmult_le_pos; [lra|left; apply Rinv_0_lt_compat; assumption]). lra.
  - assert (x / (2 * PI * (a * a)) <= 2); [|lra].
    apply Rmult_le_reg_r with (2 * PI * (a * a)); [assumption|].
    unfold Rdiv; rewrite Rmult_assoc, Rinv_l by lra. nra.
Qed.
Lemma eqv_arg_mono a x y : 0 < a -> x <= y -> x / (2 * PI * (a * a)) - 1 <= y / (2 * PI * (a * a)) - 1.
Proof.
  intros Ha H. pose proof PI_RGT_0. assert (P : 0 < 2 * PI * (a * a)) by (apply two_pi_a2; assumption).
  apply Rplus_le_compat_r. unfold Rdiv; apply Rmult_le_compat_r; [left; apply Rinv_0_lt_compat; assumption|assumption].
Qed.
Lemma eqv_arg_strict a x y : 0 < a -> x < y -> x / (2 * PI * (a * a)) - 1 < y / (2 * PI * (a * a)) - 1.
Proof.
  intros Ha H. pose proof PI_RGT_0. assert (P : 0 < 2 * PI * (a * a)) by (apply two_pi_a2; assumption).
  apply Rplus_lt_compat_r. unfold Rdiv; apply Rmult_lt_compat_r; [apply Rinv_0_lt_compat; assumption|assumption].
Qed.

Lemma eqv_latitude_mono n aq a : 0 < a -> nondecreasing n aq ->
  (forall k, (k < n)%nat -> 0 <= aq k <= sphere a) -> nondecreasing n (eqv_latitude aq a).
Proof.
  intros Ha M R i k Hk. unfold eqv_latitude. apply rad2deg_mono. unfold nsq; toR.
  pose proof (eqv_arg_range a (aq i) Ha (R i ltac:(lia))).
  pose proof (eqv_arg_range a (aq k) Ha (R k ltac:(lia))).
  pose proof (eqv_arg_mono a (aq i) (aq k) Ha (M i k Hk)).
  apply asin_mono; lra.
Qed.

(** ** np.interp on sorted nodes *)
  Lemma last_le_lt (xp : nat -> R) m x : (0 < m)%nat -> (last_le xp x m < m)%nat.
  Proof. induction m as [|m IH]; intros H; [lia|]. cbn. destruct (Rleb _ _); [lia|]. destruct m; [cbn; lia|]. assert (last_le xp x (S m) < S m)%nat by (apply IH; lia). lia. Qed.
  Lemma last_le_le (xp : nat -> R) m x : (0 < m)%nat -> xp 0%nat <= x -> xp (last_le xp x m) <= x.
  Proof.
    induction m as [|m IH]; intros H H0; [lia|]. cbn. destruct (Rleb_spec (xp m) x); [assumption|].
    destruct m; [cbn; assumption|]. apply IH; [lia|assumption].
  Qed.
  Lemma last_le_gt (xp : nat -> R) m x k : (last_le xp x m < k < m)%nat -> x < xp k.
  Proof.
    induction m as [|m IH]; intros H; [lia|]. cbn in H. destruct (Rleb_spec (xp m) x); [lia|].
    destruct (Nat.eq_dec k m) as [->|]; [assumption|]. apply IH; lia.
  Qed.

Section Interp.
  Variables (n : nat) (xp fp : nat -> R).
  Hypothesis Hn : (1 <= n)%nat.
  Hypothesis Mx : nondecreasing n xp.

  (** value bracketing *)
  Inductive interp_case (x : R) : R -> Prop :=
  | IC_right : xp (n - 1)%nat < x -> interp_case x (fp (n - 1)%nat)
  | IC_left : x < xp 0%nat -> x <= xp (n - 1)%nat -> interp_case x (fp 0%nat)
  | IC_last : xp (n - 1)%nat = x -> interp_case x (fp (n - 1)%nat)
  | IC_in j : (S j < n)%nat -> xp j <= x < xp (S j) ->
      interp_case x ((fp (S j) - fp j) / (xp (S j) - xp j) * (x - xp j) + fp j).

  Lemma interp_cases x : interp_case x (interp1 n xp fp x).
  Proof.
    unfold interp1; toR. destruct (Rltb_spec (xp (n - 1)%nat) x); [apply IC_right; assumption|].
    destruct (Rltb_spec x (xp 0%nat)); [apply IC_left; assumption|].
    pose proof (last_le_lt xp n x Hn) as L. pose proof (last_le_le xp n x Hn ltac:(assumption)) as LE.
    destruct (Nat.eqb_spec (last_le xp x n) (n - 1)) as [E|E].
    - rewrite E in *. apply IC_last. lra.
    - assert (G : x < xp (S (last_le xp x n))) by (apply last_le_gt with n; lia).
      destruct (Reqb_spec (xp (last_le xp x n)) x) as [E'|E'].
      + replace (fp (last_le xp x n)) with ((fp (S (last_le xp x n)) - fp (last_le xp x n)) / (xp (S (last_le xp x n)) - xp (last_le xp x n)) * (x - xp (last_le xp x n)) + fp (last_le xp x n)).
        * apply IC_in; [lia|lra].
        * rewrite E'. rewrite Rminus_diag_eq with (r1 := x) (r2 := x) by reflexivity. lra.
      + apply IC_in; [lia|lra].
  Qed.

  Hypothesis Mf : nondecreasing n fp.

  Lemma slope_bounds j x : (S j < n)%nat -> xp j <= x < xp (S j) ->
    fp j <= (fp (S j) - fp j) / (xp (S j) - xp j) * (x - xp j) + fp j <= fp (S j).
  Proof.
    intros Hj Hx. assert (F : fp j <= fp (S j)) by (apply Mf; lia).
    set (d := xp (S j) - xp j). assert (0 < d) by (unfold d; lra).
    assert (S0 : 0 <= (fp (S j) - fp j) / d) by (apply Rmult_le_pos; [lra|left; apply Rinv_0_lt_compat; assumption]).
    split; [nra|].
    assert ((fp (S j) - fp j) / d * (x - xp j) <= (fp (S j) - fp j) / d * d).
    { apply Rmult_le_compat_l; [assumption|unfold d; lra]. }
    replace ((fp (S j) - fp j) / d * d) with (fp (S j) - fp j) in H0 by (field; lra). lra.
  Qed.

  Lemma interp1_range x : fp 0%nat <= interp1 n xp fp x <= fp (n - 1)%nat.
  Proof.
    assert (fp 0%nat <= fp (n - 1)%nat) by (apply Mf; lia).
    destruct (interp_cases x); try lra.
    pose proof (slope_bounds j x H0 H1). assert (fp 0%nat <= fp j) by (apply Mf; lia).
    assert (fp (S j) <= fp (n - 1)%nat) by (apply Mf; lia). lra.
  Qed.

  Lemma interp1_mono x y : x <= y -> interp1 n xp fp x <= interp1 n xp fp y.
  Proof.
    intros Hxy. pose proof (interp1_range x) as Rx. pose proof (interp1_range y) as Ry.
    pose proof (interp_cases x) as Cx. pose proof (interp_cases y) as Cy.
    assert (X0 : xp 0%nat <= xp (n - 1)%nat) by (apply Mx; lia).
    inversion Cx as [H1 E1|H1 H1' E1|H1 E1|j Hj H1 E1]; inversion Cy as [H2 E2|H2 H2' E2|H2 E2|k Hk H2 E2]; try lra.
    - assert (xp (S k) <= xp (n - 1)%nat) by (apply Mx; lia). lra.
    - assert (xp (S k) <= xp (n - 1)%nat) by (apply Mx; lia). lra.
    - assert (xp 0%nat <= xp j) by (apply Mx; lia). lra.
    - destruct (lt_eq_lt_dec j k) as [[L|E]|L].
      + pose proof (slope_bounds j x Hj H1). pose proof (slope_bounds k y Hk H2).
        assert (fp (S j) <= fp k) by (apply Mf; lia). lra.
      + subst k. assert (S0 : 0 <= (fp (S j) - fp j) / (xp (S j) - xp j)).
        { apply Rmult_le_pos; [|left; apply Rinv_0_lt_compat; lra]. assert (fp j <= fp (S j)) by (apply Mf; lia). lra. }
        assert (x - xp j <= y - xp j) by lra.
        pose proof (Rmult_le_compat_l _ _ _ S0 H). lra.
      + assert (xp (S k) <= xp j) by (apply Mx; lia). lra.
  Qed.
End Interp.

(** values at a node followed by a strictly larger node *)
Lemma interp1_node n xp fp k : (1 <= n)%nat -> nondecreasing n xp -> (k < n)%nat ->
  ((S k < n)%nat -> xp k < xp (S k)) -> interp1 n xp fp (xp k) = fp k.
Proof.
  intros Hn Mx Hk Hs. pose proof (interp_cases n xp fp Hn (xp k)) as C.
  destruct (Nat.eq_dec (S k) n) as [E|E].
  - replace k with (n - 1)%nat in * by lia.
    inversion C as [H1 E1|H1 H1' E1|H1 E1|j Hj H1 E1]; try lra.
    + assert (xp 0%nat <= xp (n - 1)%nat) by (apply Mx; lia). lra.
    + assert (xp (S j) <= xp (n - 1)%nat) by (apply Mx; lia). lra.
  - assert (S1 : xp k < xp (S k)) by (apply Hs; lia).
    assert (xp (S k) <= xp (n - 1)%nat) by (apply Mx; lia).
    assert (xp 0%nat <= xp k) by (apply Mx; lia).
    inversion C as [H1 E1|H1 H1' E1|H1 E1|j Hj H1 E1]; try lra.
    destruct (lt_eq_lt_dec j k) as [[L|Ejk]|L].
    + assert (xp (S j) <= xp k) by (apply Mx; lia). lra.
    + subst j. rewrite Rminus_diag_eq with (r1 := xp k) (r2 := xp k) by reflexivity. lra.
    + assert (xp (S k) <= xp j) by (apply Mx; lia). lra.
Qed.

Lemma interp1_affine n xp fp c d x :
  interp1 n xp (fun k => c * fp k + d) x = c * interp1 n xp fp x + d.
Proof.
  unfold interp1; toR. destruct (Rltb _ _); [reflexivity|]. destruct (Rltb _ _); [reflexivity|].
  destruct (Nat.eqb _ _); [reflexivity|]. destruct (Reqb _ _); [reflexivity|].
  unfold Rdiv. lra.
Qed.
Lemma last_le_ext xp xp' (x : R) n : (forall k, (k < n)%nat -> xp k = xp' k) -> last_le xp x n = last_le xp' x n.
Proof.
  induction n as [|n IH]; intros H; [reflexivity|]. cbn. rewrite H by lia.
  destruct (Rleb _ _); [reflexivity|]. apply IH; intros; apply H; lia.
Qed.
Lemma interp1_ext n xp xp' fp fp' (x : R) : (1 <= n)%nat -> (forall k, (k < n)%nat -> xp k = xp' k) ->
  (forall k, (k < n)%nat -> fp k = fp' k) -> interp1 n xp fp x = interp1 n xp' fp' x.
Proof.
  intros Hn Hx Hf. unfold interp1. rewrite (last_le_ext xp xp' x n Hx).
  rewrite !Hx, !Hf by lia. pose proof (last_le_lt xp' n x Hn) as L.
  rewrite (Hx (last_le xp' x n)), (Hf (last_le xp' x n)) by lia.
  destruct (nltb _ _); [reflexivity|]. destruct (nltb _ _); [reflexivity|].
  destruct (Nat.eqb_spec (last_le xp' x n) (n - 1)) as [E|E]; [reflexivity|].
  rewrite (Hx (S (last_le xp' x n))), (Hf (S (last_le xp' x n))) by lia. reflexivity.
Qed.

(** ** qref *)
Section Qref.
  Variables (cells : list (R * R)) (n : nat) (a : R) (ylat : nat -> R).
  Hypothesis cells_ne : cells <> [].
  Hypothesis Hn : (1 <= n)%nat.
  Hypothesis Ha : 0 < a.
  Hypothesis area_nonneg : forall c, In c cells -> 0 <= snd c.
  Hypothesis area_total : SumL cells snd <= sphere a.

  Let lat := eqv_latitude (fawa_aq cells n) a.

  Lemma lat_mono : nondecreasing n lat.
  Proof.
    apply eqv_latitude_mono; [assumption|apply aq_mono; assumption|].
    intros k Hk. pose proof (aq_range cells area_nonneg n k Hn Hk). lra.
  Qed.

  Lemma qref_mono l m : ylat l <= ylat m -> qref_of_cells ylat cells n a l <= qref_of_cells ylat cells n a m.
  Proof. intros H. apply interp1_mono; [assumption|apply lat_mono|apply bins_mono; assumption|assumption]. Qed.

  Lemma qref_range l : rlmin (map fst cells) <= qref_of_cells ylat cells n a l <= rlmax (map fst cells).
  Proof.
    pose proof (interp1_range n lat (vort_bins cells n) Hn (bins_mono cells n Hn) (ylat l)) as [H0 H1].
    pose proof (linspace_range (rlmin (map fst cells)) (rlmax (map fst cells)) n 0 (lmin_le_lmax _) Hn ltac:(lia)).
    pose proof (linspace_range (rlmin (map fst cells)) (rlmax (map fst cells)) n (n - 1) (lmin_le_lmax _) Hn ltac:(lia)).
    unfold vort_bins in H0, H1. unfold qref_of_cells, interp. fold lat. unfold vort_bins. lra.
  Qed.

  (** area south of latitude y (degrees) on the sphere *)
  Lemma qref_area_matching l k : (k < n)%nat ->
    -90 <= ylat l <= 90 ->
    2 * PI * a ^ 2 * (1 + sin (ylat l * PI / 180)) = fawa_aq cells n k ->
    ((S k < n)%nat -> fawa_aq cells n k < fawa_aq cells n (S k)) ->
    qref_of_cells ylat cells n a l = vort_bins cells n k.
  Proof.
    intros Hk Hy Harea Hs. unfold qref_of_cells, interp. fold lat.
    pose proof PI_RGT_0 as P.
    assert (E : ylat l = lat k).
    { unfold lat, eqv_latitude. rewrite <- Harea. unfold nsq; toR.
      replace (2 * PI * a ^ 2 * (1 + sin (ylat l * PI / 180)) / (2 * PI * (a * a)) - 1)
        with (sin (ylat l * PI / 180)) by (field; lra).
      assert (-90 * PI <= ylat l * PI) by (apply Rmult_le_compat_r; lra).
      assert (ylat l * PI <= 90 * PI) by (apply Rmult_le_compat_r; lra).
      rewrite asin_sin by lra.
      unfold rad2deg; toR. field. lra. }
    rewrite E. apply interp1_node; [assumption|apply lat_mono|assumption|].
    intros HS. unfold lat, eqv_latitude. apply rad2deg_strict. unfold nsq; toR.
    pose proof (aq_range cells area_nonneg n k Hn Hk).
    pose proof (aq_range cells area_nonneg n (S k) Hn HS).
    assert (R1 : 0 <= fawa_aq cells n k <= sphere a) by lra.
    assert (R2 : 0 <= fawa_aq cells n (S k) <= sphere a) by lra.
    pose proof (eqv_arg_range a _ Ha R1). pose proof (eqv_arg_range a _ Ha R2).
    pose proof (eqv_arg_strict a _ _ Ha (Hs HS)).
    apply asin_strict; lra.
  Qed.
End Qref.

(** ** rearrangement *)
Lemma vort_bins_perm cells cells' n k : Permutation cells cells' -> vort_bins cells n k = vort_bins cells' n k.
Proof.
  intros H. unfold vort_bins. rewrite (lmin_perm (map fst cells) (map fst cells')), (lmax_perm (map fst cells) (map fst cells')) by (apply Permutation_map, H). reflexivity.
Qed.
Lemma perm_ne {T} (l m : list T) : Permutation l m -> l <> [] -> m <> [].
Proof. intros H N E; subst m. apply Permutation_sym, Permutation_nil in H. contradiction. Qed.
Lemma aq_perm cells cells' n k : cells <> [] -> (1 <= n)%nat -> (k < n)%nat -> Permutation cells cells' ->
  fawa_aq cells n k = fawa_aq cells' n k.
Proof.
  intros Hne Hn Hk H. rewrite !aq_spec by (try assumption; eapply perm_ne; eassumption).
  rewrite (vort_bins_perm cells cells' n k H). apply SumL_perm, H.
Qed.
Lemma cq_perm cells cells' n k : cells <> [] -> (1 <= n)%nat -> (k < n)%nat -> Permutation cells cells' ->
  fawa_cq cells n k = fawa_cq cells' n k.
Proof.
  intros Hne Hn Hk H. rewrite !cq_spec by (try assumption; eapply perm_ne; eassumption).
  rewrite (vort_bins_perm cells cells' n k H). apply SumL_perm, H.
Qed.
Lemma qref_perm ylat cells cells' n a l : cells <> [] -> (1 <= n)%nat -> Permutation cells cells' ->
  qref_of_cells ylat cells n a l = qref_of_cells ylat cells' n a l.
Proof.
  intros Hne Hn H. apply interp1_ext; [assumption| |].
  - intros k Hk. unfold eqv_latitude. rewrite (aq_perm cells cells' n k) by assumption. reflexivity.
  - intros k Hk. apply vort_bins_perm, H.
Qed.
Lemma cref_perm ylat cells cells' n a l : cells <> [] -> (1 <= n)%nat -> Permutation cells cells' ->
  cref_of_cells ylat cells n a l = cref_of_cells ylat cells' n a l.
Proof.
  intros Hne Hn H. apply interp1_ext; [assumption| |].
  - intros k Hk. unfold eqv_latitude. rewrite (aq_perm cells cells' n k) by assumption. reflexivity.
  - intros k Hk. apply cq_perm; assumption.
Qed.

(** ** affine rescaling *)
Lemma lmin_affine c d l : 0 < c -> l <> [] -> rlmin (map (fun x => c * x + d) l) = c * rlmin l + d.
Proof.
  intros Hc Hl. apply lmin_unique.
  - apply in_map_iff. exists (rlmin l). split; [reflexivity|apply lmin_in; assumption].
  - intros x Hx. apply in_map_iff in Hx. destruct Hx as (y & <- & Hy). pose proof (lmin_le l y Hy). nra.
Qed.
Lemma lmax_affine c d l : 0 < c -> l <> [] -> rlmax (map (fun x => c * x + d) l) = c * rlmax l + d.
Proof.
  intros Hc Hl. apply lmax_unique.
  - apply in_map_iff. exists (rlmax l). split; [reflexivity|apply lmax_in; assumption].
  - intros x Hx. apply in_map_iff in Hx. destruct Hx as (y & <- & Hy). pose proof (lmax_ge l y Hy). nra.
Qed.
Definition scale_cells (c d : R) (cells : list (R * R)) := map (fun p => (c * fst p + d, snd p)) cells.
Lemma bins_affine c d cells n k : 0 < c -> cells <> [] -> (1 <= n)%nat -> (k < n)%nat ->
  vort_bins (scale_cells c d cells) n k = c * vort_bins cells n k + d.
Proof.
  intros Hc Hne Hn Hk. unfold vort_bins, scale_cells. rewrite map_map. cbn [fst].
  rewrite <- (map_map fst (fun x => c * x + d)).
  rewrite lmin_affine, lmax_affine by (try assumption; apply cells_vals_ne; assumption).
  apply linspace_affine; assumption.
Qed.
Lemma scale_ne c d cells : cells <> [] -> scale_cells c d cells <> [].
Proof. destruct cells; [congruence|discriminate]. Qed.
Lemma aq_affine c d cells n k : 0 < c -> cells <> [] -> (1 <= n)%nat -> (k < n)%nat ->
  fawa_aq (scale_cells c d cells) n k = fawa_aq cells n k.
Proof.
  intros Hc Hne Hn Hk. rewrite !aq_spec by (try assumption; apply scale_ne; assumption).
  rewrite bins_affine by assumption. unfold scale_cells. rewrite SumL_map. apply SumL_ext; intros p Hp. cbn [fst snd].
  destruct (Rlt_dec (c * fst p + d) (c * vort_bins cells n k + d)), (Rlt_dec (fst p) (vort_bins cells n k)); try lra; nra.
Qed.
Lemma qref_affine ylat c d cells n a l : 0 < c -> cells <> [] -> (1 <= n)%nat ->
  qref_of_cells ylat (scale_cells c d cells) n a l = c * qref_of_cells ylat cells n a l + d.
Proof.
  intros Hc Hne Hn. unfold qref_of_cells, interp. rewrite <- interp1_affine.
  apply interp1_ext; [assumption| |].
  - intros k Hk. unfold eqv_latitude. rewrite aq_affine by assumption. reflexivity.
  - intros k Hk. apply bins_affine; assumption.
Qed.
