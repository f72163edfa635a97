(** Bridges between the specification vocabulary and the model's accumulation loops. *)
From Verif Require Export Spec BaseFacts.
Open Scope R_scope.

Lemma fold_right_app_R l m : fold_right Rplus 0 (l ++ m) = fold_right Rplus 0 l + fold_right Rplus 0 m.
Proof. induction l as [|x l IH]; cbn; [lra|]. rewrite IH; lra. Qed.

Lemma Sum_rsum lo hi f : Sum lo hi f = rsum (hi - lo) (fun k => f (lo + k)%nat).
Proof.
  unfold Sum. generalize (hi - lo)%nat as n. intros n; induction n as [|n IH]; [reflexivity|].
  rewrite seq_S, map_app, fold_right_app_R, IH, rsum_S. cbn. lra.
Qed.
Lemma Sum0_rsum hi f : Sum 0 hi f = rsum hi f.
Proof. rewrite Sum_rsum, Nat.sub_0_r. apply rsum_ext; intros; reflexivity. Qed.
Lemma Sum_empty lo hi f : (hi <= lo)%nat -> Sum lo hi f = 0.
Proof. intros H; rewrite Sum_rsum. replace (hi - lo)%nat with 0%nat by lia. reflexivity. Qed.
Lemma Sum_ext lo hi f g : (forall i, (lo <= i < hi)%nat -> f i = g i) -> Sum lo hi f = Sum lo hi g.
Proof. intros H; rewrite !Sum_rsum. apply rsum_ext; intros; apply H; lia. Qed.
Lemma Sum_nonneg lo hi f : (forall i, (lo <= i < hi)%nat -> 0 <= f i) -> 0 <= Sum lo hi f.
Proof. intros H; rewrite !Sum_rsum. apply rsum_nonneg; intros; apply H; lia. Qed.
Lemma Sum_le lo hi f g : (forall i, (lo <= i < hi)%nat -> f i <= g i) -> Sum lo hi f <= Sum lo hi g.
Proof. intros H; rewrite !Sum_rsum. apply rsum_le; intros; apply H; lia. Qed.
Lemma Sum_eq0 lo hi f : (forall i, (lo <= i < hi)%nat -> 0 <= f i) -> Sum lo hi f = 0 ->
  forall i, (lo <= i < hi)%nat -> f i = 0.
Proof.
  intros H H0 i Hi. rewrite Sum_rsum in H0.
  pose proof (rsum_eq0 (hi - lo) (fun k => f (lo + k)%nat)) as E.
  replace i with (lo + (i - lo))%nat by lia. apply E; [intros; apply H; lia|assumption|lia].
Qed.
Lemma Sum_zero lo hi f : (forall i, (lo <= i < hi)%nat -> f i = 0) -> Sum lo hi f = 0.
Proof. intros H; rewrite Sum_rsum. apply rsum_zero; intros; apply H; lia. Qed.
Lemma Sum_plus lo hi f g : Sum lo hi (fun i => f i + g i) = Sum lo hi f + Sum lo hi g.
Proof. rewrite !Sum_rsum. apply rsum_plus. Qed.
Lemma Sum_minus lo hi f g : Sum lo hi (fun i => f i - g i) = Sum lo hi f - Sum lo hi g.
Proof. rewrite !Sum_rsum. apply rsum_minus. Qed.
Lemma Sum_scal lo hi c f : Sum lo hi (fun i => c * f i) = c * Sum lo hi f.
Proof. rewrite !Sum_rsum. apply rsum_scal. Qed.
Lemma Sum_split lo mid hi f : (lo <= mid <= hi)%nat -> Sum lo hi f = Sum lo mid f + Sum mid hi f.
Proof.
  intros H; rewrite !Sum_rsum. replace (hi - lo)%nat with ((mid - lo) + (hi - mid))%nat by lia.
  rewrite rsum_app. f_equal. apply rsum_ext; intros; f_equal; lia.
Qed.
Lemma Sum_S_r lo hi f : (lo <= hi)%nat -> Sum lo (S hi) f = Sum lo hi f + f hi.
Proof.
  intros H; rewrite !Sum_rsum. replace (S hi - lo)%nat with (S (hi - lo)) by lia.
  rewrite rsum_S. do 2 f_equal; lia.
Qed.
Lemma Sum_S_l lo hi f : (lo < hi)%nat -> Sum lo hi f = f lo + Sum (S lo) hi f.
Proof.
  intros H; rewrite !Sum_rsum. replace (hi - lo)%nat with (S (hi - S lo)) by lia.
  rewrite rsum_S_l. rewrite Nat.add_0_r. f_equal. apply rsum_ext; intros; f_equal; lia.
Qed.
Lemma Sum_shift d lo hi f : Sum (lo + d) (hi + d) f = Sum lo hi (fun i => f (i + d)%nat).
Proof.
  rewrite !Sum_rsum. replace (hi + d - (lo + d))%nat with (hi - lo)%nat by lia.
  apply rsum_ext; intros; f_equal; lia.
Qed.
(** reversal: i -> c - i *)
Lemma Sum_reflect c lo hi f : (lo <= hi)%nat -> (hi <= S c)%nat ->
  Sum lo hi f = Sum (S c - hi) (S c - lo) (fun i => f (c - i)%nat).
Proof.
  intros Hl Hc. rewrite !Sum_rsum. replace (S c - lo - (S c - hi))%nat with (hi - lo)%nat by lia.
  rewrite <- rsum_rev. apply rsum_ext; intros i Hi; f_equal; lia.
Qed.
Lemma Sum_swap lo hi lo' hi' f :
  Sum lo hi (fun i => Sum lo' hi' (fun j => f i j)) = Sum lo' hi' (fun j => Sum lo hi (fun i => f i j)).
Proof.
  rewrite !Sum_rsum. rewrite (rsum_ext _ _ (fun k => rsum (hi' - lo') (fun j => f (lo + k)%nat (lo' + j)%nat))) by (intros; apply Sum_rsum).
  rewrite rsum_swap. apply rsum_ext; intros. rewrite Sum_rsum. reflexivity.
Qed.
Lemma SumL_rlsum {T} (l : list T) f : SumL l f = rlsum (map f l).
Proof. unfold SumL. induction l as [|x l IH]; [reflexivity|]. cbn [map fold_right]. rewrite rlsum_cons, IH. reflexivity. Qed.
Lemma SumL_nil {T} (f : T -> R) : SumL [] f = 0. Proof. reflexivity. Qed.
Lemma SumL_cons {T} x l (f : T -> R) : SumL (x :: l) f = f x + SumL l f. Proof. reflexivity. Qed.
Lemma SumL_app {T} l m (f : T -> R) : SumL (l ++ m) f = SumL l f + SumL m f.
Proof. unfold SumL. rewrite map_app, fold_right_app_R. reflexivity. Qed.
Lemma SumL_perm {T} l m (f : T -> R) : Permutation l m -> SumL l f = SumL m f.
Proof. intros H; rewrite !SumL_rlsum. apply rlsum_perm, Permutation_map, H. Qed.
Lemma SumL_nonneg {T} l (f : T -> R) : (forall x, In x l -> 0 <= f x) -> 0 <= SumL l f.
Proof.
  induction l as [|x l IH]; intros H; [rewrite SumL_nil; lra|].
  rewrite SumL_cons. assert (0 <= f x) by (apply H; left; reflexivity).
  assert (0 <= SumL l f) by (apply IH; intros; apply H; right; assumption). lra.
Qed.
Lemma SumL_le {T} l (f g : T -> R) : (forall x, In x l -> f x <= g x) -> SumL l f <= SumL l g.
Proof.
  induction l as [|x l IH]; intros H; [rewrite !SumL_nil; lra|].
  rewrite !SumL_cons. assert (f x <= g x) by (apply H; left; reflexivity).
  assert (SumL l f <= SumL l g) by (apply IH; intros; apply H; right; assumption). lra.
Qed.
Lemma SumL_ext {T} l (f g : T -> R) : (forall x, In x l -> f x = g x) -> SumL l f = SumL l g.
Proof. intros H; unfold SumL; f_equal; apply map_ext_in; assumption. Qed.
Lemma SumL_filter {T} (p : T -> bool) l (f : T -> R) : SumL (filter p l) f = SumL l (fun x => if p x then f x else 0).
Proof.
  induction l as [|x l IH]; [reflexivity|]. cbn [filter]. rewrite SumL_cons.
  destruct (p x); [rewrite SumL_cons|]; rewrite IH; lra.
Qed.
Lemma SumL_plus {T} l (f g : T -> R) : SumL l (fun x => f x + g x) = SumL l f + SumL l g.
Proof. induction l as [|x l IH]; [rewrite !SumL_nil; lra|]. rewrite !SumL_cons, IH; lra. Qed.
Lemma SumL_scal {T} l c (f : T -> R) : SumL l (fun x => c * f x) = c * SumL l f.
Proof. induction l as [|x l IH]; [rewrite !SumL_nil; lra|]. rewrite !SumL_cons, IH; lra. Qed.
Lemma SumL_zero {T} l (f : T -> R) : (forall x, In x l -> f x = 0) -> SumL l f = 0.
Proof.
  induction l as [|x l IH]; intros H; [reflexivity|].
  rewrite SumL_cons, (H x) by (left; reflexivity). rewrite IH; [lra|]. intros; apply H; right; assumption.
Qed.
Lemma SumL_map {S T} (g : S -> T) l (f : T -> R) : SumL (map g l) f = SumL l (fun x => f (g x)).
Proof. unfold SumL; rewrite map_map; reflexivity. Qed.

Lemma ppart_nonneg x : 0 <= ppart x.
Proof. unfold ppart; apply Rmax_r. Qed.
Lemma ppart_id x : 0 <= x -> ppart x = x.
Proof. unfold ppart, Rmax; destruct (Rle_dec x 0); lra. Qed.
Lemma ppart_0 x : x <= 0 -> ppart x = 0.
Proof. unfold ppart, Rmax; destruct (Rle_dec x 0); lra. Qed.
Lemma ppart_eq0 x : ppart x = 0 <-> x <= 0.
Proof. unfold ppart, Rmax; destruct (Rle_dec x 0); split; lra. Qed.
Lemma ppart_scal a x : 0 <= a -> ppart (a * x) = a * ppart x.
Proof.
  intros Ha. destruct (Rle_or_lt x 0) as [H|H].
  - rewrite (ppart_0 x), (ppart_0 (a * x)) by nra. lra.
  - rewrite (ppart_id x), (ppart_id (a * x)) by nra. lra.
Qed.
