(** Lemmas about the helpers of [Base], for real arithmetic. *)
From Verif Require Export Base.
Open Scope R_scope.

Lemma Rltb_true x y : Rltb x y = true <-> x < y.
Proof. unfold Rltb; destruct (Rlt_dec x y); split; intros; auto; discriminate || contradiction. Qed.
Lemma Rltb_false x y : Rltb x y = false <-> y <= x.
Proof. unfold Rltb; destruct (Rlt_dec x y); split; intros; auto; try discriminate; lra. Qed.
Lemma Rleb_true x y : Rleb x y = true <-> x <= y.
Proof. unfold Rleb; destruct (Rle_dec x y); split; intros; auto; discriminate || contradiction. Qed.
Lemma Rleb_false x y : Rleb x y = false <-> y < x.
Proof. unfold Rleb; destruct (Rle_dec x y); split; intros; auto; try discriminate; lra. Qed.
Lemma Reqb_true x y : Reqb x y = true <-> x = y.
Proof. unfold Reqb; destruct (Req_EM_T x y); split; intros; auto; discriminate || contradiction. Qed.
Lemma Reqb_false x y : Reqb x y = false <-> x <> y.
Proof. unfold Reqb; destruct (Req_EM_T x y); split; intros; auto; try discriminate; contradiction. Qed.

Lemma Rltb_spec x y : BoolSpec (x < y) (y <= x) (Rltb x y).
Proof. destruct (Rltb x y) eqn:E; constructor; [apply Rltb_true|apply Rltb_false]; assumption. Qed.
Lemma Rleb_spec x y : BoolSpec (x <= y) (y < x) (Rleb x y).
Proof. destruct (Rleb x y) eqn:E; constructor; [apply Rleb_true|apply Rleb_false]; assumption. Qed.
Lemma Reqb_spec x y : BoolSpec (x = y) (x <> y) (Reqb x y).
Proof. destruct (Reqb x y) eqn:E; constructor; [apply Reqb_true|apply Reqb_false]; assumption. Qed.

(** sum over [0..n-1] in exact arithmetic *)
Notation rsum := (@nsum R RNum).
Notation rlsum := (@lsum R RNum).

Lemma rsum_S n f : rsum (S n) f = rsum n f + f n.
Proof. reflexivity. Qed.
Lemma rsum_0 f : rsum 0 f = 0.
Proof. reflexivity. Qed.

Lemma rsum_ext n f g : (forall i, (i < n)%nat -> f i = g i) -> rsum n f = rsum n g.
Proof.
  induction n as [|n IH]; intros H; [reflexivity|].
  rewrite !rsum_S, IH, H by (intros; try apply H; lia). reflexivity.
Qed.

Lemma rsum_plus n f g : rsum n (fun i => f i + g i) = rsum n f + rsum n g.
Proof. induction n as [|n IH]; [rewrite !rsum_0; lra|]. rewrite !rsum_S, IH. lra. Qed.
Lemma rsum_minus n f g : rsum n (fun i => f i - g i) = rsum n f - rsum n g.
Proof. induction n as [|n IH]; [rewrite !rsum_0; lra|]. rewrite !rsum_S, IH. lra. Qed.
Lemma rsum_scal n c f : rsum n (fun i => c * f i) = c * rsum n f.
Proof. induction n as [|n IH]; [rewrite !rsum_0; lra|]. rewrite !rsum_S, IH. lra. Qed.
Lemma rsum_scal_r n c f : rsum n (fun i => f i * c) = rsum n f * c.
Proof. induction n as [|n IH]; [rewrite !rsum_0; lra|]. rewrite !rsum_S, IH. lra. Qed.
Lemma rsum_opp n f : rsum n (fun i => - f i) = - rsum n f.
Proof. induction n as [|n IH]; [rewrite !rsum_0; lra|]. rewrite !rsum_S, IH. lra. Qed.
Lemma rsum_div n c f : rsum n (fun i => f i / c) = rsum n f / c.
Proof. unfold Rdiv; apply rsum_scal_r. Qed.
Lemma rsum_const n c : rsum n (fun _ => c) = INR n * c.
Proof. induction n as [|n IH]; [rewrite rsum_0; cbn; lra|]. rewrite rsum_S, IH, S_INR. lra. Qed.
Lemma rsum_zero n f : (forall i, (i < n)%nat -> f i = 0) -> rsum n f = 0.
Proof.
  intros H; rewrite (rsum_ext n f (fun _ => 0)) by assumption.
  rewrite rsum_const; lra.
Qed.

Lemma rsum_nonneg n f : (forall i, (i < n)%nat -> 0 <= f i) -> 0 <= rsum n f.
Proof.
  induction n as [|n IH]; intros H; [rewrite rsum_0; lra|].
  rewrite rsum_S. assert (0 <= rsum n f) by (apply IH; intros; apply H; lia).
  assert (0 <= f n) by (apply H; lia). lra.
Qed.
Lemma rsum_le n f g : (forall i, (i < n)%nat -> f i <= g i) -> rsum n f <= rsum n g.
Proof.
  induction n as [|n IH]; intros H; [rewrite !rsum_0; lra|].
  rewrite !rsum_S. assert (rsum n f <= rsum n g) by (apply IH; intros; apply H; lia).
  assert (f n <= g n) by (apply H; lia). lra.
Qed.
Lemma rsum_pos n f : (0 < n)%nat -> (forall i, (i < n)%nat -> 0 < f i) -> 0 < rsum n f.
Proof.
  induction n as [|n IH]; intros Hn H; [lia|].
  rewrite rsum_S. assert (0 < f n) by (apply H; lia).
  destruct n as [|n]; [rewrite rsum_0; lra|].
  assert (0 < rsum (S n) f) by (apply IH; [lia|intros; apply H; lia]). lra.
Qed.
Lemma rsum_eq0 n f : (forall i, (i < n)%nat -> 0 <= f i) -> rsum n f = 0 ->
  forall i, (i < n)%nat -> f i = 0.
Proof.
  induction n as [|n IH]; intros H H0 i Hi; [lia|].
  rewrite rsum_S in H0.
  assert (0 <= rsum n f) by (apply rsum_nonneg; intros; apply H; lia).
  assert (0 <= f n) by (apply H; lia).
  destruct (Nat.eq_dec i n) as [->|]; [lra|].
  apply IH; [intros; apply H; lia|lra|lia].
Qed.

Lemma rsum_S_l n f : rsum (S n) f = f 0%nat + rsum n (fun i => f (S i)).
Proof.
  induction n as [|n IH]; [rewrite rsum_S, !rsum_0; lra|].
  rewrite rsum_S, IH, rsum_S. lra.
Qed.
Lemma rsum_app n m f : rsum (n + m) f = rsum n f + rsum m (fun i => f (n + i)%nat).
Proof.
  induction m as [|m IH]; [rewrite Nat.add_0_r, rsum_0; lra|].
  rewrite Nat.add_succ_r, !rsum_S, IH. lra.
Qed.
Lemma rsum_telescope n f : rsum n (fun i => f (S i) - f i) = f n - f 0%nat.
Proof. induction n as [|n IH]; [rewrite rsum_0; lra|]. rewrite rsum_S, IH. lra. Qed.
Lemma rsum_rev n f : rsum n (fun i => f (n - 1 - i)%nat) = rsum n f.
Proof.
  induction n as [|n IH]; [reflexivity|].
  rewrite rsum_S_l. rewrite (rsum_ext n _ (fun i => f (n - 1 - i)%nat)).
  2:{ intros i Hi; f_equal; lia. }
  rewrite IH, rsum_S. replace (S n - 1 - 0)%nat with n by lia. lra.
Qed.
Lemma rsum_swap n m f : rsum n (fun i => rsum m (fun j => f i j)) = rsum m (fun j => rsum n (fun i => f i j)).
Proof.
  induction n as [|n IH].
  - rewrite rsum_0. symmetry; apply rsum_zero; intros; apply rsum_0.
  - rewrite rsum_S, IH, <- rsum_plus. apply rsum_ext; intros; rewrite rsum_S; reflexivity.
Qed.
(** pick out one index *)
Lemma rsum_single n k f : (k < n)%nat -> (forall i, (i < n)%nat -> i <> k -> f i = 0) -> rsum n f = f k.
Proof.
  induction n as [|n IH]; intros Hk H; [lia|].
  rewrite rsum_S. destruct (Nat.eq_dec k n) as [->|Hn].
  - rewrite rsum_zero; [lra|]. intros; apply H; lia.
  - rewrite IH by (try lia; intros; apply H; lia). rewrite (H n) by lia. lra.
Qed.
(** restrict a sum to its first m terms *)
Lemma rsum_trunc n m f : (m <= n)%nat -> (forall i, (m <= i < n)%nat -> f i = 0) -> rsum n f = rsum m f.
Proof.
  intros Hm H. replace n with (m + (n - m))%nat by lia. rewrite rsum_app.
  rewrite (rsum_zero (n - m)); [lra|]. intros; apply H; lia.
Qed.
Lemma rsum_le_index n m f : (n <= m)%nat -> (forall i, (n <= i < m)%nat -> 0 <= f i) -> rsum n f <= rsum m f.
Proof.
  intros Hm H. replace m with (n + (m - n))%nat by lia. rewrite rsum_app.
  assert (0 <= rsum (m - n) (fun i => f (n + i)%nat)) by (apply rsum_nonneg; intros; apply H; lia). lra.
Qed.

(** list sums *)
Lemma fold_left_Rplus l a : fold_left Rplus l a = a + fold_left Rplus l 0.
Proof.
  revert a; induction l as [|x l IH]; intros a; cbn; [lra|].
  rewrite IH, (IH (0 + x)). lra.
Qed.
Lemma rlsum_nil : rlsum [] = 0.
Proof. reflexivity. Qed.
Lemma rlsum_cons x l : rlsum (x :: l) = x + rlsum l.
Proof. unfold lsum; toR; cbn [fold_left]; rewrite fold_left_Rplus; lra. Qed.
Lemma rlsum_app l m : rlsum (l ++ m) = rlsum l + rlsum m.
Proof. induction l as [|x l IH]; cbn [app]; [rewrite rlsum_nil; lra|]. rewrite !rlsum_cons, IH; lra. Qed.
Lemma rlsum_perm l m : Permutation l m -> rlsum l = rlsum m.
Proof.
  induction 1; rewrite ?rlsum_nil, ?rlsum_cons; lra.
Qed.
Lemma rlsum_nonneg l : Forall (fun x => 0 <= x) l -> 0 <= rlsum l.
Proof. induction 1; rewrite ?rlsum_nil, ?rlsum_cons; lra. Qed.
Lemma rlsum_map_seq n f : rlsum (map f (seq 0 n)) = rsum n f.
Proof.
  induction n as [|n IH]; [reflexivity|].
  rewrite seq_S, map_app, rlsum_app, IH, rsum_S. cbn [map]. rewrite rlsum_cons, rlsum_nil. cbn. lra.
Qed.
Lemma rlsum_scal c l : rlsum (map (fun x => c * x) l) = c * rlsum l.
Proof. induction l as [|x l IH]; cbn [map]; rewrite ?rlsum_nil, ?rlsum_cons, ?IH; lra. Qed.

(** min / max of a list *)
Lemma nmin_R x y : @nmin R RNum x y = Rmin x y.
Proof. unfold nmin; toR. destruct (Rltb_spec y x); unfold Rmin; destruct (Rle_dec x y); lra. Qed.
Lemma nmax_R x y : @nmax R RNum x y = Rmax x y.
Proof. unfold nmax; toR. destruct (Rltb_spec x y); unfold Rmax; destruct (Rle_dec x y); lra. Qed.

Notation rlmin := (@lmin R RNum).
Notation rlmax := (@lmax R RNum).

Lemma fold_min_le l a : fold_left (@nmin R RNum) l a <= a /\ (forall x, In x l -> fold_left (@nmin R RNum) l a <= x) /\
  (fold_left (@nmin R RNum) l a = a \/ In (fold_left (@nmin R RNum) l a) l).
Proof.
  revert a; induction l as [|y l IH]; intros a; cbn [fold_left].
  - split; [lra|split; [intros x []|left; reflexivity]].
  - destruct (IH (nmin a y)) as (H1 & H2 & H3). rewrite nmin_R in *.
    assert (Rmin a y <= a) by apply Rmin_l. assert (Rmin a y <= y) by apply Rmin_r.
    split; [lra|split].
    + intros x [->|Hx]; [lra|auto].
    + destruct H3 as [H3|H3]; [|right; right; assumption].
      rewrite H3. unfold Rmin; destruct (Rle_dec a y); [left; reflexivity|right; left; reflexivity].
Qed.
Lemma fold_max_ge l a : a <= fold_left (@nmax R RNum) l a /\ (forall x, In x l -> x <= fold_left (@nmax R RNum) l a) /\
  (fold_left (@nmax R RNum) l a = a \/ In (fold_left (@nmax R RNum) l a) l).
Proof.
  revert a; induction l as [|y l IH]; intros a; cbn [fold_left].
  - split; [lra|split; [intros x []|left; reflexivity]].
  - destruct (IH (nmax a y)) as (H1 & H2 & H3). rewrite nmax_R in *.
    assert (a <= Rmax a y) by apply Rmax_l. assert (y <= Rmax a y) by apply Rmax_r.
    split; [lra|split].
    + intros x [->|Hx]; [lra|auto].
    + destruct H3 as [H3|H3]; [|right; right; assumption].
      rewrite H3. unfold Rmax; destruct (Rle_dec a y); [right; left; reflexivity|left; reflexivity].
Qed.
Lemma lmin_le l x : In x l -> rlmin l <= x.
Proof.
  destruct l as [|a l]; [intros []|]. cbn [lmin].
  destruct (fold_min_le l a) as (H1 & H2 & _). intros [->|H]; auto.
Qed.
Lemma lmin_in l : l <> [] -> In (rlmin l) l.
Proof.
  destruct l as [|a l]; [congruence|intros _]. cbn [lmin].
  destruct (fold_min_le l a) as (_ & _ & [H|H]); [left; auto|right; auto].
Qed.
Lemma lmax_ge l x : In x l -> x <= rlmax l.
Proof.
  destruct l as [|a l]; [intros []|]. cbn [lmax].
  destruct (fold_max_ge l a) as (H1 & H2 & _). intros [->|H]; auto.
Qed.
Lemma lmax_in l : l <> [] -> In (rlmax l) l.
Proof.
  destruct l as [|a l]; [congruence|intros _]. cbn [lmax].
  destruct (fold_max_ge l a) as (_ & _ & [H|H]); [left; auto|right; auto].
Qed.
Lemma lmin_unique l m : In m l -> (forall x, In x l -> m <= x) -> rlmin l = m.
Proof.
  intros Hm H. apply Rle_antisym; [apply lmin_le; assumption|].
  apply H, lmin_in. intros ->; destruct Hm.
Qed.
Lemma lmax_unique l m : In m l -> (forall x, In x l -> x <= m) -> rlmax l = m.
Proof.
  intros Hm H. apply Rle_antisym; [|apply lmax_ge; assumption].
  apply H, lmax_in. intros ->; destruct Hm.
Qed.
Lemma lmin_le_lmax l : rlmin l <= rlmax l.
Proof.
  destruct l as [|a l]; [cbn; lra|].
  apply Rle_trans with a; [apply lmin_le; left; reflexivity|apply lmax_ge; left; reflexivity].
Qed.
Lemma lmin_perm l m : Permutation l m -> rlmin l = rlmin m.
Proof.
  intros H. destruct l as [|a l]; [apply Permutation_nil in H; subst; reflexivity|].
  symmetry; apply lmin_unique.
  - eapply Permutation_in; [exact H|apply lmin_in; discriminate].
  - intros x Hx. apply lmin_le. eapply Permutation_in; [apply Permutation_sym, H|exact Hx].
Qed.
Lemma lmax_perm l m : Permutation l m -> rlmax l = rlmax m.
Proof.
  intros H. destruct l as [|a l]; [apply Permutation_nil in H; subst; reflexivity|].
  symmetry; apply lmax_unique.
  - eapply Permutation_in; [exact H|apply lmax_in; discriminate].
  - intros x Hx. apply lmax_ge. eapply Permutation_in; [apply Permutation_sym, H|exact Hx].
Qed.

Lemma nofnat_INR n : @nofnat R RNum n = INR n.
Proof. unfold nofnat; toR. symmetry; apply INR_IZR_INZ. Qed.

Lemma Permutation_filter {T} (p : T -> bool) l m : Permutation l m -> Permutation (filter p l) (filter p m).
Proof.
  induction 1 as [| x l l' H IH | x y l | l l' l'' H1 IH1 H2 IH2]; cbn.
  - constructor.
  - destruct (p x); [constructor|]; assumption.
  - destruct (p x), (p y); first [apply perm_swap | apply Permutation_refl].
  - eapply Permutation_trans; eassumption.
Qed.
