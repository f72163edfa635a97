(** A square real system whose homogeneous version has only the zero solution has a solution for every right side. *)
From Verif Require Import BaseFacts SpecFacts.
Open Scope R_scope.

Definition row_sum (n : nat) (M : nat -> nat -> R) (x : nat -> R) (i : nat) : R := Sum 0 n (fun j => M i j * x j).

Lemma row_sum_S n M x i : row_sum (S n) M x i = row_sum n M x i + M i n * x n.
Proof. unfold row_sum. rewrite Sum_S_r by lia. reflexivity. Qed.
Lemma row_sum_ext n M M' x x' i : (forall j, (j < n)%nat -> M i j = M' i j) -> (forall j, (j < n)%nat -> x j = x' j) -> row_sum n M x i = row_sum n M' x' i.
Proof. intros H H'. unfold row_sum. apply Sum_ext. intros j Hj. rewrite H, H' by lia. reflexivity. Qed.

(** Gaussian elimination, last column first *)
Fixpoint find_pivot (m n : nat) (M : nat -> nat -> R) : nat :=
  match m with O => O | S m' => if Req_EM_T (M m' n) 0 then find_pivot m' n M else m' end.
Definition swap (p n i : nat) : nat := if Nat.eqb i p then n else if Nat.eqb i n then p else i.
Fixpoint gauss (n : nat) (M : nat -> nat -> R) (b : nat -> R) : nat -> R :=
  match n with
  | O => fun _ => 0
  | S m =>
      let sw := swap (find_pivot (S m) m M) m in
      let M1 := fun i j => M (sw i) j in let b1 := fun i => b (sw i) in
      let x := gauss m (fun i j => M1 i j - M1 i m / M1 m m * M1 m j) (fun i => b1 i - M1 i m / M1 m m * b1 m) in
      fun j => if Nat.eqb j m then (b1 m - row_sum m M1 x m) / M1 m m else x j
  end.

Lemma find_pivot_spec n M m : ((find_pivot m n M < m)%nat /\ M (find_pivot m n M) n <> 0) \/ (forall p, (p < m)%nat -> M p n = 0).
Proof.
  induction m as [|m IH]; [right; lia|]. cbn [find_pivot]. destruct (Req_EM_T (M m n) 0) as [E|E]; [|left; split; [lia|exact E]].
  destruct IH as [(H1 & H2)|H]; [left; split; [lia|exact H2]|right]. intros p Hp. destruct (Nat.eq_dec p m) as [->|]; [exact E|apply H; lia].
Qed.
Lemma pivot n (M : nat -> nat -> R) : (forall x, (forall i, (i < S n)%nat -> row_sum (S n) M x i = 0) -> forall j, (j < S n)%nat -> x j = 0) ->
  (find_pivot (S n) n M < S n)%nat /\ M (find_pivot (S n) n M) n <> 0.
Proof.
  intros H. destruct (find_pivot_spec n M (S n)) as [E|E]; [exact E|]. exfalso.
  assert (X := H (fun j => if Nat.eqb j n then 1 else 0)). specialize (X ltac:(intros i Hi; rewrite row_sum_S, Nat.eqb_refl, (E i Hi); unfold row_sum; rewrite Sum_zero; [ring|intros j Hj; replace (Nat.eqb j n) with false by (symmetry; apply Nat.eqb_neq; lia); ring]) n ltac:(lia)).
  cbv beta in X. rewrite Nat.eqb_refl in X. lra.
Qed.

Lemma gauss_solves n : forall M b,
  (forall x, (forall i, (i < n)%nat -> row_sum n M x i = 0) -> forall j, (j < n)%nat -> x j = 0) ->
  forall i, (i < n)%nat -> row_sum n M (gauss n M b) i = b i.
Proof.
  induction n as [|n IH]; intros M b H; [lia|].
  destruct (pivot n M H) as (Hp & Ep). cbn [gauss]. cbv zeta. set (p := find_pivot (S n) n M) in *.
  set (sw := swap p n).
  assert (SwB : forall i, (i < S n)%nat -> (sw i < S n)%nat).
  { intros i Hi. unfold sw, swap. destruct (Nat.eqb_spec i p); destruct (Nat.eqb_spec i n); lia. }
  assert (SwI : forall i, sw (sw i) = i).
  { intros i. unfold sw, swap. destruct (Nat.eqb_spec i p); destruct (Nat.eqb_spec i n);
      repeat match goal with |- context [Nat.eqb ?a ?b] => destruct (Nat.eqb_spec a b) end; congruence || lia. }
  assert (SwN : sw n = p) by (unfold sw, swap; rewrite Nat.eqb_refl; destruct (Nat.eqb_spec n p); congruence).
  set (M1 := fun i j => M (sw i) j). set (b1 := fun i => b (sw i)).
  assert (E1 : M1 n n <> 0) by (unfold M1; rewrite SwN; exact Ep).
  change (M (sw n) n) with (M1 n n). change (b (sw n)) with (b1 n).
  set (M2 := fun i j => M1 i j - M1 i n / M1 n n * M1 n j). set (b2 := fun i => b1 i - M1 i n / M1 n n * b1 n).
  match goal with |- context [gauss n ?f ?g] => change f with M2; change g with b2 end.
  assert (Red : forall x i, row_sum n M2 x i = row_sum n M1 x i - M1 i n / M1 n n * row_sum n M1 x n).
  { intros x i. unfold row_sum. rewrite <- Sum_scal, <- Sum_minus. apply Sum_ext. intros j _. unfold M2. ring. }
  assert (K2 : forall x, (forall i, (i < n)%nat -> row_sum n M2 x i = 0) -> forall j, (j < n)%nat -> x j = 0).
  { intros x Hx j Hj. set (y := fun j => if Nat.eqb j n then - row_sum n M1 x n / M1 n n else x j).
    assert (Yn : y n = - row_sum n M1 x n / M1 n n) by (unfold y; rewrite Nat.eqb_refl; reflexivity).
    assert (Yx : forall j, (j < n)%nat -> y j = x j) by (intros r Hr; unfold y; replace (Nat.eqb r n) with false by (symmetry; apply Nat.eqb_neq; lia); reflexivity).
    rewrite <- (Yx j Hj). apply H; [|lia]. intros i Hi. replace i with (sw (sw i)) by apply SwI. set (r := sw i). assert (Hr : (r < S n)%nat) by (apply SwB; exact Hi).
    change (row_sum (S n) M y (sw r)) with (row_sum (S n) M1 y r). rewrite row_sum_S, Yn, (row_sum_ext n M1 M1 y x r) by (auto; fail).
    destruct (Nat.eq_dec r n) as [->|Ne]; [field; exact E1|].
    assert (Hr2 : (r < n)%nat) by lia. specialize (Hx r Hr2). rewrite Red in Hx. unfold Rdiv in *. lra. }
  assert (Hx := IH M2 b2 K2). set (x := gauss n M2 b2) in *. set (y := fun j => if Nat.eqb j n then (b1 n - row_sum n (fun i j => M (sw i) j) x n) / M1 n n else x j).
  assert (Yn : y n = (b1 n - row_sum n M1 x n) / M1 n n) by (unfold y; rewrite Nat.eqb_refl; reflexivity).
  assert (Yx : forall j, (j < n)%nat -> y j = x j) by (intros r Hr; unfold y; replace (Nat.eqb r n) with false by (symmetry; apply Nat.eqb_neq; lia); reflexivity).
  intros i Hi. match goal with |- row_sum _ _ ?f _ = _ => change f with y end. replace i with (sw (sw i)) by apply SwI. set (r := sw i). assert (Hr : (r < S n)%nat) by (apply SwB; exact Hi).
  change (row_sum (S n) M y (sw r)) with (row_sum (S n) M1 y r). change (b (sw r)) with (b1 r). rewrite row_sum_S, Yn, (row_sum_ext n M1 M1 y x r) by (auto; fail).
  destruct (Nat.eq_dec r n) as [->|Ne]; [field; exact E1|].
  assert (Hr2 : (r < n)%nat) by lia. specialize (Hx r Hr2). rewrite Red in Hx. unfold b2, Rdiv in *. lra.
Qed.
Lemma solvable n M :
  (forall x, (forall i, (i < n)%nat -> row_sum n M x i = 0) -> forall j, (j < n)%nat -> x j = 0) ->
  forall b, exists x, forall i, (i < n)%nat -> row_sum n M x i = b i.
Proof. intros H b. exists (gauss n M b). apply gauss_solves. exact H. Qed.
