(** Proofs of C177. *)
From Verif Require Import Base BaseFacts Spec SpecFacts FawaSpec.
Open Scope R_scope.

Section S.
  Variables (rows nlon : nat) (q : nat -> nat -> R) (w : nat -> R).

  (** displaced vorticity of column i across the edge between rows s-1 and s *)
  Definition column (Q : R) (s i : nat) : R :=
    Sum 0 s (fun r => ppart (q r i - Q) * w r) + Sum s rows (fun r => ppart (Q - q r i) * w r).

  Lemma ppart_flip x : ppart (- x) = ppart x - x.
  Proof. unfold ppart, Rmax. destruct (Rle_dec (- x) 0), (Rle_dec x 0); lra. Qed.

  Lemma column_eq Q s i : (s <= rows)%nat ->
    column Q s i = Sum 0 rows (fun r => ppart (q r i - Q) * w r) - Sum s rows (fun r => (q r i - Q) * w r).
  Proof.
    intros H. unfold column. rewrite (Sum_split 0 s rows) by lia.
    assert (E : Sum s rows (fun r => ppart (Q - q r i) * w r) = Sum s rows (fun r => ppart (q r i - Q) * w r) - Sum s rows (fun r => (q r i - Q) * w r)).
    { rewrite <- Sum_minus. apply Sum_ext. intros r _. replace (Q - q r i) with (- (q r i - Q)) by ring. rewrite ppart_flip. ring. }
    rewrite E. ring.
  Qed.

  Lemma total_eq Q s : (s <= rows)%nat ->
    Sum 0 nlon (column Q s) = circulation_excess rows nlon q w Q s - Q * area_excess rows nlon q w Q s.
  Proof.
    intros H. unfold circulation_excess, area_excess, above_contour, beyond_row, vorticity_of, one_of.
    rewrite (Sum_ext 0 nlon (column Q s) (fun i => Sum 0 rows (fun r => ppart (q r i - Q) * w r) - Sum s rows (fun r => (q r i - Q) * w r))) by (intros; apply column_eq; assumption).
    rewrite Sum_minus. rewrite (Sum_swap 0 nlon 0 rows), (Sum_swap 0 nlon s rows).
    transitivity ((Sum 0 rows (fun r => Sum 0 nlon (fun i => if Rlt_dec Q (q r i) then q r i * w r else 0)) - Q * Sum 0 rows (fun r => Sum 0 nlon (fun i => if Rlt_dec Q (q r i) then 1 * w r else 0)))
      - (Sum s rows (fun r => Sum 0 nlon (fun i => q r i * w r)) - Q * Sum s rows (fun r => Sum 0 nlon (fun i => 1 * w r)))); [|ring].
    f_equal; rewrite <- Sum_scal, <- Sum_minus; apply Sum_ext; intros r _; rewrite <- Sum_scal, <- Sum_minus; apply Sum_ext; intros i _.
    - unfold ppart, Rmax. destruct (Rle_dec (q r i - Q) 0), (Rlt_dec Q (q r i)); try lra; ring.
    - ring.
  Qed.

  (** the total as a function of Q is convex, with slope minus the area excess *)
  Lemma total_convex Q Q' s : (s <= rows)%nat -> (forall r, (r < rows)%nat -> 0 <= w r) ->
    Sum 0 nlon (column Q s) - (Q' - Q) * area_excess rows nlon q w Q s <= Sum 0 nlon (column Q' s).
  Proof.
    intros H Hw. rewrite (total_eq Q), (total_eq Q') by assumption.
    unfold circulation_excess, area_excess.
    cut (above_contour rows nlon q w Q vorticity_of - Q' * above_contour rows nlon q w Q one_of
         <= above_contour rows nlon q w Q' vorticity_of - Q' * above_contour rows nlon q w Q' one_of); [lra|].
    unfold above_contour, vorticity_of, one_of. rewrite <- !Sum_scal, <- !Sum_minus. apply Sum_le. intros r Hr.
    rewrite <- !Sum_scal, <- !Sum_minus. apply Sum_le. intros i _. specialize (Hw r ltac:(lia)).
    destruct (Rlt_dec Q (q r i)), (Rlt_dec Q' (q r i)); nra.
  Qed.
End S.
