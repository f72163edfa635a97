(** Vocabulary of C177: circulations and areas on a grid of [rows] by [nlon] cells, where [q r i] is the vorticity and [w r] the area of
    each cell of row r. *)
From Verif Require Import Spec.
Open Scope R_scope.

Section S.
  Variables (rows nlon : nat) (q : nat -> nat -> R) (w : nat -> R).
  (** integral over the cells whose vorticity is above Q *)
  Definition above_contour (Q : R) (g : R -> R) : R :=
    Sum 0 rows (fun r => Sum 0 nlon (fun i => if Rlt_dec Q (q r i) then g (q r i) * w r else 0)).
  (** integral over the rows s, s+1, ... *)
  Definition beyond_row (s : nat) (g : R -> R) : R :=
    Sum s rows (fun r => Sum 0 nlon (fun i => g (q r i) * w r)).
  Definition vorticity_of (x : R) : R := x.
  Definition one_of (x : R) : R := 1.

  Definition circulation_excess (Q : R) (s : nat) : R := above_contour Q vorticity_of - beyond_row s vorticity_of.
  Definition area_excess (Q : R) (s : nat) : R := above_contour Q one_of - beyond_row s one_of.
End S.
