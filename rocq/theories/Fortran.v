(** Column-major memory and do loops, for the models of the Fortran routines in
    /repo/src/falwa/f90_modules.  Array indices are 1-based as in the sources.  The routines are
    compiled without bounds checking, so an index outside the declared bounds is an access to the
    address it computes. *)
From Verif Require Export Base.

Section Fortran.
  Context {A : Type} {N : Num A}.

  (** address (0-based) of x(j,k) when the first extent is d1, of x(i,j,k) when the first two are d1, d2.  The subtraction comes last
      so that index 0 is the element in front *)
  Definition addr2 (d1 j k : nat) : nat := ((k - 1) * d1 + j - 1)%nat.
  Definition addr3 (d1 d2 i j k : nat) : nat := ((k - 1) * (d1 * d2) + j * d1 + i - d1 - 1)%nat.

  (** reading x(j,k) when x is known by its in-bounds elements *)
  Definition rd2 (d1 : nat) (x : nat -> nat -> A) (j k : nat) : A :=
    let p := addr2 d1 j k in x (p mod d1 + 1)%nat (p / d1 + 1)%nat.

  (** assignments in program order; [put ws m] is the memory afterwards *)
  Definition put (ws : list (nat * A)) (m : nat -> A) : nat -> A :=
    fold_left (fun m w p => if Nat.eqb p (fst w) then snd w else m p) ws m.

  (** do x = lo, hi *)
  Definition range (lo hi : nat) : list nat := seq lo (hi + 1 - lo).
  Definition do_ {T : Type} (lo hi : nat) (body : nat -> list T) : list T := flat_map body (range lo hi).

  (** a scalar updated by the passes 1..n of a loop, starting from zero *)
  Fixpoint loop (n : nat) (pass : nat -> A -> A) : A :=
    match n with O => nzero | S m => pass (S m) (loop m pass) end.

  (** float(j - d) for integers *)
  Definition nfloat (j d : nat) : A := nofZ (Z.of_nat j - Z.of_nat d).
  Definition nhalf : A := ndiv none (nofZ 2).
End Fortran.
