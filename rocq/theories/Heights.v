(** Model of the heights QGFieldNHN22 passes to the direct inversion, oopinterface.py:1845: np.arange(0, self.kmax * self.dz, self.dz).
    [rnd] rounds the result of an operation: binary64 in the code, no rounding in exact arithmetic. *)
From Coq Require Import Reals ZArith List.
From Flocq Require Import Core.
From Verif Require Export Grid.
Import ListNotations.
Open Scope R_scope.

Section Heights.
  Variable rnd : R -> R.
  (** numpy: the number of elements of arange(0, stop, step) is ceil((stop - 0) / step), none if that is negative; the elements are 0 + i * step *)
  Definition arange_length (stop step : R) : nat := Z.to_nat (Zceil (rnd (stop / step))).
  Definition arange (stop step : R) : list R := map (fun i => rnd (INR i * step)) (seq 0 (arange_length stop step)).
  (** self.kmax * self.dz is the product of an int and a float *)
  Definition inversion_heights (kmax : nat) (dz : R) : list R := arange (rnd (INR kmax * dz)) dz.
  (** the call of matrix_b4_inversion, oopinterface.py:1840-1855: f2py takes the size kmax from z (matrix_b4_inversion.f90:6) and
      refuses arrays declared with that size which have another one; the static stability has as many elements as the object has levels.
      Simplified: what the call computes is modelled in DirInv.v, here only the heights that reach it *)
  Definition matrix_b4_call (dz : R) (static_stability : list R) : res (list R) :=
    let z := inversion_heights (length static_stability) dz in
    if Nat.eqb (length static_stability) (length z) then Done z else Raise ValueError.
End Heights.

(** the heights of the levels of the object, oopinterface.py:121 *)
Definition level_heights (rnd : R -> R) (kmax : nat) (dz : R) : list R := map (fun i => rnd (INR i * dz)) (seq 0 kmax).
(** binary64, round to nearest even; overflow is not modelled *)
Definition rnd64 (x : R) : R := round radix2 (FLT_exp (-1074) 53) ZnearestE x.

(** _check_valid_plev in rounded arithmetic, oopinterface.py:306: kmax is refused if hmax < (kmax - 1) * dz; [hmax] is the computed height of the last
    data level *)
Definition levels_accepted (rnd : R -> R) (hmax dz : R) (kmax : nat) : Prop := ~ hmax < rnd (INR (kmax - 1) * dz).
(** the number in the message, line 308: int(hmax // dz) + 1.  numpy computes the quotient from the exact remainder, so it is the floor of the exact
    quotient *)
Definition suggested_levels (hmax dz : R) : nat := Z.to_nat (Zfloor (hmax / dz) + 1).
