(** Specification vocabulary for the finite-difference helpers. *)
From Verif Require Import Spec Utilities.
Open Scope R_scope.

(** periodic neighbours *)
Definition east (n i : nat) : nat := ((i + 1) mod n)%nat.
Definition west (n i : nat) : nat := ((i + n - 1) mod n)%nat.

(** the two shapes accepted for theta and area by static_stability *)
Definition theta_in (nlon : nat) (t : thetaarr R) (k j : nat) (m M : R) : Prop :=
  match t with
  | Theta3 t => forall i, (i < nlon)%nat -> m <= t k j i <= M
  | Theta2 t => m <= t k j <= M
  end.
Definition area_pos (nlon : nat) (a : areaarr R) (j : nat) : Prop :=
  match a with
  | Area2 a => forall i, (i < nlon)%nat -> 0 < a j i
  | Area1 a => 0 < a j
  end.
Definition theta_at (nlon : nat) (t : thetaarr R) (k j i : nat) : R :=
  match t with Theta3 t => t k j i | Theta2 t => t k j end.

(** vertical stretching e^{z/H} d/dz [ e^{-z/H} anom ] with centred differences inside and one-sided
    differences at both ends *)
Definition stretching (kmax : nat) (z : nat -> R) (H : R) (anom : nat -> R) (k : nat) : R :=
  let d := fun k => exp (- z k / H) * anom k in
  let lo := (k - 1)%nat in let hi := Nat.min (k + 1) (kmax - 1) in
  exp (z k / H) * (d hi - d lo) / (z hi - z lo).

(** row j is filled by one of the two hemispheric assignments of nlat_s rows *)
Definition covered (nlat ns j : nat) : Prop := (ns = 0%nat \/ nlat - ns <= j \/ j < ns)%nat.

