(** Specification vocabulary for the covariance map. *)
From Verif Require Export Spec.
Open Scope R_scope.

(** mean and sample covariance of two series of n values *)
Definition average (n : nat) (x : nat -> R) : R := Sum 0 n x / INR n.
Definition sample_covariance (n : nat) (x y : nat -> R) : R :=
  Sum 0 n (fun t => (x t - average n x) * (y t - average n y)) / INR (n - 1).
