(** Specification vocabulary for the grid properties. *)
From Verif Require Import Spec.
From Flocq Require Import Core.

(** rounding to nearest, ties to even, in the IEEE binary64 format (without overflow) *)
Definition rnd64 : R -> R := round radix2 (FLT_exp (-1074) 53) ZnearestE.
