(** Model of scripts/pre_process_data_in_hybrid_coordinates/
    vertical_interpolation_hybrid_to_pressure_poisson_filled_below_topo.py ("the script" below): fields on hybrid model levels
    are interpolated to pressure levels, and the points without a value are filled by gridfill. *)
From Verif Require Import Base Grid Misc.
Open Scope R_scope.

(** line 58 of the script: pressure (Pa) of interface [m] over a point with surface pressure [ps] *)
Definition interface_pressure (ai bi : nat -> R) (P0 ps : R) (m : nat) : R := ai m * P0 + bi m * ps.
(** lines 59-60: P = (P_2levs[1:] + P_2levs[:-1]) / 2, then hPa *)
Definition old_lev (ai bi : nat -> R) (P0 ps : R) (m : nat) : R :=
  (interface_pressure ai bi P0 ps (S m) + interface_pressure ai bi P0 ps m) / 2 / 100.
(** lines 65-67: interp1d(x, y, fill_value=nan, bounds_error=False, kind='linear')(v) with [n] nodes.  scipy sorts x; the model
    takes x ascending.  Values outside the nodes are NaN. *)
Definition interp_or_nan (n : nat) (x y : nat -> R) (v : R) : entry :=
  if Rltb v (x 0%nat) || Rltb (x (n - 1)%nat) v then NaN else Number (interp1d n x y v).
(** new_variable[t, k, la, lo] before filling *)
Definition raw_variable (n : nat) (ai bi : nat -> R) (P0 : R) (PS : nat -> nat -> nat -> R) (variable : nat -> nat -> nat -> nat -> R)
  (new_lev : nat -> R) (t k j i : nat) : entry :=
  interp_or_nan n (old_lev ai bi P0 (PS t j i)) (fun m => variable t m j i) (new_lev k).

Record hybrid_out := { new_variable : nat -> nat -> nat -> nat -> entry; topography : option (nat -> nat -> nat -> nat -> entry) }.
(** lines 31-108, vertical_interpolation_to_pressure, and 17-28, gridfill_all_levels_each_time.  [main]: the script is run as
    __main__; otherwise the name logging_object, read in line 91 for every time, is undefined (None: NameError).  The topography is copied
    before the filling (line 89) and its numbers become 1 (line 94).  Deleting entries of locals() (lines 99-100) has no effect.  Messages
    and timing are left out (logging_method is a required function in effect: the default None cannot be called).  [fill] is gridfill.fill as in Misc.v. *)
Definition vertical_interpolation_to_pressure (main : bool) (fill : (nat -> nat -> option R) -> nat -> nat -> entry) (nt n nlat nlon : nat)
  (ai bi : nat -> R) (P0 : R) (PS : nat -> nat -> nat -> R) (variable : nat -> nat -> nat -> nat -> R) (save_topography : bool) (new_lev : nat -> R) : option hybrid_out :=
  let raw := raw_variable n ai bi P0 PS variable new_lev in
  if negb main && negb (Nat.eqb nt 0) then None
  else Some {| new_variable := fun t k j i => gridfill_each_level fill nlat nlon (raw t k) j i;
               topography := if save_topography then Some (fun t k j i => if is_nan (raw t k j i) then NaN else Number 1) else None |}.
