(** Model of a session with its checks: the counts of iterations of the NH18 solver, the exceptions raised when it did not converge, and the
    session with compute_lwa_only that a user falls back to (/repo/src/falwa/oopinterface.py). *)
From Verif Require Export Object.
Open Scope R_scope.

(** num_of_iter of the NH18 solver, oopinterface.py:1608-1615 and 1621-1628; the argument raise_error_for_nonconvergence is [raising] below *)
Definition iterations (lib : library) (w : qgargs) (o : qgobj) (x : stores) (north : bool) : nat :=
  let c := ob_conf o in let q := s_q x in let f := s_f x in
  let hemi (y : arr3 R) := if north then clip3 c y else clip3 c (flip3 c y) in
  rs_num_of_iter (nh18_dims c (g_npart (ob_grid o)) (w_maxit w) (w_tol w) (w_rjac w)) (if north then clip3 c q else clip3 c (neg3 (flip3 c q)))
    (hemi (u_ f)) (hemi (theta_ f)) (one_based (stat_n (s_av x))) (lb_mem1 lib) (lb_mem2 lib).
(** "if num_of_iter >= self.maxit", oopinterface.py:1617 and 1630; QGFieldNHN22 has no such test, 1784-1809 *)
Definition fails (lib : library) (k : class) (w : qgargs) (o : qgobj) (x : stores) (north : bool) : bool :=
  match k with NH18 => Nat.leb (w_maxit w) (iterations lib w o x north) | NHN22 _ => false end.
(** the attribute _nonconvergent_uref after compute_reference_states *)
Definition nonconvergent (lib : library) (k : class) (w : qgargs) (o : qgobj) (x : stores) : bool :=
  fails lib k w o x true || (negb (w_nh w) && fails lib k w o x false).

(** the calls of a session, in order *)
Inductive call := Constructor | InterpolateFields | ComputeReferenceStates | ComputeFluxes.
Inductive ending (T : Type) := Returned (x : T) | Stopped (at_ : call) (e : pyerr).
Arguments Returned {T}. Arguments Stopped {T}.

(** construct, interpolate_fields(return_named_tuple=named) (467-530, 1587, 1776: the named tuple reads the property qgpv), compute_reference_states
    (596-616: reads qgpv; 1596-1602: raises ValueError for a hemisphere that did not converge if [raising]).  Nothing else is left to check before
    compute_lwa_only (624-691); compute_lwa_and_barotropic_fluxes refuses if _nonconvergent_uref is set (882-896). *)
Definition prepared (lib : library) (k : class) (w : qgargs) (named raising : bool) (nc : field3) : ending (qgobj * stores) :=
  match create k w with
  | Raise e => Stopped Constructor e
  | Done o =>
      let x := analyse lib k w o nc in
      match out_qgpv (read w o x) with
      | Raise e => Stopped (if named then InterpolateFields else ComputeReferenceStates) e
      | Done _ => if raising && nonconvergent lib k w o x then Stopped ComputeReferenceStates ValueError else Returned (o, x)
      end
  end.
Definition session_with_fluxes (lib : library) (k : class) (w : qgargs) (named raising : bool) (nc : field3) : ending outputs :=
  match prepared lib k w named raising nc with
  | Stopped s e => Stopped s e
  | Returned (o, x) => if nonconvergent lib k w o x then Stopped ComputeFluxes ValueError else Returned (read w o x)
  end.

(** what can be read after compute_lwa_only: the fields, the reference states, and the properties lwa_baro, u_baro, lwa (1385-1431), which read the storages
    that compute_lwa_only fills *)
Record lwa_outputs := { lo_qref : res (nat -> nat -> R); lo_uref : res (nat -> nat -> R); lo_ptref : res (nat -> nat -> R);
  lo_lwa_baro : res (nat -> nat -> R); lo_u_baro : res (nat -> nat -> R); lo_lwa : res field3 }.
Definition read_lwa (w : qgargs) (o : qgobj) (x : stores) : lwa_outputs :=
  let y := read w o x in let m := rows (ob_conf o) in let l := s_only x in
  {| lo_qref := out_qref y; lo_uref := out_uref y; lo_ptref := out_ptref y;
     lo_lwa_baro := read_map w o m (o_lwa_baro l); lo_u_baro := read_map w o m (o_u_baro l); lo_lwa := read_field w o m (o_lwa l) |}.
Definition session_with_lwa_only (lib : library) (k : class) (w : qgargs) (named raising : bool) : ending lwa_outputs :=
  match prepared lib k w named raising (fun _ _ _ => 0) with
  | Stopped s e => Stopped s e
  | Returned (o, x) => Returned (read_lwa w o x)
  end.
