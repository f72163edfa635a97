(** Model of the life cycle of a QGField object (/repo/src/falwa/oopinterface.py): which calls succeed,
    which flags they set, and from which stored data each result is computed.

    The numerical kernels appear as the functions of a [backend]; what they compute is modelled
    elsewhere.  Each kernel is a deterministic function of its arguments.
    Simplification: printing is dropped, warnings are part of the answer of a call. *)
From Verif Require Export Storage.
Open Scope list_scope.
Open Scope nat_scope.

(** Iteration count reported by the elliptic solver, compute_reference_states.f90:174-222.
    [met n] tells whether the residual test of line 204 holds at the end of sweep n.  The first sweep
    never leaves the loop (nnn.gt.1); a completed do loop leaves nnn = maxits + 1. *)
Fixpoint sor_loop (fuel nnn : nat) (met : nat -> bool) : nat :=
  match fuel with
  | O => nnn
  | S f => if (1 <? nnn) && met nnn then nnn else sor_loop f (nnn + 1) met
  end.
Definition num_of_iter (maxits : nat) (met : nat -> bool) : nat := sor_loop maxits 1 met.

(** the subclass, oopinterface.py:1546 and 1697 *)
Inductive qgclass := NH18 | NHN22.

(** constructor arguments that later calls look at, oopinterface.py:93-188.
    [c_even]: need_latitude_interpolation (even grid); [c_nlat]: number of latitudes given by the user *)
Record config := { c_class : qgclass; c_nh_only : bool; c_even : bool; c_raise : bool; c_nlat : nat }.
(** number of latitudes of the analysis grid, oopinterface.py:161 and 316-329 *)
Definition nlat_analysis (c : config) : nat := if c_even c then c_nlat c + 1 else c_nlat c.

(** what a call can answer instead of returning *)
Inductive error :=
| QgpvMissing          (* ValueError, oopinterface.py:1227 *)
| NonConvergent (h : hemi)  (* ValueError, 1600 *)
| UrefNotSolved        (* ValueError, 888 *)
| RefsNotComputed      (* ValueError, 895 *)
| NotComputedYet       (* ValueError, 1437 and similar *)
| LatitudeMismatch     (* ValueError of scipy's interp1d, 374 *)
| ShapeAssertion       (* AssertionError, 904 and 1081 *)
| KernelRejects.       (* exception of the f2py wrapper: argument missing (None) or of the wrong shape *)

Section Object.
  (** V: wind and temperature given by the user.  I: everything interpolate_fields stores.
      R: reference state of one hemisphere.  X: content of an ncforce array.
      W, F, L: what compute_lwa_only, the barotropic flux computation and the layerwise flux computation
      store for one hemisphere. *)
  Context {V I R X W F L : Type}.

  (** the kernels.  [b_meets i h n]: the residual test at sweep n for hemisphere h.
      [b_refs i h maxits]: the reference state stored.  [b_refs0], [b_bar0], [b_lay0]: the zero arrays the
      storages are created with (data_storage.py:162-164, 195-197, 285-300) *)
  Record backend := {
    b_interp : V -> I;
    b_meets : I -> hemi -> nat -> bool;
    b_refs : I -> hemi -> nat -> R;
    b_refs0 : R;
    b_lwa : I -> R -> hemi -> W;
    b_flux : I -> R -> option X -> hemi -> F;
    b_layer : I -> R -> option X -> hemi -> L;
    b_lay0 : L }.

  (** the mutable part of the object.  [o_qgpv]: InterpolatedFieldsStorage (None until
      interpolate_fields ran); [o_refs]: ReferenceStatesStorage by hemisphere; [o_nonconv], [o_refs_done],
      [o_layer_done]: the flags _nonconvergent_uref, _reference_states_computed and
      _layerwise_fluxes_computed (oopinterface.py:106, 186, 187); [o_layer]: layerwise terms *)
  Record obj := {
    o_fields : V; o_maxit : nat;
    o_qgpv : option I;
    o_refs : hemi -> R;
    o_nonconv : bool; o_refs_done : bool; o_layer_done : bool;
    o_layer : hemi -> L }.

  Inductive answer :=
  | Done_                                       (* returned, nothing of interest *)
  | Qgpv (i : I)
  | Refs (warned : bool) (north : R) (south : option R)
  | Lwa (north : W) (south : option W)
  | Fluxes (north : F) (south : option F)
  | Layers (north : L) (south : option L)
  | Raised (e : error).

  (** calls.  SetFields / SetMaxit: assignment to the public attributes u_field, v_field, theta_field and
      maxit.  [ncforce]: None, or the number of latitudes of the array given (its other two axes are
      assumed right) with its content.  ReadLayer: any of ua1, ua2, ep1, ep2, ep3, stretch_term *)
  Inductive call :=
  | SetFields (v : V) | SetMaxit (n : nat)
  | InterpolateFields (named_tuple : bool)
  | ComputeReferenceStates
  | ComputeLwaOnly
  | ComputeFluxes (ncforce : option (nat * X))
  | ComputeLayerwise (ncforce : option (nat * X))
  | ReadQgpv | ReadRefs | ReadLayer.

  Definition upd (f : hemi -> R) (h : hemi) (r : R) : hemi -> R :=
    fun h' => match h, h' with NHem, NHem => r | SHem, SHem => r | _, _ => f h' end.

  (** __init__, oopinterface.py:93-188 *)
  Definition new_obj (b : backend) (v : V) (maxit : nat) : obj :=
    {| o_fields := v; o_maxit := maxit; o_qgpv := None; o_refs := fun _ => b_refs0 b;
       o_nonconv := false; o_refs_done := false; o_layer_done := false; o_layer := fun _ => b_lay0 b |}.

  Definition south {T} (c : config) (x : T) : option T := if c_nh_only c then None else Some x.

  (** property qgpv, oopinterface.py:1221-1228 with _return_interp_variables 376-402: in northern-only mode
      on an even grid the half-sized latitude axis does not match the stored full array *)
  Definition read_qgpv (c : config) (o : obj) : I + error :=
    match o_qgpv o with
    | None => inr QgpvMissing
    | Some i => if c_even c && c_nh_only c then inr LatitudeMismatch else inl i
    end.

  (** interpolate_fields, oopinterface.py:466-530; the named tuple is built from the properties (1587,
      1776), after everything has been stored *)
  Definition interpolate_fields (b : backend) (c : config) (t : bool) (o : obj) : obj * answer :=
    let o' := {| o_fields := o_fields o; o_maxit := o_maxit o; o_qgpv := Some (b_interp b (o_fields o));
                 o_refs := o_refs o; o_nonconv := o_nonconv o; o_refs_done := o_refs_done o;
                 o_layer_done := o_layer_done o; o_layer := o_layer o |} in
    if t then
      match read_qgpv c o' with
      | inl i => (o', Qgpv i)
      | inr e => (o', Raised e)
      end
    else (o', Done_).

  Definition set_refs (o : obj) (refs : hemi -> R) (nonconv done : bool) : obj :=
    {| o_fields := o_fields o; o_maxit := o_maxit o; o_qgpv := o_qgpv o; o_refs := refs;
       o_nonconv := nonconv; o_refs_done := done; o_layer_done := o_layer_done o; o_layer := o_layer o |}.

  (** the solver's verdict on one hemisphere: for NH18 "num_of_iter >= self.maxit"
      (oopinterface.py:1617, 1630); NHN22 inverts directly and never complains (1790-1809) *)
  Definition fails (b : backend) (c : config) (o : obj) (i : I) (h : hemi) : bool :=
    match c_class c with
    | NH18 => o_maxit o <=? num_of_iter (o_maxit o) (b_meets b i h)
    | NHN22 => false
    end.

  (** compute_reference_states, oopinterface.py:596-616, with QGFieldNH18._compute_reference_states and
      _nonconvergence_notification 1596-1631, QGFieldNHN22._compute_reference_states 1784-1809 *)
  Definition compute_reference_states (b : backend) (c : config) (o : obj) : obj * answer :=
    match read_qgpv c o with
    | inr e => (o, Raised e)
    | inl i =>
        let refs1 := upd (o_refs o) NHem (b_refs b i NHem (o_maxit o)) in
        let failN := fails b c o i NHem in
        let non1 := o_nonconv o || failN in
        if failN && c_raise c then (set_refs o refs1 non1 (o_refs_done o), Raised (NonConvergent NHem))
        else
          let refs2 := if c_nh_only c then refs1 else upd refs1 SHem (b_refs b i SHem (o_maxit o)) in
          let failS := negb (c_nh_only c) && fails b c o i SHem in
          let non2 := non1 || failS in
          if failS && c_raise c then (set_refs o refs2 non2 (o_refs_done o), Raised (NonConvergent SHem))
          else (set_refs o refs2 non2 (if non2 then o_refs_done o else true),
                Refs (failN || failS) (refs2 NHem) (south c (refs2 SHem)))
    end.

  (** compute_lwa_only, oopinterface.py:624-692: no check of its own; the kernel refuses None *)
  Definition compute_lwa_only (b : backend) (c : config) (o : obj) : obj * answer :=
    match o_qgpv o with
    | None => (o, Raised KernelRejects)
    | Some i => (o, Lwa (b_lwa b i (o_refs o NHem) NHem) (south c (b_lwa b i (o_refs o SHem) SHem)))
    end.

  (** the ncforce argument, oopinterface.py:898-906 and 1075-1082: with None an array of zeros with
      [rows_if_none] latitudes is passed on, otherwise the shape is asserted *)
  Definition ncforce_rows (c : config) (rows_if_none : nat) (nc : option (nat * X)) : (nat * option X) + error :=
    match nc with
    | None => inl (rows_if_none, None)
    | Some (n, x) => if n =? nlat_analysis c then inl (n, Some x) else inr ShapeAssertion
    end.

  (** compute_lwa_and_barotropic_fluxes, oopinterface.py:882-962: checks, then the kernel for each
      hemisphere (716-793).  The flags and reference states are not changed *)
  Definition compute_fluxes (b : backend) (c : config) (nc : option (nat * X)) (o : obj) : obj * answer :=
    match read_qgpv c o with
    | inr e => (o, Raised e)
    | inl i =>
        if o_nonconv o then (o, Raised UrefNotSolved)
        else if negb (o_refs_done o) then (o, Raised RefsNotComputed)
        else match ncforce_rows c (nlat_analysis c) nc with
             | inr e => (o, Raised e)
             | inl (n, x) =>
                 if n =? nlat_analysis c
                 then (o, Fluxes (b_flux b i (o_refs o NHem) x NHem) (south c (b_flux b i (o_refs o SHem) x SHem)))
                 else (o, Raised KernelRejects)
             end
    end.

  (** _compute_layerwise_lwa_fluxes_wrapper, oopinterface.py:1063-1156: no check of its own; the default
      ncforce has self.nlat rows (1078), the other kernel arguments have the analysis grid's *)
  Definition compute_layerwise (b : backend) (c : config) (nc : option (nat * X)) (o : obj) : obj * answer :=
    match o_qgpv o with
    | None => (o, Raised KernelRejects)
    | Some i =>
        match ncforce_rows c (c_nlat c) nc with
        | inr e => (o, Raised e)
        | inl (n, x) =>
            if n =? nlat_analysis c
            then ({| o_fields := o_fields o; o_maxit := o_maxit o; o_qgpv := o_qgpv o; o_refs := o_refs o;
                     o_nonconv := o_nonconv o; o_refs_done := o_refs_done o; o_layer_done := true;
                     o_layer := fun h => if c_nh_only c then
                                  match h with NHem => b_layer b i (o_refs o NHem) x NHem | SHem => o_layer o SHem end
                                else b_layer b i (o_refs o h) x h |}, Done_)
            else (o, Raised KernelRejects)
        end
    end.

  (** properties qref, uref, ptref, oopinterface.py:1271-1298: the arrays exist from the start, so the
      "is None" tests never fire *)
  Definition read_refs (c : config) (o : obj) : answer :=
    Refs false (o_refs o NHem) (south c (o_refs o SHem)).

  (** properties ua1 ... stretch_term, oopinterface.py:1433-1512 *)
  Definition read_layer (c : config) (o : obj) : answer :=
    if o_layer_done o then Layers (o_layer o NHem) (south c (o_layer o SHem)) else Raised NotComputedYet.

  Definition step (b : backend) (c : config) (o : obj) (k : call) : obj * answer :=
    match k with
    | SetFields v => ({| o_fields := v; o_maxit := o_maxit o; o_qgpv := o_qgpv o; o_refs := o_refs o;
                         o_nonconv := o_nonconv o; o_refs_done := o_refs_done o;
                         o_layer_done := o_layer_done o; o_layer := o_layer o |}, Done_)
    | SetMaxit n => ({| o_fields := o_fields o; o_maxit := n; o_qgpv := o_qgpv o; o_refs := o_refs o;
                        o_nonconv := o_nonconv o; o_refs_done := o_refs_done o;
                        o_layer_done := o_layer_done o; o_layer := o_layer o |}, Done_)
    | InterpolateFields t => interpolate_fields b c t o
    | ComputeReferenceStates => compute_reference_states b c o
    | ComputeLwaOnly => compute_lwa_only b c o
    | ComputeFluxes nc => compute_fluxes b c nc o
    | ComputeLayerwise nc => compute_layerwise b c nc o
    | ReadQgpv => (o, match read_qgpv c o with inl i => Qgpv i | inr e => Raised e end)
    | ReadRefs => (o, read_refs c o)
    | ReadLayer => (o, read_layer c o)
    end.

  (** a history: the calls in order, with what each answered *)
  Fixpoint run (b : backend) (c : config) (o : obj) (ks : list call) : obj * list (call * answer) :=
    match ks with
    | [] => (o, [])
    | k :: ks' =>
        let (o1, a) := step b c o k in
        let (o2, tr) := run b c o1 ks' in (o2, (k, a) :: tr)
    end.
  Definition history (b : backend) (c : config) (v : V) (maxit : nat) (ks : list call) : list (call * answer) :=
    snd (run b c (new_obj b v maxit) ks).
  (** the answer of one more call after a history *)
  Definition next (b : backend) (c : config) (v : V) (maxit : nat) (ks : list call) (k : call) : answer :=
    snd (step b c (fst (run b c (new_obj b v maxit) ks)) k).
End Object.
Arguments answer : clear implicits.
Arguments call : clear implicits.
Arguments backend : clear implicits.
