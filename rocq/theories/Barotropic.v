(** Model of /repo/src/falwa/barotropic_field.py: class [BarotropicField] as an object with
    mutable public attributes and two caches. *)
From Verif Require Export Basis.

Section Barotropic.
  Context {A : Type} {N : Num A}.
  Local Open Scope num_scope.

  (** attributes set by __init__ (barotropic_field.py:74-102); sizes are kept with the arrays *)
  Record bfield := {
    bf_nlat : nat; bf_nlon : nat;
    bf_ylat : nat -> A;
    bf_clat : nat -> A;
    bf_radius : A;
    bf_partitioned : bool;
    bf_dphi : nat -> A;
    bf_area : nat -> nat -> A;
    bf_pv : nat -> nat -> A;
    bf_npart : nat;
    bf__eqvlat : option (nat -> A);      (* self._eqvlat *)
    bf__lwa : option (lwact A) }.        (* self._lwa *)

  Definition deg2rad (x : A) : A := x * (npi / nofZ 180).     (* np.deg2rad *)

  (** barotropic_field.py:82 default dphi *)
  Definition default_dphi (nlat : nat) : nat -> A := fun _ => npi / nofnat (nlat - 1) * none.
  (** barotropic_field.py:87-89 default area *)
  Definition default_area (nlon : nat) (ylat dphi : nat -> A) (radius : A) : nat -> nat -> A :=
    fun j _ => nofZ 2 * npi * nsq radius * (ncos (ylat j * npi / nofZ 180) * dphi j) / nofnat nlon * none.

  (** barotropic_field.py:43-102 *)
  Definition bf_init (nlat nlon : nat) (ylat : nat -> A) (pv : nat -> nat -> A)
    (area : option (nat -> nat -> A)) (dphi : option (nat -> A)) (n_partitions : option nat)
    (radius : A) (partitioned : bool) : bfield :=
    let dphi' := match dphi with None => default_dphi nlat | Some d => d end in
    {| bf_nlat := nlat; bf_nlon := nlon; bf_ylat := ylat;
       bf_clat := fun j => nabs (ncos (deg2rad (ylat j)));
       bf_radius := radius; bf_partitioned := partitioned; bf_dphi := dphi';
       bf_area := match area with None => default_area nlon ylat dphi' radius | Some a => a end;
       bf_pv := pv;
       bf_npart := match n_partitions with None => nlat | Some n => n end;
       bf__eqvlat := None; bf__lwa := None |}.

  (** the values the two computations produce from the current attributes
      (barotropic_field.py:108-111 and 120-124) *)
  Definition eqvlat_now (s : bfield) : nat -> A :=
    fst (eqvlat_fawa (bf_nlat s) (bf_nlon s) (bf_ylat s) (bf_pv s) (bf_area s) (bf_npart s)
                     (bf_radius s) false).
  Definition lwa_now (s : bfield) (eqvlat : nat -> A) : lwact A :=
    fst (lwa (bf_nlat s) (bf_pv s) eqvlat
             (fun j => bf_radius s * bf_clat s j * bf_dphi s j) (bf_partitioned s) None).

  Definition set_lwa (s : bfield) (v : lwact A) : bfield :=
    {| bf_nlat := bf_nlat s; bf_nlon := bf_nlon s; bf_ylat := bf_ylat s; bf_clat := bf_clat s;
       bf_radius := bf_radius s; bf_partitioned := bf_partitioned s; bf_dphi := bf_dphi s;
       bf_area := bf_area s; bf_pv := bf_pv s; bf_npart := bf_npart s;
       bf__eqvlat := bf__eqvlat s; bf__lwa := Some v |}.
  Definition set_pv (s : bfield) (v : nat -> nat -> A) : bfield :=
    {| bf_nlat := bf_nlat s; bf_nlon := bf_nlon s; bf_ylat := bf_ylat s; bf_clat := bf_clat s;
       bf_radius := bf_radius s; bf_partitioned := bf_partitioned s; bf_dphi := bf_dphi s;
       bf_area := bf_area s; bf_pv := v; bf_npart := bf_npart s;
       bf__eqvlat := bf__eqvlat s; bf__lwa := bf__lwa s |}.

  (** barotropic_field.py:104-112.  Note that the result is stored in [self.eqvlat], a different
      attribute from the [self._eqvlat] tested by the property, so the cache is never filled. *)
  Definition compute_eqvlat (s : bfield) : bfield * (nat -> A) := (s, eqvlat_now s).

  (** barotropic_field.py:127-144 *)
  Definition get_eqvlat (s : bfield) : bfield * (nat -> A) :=
    match bf__eqvlat s with None => compute_eqvlat s | Some v => (s, v) end.

  (** barotropic_field.py:114-125; [return self.lwa] re-enters the property with _lwa set *)
  Definition compute_lwa (s : bfield) : bfield * lwact A :=
    let '(s1, eqv) := get_eqvlat s in
    match bf__lwa s1 with
    | None => let v := lwa_now s1 eqv in (set_lwa s1 v, v)
    | Some v => (s1, v)
    end.

  (** barotropic_field.py:146-164 *)
  Definition get_lwa (s : bfield) : bfield * lwact A :=
    match bf__lwa s with None => compute_lwa s | Some v => (s, v) end.

  (** user-visible operations *)
  Inductive bop :=
  | ReadEqvlat | ReadLwa
  | AssignPv (pv : nat -> nat -> A).
  Inductive bout := OEqv (v : nat -> A) | OLwa (v : lwact A) | ONone.

  Definition bstep (s : bfield) (o : bop) : bfield * bout :=
    match o with
    | ReadEqvlat => let '(s', v) := get_eqvlat s in (s', OEqv v)
    | ReadLwa => let '(s', v) := get_lwa s in (s', OLwa v)
    | AssignPv pv => (set_pv s pv, ONone)
    end.

  Fixpoint brun (s : bfield) (l : list bop) : bfield * list bout :=
    match l with
    | [] => (s, [])
    | o :: l' => let '(s1, out) := bstep s o in
                 let '(s2, outs) := brun s1 l' in (s2, out :: outs)
    end.
End Barotropic.

Arguments bop : clear implicits.
Arguments bout : clear implicits.
Arguments bfield : clear implicits.
