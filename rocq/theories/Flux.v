(** Model of /repo/src/falwa/f90_modules/compute_flux_dirinv.f90 and compute_lwa_only_nhn22.f90.
    Arrays are functions of 1-based indices.  The two routines share their arguments; the integer
    ones come first.  Simplification: write statements are dropped. *)
From Verif Require Export Fortran Grid.

Section Flux.
  Context {A : Type} {N : Num A}.
  Local Open Scope num_scope.

  Definition arr2 := nat -> nat -> A.
  Definition arr3 := nat -> nat -> nat -> A.

  (** scalar arguments, compute_flux_dirinv.f90:1-12 *)
  Record fluxdims := {
    imax : nat; jmax : nat; kmax : nat; nd : nat; jb : nat; jd : nat; is_nhem : bool;
    f_a : A; f_om : A; f_dz : A; f_h : A; f_rr : A; f_cp : A; f_prefac : A }.

  Variable D : fluxdims.

  Definition dp : A := npi / nofnat (jmax D - 1).                               (* line 26 *)
  (** latitude dp*float(j-d), minus pi/2 in southern mode: lines 78-82, 87, 92, 134-142 *)
  Definition lat_of (j d : nat) : A :=
    if is_nhem D then dp * nfloat j d else dp * nfloat j d - nhalf * npi.
  Definition jstart : nat := if is_nhem D then (jb D + 1)%nat else 2%nat.             (* lines 62-68 *)
  Definition jend : nat := if is_nhem D then (nd D - 1)%nat else (nd D - jb D)%nat.
  (** row of a global array seen as row jj of the hemisphere: lines 88-90, 93-95 *)
  Definition grow (jj : nat) : nat := if is_nhem D then (jj + nd D - 1)%nat else jj.

  (** qe, line 88/93, and ue, line 90/95, when row j is analysed *)
  Definition qe (pv : arr3) (qref : arr2) (i j k jj : nat) : A := pv i (grow jj) k - qref j k.
  Definition uref_row (j : nat) : nat := if is_nhem D then (j - jb D)%nat else j.
  Definition ue (uu : arr3) (uref : arr2) (i j k jj : nat) : A :=
    uu i (grow jj) k * ncos (lat_of j 1) - rd2 (jd D) uref (uref_row j) k * ncos (lat_of jj 1).
  Definition aa (jj : nat) : A := f_a D * dp * ncos (lat_of jj 1).              (* line 97 *)
  Definition ab : A := f_a D * dp.                                              (* line 84 *)

  (** the two tests of lines 98 and 107 *)
  Definition below (pv : arr3) (qref : arr2) (i j k jj : nat) : bool :=
    (qe pv qref i j k jj <=? nzero) && Nat.leb j jj.
  Definition above (pv : arr3) (qref : arr2) (i j k jj : nat) : bool :=
    (nzero <? qe pv qref i j k jj) && Nat.ltb jj j.

  (** lines 85-116: the accumulators at (i,j,k) after the jj loop *)
  Definition sum_below (pv : arr3) (qref : arr2) (i j k : nat) : A :=
    loop (nd D) (fun jj s => if below pv qref i j k jj then s - qe pv qref i j k jj * aa jj else s).
  Definition sum_above (pv : arr3) (qref : arr2) (i j k : nat) : A :=
    loop (nd D) (fun jj s => if above pv qref i j k jj then s + qe pv qref i j k jj * aa jj else s).
  Definition sum_ncforce (pv ncforce : arr3) (qref : arr2) (i j k : nat) : A :=
    loop (nd D) (fun jj s =>
      let s := if below pv qref i j k jj then s - ncforce i (grow jj) k * aa jj else s in
      if above pv qref i j k jj then s + ncforce i (grow jj) k * aa jj else s).
  Definition sum_ua2 (pv uu : arr3) (qref uref : arr2) (i j k : nat) : A :=
    loop (nd D) (fun jj s =>
      let s := if below pv qref i j k jj then s - qe pv qref i j k jj * ue uu uref i j k jj * ab else s in
      if above pv qref i j k jj then s + qe pv qref i j k jj * ue uu uref i j k jj * ab else s).

  (** the triple loop k = 2..kmax-1, i, j = jstart..jend fills these points, everything else stays at
      the 0 of lines 46-58 *)
  Definition analysed (j k : nat) : bool :=
    Nat.leb 2 k && Nat.leb k (kmax D - 1) && Nat.leb jstart j && Nat.leb j jend.
  Definition fill (f : arr3) : arr3 := fun i j k => if analysed j k then f i j k else nzero.

  (** lines 99-103 and 108-112: which accumulator goes where *)
  Definition astar1 (pv : arr3) (qref : arr2) : arr3 :=
    fill (if is_nhem D then sum_above pv qref else sum_below pv qref).
  Definition astar2 (pv : arr3) (qref : arr2) : arr3 :=
    fill (if is_nhem D then sum_below pv qref else sum_above pv qref).
  Definition ncforce3d (pv ncforce : arr3) (qref : arr2) : arr3 := fill (sum_ncforce pv ncforce qref).
  Definition ua2 (pv uu : arr3) (qref uref : arr2) : arr3 := fill (sum_ua2 pv uu qref uref).
  (** line 120/125 *)
  Definition ua1 (pv : arr3) (qref uref : arr2) : arr3 :=
    fill (fun i j k => rd2 (jd D) uref (uref_row j) k * (astar1 pv qref i j k + astar2 pv qref i j k)).

  (** lines 121-133 and 147 *)
  Definition ep1 (uu vv pt : arr3) (tn0 : nat -> A) (uref tref : arr2) : arr3 :=
    fill (fun i j k =>
      let e := - nhalf * nsq (uu i (grow j) k - rd2 (jd D) uref (uref_row j) k) in
      let e := e + nhalf * nsq (vv i (grow j) k) in
      let e11 := nhalf * nsq (pt i (grow j) k - rd2 (jd D) tref (uref_row j) k) in
      let zz := f_dz D * nfloat k 1 in
      let e11 := e11 * (f_rr D / f_h D) * nexp (- (f_rr D / f_cp D) * zz / f_h D) in
      let e11 := e11 * nofZ 2 * f_dz D / (tn0 (k + 1)%nat - tn0 (k - 1)%nat) in
      (e - e11) * ncos (lat_of j 1)).

  (** one eddy momentum flux value: (u - uref) * cos * cos * v, lines 151-156, 177-178 *)
  Definition mflux (uu vv : arr3) (i row k : nat) (uref_val c : A) : A := (uu i row k - uref_val) * c * c * vv i row k.

  (** the assignments to ep2 and ep3 in program order: inside the j loop (lines 150-157) and after it
      (lines 173-178, in both modes) *)
  Definition ep2_writes (uu vv : arr3) (uref : arr2) : list (nat * A) :=
    do_ 2 (kmax D - 1) (fun k => do_ 1 (imax D) (fun i =>
      do_ jstart jend (fun j =>
        [(addr3 (imax D) (nd D) i j k,
          mflux uu vv i (grow j + 1) k (rd2 (jd D) uref (uref_row j + 1) k) (ncos (lat_of j 0)))])
      ++ [(addr3 (imax D) (nd D) i (jb D) k,
           mflux uu vv i (nd D + jb D + 1) k (rd2 (jd D) uref 2 k) (ncos (dp * nfloat (jb D) 0)))])).
  Definition ep3_writes (uu vv : arr3) (uref : arr2) : list (nat * A) :=
    do_ 2 (kmax D - 1) (fun k => do_ 1 (imax D) (fun i =>
      do_ jstart jend (fun j =>
        [(addr3 (imax D) (nd D) i j k,
          mflux uu vv i (grow j - 1) k (rd2 (jd D) uref (uref_row j - 1) k) (ncos (lat_of j 2)))])
      ++ [(addr3 (imax D) (nd D) i (jb D) k,
           mflux uu vv i (nd D + jb D) k (rd2 (jd D) uref 1 k) (ncos (dp * nfloat (jb D) 1)))])).
  Definition ep2 (uu vv : arr3) (uref : arr2) : arr3 :=
    fun i j k => put (ep2_writes uu vv uref) (fun _ => nzero) (addr3 (imax D) (nd D) i j k).
  Definition ep3 (uu vv : arr3) (uref : arr2) : arr3 :=
    fun i j k => put (ep3_writes uu vv uref) (fun _ => nzero) (addr3 (imax D) (nd D) i j k).

  (** lines 160-171, reached for k = 2, i.e. if kmax >= 3 *)
  Definition ep4 (vv pt : arr3) (tn0 : nat -> A) (tref : arr2) : arr2 :=
    fun i j =>
      if analysed j 2 then
        let e41 := nofZ 2 * f_om D * nsin (lat_of j 1) * ncos (lat_of j 1) * f_dz D / f_prefac D in
        let e42 := nexp (- f_dz D / f_h D) * vv i (grow j) 2%nat
                   * (pt i (grow j) 2%nat - rd2 (jd D) tref (uref_row j) 2) / (tn0 3%nat - tn0 1%nat) in
        let e43 := vv i (grow j) 1%nat * (pt i (grow j) 1%nat - rd2 (jd D) tref (uref_row j) 1) in
        let e43 := nhalf * e43 / (tn0 2%nat - tn0 1%nat) in
        e41 * (e42 + e43)
      else nzero.

  (** ** compute_lwa_only_nhn22.f90 *)

  (** lines 46-82; the accumulators are reset per point (50-51); outside the loops the f2py wrapper's
      zero-filled arrays are left alone *)
  Definition lo_astar1 (pv : arr3) (qref : arr2) : arr3 :=
    fill (fun i j k => loop (nd D) (fun jj s =>
      let q := pv i (grow jj) k - qref j k in
      if is_nhem D then (if (nzero <? q) && Nat.ltb jj j then s + q * aa jj else s)
      else (if (q <=? nzero) && Nat.leb j jj then s - q * aa jj else s))).
  Definition lo_astar2 (pv : arr3) (qref : arr2) : arr3 :=
    fill (fun i j k => loop (nd D) (fun jj s =>
      let q := pv i (grow jj) k - qref j k in
      if is_nhem D then (if (q <=? nzero) && Nat.leb j jj then s - q * aa jj else s)
      else (if (nzero <? q) && Nat.ltb jj j then s + q * aa jj else s))).

  Definition lo_weight (k : nat) : A := nexp (- (f_dz D * nfloat k 1) / f_h D).
  Definition lo_dc : A := f_dz D / f_prefac D.
  (** lines 93-94: passes k = 2..kmax-1 *)
  Definition lo_astarbaro (pv : arr3) (qref : arr2) : arr2 :=
    fun i j => loop (kmax D - 2) (fun p s =>
      s + (lo_astar1 pv qref i j (p + 1)%nat + lo_astar2 pv qref i j (p + 1)%nat) * lo_weight (p + 1) * lo_dc).
  (** lines 96-104 *)
  Definition lo_ubaro (uu : arr3) : arr2 :=
    fun i j => if Nat.leb jstart j && Nat.leb j jend
               then loop (kmax D - 2) (fun p s => s + uu i (grow j) (p + 1)%nat * lo_weight (p + 1) * lo_dc)
               else nzero.

  (** ** the python side: QGFieldBase._compute_lwa_and_barotropic_fluxes_wrapper, oopinterface.py:429-465.
      _vertical_average with lowest_layer_index=1 of a column of the 3-d result *)
  Definition column_average (height : nat -> A) (x : arr3) : arr2 :=
    fun i j => vertical_average (kmax D) height (f_dz D) (f_h D) (f_prefac D) 1 (fun k => x i j (k + 1)%nat).
  Definition py_astar_baro (height : nat -> A) (pv : arr3) (qref : arr2) : arr2 :=
    fun i j => column_average height (astar1 pv qref) i j + column_average height (astar2 pv qref) i j.
  (** uu[:, -equator_idx:, :], line 454, with equator_idx = nd of jmax rows *)
  Definition py_u_baro (height : nat -> A) (uu : arr3) : arr2 :=
    column_average height (fun i j k => uu i (j + (jmax D - nd D))%nat k).
End Flux.
Arguments fluxdims : clear implicits.
Arguments arr2 : clear implicits.
Arguments arr3 : clear implicits.

(** ** Array references of compute_flux_dirinv_nshem in northern mode *)
From Coq Require Import String.
Section FluxAccess.
  Context {A : Type}.
  Variable D : fluxdims A.
  Local Notation z := Z.of_nat.
  Local Open Scope Z_scope.

  (** a reference: array, declared extents (lines 7-20), subscripts *)
  Definition ref3 (name : string) (rows : nat) (i j k : Z) : string * list nat * list Z :=
    (name, [imax D; rows; kmax D], [i; j; k]).
  Definition ref2 (name : string) (n1 n2 : nat) (i j : Z) : string * list nat * list Z := (name, [n1; n2], [i; j]).
  Definition ref1 (name : string) (k : Z) : string * list nat * list Z := (name, [kmax D], [k]).

  Definition outputs : list string :=
    ["astar1"; "astar2"; "ncforce3d"; "ua1"; "ua2"; "ep1"; "ep2"; "ep3"]%string.

  (** body of the jj loop, lines 85-116 *)
  Definition refs_jj (i j k jj : Z) : list (string * list nat * list Z) :=
    [ref2 "qe" (imax D) (nd D) i jj; ref3 "pv" (jmax D) i (jj + z (nd D) - 1) k; ref2 "qref" (nd D) (kmax D) j k;
     ref2 "ncforce2d" (imax D) (nd D) i jj; ref3 "ncforce" (jmax D) i (jj + z (nd D) - 1) k;
     ref2 "ue" (imax D) (nd D) i jj; ref3 "uu" (jmax D) i (jj + z (nd D) - 1) k;
     ref2 "uref" (jd D) (kmax D) (j - z (jb D)) k]%string.
  (** rest of the j loop, lines 73-76 and 118-171 *)
  Definition refs_j (i j k : Z) : list (string * list nat * list Z) :=
    map (fun o => ref3 o (nd D) i j k) outputs
    ++ [ref2 "uref" (jd D) (kmax D) (j - z (jb D)) k; ref3 "uu" (jmax D) i (j + z (nd D) - 1) k;
        ref3 "vv" (jmax D) i (j + z (nd D) - 1) k; ref3 "pt" (jmax D) i (j + z (nd D) - 1) k;
        ref2 "tref" (jd D) (kmax D) (j - z (jb D)) k; ref1 "tg" (k + 1); ref1 "tg" (k - 1);
        ref3 "uu" (jmax D) i (j + z (nd D)) k; ref3 "vv" (jmax D) i (j + z (nd D)) k;
        ref2 "uref" (jd D) (kmax D) (j - z (jb D) + 1) k;
        ref3 "uu" (jmax D) i (j + z (nd D) - 2) k; ref3 "vv" (jmax D) i (j + z (nd D) - 2) k;
        ref2 "uref" (jd D) (kmax D) (j - z (jb D) - 1) k]%string
    ++ (if k =? 2 then
          [ref3 "vv" (jmax D) i (j + z (nd D) - 1) 2; ref3 "pt" (jmax D) i (j + z (nd D) - 1) 2;
           ref2 "tref" (jd D) (kmax D) (j - z (jb D)) 2; ref1 "tg" 3; ref1 "tg" 1;
           ref3 "vv" (jmax D) i (j + z (nd D) - 1) 1; ref3 "pt" (jmax D) i (j + z (nd D) - 1) 1;
           ref2 "tref" (jd D) (kmax D) (j - z (jb D)) 1; ref1 "tg" 2; ref2 "ep4" (imax D) (nd D) i j]%string
        else []).
  (** lines 173-178 *)
  Definition refs_i (i k : Z) : list (string * list nat * list Z) :=
    [ref3 "uu" (jmax D) i (z (nd D) + z (jb D) + 1) k; ref2 "uref" (jd D) (kmax D) 2 k;
     ref3 "vv" (jmax D) i (z (nd D) + z (jb D) + 1) k; ref3 "ep2" (nd D) i (z (jb D)) k;
     ref3 "uu" (jmax D) i (z (nd D) + z (jb D)) k; ref2 "uref" (jd D) (kmax D) 1 k;
     ref3 "vv" (jmax D) i (z (nd D) + z (jb D)) k; ref3 "ep3" (nd D) i (z (jb D)) k]%string.

  (** lines 70-180: k = 2..kmax-1, i = 1..imax, j = jb+1..nd-1, jj = 1..nd (the whole-array assignments
      above the loops stay in bounds by construction) *)
  Definition flux_refs : list (string * list nat * list Z) :=
    do_ 2 (kmax D - 1) (fun k => do_ 1 (imax D) (fun i =>
      do_ (jb D + 1) (nd D - 1) (fun j =>
        do_ 1 (nd D) (fun jj => refs_jj (z i) (z j) (z k) (z jj)) ++ refs_j (z i) (z j) (z k))
      ++ refs_i (z i) (z k))).
End FluxAccess.
