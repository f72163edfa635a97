(** Model of /repo/src/falwa/wrapper.py.  Arrays are functions with the sizes passed explicitly, as in Basis.v;
    nlat, nlon are vort.shape.  nlat_s is a natural number or None (negative nlat_s is not modelled). *)
From Coq Require Import String.
From Verif Require Export Basis.

(** what a call does: returns, or raises *)
Inductive result (T : Type) : Type := Returns (x : T) | RaisesValueError | RaisesTypeError.
Arguments Returns {T}. Arguments RaisesValueError {T}. Arguments RaisesTypeError {T}.

Section Wrapper.
  Context {A : Type} {N : Num A}.
  Local Open Scope num_scope.

  (** [if x is None: x = default], wrapper.py:49-50, 120-124 and the same lines of the other functions *)
  Definition or_default (x : option nat) (d : nat) : nat := match x with Some n => n | None => d end.

  (** x[-s:] of n rows, 0 < s <= n *)
  Definition last_rows {B : Type} (n s : nat) (x : nat -> B) : nat -> B := fun r => x (n - s + r)%nat.
  (** x[::-1] of n rows *)
  Definition reversed {B : Type} (n : nat) (x : nat -> B) : nat -> B := fun r => x (n - 1 - r)%nat.
  (** x[:s] = new; x[-s:] = new for n rows *)
  Definition set_first {B : Type} (s : nat) (x new : nat -> B) : nat -> B := fun r => if Nat.ltb r s then new r else x r.
  Definition set_last {B : Type} (n s : nat) (x new : nat -> B) : nat -> B :=
    fun r => if Nat.leb (n - s) r then new (r - (n - s))%nat else x r.
  Definition neg1 (x : nat -> A) : nat -> A := fun r => - x r.
  Definition neg2 (x : nat -> nat -> A) : nat -> nat -> A := fun r i => - x r i.
  Definition zeros1 : nat -> A := fun _ => nzero.
  Definition zeros2 : nat -> nat -> A := fun _ _ => nzero.

  (** the array of a call of basis.lwa without return_partitioned_lwa *)
  Definition field_of (o : lwact A) : nat -> nat -> A := match o with Single a => a | Partitioned a => a 0%nat end.
  Definition sigma_of (o : option (nat -> nat -> A)) : nat -> nat -> A := match o with Some a => a | None => zeros2 end.

  (** slices of s rows: with s = 0 the minimum of an empty array is taken (basis.py:40), with s > nlat the masks
      of basis.lwa have the wrong number of rows (basis.py:185-194): both raise ValueError; np.interp raises
      with no contour (n_points = 0).  (IndexError instead for nlat = 1 and s > 2: not distinguished.) *)
  Definition sliced {T : Type} (nlat nlon s n : nat) (k : result T) : result T :=
    if (Nat.ltb 0 s && Nat.leb s nlat && Nat.ltb 0 nlon && Nat.ltb 0 n)%bool then k else RaisesValueError.

  (** wrapper.py:11-55 *)
  Definition barotropic_eqlat_lwa (nlat nlon : nat) (ylat : nat -> A) (vort area : nat -> nat -> A) (dmu : nat -> A)
    (n_points : option nat) (planet_radius : A) (partitioned : bool) : result ((nat -> A) * lwact A) :=
    let n := or_default n_points nlat in
    sliced nlat nlon nlat n
      (let '(qref, _) := eqvlat_fawa nlat nlon ylat vort area n planet_radius true in
       let '(lwa_result, _) := lwa nlat vort qref dmu partitioned None in
       Returns (qref, lwa_result)).

  (** wrapper.py:58-86: returns the pair of basis.lwa *)
  Definition barotropic_input_qref_to_compute_lwa (nlat nlon : nat) (qref : nat -> A) (vort : nat -> nat -> A) (dmu : nat -> A)
    : result (lwact A * option (nat -> nat -> A)) := Returns (lwa nlat vort qref dmu false None).

  (** basis.eqvlat_fawa on the first s rows, as called in 126-127, 238-239, ... (fawa is computed and dropped) *)
  Definition profile (s nlon : nat) (ylat : nat -> A) (vort area : nat -> nat -> A) (n : nat) (planet_radius : A) : nat -> A :=
    fst (eqvlat_fawa s nlon ylat vort area n planet_radius true).

  (** wrapper.py:89-135 *)
  Definition eqvlat_hemispheric (nlat nlon : nat) (ylat : nat -> A) (vort area : nat -> nat -> A)
    (nlat_s n_points : option nat) (planet_radius : A) : result (nat -> A) :=
    let s := or_default nlat_s (nlat / 2) in
    let n := or_default n_points s in
    sliced nlat nlon s n
      (let qref0 := zeros1 in
       let qref1 := profile s nlon ylat vort area n planet_radius in
       let qrefA := set_first s qref0 qref1 in
       let vort2 := neg2 (reversed nlat vort) in
       let qref2 := profile s nlon ylat vort2 area n planet_radius in
       Returns (set_last nlat s qrefA (reversed s qref2))).

  (** signature of basis.eqvlat_fawa, basis.py:11-13; a call with any other keyword raises TypeError *)
  Definition eqvlat_fawa_parameters : list string := ["ylat"; "vort"; "area"; "n_points"; "planet_radius"; "output_fawa"]%string.
  Definition accepts (keywords : list string) : bool :=
    forallb (fun k => existsb (String.eqb k) eqvlat_fawa_parameters) keywords.

  (** wrapper.py:138-198: vgrad is always passed on to eqvlat_fawa (180-183, 188-191).  If the call were accepted
      brac1 would have s-1 entries and line 195 would raise (for s <> 2) *)
  Definition eqvlat_bracket_hemispheric (nlat nlon : nat) (ylat : nat -> A) (vort area : nat -> nat -> A)
    (nlat_s n_points : option nat) (planet_radius : A) (vgrad : option (nat -> nat -> A))
    : result ((nat -> A) * (nat -> A)) :=
    if accepts ["planet_radius"; "vgrad"]%string then RaisesValueError else RaisesTypeError.

  (** wrapper.py:201-268 *)
  Definition qgpv_eqlat_lwa (nlat nlon : nat) (ylat : nat -> A) (vort area : nat -> nat -> A) (dmu : nat -> A)
    (nlat_s n_points : option nat) (planet_radius : A) : result ((nat -> A) * (nat -> nat -> A)) :=
    let s := or_default nlat_s (nlat / 2) in
    let n := or_default n_points s in
    sliced nlat nlon s n
      (let qref1 := profile s nlon ylat vort area n planet_radius in
       let qrefA := set_first s zeros1 qref1 in
       let lwaA := set_first s zeros2 (field_of (fst (lwa s vort qref1 dmu false None))) in
       let vort2 := neg2 (reversed nlat vort) in
       let qref2 := profile s nlon ylat vort2 area n planet_radius in
       let qrefB := set_last nlat s qrefA (neg1 (reversed s qref2)) in
       let lwaB := set_last nlat s lwaA
         (field_of (fst (lwa s (last_rows nlat s vort) (last_rows nlat s qrefB) (last_rows nlat s dmu) false None))) in
       Returns (qrefB, lwaB)).

  (** wrapper.py:271-341 *)
  Definition qgpv_eqlat_lwa_ncforce (nlat nlon : nat) (ylat : nat -> A) (vort ncforce area : nat -> nat -> A) (dmu : nat -> A)
    (nlat_s n_points : option nat) (planet_radius : A) : result ((nat -> A) * (nat -> nat -> A) * (nat -> nat -> A)) :=
    let s := or_default nlat_s (nlat / 2) in
    let n := or_default n_points s in
    sliced nlat nlon s n
      (let qref1 := profile s nlon ylat vort area n planet_radius in
       let qrefA := set_first s zeros1 qref1 in
       let south := lwa s vort qref1 dmu false (Some ncforce) in
       let lwaA := set_first s zeros2 (field_of (fst south)) in
       let sigA := set_first s zeros2 (sigma_of (snd south)) in
       let vort2 := neg2 (reversed nlat vort) in
       let qref2 := profile s nlon ylat vort2 area n planet_radius in
       let qrefB := set_last nlat s qrefA (neg1 (reversed s qref2)) in
       let north := lwa s (last_rows nlat s vort) (last_rows nlat s qrefB) (last_rows nlat s dmu) false (Some (last_rows nlat s ncforce)) in
       Returns (qrefB, set_last nlat s lwaA (field_of (fst north)), set_last nlat s sigA (sigma_of (snd north)))).

  (** wrapper.py:344-480; the entries of the returned dictionary: qref, lwa_result, brac_result, capsigma.
      With vgrad the first call of eqvlat_fawa (409) raises: the rest is not reached *)
  Record options_result := OptionsResult { o_qref : nat -> A; o_lwa : nat -> nat -> A; o_brac : option (nat -> A); o_capsigma : option (nat -> nat -> A) }.
  Definition qgpv_eqlat_lwa_options (nlat nlon : nat) (ylat : nat -> A) (vort area : nat -> nat -> A) (dmu : nat -> A)
    (nlat_s n_points : option nat) (vgrad ncforce : option (nat -> nat -> A)) (planet_radius : A) : result options_result :=
    match vgrad with
    | Some _ => if accepts ["planet_radius"; "vgrad"]%string then RaisesValueError else RaisesTypeError
    | None =>
        let s := or_default nlat_s (nlat / 2) in
        let n := or_default n_points s in
        sliced nlat nlon s n
          (let qref1 := profile s nlon ylat vort area n planet_radius in
           let qrefA := set_first s zeros1 qref1 in
           let south := lwa s vort qref1 dmu false ncforce in
           let lwaA := set_first s zeros2 (field_of (fst south)) in
           let sigA := set_first s zeros2 (sigma_of (snd south)) in
           let vort2 := neg2 (reversed nlat vort) in
           let qref2 := profile s nlon ylat vort2 area n planet_radius in
           let qrefB := set_last nlat s qrefA (neg1 (reversed s qref2)) in
           let north := lwa s (last_rows nlat s vort) (last_rows nlat s qrefB) (last_rows nlat s dmu) false
                          (match ncforce with Some f => Some (last_rows nlat s f) | None => None end) in
           let lwaB := set_last nlat s lwaA (field_of (fst north)) in
           Returns (OptionsResult qrefB lwaB None
             (match ncforce with Some _ => Some (set_last nlat s sigA (sigma_of (snd north))) | None => None end)))
    end.

  (** wrapper.py:483-527 *)
  Definition qgpv_input_qref_to_compute_lwa (nlat nlon : nat) (qref : nat -> A) (vort : nat -> nat -> A) (dmu : nat -> A)
    (nlat_s : option nat) : result (nat -> nat -> A) :=
    let s := or_default nlat_s (nlat / 2) in
    sliced nlat 1 s 1
      (let lwaA := set_first s zeros2 (field_of (fst (lwa s vort qref dmu false None))) in
       Returns (set_last nlat s lwaA
         (field_of (fst (lwa s (last_rows nlat s vort) (last_rows nlat s qref) (last_rows nlat s dmu) false None))))).

  (** wrapper.py:530-574 *)
  Definition theta_lwa (nlat nlon : nat) (ylat : nat -> A) (theta area : nat -> nat -> A) (dmu : nat -> A)
    (nlat_s n_points : option nat) (planet_radius : A) : result ((nat -> A) * (nat -> nat -> A)) :=
    let s := or_default nlat_s (nlat / 2) in
    let n := or_default n_points s in
    sliced nlat nlon s n
      (let qrefA := set_first s zeros1 (profile s nlon ylat theta area n planet_radius) in
       let lwaA := set_first s zeros2 (field_of (fst (lwa s theta qrefA dmu false None))) in
       let theta2 := reversed nlat theta in
       let qref2 := profile s nlon ylat theta2 area n planet_radius in
       let qrefB := set_last nlat s qrefA (reversed s qref2) in
       let lwaB := set_last nlat s lwaA
         (field_of (fst (lwa s (last_rows nlat s theta) (last_rows nlat s qrefB) (last_rows nlat s dmu) false None))) in
       Returns (qrefB, lwaB)).
End Wrapper.
