(** Model of /repo/src/falwa/xarrayinterface.py: the dataset interface around QGField objects.

    Simplifications: coordinate labels are numbers (a date counts as its number of ticks); every dimension has labels;
    array attributes, variable renaming and the texts of error messages are dropped; lazy arrays are not modelled.
    numpy and xarray operations are modelled by their documented meaning. *)
From Coq Require Export String.
From Verif Require Export Base.
Open Scope list_scope.
Open Scope nat_scope.

(** ** Calls that may raise *)
Inductive outcome (T : Type) : Type :=
| Ok (x : T)
| KeyErr            (* KeyError *)
| AssertErr         (* AssertionError *)
| ValueErr          (* ValueError, TypeError and other errors raised by numpy or xarray *)
| IndexErr.         (* IndexError *)
Arguments Ok {T} x.
Arguments KeyErr {T}.
Arguments AssertErr {T}.
Arguments ValueErr {T}.
Arguments IndexErr {T}.
Definition bind {T U : Type} (o : outcome T) (f : T -> outcome U) : outcome U :=
  match o with Ok x => f x | KeyErr => KeyErr | AssertErr => AssertErr | ValueErr => ValueErr | IndexErr => IndexErr end.
Notation "'do' x <- o ; k" := (bind o (fun x => k)) (at level 200, x pattern, right associativity).
Definition check (b : bool) {T : Type} (e k : outcome T) : outcome T := if b then k else e.
(** [f(x) for x in l], stopping at the first exception *)
Fixpoint traverse {T U : Type} (f : T -> outcome U) (l : list T) : outcome (list U) :=
  match l with
  | [] => Ok []
  | x :: l => do y <- f x; do ys <- traverse f l; Ok (y :: ys)
  end.

(** ** Name lookup, xarrayinterface.py:25-57 *)

(** a python dict with string keys *)
Fixpoint lookup {T : Type} (k : string) (d : list (string * T)) : option T :=
  match d with
  | [] => None
  | (k', x) :: d => if String.eqb k k' then Some x else lookup k d
  end.
Fixpoint first_in (ds : string -> bool) (names : list string) : outcome string :=
  match names with
  | [] => KeyErr
  | n :: names => if ds n then Ok n else first_in ds names
  end.
(** _get_name, xarrayinterface.py:45-57; [ds n] is "n in ds" *)
Definition get_name (ds : string -> bool) (names : list string) (user : option (list (string * string))) : outcome string :=
  match names with
  | [] => IndexErr
  | n0 :: _ =>
      match (match user with Some d => lookup n0 d | None => None end) with
      | Some n => if ds n then Ok n else KeyErr
      | None => first_in ds names
      end
  end.

(** the name lists, xarrayinterface.py:25-37 *)
Definition NAMES_PLEV := ["plev"; "lev"; "level"; "isobaricInhPa"; "pressure_level"]%string.
Definition NAMES_YLAT := ["ylat"; "lat"; "latitude"]%string.
Definition NAMES_XLON := ["xlon"; "lon"; "longitude"]%string.
Definition NAMES_TIME := ["time"; "date"; "datetime"; "valid_time"]%string.
Definition NAMES_U := ["u"; "U"]%string.
Definition NAMES_V := ["v"; "V"]%string.
Definition NAMES_T := ["t"; "T"]%string.
Definition NAMES_LWA := ["lwa_baro"]%string.
Definition NAMES_CZAF := ["convergence_zonal_advective_flux"]%string.
Definition NAMES_DEMF := ["divergence_eddy_momentum_flux"]%string.
Definition NAMES_MHF := ["meridional_heat_flux"]%string.

(** ** numpy arrays of any rank *)

(** np.prod of a shape *)
Definition size_of (sh : list nat) : nat := fold_right Nat.mul 1 sh.
(** position of an index in C order, and the index at a position *)
Fixpoint ravel (sh idx : list nat) : nat :=
  match sh, idx with
  | _ :: sh, i :: idx => i * size_of sh + ravel sh idx
  | _, _ => 0
  end.
Fixpoint unravel (sh : list nat) (p : nat) : list nat :=
  match sh with
  | [] => []
  | _ :: sh => (p / size_of sh) :: unravel sh (p mod size_of sh)
  end.
Record nd (A : Type) := ND { nd_shape : list nat; nd_at : list nat -> A }.
Arguments ND {A} _ _.
Arguments nd_shape {A} _.
Arguments nd_at {A} _ _.
(** ndarray.reshape *)
Definition reshape {A : Type} (a : nd A) (sh : list nat) : outcome (nd A) :=
  if size_of sh =? size_of (nd_shape a) then Ok (ND sh (fun idx => nd_at a (unravel (nd_shape a) (ravel sh idx)))) else ValueErr.
Definition shape_eqb (s s' : list nat) : bool := if list_eq_dec Nat.eq_dec s s' then true else false.
(** np.asarray of a list of arrays; arrays of different shapes are refused *)
Definition asarray {A : Type} (dummy : A) (l : list (nd A)) : outcome (nd A) :=
  match l with
  | [] => Ok (ND [0] (fun _ => dummy))
  | a :: _ =>
      if forallb (fun b => shape_eqb (nd_shape b) (nd_shape a)) l
      then Ok (ND (length l :: nd_shape a) (fun idx => match idx with [] => dummy | p :: idx => nd_at (nth p l a) idx end))
      else ValueErr
  end.

Section Dataset.
  Context {A : Type} {N : Num A}.

  (** ** xarray.DataArray: dimension names with their labels, values *)
  Record dataarray := DA { da_dims : list (string * list A); da_at : list nat -> A }.
  Definition da_names (a : dataarray) : list string := map fst (da_dims a).
  Definition da_shape (a : dataarray) : list nat := map (fun d => length (snd d)) (da_dims a).
  Definition da_nd (a : dataarray) : nd A := ND (da_shape a) (da_at a).

  (** DataArray.sel for one dimension and a scalar label.  A label found once removes the dimension, a label found
      several times keeps it with these entries, an absent label or dimension raises *)
  Fixpoint find_dim (d : string) (l : list (string * list A)) : option nat :=
    match l with
    | [] => None
    | (d', _) :: l => if String.eqb d d' then Some 0 else option_map S (find_dim d l)
    end.
  Definition positions (x : A) (labels : list A) : list nat :=
    filter (fun p => neqb (nth p labels nzero) x) (seq 0 (length labels)).
  Definition insert_at (k p : nat) (idx : list nat) : list nat := firstn k idx ++ p :: skipn k idx.
  Definition sel1 (d : string) (x : A) (a : dataarray) : outcome dataarray :=
    match find_dim d (da_dims a) with
    | None => KeyErr
    | Some k =>
        let labels := snd (nth k (da_dims a) (d, [])) in
        match positions x labels with
        | [] => KeyErr
        | [p] => Ok (DA (firstn k (da_dims a) ++ skipn (S k) (da_dims a)) (fun idx => da_at a (insert_at k p idx)))
        | ps => Ok (DA (firstn k (da_dims a) ++ (d, map (fun p => nth p labels nzero) ps) :: skipn (S k) (da_dims a))
                       (fun idx => da_at a (firstn k idx ++ nth (nth k idx 0) ps 0 :: skipn (S k) idx)))
        end
    end.
  (** DataArray.sel(dict) *)
  Fixpoint sel (coord : list (string * A)) (a : dataarray) : outcome dataarray :=
    match coord with
    | [] => Ok a
    | (d, x) :: coord => do b <- sel1 d x a; sel coord b
    end.

  (** ** _is_ascending, _is_descending, xarrayinterface.py:15-19 *)
  Fixpoint chain (r : A -> A -> bool) (l : list A) : bool :=
    match l with
    | x :: (y :: _) as l' => r x y && chain r l'
    | _ => true
    end.
  Definition is_ascending (l : list A) : bool := chain (fun x y => nltb nzero (nsub y x)) l.
  Definition is_descending (l : list A) : bool := chain (fun x y => nltb (nsub y x) nzero) l.

  (** ** QGDataset *)

  (** The QGField class handed over: [F] its objects, [mk xlon ylat plev u v t] its constructor with the extra arguments
      already given; [attr f name] the coordinate array f.name.  What the objects compute is modelled elsewhere. *)
  Context {F : Type} (mk : list A -> list A -> list A -> nd A -> nd A -> nd A -> outcome F) (attr : F -> string -> list A).

  (** the fields and the non-core coordinates (metadata.other_coords) *)
  Record qgds := QGDS { q_fields : list F; q_other : list (string * list A) }.

  (** np.flip of a (level, latitude, longitude) field along the axes -2 and -3, xarrayinterface.py:368-391 *)
  Definition flip_field (fy fp : bool) (a : nd A) : nd A :=
    match nd_shape a with
    | [np; ny; nx] =>
        ND [np; ny; nx] (fun idx => match idx with
          | [k; j; i] => nd_at a [if fp then np - 1 - k else k; if fy then ny - 1 - j else j; i]
          | _ => nd_at a idx end)
    | _ => a
    end.
  (** iterating over an array: its sub-arrays along the first axis *)
  Definition row {B : Type} (a : nd B) (p : nat) : nd B := ND (tl (nd_shape a)) (fun idx => nd_at a (p :: idx)).

  (** QGDataset.__init__ from the extracted arrays on, xarrayinterface.py:341-402.
      xr.merge with join="exact" refuses different labels of a shared dimension. *)
  Definition labels_eqb (l l' : list A) : bool :=
    (length l =? length l') && forallb (fun p => neqb (nth p l nzero) (nth p l' nzero)) (seq 0 (length l)).
  Definition same_labels (a b : dataarray) : bool :=
    forallb (fun d => match lookup (fst d) (da_dims b) with Some l => labels_eqb (snd d) l | None => true end) (da_dims a).
  Definition names_eqb (l l' : list string) : bool := if list_eq_dec string_dec l l' then true else false.
  Definition dim_from_end (a : dataarray) (k : nat) : option string := nth_error (rev (da_names a)) (k - 1).
  Definition opt_eqb (o : option string) (s : string) : bool := match o with Some s' => String.eqb s' s | None => false end.
  Definition make_dataset (user : list (string * string)) (u v t : dataarray) : outcome qgds :=
    check (same_labels u v && same_labels u t && same_labels v t) ValueErr
    (let coords := fun n => existsb (String.eqb n) (da_names u ++ da_names v ++ da_names t) in
    do plev_name <- get_name coords NAMES_PLEV (Some user);
    do ylat_name <- get_name coords NAMES_YLAT (Some user);
    do xlon_name <- get_name coords NAMES_XLON (Some user);
    check (opt_eqb (dim_from_end u 3) plev_name && opt_eqb (dim_from_end u 2) ylat_name && opt_eqb (dim_from_end u 1) xlon_name
           && names_eqb (da_names u) (da_names v) && names_eqb (da_names u) (da_names t)) AssertErr
    (let n := length (da_dims u) - 3 in
    let other := firstn n (da_dims u) in
    let plev0 := snd (nth n (da_dims u) (EmptyString, [])) in
    let ylat0 := snd (nth (n + 1) (da_dims u) (EmptyString, [])) in
    let xlon := snd (nth (n + 2) (da_dims u) (EmptyString, [])) in
    let sh := size_of (map (fun d => length (snd d)) other) :: skipn n (da_shape u) in
    do u2 <- reshape (da_nd u) sh;
    do v2 <- reshape (da_nd v) sh;
    do t2 <- reshape (da_nd t) sh;
    let fy := negb (is_ascending ylat0) in
    let fp := negb (is_descending plev0) in
    let ylat := if fy then rev ylat0 else ylat0 in
    let plev := if fp then rev plev0 else plev0 in
    do fs <- traverse (fun p => mk xlon ylat plev (flip_field fy fp (row u2 p)) (flip_field fy fp (row v2 p)) (flip_field fy fp (row t2 p)))
                      (seq 0 (hd 0 sh));
    check (negb (length fs =? 0)) AssertErr (Ok (QGDS fs other)))).

  (** the choice of the three arrays from the constructor arguments, xarrayinterface.py:313-340 *)
  Inductive source := ADataset (vars : list (string * dataarray)) | ADataArray (a : dataarray).
  Definition get_var (ds : list (string * dataarray)) (names : list string) (user : list (string * string)) : outcome dataarray :=
    do n <- get_name (fun n => match lookup n ds with Some _ => true | None => false end) names (Some user);
    match lookup n ds with Some a => Ok a | None => KeyErr end.
  Definition extract (main : list (string * dataarray)) (s : option source) (names : list string) (user : list (string * string)) : outcome dataarray :=
    match s with
    | None => get_var main names user
    | Some (ADataset ds) => get_var ds names user
    | Some (ADataArray a) => Ok a
    end.
  (** with a DataArray for u, a Dataset given for v or t is passed on unchanged: renaming it raises *)
  Definition given (s : option source) : outcome dataarray :=
    match s with
    | None => AssertErr
    | Some (ADataset _) => ValueErr
    | Some (ADataArray a) => Ok a
    end.
  Definition new_dataset (user : option (list (string * string))) (u : source) (v t : option source) : outcome qgds :=
    let user := match user with Some d => d | None => [] end in
    match u with
    | ADataset ds =>
        do av <- extract ds v NAMES_V user;
        do at_ <- extract ds t NAMES_T user;
        do au <- get_var ds NAMES_U user;
        make_dataset user au av at_
    | ADataArray au => do av <- given v; do at_ <- given t; make_dataset user au av at_
    end.

  (** ** _MetadataServiceProvider, xarrayinterface.py:60-199 *)
  Definition other_shape (q : qgds) : list nat := map (fun d => length (snd d)) (q_other q).
  Definition other_size (q : qgds) : nat := size_of (other_shape q).
  (** restore_other, 114-117 *)
  Definition restore_other (q : qgds) (a : nd A) : outcome (nd A) :=
    check (match nd_shape a with n :: _ => n =? other_size q | [] => false end) AssertErr
      (reshape a (other_shape q ++ tl (nd_shape a))).
  (** iter_other, 121-125: itertools.product of the labels, the last dimension running fastest *)
  Fixpoint product (ls : list (list A)) : list (list A) :=
    match ls with
    | [] => [[]]
    | l :: ls => flat_map (fun x => map (cons x) (product ls)) l
    end.
  Definition iter_other (q : qgds) : list (list (string * A)) :=
    map (combine (map fst (q_other q))) (product (map snd (q_other q))).

  (** the registry, xarrayinterface.py:202-238: core dimensions and the attributes of the field that label them *)
  Definition hyx : list string := ["height"; "ylat"; "xlon"]%string.
  Definition registry : list (string * (list string * list string)) :=
    let interp := (hyx, hyx) in
    let prof := (["height"], ["height"])%string in
    let ref := (["height"; "ylat"], ["height"; "ylat_ref_states"])%string in
    let baro := (["ylat"; "xlon"], ["ylat_ref_states"; "xlon"])%string in
    let lay := (hyx, ["height"; "ylat_ref_states"; "xlon"]%string) in
    [("qgpv", interp); ("interpolated_u", interp); ("interpolated_v", interp); ("interpolated_theta", interp);
     ("static_stability", prof); ("static_stability_n", prof); ("static_stability_s", prof);
     ("qref", ref); ("uref", ref); ("ptref", ref);
     ("u_baro", baro); ("lwa_baro", baro); ("ncforce_baro", baro); ("adv_flux_f1", baro); ("adv_flux_f2", baro); ("adv_flux_f3", baro);
     ("convergence_zonal_advective_flux", baro); ("divergence_eddy_momentum_flux", baro); ("meridional_heat_flux", baro);
     ("flux_vector_lambda_baro", baro); ("flux_vector_phi_baro", baro);
     ("lwa", lay); ("ncforce", lay); ("ua1", lay); ("ua2", lay); ("ep1", lay); ("ep2", lay); ("ep3", lay); ("stretch_term", lay)]%string.
  (** as_dataarray, 139-151, with shape, dims and coords (101-107, 127-137); the template is the first field *)
  Definition core_coords (q : qgds) (var : string) : outcome (list (string * list A)) :=
    match lookup var registry, q_fields q with
    | None, _ => KeyErr
    | _, [] => IndexErr
    | Some (core, names), f :: _ => Ok (combine core (map (attr f) names))
    end.
  Definition as_dataarray (q : qgds) (a : nd A) (var : string) : outcome dataarray :=
    do core <- core_coords q var;
    let dims := q_other q ++ core in
    let sh := map (fun d => length (snd d)) dims in
    do b <- (if shape_eqb (nd_shape a) sh then Ok a else restore_other q a);
    check (shape_eqb (nd_shape b) sh) AssertErr (Ok (DA dims (nd_at b))).
  (** _DataArrayCollector.__get__, 253-255; [get] is the property of the field *)
  Definition collect (get : F -> outcome (nd A)) (q : qgds) (var : string) : outcome dataarray :=
    do l <- traverse get (q_fields q);
    do a <- asarray nzero l;
    as_dataarray q a var.

  (** static_stability, 478-497.  A property value is one profile or a pair of profiles *)
  Inductive stability := One (s : nat -> A) | Pair (s0 s1 : nat -> A).
  Definition static_stability (kmax : nat) (get : F -> stability) (q : qgds) : outcome (list (string * dataarray)) :=
    match map get (q_fields q) with
    | [] => IndexErr
    | (One _ :: _) as l =>
        if forallb (fun x => match x with One _ => true | _ => false end) l then
        do a <- asarray nzero (map (fun x => ND [kmax] (fun idx => match x with One s => s (hd 0 idx) | _ => nzero end)) l);
        do d <- as_dataarray q a "static_stability";
        Ok [("static_stability"%string, d)]
        else ValueErr
    | (Pair _ _ :: _) as l =>
        if forallb (fun x => match x with Pair _ _ => true | _ => false end) l then
        do a0 <- asarray nzero (map (fun x => ND [kmax] (fun idx => match x with Pair s _ => s (hd 0 idx) | _ => nzero end)) l);
        do a1 <- asarray nzero (map (fun x => ND [kmax] (fun idx => match x with Pair _ s => s (hd 0 idx) | _ => nzero end)) l);
        do n <- as_dataarray q a0 "static_stability_n";
        do s <- as_dataarray q a1 "static_stability_s";
        Ok [("static_stability_n"%string, n); ("static_stability_s"%string, s)]
        else ValueErr
    end.

  (** for field in fields: field.method(), 447-448 and 515-516 *)
  Definition call_all (method : F -> outcome F) (q : qgds) : outcome qgds :=
    do fs <- traverse method (q_fields q); Ok (QGDS fs (q_other q)).
  (** for field, coord in zip(fields, iter_other()): field.method(ncforce.sel(coord)), 558-560, 617-619.
      zip stops at the shorter list; the remaining fields are left as they are *)
  Definition call_with (method : F -> option dataarray -> outcome F) (nc : option dataarray) (q : qgds) : outcome qgds :=
    do fs <- traverse (fun fc => match nc with
                        | None => method (fst fc) None
                        | Some nc => do s <- sel (snd fc) nc; method (fst fc) (Some s)
                        end) (combine (q_fields q) (iter_other q));
    Ok (QGDS (fs ++ skipn (length fs) (q_fields q)) (q_other q)).
  (** compute_ncforce_from_heating_rate, 641-661; [heat] is the method of the field *)
  Definition compute_ncforce (heat : F -> dataarray -> outcome (nd A)) (q : qgds) (rate : dataarray) : outcome dataarray :=
    do l <- traverse (fun fc => do s <- sel (snd fc) rate; heat (fst fc) s) (combine (q_fields q) (iter_other q));
    do a <- asarray nzero l;
    as_dataarray q a "ncforce".

  (** ** integrate_budget, xarrayinterface.py:664-735 *)

  (** DataArray.integrate along time: the trapezoidal rule on x_0..x_{n-1} *)
  Definition trapezoid (n : nat) (x f : nat -> A) : A :=
    nsum (n - 1) (fun i => nmul (ndiv (nadd (f i) (f (i + 1))) (nofZ 2)) (nsub (x (i + 1)) (x i))).
  (** the five terms and the attribute integration_seconds at one grid point; [ticks] are the dates in the unit of the
      time coordinate, [rate] ticks making a second; lwa.sel picks the entry with the date of the first/last time step.
      numpy reads the bare np.timedelta64(1000000000) of line 733 in the unit of the other operand *)
  Record budget := { delta_lwa : A; int_czaf : A; int_demf : A; int_mhf : A; residual : A; seconds : A }.
  Definition at_date (n : nat) (ticks : nat -> Z) (f : nat -> A) (d : Z) : outcome A :=
    match filter (fun i => Z.eqb (ticks i) d) (seq 0 n) with
    | [p] => Ok (f p)
    | [] => KeyErr
    | _ => ValueErr
    end.
  Definition integrate_budget (n : nat) (ticks : nat -> Z) (rate : Z) (lwa czaf demf mhf : nat -> A) : outcome budget :=
    match n with
    | 0 => IndexErr
    | S m =>
        do last <- at_date n ticks lwa (ticks m);
        do first <- at_date n ticks lwa (ticks 0);
        let x i := ndiv (nofZ (ticks i)) (nofZ rate) in
        let d := nsub last first in
        let c := trapezoid n x czaf in let e := trapezoid n x demf in let h := trapezoid n x mhf in
        Ok {| delta_lwa := d; int_czaf := c; int_demf := e; int_mhf := h;
              residual := nsub (nsub (nsub d c) e) h;
              seconds := ndiv (nofZ (ticks m - ticks 0)) (nofZ 1000000000) |}
    end.

  (** ** hemisphere_to_globe, xarrayinterface.py:738-791 *)

  (** a dataset along latitude: labels and named variables, by row; [X] is what a variable holds on one row, with its negative.
      Simplification: every variable has the latitude dimension *)
  Context {X : Type} (negate : X -> X).
  Record latset := LS { ls_lat : list A; ls_vars : list (string * (nat -> X)) }.
  (** _is_equator, 21-22 *)
  Definition is_equator (x : A) : bool := nltb (nabs x) (ndiv none (nofZ 10000)).
  (** Dataset.reindex to labels taken from the dataset; a repeated label is refused *)
  Definition reindex (s : latset) (target : list A) : outcome (list nat) :=
    traverse (fun x => match positions x (ls_lat s) with [p] => Ok p | _ => ValueErr end) target.
  (** slice(None, 0, -1) and slice(-2, None, -1) *)
  Definition flipped_noeq (eq0 : bool) (l : list A) : list A := if eq0 then rev (tl l) else rev (removelast l).
  (** xr.concat along latitude *)
  Definition concat (nx : nat) (x y : nat -> X) (j : nat) : X := if j <? nx then x j else y (j - nx).
  (** [coord_name]: the name of the latitude coordinate in the dataset *)
  Definition hemisphere_to_globe (coord_name : string) (user : option (list (string * string))) (s : latset) : outcome latset :=
    let has n := String.eqb n coord_name || existsb (fun v => String.eqb n (fst v)) (ls_vars s) in
    do yn <- get_name has NAMES_YLAT user;
    check (String.eqb yn coord_name) ValueErr
    (match ls_lat s with
    | [] => IndexErr
    | y0 :: _ =>
        let eq0 := is_equator y0 in
        check (eq0 || is_equator (last (ls_lat s) nzero)) AssertErr
        (do rows <- reindex s (flipped_noeq eq0 (ls_lat s));
        let lat' := map nopp (map (fun p => nth p (ls_lat s) nzero) rows) in
        let v := match get_name has NAMES_V user with Ok n => Some n | _ => None end in
        let mirrored nv := let x j := snd nv (nth j rows 0) in
                           match v with Some n => if String.eqb (fst nv) n then fun j => negate (x j) else x | None => x end in
        let n' := length rows in let n := length (ls_lat s) in
        Ok (LS (if eq0 then lat' ++ ls_lat s else ls_lat s ++ lat')
               (map (fun nv => (fst nv, if eq0 then concat n' (mirrored nv) (snd nv) else concat n (snd nv) (mirrored nv))) (ls_vars s))))
    end).
End Dataset.
Arguments dataarray : clear implicits.
Arguments qgds : clear implicits.
Arguments budget : clear implicits.
Arguments latset : clear implicits.
Arguments stability : clear implicits.
Arguments source : clear implicits.

(** QGField.static_stability, oopinterface.py:1682-1687 (NH18) and 1889-1897 (NHN22) *)
Definition nh18_stability {A : Type} (stat : nat -> A) : stability A := One stat.
Definition nhn22_stability {A : Type} (nh_only : bool) (stat_s stat_n : nat -> A) : stability A :=
  if nh_only then One stat_n else Pair stat_s stat_n.
