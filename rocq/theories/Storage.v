(** Model of /repo/src/falwa/data_storage.py.

    A stored array is the list of its slabs along the latitude axis: an array of shape
    (pre..., nlat, post...) is a list of nlat [row]s, one for each latitude index.  What is inside a
    slab is abstract, because every slice in the file takes the full range of the other axes.
    Simplification: value and target are assumed to agree on the axes other than latitude, so numpy
    broadcasting is modelled along latitude only. *)
From Coq Require Export String.
From Verif Require Export Base.
Open Scope string_scope.

Section Storage.
  Context {row : Type}.

  Inductive hemi := NHem | SHem.
  Inductive outcome (T : Type) := Ok (x : T) | AttributeError | InvalidCallOfSHemVariables | BroadcastError.
  Arguments Ok {T}. Arguments AttributeError {T}. Arguments InvalidCallOfSHemVariables {T}. Arguments BroadcastError {T}.

  (** a storage object: flag (data_storage.py:81), self.nlat (165, 198, 285) and the instance attributes
      holding arrays *)
  Record storage := { st_nh_only : bool; st_nlat : nat; st_attrs : list (string * list row) }.

  Fixpoint lookup (a : string) (l : list (string * list row)) : option (list row) :=
    match l with
    | [] => None
    | (b, v) :: l' => if String.eqb a b then Some v else lookup a l'
    end.
  (** in-place change of the array bound to [a] *)
  Fixpoint update (a : string) (v : list row) (l : list (string * list row)) : list (string * list row) :=
    match l with
    | [] => []
    | (b, w) :: l' => if String.eqb a b then (b, v) :: l' else (b, w) :: update a v l'
    end.
  Definition getattr (st : storage) (a : string) : option (list row) := lookup a (st_attrs st).
  Definition putattr (st : storage) (a : string) (v : list row) : storage :=
    {| st_nh_only := st_nh_only st; st_nlat := st_nlat st; st_attrs := update a v (st_attrs st) |}.

  (** numpy x[-m:]; with m = 0 this is x[0:], the whole array *)
  Definition slice_last (m : nat) (l : list row) : list row :=
    match m with O => l | _ => skipn (List.length l - m) l end.
  (** first index of x[-m:] *)
  Definition last_from (m : nat) (l : list row) : nat :=
    match m with O => O | _ => (List.length l - m)%nat end.

  (** numpy assignment of [v] to a slice with [n] rows: equal lengths, or one row repeated *)
  Definition broadcast (v : list row) (n : nat) : outcome (list row) :=
    if Nat.eqb (List.length v) n then Ok v
    else match v with [x] => Ok (repeat x n) | _ => BroadcastError end.

  (** NHemProperty.__get__, data_storage.py:34-40 *)
  Definition nhem_get (st : storage) (attr : string) : outcome (list row) :=
    match getattr st attr with
    | None => AttributeError
    | Some arr => Ok (if st_nh_only st then arr else slice_last (st_nlat st / 2 + 1) arr)
    end.

  (** NHemProperty.__set__, data_storage.py:42-45 *)
  Definition nhem_set (st : storage) (attr : string) (value : list row) : outcome storage :=
    let jdim := List.length value in
    match getattr st attr with
    | None => AttributeError
    | Some arr =>
      let start := last_from jdim arr in
      match broadcast value (List.length arr - start) with
      | Ok v => Ok (putattr st attr (firstn start arr ++ v))
      | _ => BroadcastError
      end
    end.

  (** SHemProperty.__get__, data_storage.py:50-54 *)
  Definition shem_get (st : storage) (attr : string) : outcome (list row) :=
    if st_nh_only st then InvalidCallOfSHemVariables
    else match getattr st attr with
         | None => AttributeError
         | Some arr => Ok (firstn (st_nlat st / 2 + 1) arr)
         end.

  (** SHemProperty.__set__, data_storage.py:56-62 *)
  Definition shem_set (st : storage) (attr : string) (value : list row) : outcome storage :=
    let jdim := List.length value in
    if st_nh_only st then InvalidCallOfSHemVariables
    else match getattr st attr with
         | None => AttributeError
         | Some arr =>
           let stop := Nat.min jdim (List.length arr) in
           match broadcast (rev value) stop with
           | Ok v => Ok (putattr st attr (v ++ skipn stop arr))
           | _ => BroadcastError
           end
         end.

  (** a class declares properties: name -> (hemisphere, attribute) *)
  Definition decl := list (string * (hemi * string)).
  Fixpoint find_prop (p : string) (d : decl) : option (hemi * string) :=
    match d with
    | [] => None
    | (q, x) :: d' => if String.eqb p q then Some x else find_prop p d'
    end.

  (** reading or assigning obj.name; the descriptor wins over instance attributes.  Assigning a name that
      is neither a property nor an array attribute creates a new instance attribute (python semantics). *)
  Inductive sop := Get (name : string) | Set_ (name : string) (value : list row).
  Definition sget (d : decl) (st : storage) (name : string) : outcome (list row) :=
    match find_prop name d with
    | Some (NHem, a) => nhem_get st a
    | Some (SHem, a) => shem_get st a
    | None => match getattr st name with None => AttributeError | Some v => Ok v end
    end.
  Definition bind (st : storage) (a : string) (v : list row) : storage :=
    {| st_nh_only := st_nh_only st; st_nlat := st_nlat st; st_attrs := (a, v) :: st_attrs st |}.
  Definition sset (d : decl) (st : storage) (name : string) (value : list row) : outcome storage :=
    match find_prop name d with
    | Some (NHem, a) => nhem_set st a value
    | Some (SHem, a) => shem_set st a value
    | None => Ok (bind st name value)
    end.
  (** one operation: new state and what the caller observes; a failed assignment changes nothing because
      numpy checks shapes before copying *)
  Definition sstep (d : decl) (st : storage) (o : sop) : storage * outcome (list row) :=
    match o with
    | Get n => (st, sget d st n)
    | Set_ n v => match sset d st n v with
                  | Ok st' => (st', Ok [])
                  | AttributeError => (st, AttributeError)
                  | InvalidCallOfSHemVariables => (st, InvalidCallOfSHemVariables)
                  | BroadcastError => (st, BroadcastError)
                  end
    end.
  Fixpoint srun (d : decl) (st : storage) (l : list sop) : storage * list (outcome (list row)) :=
    match l with
    | [] => (st, [])
    | o :: l' => let (st1, x) := sstep d st o in let (st2, xs) := srun d st1 l' in (st2, x :: xs)
    end.

  (** the pair "x_nhem"/"x_shem" declared for attribute [attr] *)
  Definition pair_of (name attr : string) : decl :=
    [ (name ++ "_nhem", (NHem, attr)); (name ++ "_shem", (SHem, attr)) ]%string.
  Definition pairs (l : list string) : decl := flat_map (fun n => pair_of n n) l.

  (** __init__: every listed attribute is np.zeros with [rows] latitude rows *)
  Definition zeros (zero_row : row) (nh_only : bool) (rows : nat) (attrs : list string) : storage :=
    {| st_nh_only := nh_only; st_nlat := rows; st_attrs := map (fun a => (a, repeat zero_row rows)) attrs |}.
End Storage.
Arguments outcome : clear implicits.
Arguments Ok {T}. Arguments AttributeError {T}. Arguments InvalidCallOfSHemVariables {T}. Arguments BroadcastError {T}.
Arguments storage : clear implicits.
Arguments sop : clear implicits.

(** ReferenceStatesStorage, data_storage.py:148-185 *)
Definition reference_attrs : list string := ["qref"; "uref"; "ptref"].
Definition reference_decl : decl := pairs ["qref"; "uref"; "ptref"].

(** LayerwiseFluxTermsStorage, data_storage.py:188-241 *)
Definition layerwise_attrs : list string :=
  ["lwa"; "astar1"; "astar2"; "ua1"; "ua2"; "ep1"; "ep2"; "ep3"; "stretch_term"; "ncforce"].
Definition layerwise_decl : decl :=
  pairs ["lwa"; "astar1"; "astar2"; "ua1"; "ua2"; "ep1"; "ep2"; "ep3"; "ep4"; "stretch_term"; "ncforce"].

(** BarotropicFluxTermsStorage, data_storage.py:275-329 *)
Definition barotropic_attrs : list string :=
  ["ua1baro"; "ua2baro"; "ep1baro"; "ep2baro"; "ep3baro"; "ep4"; "ncforce_baro"; "u_baro"; "lwa_baro";
   "astar1_baro"; "astar2_baro"].
Definition barotropic_decl : decl :=
  pairs ["ua1baro"; "ua2baro"; "ep1baro"; "ep2baro"; "ep3baro"; "ep4"; "ncforce_baro"; "u_baro"; "lwa_baro";
         "astar1_baro"; "astar2_baro"].

(** OutputBarotropicFluxTermsStorage, data_storage.py:244-272: arrays only, no hemispheric properties *)
Definition output_attrs : list string :=
  ["adv_flux_f1"; "adv_flux_f2"; "adv_flux_f3"; "zonal_adv_flux"; "convergence_zonal_advective_flux";
   "divergence_eddy_momentum_flux"; "meridional_heat_flux"; "ncforce_baro"; "flux_vector_lambda_baro";
   "flux_vector_phi_baro"].

(** ** Axis swapping *)
Section Axes.
  Context {A : Type}.
  (** an n-d array: shape and element function on index tuples *)
  Record ndarray := { nd_shape : list nat; nd_at : list nat -> A }.
  (** exchange the entries at positions a and b *)
  Definition exchange (a b : nat) (l : list nat) : list nat :=
    map (fun k => nth (if Nat.eqb k a then b else if Nat.eqb k b then a else k) l 0%nat) (seq 0 (List.length l)).
  (** np.swapaxes(x, a, b): AxisError when an axis does not exist (non-negative axes only) *)
  Definition swapaxes (x : ndarray) (a b : nat) : option ndarray :=
    if Nat.ltb a (List.length (nd_shape x)) && Nat.ltb b (List.length (nd_shape x))
    then Some {| nd_shape := exchange a b (nd_shape x); nd_at := fun idx => nd_at x (exchange a b idx) |}
    else None.
  (** DerivedQuantityStorage.fortran_to_python / python_to_fortran, data_storage.py:103-107 *)
  Definition fortran_to_python (s1 s2 : nat) (x : ndarray) := swapaxes x s1 s2.
  Definition python_to_fortran (s1 s2 : nat) (x : ndarray) := swapaxes x s2 s1.
End Axes.
Arguments ndarray : clear implicits.

(** (pydim, fdim, swapaxis_1, swapaxis_2) given to each storage by QGFieldBase._initialize_storage,
    oopinterface.py:193-239; [eq] is equator_idx, [nh] northern_hemisphere_results_only *)
Record layout := { ly_py : list nat; ly_f : list nat; ly_1 : nat; ly_2 : nat }.
Definition lat_dim (nh : bool) (eq nlat : nat) : nat := if nh then eq else nlat.    (* oopinterface.py:209 *)
Definition layout_interpolated (kmax nlat nlon : nat) : layout :=
  {| ly_py := [kmax; nlat; nlon]; ly_f := [nlon; nlat; kmax]; ly_1 := 0; ly_2 := 2 |}.
Definition layout_domain (kmax : nat) : layout :=
  {| ly_py := [kmax]; ly_f := [kmax]; ly_1 := 0; ly_2 := 2 |}.
Definition layout_reference (kmax lat : nat) : layout :=
  {| ly_py := [kmax; lat]; ly_f := [lat; kmax]; ly_1 := 0; ly_2 := 1 |}.
Definition layout_layerwise (kmax lat nlon : nat) : layout :=
  {| ly_py := [kmax; lat; nlon]; ly_f := [nlon; lat; kmax]; ly_1 := 0; ly_2 := 2 |}.
Definition layout_barotropic (lat nlon : nat) : layout :=
  {| ly_py := [lat; nlon]; ly_f := [nlon; lat]; ly_1 := 0; ly_2 := 1 |}.
Definition layout_output (lat nlon : nat) : layout :=
  {| ly_py := [lat; nlon]; ly_f := [nlon; lat]; ly_1 := 0; ly_2 := 1 |}.
