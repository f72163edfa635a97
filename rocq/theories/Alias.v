(** Model of which arrays a QGField object shares with its user: the arrays behind the attributes, the
    storages and the properties of /repo/src/falwa/oopinterface.py and data_storage.py as cells of a memory.

    A cell is one numpy buffer; a view of a buffer (np.swapaxes, a transposition) is the same cell.
    What the numerical kernels compute is left open: [kernel_result] is any function of the contents of the
    arrays a computation reads.  Simplifications: one cell stands for a buffer's whole content, the two
    hemispheres of a storage array are written in one step, and a failed solve writes the same arrays as a
    successful one.  Scalars and the arrays derived from plev and xlon alone are part of the kernels. *)
From Coq Require Export List Arith Lia Bool.
Export ListNotations.
Open Scope list_scope.
Open Scope nat_scope.

(** the arrays an object refers to.
    FieldU..FieldT: u_field, v_field, theta_field (oopinterface.py:146-156); Lat, LatA, Clat: _input_ylat,
    _ylat, _clat (129-131); Stat: the arrays of DomainAverageStorage (data_storage.py:119-124);
    IntU..Avort: InterpolatedFieldsStorage (141-145); Qref..Ptref: ReferenceStatesStorage (162-164);
    BUa1..BAs2: BarotropicFluxTermsStorage (286-296); Lwa..Nc: LayerwiseFluxTermsStorage (199-208);
    OF1..OPhi: OutputBarotropicFluxTermsStorage (263-272) *)
Inductive slot :=
| FieldU | FieldV | FieldT | Lat | LatA | Clat | Stat
| IntU | IntV | IntT | Qgpv | Avort
| Qref | Uref | Ptref
| BUa1 | BUa2 | BEp1 | BEp2 | BEp3 | BEp4 | BNc | BU | BLwa | BAs1 | BAs2
| Lwa | As1 | As2 | Ua1 | Ua2 | Ep1 | Ep2 | Ep3 | Str | Nc
| OF1 | OF2 | OF3 | OConv | ODiv | OHeat | ONc | OLam | OPhi.
Definition slot_eq_dec (a b : slot) : {a = b} + {a <> b}.
Proof. decide equality. Defined.

(** constructor arguments that matter here: need_latitude_interpolation (oopinterface.py:322-337),
    northern_hemisphere_results_only, data_on_evenly_spaced_pseudoheight_grid *)
Record acfg := { a_even : bool; a_nh : bool; a_evenly : bool }.

(** methods; a number is the cell of the ncforce array passed in *)
Inductive method := Interpolate | Refs | LwaOnly | Fluxes (nc : option nat) | Layerwise (nc : option nat).
Inductive mtag := TInterpolate | TRefs | TLwaOnly | TFluxes | TLayerwise.
(** properties that go through _return_interp_variables, oopinterface.py:1221-1512 *)
Inductive prop :=
| P_qgpv | P_interpolated_u | P_interpolated_v | P_interpolated_theta
| P_qref | P_uref | P_ptref
| P_adv_flux_f1 | P_adv_flux_f2 | P_adv_flux_f3
| P_convergence_zonal_advective_flux | P_divergence_eddy_momentum_flux | P_meridional_heat_flux
| P_flux_vector_lambda_baro | P_flux_vector_phi_baro
| P_lwa_baro | P_ncforce_baro | P_u_baro
| P_lwa | P_ua1 | P_ua2 | P_ep1 | P_ep2 | P_ep3 | P_stretch_term.
(** what else hands out arrays: the attributes u_field, v_field, theta_field, ylat, static_stability and the
    arrays of the property layerwise_flux_terms_storage (oopinterface.py:340-345, 1691, 1520-1543) *)
Inductive raw :=
| R_u_field | R_v_field | R_theta_field | R_ylat | R_static_stability
| R_storage_lwa | R_storage_astar1 | R_storage_astar2 | R_storage_ncforce.

Inductive kernel := Init (s : slot) | Kern (m : mtag) (s : slot) | Back (p : prop).

Section Heap.
  Context {X : Type}.
  (** content computed by a kernel from the contents of the arrays it reads (None: not there yet) *)
  Variable kernel_result : kernel -> list (option X) -> X.
  (** whether the solves of compute_reference_states converge *)
  Variable converges : list (option X) -> bool.

  Record state := {
    cell : nat -> X; top : nat;                       (* memory; the cells below [top] are allocated *)
    env : slot -> option nat;
    nonconv : bool; refs_done : bool; layer_done : bool }.

  Inductive src := Slot (s : slot) | Cell (l : nat).
  Definition where_ (st : state) (a : src) : option nat :=
    match a with Slot s => env st s | Cell l => Some l end.
  Definition peek (st : state) (a : src) : option X :=
    match where_ st a with Some l => Some (cell st l) | None => None end.

  Definition set_cell (f : nat -> X) (l : nat) (x : X) : nat -> X := fun n => if n =? l then x else f n.
  Definition set_env (f : slot -> option nat) (s : slot) (l : option nat) : slot -> option nat :=
    fun s' => if slot_eq_dec s' s then l else f s'.
  Definition with_mem (st : state) (c : nat -> X) (n : nat) (e : slot -> option nat) : state :=
    {| cell := c; top := n; env := e;
       nonconv := nonconv st; refs_done := refs_done st; layer_done := layer_done st |}.

  (** what a python assignment does to memory: [Fresh] binds the name to a newly computed array
      ("x = expression"), [Into] writes a computed content into the array the name refers to
      ("x[slice] = expression", NHemProperty.__set__ and SHemProperty.__set__, data_storage.py:42-62),
      [Bind] makes the name refer to an existing array ("x = y", "x = np.swapaxes(y, ...)") *)
  Inductive instr :=
  | Fresh (s : slot) (k : kernel) (reads : list src)
  | Into (s : slot) (k : kernel) (reads : list src)
  | Bind (s : slot) (a : src).
  Definition exec (st : state) (i : instr) : state :=
    match i with
    | Fresh s k rs =>
        with_mem st (set_cell (cell st) (top st) (kernel_result k (map (peek st) rs))) (S (top st))
                 (set_env (env st) s (Some (top st)))
    | Into s k rs =>
        match env st s with
        | Some l => with_mem st (set_cell (cell st) l (kernel_result k (map (peek st) rs))) (top st) (env st)
        | None => st
        end
    | Bind s a => with_mem st (cell st) (top st) (set_env (env st) s (where_ st a))
    end.
  Definition execs (st : state) (is : list instr) : state := fold_left exec is st.

  (** cells of the arrays given to the constructor *)
  Definition in_u := 0. Definition in_v := 1. Definition in_t := 2. Definition in_ylat := 3.

  (** __init__, oopinterface.py:103-188.  Odd grid: u_field and v_field are the arrays given
      (_convert_masked_data 273-280 returns its argument or a view of its buffer), theta_field is a product;
      even grid: all three come out of interp1d.  _ylat is the array given on odd grids, a new linspace on
      even grids (310-338); the storages are created with np.zeros (189-240) *)
  Definition init (c : acfg) : list instr :=
    [Bind Lat (Cell in_ylat)] ++
    (if a_even c then
       [Fresh LatA (Init LatA) []; Fresh Clat (Init Clat) [Slot LatA];
        Fresh FieldU (Init FieldU) [Cell in_u; Slot Lat; Slot LatA];
        Fresh FieldV (Init FieldV) [Cell in_v; Slot Lat; Slot LatA];
        Fresh FieldT (Init FieldT) [Cell in_t; Slot Lat; Slot LatA]]
     else
       [Bind LatA (Cell in_ylat); Fresh Clat (Init Clat) [Slot LatA];
        Bind FieldU (Cell in_u); Bind FieldV (Cell in_v); Fresh FieldT (Init FieldT) [Cell in_t]]) ++
    map (fun s => Fresh s (Init s) [])
        [Qref; Uref; Ptref; BUa1; BUa2; BEp1; BEp2; BEp3; BEp4; BNc; BU; BLwa; BAs1; BAs2;
         Lwa; As1; As2; Ua1; Ua2; Ep1; Ep2; Ep3; Str; Nc;
         OF1; OF2; OF3; OConv; ODiv; OHeat; ONc; OLam; OPhi].
  Definition create (c : acfg) (u v t ylat : X) : state :=
    execs {| cell := fun l => match l with 0 => u | 1 => v | 2 => t | _ => ylat end; top := 4;
             env := fun _ => None; nonconv := false; refs_done := false; layer_done := false |}
          (init c).

  (** interpolate_fields, oopinterface.py:507-530, and _compute_qgpv 1562-1594, 1734-1782.  With the
      evenly-spaced flag the interpolated fields are views of the fields (511-514, 520-522) *)
  Definition interpolate (c : acfg) : list instr :=
    let k := Kern TInterpolate in
    [Fresh Stat (k Stat) [Slot FieldT; Slot Clat]] ++
    (if a_evenly c then [Bind IntU (Slot FieldU); Bind IntV (Slot FieldV); Bind IntT (Slot FieldT)]
     else [Fresh IntU (k IntU) [Slot FieldU]; Fresh IntV (k IntV) [Slot FieldV];
           Fresh IntT (k IntT) [Slot FieldT]]) ++
    [Fresh Qgpv (k Qgpv) [Slot IntU; Slot IntV; Slot IntT; Slot Stat];
     Fresh Avort (k Avort) [Slot IntU; Slot IntV; Slot IntT; Slot Stat]].

  (** _compute_reference_states, oopinterface.py:1605-1632 and 1784-1811 *)
  Definition refs : list instr :=
    let k := Kern TRefs in
    let rs := [Slot Qgpv; Slot IntU; Slot IntT; Slot Avort; Slot Stat] in
    [Into Qref (k Qref) rs; Into Uref (k Uref) rs; Into Ptref (k Ptref) rs].

  (** compute_lwa_only, oopinterface.py:644-692.  The southern astar1 and astar2 are assigned to names that
      are no storage property (690-691), so only the northern part of those two arrays is written *)
  Definition lwa_only (c : acfg) : list instr :=
    let k := Kern TLwaOnly in
    let rs := [Slot Qgpv; Slot IntU; Slot Qref; Slot LatA] in
    let own s := if a_nh c then rs else rs ++ [Slot s] in
    [Into BLwa (k BLwa) rs; Into BU (k BU) rs; Into Lwa (k Lwa) rs;
     Into As1 (k As1) (own As1); Into As2 (k As2) (own As2)].

  Definition nc_src (nc : option nat) : list src := match nc with Some l => [Cell l] | None => [] end.

  (** compute_lwa_and_barotropic_fluxes, oopinterface.py:898-951 with
      _compute_intermediate_barotropic_flux_terms 716-793 *)
  Definition fluxes (nc : option nat) : list instr :=
    let k := Kern TFluxes in
    let rs := [Slot Qgpv; Slot IntU; Slot IntV; Slot IntT; Slot Stat; Slot Qref; Slot LatA; Slot Uref; Slot Ptref]
              ++ nc_src nc in
    map (fun s => Into s (k s) rs) [BLwa; BU; BUa1; BUa2; BEp1; BEp2; BEp3; BEp4; BAs1; BAs2; BNc; Lwa] ++
    [Fresh ODiv (k ODiv) [Slot BEp2; Slot BEp3; Slot Clat];
     Fresh OConv (k OConv) [Slot BUa1; Slot BUa2; Slot BEp1; Slot Clat];
     Bind OF1 (Slot BUa1); Bind OF2 (Slot BUa2); Bind OF3 (Slot BEp1);
     Bind OHeat (Slot BEp4); Bind ONc (Slot BNc);
     Fresh OLam (k OLam) [Slot BUa1; Slot BUa2; Slot BEp1];
     Fresh OPhi (k OPhi) [Slot IntU; Slot Uref; Slot IntV; Slot Clat]].

  (** _compute_layerwise_lwa_fluxes_wrapper and _compute_stretch_term, oopinterface.py:1021-1158.
      ep4 goes to the barotropic storage (1096); lwa is rebound (1150); the stretch term is rebound in
      global mode and written into the array in northern-only mode (1057-1061) *)
  Definition layerwise (c : acfg) (nc : option nat) : list instr :=
    let k := Kern TLayerwise in
    let rs := [Slot Qgpv; Slot IntU; Slot IntV; Slot IntT; Slot Stat; Slot Qref; Slot LatA; Slot Uref; Slot Ptref]
              ++ nc_src nc in
    let str := [Slot IntV; Slot IntT; Slot Ptref; Slot Clat; Slot Stat; Slot LatA] in
    map (fun s => Into s (k s) rs) [As1; As2; Nc; Ua1; Ua2; Ep1; Ep2; Ep3; BEp4] ++
    [Fresh Lwa (k Lwa) [Slot As1; Slot As2];
     if a_nh c then Into Str (k Str) str else Fresh Str (k Str) str].

  (** the array each property looks at *)
  Definition prop_slot (p : prop) : slot :=
    match p with
    | P_qgpv => Qgpv | P_interpolated_u => IntU | P_interpolated_v => IntV | P_interpolated_theta => IntT
    | P_qref => Qref | P_uref => Uref | P_ptref => Ptref
    | P_adv_flux_f1 => OF1 | P_adv_flux_f2 => OF2 | P_adv_flux_f3 => OF3
    | P_convergence_zonal_advective_flux => OConv | P_divergence_eddy_momentum_flux => ODiv
    | P_meridional_heat_flux => OHeat
    | P_flux_vector_lambda_baro => OLam | P_flux_vector_phi_baro => OPhi
    | P_lwa_baro => BLwa | P_ncforce_baro => BNc | P_u_baro => BU
    | P_lwa => Lwa | P_ua1 => Ua1 | P_ua2 => Ua2 | P_ep1 => Ep1 | P_ep2 => Ep2 | P_ep3 => Ep3
    | P_stretch_term => Str
    end.
  Definition raw_slot (r : raw) : slot :=
    match r with
    | R_u_field => FieldU | R_v_field => FieldV | R_theta_field => FieldT | R_ylat => Lat
    | R_static_stability => Stat
    | R_storage_lwa => Lwa | R_storage_astar1 => As1 | R_storage_astar2 => As2 | R_storage_ncforce => Nc
    end.
  Definition full_height_field (p : prop) : bool :=
    match p with P_qgpv | P_interpolated_u | P_interpolated_v | P_interpolated_theta => true | _ => false end.
  Definition needs_layerwise (p : prop) : bool :=
    match p with P_ua1 | P_ua2 | P_ep1 | P_ep2 | P_ep3 | P_stretch_term => true | _ => false end.

  Definition alloc (st : state) (x : X) : state * nat :=
    (with_mem st (set_cell (cell st) (top st) x) (S (top st)) (env st), top st).

  (** reading a property: _return_interp_variables (oopinterface.py:397-402) makes a new array on even grids
      and hands out the variable itself on odd grids; qref is multiplied by f first (data_storage.py:175).
      None: an exception, because the array is missing, the layerwise terms are not computed (1437...) or
      the latitude axes do not match (northern-only mode on an even grid, 399) *)
  Definition get_prop (c : acfg) (p : prop) (st : state) : state * option nat :=
    match env st (prop_slot p) with
    | None => (st, None)
    | Some l =>
        if needs_layerwise p && negb (layer_done st) then (st, None)
        else if a_even c then
          if a_nh c && full_height_field p then (st, None)
          else let (st', l') := alloc st (kernel_result (Back p) (map (peek st) [Slot (prop_slot p); Slot LatA; Slot Lat]))
               in (st', Some l')
        else match p with
             | P_qref => let (st', l') := alloc st (kernel_result (Back p) (map (peek st) [Slot Qref; Slot LatA]))
                         in (st', Some l')
             | _ => (st, Some l)
             end
    end.
  Definition get_raw (r : raw) (st : state) : state * option nat := (st, env st (raw_slot r)).

  (** several properties one after the other; stops at the first exception *)
  Fixpoint get_props (c : acfg) (ps : list prop) (st : state) : state * option (list nat) :=
    match ps with
    | [] => (st, Some [])
    | p :: ps' =>
        match get_prop c p st with
        | (st1, None) => (st1, None)
        | (st1, Some l) => match get_props c ps' st1 with
                           | (st2, None) => (st2, None)
                           | (st2, Some ls) => (st2, Some (l :: ls))
                           end
        end
    end.

  Definition has (st : state) (s : slot) : bool := match env st s with Some _ => true | None => false end.
  Definition flags (st : state) (n r l : bool) : state :=
    {| cell := cell st; top := top st; env := env st; nonconv := n; refs_done := r; layer_done := l |}.
  Definition known (st : state) (nc : option nat) : bool :=
    match nc with Some l => l <? top st | None => true end.
  Fixpoint collect (l : list (option nat)) : option (list nat) :=
    match l with
    | [] => Some []
    | None :: _ => None
    | Some x :: t => match collect t with Some xs => Some (x :: xs) | None => None end
    end.

  (** a method call with return_named_tuple=True: the new state and the arrays of the named tuple, or None if
      it raises.  interpolate_fields: qgpv, interpolated_u, interpolated_v, interpolated_theta
      (oopinterface.py:1586-1593; its fifth entry is the array of R_static_stability).
      compute_reference_states: qref, uref, ptref (608-614).  compute_lwa_and_barotropic_fluxes: the storage
      arrays, not the properties (952-963) *)
  Definition call (c : acfg) (m : method) (st : state) : state * option (list nat) :=
    match m with
    | Interpolate =>
        get_props c [P_qgpv; P_interpolated_u; P_interpolated_v; P_interpolated_theta] (execs st (interpolate c))
    | Refs =>
        match get_prop c P_qgpv st with
        | (st0, None) => (st0, None)
        | (st0, Some _) =>
            let bad := negb (converges (map (peek st0) [Slot Qgpv; Slot IntU; Slot IntT])) in
            let st1 := execs st0 refs in
            let non := nonconv st1 || bad in
            get_props c [P_qref; P_uref; P_ptref]
              (flags st1 non (if non then refs_done st1 else true) (layer_done st1))
        end
    | LwaOnly => if has st Qgpv then (execs st (lwa_only c), Some []) else (st, None)
    | Fluxes nc =>
        match get_prop c P_qgpv st with
        | (st0, None) => (st0, None)
        | (st0, Some _) =>
            if nonconv st0 || negb (refs_done st0) || negb (known st0 nc) then (st0, None)
            else let st1 := execs st0 (fluxes nc) in
                 (st1, collect (map (env st1) [OF1; OF2; OF3; OConv; ODiv; OHeat; BLwa; BU; Lwa]))
        end
    | Layerwise nc =>
        (* 1078: on an even grid the default ncforce has the wrong number of latitudes *)
        if has st Qgpv && known st nc && negb (a_even c && match nc with None => true | _ => false end)
        then let st1 := execs st (layerwise c nc) in
             (flags st1 (nonconv st1) (refs_done st1) true, Some [])
        else (st, None)
    end.

  (** what a user can do: call a method, read a property or attribute, make an array, assign an array to
      u_field, v_field or theta_field, and overwrite the content of an array *)
  Inductive field := FU | FV | FT.
  Definition field_slot (f : field) : slot := match f with FU => FieldU | FV => FieldV | FT => FieldT end.
  Inductive event :=
  | Call (m : method) | Get (p : prop) | GetRaw (r : raw)
  | NewArray (x : X) | SetField (f : field) (l : nat) | Write (l : nat) (x : X).
  Definition one (r : state * option nat) : state * option (list nat) :=
    match r with (st, Some l) => (st, Some [l]) | (st, None) => (st, None) end.
  Definition step (c : acfg) (st : state) (e : event) : state * option (list nat) :=
    match e with
    | Call m => call c m st
    | Get p => one (get_prop c p st)
    | GetRaw r => one (get_raw r st)
    | NewArray x => let (st', l) := alloc st x in (st', Some [l])
    | SetField f l =>
        if l <? top st then (with_mem st (cell st) (top st) (set_env (env st) (field_slot f) (Some l)), Some [])
        else (st, None)
    | Write l x =>
        if l <? top st then (with_mem st (set_cell (cell st) l x) (top st) (env st), Some []) else (st, None)
    end.
  Definition runs (c : acfg) (st : state) (es : list event) : state := fold_left (fun s e => fst (step c s e)) es st.
End Heap.
