(** Model of a QGDataset whose fields are the QGField objects of Object.v and Session.v: what xarrayinterface.py does with oopinterface.py
    underneath.  Xarray.v models the dataset for any class of fields; this file supplies the class. *)
From Verif Require Export Session Xarray.
Open Scope R_scope.

(** element of a (level, latitude, longitude) array; an array has no elements outside its shape *)
Definition element (x : nd R) : field3 := fun l j i =>
  match nd_shape x with
  | [np; ny; nx] => if (Nat.ltb l np && Nat.ltb j ny && Nat.ltb i nx)%bool then nd_at x [l; j; i] else 0
  | _ => 0
  end.
(** self._qgfield(xlon, ylat, plev, u_field, v_field, t_field, *args, **kwargs), xarrayinterface.py:408-409: [base] holds the extra arguments, its sizes
    and arrays are replaced.  oopinterface.py uses of xlon only its size. *)
Definition field_args (base : qgargs) (xlon ylat plev : list R) (u v t : nd R) : qgargs :=
  {| w_nlon := length xlon; w_nlat := length ylat; w_nlev := length plev; w_ylat := fun j => nth j ylat 0; w_plev := fun l => nth l plev 0;
     w_u := element u; w_v := element v; w_t := element t;
     w_kmax := w_kmax base; w_maxit := w_maxit base; w_dz := w_dz base; w_npart := w_npart base; w_tol := w_tol base; w_rjac := w_rjac base;
     w_H := w_H base; w_cp := w_cp base; w_rr := w_rr base; w_om := w_om base; w_a := w_a base; w_nh := w_nh base; w_evenly := w_evenly base |}.
(** python exceptions in the two vocabularies *)
Definition raised {T : Type} (e : pyerr) : outcome T := match e with IndexError => IndexErr | _ => ValueErr end.

(** a field object: the arguments and attributes of its construction, and what the last call of compute_lwa_and_barotropic_fluxes has left to read *)
Record qgfield := { qf_args : qgargs; qf_obj : qgobj; qf_xlon : list R; qf_read : option outputs }.
Definition new_field (k : class) (base : qgargs) (xlon ylat plev : list R) (u v t : nd R) : outcome qgfield :=
  let w := field_args base xlon ylat plev u v t in
  match create k w with Raise e => raised e | Done o => Ok {| qf_args := w; qf_obj := o; qf_xlon := xlon; qf_read := None |} end.

(** the arrays a QGDataset takes its labels from, xarrayinterface.py:127-137: height (oopinterface.py:114, 121), ylat (346-350), ylat_ref_states (1178-1189),
    xlon (136) *)
Definition field_attr (f : qgfield) (name : string) : list R :=
  let w := qf_args f in let o := qf_obj f in
  if String.eqb name "height" then map (g_height (ob_grid o)) (seq 0 (g_kmax (ob_grid o)))
  else if String.eqb name "ylat" then map (w_ylat w) (seq 0 (w_nlat w))
  else if String.eqb name "ylat_ref_states" then map (snd (ylat_ref_states w o)) (seq 0 (fst (ylat_ref_states w o)))
  else if String.eqb name "xlon" then qf_xlon f
  else [].

(** the methods, called in this order: interpolate_fields(return_named_tuple=False) (xarrayinterface.py:447-448) raises nothing;
    compute_reference_states(return_named_tuple=False) (515-516); compute_lwa_and_barotropic_fluxes(ncforce, return_named_tuple=False) (558-560), where a
    DataArray given as ncforce is used as the array of its elements (oopinterface.py:900-905).  Only the sequence of the three calls followed by reading is
    modelled: results stored by an earlier sequence on the same object are not kept *)
Definition no_forcing : field3 := fun _ _ _ => 0.
Definition forcing_of (nc : option (dataarray R)) : field3 := match nc with None => no_forcing | Some s => fun l j i => da_at s [l; j; i] end.
Section Methods.
  Variables (lib : library) (k : class) (raising : bool).
  Definition interpolate (f : qgfield) : outcome qgfield := Ok f.
  Definition reference_states (f : qgfield) : outcome qgfield :=
    match prepared lib k (qf_args f) false raising no_forcing with Stopped _ e => raised e | Returned _ => Ok f end.
  Definition fluxes (f : qgfield) (nc : option (dataarray R)) : outcome qgfield :=
    match session_with_fluxes lib k (qf_args f) false raising (forcing_of nc) with
    | Stopped _ e => raised e
    | Returned x => Ok {| qf_args := qf_args f; qf_obj := qf_obj f; qf_xlon := qf_xlon f; qf_read := Some x |}
    end.
  (** QGDataset(u, v, t, qgfield=..., ...), interpolate_fields(), compute_reference_states(), compute_lwa_and_barotropic_fluxes(ncforce) *)
  Definition analysed (base : qgargs) (user : list (string * string)) (u v t : dataarray R) (nc : option (dataarray R)) : outcome (qgds R qgfield) :=
    do q <- make_dataset (new_field k base) user u v t;
    do q1 <- call_all interpolate q;
    do q2 <- call_all reference_states q1;
    call_with fluxes nc q2.
End Methods.

(** the properties of a field that the dataset reads, by name (xarrayinterface.py:467-470, 525-527, 579-590, 634-635): arrays over (height, latitude,
    longitude), (height, latitude), (latitude, longitude) *)
Inductive property := Volume (p : outputs -> res field3) | Section_ (p : outputs -> res (nat -> nat -> R)) | Map (p : outputs -> res (nat -> nat -> R)) | Layer (p : outputs -> res field3).
Definition properties : list (string * property) :=
  [("qgpv", Volume out_qgpv); ("interpolated_u", Volume out_u); ("interpolated_v", Volume out_v); ("interpolated_theta", Volume out_theta);
   ("qref", Section_ out_qref); ("uref", Section_ out_uref); ("ptref", Section_ out_ptref);
   ("adv_flux_f1", Map out_f1); ("adv_flux_f2", Map out_f2); ("adv_flux_f3", Map out_f3);
   ("convergence_zonal_advective_flux", Map out_conv); ("divergence_eddy_momentum_flux", Map out_div); ("meridional_heat_flux", Map out_heat);
   ("lwa_baro", Map out_lwa_baro); ("u_baro", Map out_u_baro); ("ncforce_baro", Map out_nc_baro);
   ("flux_vector_lambda_baro", Map out_lambda); ("flux_vector_phi_baro", Map out_phi); ("lwa", Layer out_lwa)]%string.
(** number of rows of _return_interp_variables, oopinterface.py:394-403, for an array of [m] rows *)
Definition rows_back (w : qgargs) (o : qgobj) (m : nat) : nat :=
  if lg_need (g_lat (ob_grid o)) then if w_nh w then (w_nlat w / 2)%nat else w_nlat w else m.
Definition as_array {T : Type} (sh : list nat) (at_ : T -> list nat -> R) (r : res T) : outcome (nd R) :=
  match r with Raise e => raised e | Done y => Ok (ND sh (at_ y)) end.
Definition at3 (y : field3) (c : list nat) : R := y (nth 0 c 0%nat) (nth 1 c 0%nat) (nth 2 c 0%nat).
Definition at2 (y : nat -> nat -> R) (c : list nat) : R := y (nth 0 c 0%nat) (nth 1 c 0%nat).
(** getattr(field, name), xarrayinterface.py:253-255 *)
Definition get_property (name : string) (f : qgfield) : outcome (nd R) :=
  let w := qf_args f in let o := qf_obj f in let kmax := g_kmax (ob_grid o) in
  match lookup name properties, qf_read f with
  | Some p, Some x =>
      match p with
      | Volume p => as_array [kmax; rows_back w o (p_nlat (ob_conf o)); w_nlon w] at3 (p x)
      | Section_ p => as_array [kmax; rows_back w o (rows (ob_conf o))] at2 (p x)
      | Map p => as_array [rows_back w o (rows (ob_conf o)); w_nlon w] at2 (p x)
      | Layer p => as_array [kmax; rows_back w o (rows (ob_conf o)); w_nlon w] at3 (p x)
      end
  | _, _ => ValueErr
  end.
(** the variable of the dataset *)
Definition dataset_variable (q : qgds R qgfield) (name : string) : outcome (dataarray R) := collect field_attr (get_property name) q name.
