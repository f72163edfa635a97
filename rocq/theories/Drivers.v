(** Model of the driver programs under /repo/scripts: how they read files, turn the axes, call QGField, and what they write.
    Paths, attributes, units and messages are left out, and so are plots.  Numbers are stored without rounding (the files hold float32). *)
From Verif Require Export Object.
From Coq Require String.
Export String.StringSyntax.
Delimit Scope string_scope with string.
Open Scope R_scope.

(** the input files of one period, opened by netCDF4: axes and data (time, level, latitude, longitude) as stored.  u, v and t (and the heating
    rate) have their own files; the axes are those of the file with u.  No value is masked. *)
Record ncinput := {
  f_ntimes : nat; f_nlon : nat; f_nlat : nat; f_nlev : nat; f_lat : nat -> R; f_lev : nat -> R;
  f_u : nat -> field3; f_v : nat -> field3; f_t : nat -> field3; f_heating : nat -> field3 }.

(** x[::-1] of an axis with [n] elements *)
Definition reversed {T} (n : nat) (x : nat -> T) (k : nat) : T := x (n - 1 - k)%nat.
(** x[::-1, ::-1, :] of (level, latitude, longitude) *)
Definition reversed_field (f : ncinput) (x : field3) : field3 := fun l j i => x (f_nlev f - 1 - l)%nat (f_nlat f - 1 - j)%nat i.

(** defaults of the constructors, oopinterface.py:93-97 and 1725-1730, and constant.py *)
Definition default_args (f : ncinput) (ylat plev : nat -> R) (u v t : field3) (kmax : nat) (dz : R) : qgargs :=
  {| w_nlon := f_nlon f; w_nlat := f_nlat f; w_nlev := f_nlev f; w_ylat := ylat; w_plev := plev; w_u := u; w_v := v; w_t := t;
     w_kmax := kmax; w_maxit := Z.to_nat 100000; w_dz := dz; w_npart := None; w_tol := 1 / 100000; w_rjac := 95 / 100;
     w_H := 7000; w_cp := 1004; w_rr := 287; w_om := 729 / 10000000; w_a := 6378000; w_nh := false; w_evenly := false |}.

(** ** scripts/mdtf_predigest_data/predigest_data.py *)
(** lines 45-46, 85-89: axes and data are always reversed *)
Definition predigest_args (f : ncinput) (t : nat) : qgargs :=
  default_args f (reversed (f_nlat f) (f_lat f)) (reversed (f_nlev f) (f_lev f))
    (reversed_field f (f_u f t)) (reversed_field f (f_v f t)) (reversed_field f (f_t f t)) 49 1000.
(** calendar.monthrange(year, month)[1]; None: IllegalMonthError *)
Definition leap (year : nat) : bool := Nat.eqb (year mod 4) 0 && (negb (Nat.eqb (year mod 100) 0) || Nat.eqb (year mod 400) 0).
Definition monthrange (year month : nat) : option nat :=
  match month with
  | 1 | 3 | 5 | 7 | 8 | 10 | 12 => Some 31%nat
  | 4 | 6 | 9 | 11 => Some 30%nat
  | 2 => Some (if leap year then 29 else 28)%nat
  | _ => None
  end%nat.
Record predigest_slice := { pd_lwa_baro : nat -> nat -> R; pd_u_baro : nat -> nat -> R; pd_fawa : nat -> nat -> R; pd_uref : nat -> nat -> R; pd_ubar : nat -> nat -> R }.
(** x.mean(axis=-1) *)
Definition mean_last (nlon : nat) (x : field3) : nat -> nat -> R := fun k row => nsum nlon (fun i => x k row i) / INR nlon.
(** lines 85-98: one time step.  Reading behind the last time raises IndexError *)
Definition predigest_step (lib : library) (f : ncinput) (t : nat) : res predigest_slice :=
  if Nat.leb (f_ntimes f) t then Raise IndexError
  else match session lib NH18 (predigest_args f t) (fun _ _ _ => 0) with
       | Raise e => Raise e
       | Done x =>
         match out_lwa_baro x, out_u_baro x, out_lwa x, out_uref x, out_u x with
         | Done a, Done b, Done c, Done d, Done e =>
           Done {| pd_lwa_baro := a; pd_u_baro := b; pd_fawa := mean_last (f_nlon f) c; pd_uref := d; pd_ubar := mean_last (f_nlon f) e |}
         | Raise e, _, _, _, _ | _, Raise e, _, _, _ | _, _, Raise e, _, _ | _, _, _, Raise e, _ | _, _, _, _, Raise e => Raise e
         end
       end.
Fixpoint each_step {T} (step : nat -> res T) (t n : nat) : res (list T) :=
  match n with
  | O => Done []
  | S m => match step t with
           | Raise e => Raise e
           | Done y => match each_step step (S t) m with Raise e => Raise e | Done l => Done (y :: l) end
           end
  end.
(** lines 25, 84-102: the slices written; the latitudes and longitudes written are those given to QGField.  The variable time is created but never written
    (line 71 is a comment) *)
Definition predigest (lib : library) (year month : nat) (f : ncinput) : res (list predigest_slice) :=
  match monthrange year month with
  | None => Raise ValueError
  | Some days => each_step (predigest_step lib f) 0 (days * 4)
  end.
Definition predigest_latitude (f : ncinput) : nat -> R := reversed (f_nlat f) (f_lat f).

(** ** Axes turned only when needed: nhn_grl2022/sample_run_script.py:39-48 and lubis_et_al_2025/cal_lwa_budget_NHN22.py:40-49, cal_ncforce_loop.py:41-50 *)
Definition ascending_latitude (f : ncinput) : nat -> R := if Rltb (f_lat f 1%nat - f_lat f 0%nat) 0 then reversed (f_nlat f) (f_lat f) else f_lat f.
Definition descending_level (f : ncinput) : nat -> R := if Rltb 0 (f_lev f 1%nat - f_lev f 0%nat) then reversed (f_nlev f) (f_lev f) else f_lev f.

(** ** scripts/nhn_grl2022/sample_run_script.py *)
(** lines 115-119: the data are always reversed *)
Definition grl_args (f : ncinput) (t : nat) : qgargs :=
  default_args f (ascending_latitude f) (descending_level f) (reversed_field f (f_u f t)) (reversed_field f (f_v f t)) (reversed_field f (f_t f t)) 97 500.
(** a call of an f2py routine by keywords: every argument that is neither optional nor hidden must be given.  Arguments that are sizes of other arguments are optional *)
Definition f2py_call (required given : list String.string) : option pyerr :=
  if forallb (fun a => existsb (String.eqb a) given) required then None else Some TypeError.
(** compute_flux_dirinv.f90:1-15 *)
Definition dirinv_flux_required : list String.string :=
  ["pv"; "uu"; "vv"; "pt"; "ncforce"; "tn0"; "qref"; "uref"; "tref"; "jb"; "is_nhem"; "a"; "om"; "dz"; "h"; "rr"; "cp"; "prefac"]%string.
(** _compute_lwa_flux_dirinv, oopinterface.py:1906-1929 *)
Definition dirinv_flux_given : list String.string :=
  ["pv"; "uu"; "vv"; "pt"; "tn0"; "qref"; "uref"; "tref"; "jb"; "is_nhem"; "a"; "om"; "dz"; "h"; "rr"; "cp"; "prefac"]%string.
(** _compute_lwa_and_barotropic_fluxes_wrapper, oopinterface.py:429-452 *)
Definition dirinv_flux_given_by_wrapper : list String.string :=
  ["pv"; "uu"; "vv"; "pt"; "ncforce"; "tn0"; "qref"; "uref"; "tref"; "jb"; "is_nhem"; "a"; "om"; "dz"; "h"; "rr"; "cp"; "prefac"]%string.
(** lines 84, 94: lats[:] = ylat[90:] into nlat//2+1 places; lines 113-137.  None: all time steps are written.  The exception of a wrong
    size is taken as ValueError *)
Definition grl_run (lib : library) (f : ncinput) : option pyerr :=
  if negb (Nat.eqb (f_nlat f - 90) (f_nlat f / 2 + 1)) then Some ValueError
  else if Nat.eqb (f_ntimes f) 0 then None
  else match session lib (NHN22 5) (grl_args f 0) (fun _ _ _ => 0) with
       | Raise e => Some e
       | Done _ => f2py_call dirinv_flux_required dirinv_flux_given
       end.

(** ** scripts/lubis_et_al_2025 *)
(** cal_lwa_budget_NHN22.py:136-140 and cal_ncforce_loop.py:92-101: the data are never reversed *)
Definition lubis_args (f : ncinput) (t : nat) : qgargs :=
  default_args f (ascending_latitude f) (descending_level f) (f_u f t) (f_v f t) (f_t f t) 49 1000.
(** cal_lwa_budget_NHN22.py:81, 143-156: the nine variables taken from the named tuple.  None: an exception of the session, or netCDF4 refuses an array
    whose number of rows is not that of the dimension latitude *)
Definition lubis_step (lib : library) (f : ncinput) (t : nat) : option (list (nat -> nat -> R) * field3) :=
  let w := lubis_args f t in
  match create (NHN22 5) w with
  | Raise _ => None
  | Done o =>
    match session lib (NHN22 5) w (fun _ _ _ => 0) with
    | Raise _ => None
    | Done _ => let s := analyse lib (NHN22 5) w o (fun _ _ _ => 0) in
                if Nat.eqb (tuple_rows o) (f_nlat f) then Some (tuple_maps s, tuple_lwa s) else None
    end
  end.
(** cal_ncforce_loop.py:92-114: the forcing on the levels, (level, row, longitude) *)
Definition ncforce_step (lib : library) (f : ncinput) (t : nat) : option field3 :=
  let w := lubis_args f t in
  match create (NHN22 5) w with
  | Raise _ => None
  | Done o =>
    match ncforce_from_heating_rate w o (domain lib (NHN22 5) w o) (f_heating f t) with
    | None => None
    | Some nc => match session lib (NHN22 5) w nc with
                 | Raise _ => None
                 | Done _ => Some (fun k row i => l_nc (s_layer (analyse lib (NHN22 5) w o nc)) (i + 1)%nat (row + 1)%nat (k + 1)%nat)
                 end
    end
  end.
