(** Model of the grid set-up of /repo/src/falwa/oopinterface.py: QGFieldBase.__init__ and the helpers it
    uses, plus the interpolation of results back to the user's grid. *)
From Coq Require Import Floats.SpecFloat.
From Verif Require Export Base.

Inductive pyerr := TypeError | ValueError | IndexError.
Inductive res (T : Type) := Done (x : T) | Raise (e : pyerr).
Arguments Done {T}. Arguments Raise {T}.

Section Grid.
  Context {A : Type} {N : Num A}.
  Local Open Scope num_scope.

  (** sum(ylat == 0.0) *)
  Fixpoint count_zero (n : nat) (f : nat -> A) : nat :=
    match n with O => O | S m => (count_zero m f + if neqb (f m) nzero then 1 else 0)%nat end.
  (** np.argwhere(y == 0)[0][0], None for the IndexError on an empty result *)
  Fixpoint first_zero (n : nat) (f : nat -> A) : option nat :=
    match n with
    | O => None
    | S m => match first_zero m f with
             | Some i => Some i
             | None => if f m =? nzero then Some m else None
             end
    end.

  (** np.linspace(-90., 90., n + 1, endpoint=True): arange * step + start, last element set to stop *)
  Definition linspace_lat (n : nat) (k : nat) : A :=
    let step := (nofZ 90 - nofZ (-90)) / nofnat n in
    if Nat.eqb k n then nofZ 90 else nofnat k * step + nofZ (-90).

  (** what _check_and_flip_ylat returns apart from the input array and _clat *)
  Record latgrid := { lg_need : bool; lg_n : nat; lg_ylat : nat -> A; lg_eq : nat }.

  (** oopinterface.py:311-343; [nlat] is ylat.size *)
  Definition check_and_flip_ylat (nlat : nat) (ylat : nat -> A) : res latgrid :=
    if Nat.ltb nlat 2 then Raise IndexError                                  (* np.diff(ylat)[0] *)
    else if ylat 1%nat - ylat 0%nat <? nzero then Raise TypeError
    else
      let zeros := count_zero nlat ylat in
      if Nat.even nlat && Nat.eqb zeros 0 then
        match first_zero (nlat + 1) (linspace_lat nlat) with
        | None => Raise IndexError
        | Some i => Done {| lg_need := true; lg_n := nlat + 1; lg_ylat := linspace_lat nlat; lg_eq := i + 1 |}
        end
      else if Nat.eqb zeros 1 then
        match first_zero nlat ylat with
        | None => Raise IndexError
        | Some i => Done {| lg_need := false; lg_n := nlat; lg_ylat := ylat; lg_eq := i + 1 |}
        end
      else Raise TypeError.

  (** scipy.interpolate.interp1d(x, y, kind='linear', fill_value='extrapolate')(v) for a single column y on n
      nodes.  scipy sorts x first; the model takes x already ascending. *)
  Fixpoint searchsorted (n : nat) (x : nat -> A) (v : A) : nat :=
    match n with O => O | S m => (searchsorted m x v + if nltb (x m) v then 1 else 0)%nat end.
  Definition interp1d (n : nat) (x y : nat -> A) (v : A) : A :=
    let hi := Nat.min (Nat.max (searchsorted n x v) 1) (n - 1) in
    let lo := (hi - 1)%nat in
    let slope := (y hi - y lo) / (x hi - x lo) in
    slope * (v - x lo) + y lo.
  (** the constructor of interp1d refuses a y whose interpolation axis is not as long as x *)
  Definition interp1d_checked (nx ny : nat) (x y : nat -> A) (v : nat -> A) : res (nat -> A) :=
    if Nat.eqb nx ny then Done (fun k => interp1d nx x y (v k)) else Raise ValueError.

  (** _return_interp_variables, oopinterface.py:376-403, on one latitude column of length [nvar].
      x[-m:] of an array of n elements starts at n - m. *)
  Definition return_interp (nh : bool) (nlat : nat) (input_ylat : nat -> A) (g : latgrid)
    (nvar : nat) (var : nat -> A) : res (nat -> A) :=
    if lg_need g then
      if nh then
        let m := (lg_n g / 2 + 1)%nat in
        interp1d_checked m nvar (fun k => lg_ylat g (lg_n g - m + k)%nat) var (fun k => input_ylat (nlat - nlat / 2 + k)%nat)
      else interp1d_checked (lg_n g) nvar (lg_ylat g) var input_ylat
    else Done var.

  (** _compute_prefactor, oopinterface.py:263-270 (python range(1, kmax - 1)) *)
  Definition prefactor (kmax : nat) (dz H : A) : A :=
    nsum (kmax - 1 - 1) (fun k => nexp (- nofnat (k + 1) * dz / H) * dz).

  (** _vertical_average, oopinterface.py:405-420, on one column, lowest_layer_index = low *)
  Definition vertical_average (kmax : nat) (height : nat -> A) (dz H prefac : A) (low : nat) (var : nat -> A) : A :=
    let dc := dz / prefac in
    nsum (kmax - low) (fun k => var (low + k)%nat * nexp (- height (low + k)%nat / H) * dc).

  (** oopinterface.py:119 *)
  Definition uniform_height (dz : A) (k : nat) : A := nofnat k * dz.
End Grid.
Arguments latgrid : clear implicits.

(** numpy broadcasting of shapes, on reversed shapes *)
Fixpoint bcast (a b : list nat) : option (list nat) :=
  match a, b with
  | [], r => Some r
  | r, [] => Some r
  | x :: a', y :: b' =>
    match bcast a' b' with
    | None => None
    | Some r => if Nat.eqb x y then Some (x :: r) else if Nat.eqb x 1 then Some (y :: r)
                else if Nat.eqb y 1 then Some (x :: r) else None
    end
  end.
Definition broadcast_shapes (a b : list nat) : option (list nat) := option_map (@rev nat) (bcast (rev a) (rev b)).

Fixpoint list_eqb (a b : list nat) : bool :=
  match a, b with
  | [], [] => true
  | x :: a', y :: b' => Nat.eqb x y && list_eqb a' b'
  | _, _ => false
  end.

(** -scale_height * np.log(plev / P_GROUND), oopinterface.py:110, 118; P_GROUND = 1000 (constant.py) *)
Definition plev_to_height (H p : R) : R := (- H * ln (p / 1000))%R.

(** _check_valid_plev, oopinterface.py:281-308; None = accepted *)
Definition check_valid_plev (nlev : nat) (plev : nat -> R) (H : R) (kmax : nat) (dz : R) : option pyerr :=
  if Nat.ltb nlev 2 then Some IndexError
  else if Rltb 0 (plev 1%nat - plev 0%nat) then Some TypeError
  else if Rltb (plev_to_height H (plev (nlev - 1)%nat)) (IZR (Z.of_nat kmax - 1) * dz) then Some ValueError
  else None.

(** attributes derived from the grid by QGFieldBase.__init__ *)
Record grid := {
  g_kmax : nat; g_height : nat -> R; g_dz : R;
  g_nlev : nat; g_nlat : nat; g_nlon : nat;
  g_input_ylat : nat -> R; g_lat : latgrid R;
  g_jd : nat; g_dphi : R; g_dlambda : R; g_npart : nat; g_nh : bool; g_prefactor : R; g_H : R }.

(** QGFieldBase.__init__, oopinterface.py:93-187, as far as grids and shapes are concerned.  [ushape],
    [vshape], [tshape] are the shapes of the three fields. *)
Definition qg_init (nlon : nat) (nlat : nat) (ylat : nat -> R) (nlev : nat) (plev : nat -> R)
  (ushape vshape tshape : list nat) (kmax : nat) (dz : R) (npart : option nat) (H : R)
  (nh evenly : bool) : res grid :=
  let hd := plev_to_height H in
  let vertical : res (nat * (nat -> R) * R) :=
    if evenly then                                                                    (* 106-111 *)
      if Nat.ltb nlev 2 then Raise IndexError
      else Done (nlev, fun k => hd (plev k), (hd (plev 1%nat) - hd (plev 0%nat))%R)
    else match check_valid_plev nlev plev H kmax dz with                              (* 112-120 *)
         | Some e => Raise e
         | None => Done (kmax, uniform_height dz, dz)
         end in
  match vertical with
  | Raise e => Raise e
  | Done (kmax', height, dz') =>
    match broadcast_shapes tshape [nlev; 1; 1]%nat with                               (* 125-126 *)
    | None => Raise ValueError
    | Some thetashape =>
      match check_and_flip_ylat nlat ylat with                                        (* 130-131 *)
      | Raise e => Raise e
      | Done lat =>
        let expected := [nlev; nlat; nlon] in                                         (* 137-143 *)
        if negb (list_eqb ushape expected) then Raise TypeError
        else if negb (list_eqb vshape expected) then Raise TypeError
        else if negb (list_eqb thetashape expected) then Raise TypeError
        else
          let n := lg_n lat in
          Done {| g_kmax := kmax'; g_height := height; g_dz := dz';
                  g_nlev := nlev; g_nlat := nlat; g_nlon := nlon; g_input_ylat := ylat; g_lat := lat;
                  g_jd := (n / 2 + n mod 2)%nat;                                      (* 161 *)
                  g_dphi := (180 / INR (n - 1) * (PI / 180))%R;                       (* 162 *)
                  g_dlambda := (360 / INR nlon * (PI / 180))%R;                       (* 163 *)
                  g_npart := match npart with Some p => p | None => n end;
                  g_nh := nh; g_prefactor := prefactor kmax' dz' H; g_H := H |}
      end
    end
  end.

(** IEEE binary64 arithmetic from the standard library's SpecFloat; only the operations used by
    [check_and_flip_ylat] are given a meaning. *)
Definition B64 : Type := spec_float.
Definition B64Num : Num B64 := {|
  nzero := S754_zero false; none := binary_normalize 53 1024 1 0 false;
  nadd := SFadd 53 1024; nsub := SFsub 53 1024; nmul := SFmul 53 1024; ndiv := SFdiv 53 1024; nopp := SFopp;
  nltb := SFltb; nleb := SFleb; neqb := SFeqb;
  nofZ z := binary_normalize 53 1024 z 0 false; nabs := SFabs;
  nsin _ := S754_nan; ncos _ := S754_nan; nexp _ := S754_nan; nasin _ := S754_nan; npi := S754_nan |}.
