(** Specification vocabulary for the driver programs: values stay at their coordinates. *)
From Verif Require Export Spec Drivers ObjectSpec.
Open Scope R_scope.

(** no coordinate occurs twice *)
Definition distinct (n : nat) (x : nat -> R) : Prop := forall a b, (a < n)%nat -> (b < n)%nat -> x a = x b -> a = b.
(** strictly monotone axes *)
Definition ordered (n : nat) (x : nat -> R) : Prop := (forall a, (S a < n)%nat -> x a < x (S a)) \/ (forall a, (S a < n)%nat -> x (S a) < x a).
(** the object built for time [t] has, at each pressure and latitude, the values which the file has at this pressure and latitude *)
Definition placed (f : ncinput) (t : nat) (w : qgargs) : Prop :=
  w_nlon w = f_nlon f /\ w_nlat w = f_nlat f /\ w_nlev w = f_nlev f /\
  forall l j, (l < f_nlev f)%nat -> (j < f_nlat f)%nat ->
    exists l' j', (l' < f_nlev f)%nat /\ (j' < f_nlat f)%nat /\ w_plev w l = f_lev f l' /\ w_ylat w j = f_lat f j' /\
      forall i, (i < f_nlon f)%nat -> w_u w l j i = f_u f t l' j' i /\ w_v w l j i = f_v f t l' j' i /\ w_t w l j i = f_t f t l' j' i.
(** the field looks the same upside down ([levels]) and with north and south exchanged ([rows]) *)
Definition same_turned (f : ncinput) (levels rows : bool) (x : field3) : Prop :=
  forall l j i, (l < f_nlev f)%nat -> (j < f_nlat f)%nat -> (i < f_nlon f)%nat ->
    x (if levels then f_nlev f - 1 - l else l)%nat (if rows then f_nlat f - 1 - j else j)%nat i = x l j i.
Definition atmosphere_same_turned (f : ncinput) (t : nat) (levels rows : bool) : Prop :=
  same_turned f levels rows (f_u f t) /\ same_turned f levels rows (f_v f t) /\ same_turned f levels rows (f_t f t).
(** orientation of the axes as stored *)
Definition north_first (f : ncinput) : bool := Rltb (f_lat f 1%nat) (f_lat f 0%nat).
Definition top_first (f : ncinput) : bool := Rltb (f_lev f 0%nat) (f_lev f 1%nat).
(** zonal mean *)
Definition zonal_average (n : nat) (x : nat -> R) : R := Sum 0 n x / INR n.
(** slice [s] of the output holds the results [x] *)
Definition slice_of (f : ncinput) (x : outputs) (s : predigest_slice) : Prop :=
  out_lwa_baro x = Done (pd_lwa_baro s) /\ out_u_baro x = Done (pd_u_baro s) /\ out_uref x = Done (pd_uref s) /\
  gives (out_lwa x) (fun y => forall k j, pd_fawa s k j = zonal_average (f_nlon f) (y k j)) /\
  gives (out_u x) (fun y => forall k j, pd_ubar s k j = zonal_average (f_nlon f) (y k j)).
