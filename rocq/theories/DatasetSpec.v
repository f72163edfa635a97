(** Specification vocabulary for datasets analysed field by field. *)
From Verif Require Export ObjectSpec XarraySpec DatasetSession.
From Verif Require Import PropertiesXarray3.
Open Scope R_scope.

(** the same physical and numerical settings *)
Definition same_settings (w b : qgargs) : Prop :=
  w_kmax w = w_kmax b /\ w_maxit w = w_maxit b /\ w_dz w = w_dz b /\ w_npart w = w_npart b /\ w_tol w = w_tol b /\ w_rjac w = w_rjac b /\
  w_H w = w_H b /\ w_cp w = w_cp b /\ w_rr w = w_rr b /\ w_om w = w_om b /\ w_a w = w_a b /\ w_nh w = w_nh b /\ w_evenly w = w_evenly b.
(** [w] are the arguments for a single field made of the part of [u], [v], [t] at the index [idx] of their extra dimensions: the latitudes in
    ascending order, the pressures in descending order, each value at its own pressure and latitude, and the settings of [b] *)
Record slice (b : qgargs) (u v t : dataarray R) (idx : list nat) (plev0 ylat0 xlon : list R) (w : qgargs) : Prop := {
  slice_sizes : w_nlon w = length xlon /\ w_nlat w = length ylat0 /\ w_nlev w = length plev0;
  slice_latitudes : forall j j', (j < j' < w_nlat w)%nat -> w_ylat w j < w_ylat w j';
  slice_pressures : forall l l', (l < l' < w_nlev w)%nat -> w_plev w l' < w_plev w l;
  slice_rows : forall j, (j < w_nlat w)%nat -> In (w_ylat w j) ylat0;
  slice_levels : forall l, (l < w_nlev w)%nat -> In (w_plev w l) plev0;
  slice_data : forall l j i l0 j0, (l < w_nlev w)%nat -> (j < w_nlat w)%nat -> (i < w_nlon w)%nat -> (l0 < length plev0)%nat -> (j0 < length ylat0)%nat ->
    w_plev w l = nth l0 plev0 0 -> w_ylat w j = nth j0 ylat0 0 ->
    w_u w l j i = da_at u (idx ++ [l0; j0; i]) /\ w_v w l j i = da_at v (idx ++ [l0; j0; i]) /\ w_t w l j i = da_at t (idx ++ [l0; j0; i]);
  slice_settings : same_settings w b }.
(** the forcing of the field with the labels [coord] *)
Definition forcing_at (coord : list (string * R)) (nc : option (dataarray R)) (n : field3) : Prop :=
  match nc with
  | None => forall l j i, n l j i = 0
  | Some a => exists s, part_of coord a s /\ forall l j i, n l j i = da_at s [l; j; i]
  end.
(** [r] is the element [c] of the result called [name] of a session *)
Definition is_result (name : string) (x : outputs) (c : list nat) (r : R) : Prop :=
  match lookup name properties with
  | Some (Volume p) | Some (Layer p) => exists y, p x = Done y /\ r = y (nth 0 c 0%nat) (nth 1 c 0%nat) (nth 2 c 0%nat)
  | Some (Section_ p) | Some (Map p) => exists y, p x = Done y /\ r = y (nth 0 c 0%nat) (nth 1 c 0%nat)
  | None => False
  end.
(** the three arrays have the given extra dimensions, followed by pressure, latitude and longitude, whose labels are monotonic *)
Definition input_dims (u : dataarray R) (other : list (string * list R)) (plev0 ylat0 xlon : list R) : Prop :=
  NoDup (da_names u) /\ (exists pn yn xn, da_dims u = other ++ [(pn, plev0); (yn, ylat0); (xn, xlon)]) /\ monotonic plev0 /\ monotonic ylat0.
(** a forcing in which each dimension name and each label occurs once *)
Definition unambiguous (nc : option (dataarray R)) : Prop :=
  match nc with None => True | Some a => NoDup (da_names a) /\ forall d l, lookup d (da_dims a) = Some l -> NoDup l end.
(** two datasets hold the same field at [idx] of the first and [idx2] of the second *)
Definition same_field (a b : dataarray R) (idx idx2 : list nat) (plev0 ylat0 xlon : list R) : Prop :=
  forall l j i, (l < length plev0)%nat -> (j < length ylat0)%nat -> (i < length xlon)%nat -> da_at a (idx ++ [l; j; i]) = da_at b (idx2 ++ [l; j; i]).
(** the labels of the axes of the results of a field *)
Definition field_axes (w : qgargs) (xlon : list R) : string -> list (string * list R) -> Prop :=
  documented (map (result_height w) (seq 0 (result_levels w))) (map (w_ylat w) (seq 0 (w_nlat w)))
    (map (fun r => w_ylat w (w_nlat w - result_rows w + r)%nat) (seq 0 (result_rows w))) xlon.
