(** Specification vocabulary for objects built from the output of hemisphere_to_globe. *)
From Verif Require Export ObjectSpec XarraySpec.
Open Scope R_scope.

(** the values of a variable on one latitude row: (level, longitude) *)
Definition row_values := nat -> nat -> R.
Definition minus_row (x : row_values) : row_values := fun l i => - x l i.

(** a hemisphere: at least three rows from the equator to at most 90 degrees or the other way round, on one side of the equator *)
Definition one_hemisphere (lat : list R) : Prop :=
  (3 <= length lat)%nat /\ (increasing lat \/ decreasing lat) /\ (nth 0 lat 0 = 0 \/ nth (length lat - 1) lat 0 = 0) /\
  forall j, (j < length lat)%nat -> -90 <= nth j lat 0 <= 90 /\ (near_equator (nth j lat 0) -> nth j lat 0 = 0).

(** the arguments of an object hold the variables called [nu], [nv], [nt] of a dataset, row by row or in the reverse order *)
Definition position (reversed : bool) (n j : nat) : nat := if reversed then (n - 1 - j)%nat else j.
Definition given_by (g : latset R row_values) (nu nv nt : string) (w : qgargs) : Prop :=
  let n := length (ls_lat g) in w_nlat w = n /\
  exists reversed u v t, lookup nu (ls_vars g) = Some u /\ lookup nv (ls_vars g) = Some v /\ lookup nt (ls_vars g) = Some t /\
    (forall j, (j < n)%nat -> w_ylat w j = nth (position reversed n j) (ls_lat g) 0) /\
    forall l j i, (l < w_nlev w)%nat -> (j < n)%nat -> (i < w_nlon w)%nat ->
      w_u w l j i = u (position reversed n j) l i /\ w_v w l j i = v (position reversed n j) l i /\ w_t w l j i = t (position reversed n j) l i.

(** sizes the computations need, except the latitudes *)
Definition workable (k : class) (w : qgargs) : Prop :=
  (2 <= w_nlon w)%nat /\ (3 <= if w_evenly w then w_nlev w else w_kmax w)%nat /\ (boundary k <= w_nlat w / 2)%nat /\
  match w_npart w with Some p => (2 <= p)%nat | None => True end.

(** the wave activity read from an object is the same at opposite latitudes *)
Definition same_activity (w : qgargs) (x : outputs) : Prop :=
  gives (out_lwa x) (fun y => forall k row i, (k < result_levels w)%nat -> (row < w_nlat w)%nat -> (i < w_nlon w)%nat -> y k row i = y k (w_nlat w - 1 - row)%nat i) /\
  gives (out_lwa_baro x) (fun y => forall row i, (row < w_nlat w)%nat -> (i < w_nlon w)%nat -> y row i = y (w_nlat w - 1 - row)%nat i).
