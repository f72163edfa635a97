(** Model of /repo/src/falwa/utilities.py.  Arrays are index functions with explicit sizes; a numpy
    slice assignment becomes a conditional on the index, later assignments first. *)
From Verif Require Export Basis Barotropic.

Section Utilities.
  Context {A : Type} {N : Num A}.
  Local Open Scope num_scope.

  (** numpy [x[-n:]] starts at this index for an axis of length len ([x[-0:]] is the whole axis) *)
  Definition tail_start (n len : nat) : nat := match n with O => O | _ => (len - n)%nat end.
  (** numpy [x[:n]] ends before this index *)
  Definition head_end (n len : nat) : nat := Nat.min n len.

  (** utilities.py:67-70 / 72-75: arrays that may or may not have a longitude axis *)
  Inductive thetaarr := Theta3 (t : nat -> nat -> nat -> A) | Theta2 (t : nat -> nat -> A).
  Inductive areaarr := Area2 (a : nat -> nat -> A) | Area1 (a : nat -> A).
  Definition zonal_mean_theta (nlon : nat) (t : thetaarr) : nat -> nat -> A :=
    match t with
    | Theta3 t => fun k j => nsum nlon (t k j) / nofnat nlon
    | Theta2 t => t
    end.
  Definition area_zonal_mean (nlon : nat) (a : areaarr) : nat -> A :=
    match a with
    | Area2 a => fun j => nsum nlon (a j) / nofnat nlon
    | Area1 a => a
    end.

  (** sum over rows lo <= j < hi *)
  Definition slice_sum (lo hi : nat) (f : nat -> A) : A := nsum (hi - lo) (fun r => f (lo + r)%nat).

  (** utilities.py:77-83 *)
  Definition hemi_mean (lo hi : nat) (zm : nat -> nat -> A) (az : nat -> A) (k : nat) : A :=
    slice_sum lo hi (fun j => zm k j * az j) / slice_sum lo hi az.

  (** utilities.py:85-90 *)
  Definition stat_of (kmax : nat) (height t0 : nat -> A) (k : nat) : A :=
    if Nat.eqb k (kmax - 1) then (t0 (kmax - 2)%nat - t0 (kmax - 1)%nat) / (height (kmax - 2)%nat - height (kmax - 1)%nat)
    else if Nat.eqb k 0 then (t0 1%nat - t0 0%nat) / (height 1%nat - height 0%nat)
    else (t0 (k + 1)%nat - t0 (k - 1)%nat) / (height (k + 1)%nat - height (k - 1)%nat).

  (** utilities.py:10-92; None: IndexError for kmax < 2 *)
  Definition static_stability (kmax nlat nlon : nat) (height : nat -> A) (area : areaarr) (theta : thetaarr)
    (s_et n_et : option nat) : option ((nat -> A) * (nat -> A) * (nat -> A) * (nat -> A)) :=
    let s := match s_et with None => Nat.div nlat 2 | Some s => s end in
    let n := match n_et with None => Nat.div nlat 2 | Some n => n end in
    let zm := zonal_mean_theta nlon theta in
    let az := area_zonal_mean nlon area in
    let t0_n := hemi_mean (tail_start n nlat) nlat zm az in
    let t0_s := hemi_mean 0 (head_end s nlat) zm az in
    if Nat.ltb kmax 2 then None
    else Some (t0_n, t0_s, stat_of kmax height t0_n, stat_of kmax height t0_s).

  (** ** compute_qgpv_givenvort, utilities.py:95-186 *)

  (** utilities.py:164-169; [garbage] is the content of the np.empty_like array *)
  Definition givenvort_zdiv (nlat nlat_s : nat) (unih : nat -> A) (scale_height : A)
    (pt : nat -> nat -> nat -> A) (t0_cn t0_cs stat_cn stat_cs : nat -> A)
    (garbage : nat -> nat -> nat -> A) (k j i : nat) : A :=
    if Nat.leb (tail_start nlat_s nlat) j
    then nexp (- unih k / scale_height) * (pt k j i - t0_cn k) / stat_cn k
    else if Nat.ltb j (head_end nlat_s nlat)
    then nexp (- unih k / scale_height) * (pt k j i - t0_cs k) / stat_cs k
    else garbage k j i.

  (** utilities.py:171-183 (the assignments inside the kk loop are repeated; the last repetition,
      made when every level of zdiv is filled, is the one that counts) *)
  Definition givenvort_dzdiv (kmax : nat) (unih : nat -> A) (scale_height : A)
    (zdiv : nat -> nat -> nat -> A) (k j i : nat) : A :=
    if Nat.eqb k (kmax - 1)
    then nexp (unih (kmax - 1)%nat / scale_height) * (zdiv (kmax - 1)%nat j i - zdiv (kmax - 2)%nat j i) / (unih (kmax - 1)%nat - unih (kmax - 2)%nat)
    else if Nat.eqb k 0
    then nexp (unih 0%nat / scale_height) * (zdiv 1%nat j i - zdiv 0%nat j i) / (unih 1%nat - unih 0%nat)
    else nexp (unih k / scale_height) * (zdiv (k + 1)%nat j i - zdiv (k - 1)%nat j i) / (unih (k + 1)%nat - unih (k - 1)%nat).

  (** utilities.py:151-186; result (qgpv, dzdiv); kmax >= 2 *)
  Definition compute_qgpv_givenvort (omega : A) (nlat kmax : nat) (unih ylat : nat -> A)
    (avort pt : nat -> nat -> nat -> A) (t0_cn t0_cs stat_cn stat_cs : nat -> A)
    (nlat_s : option nat) (scale_height : A) (garbage : nat -> nat -> nat -> A)
    : (nat -> nat -> nat -> A) * (nat -> nat -> nat -> A) :=
    let ns := match nlat_s with None => Nat.div nlat 2 | Some n => n end in
    let av1 := fun j => none * nofZ 2 * omega * nsin (deg2rad (ylat j)) in
    let zdiv := givenvort_zdiv nlat ns unih scale_height pt t0_cn t0_cs stat_cn stat_cs garbage in
    let dzdiv := givenvort_dzdiv kmax unih scale_height zdiv in
    (fun k j i => avort k j i + dzdiv k j i * av1 j, dzdiv).

  (** ** zonal_convergence, utilities.py:189-233 *)
  Definition zonal_diff (nlon : nat) (field : nat -> nat -> A) (j i : nat) : A :=
    if Nat.eqb i (nlon - 1) then field j 0%nat - field j (nlon - 2)%nat            (* line 225 *)
    else if Nat.eqb i 0 then field j 1%nat - field j (nlon - 1)%nat                (* line 224 *)
    else field j (i + 1)%nat - field j (i - 1)%nat.                               (* line 223 *)
  Definition zonal_convergence (nlon : nat) (field : nat -> nat -> A) (clat : nat -> A)
    (dlambda planet_radius tol : A) (j i : nat) : A :=
    if tol <? nabs (clat j)
    then zonal_diff nlon field j i * (- none / (planet_radius * clat j * nofZ 2 * dlambda))
    else zonal_diff nlon field j i.

  (** ** meridional_divergence, utilities.py:236-280 *)
  Definition meridional_diff (nlat : nat) (field : nat -> nat -> A) (clat : nat -> A) (j i : nat) : A :=
    if Nat.eqb j (nlat - 1)
    then field (nlat - 1)%nat i * clat (nlat - 1)%nat - field (nlat - 2)%nat i * clat (nlat - 2)%nat   (* line 272 *)
    else if Nat.eqb j 0 then field 1%nat i * clat 1%nat - field 0%nat i * clat 0%nat                   (* line 271 *)
    else field (j + 1)%nat i * clat (j + 1)%nat - field (j - 1)%nat i * clat (j - 1)%nat.              (* line 270 *)
  Definition meridional_divergence (nlat : nat) (field : nat -> nat -> A) (clat : nat -> A)
    (dphi planet_radius tol : A) (j i : nat) : A :=
    if tol <? nabs (clat j)
    then meridional_diff nlat field clat j i / (planet_radius * clat j * nofZ 2 * dphi)
    else meridional_diff nlat field clat j i.

  (** ** curl_2d, utilities.py:283-302 *)
  Definition curl_2d (nlat nlon : nat) (u v : nat -> nat -> A) (clat : nat -> A)
    (dlambda dphi planet_radius : A) (j i : nat) : A :=
    if orb (Nat.eqb j 0) (Nat.eqb j (nlat - 1)) then nzero
    else
      let dv :=
        if Nat.eqb i (nlon - 1) then (v j 0%nat - v j (nlon - 2)%nat) / (nofZ 2 * dlambda)
        else if Nat.eqb i 0 then (v j 1%nat - v j (nlon - 1)%nat) / (nofZ 2 * dlambda)
        else (v j (i + 1)%nat - v j (i - 1)%nat) / (nofZ 2 * dlambda) in
      let du := (u (j + 1)%nat i * clat (j + 1)%nat - u (j - 1)%nat i * clat (j - 1)%nat) / (nofZ 2 * dphi) in
      (dv - du) / planet_radius / clat j.

  (** ** z_derivative_of_prod, utilities.py:305-344 *)

  (** lines 330-333 *)
  Definition stability_temp (equator_idx : nat) (stat_n stat_s : nat -> A) (k j : nat) : A :=
    if Nat.ltb j (equator_idx - 1) then none * stat_s k
    else if Nat.eqb j (equator_idx - 1) then none * (none / nofZ 2) * (stat_s k + stat_n k)
    else none * stat_n k.

  (** line 336 *)
  Definition to_be_diff (stab : nat -> nat -> A) (density_decay : nat -> A) (gfunc : nat -> nat -> nat -> A)
    (k j i : nat) : A := density_decay k * gfunc k j i / stab k j.

  (** lines 337-342 *)
  Definition z_der (kmax : nat) (dz : A) (multiplier : nat -> nat -> A) (tbd : nat -> nat -> nat -> A)
    (k j i : nat) : A :=
    if Nat.eqb k (kmax - 1) then multiplier (kmax - 1)%nat j * (tbd (kmax - 1)%nat j i - tbd (kmax - 2)%nat j i) / dz
    else if Nat.eqb k 0 then multiplier 0%nat j * (tbd 1%nat j i - tbd 0%nat j i) / dz
    else (tbd (k + 1)%nat j i - tbd (k - 1)%nat j i) / (nofZ 2 * dz) * multiplier k j.

  (** None: ValueError, the concatenated stability (2*equator_idx - 1 rows) does not broadcast against
      gfunc's nlat rows, or IndexError for kmax < 2.  (The size-1 broadcasting cases
      equator_idx = 1 and nlat = 1 are not modelled.) *)
  Definition z_derivative_of_prod (stat_n stat_s : nat -> A) (kmax nlat equator_idx : nat) (dz : A)
    (density_decay : nat -> A) (gfunc : nat -> nat -> nat -> A) (multiplier : nat -> nat -> A)
    : option (nat -> nat -> nat -> A) :=
    if andb (Nat.eqb nlat (equator_idx - 1 + 1 + (equator_idx - 1))) (Nat.leb 2 kmax)
    then Some (z_der kmax dz multiplier (to_be_diff (stability_temp equator_idx stat_n stat_s) density_decay gfunc))
    else None.
End Utilities.
Arguments thetaarr : clear implicits.
Arguments areaarr : clear implicits.
