(** Model of /repo/src/falwa/f90_modules/compute_qgpv.f90 and compute_qgpv_direct_inv.f90.  1-based
    indices (i longitude, j latitude from the south pole, k level).  Dropped: zonal means that are
    computed and never used (compute_qgpv.f90:25-55, 118-127; direct_inv 97-106). *)
From Verif Require Export Fortran Flux.

Section Qgpv.
  Context {A : Type} {N : Num A}.
  Local Open Scope num_scope.

  Variables (nlon nlat kmax : nat).
  Variables (aa omega hh : A).
  Definition dphi_q : A := npi / nofnat (nlat - 1).                    (* compute_qgpv.f90:24, direct_inv:20 *)

  (** latitude dphi*(j-d) - 90 degrees; compute_qgpv.f90:60-65 in degrees converted, direct_inv:29-31 in radians *)
  Definition lat_nh18 (j d : nat) : A :=
    (nofZ (-90) + nfloat j d * nofZ 180 / nofnat (nlat - 1)) * npi / nofZ 180.
  Definition lat_nhn22 (j d : nat) : A :=
    - nhalf * npi + npi * nfloat j d / nofnat (nlat - 1).

  Section Vorticity.
    Variable lat : nat -> nat -> A.
    (** compute_qgpv.f90:67-83, direct_inv:33-49: rows 2..nlat-1, wrap-around columns written last *)
    Definition east (i : nat) : nat := if Nat.eqb i nlon then 1%nat else if Nat.eqb i 1 then 2%nat else (i + 1)%nat.
    Definition west (i : nat) : nat := if Nat.eqb i nlon then (nlon - 1)%nat else if Nat.eqb i 1 then nlon else (i - 1)%nat.
    Definition avort_interior (u v : arr3 A) (i j k : nat) : A :=
      let av1 := nofZ 2 * omega * nsin (lat j 1%nat) in
      let av2 := (v (east i) j k - v (west i) j k) / (nofZ 2 * aa * ncos (lat j 1%nat) * dphi_q) in
      let av3 := - (u i (j + 1)%nat k * ncos (lat j 0%nat) - u i (j - 1)%nat k * ncos (lat j 2%nat))
                 / (nofZ 2 * aa * ncos (lat j 1%nat) * dphi_q) in
      av1 + av2 + av3.
    (** compute_qgpv.f90:86-93, direct_inv:52-59; the northern row is written last *)
    Definition avort (u v : arr3 A) (i j k : nat) : A :=
      if Nat.eqb j nlat then loop nlon (fun i' s => s + avort_interior u v i' (nlat - 1)%nat k / nofnat nlon)
      else if Nat.eqb j 1 then loop nlon (fun i' s => s + avort_interior u v i' 2%nat k / nofnat nlon)
      else avort_interior u v i j k.
    (** compute_qgpv.f90:98-105 *)
    Definition zmav (u v : arr3 A) (j k : nat) : A := loop nlon (fun i s => s + avort u v i j k / nofnat nlon).
  End Vorticity.

  Variable height : nat -> A.

  (** compute_qgpv.f90:115-119 *)
  Definition stretch (theta : arr3 A) (tp tm sp sm factor : A) (i j k : nat) : A :=
    let altp := nexp (- height (k + 1)%nat / hh) * (theta i j (k + 1)%nat - tp) / sp in
    let altm := nexp (- height (k - 1)%nat / hh) * (theta i j (k - 1)%nat - tm) / sm in
    (altp - altm) * factor / (height (k + 1)%nat - height (k - 1)%nat).

  (** compute_qgpv.f90:109-124; levels 1 and kmax keep the zeros of the f2py output array *)
  Definition qgpv_nh18 (u v theta : arr3 A) (t0 stat : nat -> A) : arr3 A :=
    fun i j k =>
      if Nat.leb 2 k && Nat.leb k (kmax - 1) then
        avort lat_nh18 u v i j k
        + nexp (height k / hh) * stretch theta (t0 (k + 1)%nat) (t0 (k - 1)%nat) (stat (k + 1)%nat) (stat (k - 1)%nat)
                                         (zmav lat_nh18 u v j k) i j k
      else nzero.

  (** direct_inv:75-103 *)
  Definition qgpv_nhn22 (jd : nat) (u v theta : arr3 A) (ts0 tn0 stats statn : nat -> A) : arr3 A :=
    fun i j k =>
      if Nat.leb 2 k && Nat.leb k (kmax - 1) then
        let f := nofZ 2 * omega * nsin (lat_nhn22 j 1%nat) in
        let st := if Nat.leb j jd then stats else statn in
        let t0 := if Nat.leb j jd then ts0 else tn0 in
        avort lat_nhn22 u v i j k
        + nexp (height k / hh) * stretch theta (t0 (k + 1)%nat) (t0 (k - 1)%nat) (st (k + 1)%nat) (st (k - 1)%nat) f i j k
      else nzero.
End Qgpv.
