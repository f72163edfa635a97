(** Model of the reference state solver of QGFieldNH18, /repo/src/falwa/f90_modules/compute_reference_states.f90,
    statement by statement.  Arrays are functions of the 1-based Fortran indices.  Local arrays that are not
    set before use are [garbage] arguments; qref, u and tref are intent(out) and start as zeros (f2py). *)
From Verif Require Export Fortran Flux Pipeline.

(** int(x), truncation towards zero *)
Class Trunc (A : Type) : Type := { ntrunc : A -> Z }.
#[export] Instance RTrunc : Trunc R :=
  {| ntrunc x := if Rle_dec 0 x then (up x - 1)%Z else (- (up (- x) - 1))%Z |}.

Section RefStates.
  Context {A : Type} {N : Num A} {T : Trunc A}.
  Local Open Scope num_scope.

  (** the scalar arguments, lines 1-7 *)
  Record rsdims := {
    s_nlon : nat; s_nlat : nat; s_kmax : nat; s_jd : nat; s_npart : nat; s_maxits : nat;
    s_a : A; s_om : A; s_dz : A; s_eps : A; s_h : A; s_dphi : A; s_dlambda : A; s_r : A; s_cp : A; s_rjac : A }.
  Variable P : rsdims.
  Variables pv uu pt : arr3 A.
  Variable stat : nat -> A.
  (** the initial contents of the local arrays cref and cbar *)
  Variables g_cref g_cbar : arr2 A.

  (** lines 35-42 *)
  Definition phi (nn : nat) : A := s_dphi P * nfloat nn 1.
  Definition alat (nn : nat) : A := nofZ 2 * npi * s_a P * s_a P * (none - nsin (phi nn)).
  Definition zlev (k : nat) : A := s_dz P * nfloat k 1.
  Definition rkappa : A := s_r P / s_cp P.

  (** lines 45-55: the zonal mean of x in row r of the hemisphere *)
  Definition zonal_mean (x : arr3 A) (r k : nat) : A :=
    loop (s_nlon P) (fun i s => s + x i (r + s_jd P - 1)%nat k / nofnat (s_nlon P)).
  Definition qbar := zonal_mean pv.
  Definition tbar := zonal_mean pt.
  Definition ubar := zonal_mean uu.

  (** lines 57-66 *)
  Definition row_lat (j : nat) : A := s_dphi P * nfloat j 1 - nhalf * npi.
  Definition tb (k : nat) : A :=
    loop (s_nlat P + 1 - s_jd P) (fun r s => s + ncos (row_lat (r + s_jd P - 1)) * tbar r k)
    / loop (s_nlat P + 1 - s_jd P) (fun r s => s + ncos (row_lat (r + s_jd P - 1))).

  (** lines 68-91, level k: maxval, minval, contour values, bins *)
  Definition cells : list (nat * nat) := do_ 1 (s_nlat P) (fun j => map (fun i => (i, j)) (range 1 (s_nlon P))).
  Definition qmax (k : nat) : A := lmax (map (fun p => pv (fst p) (snd p) k) cells).
  Definition qmin (k : nat) : A := lmin (map (fun p => pv (fst p) (snd p) k) cells).
  Definition dq (k : nat) : A := (qmax k - qmin k) / nfloat (s_npart P) 1.
  Definition qn (k nn : nat) : A := qmax k - dq k * nfloat nn 1.
  Definition bin (k : nat) (p : nat * nat) : Z := Z.succ (ntrunc ((qmax k - pv (fst p) (snd p) k) / dq k)).
  Definition da (j : nat) : A := s_a P * s_a P * s_dphi P * s_dlambda P * ncos (- (nhalf * npi) + s_dphi P * nfloat j 1).
  Definition an (k nn : nat) : A :=
    fold_left (fun s p => if Z.eqb (bin k p) (Z.of_nat nn) then s + da (snd p) else s) cells nzero.
  Definition cn (k nn : nat) : A :=
    fold_left (fun s p => if Z.eqb (bin k p) (Z.of_nat nn) then s + da (snd p) * pv (fst p) (snd p) k else s) cells nzero.
  (** lines 92-97: x(1) = 0, x(nn) = x(nn-1) + y(nn) *)
  Fixpoint cumulate (y : nat -> A) (nn : nat) : A :=
    match nn with O => nzero | S O => nzero | S m => cumulate y m + y nn end.
  Definition aan (k : nat) := cumulate (an k).
  Definition ccn (k : nat) := cumulate (cn k).
  (** lines 98-106: the value at row j, [old] where no contour brackets the area *)
  Definition bracketed (k j nn : nat) : bool := nleb (aan k nn) (alat j) && nltb (alat j) (aan k (nn + 1)).
  Definition at_row (k j : nat) (value : nat -> A) (old : A) : A :=
    fold_left (fun q nn =>
      if bracketed k j nn
      then let dd := (alat j - aan k nn) / (aan k (nn + 1)%nat - aan k nn) in value nn * (none - dd) + value (nn + 1)%nat * dd
      else q) (range 1 (s_npart P - 1)) old.
  Definition interior (k : nat) : bool := Nat.leb 2 k && Nat.leb k (s_kmax P - 1).
  Definition qref0 (j k : nat) : A :=
    if interior k then if Nat.eqb j (s_jd P) then qmax k else at_row k j (qn k) nzero else nzero.
  Definition cref (j k : nat) : A :=
    if interior k && Nat.ltb j (s_jd P) then at_row k j (ccn k) (g_cref j k) else g_cref j k.
  (** lines 110-115, m rows from the pole *)
  Fixpoint cbar_from (k m : nat) : A :=
    match m with
    | O => nzero
    | S m' => let j := (s_jd P - m)%nat in
        cbar_from k m' + nhalf * (qbar (j + 1) k + qbar j k) * s_a P * s_dphi P * nofZ 2 * npi * s_a P
                         * ncos (s_dphi P * (nofnat j - nhalf))
    end.
  Definition cbar (j k : nat) : A := if interior k then cbar_from k (s_jd P - j) else g_cbar j k.

  (** lines 120-130 *)
  Definition qref1 (j k : nat) : A := if Nat.leb 2 j then qref0 j k / (nofZ 2 * s_om P * nsin (phi j)) else qref0 j k.
  Definition rs_qref (j k : nat) : A :=
    if Nat.eqb j 1 && interior k then nofZ 2 * qref1 2 k - qref1 3 k else qref1 j k.

  (** lines 133-162 *)
  Definition phip (j : nat) : A := (nofnat j - nhalf) * s_dphi P.
  Definition phim (j : nat) : A := (nofnat j - (none + nhalf)) * s_dphi P.
  Definition fact (j : nat) : A :=
    nofZ 4 * s_om P * s_om P * s_h P * s_a P * s_a P * nsin (phi j) * s_dphi P * s_dphi P / (s_dz P * s_dz P * s_r P * ncos (phi j)).
  Definition half_level (z1 z2 st1 st2 : A) : A :=
    let zp := nhalf * (z1 + z2) in
    nexp (- zp / s_h P) * nexp (rkappa * zp / s_h P) / (nhalf * (st1 + st2)).
  Definition ajk (j : nat) : A := none / (nsin (phip j) * ncos (phip j)).
  Definition bjk (j : nat) : A := none / (nsin (phim j) * ncos (phim j)).
  Definition cjk (j k : nat) : A :=
    half_level (zlev (k + 1)) (zlev k) (stat (k + 1)%nat) (stat k) * fact j * nexp (zlev k / s_h P).
  Definition djk (j k : nat) : A :=
    half_level (zlev (k - 1)) (zlev k) (stat (k - 1)%nat) (stat k) * fact j * nexp (zlev k / s_h P).
  Definition ejk (j k : nat) : A := - ajk j - bjk j - cjk j k - djk j k.
  Definition fjk (j k : nat) : A := - s_om P * s_a P * s_dphi P * (rs_qref (j + 1) k - rs_qref (j - 1) k).
  (** lines 164-170 *)
  Definition interior_points : list (nat * nat) :=
    do_ 2 (s_jd P - 1) (fun j => map (fun k => (j, k)) (range 2 (s_kmax P - 1))).
  Definition anormf : A := fold_left (fun s p => s + nabs (fjk (fst p) (snd p))) interior_points nzero.

  (** ** lines 172-217: successive over-relaxation.  State: the wind (times cos) and anorm *)
  Definition set2 (x : arr2 A) (j k : nat) (v : A) : arr2 A := fun j' k' => if Nat.eqb j' j && Nat.eqb k' k then v else x j' k'.
  Definition resid (u : arr2 A) (j k : nat) : A :=
    ajk j * u (j + 1)%nat k + bjk j * u (j - 1)%nat k + cjk j k * u j (k + 1)%nat + djk j k * u j (k - 1)%nat + ejk j k * u j k - fjk j k.
  Definition point (nnn : nat) (omega : A) (j : nat) (s : arr2 A * A) (k : nat) : arr2 A * A :=
    if Nat.eqb ((j + k) mod 2) (nnn mod 2) then
      let (u, anorm) := s in
      let r := resid u j k in
      (set2 u j k (if neqb (ejk j k) nzero then nzero else u j k - omega * r / ejk j k), anorm + nabs r)
    else s.
  (** line 189-190 *)
  Definition uz_top (j : nat) : A :=
    let k := (s_kmax P - 1)%nat in
    s_dz P * s_r P * ncos (phi j) * nexp (- zlev k * rkappa / s_h P)
    * (tbar (j + 1) k - tbar (j - 1) k) / (nofZ 2 * s_om P * nsin (phi j) * s_dphi P * s_h P * s_a P).
  Definition sor_row (nnn : nat) (omega : A) (s : arr2 A * A) (j : nat) : arr2 A * A :=
    let (u, anorm) := fold_left (point nnn omega j) (range 2 (s_kmax P - 1)) s in
    let u1 := set2 u j 1 nzero in
    (set2 u1 j (s_kmax P) (u1 j (s_kmax P - 2)%nat - uz_top j), anorm).
  (** the value given to u(1,:) in line 195 *)
  Definition u_equator (k : nat) : A := ubar 1 k + (cref 1 k - cbar 1 k) / (nofZ 2 * npi * s_a P).
  Definition sweep (nnn : nat) (omega : A) (u : arr2 A) : arr2 A * A :=
    let (u1, anorm) := fold_left (sor_row nnn omega) (range 2 (s_jd P - 1)) (u, nzero) in
    (fun j k => if Nat.eqb j 1 then u_equator k else if Nat.eqb j (s_jd P) then nzero else u1 j k, anorm).
  Definition next_omega (nnn : nat) (omega : A) : A :=
    if Nat.eqb nnn 1 then none / (none - nhalf * nsq (s_rjac P)) else none / (none - none / nofZ 4 * nsq (s_rjac P) * omega).
  (** [fuel] iterations left; the second component is nnn after the loop *)
  Fixpoint iterate (fuel nnn : nat) (omega : A) (u : arr2 A) : arr2 A * nat :=
    match fuel with
    | O => (fun _ _ => nzero, nnn)
    | S f =>
        let (u', anorm) := sweep nnn omega u in
        if Nat.ltb 1 nnn && nltb anorm (s_eps P * anormf) then (u', nnn)
        else iterate f (S nnn) (next_omega nnn omega) u'
    end.
  Definition solution : arr2 A * nat := iterate (s_maxits P) 1 none (fun _ _ => nzero).
  Definition rs_num_of_iter : nat := snd solution.

  (** lines 224-229 *)
  Definition uref1 (j k : nat) : A :=
    if Nat.eqb j 1 then ubar 1 k else fst solution j k / ncos (phi j).
  Definition rs_uref (j k : nat) : A :=
    if Nat.eqb j (s_jd P) then nofZ 2 * uref1 (s_jd P - 1) k - uref1 (s_jd P - 2) k else uref1 j k.

  (** lines 231-258 *)
  Definition ty (k j : nat) : A :=
    - (nofZ 2 * s_om P * nsin (phi j)) * ((rs_uref j (k + 1) - rs_uref j (k - 1)) / (nofZ 2 * s_dz P))
    * s_a P * s_h P * nexp (rkappa * zlev k / s_h P) / s_r P.
  Fixpoint tref0 (k j : nat) : A :=
    match j with
    | S (S ((S _) as m)) => tref0 k m + nofZ 2 * ty k (S m) * s_dphi P
    | _ => nzero
    end.
  Definition tg (k : nat) : A :=
    loop (s_jd P) (fun j s => s + ncos (phi j) * tref0 k j) / loop (s_jd P) (fun j s => s + ncos (phi j)).
  Definition tref1 (j k : nat) : A := tref0 k j + (tb k - tg k).
  Definition rs_tref (j k : nat) : A :=
    if Nat.eqb k (s_kmax P) then tref1 j (s_kmax P - 1) - tb (s_kmax P - 1) + tb (s_kmax P)
    else if Nat.eqb k 1 then tref1 j 2 - tb 2 + tb 1
    else tref1 j k.
End RefStates.
Arguments rsdims : clear implicits.

(** QGFieldNH18._compute_reference_state_wrapper, oopinterface.py:1632-1674: the solver with the attributes of the
    object; npart, maxit, tol and rjac are constructor arguments.  stat is static_stability, 0-based *)
Definition nh18_dims {A} (c : pconf A) (npart maxit : nat) (tol rjac : A) : rsdims A :=
  {| s_nlon := p_nlon c; s_nlat := p_nlat c; s_kmax := p_kmax c; s_jd := p_eq c; s_npart := npart; s_maxits := maxit;
     s_a := p_a c; s_om := p_om c; s_dz := p_dz c; s_eps := tol; s_h := p_h c; s_dphi := p_dphi c; s_dlambda := p_dlambda c;
     s_r := p_rr c; s_cp := p_cp c; s_rjac := rjac |}.
Definition nh18_solver {A} {N : Num A} {T : Trunc A} (c : pconf A) (npart maxit : nat) (tol rjac : A) (stat : nat -> A) (g_cref g_cbar : arr2 A)
  (pv uu pt : arr3 A) : refstate A :=
  let P := nh18_dims c npart maxit tol rjac in
  {| qref_ := rs_qref P pv; uref_ := rs_uref P pv uu pt (one_based stat) g_cref g_cbar;
     ptref_ := rs_tref P pv uu pt (one_based stat) g_cref g_cbar |}.
