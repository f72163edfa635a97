(** Model of the direct solver of QGFieldNHN22: compute_qref_and_fawa_first.f90, matrix_b4_inversion.f90,
    matrix_after_inversion.f90 and upward_sweep.f90 in /repo/src/falwa/f90_modules, and the wrapper
    _compute_reference_states_nhn22_hemispheric_wrapper, oopinterface.py:1808-1889.

    The lines on contours, areas and circulations and the coefficients of the elliptic equation are the same text
    as in compute_reference_states.f90, so the definitions of RefStates.v are used for them.  Arrays are functions of
    1-based indices; intent(out) arrays start as zeros (f2py).  The array fawa, which the wrapper only
    searches for NaN, and the checks for NaN are in Warnings.v.  Assumptions: jd = nd - jb, as set by the constructor, so that
    no index leaves its array; np.arange(0, kmax*dz, dz) has kmax elements (in exact arithmetic; see Heights.v). *)
From Verif Require Export RefStates.

Section DirInv.
  Context {A : Type} {N : Num A} {T : Trunc A}.
  Local Open Scope num_scope.

  (** s_jd is nd, the rows from equator to pole; s_npart is nnd; jb the rows left out at the equator *)
  Variable P : rsdims A.
  Variable jb : nat.
  Variables pv vort pt : arr3 A.
  Variable stat : nat -> A.
  Variable tbar0 : nat -> A.
  (** dgetrf followed by dgetri on an n x n matrix (scipy.linalg.lapack) *)
  Variable inverse : nat -> arr2 A -> arr2 A.

  Definition d_jd : nat := (s_jd P - jb)%nat.
  (** number of unknown rows, jd-2 *)
  Definition d_n : nat := (d_jd - 2)%nat.

  (** ** compute_qref_and_fawa_first.f90 *)
  (** lines 58-97 as lines 68-109 of compute_reference_states.f90 (RefStates.qref0); lines 144-154 *)
  Definition d_qref1 (j k : nat) : A := if Nat.leb 2 j then qref0 P pv j k / nsin (phi P j) else qref0 P pv j k.
  Definition d_qref (j k : nat) : A :=
    if Nat.eqb j 1 && interior P k then nofZ 2 * d_qref1 2 k - d_qref1 3 k else d_qref1 j k.
  (** lines 106-140: circulation of absolute vorticity *)
  Definition ckref (j k : nat) : A :=
    if interior P k && Nat.ltb j (s_jd P) then at_row P vort k j (ccn P vort k) nzero else nzero.
  (** lines 163-175: row i = j-1 of tjk(:,kmax-1) and sjk(:,:,kmax-1).  The temperature is taken at rows j-1 and j+1, not jj-1 and jj+1 *)
  Definition t_top (i : nat) : A :=
    let j := (i + 1)%nat in let jj := (j + jb)%nat in
    - s_dz P * s_r P * ncos (phi P jj) * nexp (- zlev P (s_kmax P - 1) * rkappa P / s_h P)
    * (zonal_mean P pt (j + 1) (s_kmax P) - zonal_mean P pt (j - 1) (s_kmax P))
    / (nofZ 4 * s_om P * nsin (phi P jj) * s_dphi P * s_h P * s_a P).
  Definition s_top (i m : nat) : A := if Nat.eqb i m then none else nzero.

  (** ** matrices of size n, loops as in the sources *)
  Definition mat_mul (n : nat) (x y : arr2 A) (i m : nat) : A := loop n (fun kk s => s + x i kk * y kk m).
  Definition mat_vec (n : nat) (x : arr2 A) (y : nat -> A) (i : nat) : A := loop n (fun kk s => s + x i kk * y kk).
  (** only the elements inside an array reach LAPACK *)
  Definition mclip (n : nat) (x : arr2 A) : arr2 A := fun i m =>
    if Nat.leb 1 i && Nat.leb i n && Nat.leb 1 m && Nat.leb m n then x i m else nzero.

  (** ** matrix_b4_inversion.f90 *)
  (** lines 13-15: its own latitude increment; lines 17-48 as lines 133-159 of compute_reference_states.f90 *)
  Definition dp : A := npi / nfloat (s_nlat P) 1.
  Definition D : rsdims A :=
    {| s_nlon := s_nlon P; s_nlat := s_nlat P; s_kmax := s_kmax P; s_jd := s_jd P; s_npart := s_npart P; s_maxits := s_maxits P;
       s_a := s_a P; s_om := s_om P; s_dz := s_dz P; s_eps := s_eps P; s_h := s_h P; s_dphi := dp; s_dlambda := s_dlambda P;
       s_r := s_r P; s_cp := s_cp P; s_rjac := s_rjac P |}.
  Definition row (i : nat) : nat := (i + 1 + jb)%nat.
  Definition d_ejk (i k : nat) : A := ajk D (row i) + bjk D (row i) + cjk D stat (row i) k + djk D stat (row i) k.
  (** line 49 *)
  Definition d_fjk (i k : nat) : A := - nhalf * s_a P * dp * (d_qref (row i + 1) k - d_qref (row i - 1) k).
  (** lines 54-57 *)
  Definition u_bound (k : nat) : A := ckref (jb + 1) k / (nofZ 2 * npi * s_a P) - s_om P * s_a P * ncos (dp * nofnat jb).
  (** lines 59-61: the second assignment wins *)
  Definition rj (k i : nat) : A :=
    let r1 := if Nat.eqb (i + 1) 2 then d_fjk i k - bjk D (row i) * u_bound k else d_fjk i k in
    if Nat.eqb (i + 1) (d_jd - 1) then d_fjk i k - ajk D (row i) * nzero else r1.
  (** lines 63-65 *)
  Definition cjj (k i m : nat) : A := if Nat.eqb i m then cjk D stat (row i) k else nzero.
  Definition djj (k i m : nat) : A := if Nat.eqb i m then djk D stat (row i) k else nzero.
  (** lines 67-74 *)
  Definition qjj0 (k i m : nat) : A :=
    if Nat.eqb m i then - d_ejk i k
    else if Nat.eqb m (i + 1) && Nat.ltb i d_n then ajk D (row i)
    else if Nat.eqb (m + 1) i && Nat.ltb 1 i then bjk D (row i) else nzero.
  (** lines 77-86 *)
  Definition qjj (k : nat) (sjj : arr2 A) (i m : nat) : A := qjj0 k i m + mat_mul d_n (cjj k) sjj i m.

  (** ** the loop over levels, oopinterface.py:1839-1870, with matrix_after_inversion.f90: after m passes,
      (sjk(:,:,kmax-1-m), tjk(:,kmax-1-m)) *)
  Definition d_inv (k : nat) (sjj : arr2 A) : arr2 A := inverse d_n (mclip d_n (qjj k sjj)).
  Definition s_next (k : nat) (sjj : arr2 A) : arr2 A := fun i j => - mat_mul d_n (d_inv k sjj) (djj k) i j.
  Definition t_next (k : nat) (sjj : arr2 A) (tj : nat -> A) : nat -> A :=
    mat_vec d_n (d_inv k sjj) (fun i => rj k i - mat_vec d_n (cjj k) tj i).
  Fixpoint down (m : nat) : arr2 A * (nat -> A) :=
    match m with
    | O => (s_top, t_top)
    | S m' => let (sjj, tj) := down m' in let k := (s_kmax P - m)%nat in (s_next k sjj, t_next k sjj tj)
    end.
  Definition sjk (k : nat) : arr2 A := fst (down (s_kmax P - 1 - k)).
  Definition tjk (k : nat) : nat -> A := snd (down (s_kmax P - 1 - k)).

  (** ** upward_sweep.f90 *)
  (** lines 19-34: pjk(:,k) *)
  Fixpoint pjk (k : nat) (i : nat) : A :=
    match k with S ((S _) as m) => mat_vec d_n (sjk m) (pjk m) i + tjk m i | _ => nzero end.
  (** lines 36-48: u(1,k) and u(jd,k) are not set for 1 < k < kmax and stay zero *)
  Definition d_u0 (j k : nat) : A :=
    if Nat.leb 2 j && Nat.leb j (d_jd - 1) then pjk k (j - 1)
    else if Nat.eqb j 1 && Nat.eqb k (s_kmax P) then ckref (1 + jb) k / (nofZ 2 * npi * s_a P) - s_om P * s_a P * ncos (dp * nofnat jb)
    else nzero.
  (** lines 50-56 *)
  Definition d_u1 (j k : nat) : A := if Nat.leb j (d_jd - 1) then d_u0 j k / ncos (phi D (j + jb)) else d_u0 j k.
  Definition d_uref (j k : nat) : A :=
    if Nat.eqb j d_jd then nofZ 2 * d_u1 (d_jd - 1) k - d_u1 (d_jd - 2) k else d_u1 j k.
  (** lines 58-91 *)
  Definition d_ty (k j : nat) : A :=
    - (nofZ 2 * s_om P * nsin (phi D (j + jb))) * ((d_uref j (k + 1) - d_uref j (k - 1)) / (nofZ 2 * s_dz P))
    * s_a P * s_h P * nexp (rkappa P * zlev P k / s_h P) / s_r P.
  Fixpoint d_tref0 (k j : nat) : A :=
    match j with
    | S (S ((S _) as m)) => d_tref0 k m + nofZ 2 * d_ty k (S m) * dp
    | _ => nzero
    end.
  Definition d_tg (k : nat) : A :=
    loop d_jd (fun j s => s + ncos (phi D (j + jb)) * d_tref0 k j) / loop d_jd (fun j s => s + ncos (phi D (j + jb))).
  Definition d_tref1 (j k : nat) : A := d_tref0 k j + (tbar0 k - d_tg k).
  Definition d_tref (j k : nat) : A :=
    if Nat.eqb k (s_kmax P) then d_tref1 j (s_kmax P - 1) - tbar0 (s_kmax P - 1)%nat + tbar0 (s_kmax P)
    else if Nat.eqb k 1 then d_tref1 j 2 - tbar0 2%nat + tbar0 1%nat
    else d_tref1 j k.
End DirInv.

(** the wrapper, oopinterface.py:1808-1889, with the attributes of the object.  The argument t0 of the call reaches only an unused
    array; the temperature used by upward_sweep is tn0 for both hemispheres (line 1879): [tn] below *)
Definition nhn22_dims {A} {N : Num A} (c : pconf A) : rsdims A :=
  {| s_nlon := p_nlon c; s_nlat := p_nlat c; s_kmax := p_kmax c; s_jd := (p_nlat c / 2 + p_nlat c mod 2)%nat; s_npart := p_nlat c; s_maxits := 0;
     s_a := p_a c; s_om := p_om c; s_dz := p_dz c; s_eps := nzero; s_h := p_h c; s_dphi := p_dphi c; s_dlambda := p_dlambda c;
     s_r := p_rr c; s_cp := p_cp c; s_rjac := nzero |}.
Definition nhn22_inversion {A} {N : Num A} {T : Trunc A} (c : pconf A) (inverse : nat -> arr2 A -> arr2 A) (tn : nat -> A)
  (pv uu vort pt : arr3 A) (t0 stat : nat -> A) : refstate A :=
  let P := nhn22_dims c in
  {| qref_ := fun j k => ndiv (d_qref P pv j k) (nmul (nofZ 2) (p_om c));
     uref_ := d_uref P (p_jb c) pv vort pt (one_based stat) inverse;
     ptref_ := d_tref P (p_jb c) pv vort pt (one_based stat) (one_based tn) inverse |}.

(** the second result of compute_qgpv_direct_inv.f90, lines 28-59, as stored by oopinterface.py:1747-1748 *)
Definition avort_nhn22 {A} {N : Num A} (c : pconf A) (f : fields A) : arr3 A :=
  avort (p_nlon c) (p_nlat c) (p_a c) (p_om c) (lat_nhn22 (p_nlat c)) (clip3 c (u_ f)) (clip3 c (v_ f)).
