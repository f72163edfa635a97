(** Model of /repo/src/falwa/legacy/beta_version.py: solve_uref_both_bc with use_real_Data=True (the default) and without
    plots.  All input arrays are taken to have matching shapes: (kmax, nlat) and nlat. *)
From Verif Require Export Base Grid.

(** beta_version.py:4-5 input_jk_output_index *)
Definition input_jk_output_index (j k kmax : nat) : nat := (j * kmax + k)%nat.

Section Legacy.
  Context {A : Type} {N : Num A}.
  Variable sqrt_ : A -> A.                        (* np.sqrt *)
  Local Open Scope num_scope.

  (** (row, column, coefficient), the arguments of csc_matrix *)
  Definition triplet : Type := (nat * nat * A)%type.
  (** csc_matrix((coeff, (row_index, col_index))): entries given more than once are added *)
  Definition csc (l : list triplet) (r c : nat) : A :=
    lsum (map snd (filter (fun t => Nat.eqb (fst (fst t)) r && Nat.eqb (snd (fst t)) c) l)).
  (** b[i] = v *)
  Definition assign (b : nat -> A) (p : nat * A) : nat -> A := fun i => if Nat.eqb i (fst p) then snd p else b i.
  Definition assign_all (b : nat -> A) (l : list (nat * A)) : nat -> A := fold_left assign l b.
  (** itertools.product(range(jmax1), range(1, kmax - 1)) *)
  Definition interior (jmax1 kmax : nat) : list (nat * nat) := list_prod (seq 0 jmax1) (seq 1 (kmax - 1 - 1)).

  (** beta_version.py:229-262: the triplets of one interior point *)
  Definition interior_block (jmax1 kmax : nat) (c_a c_b c_c c_d c_e : nat -> nat -> A) (p : nat * nat) : list triplet :=
    let (j, k) := p in let ind := input_jk_output_index j k kmax in
    (if Nat.ltb j (jmax1 - 1) then [(ind, input_jk_output_index (j + 1) k kmax, c_a j k)] else []) ++
    (if Nat.ltb 0 j then [(ind, input_jk_output_index (j - 1) k kmax, c_b j k)] else []) ++
    [(ind, input_jk_output_index j (k + 1) kmax, c_c j k);
     (ind, input_jk_output_index j (k - 1) kmax, c_d j k);
     (ind, input_jk_output_index j k kmax, c_e j k)].
  (** lines 265-275 *)
  Definition top_block (kmax j : nat) : list triplet :=
    let ind1 := input_jk_output_index j (kmax - 1) kmax in
    [(ind1, ind1, none); (ind1, input_jk_output_index j (kmax - 3) kmax, - none)].
  (** lines 303-313 *)
  Definition adiabatic_block (kmax j : nat) : list triplet :=
    let ind0 := input_jk_output_index j 0 kmax in [(ind0, ind0, - none); (ind0, input_jk_output_index j 2 kmax, none)].
  (** lines 318-324 *)
  Definition noslip_block (kmax j : nat) : list triplet :=
    let ind := input_jk_output_index j 0 kmax in [(ind, ind, none)].
  Definition common (jmax1 kmax : nat) (c_a c_b c_c c_d c_e : nat -> nat -> A) : list triplet :=
    flat_map (interior_block jmax1 kmax c_a c_b c_c c_d c_e) (interior jmax1 kmax) ++ flat_map (top_block kmax) (seq 0 jmax1).
  (** lines 315 and 326 *)
  Definition matrix_adiab (jmax1 kmax : nat) (c_a c_b c_c c_d c_e : nat -> nat -> A) : nat -> nat -> A :=
    csc (common jmax1 kmax c_a c_b c_c c_d c_e ++ flat_map (adiabatic_block kmax) (seq 0 jmax1)).
  Definition matrix_noslip (jmax1 kmax : nat) (c_a c_b c_c c_d c_e : nat -> nat -> A) : nat -> nat -> A :=
    csc (common jmax1 kmax c_a c_b c_c c_d c_e ++ flat_map (noslip_block kmax) (seq 0 jmax1)).
  (** the right sides: lines 227, 239, 267, then 305 on the copy and 320 on the original *)
  Definition right_common (jmax1 kmax : nat) (c_f : nat -> nat -> A) (uz2 : nat -> A) : nat -> A :=
    assign_all (assign_all (fun _ => nzero)
      (map (fun p => (input_jk_output_index (fst p) (snd p) kmax, c_f (fst p) (snd p))) (interior jmax1 kmax)))
      (map (fun j => (input_jk_output_index j (kmax - 1) kmax, uz2 j)) (seq 0 jmax1)).
  Definition right_bottom (jmax1 kmax : nat) (c_f : nat -> nat -> A) (uz2 bottom : nat -> A) : nat -> A :=
    assign_all (right_common jmax1 kmax c_f uz2) (map (fun j => (input_jk_output_index j 0 kmax, bottom j)) (seq 0 jmax1)).

  (** lines 335-340: rows 0 and jmax1 + 1 stay zero *)
  Definition map_back (jmax1 kmax : nat) (x : nat -> A) : nat -> nat -> A :=
    fun r k => if Nat.leb 1 r && Nat.leb r jmax1 then x ((r - 1) * kmax + k)%nat else nzero.

  (** lines 96-112 *)
  Definition lg_dz : A := nofZ 1000.
  Definition lg_aa : A := nofZ 6378000.
  Definition lg_r0 : A := nofZ 287.
  Definition lg_hh : A := nofZ 7000.
  Definition lg_cp : A := nofZ 1004.
  Definition lg_rkappa : A := lg_r0 / lg_cp.
  Definition lg_om : A := nofZ 729 / nofZ 10000000.
  Definition lg_dm (jmax1 : nat) : A := none / nofnat (jmax1 + 1).
  Definition lg_gl (jmax1 j : nat) : A := nofnat (j + 1) * lg_dm jmax1.
  Definition lg_gl_2 (jmax1 j : nat) : A := nofnat j * lg_dm jmax1.
  Definition lg_cosl (jmax1 j : nat) : A := sqrt_ (none - nsq (lg_gl jmax1 j)).
  Definition lg_alat (jmax1 j : nat) : A := nasin (lg_gl jmax1 j) * nofZ 180 / npi.
  Definition lg_alat_2 (jmax1 j : nat) : A := nasin (lg_gl_2 jmax1 j) * nofZ 180 / npi.
  Definition lg_dmdz (jmax1 : nat) : A := lg_dm jmax1 / lg_dz.
  (** line 180 *)
  Definition lg_cor (jmax1 j : nat) : A := nofZ 2 * lg_om * lg_gl jmax1 j.

  (** lines 184-187; qxx0 = -cx1/cor1 *)
  Definition lg_qxx0 (jmax1 : nat) (cx1 : nat -> nat -> A) (j k : nat) : A := - cx1 j k / lg_cor jmax1 j.
  Definition lg_c_f (jmax1 : nat) (cx1 : nat -> nat -> A) (j k : nat) : A :=
    let q := lg_qxx0 jmax1 cx1 in
    if Nat.eqb j 0 then
      (* c_f[0,:]; overwritten by c_f[-1,:] when there is one row only, which line 184 excludes *)
      q 1%nat k - nofZ 2 * q 0%nat k
    else if Nat.eqb j (jmax1 - 1) then q (jmax1 - 2)%nat k - nofZ 2 * q (jmax1 - 1)%nat k
    else q (j - 1)%nat k + q (j + 1)%nat k - nofZ 2 * q j k.

  (** lines 198-204 *)
  Definition lg_second (b : nat -> A) (j : nat) : A := b j + b (j + 2)%nat - nofZ 2 * b (j + 1)%nat.
  Definition lg_uz1 (jmax1 : nat) (b0 b1 : nat -> A) (j : nat) : A :=
    let den := nsq (lg_cor jmax1 j) * nsq lg_aa * lg_hh * nsq (lg_dm jmax1) in
    - lg_r0 * nsq (lg_cosl jmax1 j) * lg_second b1 j * nofZ 2 * lg_dz / den * nexp (- lg_rkappa * none / nofZ 7)
    - lg_r0 * nsq (lg_cosl jmax1 j) * lg_second b0 j * nofZ 2 * lg_dz / den * nexp (- lg_rkappa * nzero / nofZ 7).
  (** lines 208-212 *)
  Definition lg_uz2 (jmax1 kmax : nat) (dpt : nat -> A) (j : nat) : A :=
    - lg_r0 * nsq (lg_cosl jmax1 j) * nexp (- lg_rkappa * (nofnat kmax - nofZ 2) / nofZ 7) * (dpt (j + 2)%nat - dpt j)
      / (nsq (lg_cor jmax1 j) * lg_aa * lg_hh * lg_dmdz jmax1).
  (** lines 221-225, for 1 <= k < kmax - 1 *)
  Definition lg_c_c (jmax1 : nat) (eph : nat -> nat -> A) (j k : nat) : A := nsq (lg_dmdz jmax1) * eph j k * nexp (- lg_dz / (nofZ 2 * lg_hh)).
  Definition lg_c_d (jmax1 : nat) (eph : nat -> nat -> A) (j k : nat) : A := nsq (lg_dmdz jmax1) * eph j (k - 1)%nat * nexp (lg_dz / (nofZ 2 * lg_hh)).
  Definition lg_c_e (jmax1 : nat) (eph : nat -> nat -> A) (j k : nat) : A := - (none + none + lg_c_c jmax1 eph j k + lg_c_d jmax1 eph j k).

  (** interp1d without fill_value raises ValueError for a point outside the nodes *)
  Definition in_bounds (n : nat) (x : nat -> A) (m : nat) (v : nat -> A) : bool :=
    forallb (fun k => negb (v k <? x 0%nat) && negb (x (n - 1)%nat <? v k)) (seq 0 m).

  (** lines 367-388 for one level: recursion on the even rows, linear interpolation from them, removal of the mean.
      [u] is u_MassCorr, padded. *)
  Fixpoint even_rows (jmax1 : nat) (u : nat -> nat -> A) (k m : nat) : A :=
    match m with
    | O => nzero
    | S m' => let j := (2 * m)%nat in
        if Nat.ltb j jmax1 then
          even_rows jmax1 u k m' -
            nofZ 2 * lg_om * lg_gl jmax1 (j - 1) * lg_aa * lg_hh * lg_dmdz jmax1 / (lg_r0 * lg_cosl jmax1 (j - 1)) * (u (j - 1)%nat (k + 1)%nat - u (j - 1)%nat (k - 1)%nat)
        else nzero
    end.
  Definition spread (jmax1 : nat) (even : nat -> A) (r : nat) : A :=
    interp1d ((jmax1 + 2 + 1) / 2) (fun m => lg_gl_2 jmax1 (2 * m)) even (lg_gl_2 jmax1 r).
  Definition lg_T (jmax1 kmax : nat) (u : nat -> nat -> A) (r k : nat) : A :=
    if Nat.leb 1 k && Nat.ltb k (kmax - 2) then
      let t := spread jmax1 (even_rows jmax1 u k) in t r - nsum (jmax1 + 2) t / nofnat (jmax1 + 2)
    else nzero.

  (** -nlat//2 in x[-nlat//2:] is floor((-nlat)/2): the last (nlat + 1) / 2 elements *)
  Definition north (nlat : nat) : nat := (nlat - (nlat + 1) / 2)%nat.

  Record ref_state := RefState { rs_u_corr : nat -> nat -> A; rs_u : nat -> nat -> A; rs_t_corr : nat -> nat -> A; rs_t : nat -> nat -> A }.
  (** lines 344-400 for one boundary condition, arrays indexed [k][latitude] *)
  Definition finish (nlat kmax : nat) (ylat : nat -> A) (zmum zm_PT : nat -> nat -> A) (U : nat -> nat -> A) : ref_state :=
    let jmax1 := (nlat / 4)%nat in
    let corr := fun r k => if Nat.leb 1 r && Nat.leb r jmax1 then U r k * lg_cor jmax1 (r - 1) / lg_cosl jmax1 (r - 1) else nzero in
    let T := lg_T jmax1 kmax corr in
    let regular := fun (f : nat -> nat -> A) k l => if Nat.leb (north nlat) l then interp1d (jmax1 + 2) (lg_alat_2 jmax1) (fun r => f r k) (ylat l) else nzero in
    RefState (regular corr)
      (fun k l => if Nat.leb (north nlat) l then zmum k l - regular corr k l else nzero)
      (regular T)
      (fun k l => if Nat.leb (north nlat) l then zm_PT k l * nexp (- nofnat k / nofZ 7 * lg_rkappa) - regular T k l else nzero).

  (** the whole function.  [spsolve n M b] is scipy.sparse.linalg.spsolve.  The result pairs the no-slip with the adiabatic
      reference state, as in line 445. *)
  Definition solve_uref_both_bc (spsolve : nat -> (nat -> nat -> A) -> (nat -> A) -> nat -> A) (nlat kmax : nat)
    (zmum FAWA_cos : nat -> nat -> A) (ylat : nat -> A) (ephalf2 : nat -> nat -> A) (Delta_PT : nat -> A) (zm_PT : nat -> nat -> A) (Input_B0 Input_B1 : nat -> A)
    : res (ref_state * ref_state) :=
    let jmax1 := (nlat / 4)%nat in
    if negb (in_bounds nlat ylat jmax1 (lg_alat jmax1)) then Raise ValueError
    else if Nat.ltb jmax1 2 then Raise IndexError       (* qxx0[1,:] *)
    else if Nat.ltb kmax 2 then Raise IndexError        (* cor1[:,1] *)
    else if Nat.eqb kmax 2 then Raise ValueError        (* negative column index in csc_matrix *)
    else
      let gauss := fun (v : nat -> nat -> A) j k => interp1d nlat ylat (v k) (lg_alat jmax1 j) in
      let gauss2 := fun (v : nat -> A) r => interp1d nlat ylat v (lg_alat_2 jmax1 r) in
      let zmu1 := gauss zmum in let cx1 := gauss FAWA_cos in let eph := gauss ephalf2 in
      let c_f := lg_c_f jmax1 cx1 in
      let uz1 := lg_uz1 jmax1 (gauss2 Input_B0) (gauss2 Input_B1) in let uz2 := lg_uz2 jmax1 kmax (gauss2 Delta_PT) in
      let ones := fun _ _ : nat => none in
      let n := (jmax1 * kmax)%nat in
      let M_adiab := matrix_adiab jmax1 kmax ones ones (lg_c_c jmax1 eph) (lg_c_d jmax1 eph) (lg_c_e jmax1 eph) in
      let M := matrix_noslip jmax1 kmax ones ones (lg_c_c jmax1 eph) (lg_c_d jmax1 eph) (lg_c_e jmax1 eph) in
      let b_adiab := right_bottom jmax1 kmax c_f uz2 uz1 in
      let b := right_bottom jmax1 kmax c_f uz2 (fun j => zmu1 j 0%nat * lg_cosl jmax1 j / lg_cor jmax1 j) in
      let u_adiab := map_back jmax1 kmax (spsolve n M_adiab b_adiab) in
      let u := map_back jmax1 kmax (spsolve n M b) in
      if negb (in_bounds (jmax1 + 2) (lg_alat_2 jmax1) (nlat - north nlat) (fun l => ylat (north nlat + l)%nat)) then Raise ValueError
      else Done (finish nlat kmax ylat zmum zm_PT u, finish nlat kmax ylat zmum zm_PT u_adiab).
End Legacy.
Arguments triplet A : clear implicits.
Arguments ref_state A : clear implicits.
