(** The array references of the Fortran routines in /repo/src/falwa/f90_modules other than the flux kernel (whose references
    Flux.v lists): for each routine, the name, the declared extents and the subscripts of every array element it reads or
    writes, in the order of the source.  x(j,:) and x(:,:) are all the elements of the section.  An element that is referred to
    several times in a statement is listed once; one that is referred to only when a comparison of values turns out one way is listed always.
    The routines are compiled without bounds checking, so nothing stops a reference outside the declared extents.
    An extent jd-2 is that of the declaration; below zero it is zero, as in Fortran. *)
From Coq Require Import ZArith List String.
From Verif Require Export DirInv Object.
Import ListNotations.

Definition aref : Type := string * list nat * list Z.
(** do x = lo, hi with the loop variable as an integer *)
Definition doz (lo hi : nat) (body : Z -> list aref) : list aref := do_ lo hi (fun n => body (Z.of_nat n)).

Section Routines.
  Local Open Scope Z_scope.
  Local Open Scope string_scope.
  Local Open Scope list_scope.
  Local Notation z := Z.of_nat.
  Variables (nlon nlat kmax npart nd jb jd : nat).
  (** shapes of the declared arrays: a field, a horizontal field, a profile *)
  Local Notation d3 := [nlon; nlat; kmax].
  Local Notation h3 := [nlon; nd; kmax].
  Local Notation d2 := [nlon; nlat].
  Local Notation h2 := [nlon; nd].
  Local Notation zm := [nlat; kmax].
  Local Notation q2 := [nd; kmax].
  Local Notation r2 := [jd; kmax].
  Local Notation m := (jd - 2)%nat.

  (** compute_qgpv.f90 (NH18) and compute_qgpv_direct_inv.f90 (NHN22) up to the zonal mean of the vorticity: lines 59-105 of
      the one, 28-71 of the other, with the names of the first ([ut], [vt] are uq, vq in the second) *)
  Definition vorticity_refs : list aref :=
    doz 1 kmax (fun kk =>
      doz 2 (nlat - 1) (fun j =>
        doz 2 (nlon - 1) (fun i =>
          [("vt", d3, [i + 1; j; kk]); ("vt", d3, [i - 1; j; kk]); ("ut", d3, [i; j + 1; kk]); ("ut", d3, [i; j - 1; kk]); ("avort", d3, [i; j; kk])]) ++
        [("vt", d3, [2; j; kk]); ("vt", d3, [z nlon; j; kk]); ("ut", d3, [1; j + 1; kk]); ("ut", d3, [1; j - 1; kk]); ("avort", d3, [1; j; kk]);
         ("vt", d3, [1; j; kk]); ("vt", d3, [z nlon - 1; j; kk]); ("ut", d3, [z nlon; j + 1; kk]); ("ut", d3, [z nlon; j - 1; kk]);
         ("avort", d3, [z nlon; j; kk])]) ++
      doz 1 nlon (fun i => [("avort", d3, [i; 2; kk]); ("avort", d3, [i; z nlat - 1; kk])]) ++
      doz 1 nlon (fun i => [("avort", d3, [i; 1; kk]); ("avort", d3, [i; z nlat; kk])])) ++
    doz 1 kmax (fun kk => doz 1 nlat (fun j => ("zmav", zm, [j; kk]) :: doz 1 nlon (fun i => [("avort", d3, [i; j; kk])]))).
  (** the zonal mean of the PV: compute_qgpv.f90:128-135, compute_qgpv_direct_inv.f90:104-111 *)
  Definition zonal_pv_refs : list aref :=
    doz 1 kmax (fun kk => doz 1 nlat (fun j => ("zmpv", zm, [j; kk]) :: doz 1 nlon (fun i => [("pv", d3, [i; j; kk])]))).
  (** compute_qgpv.f90:36-55 and 109-135 *)
  Definition qgpv_refs : list aref :=
    doz 1 nlat (fun j => doz 1 kmax (fun k => doz 1 nlon (fun i =>
      [("tzd", zm, [j; k]); ("theta", d3, [i; j; k]); ("uzd", zm, [j; k]); ("ut", d3, [i; j; k]); ("vzd", zm, [j; k]); ("vt", d3, [i; j; k]);
       ("tz", zm, [j; k]); ("uz", zm, [j; k]); ("vz", zm, [j; k])]))) ++
    doz 1 nlat (fun j => ("zmst", [nlat], [j]) :: doz 1 nlon (fun i => [("st", d2, [i; j])])) ++
    vorticity_refs ++
    doz 2 (kmax - 1) (fun kk => doz 1 nlat (fun j => doz 1 nlon (fun i =>
      [("height", [kmax], [kk + 1]); ("theta", d3, [i; j; kk + 1]); ("t0", [kmax], [kk + 1]); ("stat", [kmax], [kk + 1]);
       ("height", [kmax], [kk - 1]); ("theta", d3, [i; j; kk - 1]); ("t0", [kmax], [kk - 1]); ("stat", [kmax], [kk - 1]);
       ("zmav", zm, [j; kk]); ("pv", d3, [i; j; kk]); ("avort", d3, [i; j; kk]); ("height", [kmax], [kk])]))) ++
    zonal_pv_refs.
  (** compute_qgpv_direct_inv.f90:75-111; one of the two hemispheres' profiles is read at a row, both are listed *)
  Definition qgpv_direct_inv_refs : list aref :=
    vorticity_refs ++
    doz 2 (kmax - 1) (fun kk => doz 1 nlat (fun j =>
      [("stats", [kmax], [kk + 1]); ("stats", [kmax], [kk - 1]); ("ts0", [kmax], [kk + 1]); ("ts0", [kmax], [kk - 1]);
       ("statn", [kmax], [kk + 1]); ("statn", [kmax], [kk - 1]); ("tn0", [kmax], [kk + 1]); ("tn0", [kmax], [kk - 1])] ++
      doz 1 nlon (fun i =>
        [("tq", d3, [i; j; kk + 1]); ("tq", d3, [i; j; kk - 1]); ("height", [kmax], [kk + 1]); ("height", [kmax], [kk - 1]);
         ("pv", d3, [i; j; kk]); ("avort", d3, [i; j; kk]); ("height", [kmax], [kk])]))) ++
    zonal_pv_refs.

  (** the binning of one level, compute_reference_states.f90:74-97, compute_qref_and_fawa_first.f90:63-86 and 109-132.  [ind i j]
      is the bin of the cell (i, j), lines 86, 75 and 121; [x2] is the copy of the level *)
  Definition binning_refs (x2 : string) (ind : Z -> Z -> Z) : list aref :=
    doz 1 nlat (fun j => doz 1 nlon (fun i => [(x2, d2, [i; j])])) ++
    doz 1 npart (fun nn => [("qn", [npart], [nn]); ("an", [npart], [nn]); ("cn", [npart], [nn])]) ++
    doz 1 nlat (fun j => doz 1 nlon (fun i =>
      [(x2, d2, [i; j]); ("an", [npart], [ind i j]); ("cn", [npart], [ind i j])])) ++
    [("aan", [npart], [1]); ("ccn", [npart], [1])] ++
    doz 2 npart (fun nn =>
      [("aan", [npart], [nn]); ("aan", [npart], [nn - 1]); ("an", [npart], [nn]); ("ccn", [npart], [nn]); ("ccn", [npart], [nn - 1]); ("cn", [npart], [nn])]).
  (** the search for the contour of each row, compute_reference_states.f90:98-106, compute_qref_and_fawa_first.f90:87-95 and
      133-140; [out] are the arrays assigned *)
  Definition search_refs (rows : nat) (out : list string) (k : Z) : list aref :=
    doz 1 (rows - 1) (fun j => doz 1 (npart - 1) (fun nn =>
      [("aan", [npart], [nn]); ("alat", [rows], [j]); ("aan", [npart], [nn + 1]); ("qn", [npart], [nn]); ("qn", [npart], [nn + 1]);
       ("ccn", [npart], [nn]); ("ccn", [npart], [nn + 1])] ++ map (fun o => (o, [rows; kmax], [j; k])) out)).
  (** compute_reference_states.f90:35-55, compute_qref_and_fawa_first.f90:33-53 *)
  Definition zonal_means_refs (rows : nat) : list aref :=
    doz 1 rows (fun nn => [("phi", [rows], [nn]); ("alat", [rows], [nn])]) ++
    doz 1 kmax (fun k => [("z", [kmax], [k])]) ++
    doz rows nlat (fun j => doz 1 kmax (fun k =>
      map (fun o => (o, [rows; kmax], [j - (z rows - 1); k])) ["qbar"; "tbar"; "ubar"] ++
      doz 1 nlon (fun i => [("pv", d3, [i; j; k]); ("pt", d3, [i; j; k]); ("uu", d3, [i; j; k])]))).
  (** copies of a level *)
  Definition level_copy_refs (x x2 : string) (k : Z) : list aref :=
    doz 1 nlat (fun j => doz 1 nlon (fun i => [(x, d3, [i; j; k]); (x2, d2, [i; j])])).
  (** compute_reference_states.f90:108-115, compute_qref_and_fawa_first.f90:97-104 *)
  Definition cbar_refs (rows : nat) (k : Z) : list aref :=
    [("qref", [rows; kmax], [z rows; k]); ("cbar", [rows; kmax], [z rows; k])] ++
    doz 1 (rows - 1) (fun j =>
      [("cbar", [rows; kmax], [j; k]); ("cbar", [rows; kmax], [j + 1; k]); ("qbar", [rows; kmax], [j + 1; k]); ("qbar", [rows; kmax], [j; k])]).
  (** compute_reference_states.f90:122-130, compute_qref_and_fawa_first.f90:146-154 *)
  Definition qref_edge_refs (rows : nat) : list aref :=
    doz 2 rows (fun j => doz 1 kmax (fun k => [("qref", [rows; kmax], [j; k])])) ++
    doz 2 (kmax - 1) (fun k => [("qref", [rows; kmax], [1; k]); ("qref", [rows; kmax], [2; k]); ("qref", [rows; kmax], [3; k])]).

  (** a pass of the iteration, compute_reference_states.f90:176-195; the rows and levels of both colours *)
  Definition pass_refs : list aref :=
    doz 2 (jd - 1) (fun j =>
      doz 2 (kmax - 1) (fun k =>
        [("ajk", r2, [j; k]); ("u", r2, [j + 1; k]); ("bjk", r2, [j; k]); ("u", r2, [j - 1; k]); ("cjk", r2, [j; k]); ("u", r2, [j; k + 1]);
         ("djk", r2, [j; k]); ("u", r2, [j; k - 1]); ("ejk", r2, [j; k]); ("u", r2, [j; k]); ("fjk", r2, [j; k])]) ++
      [("u", r2, [j; 1]); ("z", [kmax], [z kmax - 1]); ("tbar", r2, [j + 1; z kmax - 1]); ("tbar", r2, [j - 1; z kmax - 1]);
       ("u", r2, [j; z kmax]); ("u", r2, [j; z kmax - 2])]) ++
    doz 1 kmax (fun k => [("u", r2, [z jd; k]); ("u", r2, [1; k]); ("ubar", r2, [1; k]); ("cref", r2, [1; k]); ("cbar", r2, [1; k])]).
  (** compute_reference_states.f90; [ind k i j] is the bin of a cell of level k (line 86).  All passes refer to the same elements *)
  Definition reference_states_refs (ind : Z -> Z -> Z -> Z) : list aref :=
    zonal_means_refs jd ++
    doz 1 kmax (fun k => ("tb", [kmax], [k]) :: doz jd nlat (fun j => [("tbar", r2, [j - (z jd - 1); k])])) ++
    doz 2 (kmax - 1) (fun k =>
      level_copy_refs "pv" "pv2" k ++ level_copy_refs "uu" "u2" k ++ level_copy_refs "pt" "pt2" k ++
      binning_refs "pv2" (ind k) ++ search_refs jd ["qref"; "cref"] k ++ cbar_refs jd k) ++
    qref_edge_refs jd ++
    (* lines 135-162 *)
    doz 2 (jd - 1) (fun j => doz 2 (kmax - 1) (fun k =>
      [("z", [kmax], [k + 1]); ("z", [kmax], [k]); ("z", [kmax], [k - 1]); ("stat", [kmax], [k + 1]); ("stat", [kmax], [k]); ("stat", [kmax], [k - 1]);
       ("ajk", r2, [j; k]); ("bjk", r2, [j; k]); ("cjk", r2, [j; k]); ("djk", r2, [j; k]); ("ejk", r2, [j; k]); ("fjk", r2, [j; k]);
       ("qref", r2, [j + 1; k]); ("qref", r2, [j - 1; k])])) ++
    (* lines 166-170 *)
    doz 2 (jd - 1) (fun j => doz 2 (kmax - 1) (fun k => [("fjk", r2, [j; k])])) ++
    pass_refs ++
    (* lines 215-229 *)
    doz 1 jd (fun j => doz 1 kmax (fun k => [("u", r2, [j; k])])) ++
    doz 2 (jd - 1) (fun j => doz 1 kmax (fun k => [("u", r2, [j; k])])) ++
    doz 1 kmax (fun k => [("u", r2, [1; k]); ("ubar", r2, [1; k]); ("u", r2, [z jd; k]); ("u", r2, [z jd - 1; k]); ("u", r2, [z jd - 2; k])]) ++
    (* lines 233-258 *)
    doz 2 (kmax - 1) (fun k =>
      [("tref", r2, [1; k]); ("tref", r2, [2; k])] ++
      doz 2 (jd - 1) (fun j => [("u", r2, [j; k + 1]); ("u", r2, [j; k - 1]); ("tref", r2, [j + 1; k]); ("tref", r2, [j - 1; k])]) ++
      [("tg", [kmax], [k]); ("tb", [kmax], [k])] ++
      doz 1 jd (fun j => [("tref", r2, [j; k])])) ++
    doz 1 jd (fun j => [("tref", r2, [j; 1]); ("tref", r2, [j; 2]); ("tref", r2, [j; z kmax]); ("tref", r2, [j; z kmax - 1])]) ++
    [("tb", [kmax], [2]); ("tb", [kmax], [1]); ("tb", [kmax], [z kmax - 1]); ("tb", [kmax], [z kmax])].

  (** compute_qref_and_fawa_first.f90; [npart] is nnd; [ind k i j] and [ind' k i j] are the bins of a cell by its PV (line 75) and by its
      vorticity (line 121) *)
  Definition qref_and_fawa_first_refs (ind ind' : Z -> Z -> Z -> Z) : list aref :=
    zonal_means_refs nd ++
    doz 1 kmax (fun k => [("tb", [kmax], [k]); ("tn0", [kmax], [k])]) ++
    doz 2 (kmax - 1) (fun k =>
      level_copy_refs "pv" "pv2" k ++ level_copy_refs "vort" "vort2" k ++
      binning_refs "pv2" (ind k) ++ search_refs nd ["qref"; "cref"] k ++ cbar_refs nd k ++
      binning_refs "vort2" (ind' k) ++ search_refs nd ["ckref"] k) ++
    qref_edge_refs nd ++
    (* lines 157-165 *)
    doz 1 nd (fun j => doz 1 kmax (fun k => [("fawa", q2, [j; k]); ("cref", q2, [j; k]); ("cbar", q2, [j; k])])) ++
    doz 1 m (fun j => doz 1 (kmax - 1) (fun k => ("tjk", [m; kmax - 1]%nat, [j; k]) :: doz 1 m (fun i => [("sjk", [m; m; kmax - 1]%nat, [i; j; k])]))) ++
    (* lines 166-175, j = jj - jb *)
    doz (jb + 2) (nd - 1) (fun jj => let j := jj - z jb in
      [("tjk", [m; kmax - 1]%nat, [j - 1; z kmax - 1]); ("z", [kmax], [z kmax - 1]); ("tbar", q2, [j + 1; z kmax]); ("tbar", q2, [j - 1; z kmax]);
       ("sjk", [m; m; kmax - 1]%nat, [j - 1; j - 1; z kmax - 1])]).

  (** matrix_b4_inversion.f90, called for the level k *)
  Definition matrix_b4_refs (k : Z) : list aref :=
    [("z", [kmax], [k + 1]); ("z", [kmax], [k]); ("z", [kmax], [k - 1]); ("statn", [kmax], [k + 1]); ("statn", [kmax], [k]); ("statn", [kmax], [k - 1])] ++
    doz 1 m (fun i => doz 1 m (fun j =>
      [("cjj", [m; m], [i; j]); ("djj", [m; m], [i; j]); ("qjj", [m; m], [i; j]); ("sjj", [m; m], [i; j]); ("sjk", [m; m; kmax - 1]%nat, [i; j; k])])) ++
    doz (jb + 2) (nd - 1) (fun jj => let j := jj - z jb in
      [("z", [kmax], [k]); ("qref", q2, [jj + 1; k]); ("qref", q2, [jj - 1; k]); ("u", r2, [z jd; k]); ("u", r2, [1; k]); ("ckref", q2, [z jb + 1; k]);
       ("rj", [m], [j - 1]); ("cjj", [m; m], [j - 1; j - 1]); ("djj", [m; m], [j - 1; j - 1]); ("qjj", [m; m], [j - 1; j - 1])] ++
      (if ((1 <=? j - 1)%Z && (j - 1 <? z jd - 2)%Z)%bool then [("qjj", [m; m], [j - 1; j])] else []) ++
      (if ((1 <? j - 1)%Z && (j - 1 <=? z jd - 2)%Z)%bool then [("qjj", [m; m], [j - 1; j - 2])] else [])) ++
    doz 1 m (fun i => doz 1 m (fun j =>
      ("xjj", [m; m], [i; j]) :: doz 1 m (fun kk => [("cjj", [m; m], [i; kk]); ("sjj", [m; m], [kk; j])]) ++ [("qjj", [m; m], [i; j])])).

  (** matrix_after_inversion.f90, called for the level k *)
  Definition matrix_after_refs (k : Z) : list aref :=
    doz 1 m (fun i => [("tj", [m], [i]); ("tjk", [m; kmax - 1]%nat, [i; k])]) ++
    doz 1 m (fun i => doz 1 m (fun j =>
      ("xjj", [m; m], [i; j]) :: doz 1 m (fun kk => [("qjj", [m; m], [i; kk]); ("djj", [m; m], [kk; j])]) ++ [("sjk", [m; m; kmax - 1]%nat, [i; j; k - 1])])) ++
    doz 1 m (fun i => ("yj", [m], [i]) :: doz 1 m (fun kk => [("cjj", [m; m], [i; kk]); ("tj", [m], [kk])]) ++ [("rj", [m], [i])]) ++
    doz 1 m (fun i => ("tj", [m], [i]) :: doz 1 m (fun kk => [("qjj", [m; m], [i; kk]); ("yj", [m], [kk])]) ++ [("tjk", [m; kmax - 1]%nat, [i; k - 1])]).

  (** upward_sweep.f90 *)
  Definition upward_sweep_refs : list aref :=
    doz 1 m (fun i => [("pjk", [m; kmax], [i; 1])]) ++
    doz 1 (kmax - 1) (fun k =>
      doz 1 m (fun i => [("pj", [m], [i]); ("pjk", [m; kmax], [i; k]); ("tj", [m], [i]); ("tjk", [m; kmax - 1]%nat, [i; k])] ++
        doz 1 m (fun j => [("sjj", [m; m], [i; j]); ("sjk", [m; m; kmax - 1]%nat, [i; j; k])])) ++
      doz 1 m (fun i => ("yj", [m], [i]) :: doz 1 m (fun kk => [("sjj", [m; m], [i; kk]); ("pj", [m], [kk])]) ++ [("pjk", [m; kmax], [i; k + 1]); ("tj", [m], [i])])) ++
    doz 1 kmax (fun k => doz 2 (jd - 1) (fun j => [("u", r2, [j; k]); ("pjk", [m; kmax], [j - 1; k])])) ++
    [("u", r2, [1; 1]); ("u", r2, [z jd; 1]); ("u", r2, [1; z kmax]); ("ckref", q2, [1 + z jb; z kmax]); ("u", r2, [z jd; z kmax])] ++
    doz (jb + 1) (nd - 1) (fun jj => doz 1 kmax (fun k => [("u", r2, [jj - z jb; k])])) ++
    doz 1 kmax (fun k => [("u", r2, [z jd; k]); ("u", r2, [z jd - 1; k]); ("u", r2, [z jd - 2; k])]) ++
    doz 1 nd (fun j => doz 1 kmax (fun k => [("qref", q2, [j; k]); ("qref_over_cor", q2, [j; k])])) ++
    doz 2 (kmax - 1) (fun k =>
      [("tref", r2, [1; k]); ("tref", r2, [2; k])] ++
      doz 2 (jd - 1) (fun j => [("u", r2, [j; k + 1]); ("u", r2, [j; k - 1]); ("tref", r2, [j + 1; k]); ("tref", r2, [j - 1; k])]) ++
      doz 1 nd (fun j => [("qref", q2, [j; k]); ("qref_over_cor", q2, [j; k])]) ++
      [("tg", [kmax], [k]); ("tb", [kmax], [k])] ++
      doz (jb + 1) nd (fun jj => [("tref", r2, [jj - z jb; k])]) ++
      doz 1 jd (fun j => [("tref", r2, [j; k])])) ++
    doz 1 jd (fun j => [("tref", r2, [j; 1]); ("tref", r2, [j; 2]); ("tref", r2, [j; z kmax]); ("tref", r2, [j; z kmax - 1])]) ++
    [("tb", [kmax], [2]); ("tb", [kmax], [1]); ("tb", [kmax], [z kmax - 1]); ("tb", [kmax], [z kmax])].

  (** compute_lwa_only_nhn22.f90 with is_nhem (both calls of the class pass it, oopinterface.py:657 and 680) *)
  Definition lwa_only_refs : list aref :=
    doz 1 kmax (fun k => [("z", [kmax], [k])]) ++
    doz 1 nd (fun j => doz 1 nlon (fun i => [("astarbaro", h2, [i; j]); ("ubaro", h2, [i; j])])) ++
    doz 2 (kmax - 1) (fun k =>
      doz 1 nlon (fun i => doz (jb + 1) (nd - 1) (fun j =>
        [("astar1", h3, [i; j; k]); ("astar2", h3, [i; j; k])] ++
        doz 1 nd (fun jj => [("qe", h2, [i; jj]); ("pv", d3, [i; jj + z nd - 1; k]); ("qref", q2, [j; k])]))) ++
      doz 1 nd (fun j => doz 1 nlon (fun i => [("astarbaro", h2, [i; j]); ("astar1", h3, [i; j; k]); ("astar2", h3, [i; j; k])])) ++
      doz (jb + 1) (nd - 1) (fun j => doz 1 nlon (fun i => [("ubaro", h2, [i; j]); ("uu", d3, [i; z nd - 1 + j; k])]))).
End Routines.

(** the references of the routines a QGField object calls for one hemisphere, with the sizes it passes: _compute_qgpv
    (oopinterface.py:1573-1585, 1747-1763), _compute_reference_state_wrapper (1656-1674), the direct inversion (1808-1889, the levels
    kmax-1 down to 2) and compute_lwa_only (646-690).  Sizes that f2py takes from the shapes of the arguments are those of the arrays passed.
    [ind] and [ind'] are the bins by PV and by vorticity *)
Definition class_refs (k : class) (c : pconf R) (npart : nat) (ind ind' : Z -> Z -> Z -> Z) : list aref :=
  (match k with
   | NH18 => qgpv_refs (p_nlon c) (p_nlat c) (p_kmax c) ++ reference_states_refs (p_nlon c) (p_nlat c) (p_kmax c) npart (p_eq c) ind
   | NHN22 _ =>
       let nd := (p_nlat c / 2 + p_nlat c mod 2)%nat in
       qgpv_direct_inv_refs (p_nlon c) (p_nlat c) (p_kmax c) ++
       qref_and_fawa_first_refs (p_nlon c) (p_nlat c) (p_kmax c) (p_nlat c) nd (p_jb c) (p_jd c) ind ind' ++
       doz 2 (p_kmax c - 1) (fun k => matrix_b4_refs (p_kmax c) nd (p_jb c) (p_jd c) k ++ matrix_after_refs (p_kmax c) (p_jd c) k) ++
       upward_sweep_refs (p_kmax c) nd (p_jb c) (p_jd c)
   end ++ lwa_only_refs (p_nlon c) (p_nlat c) (p_kmax c) (p_eq c) (p_jb c))%list.
