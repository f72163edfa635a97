(** C183: missing values (NaN) given to the iterative solver for the reference state of QGFieldNH18.  IEEE arithmetic of any format, any
    elementary functions, any conversion to integers, any contents of uninitialised memory.
    num_of_iter = maxit + 1 means "Maxits exceeded": compute_reference_states then raises ValueError, or refuses the fluxes (C158). *)
From Verif Require Import Base Fortran Flux RefStates Ieee MissingRefProofs.
From Coq Require Import Lia.

(** sizes of the solver: an equator inside the grid, three levels, and more than one interior point *)
Definition room_for_solver {A} (P : rsdims A) : Prop :=
  (3 <= s_kmax P)%nat /\ (3 <= s_jd P)%nat /\ ((4 <= s_kmax P)%nat \/ (4 <= s_jd P)%nat).

(** a missing static stability at any level: never converged *)
Theorem C183_missing_stability_never_converges :
  forall (prec emax : Z) (e : elementary) (T : Trunc spec_float) (P : rsdims spec_float) (pv uu pt : nat -> nat -> nat -> spec_float) (stat : nat -> spec_float)
         (mem1 mem2 : nat -> nat -> spec_float) (k : nat),
  room_for_solver P -> (1 <= k <= s_kmax P)%nat -> stat k = S754_nan ->
  @rs_num_of_iter _ (IeeeNum prec emax e) T P pv uu pt stat mem1 mem2 = S (s_maxits P).
Proof. intros prec emax e T P pv uu pt stat mem1 mem2 k (K & J & KJ) Hk E. exact (stat_stuck prec emax e P pv uu pt stat mem1 mem2 K J KJ k Hk E). Qed.
Print Assumptions C183_missing_stability_never_converges.

(** a missing QGPV anywhere in the hemisphere (rows jd to 2 jd - 1), at any level the solver uses: not converged, or stopped by the second sweep, the first that is tested,
    which looks at every other point only.  ejk(2,k) is the diagonal of the linear system. *)
Theorem C183_missing_pv_never_converges :
  forall (prec emax : Z) (e : elementary) (T : Trunc spec_float) (P : rsdims spec_float) (pv uu pt : nat -> nat -> nat -> spec_float) (stat : nat -> spec_float)
         (mem1 mem2 : nat -> nat -> spec_float) (i row k : nat),
  room_for_solver P -> (1 <= i <= s_nlon P)%nat -> (s_jd P <= row <= 2 * s_jd P - 1)%nat -> (2 <= k <= s_kmax P - 1)%nat -> pv i row k = S754_nan ->
  SFeqb (@ejk _ (IeeeNum prec emax e) P stat 2 k) (S754_zero false) = false ->
  let n := @rs_num_of_iter _ (IeeeNum prec emax e) T P pv uu pt stat mem1 mem2 in
  n = S (s_maxits P) \/ n = 2%nat /\ Nat.odd k = true.
Proof.
  intros prec emax e T P pv uu pt stat mem1 mem2 i row k (K & J & KJ) Hi Hr Hk E D. apply (equator_stuck prec emax e P pv uu pt stat mem1 mem2 K J KJ k Hk); [|exact D].
  apply (equator_nan prec emax e P pv uu stat mem1 mem2 K J KJ i (row + 1 - s_jd P)); try assumption; try lia. replace (row + 1 - s_jd P + s_jd P - 1)%nat with row by lia. exact E.
Qed.
Print Assumptions C183_missing_pv_never_converges.

(** a missing potential temperature in the hemisphere: the whole level of the reference temperature is missing, converged or not; at the second highest level the reference wind
    above the two neighbouring rows is missing too, or the solver did not converge *)
Theorem C183_missing_temperature_shows :
  forall (prec emax : Z) (e : elementary) (T : Trunc spec_float) (P : rsdims spec_float) (pv uu pt : nat -> nat -> nat -> spec_float) (stat : nat -> spec_float)
         (mem1 mem2 : nat -> nat -> spec_float) (i row k : nat),
  room_for_solver P -> (1 <= i <= s_nlon P)%nat -> (s_jd P <= row <= s_nlat P)%nat -> (1 <= k <= s_kmax P)%nat -> pt i row k = S754_nan ->
  (forall j, @rs_tref _ (IeeeNum prec emax e) T P pv uu pt stat mem1 mem2 j k = S754_nan) /\
  (k = (s_kmax P - 1)%nat -> forall j, (2 <= j <= s_jd P - 1)%nat -> (row + 1 - s_jd P = j + 1 \/ row + 1 - s_jd P = j - 1)%nat ->
   @rs_num_of_iter _ (IeeeNum prec emax e) T P pv uu pt stat mem1 mem2 = S (s_maxits P) \/ @rs_uref _ (IeeeNum prec emax e) T P pv uu pt stat mem1 mem2 j (s_kmax P) = S754_nan).
Proof.
  intros prec emax e T P pv uu pt stat mem1 mem2 i row k (K & J & KJ) Hi Hr Hk E.
  assert (E' : pt i (row + 1 - s_jd P + s_jd P - 1)%nat k = S754_nan) by (replace (row + 1 - s_jd P + s_jd P - 1)%nat with row by lia; exact E). split.
  - intros j. apply (tref_nan prec emax e P pv uu pt stat mem1 mem2 j k Hk). apply (tb_nan prec emax e P pt i (row + 1 - s_jd P) k Hi); [lia|exact E'].
  - intros -> j Hj Hr2. exact (top_stuck prec emax e P pv uu pt stat mem1 mem2 K J KJ i (row + 1 - s_jd P) j Hi E' Hj Hr2).
Qed.
Print Assumptions C183_missing_temperature_shows.

(** a missing zonal wind on the equator: the reference wind there is missing on that level *)
Theorem C183_missing_equatorial_wind_shows :
  forall (prec emax : Z) (e : elementary) (T : Trunc spec_float) (P : rsdims spec_float) (pv uu pt : nat -> nat -> nat -> spec_float) (stat : nat -> spec_float)
         (mem1 mem2 : nat -> nat -> spec_float) (i k : nat),
  room_for_solver P -> (1 <= i <= s_nlon P)%nat -> uu i (s_jd P) k = S754_nan ->
  @rs_uref _ (IeeeNum prec emax e) T P pv uu pt stat mem1 mem2 1 k = S754_nan.
Proof. intros prec emax e T P pv uu pt stat mem1 mem2 i k (K & J & KJ) Hi E. exact (boundary_nan prec emax e P pv uu pt stat mem1 mem2 K J KJ i k Hi E). Qed.
Print Assumptions C183_missing_equatorial_wind_shows.

(** Expected: a missing wind anywhere in the hemisphere shows.  The solver reads the wind of the equator only: off the equator a missing wind shows only if it made QGPV missing. *)
Theorem C183_missing_wind_shows_refuted :
  forall (prec emax : Z) (e : elementary) (T : Trunc spec_float) (P : rsdims spec_float) (pv uu uu' pt : nat -> nat -> nat -> spec_float) (stat : nat -> spec_float)
         (mem1 mem2 : nat -> nat -> spec_float),
  (forall i k, uu i (s_jd P) k = uu' i (s_jd P) k) ->
  let N := IeeeNum prec emax e in
  @rs_num_of_iter _ N T P pv uu pt stat mem1 mem2 = @rs_num_of_iter _ N T P pv uu' pt stat mem1 mem2 /\
  (forall j k, @rs_uref _ N T P pv uu pt stat mem1 mem2 j k = @rs_uref _ N T P pv uu' pt stat mem1 mem2 j k) /\
  (forall j k, @rs_tref _ N T P pv uu pt stat mem1 mem2 j k = @rs_tref _ N T P pv uu' pt stat mem1 mem2 j k).
Proof.
  intros prec emax e T P pv uu uu' pt stat mem1 mem2 H N. assert (E : forall k, @ubar _ N P uu 1 k = @ubar _ N P uu' 1 k).
  { intros k. unfold ubar, zonal_mean. replace (1 + s_jd P - 1)%nat with (s_jd P) by lia. generalize (s_nlon P) at 1 3. intros n. induction n as [|n IH]; cbn [loop]; [reflexivity|]. rewrite IH, H. reflexivity. }
  assert (Q : forall k, @u_equator _ N T P pv uu mem1 mem2 k = @u_equator _ N T P pv uu' mem1 mem2 k) by (intros k; unfold u_equator; rewrite E; reflexivity).
  assert (W : forall n om u, @sweep _ N T P pv uu pt stat mem1 mem2 n om u = @sweep _ N T P pv uu' pt stat mem1 mem2 n om u).
  { intros n om u. unfold sweep. destruct (fold_left _ _ _) as [u1 s]. f_equal. apply FunctionalExtensionality.functional_extensionality. intros j. apply FunctionalExtensionality.functional_extensionality. intros k.
    destruct (Nat.eqb j 1); [apply Q|reflexivity]. }
  assert (I : forall f n om u, @iterate _ N T P pv uu pt stat mem1 mem2 f n om u = @iterate _ N T P pv uu' pt stat mem1 mem2 f n om u).
  { induction f as [|f IH]; intros n om u; cbn [iterate]; [reflexivity|]. rewrite W. destruct (sweep _ _ _ _ _ _ _ _ _ _) as [u1 s]. destruct (_ && _); [reflexivity|apply IH]. }
  assert (Sol : @solution _ N T P pv uu pt stat mem1 mem2 = @solution _ N T P pv uu' pt stat mem1 mem2) by apply I.
  assert (U1 : forall j k, @uref1 _ N T P pv uu pt stat mem1 mem2 j k = @uref1 _ N T P pv uu' pt stat mem1 mem2 j k) by (intros j k; unfold uref1; rewrite Sol, E; reflexivity).
  assert (U : forall j k, @rs_uref _ N T P pv uu pt stat mem1 mem2 j k = @rs_uref _ N T P pv uu' pt stat mem1 mem2 j k) by (intros j k; unfold rs_uref; rewrite !U1; reflexivity).
  split; [unfold rs_num_of_iter; rewrite Sol; reflexivity|]. split; [exact U|].
  assert (Y : forall k j, @ty _ N T P pv uu pt stat mem1 mem2 k j = @ty _ N T P pv uu' pt stat mem1 mem2 k j) by (intros k j; unfold ty; rewrite !U; reflexivity).
  assert (Z : forall k j, @tref0 _ N T P pv uu pt stat mem1 mem2 k j = @tref0 _ N T P pv uu' pt stat mem1 mem2 k j /\ @tref0 _ N T P pv uu pt stat mem1 mem2 k (S j) = @tref0 _ N T P pv uu' pt stat mem1 mem2 k (S j)).
  { intros k j. induction j as [|j [IH1 IH2]]; [split; reflexivity|]. split; [exact IH2|]. destruct j as [|j]; [reflexivity|]. 
    change (@tref0 _ N T P pv uu pt stat mem1 mem2 k (S (S (S j)))) with (nadd (@tref0 _ N T P pv uu pt stat mem1 mem2 k (S j)) (nmul (nmul (nofZ 2) (@ty _ N T P pv uu pt stat mem1 mem2 k (S (S j)))) (s_dphi P))).
    change (@tref0 _ N T P pv uu' pt stat mem1 mem2 k (S (S (S j)))) with (nadd (@tref0 _ N T P pv uu' pt stat mem1 mem2 k (S j)) (nmul (nmul (nofZ 2) (@ty _ N T P pv uu' pt stat mem1 mem2 k (S (S j)))) (s_dphi P))).
    rewrite IH1, Y. reflexivity. }
  assert (G : forall k, @tg _ N T P pv uu pt stat mem1 mem2 k = @tg _ N T P pv uu' pt stat mem1 mem2 k).
  { intros k. unfold tg. f_equal. generalize (s_jd P). intros n. induction n as [|n IH]; cbn [loop]; [reflexivity|]. rewrite IH, (proj1 (Z k (S n))). reflexivity. }
  intros j k. unfold rs_tref, tref1. rewrite !G, !(fun k j => proj1 (Z k j)). reflexivity.
Qed.
Print Assumptions C183_missing_wind_shows_refuted.

(** a small case in single precision: without missing values the solver stops in its second sweep, with one missing stability or PV it runs out of iterations *)
Definition case_functions : elementary :=
  let one := binary_normalize 24 128 1 0 false in {| e_sin := fun x => SFdiv 24 128 x (binary_normalize 24 128 8 0 false); e_cos := fun _ => one; e_exp := fun _ => one; e_asin := fun x => x; e_pi := one |}.
Definition case_trunc : Trunc spec_float :=
  {| ntrunc x := match x with S754_finite s m ex => let z := Z.shiftl (Z.pos m) ex in if s then (- z)%Z else z | _ => 0%Z end |}.
Definition case_number (z : Z) : spec_float := binary_normalize 24 128 z 0 false.
Definition case_dims : rsdims spec_float :=
  {| s_nlon := 1; s_nlat := 7; s_kmax := 3; s_jd := 4; s_npart := 3; s_maxits := 3; s_a := case_number 1; s_om := case_number 1; s_dz := case_number 1; s_eps := case_number 100000;
     s_h := case_number 1; s_dphi := case_number 1; s_dlambda := case_number 1; s_r := case_number 1; s_cp := case_number 3; s_rjac := case_number 0 |}.
Definition case_pv (i j k : nat) : spec_float := case_number (Z.of_nat (i + 3 * j)).
Definition case_missing (x : nat -> nat -> nat -> spec_float) : nat -> nat -> nat -> spec_float := fun i j k => if Nat.eqb i 1 && Nat.eqb j 5 && Nat.eqb k 2 then S754_nan else x i j k.
Definition case_stat (k : nat) : spec_float := case_number 2.
Example C183_case :
  let run pv stat := @rs_num_of_iter _ (Single case_functions) case_trunc case_dims pv case_pv case_pv stat (fun _ _ => case_number 0) (fun _ _ => case_number 0) in
  room_for_solver case_dims /\ run case_pv case_stat = 2%nat /\ run case_pv (fun k => if Nat.eqb k 3 then S754_nan else case_stat k) = 4%nat /\
  run (case_missing case_pv) case_stat = 4%nat /\ SFeqb (@ejk _ (Single case_functions) case_dims case_stat 2 2) (S754_zero false) = false /\
  @rs_tref _ (Single case_functions) case_trunc case_dims case_pv case_pv (fun i j k => if Nat.eqb j 4 && Nat.eqb k 2 then S754_nan else case_pv i j k) case_stat (fun _ _ => case_number 0) (fun _ _ => case_number 0) 2 3 = S754_nan.
Proof. cbv zeta. split; [unfold room_for_solver, case_dims; cbn; lia|]. repeat split; vm_compute; reflexivity. Qed.
