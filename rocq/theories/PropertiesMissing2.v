(** C173: missing values (NaN) in the arrays given to the wave-activity and flux kernels; C174: PV levels that cannot be sorted into bins.
    IEEE arithmetic of any format. *)
From Verif Require Import Base Fortran Flux RefStates DirInv Ieee.
From Coq Require Import Lia.

Section Missing.
  Variables (prec emax : Z) (e : elementary).
  Local Notation N := (IeeeNum prec emax e).
  Local Notation F := spec_float.

  Lemma nan_sub_l x : @nsub F N S754_nan x = S754_nan. Proof. reflexivity. Qed.
  Lemma nan_sub_r x : @nsub F N x S754_nan = S754_nan. Proof. destruct x; reflexivity. Qed.
  Lemma nan_mul_l x : @nmul F N S754_nan x = S754_nan. Proof. reflexivity. Qed.
  Lemma nan_mul_r x : @nmul F N x S754_nan = S754_nan. Proof. destruct x; reflexivity. Qed.
  Lemma nan_div_l x : @ndiv F N S754_nan x = S754_nan. Proof. reflexivity. Qed.
  Lemma nan_add_l x : @nadd F N S754_nan x = S754_nan. Proof. reflexivity. Qed.
  Lemma nan_add_r x : @nadd F N x S754_nan = S754_nan. Proof. destruct x; reflexivity. Qed.

  Lemma loop_same n (p q : nat -> F -> F) : (forall jj s, (1 <= jj <= n)%nat -> p jj s = q jj s) -> @loop F N n p = @loop F N n q.
  Proof. induction n as [|n IH]; intros H; cbn [loop]; [reflexivity|]. rewrite IH by (intros; apply H; lia). apply H. lia. Qed.
  Lemma loop_idle n (p : nat -> F -> F) : (forall jj s, (1 <= jj <= n)%nat -> p jj s = s) -> @loop F N n p = S754_zero false.
  Proof. induction n as [|n IH]; intros H; cbn [loop]; [reflexivity|]. rewrite H by lia. apply IH. intros; apply H; lia. Qed.
  Lemma loop_nan n (p : nat -> F -> F) r : (1 <= r <= n)%nat -> (forall s, p r s = S754_nan) -> (forall jj, p jj S754_nan = S754_nan) -> @loop F N n p = S754_nan.
  Proof.
    intros Hr H1 H2. induction n as [|n IH]; [lia|]. cbn [loop]. destruct (Nat.eq_dec r (S n)) as [->|X]; [apply H1|]. rewrite IH by lia. apply H2.
  Qed.
End Missing.

(** row of the global arrays in which the kernel finds row r of its hemisphere *)
Definition global_row {A} (D : fluxdims A) (r : nat) : nat := if is_nhem D then (r + nd D - 1)%nat else r.
(** the PV value x in row r is on the side of the contour of row j where row r belongs: not displaced *)
Definition on_its_side (prec emax : Z) (j r : nat) (x q : spec_float) : Prop :=
  if Nat.leb j r then SFleb (SFsub prec emax x q) (S754_zero false) = false else SFltb (S754_zero false) (SFsub prec emax x q) = false.
(** two PV fields that differ only by a missing value at (i, row, k) of the first *)
Definition missing_at (pv pv' : nat -> nat -> nat -> spec_float) (i row k : nat) : Prop :=
  pv i row k = S754_nan /\ forall i' row' k', (i', row', k') <> (i, row, k) -> pv i' row' k' = pv' i' row' k'.

Lemma same_below prec emax e (D : fluxdims spec_float) pv pv' qref i r k j :
  missing_at pv pv' i (global_row D r) k -> (1 <= r <= nd D)%nat -> on_its_side prec emax j r (pv' i (global_row D r) k) (qref j k) ->
  forall jj, (1 <= jj <= nd D)%nat ->
  @below _ (IeeeNum prec emax e) D pv qref i j k jj = @below _ (IeeeNum prec emax e) D pv' qref i j k jj /\
  @above _ (IeeeNum prec emax e) D pv qref i j k jj = @above _ (IeeeNum prec emax e) D pv' qref i j k jj /\
  (jj <> r -> pv i (grow D jj) k = pv' i (grow D jj) k) /\
  (jj = r -> @below _ (IeeeNum prec emax e) D pv' qref i j k jj = false /\ @above _ (IeeeNum prec emax e) D pv' qref i j k jj = false).
Proof.
  intros [M1 M2] Hr O jj Hjj. change (global_row D) with (grow D) in *.
  assert (B : forall x, x = jj -> x = r -> @below _ (IeeeNum prec emax e) D pv' qref i j k jj = false /\ @above _ (IeeeNum prec emax e) D pv' qref i j k jj = false).
  { intros x -> ->. unfold below, above, qe, on_its_side in *. destruct (Nat.leb_spec j r) as [L|L].
    - cbn [nleb IeeeNum nsub nzero]. rewrite O. split; [reflexivity|]. destruct (Nat.ltb_spec r j); [lia|]. apply Bool.andb_false_r.
    - rewrite Bool.andb_false_r. split; [reflexivity|]. cbn [nltb IeeeNum nsub nzero]. rewrite O. reflexivity. }
  assert (X : jj <> r -> pv i (grow D jj) k = pv' i (grow D jj) k).
  { intros Hn. apply M2. unfold grow. intros E. inversion E. destruct (is_nhem D); lia. }
  destruct (Nat.eq_dec jj r) as [->|Hn].
  - destruct (B r eq_refl eq_refl) as [B1 B2]. rewrite B1, B2. repeat split; try lia; intros; try reflexivity.
    + unfold below, qe. rewrite M1. reflexivity.
    + unfold above, qe. rewrite M1. reflexivity.
  - specialize (X Hn). repeat split; try (unfold below, above, qe; rewrite X; reflexivity); try (intros; assumption); intros; contradiction.
Qed.

(** Expected: a missing PV value shows in the wave activity of the rows whose contours it may have crossed.  In fact every result of the
    two kernels that is built on displaced contours -- both components of LWA, the forcing term, the nonlinear zonal flux, and LWA
    and column averages of compute_lwa_only -- is exactly what it would be had the missing value been any undisplaced number. *)
Theorem C173_missing_pv_shows_in_the_activity_refuted :
  forall (prec emax : Z) (e : elementary) (D : fluxdims spec_float) (pv pv' uu ncforce : nat -> nat -> nat -> spec_float)
         (qref uref : nat -> nat -> spec_float) (i r k j : nat),
  (1 <= r <= nd D)%nat -> missing_at pv pv' i (global_row D r) k -> on_its_side prec emax j r (pv' i (global_row D r) k) (qref j k) ->
  let N := IeeeNum prec emax e in
  @astar1 _ N D pv qref i j k = @astar1 _ N D pv' qref i j k /\ @astar2 _ N D pv qref i j k = @astar2 _ N D pv' qref i j k /\
  @ncforce3d _ N D pv ncforce qref i j k = @ncforce3d _ N D pv' ncforce qref i j k /\
  @ua1 _ N D pv qref uref i j k = @ua1 _ N D pv' qref uref i j k /\
  @ua2 _ N D pv uu qref uref i j k = @ua2 _ N D pv' uu qref uref i j k /\
  @lo_astar1 _ N D pv qref i j k = @lo_astar1 _ N D pv' qref i j k /\ @lo_astar2 _ N D pv qref i j k = @lo_astar2 _ N D pv' qref i j k.
Proof.
  intros prec emax e D pv pv' uu nc qref uref i r k j Hr M O N. pose proof (same_below prec emax e D pv pv' qref i r k j M Hr O) as H. fold N in H.
  assert (SB : @sum_below _ N D pv qref i j k = @sum_below _ N D pv' qref i j k).
  { unfold sum_below. apply loop_same. intros jj s Hjj. destruct (H jj Hjj) as (E1 & E2 & X & Y). rewrite E1. destruct (Nat.eq_dec jj r) as [E|E]; [destruct (Y E) as [-> _]; reflexivity|].
    unfold qe. rewrite (X E). reflexivity. }
  assert (SA : @sum_above _ N D pv qref i j k = @sum_above _ N D pv' qref i j k).
  { unfold sum_above. apply loop_same. intros jj s Hjj. destruct (H jj Hjj) as (E1 & E2 & X & Y). rewrite E2. destruct (Nat.eq_dec jj r) as [E|E]; [destruct (Y E) as [_ ->]; reflexivity|].
    unfold qe. rewrite (X E). reflexivity. }
  assert (A1 : @astar1 _ N D pv qref i j k = @astar1 _ N D pv' qref i j k) by (unfold astar1, fill; destruct (is_nhem D); rewrite ?SA, ?SB; reflexivity).
  assert (A2 : @astar2 _ N D pv qref i j k = @astar2 _ N D pv' qref i j k) by (unfold astar2, fill; destruct (is_nhem D); rewrite ?SA, ?SB; reflexivity).
  split; [exact A1|]. split; [exact A2|]. split; [|split; [|split; [|split]]].
  - unfold ncforce3d, fill, sum_ncforce. destruct (analysed D j k); [|reflexivity]. apply loop_same. intros jj s Hjj. destruct (H jj Hjj) as (E1 & E2 & _). rewrite E1, E2. reflexivity.
  - unfold ua1, fill. rewrite A1, A2. reflexivity.
  - unfold ua2, fill, sum_ua2. destruct (analysed D j k); [|reflexivity]. apply loop_same. intros jj s Hjj. destruct (H jj Hjj) as (E1 & E2 & X & Y). rewrite E1, E2.
    destruct (Nat.eq_dec jj r) as [E|E]; [destruct (Y E) as [-> ->]; reflexivity|]. unfold qe. rewrite (X E). reflexivity.
  - transitivity (@astar1 _ N D pv qref i j k); [|transitivity (@astar1 _ N D pv' qref i j k); [exact A1|]]; unfold lo_astar1, astar1, fill, sum_above, sum_below; destruct (analysed D j k); destruct (is_nhem D); reflexivity.
  - transitivity (@astar2 _ N D pv qref i j k); [|transitivity (@astar2 _ N D pv' qref i j k); [exact A2|]]; unfold lo_astar2, astar2, fill, sum_above, sum_below; destruct (analysed D j k); destruct (is_nhem D); reflexivity.
Qed.
Print Assumptions C173_missing_pv_shows_in_the_activity_refuted.

(** A missing reference PV is reported as no wave activity at all: exactly 0 in that row. *)
Theorem C173_missing_reference_pv_shows_in_the_activity_refuted :
  forall (prec emax : Z) (e : elementary) (D : fluxdims spec_float) (pv ncforce uu : nat -> nat -> nat -> spec_float) (qref uref : nat -> nat -> spec_float) (i k j : nat),
  qref j k = S754_nan ->
  let N := IeeeNum prec emax e in
  @astar1 _ N D pv qref i j k = S754_zero false /\ @astar2 _ N D pv qref i j k = S754_zero false /\
  @ncforce3d _ N D pv ncforce qref i j k = S754_zero false /\ @ua2 _ N D pv uu qref uref i j k = S754_zero false /\
  @lo_astar1 _ N D pv qref i j k = S754_zero false /\ @lo_astar2 _ N D pv qref i j k = S754_zero false.
Proof.
  intros prec emax e D pv nc uu qref uref i k j E N.
  assert (Q : forall jj, @qe _ N D pv qref i j k jj = S754_nan) by (intros jj; unfold qe; rewrite E; apply nan_sub_r).
  assert (B : forall jj, @below _ N D pv qref i j k jj = false) by (intros jj; unfold below; rewrite Q; reflexivity).
  assert (A : forall jj, @above _ N D pv qref i j k jj = false) by (intros jj; unfold above; rewrite Q; reflexivity).
  assert (SB : @sum_below _ N D pv qref i j k = S754_zero false) by (apply loop_idle; intros jj s _; rewrite B; reflexivity).
  assert (SA : @sum_above _ N D pv qref i j k = S754_zero false) by (apply loop_idle; intros jj s _; rewrite A; reflexivity).
  assert (A1 : @astar1 _ N D pv qref i j k = S754_zero false) by (unfold astar1, fill; destruct (analysed D j k); destruct (is_nhem D); rewrite ?SA, ?SB; reflexivity).
  assert (A2 : @astar2 _ N D pv qref i j k = S754_zero false) by (unfold astar2, fill; destruct (analysed D j k); destruct (is_nhem D); rewrite ?SA, ?SB; reflexivity).
  split; [exact A1|]. split; [exact A2|]. split; [|split; [|split]].
  - unfold ncforce3d, fill. destruct (analysed D j k); [|reflexivity]. apply loop_idle. intros jj s _. rewrite A, B. reflexivity.
  - unfold ua2, fill. destruct (analysed D j k); [|reflexivity]. apply loop_idle. intros jj s _. rewrite A, B. reflexivity.
  - rewrite <- A1. unfold lo_astar1, astar1, fill, sum_above, sum_below; destruct (analysed D j k); destruct (is_nhem D); reflexivity.
  - rewrite <- A2. unfold lo_astar2, astar2, fill, sum_above, sum_below; destruct (analysed D j k); destruct (is_nhem D); reflexivity.
Qed.
Print Assumptions C173_missing_reference_pv_shows_in_the_activity_refuted.

(** What does show: a missing wind or temperature makes the zonal flux term ep1 of its own point missing, and a missing wind the
    barotropic wind of its column; a missing forcing shows in every row whose contour is displaced across that point. *)
Theorem C173_missing_winds_show_in_the_fluxes_partial :
  forall (prec emax : Z) (e : elementary) (D : fluxdims spec_float) (pv uu vv pt ncforce : nat -> nat -> nat -> spec_float)
         (tn0 : nat -> spec_float) (qref uref tref : nat -> nat -> spec_float) (i j k : nat),
  let N := IeeeNum prec emax e in
  @analysed _ D j k = true ->
  (uu i (global_row D j) k = S754_nan \/ vv i (global_row D j) k = S754_nan \/ pt i (global_row D j) k = S754_nan ->
   @ep1 _ N D uu vv pt tn0 uref tref i j k = S754_nan) /\
  (uu i (global_row D j) k = S754_nan -> @lo_ubaro _ N D uu i j = S754_nan) /\
  (forall r, (1 <= r <= nd D)%nat -> ncforce i (global_row D r) k = S754_nan -> ~ on_its_side prec emax j r (pv i (global_row D r) k) (qref j k) ->
   @ncforce3d _ N D pv ncforce qref i j k = S754_nan).
Proof.
  intros prec emax e D pv uu vv pt nc tn0 qref uref tref i j k N HA. change (global_row D) with (grow D). split; [|split].
  - intros H. unfold ep1, fill. rewrite HA. cbv zeta. destruct H as [H|[H|H]]; rewrite H.
    + unfold nsq. change N with (IeeeNum prec emax e). rewrite nan_sub_l, nan_mul_l, nan_mul_r, nan_add_l, nan_sub_l, nan_mul_l. reflexivity.
    + unfold nsq. change N with (IeeeNum prec emax e). rewrite nan_mul_l, nan_mul_r, nan_add_r, nan_sub_l, nan_mul_l. reflexivity.
    + unfold nsq. change N with (IeeeNum prec emax e). rewrite nan_sub_l, nan_mul_l, nan_mul_r, !nan_mul_l, nan_div_l, nan_sub_r, nan_mul_l. reflexivity.
  - intros H. unfold analysed in HA. apply andb_prop in HA. destruct HA as [HA Hj2]. apply andb_prop in HA. destruct HA as [HA Hj1]. apply andb_prop in HA. destruct HA as [Hk1 Hk2].
    unfold lo_ubaro. rewrite Hj1, Hj2. cbn [andb]. apply Nat.leb_le in Hk1. apply Nat.leb_le in Hk2.
    apply (loop_nan prec emax e _ _ (k - 1)); [lia| |].
    + intros s. replace (k - 1 + 1)%nat with k by lia. rewrite H. change N with (IeeeNum prec emax e). rewrite !nan_mul_l, nan_add_r. reflexivity.
    + intros jj. reflexivity.
  - intros r Hr H O. unfold ncforce3d, fill. rewrite HA. unfold sum_ncforce. apply (loop_nan prec emax e _ _ r Hr).
    + intros s. unfold on_its_side in O. change N with (IeeeNum prec emax e). rewrite H. unfold below, above, qe. destruct (Nat.leb_spec j r) as [L|L].
      * cbn [nleb IeeeNum nsub nzero nltb]. destruct (SFleb _ _); [|contradiction O; reflexivity]. cbn [andb]. destruct (Nat.ltb_spec r j); [lia|]. rewrite Bool.andb_false_r.
        exact (nan_sub_r prec emax e s).
      * rewrite Bool.andb_false_r. cbn [nleb IeeeNum nsub nzero nltb]. destruct (SFltb _ _); [|contradiction O; reflexivity]. destruct (Nat.ltb_spec r j); [|lia]. cbn [andb].
        exact (nan_add_r prec emax e s).
    + intros jj. destruct (below _ _ _ _ _ _ _); destruct (above _ _ _ _ _ _ _); reflexivity.
Qed.
Print Assumptions C173_missing_winds_show_in_the_fluxes_partial.

(** single precision, three rows per hemisphere; row 1 lies above the contour 0 of row 2 and is counted, row 3 is missing and is not *)
Definition C173_lib : elementary := {| e_sin _ := S754_zero false; e_cos _ := binary_normalize 24 128 1 0 false; e_exp _ := binary_normalize 24 128 1 0 false; e_asin x := x; e_pi := binary_normalize 24 128 3 0 false |}.
Local Notation number z := (binary_normalize 24 128 z 0 false).
Definition C173_grid : fluxdims spec_float := {| imax := 1; jmax := 5; kmax := 3; nd := 3; jb := 0; jd := 3; is_nhem := true;
  f_a := number 4; f_om := number 1; f_dz := number 1; f_h := number 1; f_rr := number 1; f_cp := number 1; f_prefac := number 1 |}.
Definition C173_pv (missing : bool) (i row k : nat) : spec_float := if Nat.eqb row 5 then (if missing then S754_nan else number 7) else number 2.
Example C173_case :
  @analysed _ C173_grid 2 2 = true /\
  missing_at (fun i row k => if Nat.eqb i 1 && Nat.eqb row (global_row C173_grid 3) && Nat.eqb k 2 then S754_nan else number 2) (fun i row k => number 2) 1 (global_row C173_grid 3) 2 /\
  on_its_side 24 128 2 3 (number 2) (S754_zero false) /\
  @astar1 _ (Single C173_lib) C173_grid (C173_pv true) (fun _ _ => S754_zero false) 1 2 2 = number 6 /\
  @astar1 _ (Single C173_lib) C173_grid (C173_pv false) (fun _ _ => S754_zero false) 1 2 2 = number 6 /\
  @astar2 _ (Single C173_lib) C173_grid (C173_pv true) (fun _ _ => S754_zero false) 1 2 2 = S754_zero false.
Proof.
  split; [reflexivity|]. split.
  - split; [reflexivity|]. intros i' row' k' H. destruct (Nat.eqb_spec i' 1); [|reflexivity]. destruct (Nat.eqb_spec row' (global_row C173_grid 3)); [|reflexivity].
    destruct (Nat.eqb_spec k' 2); [|reflexivity]. subst. contradiction H; reflexivity.
  - repeat split; vm_compute; reflexivity.
Qed.

(** ** C174 *)
Lemma sub_self prec emax e x : @nsub _ (IeeeNum prec emax e) x x = S754_zero false \/ @nsub _ (IeeeNum prec emax e) x x = S754_nan.
Proof.
  destruct x as [[]|[]| |s m ex]; cbn [IeeeNum nsub SFsub]; try (left; reflexivity); try (right; reflexivity).
  left. rewrite Z.min_id, Z.sub_diag. reflexivity.
Qed.
Lemma quotient_zero prec emax e z y : (z = S754_zero false \/ z = S754_nan) ->
  (exists s, @ndiv _ (IeeeNum prec emax e) z y = S754_zero s) \/ @ndiv _ (IeeeNum prec emax e) z y = S754_nan.
Proof. intros [->| ->]; destruct y; cbn; eauto. Qed.
Lemma quotient_nan prec emax e z y : (z = S754_zero false \/ z = S754_nan) -> (exists s, y = S754_zero s) \/ y = S754_nan ->
  @ndiv _ (IeeeNum prec emax e) z y = S754_nan.
Proof. intros [->| ->] [[s ->]| ->]; reflexivity. Qed.
Lemma uniform_fold {A} (f : A -> A -> A) x l : f x x = x -> (forall y, In y l -> y = x) -> fold_left f l x = x.
Proof. intros F. induction l as [|y l IH]; intros H; [reflexivity|]. cbn [fold_left]. rewrite (H y (or_introl eq_refl)), F. apply IH. intros z Hz. apply H. right. exact Hz. Qed.
Lemma uniform_extreme {A} (f : A -> A -> A) (d x : A) l : f x x = x -> l <> [] -> (forall y, In y l -> y = x) -> match l with [] => d | y :: ys => fold_left f ys y end = x.
Proof. intros F Hn H. destruct l as [|y ys]; [contradiction|]. rewrite (H y (or_introl eq_refl)). apply uniform_fold; [exact F|]. intros z Hz. apply H. right. exact Hz. Qed.
Lemma cells_in {A} (P : rsdims A) i j : In (i, j) (cells P) <-> (1 <= i <= s_nlon P /\ 1 <= j <= s_nlat P)%nat.
Proof.
  unfold cells, do_, range. rewrite in_flat_map. split.
  - intros (j' & Hj & H). apply in_map_iff in H. destruct H as (i' & E & Hi). inversion E; subst. apply in_seq in Hj. apply in_seq in Hi. lia.
  - intros [Hi Hj]. exists j. split; [apply in_seq; lia|]. apply in_map_iff. exists i. split; [reflexivity|]. apply in_seq. lia.
Qed.

(** Expected: every level of every PV field can be sorted into the bins 1..npart of the area analysis (both solvers share these lines; the
    direct solver does the same with the absolute vorticity).  On a level of uniform PV every grid point gets the bin 1 + int(NaN), and so
    does, on any level, a point whose value is missing. *)
Theorem C174_every_level_can_be_binned_refuted :
  forall (prec emax : Z) (e : elementary) (T : Trunc spec_float) (P : rsdims spec_float) (pv : nat -> nat -> nat -> spec_float) (k : nat),
  let N := IeeeNum prec emax e in
  (forall x, (forall i j, (1 <= i <= s_nlon P)%nat -> (1 <= j <= s_nlat P)%nat -> pv i j k = x) ->
   forall i j, (1 <= i <= s_nlon P)%nat -> (1 <= j <= s_nlat P)%nat -> @bin _ N T P pv k (i, j) = (1 + @ntrunc _ T S754_nan)%Z) /\
  (forall i j, pv i j k = S754_nan -> @bin _ N T P pv k (i, j) = (1 + @ntrunc _ T S754_nan)%Z).
Proof.
  intros prec emax e T P pv k N. split.
  - intros x U i j Hi Hj.
    assert (L : forall y, In y (map (fun p => pv (fst p) (snd p) k) (cells P)) -> y = x).
    { intros y Hy. apply in_map_iff in Hy. destruct Hy as ([i' j'] & <- & Hp). apply cells_in in Hp. cbn [fst snd]. apply U; lia. }
    assert (Hne : map (fun p => pv (fst p) (snd p) k) (cells P) <> []).
    { intros E. assert (X : In (pv i j k) (map (fun p => pv (fst p) (snd p) k) (cells P))) by (apply in_map_iff; exists (i, j); split; [reflexivity|apply cells_in; lia]). rewrite E in X. exact X. }
    assert (Qx : @qmax _ N P pv k = x) by (unfold qmax, lmax; apply uniform_extreme; [unfold nmax; destruct (nltb x x); reflexivity|exact Hne|exact L]).
    assert (Qn : @qmin _ N P pv k = x) by (unfold qmin, lmin; apply uniform_extreme; [unfold nmin; destruct (nltb x x); reflexivity|exact Hne|exact L]).
    unfold bin. rewrite <- Z.add_1_l. f_equal. f_equal. cbn [fst snd]. rewrite (U i j Hi Hj). unfold dq. rewrite Qx, Qn.
    apply (quotient_nan prec emax e); [apply sub_self|]. apply quotient_zero. apply sub_self.
  - intros i j E. unfold bin. rewrite <- Z.add_1_l. cbn [fst snd]. rewrite E. do 2 f_equal.
    transitivity (@ndiv _ N S754_nan (@dq _ N P pv k)); [|reflexivity]. f_equal. exact (nan_sub_r prec emax e (@qmax _ N P pv k)).
Qed.
Print Assumptions C174_every_level_can_be_binned_refuted.
(** With the conversion of x86 processors (the integer indefinite -2^31) that index is outside the arrays an and cn of every size. *)
Theorem C174_index_of_a_level_of_uniform_pv_is_out_of_bounds :
  forall (prec emax : Z) (e : elementary) (T : Trunc spec_float) (P : rsdims spec_float) (pv : nat -> nat -> nat -> spec_float) (k i j : nat) (x : spec_float),
  @ntrunc _ T S754_nan = (- 2 ^ 31)%Z ->
  (forall i j, (1 <= i <= s_nlon P)%nat -> (1 <= j <= s_nlat P)%nat -> pv i j k = x) -> (1 <= i <= s_nlon P)%nat -> (1 <= j <= s_nlat P)%nat ->
  ~ (1 <= @bin _ (IeeeNum prec emax e) T P pv k (i, j) <= Z.of_nat (s_npart P))%Z.
Proof.
  intros prec emax e T P pv k i j x HT U Hi Hj. rewrite (proj1 (C174_every_level_can_be_binned_refuted prec emax e T P pv k) x U i j Hi Hj), HT. change (- 2 ^ 31)%Z with (-2147483648)%Z. lia.
Qed.
Print Assumptions C174_index_of_a_level_of_uniform_pv_is_out_of_bounds.

(** a planet that does not rotate: the PV 0 of an atmosphere at rest, in single precision *)
Example C174_case : forall P : rsdims spec_float, s_nlon P = 4%nat -> s_nlat P = 3%nat -> s_npart P = 3%nat ->
  @bin _ (Single C173_lib) {| ntrunc x := match x with S754_nan => (- 2 ^ 31)%Z | _ => 0%Z end |} P (fun _ _ _ => S754_zero false) 2 (1%nat, 1%nat) = (- 2147483647)%Z /\
  @bin _ (Single C173_lib) {| ntrunc x := match x with S754_nan => (- 2 ^ 31)%Z | _ => 0%Z end |} P (fun i _ _ => number (Z.of_nat i)) 2 (4%nat, 1%nat) = 1%Z.
Proof. intros P H1 H2 H3. unfold bin, dq, qmax, qmin, cells. rewrite H1, H2, H3. split; vm_compute; reflexivity. Qed.
