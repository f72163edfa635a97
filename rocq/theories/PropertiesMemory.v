(** C192: the Fortran routines refer to elements of their arrays only. *)
From Coq Require Import ZArith List String Lia Reals Lra ZifyNat.
From Verif Require Import Memory MemoryProofs FluxSpec FluxProofs RefStatesSpec RefStatesProofs RoundSpec RoundProofs ObjectSpec FormulaSpec ObjectProofs ObjectProofs4 PropertiesObject.
From Flocq Require Import Core.
Import ListNotations.
Local Open Scope nat_scope.
Ltac Zify.zify_post_hook ::= Z.to_euclidean_division_equations.

(** the direct inversion has at least one row between its equatorward boundary and the row next to the pole *)
Definition inverted_rows (k : class) (w : qgargs) : Prop := match k with NH18 => True | NHN22 b => b + 2 <= half w end.
(** number of bins of the class *)
Definition bins_of (k : class) (w : qgargs) (g : grid) : nat := match k with NH18 => g_npart g | NHN22 _ => analysis_rows w end.
(** the bins of all cells of the inner levels are inside the arrays of the binning *)
Definition bins_inside (k : class) (w : qgargs) (g : grid) (ind : Z -> Z -> Z -> Z) : Prop :=
  forall l i j, 2 <= l <= result_levels w - 1 -> 1 <= i <= w_nlon w -> 1 <= j <= analysis_rows w ->
    (1 <= ind (Z.of_nat l) (Z.of_nat i) (Z.of_nat j) <= Z.of_nat (bins_of k w g))%Z.

Section Session.
  Variables (k : class) (w : qgargs) (g : grid).
  Hypotheses (U : usable k w) (G : grid_of w = Done g).
  Notation c := (ob_conf (object_of k w g)).

  Lemma sizes : 2 <= p_nlon c /\ 3 <= p_kmax c /\ 3 <= p_eq c /\ p_nlat c = 2 * p_eq c - 1 /\ p_jd c = p_eq c - p_jb c /\ p_jb c < p_eq c /\
    p_nlat c / 2 + p_nlat c mod 2 = p_eq c /\ 2 <= g_npart g.
  Proof.
    destruct (conf_facts k w g U G) as (C1 & C2 & C3 & C4 & C5 & C6 & _). assert (E := analysis_odd w).
    destruct U as ((N4 & N5) & NL & NK & NB & NP). fold (result_levels w) in NK.
    assert (N : 4 <= w_nlat w) by exact N4.
    rewrite C1, C2, C3, C4, C5, C6, E. repeat split; try lia.
    destruct (grid_inv w g G) as (_ & _ & _ & _ & P & _). rewrite P. destruct (lat_facts k w g U G) as (_ & L & _). rewrite L, E.
    destruct (w_npart w); lia.
  Qed.
  Lemma fit ind : bins_inside k w g ind -> bins_fit (p_nlon c) (p_nlat c) (p_kmax c) (bins_of k w g) ind.
  Proof.
    destruct (conf_facts k w g U G) as (C1 & C2 & C3 & _). unfold bins_fit, bins_inside. rewrite C1, C2, C3. tauto.
  Qed.
End Session.

Lemma in_doz (x : aref) lo hi body n : lo <= n <= hi -> In x (body (Z.of_nat n)) -> In x (doz lo hi body).
Proof. intros H I. unfold doz. apply in_do. exists n. split; assumption. Qed.

(** every reference is inside its array, if there are rows to invert for and the bins are those of the arrays *)
Theorem C192_routines_stay_inside_their_arrays :
  forall (k : class) (w : qgargs) (g : grid) (ind ind' : Z -> Z -> Z -> Z),
    usable k w -> grid_of w = Done g -> inverted_rows k w -> bins_inside k w g ind -> bins_inside k w g ind' ->
    Forall in_bounds (class_refs k (ob_conf (object_of k w g)) (g_npart g) ind ind').
Proof.
  intros k w g ind ind' U G Rw B B'. destruct (sizes k w g U G) as (S1 & S2 & S3 & S4 & S5 & S6 & S7 & S8).
  apply (fit k w g U G) in B. apply (fit k w g U G) in B'.
  destruct (conf_facts k w g U G) as (_ & C2 & _ & C4 & C5 & C6 & _).
  unfold class_refs. apply Forall_app. split; [|apply lwa_only_in with (npart := 2); lia].
  destruct k as [|b].
  - apply Forall_app. split; [apply qgpv_in with (npart := 2); lia|]. apply reference_states_in; try assumption; lia.
  - cbv zeta. rewrite S7. cbn [inverted_rows boundary bins_of] in *. unfold half in Rw. rewrite <- C2 in B, B'.
    apply Forall_app. split; [apply qgpv_direct_inv_in with (npart := 2); lia|].
    apply Forall_app. split; [apply qref_and_fawa_first_in; try assumption; lia|].
    apply Forall_app. split; [|apply upward_sweep_in with (nlon := 2) (npart := 2); lia].
    apply forall_doz. intros n Hn. apply Forall_app.
    split; [apply matrix_b4_in with (nlon := 2) (npart := 2); lia|apply matrix_after_in with (nlon := 2) (npart := 2); lia].
Qed.
Print Assumptions C192_routines_stay_inside_their_arrays.

(** the bin the routines compute for a cell of the field x in the arithmetic N, with the sizes of the class *)
Definition bin_by (N : Num R) (k : class) (w : qgargs) (g : grid) (x : arr3 R) (l i j : Z) : Z :=
  let c := ob_conf (object_of k w g) in
  @bin R N RTrunc (match k with NH18 => nh18_dims c (g_npart g) (w_maxit w) (w_tol w) (w_rjac w) | NHN22 _ => @nhn22_dims R RNum c end) x (Z.to_nat l) (Z.to_nat i, Z.to_nat j).
(** no inner level of x is uniform *)
Definition uneven_levels (w : qgargs) (x : arr3 R) : Prop :=
  forall l, 2 <= l <= result_levels w - 1 -> exists i j i' j', 1 <= i <= w_nlon w /\ 1 <= i' <= w_nlon w /\
    1 <= j <= analysis_rows w /\ 1 <= j' <= analysis_rows w /\ x i j l <> x i' j' l.

Lemma uneven_bins k w g x : usable k w -> grid_of w = Done g -> uneven_levels w x -> bins_inside k w g (bin_by RNum k w g x).
Proof.
  intros U G Un l i j Hl Hi Hj. destruct (sizes k w g U G) as (S1 & S2 & S3 & S4 & S5 & S6 & S7 & S8).
  destruct (conf_facts k w g U G) as (C1 & C2 & C3 & _). unfold bin_by. rewrite !Nat2Z.id.
  set (P := match k with NH18 => _ | NHN22 _ => _ end).
  assert (P1 : s_nlon P = w_nlon w) by (unfold P; destruct k; exact C1).
  assert (P2 : s_nlat P = analysis_rows w) by (unfold P; destruct k; exact C2).
  assert (P3 : s_npart P = bins_of k w g) by (unfold P; destruct k; [reflexivity|exact C2]).
  assert (P4 : 2 <= s_npart P) by (rewrite P3; unfold bins_of; destruct k; lia).
  destruct (level_extremes P x l) as (M & m & HM & Hm); [lia|lia|].
  rewrite <- P3. apply (bin_range P x l M m HM Hm); [|exact P4|unfold grid_point; lia].
  destruct (Un l Hl) as (i1 & j1 & i2 & j2 & A1 & A2 & A3 & A4 & D).
  assert (G1 : grid_point P i1 j1) by (unfold grid_point; lia). assert (G2 : grid_point P i2 j2) by (unfold grid_point; lia).
  assert (X1 := proj1 HM i1 j1 G1). assert (X2 := proj1 HM i2 j2 G2). assert (Y1 := proj1 Hm i1 j1 G1). assert (Y2 := proj1 Hm i2 j2 G2).
  destruct (Rle_lt_dec M m) as [L|L]; [|exact L]. exfalso. apply D. apply Rle_antisym; lra.
Qed.

(** so with the bins computed from the PV and the vorticity passed, in exact arithmetic, provided that no inner level of them is uniform *)
Theorem C192_routines_stay_inside_for_uneven_fields :
  forall (k : class) (w : qgargs) (g : grid) (pv vort : arr3 R),
    usable k w -> grid_of w = Done g -> inverted_rows k w -> uneven_levels w pv -> uneven_levels w vort ->
    Forall in_bounds (class_refs k (ob_conf (object_of k w g)) (g_npart g) (bin_by RNum k w g pv) (bin_by RNum k w g vort)).
Proof.
  intros k w g pv vort U G Rw V V'. apply C192_routines_stay_inside_their_arrays; try assumption; apply uneven_bins; assumption.
Qed.
Print Assumptions C192_routines_stay_inside_for_uneven_fields.

(** in single precision, provided that values differ by 2^-100 and there are at most 2^22 bins *)
Definition spread_levels (w : qgargs) (x : arr3 R) : Prop :=
  forall l, 2 <= l <= result_levels w - 1 -> exists i j i' j', 1 <= i <= w_nlon w /\ 1 <= i' <= w_nlon w /\
    1 <= j <= analysis_rows w /\ 1 <= j' <= analysis_rows w /\ (bpow radix2 (-100) <= x i j l - x i' j' l)%R.
Lemma spread_bins k w g x : usable k w -> grid_of w = Done g -> (Z.of_nat (bins_of k w g) <= 2 ^ 22)%Z -> spread_levels w x ->
  bins_inside k w g (bin_by (RndNum rnd32) k w g x).
Proof.
  intros U G Nb Un l i j Hl Hi Hj. destruct (sizes k w g U G) as (S1 & S2 & S3 & S4 & S5 & S6 & S7 & S8).
  destruct (conf_facts k w g U G) as (C1 & C2 & C3 & _). unfold bin_by. rewrite !Nat2Z.id.
  set (P := match k with NH18 => _ | NHN22 _ => _ end).
  assert (P1 : s_nlon P = w_nlon w) by (unfold P; destruct k; exact C1).
  assert (P2 : s_nlat P = analysis_rows w) by (unfold P; destruct k; exact C2).
  assert (P3 : s_npart P = bins_of k w g) by (unfold P; destruct k; [reflexivity|exact C2]).
  assert (P4 : 2 <= s_npart P) by (rewrite P3; unfold bins_of; destruct k; lia).
  destruct (level_extremes P x l) as (M & m & HM & Hm); [lia|lia|].
  rewrite <- P3 in Nb |- *. apply (bin_single P x l P4 Nb M m HM Hm); [|unfold grid_point; lia].
  destruct (Un l Hl) as (i1 & j1 & i2 & j2 & A1 & A2 & A3 & A4 & D).
  assert (G1 : grid_point P i1 j1) by (unfold grid_point; lia). assert (G2 : grid_point P i2 j2) by (unfold grid_point; lia).
  assert (X1 := proj1 HM i1 j1 G1). assert (Y2 := proj1 Hm i2 j2 G2). lra.
Qed.
Theorem C192_routines_stay_inside_in_single_precision :
  forall (k : class) (w : qgargs) (g : grid) (pv vort : arr3 R),
    usable k w -> grid_of w = Done g -> inverted_rows k w -> (Z.of_nat (bins_of k w g) <= 2 ^ 22)%Z -> spread_levels w pv -> spread_levels w vort ->
    Forall in_bounds (class_refs k (ob_conf (object_of k w g)) (g_npart g) (bin_by (RndNum rnd32) k w g pv) (bin_by (RndNum rnd32) k w g vort)).
Proof.
  intros k w g pv vort U G Rw Nb V V'. apply C192_routines_stay_inside_their_arrays; try assumption; apply spread_bins; assumption.
Qed.
Print Assumptions C192_routines_stay_inside_in_single_precision.

(** both conditions are needed.  The class accepts an equatorward boundary next to the pole; the direct inversion then refers to
    elements outside its arrays *)
Theorem C192_boundary_next_to_the_pole_leaves_the_arrays :
  forall (b : nat) (w : qgargs) (g : grid) (ind ind' : Z -> Z -> Z -> Z),
    usable (NHN22 b) w -> grid_of w = Done g -> half w <= b + 1 ->
    exists x, In x (class_refs (NHN22 b) (ob_conf (object_of (NHN22 b) w g)) (g_npart g) ind ind') /\ ~ in_bounds x.
Proof.
  intros b w g ind ind' U G Hb. destruct (sizes (NHN22 b) w g U G) as (S1 & S2 & S3 & S4 & S5 & S6 & S7 & S8).
  destruct (conf_facts (NHN22 b) w g U G) as (_ & C2 & _ & C4 & C5 & C6 & _). cbn [boundary] in *. unfold half in Hb.
  set (c := ob_conf (object_of (NHN22 b) w g)) in *.
  assert (J : p_jd c = 1 \/ p_jd c = 2) by lia.
  exists (if Nat.eqb (p_jd c) 1 then ("tref"%string, [p_jd c; p_kmax c], [2; 2]%Z) else ("u"%string, [p_jd c; p_kmax c], [Z.of_nat (p_jd c) - 2; 1]%Z)).
  split.
  - unfold class_refs. cbv zeta. apply in_or_app. left. apply in_or_app. right. apply in_or_app. right. apply in_or_app. right.
    unfold upward_sweep_refs. destruct J as [J|J]; rewrite J; cbn [Nat.eqb].
    + do 7 (apply in_or_app; right). apply in_or_app. left. apply (in_doz _ _ _ _ 2); [lia|]. apply in_or_app. left. right. left. reflexivity.
    + do 5 (apply in_or_app; right). apply in_or_app. left. apply (in_doz _ _ _ _ 1); [lia|]. right. right. left. reflexivity.
  - destruct J as [J|J]; rewrite J; cbn [Nat.eqb]; unfold in_bounds; cbn [fst snd]; intros F; inversion F as [|? ? ? ? F1 F2]; clear - F1; lia.
Qed.
Print Assumptions C192_boundary_next_to_the_pole_leaves_the_arrays.

(** a cell whose bin is outside 1..npart is written to outside the arrays *)
Theorem C192_bins_outside_are_written :
  forall (k : class) (w : qgargs) (g : grid) (ind ind' : Z -> Z -> Z -> Z) (l i j : nat),
    usable k w -> grid_of w = Done g -> 2 <= l <= result_levels w - 1 -> 1 <= i <= w_nlon w -> 1 <= j <= analysis_rows w ->
    In ("an"%string, [bins_of k w g], [ind (Z.of_nat l) (Z.of_nat i) (Z.of_nat j)]) (class_refs k (ob_conf (object_of k w g)) (g_npart g) ind ind') /\
    (in_bounds ("an"%string, [bins_of k w g], [ind (Z.of_nat l) (Z.of_nat i) (Z.of_nat j)]) <->
     (1 <= ind (Z.of_nat l) (Z.of_nat i) (Z.of_nat j) <= Z.of_nat (bins_of k w g))%Z).
Proof.
  intros k w g ind ind' l i j U G Hl Hi Hj. destruct (conf_facts k w g U G) as (C1 & C2 & C3 & _). split.
  - unfold class_refs. apply in_or_app. left.
    assert (B : forall n x2, In ("an"%string, [n], [ind (Z.of_nat l) (Z.of_nat i) (Z.of_nat j)])
      (binning_refs (p_nlon (ob_conf (object_of k w g))) (p_nlat (ob_conf (object_of k w g))) n x2 (ind (Z.of_nat l)))).
    { intros n x2. unfold binning_refs. do 2 (apply in_or_app; right). apply in_or_app. left. apply (in_doz _ _ _ _ j); [lia|].
      apply (in_doz _ _ _ _ i); [lia|]. right. left. reflexivity. }
    destruct k as [|b].
    + apply in_or_app. right. unfold reference_states_refs. do 2 (apply in_or_app; right). apply in_or_app. left.
      apply (in_doz _ _ _ _ l); [lia|]. do 3 (apply in_or_app; right). apply in_or_app. left. apply B.
    + cbv zeta. apply in_or_app. right. apply in_or_app. left. unfold qref_and_fawa_first_refs. do 2 (apply in_or_app; right). apply in_or_app. left.
      apply (in_doz _ _ _ _ l); [lia|]. do 2 (apply in_or_app; right). apply in_or_app. left. cbn [bins_of]. rewrite <- C2. apply B.
  - unfold in_bounds. cbn [fst snd]. split; intros X.
    + inversion X; subst; assumption.
    + repeat constructor; tauto.
Qed.
Print Assumptions C192_bins_outside_are_written.

Example C192_case : forall nh odd, exists g, grid_of (some_args odd nh) = Done g /\
  (forall k, (k = NH18 \/ k = NHN22 0) -> usable k (some_args odd nh) /\ inverted_rows k (some_args odd nh) /\ uneven_levels (some_args odd nh) (fun i j l => INR j) /\
    (Z.of_nat (bins_of k (some_args odd nh) g) <= 2 ^ 22)%Z /\ spread_levels (some_args odd nh) (fun i j l => INR j)) /\
  usable (NHN22 1) (some_args odd nh) /\ half (some_args odd nh) <= 1 + 1.
Proof.
  intros nh odd. assert (U : usable NH18 (some_args odd nh)) by (apply some_usable; cbn; lia).
  destruct (proj1 (grid_exists NH18 (some_args odd nh) U) (some_accepted odd nh)) as [g G].
  exists g. split; [exact G|]. split; [|split; [apply some_usable; cbn; lia|destruct odd; unfold half; cbn; lia]].
  intros k Hk. split; [apply some_usable; destruct Hk as [-> | ->]; cbn; lia|]. split.
  - destruct Hk as [-> | ->]; cbn [inverted_rows]; [exact I|]. destruct odd; unfold half; cbn; lia.
  - split; [|split].
    + intros l Hl. exists 1, 1, 1, 2. repeat split; try (destruct odd; cbn; lia). cbn [INR]. lra.
    + destruct (grid_inv _ _ G) as (_ & _ & _ & _ & P & _). destruct (lat_facts _ _ _ U G) as (_ & L & _).
      unfold bins_of. rewrite P. cbn [some_args w_npart]. rewrite L. destruct Hk as [-> | ->]; destruct odd; vm_compute; discriminate.
    + intros l Hl. exists 1, 2, 1, 1. repeat split; try (destruct odd; cbn; lia).
      apply Rle_trans with (bpow radix2 0); [apply bpow_le; lia|]. cbn. lra.
Qed.
