(** C167-C169: the driver programs under /repo/scripts.  Vocabulary: DriversSpec.v. *)
From Verif Require Import Base BaseFacts Spec SpecFacts Grid GridProofs Object ObjectSpec ObjectProofs ObjectProofs4 Drivers DriversSpec DriversProofs PropertiesObject.
Open Scope R_scope.

(** ** C167: values stay at their latitudes and pressures when a driver turns the axes *)
(** predigest_data.py turns axes and data together *)
Theorem C167_predigest_keeps_values_in_place : forall (f : ncinput) (t : nat), placed f t (predigest_args f t).
Proof. exact predigest_placed. Qed.
Print Assumptions C167_predigest_keeps_values_in_place.
(** sample_run_script.py turns the axes if needed but always turns the data: right exactly for files from the north pole and the top on, and for
    atmospheres that look the same when turned *)
Theorem C167_sample_script_keeps_values_in_place_refuted :
  (forall (f : ncinput) (t : nat), ordered (f_nlat f) (f_lat f) -> ordered (f_nlev f) (f_lev f) ->
     (placed f t (grl_args f t) <-> atmosphere_same_turned f t (negb (top_first f)) (negb (north_first f)))) /\
  ~ forall (f : ncinput) (t : nat), ordered (f_nlat f) (f_lat f) -> ordered (f_nlev f) (f_lev f) -> placed f t (grl_args f t).
Proof.
  assert (P : forall (f : ncinput) (t : nat), ordered (f_nlat f) (f_lat f) -> ordered (f_nlev f) (f_lev f) ->
     (placed f t (grl_args f t) <-> atmosphere_same_turned f t (negb (top_first f)) (negb (north_first f)))).
  { intros f t Oy Ol. assert (E1 : xorb (top_first f) true = negb (top_first f)) by (destruct (top_first f); reflexivity).
    assert (E2 : xorb (north_first f) true = negb (north_first f)) by (destruct (north_first f); reflexivity). rewrite <- E1, <- E2.
    apply placed_iff; try apply ordered_distinct; try assumption; try reflexivity; intros;
      cbn [grl_args default_args w_plev w_ylat]; unfold descending_level, ascending_latitude, top_first, north_first; rewrite ?Rltb_minus, ?Rltb_minus'; destruct (Rltb _ _); reflexivity. }
  split; [exact P|]. intros F.
  set (f := {| f_ntimes := 1; f_nlon := 1; f_nlat := 2; f_nlev := 2; f_lat := INR; f_lev := fun l => - INR l; f_u := fun _ _ j _ => INR j; f_v := fun _ _ _ _ => 0; f_t := fun _ _ _ _ => 0; f_heating := fun _ _ _ _ => 0 |}).
  assert (Oy : ordered (f_nlat f) (f_lat f)) by (left; intros a Ha; cbn [f f_lat]; rewrite S_INR; lra).
  assert (Ol : ordered (f_nlev f) (f_lev f)) by (right; intros a Ha; cbn [f f_lev]; rewrite S_INR; lra).
  assert (G := proj1 (P f 0%nat Oy Ol) (F f 0%nat Oy Ol)). destruct G as (G & _). specialize (G 0%nat 0%nat 0%nat ltac:(cbn; lia) ltac:(cbn; lia) ltac:(cbn; lia)).
  unfold north_first in G. cbn [f f_lat f_u f_nlat] in G. unfold Rltb in G. destruct (Rlt_dec (INR 1) (INR 0)); cbn in *; lra.
Qed.
Print Assumptions C167_sample_script_keeps_values_in_place_refuted.
(** the two programs of lubis_et_al_2025 turn the axes if needed but never the data: right exactly for files from the south pole and the ground on *)
Theorem C167_budget_scripts_keep_values_in_place_refuted :
  (forall (f : ncinput) (t : nat), ordered (f_nlat f) (f_lat f) -> ordered (f_nlev f) (f_lev f) ->
     (placed f t (lubis_args f t) <-> atmosphere_same_turned f t (top_first f) (north_first f))) /\
  ~ forall (f : ncinput) (t : nat), ordered (f_nlat f) (f_lat f) -> ordered (f_nlev f) (f_lev f) -> placed f t (lubis_args f t).
Proof.
  assert (P : forall (f : ncinput) (t : nat), ordered (f_nlat f) (f_lat f) -> ordered (f_nlev f) (f_lev f) ->
     (placed f t (lubis_args f t) <-> atmosphere_same_turned f t (top_first f) (north_first f))).
  { intros f t Oy Ol. assert (E1 : xorb (top_first f) false = top_first f) by (destruct (top_first f); reflexivity).
    assert (E2 : xorb (north_first f) false = north_first f) by (destruct (north_first f); reflexivity). rewrite <- E1, <- E2.
    apply placed_iff; try apply ordered_distinct; try assumption; try reflexivity; intros;
      cbn [lubis_args default_args w_plev w_ylat]; unfold descending_level, ascending_latitude, top_first, north_first; rewrite ?Rltb_minus, ?Rltb_minus'; destruct (Rltb _ _); reflexivity. }
  split; [exact P|]. intros F.
  set (f := {| f_ntimes := 1; f_nlon := 1; f_nlat := 2; f_nlev := 2; f_lat := fun j => - INR j; f_lev := fun l => - INR l; f_u := fun _ _ j _ => INR j; f_v := fun _ _ _ _ => 0; f_t := fun _ _ _ _ => 0; f_heating := fun _ _ _ _ => 0 |}).
  assert (Oy : ordered (f_nlat f) (f_lat f)) by (right; intros a Ha; cbn [f f_lat]; rewrite S_INR; lra).
  assert (Ol : ordered (f_nlev f) (f_lev f)) by (right; intros a Ha; cbn [f f_lev]; rewrite S_INR; lra).
  assert (G := proj1 (P f 0%nat Oy Ol) (F f 0%nat Oy Ol)). destruct G as (G & _). specialize (G 0%nat 0%nat 0%nat ltac:(cbn; lia) ltac:(cbn; lia) ltac:(cbn; lia)).
  unfold north_first in G. cbn [f f_lat f_u f_nlat] in G. unfold Rltb in G. destruct (Rlt_dec (- INR 1) (- INR 0)); cbn in *; lra.
Qed.
Print Assumptions C167_budget_scripts_keep_values_in_place_refuted.

(** ** C168: the output of predigest_data.py *)
(** if it completes, it holds one slice for every six hours of the month: the results for the atmosphere at this time *)
Theorem C168_one_slice_for_every_time_step :
  forall (lib : library) (year month days : nat) (f : ncinput) (out : list predigest_slice),
    monthrange year month = Some days -> predigest lib year month f = Done out ->
    length out = (4 * days)%nat /\ (4 * days <= f_ntimes f)%nat /\
    forall t, (t < 4 * days)%nat -> exists s x, nth_error out t = Some s /\ session lib NH18 (predigest_args f t) (fun _ _ _ => 0) = Done x /\ slice_of f x s.
Proof.
  intros lib year month days f out M E. unfold predigest in E. rewrite M in E. destruct (each_step_done _ _ _ _ E) as (L & N). replace (days * 4)%nat with (4 * days)%nat in * by lia.
  assert (G : forall t, (t < 4 * days)%nat -> (t < f_ntimes f)%nat /\ exists s x, nth_error out t = Some s /\ session lib NH18 (predigest_args f t) (fun _ _ _ => 0) = Done x /\ slice_of f x s).
  { intros t Ht. destruct (N t Ht) as (s & S1 & S2). cbn [Nat.add] in S2. unfold predigest_step in S2. destruct (Nat.leb_spec (f_ntimes f) t) as [B|B]; [discriminate|]. split; [exact B|].
    destruct (session lib NH18 (predigest_args f t) (fun _ _ _ => 0)) as [x|] eqn:X; [|discriminate]. exists s, x. split; [exact S1|]. split; [reflexivity|].
    destruct (out_lwa_baro x) eqn:X1, (out_u_baro x) eqn:X2, (out_lwa x) eqn:X3, (out_uref x) eqn:X4, (out_u x) eqn:X5; try discriminate. injection S2 as <-.
    unfold slice_of. cbn [pd_lwa_baro pd_u_baro pd_fawa pd_uref pd_ubar]. rewrite X1, X2, X3, X4, X5. cbn [gives]. repeat split; intros; apply mean_last_average. }
  split; [exact L|]. split.
  - destruct (Nat.eq_dec days 0) as [->|Nz]; [lia|]. destruct (G (4 * days - 1)%nat ltac:(lia)). lia.
  - intros t Ht. apply (G t Ht).
Qed.
Print Assumptions C168_one_slice_for_every_time_step.
(** the month is that of the Gregorian calendar *)
Theorem C168_slices_follow_the_calendar :
  forall (lib : library) (year month : nat) (f : ncinput) (out : list predigest_slice), predigest lib year month f = Done out ->
    (1 <= month <= 12)%nat /\
    (In month [1; 3; 5; 7; 8; 10; 12]%nat -> length out = 124%nat) /\
    (In month [4; 6; 9; 11]%nat -> length out = 120%nat) /\
    (month = 2%nat -> Nat.divide 4 year /\ (~ Nat.divide 100 year \/ Nat.divide 400 year) -> length out = 116%nat) /\
    (month = 2%nat -> ~ (Nat.divide 4 year /\ (~ Nat.divide 100 year \/ Nat.divide 400 year)) -> length out = 112%nat).
Proof.
  intros lib year month f out E. destruct (monthrange year month) as [days|] eqn:M; [|unfold predigest in E; rewrite M in E; discriminate E].
  assert (L := proj1 (C168_one_slice_for_every_time_step lib year month days f out M E)). clear E. rewrite L. clear L.
  assert (Lp : leap year = true <-> Nat.divide 4 year /\ (~ Nat.divide 100 year \/ Nat.divide 400 year)).
  { rewrite <- !Nat.mod_divide by lia. unfold leap. rewrite Bool.andb_true_iff, Bool.orb_true_iff, Bool.negb_true_iff, !Nat.eqb_eq, Nat.eqb_neq. reflexivity. }
  set (g := Nat.divide 4 year /\ (~ Nat.divide 100 year \/ Nat.divide 400 year)) in *. clearbody g.
  assert (D : (leap year = true /\ g) \/ (leap year = false /\ ~ g)) by (destruct (leap year); [left|right]; split; try reflexivity; [apply Lp; reflexivity|intros G; apply Lp in G; discriminate]).
  clear Lp. unfold monthrange in M. do 13 (destruct month as [|month]; [first [discriminate M|injection M as <-]; destruct D as [[L D]|[L D]]; rewrite ?L; clear L; cbn [In]; repeat split; intros; try lia; tauto|]). discriminate M.
Qed.
Print Assumptions C168_slices_follow_the_calendar.
(** it completes for files that cover the month, from the north pole and the top on, on accepted grids *)
Theorem C168_completes :
  forall (lib : library) (year month days : nat) (f : ncinput), monthrange year month = Some days -> (4 * days <= f_ntimes f)%nat ->
    usable NH18 (predigest_args f 0) -> accepted_levels (predigest_args f 0) -> exists out, predigest lib year month f = Done out.
Proof.
  intros lib year month days f M Nt U A. unfold predigest. rewrite M. apply each_step_all. intros t Ht. cbn [Nat.add]. unfold predigest_step.
  destruct (Nat.leb_spec (f_ntimes f) t) as [B|B]; [lia|].
  assert (Ut : usable NH18 (predigest_args f t)) by exact U. assert (At : accepted_levels (predigest_args f t)) by exact A.
  destruct (global_session lib NH18 (predigest_args f t) (fun _ _ _ => 0) Ut At eq_refl) as [x Hx]. rewrite Hx.
  destruct (proj1 (proj2 (C131_session_succeeds_exactly_when lib NH18 _ (fun _ _ _ => 0) Ut)) x Hx) as (R1 & R2 & R3 & R4 & R5 & R6 & R7 & R8 & R9 & R10 & R11 & R12 & R13 & R14 & R15 & R16 & R17 & R18 & R19 & _).
  destruct R16 as [y1 ->]. destruct R17 as [y2 ->]. destruct R19 as [y3 ->]. destruct R6 as [y4 ->]. destruct R2 as [y5 ->]. eauto.
Qed.
Print Assumptions C168_completes.
(** expected: all times of the file are processed.  Times after the month named on the command line have no influence, and a shorter file makes it fail *)
Theorem C168_all_times_processed_refuted :
  (forall (lib : library) (year month days : nat) (f f' : ncinput), monthrange year month = Some days -> (4 * days <= f_ntimes f)%nat -> (4 * days <= f_ntimes f')%nat ->
     f_nlon f = f_nlon f' -> (forall t, (t < 4 * days)%nat -> predigest_args f t = predigest_args f' t) -> predigest lib year month f = predigest lib year month f') /\
  (forall (lib : library) (year month days : nat) (f : ncinput), monthrange year month = Some days -> (f_ntimes f < 4 * days)%nat -> forall out, predigest lib year month f <> Done out).
Proof.
  split.
  - intros lib year month days f f' M N N' L E. unfold predigest. rewrite M. apply each_step_same. intros t Ht. unfold predigest_step. rewrite E, L by lia.
    destruct (Nat.leb_spec (f_ntimes f) t); [lia|]. destruct (Nat.leb_spec (f_ntimes f') t); [lia|]. reflexivity.
  - intros lib year month days f M N out E. assert (X := proj1 (proj2 (C168_one_slice_for_every_time_step lib year month days f out M E))). lia.
Qed.
Print Assumptions C168_all_times_processed_refuted.
(** expected: files from the ground on are processed too.  They are refused *)
Theorem C168_either_orientation_refuted :
  forall (lib : library) (year month days : nat) (f : ncinput), monthrange year month = Some days -> (0 < f_ntimes f)%nat -> (2 <= f_nlev f)%nat ->
    f_lev f (f_nlev f - 1)%nat < f_lev f (f_nlev f - 2)%nat -> predigest lib year month f = Raise TypeError.
Proof.
  intros lib year month days f M Nt Nl D. assert (P : (0 < days)%nat).
  { unfold monthrange in M. do 13 (destruct month as [|month]; [first [discriminate M|injection M as <-; try destruct (leap year); lia]|]). discriminate M. }
  unfold predigest. rewrite M. destruct (days * 4)%nat as [|n] eqn:Dn; [lia|]. cbn [each_step].
  assert (S1 : predigest_step lib f 0 = Raise TypeError); [|rewrite S1; reflexivity].
  unfold predigest_step. destruct (Nat.leb_spec (f_ntimes f) 0); [lia|].
  assert (G : grid_of (predigest_args f 0) = Raise TypeError).
  { unfold grid_of, qg_init. cbn [predigest_args default_args w_evenly w_nlev w_plev w_H w_kmax w_dz]. unfold check_valid_plev. destruct (Nat.ltb_spec (f_nlev f) 2); [lia|].
    unfold reversed. replace (f_nlev f - 1 - 1)%nat with (f_nlev f - 2)%nat by lia. replace (f_nlev f - 1 - 0)%nat with (f_nlev f - 1)%nat by lia.
    unfold Rltb. destruct (Rlt_dec 0 (f_lev f (f_nlev f - 2)%nat - f_lev f (f_nlev f - 1)%nat)); [reflexivity|lra]. }
  rewrite (session_refused lib NH18 _ (fun _ _ _ => 0) _ G). reflexivity.
Qed.
Print Assumptions C168_either_orientation_refuted.

(** ** C169: the programs for QGFieldNHN22 *)
(** sample_run_script.py never gets past the first time step: the routine it calls leaves out a required argument *)
Theorem C169_sample_script_completes_refuted :
  (forall (lib : library) (f : ncinput), (0 < f_ntimes f)%nat -> grl_run lib f <> None) /\
  (forall (lib : library) (f : ncinput), (0 < f_ntimes f)%nat -> f_nlat f = 181%nat -> usable (NHN22 5) (grl_args f 0) -> accepted_levels (grl_args f 0) -> grl_run lib f = Some TypeError) /\
  f2py_call dirinv_flux_required dirinv_flux_given_by_wrapper = None.
Proof.
  assert (C : f2py_call dirinv_flux_required dirinv_flux_given = Some TypeError) by reflexivity. split; [|split; [|reflexivity]].
  - intros lib f Nt. unfold grl_run. destruct (negb _); [discriminate|]. destruct (Nat.eqb_spec (f_ntimes f) 0); [lia|]. destruct (session _ _ _ _); [rewrite C|]; discriminate.
  - intros lib f Nt N U A. unfold grl_run. rewrite N. destruct (Nat.eqb_spec (f_ntimes f) 0); [lia|].
    change (negb (Nat.eqb (181 - 90) (181 / 2 + 1))) with false. cbv iota. destruct (global_session lib _ _ (fun _ _ _ => 0) U A eq_refl) as [x ->]. exact C.
Qed.
Print Assumptions C169_sample_script_completes_refuted.
(** cal_lwa_budget_NHN22.py writes the named tuple: with the equator among the latitudes its variables are the properties of the object *)
Theorem C169_budget_script_writes_the_properties :
  forall (lib : library) (f : ncinput) (t : nat), usable (NHN22 5) (lubis_args f t) -> accepted_levels (lubis_args f t) -> Nat.even (f_nlat f) = false ->
    exists x maps lwa, session lib (NHN22 5) (lubis_args f t) (fun _ _ _ => 0) = Done x /\ lubis_step lib f t = Some (maps, lwa) /\
      [out_f1 x; out_f2 x; out_f3 x; out_conv x; out_div x; out_heat x; out_lwa_baro x; out_u_baro x] = map (fun y => Done y) maps /\ out_lwa x = Done lwa.
Proof.
  intros lib f t U A Od. destruct (proj1 (grid_exists _ _ U) A) as [g Hg]. assert (C : create (NHN22 5) (lubis_args f t) = Done (object_of (NHN22 5) (lubis_args f t) g)) by (rewrite create_eq, Hg; reflexivity).
  destruct (global_session lib _ _ (fun _ _ _ => 0) U A eq_refl) as [x Hx].
  destruct (C135_named_tuple_is_the_properties lib _ _ (fun _ _ _ => 0) _ U C Od) as (T1 & T2 & T3).
  destruct (session_read lib _ _ _ x Hx) as (g' & Hg' & Ex). assert (Eg : g' = g) by congruence. subst g'. rewrite <- Ex in T2, T3.
  exists x. do 2 eexists. split; [exact Hx|]. split; [|split; [exact T2|exact T3]]. unfold lubis_step. cbv zeta. rewrite C, Hx, T1. change (result_rows (lubis_args f t)) with (f_nlat f). rewrite Nat.eqb_refl. reflexivity.
Qed.
Print Assumptions C169_budget_script_writes_the_properties.
(** expected: it works on every accepted grid.  Without the equator among the latitudes both programs fail *)
Theorem C169_budget_scripts_on_every_grid_refuted :
  forall (lib : library) (f : ncinput) (t : nat), usable (NHN22 5) (lubis_args f t) -> accepted_levels (lubis_args f t) -> Nat.even (f_nlat f) = true ->
    (exists x, session lib (NHN22 5) (lubis_args f t) (fun _ _ _ => 0) = Done x) /\ lubis_step lib f t = None /\ ncforce_step lib f t = None.
Proof.
  intros lib f t U A Ev. destruct (proj1 (grid_exists _ _ U) A) as [g Hg]. assert (C : create (NHN22 5) (lubis_args f t) = Done (object_of (NHN22 5) (lubis_args f t) g)) by (rewrite create_eq, Hg; reflexivity).
  destruct (global_session lib _ _ (fun _ _ _ => 0) U A eq_refl) as [x Hx]. split; [exists x; exact Hx|]. split.
  - unfold lubis_step. cbv zeta. rewrite C, Hx. rewrite (proj1 C135_named_tuple_rows_refuted _ _ _ U C Ev). change (result_rows (lubis_args f t)) with (f_nlat f).
    destruct (Nat.eqb_spec (f_nlat f + 1) (f_nlat f)); [lia|reflexivity].
  - unfold ncforce_step. cbv zeta. rewrite C. destruct (ncforce_from_heating_rate _ _ _ _) as [nc|] eqn:E; [|reflexivity].
    assert (X := proj1 (proj1 (C136_heating_to_forcing _ _ _ (domain lib (NHN22 5) (lubis_args f t) (object_of (NHN22 5) (lubis_args f t) g)) (f_heating f t) U C)) (ex_intro _ nc E)). change (w_nlat (lubis_args f t)) with (f_nlat f) in X. congruence.
Qed.
Print Assumptions C169_budget_scripts_on_every_grid_refuted.
(** with the equator cal_ncforce_loop.py writes the forcing used by the object *)
Theorem C169_forcing_script_completes :
  forall (lib : library) (f : ncinput) (t : nat), usable (NHN22 5) (lubis_args f t) -> accepted_levels (lubis_args f t) -> Nat.even (f_nlat f) = false ->
    exists o nc out, create (NHN22 5) (lubis_args f t) = Done o /\ ncforce_from_heating_rate (lubis_args f t) o (domain lib (NHN22 5) (lubis_args f t) o) (f_heating f t) = Some nc /\
      ncforce_step lib f t = Some out /\ forall k row i, out k row i = l_nc (s_layer (analyse lib (NHN22 5) (lubis_args f t) o nc)) (i + 1)%nat (row + 1)%nat (k + 1)%nat.
Proof.
  intros lib f t U A Od. destruct (proj1 (grid_exists _ _ U) A) as [g Hg]. assert (C : create (NHN22 5) (lubis_args f t) = Done (object_of (NHN22 5) (lubis_args f t) g)) by (rewrite create_eq, Hg; reflexivity).
  destruct (proj2 (proj1 (C136_heating_to_forcing _ _ _ (domain lib (NHN22 5) (lubis_args f t) (object_of (NHN22 5) (lubis_args f t) g)) (f_heating f t) U C)) Od) as [nc E].
  destruct (global_session lib _ _ nc U A eq_refl) as [x Hx]. do 3 eexists. split; [exact C|]. split; [exact E|]. split; [unfold ncforce_step; cbv zeta; rewrite C, E, Hx; reflexivity|reflexivity].
Qed.
Print Assumptions C169_forcing_script_completes.

(** ** A concrete file: 181 latitudes, six levels up to 50 km; from the north pole and the top on, or from the south pole and the ground on *)
Definition some_file (turned : bool) (nlat : nat) : ncinput :=
  {| f_ntimes := 200; f_nlon := 4; f_nlat := nlat; f_nlev := 6; f_lat := fun j => if turned then INR (nlat - 1) / 2 - INR j else INR j - INR (nlat - 1) / 2;
     f_lev := fun l => 1000 * exp (- (if turned then 50 - 10 * INR l else 10 * INR l) / 7);
     f_u := fun t l j i => INR (t + l + j * i); f_v := fun t l j i => INR (l * i) - INR j; f_t := fun t l j i => 250 + INR (l + j); f_heating := fun t l j i => INR (t + j) |}.
Lemma axis_height x : plev_to_height 7000 (1000 * exp (- (10 * x) / 7)) = 10000 * x.
Proof. unfold plev_to_height. replace (1000 * exp (- (10 * x) / 7) / 1000) with (exp (- (10 * x) / 7)) by field. rewrite ln_exp. field. Qed.
Lemma decreasing_levels x y : x <= y -> 1000 * exp (- (10 * y) / 7) <= 1000 * exp (- (10 * x) / 7).
Proof. intros H. apply Rmult_le_compat_l; [lra|]. destruct (Req_dec x y) as [->|N]; [lra|]. apply Rlt_le, exp_increasing. lra. Qed.
Lemma plev_of_turned l : (l < 6)%nat -> reversed 6 (fun l => 1000 * exp (- (50 - 10 * INR l) / 7)) l = 1000 * exp (- (10 * INR l) / 7).
Proof. intros H. unfold reversed. do 2 f_equal. f_equal. f_equal. rewrite minus_INR by lia. cbn [Nat.sub]. replace (INR 5) with 5 by (cbn; lra). lra. Qed.
Lemma row_of_turned j : (j <= 180)%nat -> INR (181 - 1 - j) = 180 - INR j.
Proof. intros H. rewrite minus_INR by lia. rewrite (INR_IZR_INZ (181 - 1)). cbn. lra. Qed.
Example C168_case : (forall t, placed (some_file true 181) t (predigest_args (some_file true 181) t)) /\ usable NH18 (predigest_args (some_file true 181) 0) /\
  accepted_levels (predigest_args (some_file true 181) 0) /\ monthrange 2024 2 = Some 29%nat /\ (4 * 29 <= f_ntimes (some_file true 181))%nat /\
  exists out, predigest some_library 2024 2 (some_file true 181) = Done out.
Proof.
  assert (U : usable NH18 (predigest_args (some_file true 181) 0)).
  { split; [|cbn [predigest_args default_args some_file w_nlon w_evenly w_kmax boundary w_npart f_nlon w_nlat f_nlat]; split; [lia|]; split; [lia|]; split; [apply Nat.leb_le; reflexivity|exact I]].
    cbn [predigest_args default_args some_file w_nlat w_ylat f_nlat f_lat]. unfold reversed. split; [lia|]. split.
    - intros j Hj. rewrite !(row_of_turned) by lia. rewrite S_INR. lra.
    - right. split; [reflexivity|]. change (181 / 2)%nat with 90%nat. rewrite row_of_turned by lia. rewrite !INR_IZR_INZ. cbn. lra. }
  assert (A : accepted_levels (predigest_args (some_file true 181) 0)).
  { split; [cbn; lia|]. intros _. cbn [predigest_args default_args some_file w_plev f_nlev f_lev w_kmax w_dz w_nlev]. split.
    - rewrite !plev_of_turned by lia. apply decreasing_levels. cbn; lra.
    - unfold data_height. cbn [predigest_args default_args some_file w_plev w_H f_nlev f_lev]. rewrite plev_of_turned by lia. rewrite axis_height. rewrite !INR_IZR_INZ. cbn. lra. }
  split; [intros t; apply C167_predigest_keeps_values_in_place|]. split; [exact U|]. split; [exact A|]. split; [reflexivity|]. split; [cbn [some_file f_ntimes]; lia|].
  apply (C168_completes some_library 2024 2 29 (some_file true 181) eq_refl); [cbn [some_file f_ntimes]; lia|exact U|exact A].
Qed.
Lemma unturned_lat n : (2 <= n)%nat -> ascending_latitude (some_file false n) = f_lat (some_file false n).
Proof. intros H. unfold ascending_latitude. cbn [some_file f_lat]. unfold Rltb. destruct (Rlt_dec _ 0) as [L|]; [|reflexivity]. cbn [INR] in L. lra. Qed.
Lemma unturned_lev n : descending_level (some_file false n) = f_lev (some_file false n).
Proof.
  unfold descending_level. cbn [some_file f_lev]. unfold Rltb. destruct (Rlt_dec 0 _) as [L|]; [|reflexivity].
  assert (X := decreasing_levels (INR 0) (INR 1) ltac:(cbn; lra)). lra.
Qed.
Lemma lubis_usable n t : (n = 180 \/ n = 181)%nat -> usable (NHN22 5) (lubis_args (some_file false n) t) /\ accepted_levels (lubis_args (some_file false n) t).
Proof.
  intros Hn. split.
  - split; [|cbn [lubis_args default_args some_file w_nlon w_evenly w_kmax boundary w_npart f_nlon w_nlat f_nlat]; split; [lia|]; split; [lia|]; split; [destruct Hn as [-> | ->]; apply Nat.leb_le; reflexivity|exact I]].
    cbn [lubis_args default_args w_nlat w_ylat]. rewrite unturned_lat by lia. cbn [some_file f_nlat f_lat]. split; [lia|]. split.
    + intros j Hj. rewrite S_INR. lra.
    + destruct Hn as [-> | ->].
      * left. split; [reflexivity|]. intros j Hj E. assert (X : (2 * Z.of_nat j = 179)%Z); [|lia]. apply eq_IZR. rewrite mult_IZR, <- INR_IZR_INZ. rewrite (INR_IZR_INZ (180 - 1)) in E. cbn in E. lra.
      * right. split; [reflexivity|]. change (181 / 2)%nat with 90%nat. rewrite !INR_IZR_INZ. cbn. lra.
  - split; [cbn; lia|]. intros _. unfold data_height. cbn [lubis_args default_args w_plev w_kmax w_dz w_nlev w_H]. rewrite unturned_lev. cbn [some_file f_nlev f_lev]. split.
    + apply decreasing_levels. cbn; lra.
    + rewrite axis_height. rewrite !INR_IZR_INZ. cbn. lra.
Qed.
Example C169_case : (forall t, placed (some_file false 181) t (lubis_args (some_file false 181) t)) /\
  usable (NHN22 5) (lubis_args (some_file false 181) 3) /\ accepted_levels (lubis_args (some_file false 181) 3) /\ Nat.even (f_nlat (some_file false 181)) = false /\
  usable (NHN22 5) (lubis_args (some_file false 180) 3) /\ accepted_levels (lubis_args (some_file false 180) 3) /\ Nat.even (f_nlat (some_file false 180)) = true /\
  usable (NHN22 5) (grl_args (some_file false 181) 0) /\ accepted_levels (grl_args (some_file false 181) 0) /\ (0 < f_ntimes (some_file false 181))%nat /\
  grl_run some_library (some_file false 181) = Some TypeError.
Proof.
  destruct (lubis_usable 181 3 (or_intror eq_refl)) as (U1 & A1). destruct (lubis_usable 180 3 (or_introl eq_refl)) as (U2 & A2). destruct (lubis_usable 181 0 (or_intror eq_refl)) as (U3 & A3).
  assert (U4 : usable (NHN22 5) (grl_args (some_file false 181) 0)) by (destruct U3 as (B1 & B2 & B3 & B4 & B5); split; [exact B1|]; split; [exact B2|]; split; [cbn; lia|]; split; [exact B4|exact B5]).
  assert (A4 : accepted_levels (grl_args (some_file false 181) 0)).
  { destruct A3 as (B1 & B2). split; [exact B1|]. intros _. destruct (B2 eq_refl) as (B3 & B4). split; [exact B3|]. change (data_height (grl_args (some_file false 181) 0)) with (data_height (lubis_args (some_file false 181) 0)). change (w_nlev (grl_args (some_file false 181) 0)) with (w_nlev (lubis_args (some_file false 181) 0)).
    cbn [grl_args lubis_args default_args w_kmax w_dz] in *. rewrite INR_IZR_INZ in *. cbn in B4 |- *. lra. }
  split.
  { intros t. apply (proj1 C167_budget_scripts_keep_values_in_place_refuted).
    - left. intros a Ha. cbn [some_file f_lat]. rewrite S_INR. lra.
    - right. intros a Ha. cbn [some_file f_lev]. rewrite S_INR. apply Rmult_lt_compat_l; [lra|]. apply exp_increasing. lra.
    - assert (T : top_first (some_file false 181) = false). { unfold top_first. cbn [some_file f_lev]. unfold Rltb. destruct (Rlt_dec _ _) as [L|]; [|reflexivity]. assert (X := decreasing_levels (INR 0) (INR 1) ltac:(cbn; lra)). lra. }
      assert (Nf : north_first (some_file false 181) = false). { unfold north_first. cbn [some_file f_lat]. unfold Rltb. destruct (Rlt_dec _ _) as [L|]; [|reflexivity]. cbn [INR] in L. lra. }
      rewrite T, Nf. repeat split. }
  split; [exact U1|]. split; [exact A1|]. split; [reflexivity|]. split; [exact U2|]. split; [exact A2|]. split; [reflexivity|]. split; [exact U4|]. split; [exact A4|]. split; [cbn [some_file f_ntimes]; lia|].
  apply (proj1 (proj2 C169_sample_script_completes_refuted)); [cbn [some_file f_ntimes]; lia|reflexivity|exact U4|exact A4].
Qed.
