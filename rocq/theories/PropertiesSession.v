(** Properties C152-C159: the reference states of a whole session, and the sessions that are refused.  Grids have an odd number of latitudes where
    rows are mentioned; they are addressed as in FormulaSpec: hemisphere and distance from the equator. *)
From Verif Require Import Base BaseFacts Spec SpecFacts Grid GridSpec DirInvSpec DirInvProofs3 Object ObjectSpec ObjectProofs ObjectProofs4 FormulaSpec FormulaProofs FormulaProofs2 Session SessionSpec SessionProofs
  UtilSpec Utilities FormulaProofs3 FormulaProofs5 EvenSpec EvenProofs StateSpec StateProofs StateProofs2 StateProofs3 StateProofs4 StateProofs5 StateCase PropertiesObject PropertiesFormula.
Open Scope R_scope.

(** the cases the hypotheses below are tried on *)
Example states_apply : forall nc, 
  (exists tol x t, session_tables_are isentropic_library NH18 (jet_args tol) nc t /\ reads x t /\ (forall named raising, session_with_fluxes isentropic_library NH18 (jet_args tol) named raising nc = Returned x) /\
     pole_to_pole_latitudes (jet_args tol) /\ physical_constants (jet_args tol) /\ room NH18 (jet_args tol) /\ inner_level (jet_args tol) 1 /\ (forall d, (d <= 2)%nat -> reported (jet_args tol) true d) /\
     (forall l, 0 < t_slope NH18 (jet_args tol) isentropic_library true l) /\ 0 <= w_rjac (jet_args tol) < 1 /\
     exists M m, greatest (jet_args tol) (towards_pole t true 1) M /\ least (jet_args tol) (towards_pole t true 1) m /\ m < M) /\
  (forall nh, exists t, session_tables_are isentropic_library (NHN22 0) (wide_args nh) nc t /\ pole_to_pole_latitudes (wide_args nh) /\ physical_constants (wide_args nh) /\ room (NHN22 0) (wide_args nh) /\
     inner_level (wide_args nh) 1 /\ reported (wide_args nh) true 1 /\ (forall north l, 0 < t_slope (NHN22 0) (wide_args nh) isentropic_library north l) /\ exact_inverse (lb_inverse isentropic_library)).
Proof.
  intros nc. split.
  - destruct (jet_converges nc) as (tol & x & H1 & H2). destruct (C131_session_succeeds_exactly_when isentropic_library NH18 (jet_args tol) nc (jet_usable tol)) as (_ & All & _).
    destruct (tables_exist x (All x H1)) as [t Ht]. assert (S : session_tables_are isentropic_library NH18 (jet_args tol) nc t) by (split; [apply jet_usable|]; split; [reflexivity|]; exists x; split; assumption).
    exists tol, x, t. split; [exact S|]. split; [exact Ht|]. split; [exact H2|]. split; [apply jet_poles|]. split; [apply jet_constants|]. split; [exact I|]. split; [apply jet_inner|]. split; [apply jet_reported|].
    split; [intros l; rewrite jet_slopes; lra|]. split; [cbn; lra|]. clear H1 H2 All Ht x. start S. eexists _, _. split; [eapply jet_greatest; eassumption|]. split; [eapply jet_least; eassumption|]. apply jet_mM.
  - intros nh. destruct (tables_of isentropic_library (NHN22 0) (wide_args nh) nc (wide_usable (NHN22 0) nh ltac:(cbn; lia)) (wide_accepted nh) eq_refl) as [t Ht]. exists t. split; [exact Ht|].
    split; [apply wide_poles|]. split; [apply wide_constants|]. split; [unfold room, half; cbn; lia|]. split; [unfold inner_level; cbn; lia|]. split; [unfold reported, half; destruct nh; cbn; auto|].
    split; [intros north l; rewrite wide_slopes; lra|]. exact gauss_inverse_exact.
Qed.

(** ** C152: reference wind and reference temperature are in thermal wind balance *)
Theorem C152_reference_states_are_in_thermal_wind_balance :
  forall (lib : library) (k : class) (w : qgargs) (nc : field3) (t : tables), session_tables_are lib k w nc t -> room k w -> w_a w <> 0 ->
  forall north d l, inner_level w l -> (boundary k + 1 <= d < half w)%nat -> reported w north (d - 1) ->
    (ref_theta w t north (d + 1) l - ref_theta w t north (d - 1) l) / (2 * step w * w_a w)
      = - (2 * w_om w * sin (angle w d)) * (w_H w / w_rr w) * exp (w_rr w / w_cp w * (INR l * thickness w) / w_H w)
        * ((ref_u w t north d (l + 1) - ref_u w t north d (l - 1)) / (2 * thickness w)).
Proof. intros lib k w nc t H. start H. intros Rm Ha north d l. exact (balance lib k w nc g t U Hg Od T north d l Rm Ha). Qed.
Print Assumptions C152_reference_states_are_in_thermal_wind_balance.

(** ** C153: the reference PV.  [M] and [m] are the largest and the smallest value of the QGPV (towards the pole) on a level, [c] the
    distance of the contours *)
Theorem C153_reference_pv_is_the_area_rearrangement_of_the_pv :
  forall (lib : library) (k : class) (w : qgargs) (nc : field3) (t : tables), session_tables_are lib k w nc t -> pole_to_pole_latitudes w -> 0 < w_a w -> 0 < w_om w ->
  forall north l M m, inner_level w l -> greatest w (towards_pole t north l) M -> least w (towards_pole t north l) m -> m < M ->
  let c := (M - m) / (INR (contours k w) - 1) in let area := area_where w (towards_pole t north l) in let ref := pole_ref w t north l in
    (reported w north (half w) -> ref (half w) = M) /\
    (forall d, reported w north d -> (1 <= d < half w)%nat -> cap w d < area (up_to (M - c)) -> forall b, (forall v, area (within (v - c) v) <= b) -> - (2 * b) <= area (exceeds (ref d)) - cap w d <= b) /\
    (forall d1 d2, reported w north d1 -> reported w north d2 -> (1 <= d1 <= d2)%nat -> cap w d1 < area (up_to (M - c)) \/ d1 = half w -> m <= ref d1 /\ ref d1 <= ref d2 /\ ref d2 <= M) /\
    (forall d, reported w north d -> (1 <= d < half w)%nat -> area (up_to (M - c)) <= cap w d -> ref d = 0).
Proof.
  intros lib k w nc t H. start H. intros Lat Ha Ho north l M m Hl HM Hm Hmm. cbv zeta. split; [|split; [|split]].
  - exact (pv_pole lib k w nc g t U Hg Od T Lat north l M m Ha Ho Hl HM Hm Hmm).
  - intros d Hr Hd Hc b Hb. exact (pv_area lib k w nc g t U Hg Od T Lat north l M m Ha Ho Hl HM Hm Hmm d b Hr Hd Hc Hb).
  - intros d1 d2 R1 R2 Hd Hc. destruct (pv_range lib k w nc g t U Hg Od T Lat north l M m Ha Ho Hl HM Hm Hmm d1 d2 R1 R2 Hd Hc) as ((A & _) & (_ & B) & C). auto.
  - exact (pv_none lib k w nc g t U Hg Od T Lat north l M m Ha Ho Hl HM Hm Hmm).
Qed.
Print Assumptions C153_reference_pv_is_the_area_rearrangement_of_the_pv.
(** a user expects that as much air has a higher PV than the reference value of a row as lies poleward of it.  The reference PV is 0 instead where the cap is
    larger than the area left by the first contour (two contours, a westerly at one point of the equator) *)
Theorem C153_reference_pv_encloses_the_cap_refuted :
  exists lib w nc t, session_tables_are lib NH18 w nc t /\ pole_to_pole_latitudes w /\ physical_constants w /\ reported w true 1 /\ inner_level w 1 /\
    cap w 1 < area_where w (towards_pole t true 1) (exceeds (pole_ref w t true 1 1)) /\ pole_ref w t true 1 1 = 0.
Proof.
  exists isentropic_library, (jet_args 0), (fun _ _ _ => 0). destruct (tables_of isentropic_library NH18 (jet_args 0) (fun _ _ _ => 0) (jet_usable 0) (jet_accepted 0) eq_refl) as [t Ht].
  exists t. split; [exact Ht|]. split; [apply jet_poles|]. split; [apply jet_constants|]. split; [apply jet_reported; lia|]. split; [apply jet_inner|]. start Ht.
  assert (E := jet_inner_value 0 _ g t Hg T). split; [|exact E]. rewrite E. eapply jet_northern_area; eassumption.
Qed.
Print Assumptions C153_reference_pv_encloses_the_cap_refuted.

(** ** C154: hemispheric mean of the reference temperature *)
Theorem C154_mean_reference_temperature :
  forall (lib : library) (k : class) (w : qgargs) (nc : field3) (t : tables), session_tables_are lib k w nc t -> room k w ->
  forall north l, (l < result_levels w)%nat -> reported w north (boundary k) ->
    cap_mean w (boundary k) (fun d => ref_theta w t north d l) =
    match k with NH18 => cap_mean w 0 (fun d => zonal_theta w t north d l) | NHN22 _ => t_mean k w lib true l end.
Proof. intros lib k w nc t H. start H. intros Rm north l. exact (theta_mean lib k w nc g t U Hg Od T north l Rm). Qed.
Print Assumptions C154_mean_reference_temperature.

(** ** C155: the reference wind at the edges of the grid *)
Theorem C155_nh18_reference_wind_at_the_edges :
  forall (lib : library) (w : qgargs) (nc : field3) (t : tables), session_tables_are lib NH18 w nc t -> physical_constants w ->
    (forall l, (l < result_levels w)%nat -> 0 < t_slope NH18 w lib true l) -> 0 <= w_rjac w < 1 ->
  forall north l, (l < result_levels w)%nat ->
    (reported w north 0 -> ref_u w t north 0 l = zonal_u w t north 0 l) /\
    (forall d, (1 <= d < half w)%nat -> reported w north d -> ref_u w t north d 0 = 0) /\
    (reported w north (half w - 2) -> ref_u w t north (half w) l = 2 * ref_u w t north (half w - 1) l - ref_u w t north (half w - 2) l).
Proof. intros lib w nc t H. start H. intros C Hs Hj north l Hl. exact (nh18_edges lib w nc g t U Hg Od T north C Hs Hj l Hl). Qed.
Print Assumptions C155_nh18_reference_wind_at_the_edges.
Theorem C155_nhn22_reference_wind_at_the_edges :
  forall (lib : library) (b : nat) (w : qgargs) (nc : field3) (t : tables), session_tables_are lib (NHN22 b) w nc t -> room (NHN22 b) w ->
  forall north l, (l < result_levels w)%nat ->
    (forall d, (d < b)%nat -> reported w north d -> ref_u w t north d l = 0 /\ ref_theta w t north d l = 0) /\
    (reported w north b -> ref_u w t north b l = if Nat.eqb l (result_levels w - 1) then - w_om w * w_a w else 0) /\
    (reported w north (half w - 2) -> ref_u w t north (half w) l = 2 * ref_u w t north (half w - 1) l - ref_u w t north (half w - 2) l).
Proof. intros lib b w nc t H. start H. intros Rm north l. exact (nhn22_edges lib b w nc g t U Hg Od T Rm north l). Qed.
Print Assumptions C155_nhn22_reference_wind_at_the_edges.

(** ** C156: the reference wind of a returned QGFieldNH18 session solves the elliptic boundary value problem *)
Theorem C156_nh18_returned_wind_solves_the_problem_partial :
  forall (lib : library) (w : qgargs) (named raising : bool) (nc : field3) (x : outputs) (t : tables),
    session_with_fluxes lib NH18 w named raising nc = Returned x -> reads x t -> usable NH18 w -> Nat.even (w_nlat w) = false ->
    pole_to_pole_latitudes w -> physical_constants w -> (forall l, (l < result_levels w)%nat -> 0 < t_slope NH18 w lib true l) -> 0 <= w_rjac w < 1 ->
  forall north, reported w north 1 -> wind_within_tolerance NH18 w t (t_slope NH18 w lib true) north.
Proof.
  intros lib w named raising nc x t H Hr U Od Lat C Hs Hj north R1. assert (A := with_fluxes_cases lib NH18 w named raising nc U). destruct (session lib NH18 w nc) as [x'|e] eqn:S; [|rewrite A in H; discriminate].
  destruct A as (g' & Hg' & _ & A). rewrite A in H. destruct (nonconvergent lib NH18 w (object_of NH18 w g') (analyse lib NH18 w (object_of NH18 w g') nc)) eqn:N; [discriminate|]. injection H as ->.
  destruct (session_stored _ _ _ _ _ _ U Od S Hr) as (g & Hg & T). assert (E : g' = g) by (rewrite Hg in Hg'; injection Hg' as ->; reflexivity). subst g'.
  destruct (nh18_solution lib w nc g t U Hg Od T Lat north C Hs Hj R1) as (y & E & B & P1 & P2 & P3 & P4 & P5 & P6).
  - destruct (Nat.leb_spec (w_maxit w) (iterations lib w (object_of NH18 w g) (analyse lib NH18 w (object_of NH18 w g) nc) north)) as [L|L]; [|lia]. exfalso.
    rewrite <- Bool.not_true_iff_false in N. apply N. apply nonconvergent_nh18. exists north. split; [|exact L]. intros Hn. destruct R1 as [_ R1]. rewrite Hn in R1. exact R1.
  - exists y, E, B, (iterations lib w (object_of NH18 w g) (analyse lib NH18 w (object_of NH18 w g) nc) north). split; [exact P1|]. split; [exact P2|]. split; [exact P3|]. split; [exact P4|]. split; [exact P5|exact P6].
Qed.
Print Assumptions C156_nh18_returned_wind_solves_the_problem_partial.
(** whether refused or not, the reference wind read from the object does, or is 0 between equator and pole *)
Theorem C156_nh18_wind_solves_the_problem_or_is_zero :
  forall (lib : library) (w : qgargs) (nc : field3) (t : tables), session_tables_are lib NH18 w nc t ->
    pole_to_pole_latitudes w -> physical_constants w -> (forall l, (l < result_levels w)%nat -> 0 < t_slope NH18 w lib true l) -> 0 <= w_rjac w < 1 ->
  forall north, reported w north 1 ->
    wind_within_tolerance NH18 w t (t_slope NH18 w lib true) north \/ (forall d l, (1 <= d < half w)%nat -> (l < result_levels w)%nat -> ref_u w t north d l = 0).
Proof.
  intros lib w nc t H. start H. intros Lat C Hs Hj north R1. destruct (nh18_count lib w nc g t U Hg Od T north Hs) as [A B].
  destruct (Nat.leb_spec (iterations lib w (object_of NH18 w g) (analyse lib NH18 w (object_of NH18 w g) nc) north) (w_maxit w)) as [L|L].
  - left. destruct (nh18_solution lib w nc g t U Hg Od T Lat north C Hs Hj R1 L) as (y & E & B' & P1 & P2 & P3 & P4 & P5 & P6). exists y, E, B'. eexists. split; [exact P1|]. split; [exact P2|]. split; [exact P3|]. split; [exact P4|]. split; [exact P5|exact P6].
  - right. intros d l Hd _. apply B; [lia|exact Hd|]. apply (reported_more w north 1); [exact R1|lia].
Qed.
Print Assumptions C156_nh18_wind_solves_the_problem_or_is_zero.

(** ** C157: the reference wind of QGFieldNHN22 solves its boundary value problem exactly *)
Theorem C157_nhn22_wind_solves_the_problem :
  forall (lib : library) (b : nat) (w : qgargs) (nc : field3) (t : tables), session_tables_are lib (NHN22 b) w nc t -> room (NHN22 b) w ->
    pole_to_pole_latitudes w -> physical_constants w -> exact_inverse (lb_inverse lib) ->
  forall north, (forall l, (l < result_levels w)%nat -> 0 < t_slope (NHN22 b) w lib north l) -> reported w north 1 ->
    let top := (result_levels w - 1)%nat in
    exists (y : nat -> nat -> R) (E B : nat -> R),
      circulates (NHN22 b) w (fun l => vorticity w (t_u t l) (t_v t l)) b B /\
      (forall l, inner_level w l -> E l = B l / (2 * PI * w_a w) - w_om w * w_a w * cos (angle w b)) /\
      edges w b y E /\
      (forall d, (b < d < half w)%nat -> (y d top - y d (top - 1)%nat) / thickness w
         = balanced_shear w (zonal_theta w t north (d - b + 1) top - zonal_theta w t north (d - b - 1) top) d (top - 1)) /\
      (forall d l, (b < d < half w)%nat -> (l < result_levels w)%nat -> ref_u w t north d l = y d l / cos (angle w d)) /\
      (forall d l, (b < d < half w)%nat -> inner_level w l -> misfit w (t_slope (NHN22 b) w lib north) (scaled_ref w t north) y d l = 0).
Proof. intros lib b w nc t H. start H. intros Rm Lat C Inv north Hs R1. exact (nhn22_solution lib b w nc g t U Hg Od T Lat Rm north C Hs Inv R1). Qed.
Print Assumptions C157_nhn22_wind_solves_the_problem.

(** ** C158: which sessions are refused, and by which call *)
Theorem C158_which_sessions_are_refused :
  forall (lib : library) (k : class) (w : qgargs) (named raising : bool) (nc : field3), usable k w ->
    let r := session_with_fluxes lib k w named raising nc in
    (~ accepted_levels w -> exists e, r = Stopped Constructor e) /\
    (accepted_levels w -> w_nh w = true -> Nat.even (w_nlat w) = true -> r = Stopped (if named then InterpolateFields else ComputeReferenceStates) ValueError) /\
    (accepted_levels w -> (w_nh w = true -> Nat.even (w_nlat w) = false) -> exists x, session lib k w nc = Done x /\
       (r = Returned x \/ k = NH18 /\ r = Stopped (if raising then ComputeReferenceStates else ComputeFluxes) ValueError)) /\
    (k = NH18 -> (w_maxit w <= 2)%nat -> forall x, r <> Returned x).
Proof.
  intros lib k w named raising nc U. cbv zeta. destruct (C131_session_succeeds_exactly_when lib k w nc U) as (S1 & _ & S3). assert (A := with_fluxes_cases lib k w named raising nc U). assert (G := grid_exists k w U).
  split; [|split; [|split]].
  - intros Na. destruct (grid_of w) as [g|e] eqn:Hg; [exfalso; apply Na, G; exists g; reflexivity|]. rewrite (session_refused lib k w nc e Hg) in A. rewrite create_eq, Hg in A. exists e. exact A.
  - intros L Hn He. rewrite (S3 L Hn He) in A. rewrite A. apply G in L. destruct L as [g Hg]. rewrite create_eq, Hg. reflexivity.
  - intros L He. destruct (proj2 S1 (conj L He)) as [x Hx]. exists x. split; [exact Hx|]. rewrite Hx in A. destruct A as (g & Hg & _ & ->). destruct k as [|b].
    + destruct (nonconvergent _ _ _ _ _); auto.
    + rewrite nonconvergent_nhn22. left. reflexivity.
  - intros -> Hm x Hx. rewrite Hx in A. destruct (session lib NH18 w nc) as [y|e]; [|discriminate]. destruct A as (g & Hg & _ & A). rewrite too_few in A by exact Hm. discriminate.
Qed.
Print Assumptions C158_which_sessions_are_refused.
Example C158_applies : forall named raising nc,
  (exists tol x, session_with_fluxes isentropic_library NH18 (jet_args tol) named raising nc = Returned x) /\
  (exists x, session_with_fluxes some_library (NHN22 1) (some_args true false) named raising nc = Returned x) /\
  session_with_fluxes some_library (NHN22 1) (some_args false true) named raising nc = Stopped (if named then InterpolateFields else ComputeReferenceStates) ValueError.
Proof.
  intros named raising nc. split; [|split].
  - destruct (jet_converges nc) as (tol & x & _ & H). exists tol, x. apply H.
  - destruct (C158_which_sessions_are_refused some_library (NHN22 1) (some_args true false) named raising nc) as (_ & _ & A & _); [apply some_usable; cbn; lia|].
    destruct (A (some_accepted _ _) ltac:(discriminate)) as (x & _ & [H|[H _]]); [exists x; exact H|discriminate].
  - destruct (C158_which_sessions_are_refused some_library (NHN22 1) (some_args false true) named raising nc) as (_ & A & _); [apply some_usable; cbn; lia|]. apply A; [apply some_accepted|reflexivity|reflexivity].
Qed.

(** ** C159: the session with compute_lwa_only *)
Theorem C159_lwa_only_gives_the_wave_activity_of_the_full_session :
  forall (lib : library) (k : class) (w : qgargs) (named : bool) (nc : field3) (x : outputs), usable k w -> session lib k w nc = Done x ->
  exists y, session_with_lwa_only lib k w named false = Returned y /\
    (session_with_lwa_only lib k w named true = Returned y <-> session_with_fluxes lib k w named true nc = Returned x) /\
    lo_qref y = out_qref x /\ lo_uref y = out_uref x /\ lo_ptref y = out_ptref x /\ lo_lwa y = out_lwa x /\
    (forall h0, (forall l, (l < result_levels w)%nat -> result_height w l = h0 + INR l * thickness w) ->
       out_lwa_baro x = match lo_lwa_baro y with Done z => Done (fun row i => exp (- h0 / w_H w) * z row i) | Raise e => Raise e end).
Proof.
  intros lib k w named nc x U Hx. assert (A := lwa_only_cases lib k w named false nc U). assert (A' := lwa_only_cases lib k w named true nc U). assert (F := with_fluxes_cases lib k w named true nc U). rewrite Hx in A, A', F.
  destruct A as (g & Hg & -> & A). destruct A' as (g' & Hg' & _ & A'). rewrite Hg in Hg'. injection Hg' as <-. destruct F as (g' & Hg' & _ & F). rewrite Hg in Hg'. injection Hg' as <-.
  cbn [andb] in A, A'. eexists. split; [exact A|]. split; [|split; [reflexivity|split; [reflexivity|split; [reflexivity|split; [apply only_lwa|apply only_baro; assumption]]]]].
  rewrite A', F. destruct (nonconvergent _ _ _ _ _); split; intros E; try discriminate; reflexivity.
Qed.
Print Assumptions C159_lwa_only_gives_the_wave_activity_of_the_full_session.
(** wave activity and reference PV do not depend on the solver of the reference wind: its arguments, its routine, the memory it uses *)
Theorem C159_lwa_only_does_not_depend_on_the_wind_solver :
  forall (lib lib' : library) (k : class) (w w' : qgargs) (named raising named' raising' : bool) (y y' : lwa_outputs), usable k w -> usable k w' -> same_but_solver w w' ->
    lb_spline lib = lb_spline lib' -> lb_dspline lib = lb_dspline lib' ->
    session_with_lwa_only lib k w named raising = Returned y -> session_with_lwa_only lib' k w' named' raising' = Returned y' ->
    lo_qref y = lo_qref y' /\ lo_lwa y = lo_lwa y' /\ lo_lwa_baro y = lo_lwa_baro y' /\ lo_u_baro y = lo_u_baro y'.
Proof.
  intros lib lib' k w w' named raising named' raising' y y' U U' Sm L1 L2 H H'. set (nc := fun _ _ _ : nat => 0).
  assert (A := lwa_only_cases lib k w named raising nc U). assert (A' := lwa_only_cases lib' k w' named' raising' nc U').
  destruct (session lib k w nc) as [x|e]; [|rewrite A in H; discriminate]. destruct (session lib' k w' nc) as [x'|e]; [|rewrite A' in H'; discriminate].
  destruct A as (g & Hg & _ & A). destruct A' as (g' & Hg' & _ & A'). assert (E : g' = g) by (rewrite (other_solver_grid w w' Sm), Hg' in Hg; injection Hg as ->; reflexivity). subst g'.
  rewrite A in H. destruct (raising && _); [discriminate|]. injection H as <-. rewrite A' in H'. destruct (raising' && _); [discriminate|]. injection H' as <-.
  rewrite (solver_args_eq w w' Sm). exact (other_solver lib lib' k w (w_maxit w') (w_tol w') (w_rjac w') g nc L1 L2).
Qed.
Print Assumptions C159_lwa_only_does_not_depend_on_the_wind_solver.
(** the barotropic wind after compute_lwa_only leaves out the top level (and the rows without wave activity) *)
Theorem C159_barotropic_wind_of_lwa_only_partial :
  forall (lib : library) (k : class) (w : qgargs) (named raising : bool) (nc : field3) (t : tables) (y : lwa_outputs) (z : nat -> nat -> R), session_tables_are lib k w nc t ->
    session_with_lwa_only lib k w named raising = Returned y -> lo_u_baro y = Done z ->
  forall north d i, (i < w_nlon w)%nat -> reported w north d ->
    (wave_row k w d -> z (result_row w north d) i = Sum 1 (result_levels w - 1) (fun l => t_u t l (grid_row w north d) i * exp (- (INR l * thickness w) / w_H w) * thickness w)
        / (thickness w * Sum 1 (result_levels w - 1) (fun l => exp (- (INR l * thickness w) / w_H w)))) /\
    (~ wave_row k w d -> z (result_row w north d) i = 0).
Proof.
  intros lib k w named raising nc t y z H Hy Hz north d i Hi Hd. assert (S := H). start H. destruct S as (_ & _ & x1 & Hx & _). assert (A := lwa_only_cases lib k w named raising nc U). rewrite Hx in A.
  destruct A as (g' & Hg' & _ & A). rewrite Hg in Hg'. injection Hg' as <-. rewrite A in Hy. destruct (raising && _); [discriminate|]. injection Hy as <-.
  exact (only_wind lib k w nc g U Hg Od t T north d i z Hd Hi Hz).
Qed.
Print Assumptions C159_barotropic_wind_of_lwa_only_partial.
(** so it is not the u_baro of compute_lwa_and_barotropic_fluxes: already for a constant wind *)
Theorem C159_barotropic_wind_is_that_of_the_full_session_refuted :
  exists lib k w named raising nc x y z z', usable k w /\ session_with_fluxes lib k w named raising nc = Returned x /\ session_with_lwa_only lib k w named raising = Returned y /\
    out_u_baro x = Done z /\ lo_u_baro y = Done z' /\ z 1%nat 0%nat <> z' 1%nat 0%nat.
Proof.
  set (k := NHN22 0). set (w := steady_args). set (lib := some_library). set (nc := fun _ _ _ : nat => 0). assert (U : usable k w) by (apply steady_usable; cbn; lia).
  destruct (tables_of lib k w nc U steady_accepted eq_refl) as [t Ht]. assert (Ht' := Ht). destruct Ht' as (_ & _ & x & Hx & Hr).
  destruct (C159_lwa_only_gives_the_wave_activity_of_the_full_session lib k w true nc x U Hx) as (y & Hy & _). exists lib, k, w, true, false, nc, x, y, (t_u_baro t).
  assert (F := with_fluxes_cases lib k w true false nc U). rewrite Hx in F. destruct F as (g & Hg & _ & F). unfold k in F. rewrite nonconvergent_nhn22 in F. fold k in F.
  assert (Z : exists z', lo_u_baro y = Done z').
  { assert (A := lwa_only_cases lib k w true false nc U). rewrite Hx in A. destruct A as (g' & Hg' & _ & A). cbn [andb] in A. rewrite Hy in A. injection A as ->. cbn [read_lwa lo_u_baro]. rewrite (map_odd k w g' U Hg' eq_refl). eexists. reflexivity. }
  destruct Z as [z' Hz]. exists z'. split; [exact U|]. split; [exact F|]. split; [exact Hy|]. split; [apply Hr|]. split; [exact Hz|].
  assert (Rp : reported w true 1) by (unfold reported, half; cbn; auto). destruct (session_stored _ _ _ _ _ _ U eq_refl Hx Hr) as (g' & Hg' & T).
  assert (V : forall l row i, t_u t l row i = 1) by (apply (steady_u lib nc g' t k ltac:(cbn; lia) Hg' T)).
  destruct (C159_barotropic_wind_of_lwa_only_partial lib k w true false nc t y z' Ht Hy Hz true 1%nat 0%nat ltac:(cbn; lia) Rp) as [E _].
  destruct (C150_heat_flux_wind_and_forcing_follow_from_the_fields lib k w nc t Ht true 1%nat 0%nat ltac:(cbn; lia) Rp) as (_ & _ & E' & _).
  change (result_row w true 1) with 1%nat in E, E'. rewrite E', E by (unfold wave_row, half; cbn; lia). unfold vertical_mean. change (result_levels w) with 3%nat. change (3 - 1)%nat with 2%nat.
  rewrite !(Sum_S_r 1 2), !(Sum_S_r 1 1) by lia. rewrite !Sum_empty by lia. rewrite !V. assert (Hh : forall l, result_height w l = INR l) by (intros l; unfold result_height; cbn; ring). rewrite !Hh.
  change (thickness w) with 1. change (w_H w) with 7. cbn [INR]. assert (P1 := exp_pos (- (1 * 1) / 7)). assert (P2 := exp_pos (- (1 + 1) / 7)). replace (- (1) / 7) with (- (1 * 1) / 7) by field.
  intros Q. apply (Rmult_eq_compat_r (exp (- (1 * 1) / 7))) in Q. field_simplify in Q; lra.
Qed.
Print Assumptions C159_barotropic_wind_is_that_of_the_full_session_refuted.

(** ** C160: the forcing computed from a heating rate, f exp(z/H) d/dz (exp(-z/H) heating / stability), the heating interpolated linearly in height *)
Theorem C160_forcing_of_a_heating_rate :
  forall (lib : library) (k : class) (w : qgargs) (o : qgobj) (heating : field3), usable k w -> create k w = Done o -> Nat.even (w_nlat w) = false -> descending_pressure w ->
  exists nc, ncforce_from_heating_rate w o (domain lib k w o) heating = Some nc /\
    forall north d l i, (d <= half w)%nat -> (l < result_levels w)%nat ->
      let row := grid_row w north d in
      nc l row i = 2 * w_om w * sin (w_ylat w row * PI / 180) * exp (result_height w l / w_H w)
        * vertical_derivative w (fun l' => exp (- result_height w l' / w_H w) * polyline (w_nlev w) (data_height w) (fun r => heating r row i) (result_height w l') / stability k w lib north d l') l.
Proof.
  intros lib k w o heating U Ho Od De. rewrite create_eq in Ho. destruct (grid_of w) as [g|] eqn:Hg; [|discriminate]. injection Ho as <-. set (o := object_of k w g).
  destruct (sizes_odd k w g U Hg Od) as (_ & _ & S3 & S4 & _). fold o in S3, S4. destruct (limits k w U) as (_ & L3 & _). destruct (n_odd k w U Od) as [N _]. fold (half w) in N.
  assert (H2 : (2 <= w_nlev w)%nat) by apply (grid_inv w g Hg).
  unfold ncforce_from_heating_rate, z_derivative_of_prod. cbv zeta. match goal with |- context [if ?b then _ else _] => assert (B : b = true) by (rewrite S3, S4; apply andb_true_intro; split; [apply Nat.eqb_eq|apply Nat.leb_le]; lia); rewrite B; clear B end.
  eexists. split; [reflexivity|]. intros north d l i Hd Hl. cbv zeta. set (row := grid_row w north d).
  assert (Q : forall m, to_be_diff (stability_temp (p_eq (ob_conf o)) (stat_n (domain lib k w o)) (stat_s (domain lib k w o))) (fun m => exp (- p_height (ob_conf o) m / p_h (ob_conf o))) (vertical_interpolation w (ob_grid o) heating) m row i
    = exp (- result_height w m / w_H w) * polyline (w_nlev w) (data_height w) (fun r => heating r row i) (result_height w m) / stability k w lib north d m).
  { intros m. unfold to_be_diff, o, row. rewrite (stability_rows lib k w g U Hg Od north d m Hd), (height_odd k w g Hg). unfold vertical_interpolation. change (g_height (ob_grid (object_of k w g))) with (p_height (ob_conf (object_of k w g))). rewrite (height_odd k w g Hg).
    rewrite interp1d_polyline by (exact H2 || apply heights_ascending; exact De). reflexivity. }
  unfold z_der. rewrite !Q. clear Q. rewrite S3. unfold o. rewrite (dz_odd k w g Hg), (height_odd k w g Hg). change (p_om (ob_conf (object_of k w g))) with (w_om w). change (p_h (ob_conf (object_of k w g))) with (w_H w).
  unfold vertical_derivative. set (m := result_levels w) in *. replace (deg2rad (w_ylat w row)) with (w_ylat w row * PI / 180) by (unfold deg2rad; toR; unfold Rdiv; ring). toR.
  destruct (Nat.eqb_spec l (m - 1)) as [->|]; [unfold Rdiv; ring|]. destruct (Nat.eqb_spec l 0) as [->|]; unfold Rdiv; ring.
Qed.
Print Assumptions C160_forcing_of_a_heating_rate.
Example C160_applies : exists o, usable (NHN22 1) (some_args true false) /\ create (NHN22 1) (some_args true false) = Done o /\ descending_pressure (some_args true false) /\ (1 < result_levels (some_args true false))%nat.
Proof.
  assert (U : usable (NHN22 1) (some_args true false)) by (apply some_usable; cbn; lia). destruct (proj1 (grid_exists _ _ U) (some_accepted _ _)) as [g Hg].
  exists (object_of (NHN22 1) (some_args true false) g). split; [exact U|]. split; [rewrite create_eq, Hg; reflexivity|]. split; [apply some_descending|]. cbn. lia.
Qed.
