(** Property C184: when QGFieldNH18 can be made to converge by allowing more iterations. *)
From Verif Require Import Base BaseFacts Spec SpecFacts Grid Pipeline Object ObjectSpec ObjectProofs ObjectProofs4 FormulaSpec FormulaProofs Session SessionProofs StateSpec InfluenceSpec ConvergeSpec ConvergeProofs2 PropertiesObject PropertiesFormula StateCase PropertiesSession.
Open Scope R_scope.

(** ** C184: the iteration ends for every stably stratified state, given enough iterations, and never otherwise *)
Theorem C184_enough_iterations_suffice :
  forall (lib : library) (w : qgargs) (nc : field3) (t : tables), session_tables_are lib NH18 w nc t ->
  pole_to_pole_latitudes w -> physical_constants w -> (forall l, (l < result_levels w)%nat -> 0 < t_slope NH18 w lib true l) -> 0 <= w_rjac w < 1 ->
  0 < w_tol w -> (forall north, reported w north 1 -> scaled_pv_varies w t north) ->
  exists M, forall maxit named raising, (M <= maxit)%nat ->
    exists x, session_with_fluxes lib NH18 (with_solver w maxit (w_tol w) (w_rjac w)) named raising nc = Returned x.
Proof.
  intros lib w nc t H Lat C St Hj Ht V. start H. destruct (StateProofs3.n_facts NH18 w U Od) as [_ H2].
  assert (E : forall north, exists M, reported w north 1 -> forall m, (M <= m)%nat -> (snd (RefStates.iterate (StateProofs.P NH18 w g) (StateProofs.hemi_pv lib NH18 w nc g north) (StateProofs.hemi NH18 w g north (u_ (s_f (analyse lib NH18 w (object_of NH18 w g) nc))))
     (StateProofs.hemi NH18 w g north (theta_ (s_f (analyse lib NH18 w (object_of NH18 w g) nc)))) (one_based (t_slope NH18 w lib true)) (lb_mem1 lib) (lb_mem2 lib) m 1%nat 1%R (fun _ _ => 0%R)) < m)%nat).
  { intros north. destruct (Classical_Prop.classic (reported w north 1)) as [R|R]; [|exists 0%nat; intros K; contradiction].
    destruct (enough_runs lib w nc g t U Hg Od T C St Hj north Ht) as [M HM]; [apply (varies_rhs lib w nc g t U Hg Od T Lat C St north R), V, R|]. exists M. intros _. exact HM. }
  destruct (E true) as [M1 H1]. destruct (E false) as [M2 H3]. exists (M1 + M2)%nat. intros m named raising L. apply (session_at lib w nc g t U Hg Od T St m named raising).
  intros [|] Hn.
  - apply H1; [|lia]. split; [lia|]. destruct (w_nh w); [reflexivity|lia].
  - apply H3; [|lia]. split; [lia|]. destruct (w_nh w); [exact (Hn eq_refl)|lia].
Qed.
Print Assumptions C184_enough_iterations_suffice.
Theorem C184_otherwise_no_number_of_iterations_suffices :
  forall (lib : library) (w : qgargs) (nc : field3) (t : tables), session_tables_are lib NH18 w nc t ->
  pole_to_pole_latitudes w -> physical_constants w -> (forall l, (l < result_levels w)%nat -> 0 < t_slope NH18 w lib true l) ->
  (w_tol w <= 0 \/ exists north, reported w north 1 /\ ~ scaled_pv_varies w t north) ->
  forall maxit named raising x, session_with_fluxes lib NH18 (with_solver w maxit (w_tol w) (w_rjac w)) named raising nc <> Returned x.
Proof.
  intros lib w nc t H Lat C St V m named raising y Hy. start H. destruct (StateProofs3.n_facts NH18 w U Od) as [_ H2].
  assert (A := proj1 (session_at lib w nc g t U Hg Od T St m named raising) (ex_intro _ y Hy)).
  destruct V as [V|(north & R & V)].
  - assert (B := A true (fun _ => eq_refl)). assert (D := never_runs lib w nc g t U Hg T St true (or_introl V) m). lia.
  - assert (B := A north). enough (K : w_nh w = true -> north = true). { specialize (B K). assert (D := never_runs lib w nc g t U Hg T St north). specialize (D (or_intror (fun F => V (proj2 (varies_rhs lib w nc g t U Hg Od T Lat C St north R) F))) m). lia. }
    intros N. destruct R as [_ R]. rewrite N in R. exact R.
Qed.
Print Assumptions C184_otherwise_no_number_of_iterations_suffices.

Lemma jet_varies tol nc t : session_tables_are isentropic_library NH18 (jet_args tol) nc t -> forall north, reported (jet_args tol) north 1 -> scaled_pv_varies (jet_args tol) t north.
Proof.
  intros H north [_ R]. start H. change (w_nh (jet_args tol)) with true in R. cbv iota in R. subst north. exists 1%nat, 1%nat, 2%nat. split; [exact (jet_inner tol)|]. change (half (jet_args tol)) with 2%nat. split; [lia|]. split; [lia|].
  rewrite (jet_pole_value tol nc g t Hg T), (jet_inner_value tol nc g t Hg T). unfold angle. rewrite (jet_step tol). cbn [jet_args w_om INR].
  replace ((1 + 1) * (PI / 4)) with (PI / 2) by field. rewrite sin_PI2. assert (A := s_pos). assert (B := jet_curl_pos). unfold Rdiv at 1. rewrite Rmult_0_l. intros E. apply eq_sym, Rmult_integral in E. destruct E as [E|E]; [lra|]. revert E. apply Rinv_neq_0_compat. lra.
Qed.
(** beside them: the jet of StateCase.v, with any positive tolerance and with tolerance zero *)
Example C184_case : forall nc,
  (forall tol, 0 < tol -> exists M, forall maxit named raising, (M <= maxit)%nat -> exists x, session_with_fluxes isentropic_library NH18 (with_solver (jet_args tol) maxit tol (1 / 2)) named raising nc = Returned x) /\
  (forall maxit named raising x, session_with_fluxes isentropic_library NH18 (with_solver (jet_args 0) maxit 0 (1 / 2)) named raising nc <> Returned x).
Proof.
  intros nc. assert (E : forall tol, exists t, session_tables_are isentropic_library NH18 (jet_args tol) nc t).
  { intros tol. exact (tables_of isentropic_library NH18 (jet_args tol) nc (jet_usable tol) (jet_accepted tol) eq_refl). }
  split.
  - intros tol Ht. destruct (E tol) as [t H]. apply (C184_enough_iterations_suffice _ (jet_args tol) nc t H (jet_poles tol) (jet_constants tol)); [intros l _; rewrite jet_slopes; lra|cbn; lra|exact Ht|exact (jet_varies tol nc t H)].
  - destruct (E 0) as [t H]. apply (C184_otherwise_no_number_of_iterations_suffices _ (jet_args 0) nc t H (jet_poles 0) (jet_constants 0)); [intros l _; rewrite jet_slopes; lra|left; cbn; lra].
Qed.
