(** Property C178: which arguments have an influence on which results. *)
From Verif Require Import Base BaseFacts Spec SpecFacts Grid Object ObjectSpec ObjectProofs ObjectProofs4 Session SessionProofs InfluenceSpec InfluenceProofs PropertiesObject StateCase PropertiesSession.
Open Scope R_scope.

Lemma settings_related lib k w kmax m dz np tol rjac nc (V : w_evenly w = true \/ (kmax = w_kmax w /\ dz = w_dz w)) :
  related (fun x y => same_fields x y /\ (np = w_npart w -> same_activity x y /\ same_forcing x y) /\ (k <> NH18 -> x = y)) (session lib k w nc) (session lib k (with_settings w kmax m dz np tol rjac) nc).
Proof.
  assert (S := settings_grid w kmax m dz np tol rjac V). destruct (grid_of w) as [g|e] eqn:Hg, (grid_of (with_settings w kmax m dz np tol rjac)) as [g'|e'] eqn:Hg'; try contradiction.
  2: { rewrite (session_refused lib k w nc e Hg), (session_refused lib k _ nc e' Hg'). exact S. }
  destruct S as (n & -> & En). destruct (session_settings lib k w kmax m dz np tol rjac g n nc Hg') as (r' & _ & E & Q & Q2). rewrite E, (session_put lib k w g nc Hg). clear E Hg Hg'.
  destruct (put_refs lib k w g (the_refs lib k w (object_of k w g)) r' (stored nc)) as [A B]. apply outcome_related; [apply A|]. split; [exact A|]. split.
  - intros Ep. apply B, Q, En, Ep.
  - intros Nk. rewrite (Q2 Nk). reflexivity.
Qed.

(** ** the forcing enters nothing but its own integral *)
Theorem C178_forcing_enters_only_its_integral :
  forall (lib : library) (k : class) (w : qgargs) (nc nc' : field3),
    related (fun x y => same_fields x y /\ same_activity x y /\ same_fluxes x y) (session lib k w nc) (session lib k w nc').
Proof.
  intros lib k w nc nc'. destruct (grid_of w) as [g|e] eqn:Hg; [|rewrite !(session_refused lib k w _ e Hg); reflexivity].
  rewrite !(session_put lib k w g _ Hg). assert (A := put_forcing lib k w g (the_refs lib k w (object_of k w g)) (stored nc) (stored nc')). apply outcome_related; [apply A|exact A].
Qed.
Print Assumptions C178_forcing_enters_only_its_integral.

(** ** maxit, tol and rjac change only the reference wind and temperature and the fluxes; QGFieldNHN22 ignores them *)
Theorem C178_solver_settings :
  forall (lib : library) (k : class) (w : qgargs) (maxit : nat) (tol rjac : R) (nc : field3),
    related (fun x y => same_fields x y /\ same_activity x y /\ same_forcing x y /\ (k <> NH18 -> same_fluxes x y)) (session lib k w nc) (session lib k (with_solver w maxit tol rjac) nc).
Proof.
  intros lib k w maxit tol rjac nc. assert (A := settings_related lib k w (w_kmax w) maxit (w_dz w) (w_npart w) tol rjac nc (or_intror (conj eq_refl eq_refl))).
  fold (with_solver w maxit tol rjac) in A. destruct (session lib k w nc), (session lib k (with_solver w maxit tol rjac) nc); cbn [related] in *; try assumption.
  destruct A as (A & B & C). destruct (B eq_refl) as [B1 B2]. split; [exact A|]. split; [exact B1|]. split; [exact B2|]. intros N. rewrite (C N). unfold same_fluxes. repeat split; reflexivity.
Qed.
Print Assumptions C178_solver_settings.

(** ** the number of contours changes neither the fields nor the potential vorticity; QGFieldNHN22 ignores it *)
Theorem C178_number_of_contours :
  forall (lib : library) (k : class) (w : qgargs) (npart : option nat) (nc : field3),
    related (fun x y => same_fields x y /\ (k <> NH18 -> x = y)) (session lib k w nc) (session lib k (with_contours w npart) nc).
Proof.
  intros lib k w npart nc. assert (A := settings_related lib k w (w_kmax w) (w_maxit w) (w_dz w) npart (w_tol w) (w_rjac w) nc (or_intror (conj eq_refl eq_refl))).
  fold (with_contours w npart) in A. destruct (session lib k w nc), (session lib k (with_contours w npart) nc); cbn [related] in *; try assumption. tauto.
Qed.
Print Assumptions C178_number_of_contours.

(** ** with data_on_evenly_spaced_pseudoheight_grid, kmax and dz are ignored *)
Lemma same_settings_related lib k w kmax dz nc : w_evenly w = true -> session lib k w nc = session lib k (with_vertical w kmax dz) nc.
Proof.
  intros Ev. assert (S := settings_grid w kmax (w_maxit w) dz (w_npart w) (w_tol w) (w_rjac w) (or_introl Ev)). unfold with_vertical.
  destruct (grid_of w) as [g|e] eqn:Hg, (grid_of (with_settings w kmax (w_maxit w) dz (w_npart w) (w_tol w) (w_rjac w))) as [g'|e'] eqn:Hg'; try contradiction.
  2: { rewrite (session_refused lib k w nc e Hg), (session_refused lib k _ nc e' Hg'). f_equal. exact S. }
  destruct S as (n & -> & En). specialize (En eq_refl). rewrite (session_put lib k w g nc Hg), (session_put lib k _ _ nc Hg').
  rewrite (settings_same lib k w kmax (w_maxit w) dz (w_npart w) (w_tol w) (w_rjac w) g n En eq_refl eq_refl eq_refl).
  exact (f_equal outcome_of (eq_sym (put_settings lib k w kmax (w_maxit w) dz (w_npart w) (w_tol w) (w_rjac w) g n _ (stored nc)))).
Qed.
Theorem C178_vertical_grid_of_the_data :
  forall (lib : library) (k : class) (w : qgargs) (kmax : nat) (dz : R) (nc : field3), w_evenly w = true ->
    session lib k (with_vertical w kmax dz) nc = session lib k w nc.
Proof. intros. symmetry. apply same_settings_related. assumption. Qed.
Print Assumptions C178_vertical_grid_of_the_data.

(** ** once compute_reference_states has converged, a larger maxit changes nothing at all *)
Theorem C178_more_iterations_change_nothing :
  forall (lib : library) (k : class) (w : qgargs) (named raising : bool) (maxit : nat) (nc : field3) (x : outputs), usable k w -> (w_maxit w <= maxit)%nat ->
    session_with_fluxes lib k w named raising nc = Returned x ->
    session_with_fluxes lib k (with_solver w maxit (w_tol w) (w_rjac w)) named raising nc = Returned x.
Proof.
  intros lib k w named raising maxit nc x U L H. unfold with_solver. set (w' := with_settings w (w_kmax w) maxit (w_dz w) (w_npart w) (w_tol w) (w_rjac w)). assert (U' : usable k w') by exact U.
  assert (F := with_fluxes_cases lib k w named raising nc U). assert (F' := with_fluxes_cases lib k w' named raising nc U'). assert (S' := settings_grid w (w_kmax w) maxit (w_dz w) (w_npart w) (w_tol w) (w_rjac w) (or_intror (conj eq_refl eq_refl))).
  fold w' in S'. destruct (session lib k w nc) as [x0|e] eqn:Hs; [|rewrite F in H; discriminate H]. destruct F as (g & Hg & Ex & F). rewrite F in H. clear F.
  destruct (nonconvergent lib k w (object_of k w g) (analyse lib k w (object_of k w g) nc)) eqn:Nc; [discriminate H|]. injection H as <-. rewrite Hg in S'. destruct (grid_of w') as [g'|e'] eqn:Hg'; [|contradiction].
  destruct S' as (n & Eg & En). specialize (En eq_refl). 
  assert (I : k = NH18 -> forall nc' north, (w_nh w = true -> north = true) -> (iterations lib w (object_of k w g) (analyse lib k w (object_of k w g) nc') north < w_maxit w)%nat).
  { intros -> nc' north Hn. change (iterations lib w (object_of NH18 w g) (analyse lib NH18 w (object_of NH18 w g) nc') north) with (iterations lib w (object_of NH18 w g) (analyse lib NH18 w (object_of NH18 w g) nc) north).
    apply Nat.nle_gt. intros Z. rewrite <- Bool.not_true_iff_false in Nc. apply Nc. apply nonconvergent_nh18. exists north. split; assumption. }
  assert (Gn : g_nh g = w_nh w). { clear -Hg. unfold grid_of, qg_init in Hg. destruct (if w_evenly w then _ else _) as [[[kk hh] dd]|]; [|discriminate]. destruct (broadcast_shapes _ _); [|discriminate]. destruct (check_and_flip_ylat _ _); [|discriminate].
    repeat match type of Hg with context [if ?b then _ else _] => destruct b; [discriminate|] end. injection Hg as <-. reflexivity. }
  assert (R : the_refs lib k w' (object_of k w' g') = the_refs lib k w (object_of k w g)).
  { subst g'. destruct k as [|b] eqn:Ek; [|apply settings_nhn22; discriminate]. apply settings_more; auto. }
  assert (Y : session lib k w' nc = Done x0).
  { rewrite (session_put lib k w' g' nc Hg'), R. rewrite (session_put lib k w g nc Hg) in Hs. rewrite <- Hs. subst g'. exact (f_equal outcome_of (put_settings lib k w (w_kmax w) maxit (w_dz w) (w_npart w) (w_tol w) (w_rjac w) g n _ (stored nc))). }
  rewrite Y in F'. destruct F' as (g2 & Hg2 & _ & F'). injection Hg2 as <-. rewrite F'.
  destruct (nonconvergent lib k w' (object_of k w' g') (analyse lib k w' (object_of k w' g') nc)) eqn:Nc'; [|reflexivity]. exfalso.
  destruct k as [|b]; [|rewrite nonconvergent_nhn22 in Nc'; discriminate]. apply nonconvergent_nh18 in Nc'. destruct Nc' as (north & Hn & Z). assert (I1 := I eq_refl nc north Hn).
  subst g'. unfold w' in Z. rewrite settings_iterations in Z; auto. cbn [with_settings w_maxit] in Z. lia.
Qed.
Print Assumptions C178_more_iterations_change_nothing.
Example C178_case : forall named raising nc maxit, exists tol x,
  ((w_maxit (jet_args tol) <= maxit)%nat -> session_with_fluxes isentropic_library NH18 (with_solver (jet_args tol) maxit tol (w_rjac (jet_args tol))) named raising nc = Returned x) /\
  session_with_fluxes isentropic_library NH18 (jet_args tol) named raising nc = Returned x /\
  session isentropic_library NH18 (jet_args tol) nc = Done x /\
  (exists y, session isentropic_library NH18 (jet_args tol) (fun _ _ _ => 1) = Done y /\ same_activity x y) /\
  (exists y, session isentropic_library NH18 (with_contours (jet_args tol) (Some 9%nat)) nc = Done y /\ same_fields x y).
Proof.
  intros named raising nc maxit. destruct (C158_applies named raising nc) as ((tol & x & H) & _). exists tol, x. assert (U := jet_usable tol).
  assert (D : session isentropic_library NH18 (jet_args tol) nc = Done x).
  { assert (F := with_fluxes_cases isentropic_library NH18 (jet_args tol) named raising nc U). destruct (session isentropic_library NH18 (jet_args tol) nc) as [x0|e]; [|rewrite F in H; discriminate].
    destruct F as (g & _ & _ & F). rewrite F in H. destruct (nonconvergent _ _ _ _ _); [discriminate|]. injection H as ->. reflexivity. }
  split; [intros L; exact (C178_more_iterations_change_nothing isentropic_library NH18 (jet_args tol) named raising maxit nc x U L H)|]. split; [exact H|]. split; [exact D|]. split.
  - assert (A := C178_forcing_enters_only_its_integral isentropic_library NH18 (jet_args tol) nc (fun _ _ _ => 1)). rewrite D in A. destruct (session _ _ _ (fun _ _ _ => 1)) as [y|]; [|contradiction]. exists y. split; [reflexivity|apply A].
  - assert (A := C178_number_of_contours isentropic_library NH18 (jet_args tol) (Some 9%nat) nc). rewrite D in A. destruct (session _ _ (with_contours _ _) _) as [y|]; [|contradiction]. exists y. split; [reflexivity|apply A].
Qed.
