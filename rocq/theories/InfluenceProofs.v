(** Proofs of C178. *)
From Coq Require Import FunctionalExtensionality.
From Verif Require Import Base BaseFacts Spec SpecFacts Grid Object ObjectSpec ObjectProofs4 Session SessionProofs InfluenceSpec.
Open Scope R_scope.

(** ** the stores as a function of what the reference states and the forcing are *)
Definition assemble (c : pconf R) (q : arr3 R) (f : fields R) (av : averages R) (r : refstate R) (nc : arr3 R) : stores :=
  let n := north_args c q f nc av r in let s := south_args c q f nc av r in let b := barotropic_terms c n s in
  {| s_f := f; s_av := av; s_q := q; s_refs := r; s_baro := b; s_layer := layerwise_terms c n s; s_only := lwa_only c q f r;
     s_div := div_momentum_flux c b; s_conv := conv_zonal_flux c b; s_lambda := zonal_flux b; s_phi := flux_vector_phi c f r; s_stretch := stretch_term c f av r |}.
Definition the_pv (lib : library) (k : class) (w : qgargs) (o : qgobj) : arr3 R :=
  match k with NH18 => pv_nh18 (ob_conf o) (interpolated w o) (domain lib k w o) | NHN22 _ => pv_nhn22 (ob_conf o) (interpolated w o) (domain lib k w o) end.
Definition the_refs (lib : library) (k : class) (w : qgargs) (o : qgobj) : refstate R :=
  let c := ob_conf o in let f := interpolated w o in let av := domain lib k w o in let q := the_pv lib k w o in
  match k with
  | NH18 => refs_nh18 c (nh18_solver c (g_npart (ob_grid o)) (w_maxit w) (w_tol w) (w_rjac w) (stat_n av) (lb_mem1 lib) (lb_mem2 lib)) q f zero_refs
  | NHN22 _ => refs_nhn22 c (nhn22_inversion c (lb_inverse lib) (tn0 av)) q (avort_nhn22 c f) f av zero_refs
  end.
Lemma analyse_assemble lib k w o nc :
  analyse lib k w o nc = assemble (ob_conf o) (the_pv lib k w o) (interpolated w o) (domain lib k w o) (the_refs lib k w o) (stored nc).
Proof. reflexivity. Qed.

Section Read.
  Variables (w : qgargs) (o : qgobj) (q : arr3 R) (f : fields R) (av : averages R).
  Notation put r nc := (read w o (assemble (ob_conf o) q f av r nc)).
  Lemma other_forcing r nc nc' : same_fields (put r nc) (put r nc') /\ same_activity (put r nc) (put r nc') /\ same_fluxes (put r nc) (put r nc').
  Proof.
    unfold same_fields, same_activity, same_fluxes. unfold read, assemble. cbv zeta.
    cbn [out_qgpv out_u out_v out_theta out_stat_n out_stat_s out_u_baro out_qref out_lwa out_lwa_baro out_uref out_ptref out_f1 out_f2 out_f3 out_conv out_div out_heat out_lambda out_phi out_ua1 out_ua2 out_ep1 out_ep2 out_ep3 out_stretch
         s_f s_av s_q s_refs s_baro s_layer s_div s_conv s_lambda s_phi s_stretch].
    repeat split; reflexivity.
  Qed.
  Lemma other_refs r r' nc : same_fields (put r nc) (put r' nc) /\ (qref_ r = qref_ r' -> same_activity (put r nc) (put r' nc) /\ same_forcing (put r nc) (put r' nc)).
  Proof.
    unfold same_fields, same_activity, same_forcing. unfold read, assemble. cbv zeta.
    cbn [out_qgpv out_u out_v out_theta out_stat_n out_stat_s out_u_baro out_qref out_lwa out_lwa_baro out_nc_baro s_f s_av s_q s_refs s_baro].
    split; [repeat split; reflexivity|]. intros E. assert (A : qref_correct_unit (ob_conf o) r = qref_correct_unit (ob_conf o) r') by (unfold qref_correct_unit; rewrite E; reflexivity).
    unfold barotropic_terms. cbv zeta. cbn [b_lwa b_lwa3 b_nc]. unfold k_lwa_baro, k_astar1, k_astar2, k_ncforce, north_args, south_args. cbn [i_pv i_uu i_nc i_qref]. rewrite A. repeat split; reflexivity.
  Qed.
End Read.

(** ** more iterations after convergence *)
Section More.
  Variables (c : pconf R) (np m m' : nat) (tol rjac : R) (pv uu pt : arr3 R) (stat : nat -> R) (g1 g2 : arr2 R).
  Notation P := (nh18_dims c np m tol rjac).
  Notation P' := (nh18_dims c np m' tol rjac).
  Lemma same_sweep n om u : sweep P' pv uu pt stat g1 g2 n om u = sweep P pv uu pt stat g1 g2 n om u.
  Proof. reflexivity. Qed.
  Lemma iterate_more fuel : forall fuel' n om u, (fuel <= fuel')%nat -> (snd (iterate P pv uu pt stat g1 g2 fuel n om u) < n + fuel)%nat ->
    iterate P' pv uu pt stat g1 g2 fuel' n om u = iterate P pv uu pt stat g1 g2 fuel n om u.
  Proof.
    induction fuel as [|fuel IH]; intros fuel' n om u L H; [cbn in H; lia|]. destruct fuel' as [|fuel']; [lia|].
    cbn [iterate] in *. rewrite same_sweep. destruct (sweep P pv uu pt stat g1 g2 n om u) as [u' an].
    change (s_eps P') with (s_eps P). change (anormf P') with (anormf P). change (next_omega P') with (next_omega P).
    match goal with |- (if ?b then _ else _) = _ => destruct b end; [reflexivity|]. apply IH; lia.
  Qed.
  Lemma solution_more : (m <= m')%nat -> (rs_num_of_iter P pv uu pt stat g1 g2 < m)%nat -> solution P' pv uu pt stat g1 g2 = solution P pv uu pt stat g1 g2.
  Proof. intros L H. unfold rs_num_of_iter, solution in *. change (s_maxits P') with m'. change (s_maxits P) with m in *. apply iterate_more; lia. Qed.
  Hypothesis E : solution P' pv uu pt stat g1 g2 = solution P pv uu pt stat g1 g2.
  Lemma uref_more : rs_uref P' pv uu pt stat g1 g2 = rs_uref P pv uu pt stat g1 g2.
  Proof. extensionality j. extensionality k. unfold rs_uref, uref1. rewrite E. reflexivity. Qed.
  Lemma ty_more k j : ty P' pv uu pt stat g1 g2 k j = ty P pv uu pt stat g1 g2 k j.
  Proof. unfold ty. rewrite uref_more. reflexivity. Qed.
  Lemma tref0_more k : forall j, tref0 P' pv uu pt stat g1 g2 k j = tref0 P pv uu pt stat g1 g2 k j.
  Proof.
    assert (A : forall j, tref0 P' pv uu pt stat g1 g2 k j = tref0 P pv uu pt stat g1 g2 k j /\ tref0 P' pv uu pt stat g1 g2 k (S j) = tref0 P pv uu pt stat g1 g2 k (S j)); [|apply A].
    induction j as [|j [I1 I2]]; [split; reflexivity|]. split; [exact I2|]. destruct j as [|j]; [reflexivity|]. cbn [tref0] in *. rewrite I1, ty_more. reflexivity.
  Qed.
  Lemma tref_more : rs_tref P' pv uu pt stat g1 g2 = rs_tref P pv uu pt stat g1 g2.
  Proof.
    extensionality j. extensionality k. unfold rs_tref, tref1, tg.
    assert (L : forall k, (fun j s => s + ncos (phi P' j) * tref0 P' pv uu pt stat g1 g2 k j)%R = (fun j s => s + ncos (phi P j) * tref0 P pv uu pt stat g1 g2 k j)%R)
      by (intros k'; extensionality j'; extensionality s; rewrite tref0_more; reflexivity).
    toR. rewrite !tref0_more. cbn [s_kmax nh18_dims]. 
    destruct (Nat.eqb k (p_kmax c)); [|destruct (Nat.eqb k 1)]; do 2 f_equal; do 2 f_equal; f_equal; f_equal; apply L.
  Qed.
End More.

(** ** arguments that change nothing but the reference wind *)
Lemma settings_grid w kmax m dz np tol rjac : (w_evenly w = true \/ (kmax = w_kmax w /\ dz = w_dz w)) ->
  match grid_of w, grid_of (with_settings w kmax m dz np tol rjac) with
  | Done g, Done g' => exists n, g' = {| g_kmax := g_kmax g; g_height := g_height g; g_dz := g_dz g; g_nlev := g_nlev g; g_nlat := g_nlat g; g_nlon := g_nlon g;
      g_input_ylat := g_input_ylat g; g_lat := g_lat g; g_jd := g_jd g; g_dphi := g_dphi g; g_dlambda := g_dlambda g; g_npart := n; g_nh := g_nh g; g_prefactor := g_prefactor g; g_H := g_H g |} /\
      (np = w_npart w -> n = g_npart g)
  | Raise e, Raise e' => e = e'
  | _, _ => False
  end.
Proof.
  intros V. unfold grid_of, qg_init. cbn [with_settings w_nlon w_nlat w_ylat w_nlev w_plev w_kmax w_dz w_npart w_H w_nh w_evenly].
  assert (E : (if w_evenly w then if Nat.ltb (w_nlev w) 2 then Raise IndexError else Done (w_nlev w, fun k => plev_to_height (w_H w) (w_plev w k), (plev_to_height (w_H w) (w_plev w 1%nat) - plev_to_height (w_H w) (w_plev w 0%nat))%R)
    else match check_valid_plev (w_nlev w) (w_plev w) (w_H w) kmax dz with Some e => Raise e | None => Done (kmax, uniform_height dz, dz) end) =
    (if w_evenly w then if Nat.ltb (w_nlev w) 2 then Raise IndexError else Done (w_nlev w, fun k => plev_to_height (w_H w) (w_plev w k), (plev_to_height (w_H w) (w_plev w 1%nat) - plev_to_height (w_H w) (w_plev w 0%nat))%R)
    else match check_valid_plev (w_nlev w) (w_plev w) (w_H w) (w_kmax w) (w_dz w) with Some e => Raise e | None => Done (w_kmax w, uniform_height (w_dz w), w_dz w) end)).
  { destruct V as [->|[-> ->]]; reflexivity. }
  rewrite E. clear E V. match goal with |- context [match ?x with Done _ => _ | Raise _ => _ end] => destruct x as [[[kk hh] dd]|e] end; [|reflexivity].
  destruct (broadcast_shapes _ _) as [ts|]; [|reflexivity]. destruct (check_and_flip_ylat _ _) as [lat|e]; [|reflexivity].
  repeat match goal with |- context [negb ?b] => destruct (negb b); [reflexivity|] end.
  eexists. split; [reflexivity|]. cbn [g_npart]. intros ->. reflexivity.
Qed.

Section Settings.
  Variables (lib : library) (k : class) (w : qgargs) (kmax m : nat) (dz : R) (np : option nat) (tol rjac : R) (g : grid) (n : nat).
  Notation w' := (with_settings w kmax m dz np tol rjac).
  Notation g' := {| g_kmax := g_kmax g; g_height := g_height g; g_dz := g_dz g; g_nlev := g_nlev g; g_nlat := g_nlat g; g_nlon := g_nlon g;
      g_input_ylat := g_input_ylat g; g_lat := g_lat g; g_jd := g_jd g; g_dphi := g_dphi g; g_dlambda := g_dlambda g; g_npart := n; g_nh := g_nh g; g_prefactor := g_prefactor g; g_H := g_H g |}.
  Notation o := (object_of k w g).
  Notation o' := (object_of k w' g').
  Lemma settings_read y : read w' o' y = read w o y.
  Proof. reflexivity. Qed.
  Lemma settings_conf : ob_conf o' = ob_conf o.
  Proof. reflexivity. Qed.
  Lemma settings_interpolated : interpolated w' o' = interpolated w o.
  Proof. reflexivity. Qed.
  Lemma settings_domain : domain lib k w' o' = domain lib k w o.
  Proof. reflexivity. Qed.
  Lemma settings_pv : the_pv lib k w' o' = the_pv lib k w o.
  Proof. reflexivity. Qed.
  Lemma settings_qref : n = g_npart g -> qref_ (the_refs lib k w o) = qref_ (the_refs lib k w' o').
  Proof.
    intros En. unfold the_refs. cbv zeta. rewrite settings_conf, settings_interpolated, settings_domain, settings_pv. cbn [object_of ob_grid g_npart]. rewrite En.
    set (q := the_pv lib k w o). set (f := interpolated w o). set (av := domain lib k w o). clearbody q f av. destruct k; [apply nh18_qref|reflexivity].
  Qed.
  Lemma settings_nhn22 : k <> NH18 -> the_refs lib k w' o' = the_refs lib k w o.
  Proof.
    intros N. unfold the_refs. cbv zeta. rewrite settings_conf, settings_interpolated, settings_domain, settings_pv. destruct k; [congruence|reflexivity].
  Qed.
  Lemma settings_iterations nc north : n = g_npart g -> tol = w_tol w -> rjac = w_rjac w -> (w_maxit w <= m)%nat -> (iterations lib w o (analyse lib k w o nc) north < w_maxit w)%nat ->
    iterations lib w' o' (analyse lib k w' o' nc) north = iterations lib w o (analyse lib k w o nc) north.
  Proof.
    intros En Et Er L H. rewrite !analyse_assemble in *. rewrite settings_conf, settings_interpolated, settings_domain, settings_pv. unfold iterations in *. cbv zeta in *. cbn [assemble s_q s_f s_av] in *.
    rewrite settings_conf. set (q := the_pv lib k w o) in *. set (f := interpolated w o) in *. set (av := domain lib k w o) in *. clearbody q f av. cbn [object_of ob_grid g_npart w_maxit w_tol w_rjac with_settings] in *. rewrite En, Et, Er.
    unfold rs_num_of_iter at 1 2. rewrite (solution_more _ _ _ _ _ _ _ _ _ _ _ _ L H). reflexivity.
  Qed.
  Lemma settings_same : n = g_npart g -> m = w_maxit w -> tol = w_tol w -> rjac = w_rjac w -> the_refs lib k w' o' = the_refs lib k w o.
  Proof.
    intros En Em Et Er. unfold the_refs. cbv zeta. rewrite settings_conf, settings_interpolated, settings_domain, settings_pv.
    set (q := the_pv lib k w o). set (f := interpolated w o). set (av := domain lib k w o). clearbody q f av. cbn [object_of ob_grid g_npart w_maxit w_tol w_rjac with_settings]. rewrite En, Em, Et, Er. reflexivity.
  Qed.
  Lemma settings_more : k = NH18 -> n = g_npart g -> tol = w_tol w -> rjac = w_rjac w -> (w_maxit w <= m)%nat ->
    (forall nc north, (w_nh w = true -> north = true) -> (iterations lib w o (analyse lib k w o nc) north < w_maxit w)%nat) -> g_nh g = w_nh w ->
    the_refs lib k w' o' = the_refs lib k w o.
  Proof.
    intros Ek En Et Er L H Hn. specialize (H (fun _ _ _ => 0)). unfold the_refs. cbv zeta. rewrite !analyse_assemble in H. rewrite settings_conf, settings_interpolated, settings_domain, settings_pv. unfold iterations in H. cbv zeta in H. cbn [assemble s_q s_f s_av] in H.
    set (q := the_pv lib k w o) in *. set (f := interpolated w o) in *. set (av := domain lib k w o) in *. assert (Nc : p_nh (ob_conf o) = w_nh w) by exact Hn. clearbody q f av. rewrite Ek in *. cbn [object_of ob_grid g_npart w_maxit w_tol w_rjac with_settings] in *. rewrite En, Et, Er.
    unfold refs_nh18. cbv zeta. unfold nh18_solver. cbv zeta.
    assert (H1 := H true (fun _ => eq_refl)). cbv beta iota in H1. assert (S1 := solution_more _ _ _ _ _ _ _ _ _ _ _ _ L H1).
    rewrite (uref_more _ _ _ _ _ _ _ _ _ _ _ _ S1), (tref_more _ _ _ _ _ _ _ _ _ _ _ _ S1).
    destruct (p_nh _) eqn:F; [reflexivity|]. assert (H2 := H false ltac:(rewrite <- Nc; discriminate)). cbv beta iota in H2. assert (S2 := solution_more _ _ _ _ _ _ _ _ _ _ _ _ L H2).
    rewrite (uref_more _ _ _ _ _ _ _ _ _ _ _ _ S2), (tref_more _ _ _ _ _ _ _ _ _ _ _ _ S2). reflexivity.
  Qed.
End Settings.

(** ** sessions *)
Definition outcome_of (x : outputs) : res outputs := match out_qgpv x with Raise e => Raise e | Done _ => Done x end.
Definition put (lib : library) (k : class) (w : qgargs) (g : grid) (r : refstate R) (nc : arr3 R) : outputs :=
  read w (object_of k w g) (assemble (ob_conf (object_of k w g)) (the_pv lib k w (object_of k w g)) (interpolated w (object_of k w g)) (domain lib k w (object_of k w g)) r nc).
Lemma session_put lib k w g nc : grid_of w = Done g -> session lib k w nc = outcome_of (put lib k w g (the_refs lib k w (object_of k w g)) (stored nc)).
Proof. intros Hg. rewrite (session_eq lib k w nc g Hg). reflexivity. Qed.
Lemma outcome_related (P : outputs -> outputs -> Prop) x y : out_qgpv x = out_qgpv y -> P x y -> related P (outcome_of x) (outcome_of y).
Proof. intros E H. unfold outcome_of. rewrite E. destruct (out_qgpv y); [exact H|reflexivity]. Qed.
Lemma put_refs lib k w g r r' nc : same_fields (put lib k w g r nc) (put lib k w g r' nc) /\ (qref_ r = qref_ r' -> same_activity (put lib k w g r nc) (put lib k w g r' nc) /\ same_forcing (put lib k w g r nc) (put lib k w g r' nc)).
Proof. apply other_refs. Qed.
Lemma put_forcing lib k w g r nc nc' : same_fields (put lib k w g r nc) (put lib k w g r nc') /\ same_activity (put lib k w g r nc) (put lib k w g r nc') /\ same_fluxes (put lib k w g r nc) (put lib k w g r nc').
Proof. apply other_forcing. Qed.
Lemma put_settings lib k w kmax m dz np tol rjac g n r nc :
  put lib k (with_settings w kmax m dz np tol rjac) {| g_kmax := g_kmax g; g_height := g_height g; g_dz := g_dz g; g_nlev := g_nlev g; g_nlat := g_nlat g; g_nlon := g_nlon g;
      g_input_ylat := g_input_ylat g; g_lat := g_lat g; g_jd := g_jd g; g_dphi := g_dphi g; g_dlambda := g_dlambda g; g_npart := n; g_nh := g_nh g; g_prefactor := g_prefactor g; g_H := g_H g |} r nc
  = put lib k w g r nc.
Proof. unfold put. rewrite settings_read, settings_conf, settings_interpolated, settings_domain, settings_pv. reflexivity. Qed.
Definition regrid (g : grid) (n : nat) : grid := {| g_kmax := g_kmax g; g_height := g_height g; g_dz := g_dz g; g_nlev := g_nlev g; g_nlat := g_nlat g; g_nlon := g_nlon g;
      g_input_ylat := g_input_ylat g; g_lat := g_lat g; g_jd := g_jd g; g_dphi := g_dphi g; g_dlambda := g_dlambda g; g_npart := n; g_nh := g_nh g; g_prefactor := g_prefactor g; g_H := g_H g |}.
Lemma session_settings lib k w kmax m dz np tol rjac g n nc : let w' := with_settings w kmax m dz np tol rjac in grid_of w' = Done (regrid g n) ->
  exists r', r' = the_refs lib k w' (object_of k w' (regrid g n)) /\ session lib k w' nc = outcome_of (put lib k w g r' (stored nc)) /\
    (n = g_npart g -> qref_ (the_refs lib k w (object_of k w g)) = qref_ r') /\ (k <> NH18 -> r' = the_refs lib k w (object_of k w g)).
Proof.
  intros w' Hg. eexists. split; [reflexivity|]. split; [|split].
  - rewrite (session_put lib k w' _ nc Hg). exact (f_equal outcome_of (put_settings lib k w kmax m dz np tol rjac g n _ (stored nc))).
  - exact (settings_qref lib k w kmax m dz np tol rjac g n).
  - exact (settings_nhn22 lib k w kmax m dz np tol rjac g n).
Qed.
