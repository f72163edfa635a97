(** Properties of the two-hemisphere computations of QGFieldNH18 and QGFieldNHN22.  Vocabulary: PipelineSpec.v. *)
From Verif Require Import Base BaseFacts Spec SpecFacts Flux FluxSpec FluxProofs Pipeline PipelineSpec PipelineProofs.
Open Scope R_scope.

(** example: 5 latitudes, 4 longitudes, 4 levels, and a mirror symmetric, zonally varying state *)
Definition cfg (b : nat) (nh : bool) : pconf R :=
  {| p_nlon := 4; p_nlat := 5; p_kmax := 4; p_eq := 3; p_jb := b; p_jd := 3 - b; p_nh := nh;
     p_a := 1; p_om := 1; p_dz := 1; p_h := 1; p_rr := 1; p_cp := 1; p_prefac := 1; p_dphi := PI / 4; p_dlambda := PI / 2; p_tol := 1 / 1000;
     p_height := fun k => INR k * 1; p_ylat := fun j => (INR j - 2) * 45; p_clat := fun j => cos ((INR j - 2) * (PI / 4)) |}.
Example cfg_symmetric : forall nh, symmetric_grid (cfg 0 nh) /\ symmetric_grid (cfg 1 nh).
Proof.
  intros nh. split; (split; [cbn; lia|]); (split; [cbn; lia|]); (split; [cbn; lia|]); (split; [cbn; lia|]);
    intros j Hj; cbn [cfg p_nlat p_ylat p_clat] in *; do 5 (destruct j as [|j]; [cbn [INR Nat.sub]; split; [lra|rewrite <- cos_neg; f_equal; lra]|]); lia.
Qed.
Definition state0 : fields R :=
  {| u_ := fun i j k => INR i * (INR j - 3) * (INR j - 3); v_ := fun i j k => INR k * (INR j - 3); theta_ := fun i j k => INR k + (INR j - 3) * (INR j - 3) |}.
Example state0_symmetric : forall b nh, symmetric_state (cfg b nh) state0.
Proof.
  intros b nh. split; [|split]; intros i j k Hi Hj Hk; unfold lat_ok in Hj; cbn [cfg p_nlat state0 u_ v_ theta_] in *;
    rewrite minus_INR, plus_INR by lia; cbn [INR]; lra.
Qed.
Example odd_forcing : forall b nh, odd_field (cfg b nh) (v_ state0).
Proof. intros b nh. apply state0_symmetric. Qed.

(** C42 *)
Theorem C42_symmetric_reference_states :
  forall (c : pconf R) (solver : arr3 R -> arr3 R -> arr3 R -> refstate R) (f : fields R) (av : averages R) (old : refstate R),
    symmetric_grid c -> p_nh c = false -> (2 <= p_nlon c)%nat -> symmetric_state c f ->
    symmetric_refs c (refs_nh18 c solver (pv_nh18 c f av) f old).
Proof.
  intros c solver f av old G NF Hl Hf. apply refs_nh18_symmetric; try assumption. apply pv_nh18_odd; assumption.
Qed.
Print Assumptions C42_symmetric_reference_states.

Theorem C42_symmetric_lwa_and_fluxes :
  forall (c : pconf R) (solver : arr3 R -> arr3 R -> arr3 R -> refstate R) (spline dspline : (nat -> R) -> nat -> R)
         (raw_theta : nat -> nat -> nat -> R) (f : fields R) (nc : arr3 R) (old : refstate R),
    symmetric_grid c -> p_nh c = false -> (2 <= p_nlon c)%nat -> (2 <= p_kmax c)%nat -> symmetric_state c f -> odd_field c nc ->
    let av := domain_nh18 c spline dspline raw_theta in
    let q := pv_nh18 c f av in
    let r := refs_nh18 c solver q f old in
    let b := barotropic_terms c (north_args c q f nc av r) (south_args c q f nc av r) in
    symmetric_fluxes c b /\
    symmetric_layers c (layerwise_terms c (north_args c q f nc av r) (south_args c q f nc av r)) /\
    even_map c (conv_zonal_flux c b) /\ odd_map c (flux_vector_phi c f r) /\
    (forall i j, lon_ok c i -> lat_ok c j -> j <> p_eq c -> div_momentum_flux c b i (p_nlat c + 1 - j)%nat = div_momentum_flux c b i j) /\
    exists d, stretch_term c f av r = Some d /\ even_field c d.
Proof.
  intros c solver spline dspline raw f nc old G NF Hl K Hf Hnc av q r b.
  assert (Hq : odd_field c q) by (apply pv_nh18_odd; assumption).
  assert (Hr : symmetric_refs c r) by (apply refs_nh18_symmetric; assumption).
  assert (Hb : symmetric_fluxes c b) by (apply barotropic_symmetric; auto).
  split; [exact Hb|]. split; [apply layerwise_symmetric; auto|]. split; [apply conv_even; assumption|]. split; [apply phi_odd; assumption|].
  split; [apply div_even; assumption|]. apply stretch_even; auto.
Qed.
Print Assumptions C42_symmetric_lwa_and_fluxes.
Example C42_case : forall solver spline dspline raw old,
  let c := cfg 0 false in let av := domain_nh18 c spline dspline raw in let q := pv_nh18 c state0 av in
  let r := refs_nh18 c solver q state0 old in
  even_map c (b_lwa (barotropic_terms c (north_args c q state0 (v_ state0) av r) (south_args c q state0 (v_ state0) av r))).
Proof.
  intros. destruct (C42_symmetric_lwa_and_fluxes c solver spline dspline raw state0 (v_ state0) old) as [(H & _) _].
  - exact (proj1 (cfg_symmetric false)).
  - reflexivity.
  - cbn; lia.
  - cbn; lia.
  - apply state0_symmetric.
  - apply odd_forcing.
  - exact H.
Qed.
(** an even heating rate is an odd forcing *)
Theorem C42_symmetric_heating_gives_odd_forcing :
  forall (c : pconf R) (spline dspline : (nat -> R) -> nat -> R) (raw_theta heating : nat -> nat -> nat -> R),
    symmetric_grid c -> (2 <= p_kmax c)%nat ->
    (forall k j i, (k < p_kmax c)%nat -> (j < p_nlat c)%nat -> (i < p_nlon c)%nat -> heating k (p_nlat c - 1 - j)%nat i = heating k j i) ->
    exists d, ncforce_from_heating c (domain_nh18 c spline dspline raw_theta) heating = Some d /\
      forall k j i, (k < p_kmax c)%nat -> (j < p_nlat c)%nat -> (i < p_nlon c)%nat -> d k (p_nlat c - 1 - j)%nat i = - d k j i.
Proof. intros c spline dspline raw heating G K H. apply heating_odd; auto. Qed.
Print Assumptions C42_symmetric_heating_gives_odd_forcing.
Example C42_heating_case : forall spline dspline raw, exists d,
  ncforce_from_heating (cfg 0 false) (domain_nh18 (cfg 0 false) spline dspline raw) (fun k j i => INR i) = Some d.
Proof.
  intros. destruct (C42_symmetric_heating_gives_odd_forcing (cfg 0 false) spline dspline raw (fun k j i => INR i)) as (d & E & _);
    [exact (proj1 (cfg_symmetric false))|cbn; lia|reflexivity|]. exists d. exact E.
Qed.

(** C43, for reference states from any solver: the averages of a symmetric state agree between the hemispheres, its QGPV is
    odd, and everything computed after the reference states is symmetric if they are.  PropertiesDirInv.v shows that
    those of the direct solver are. *)
Theorem C43_symmetric_after_reference_states :
  forall (c : pconf R) (spline dspline : (nat -> R) -> nat -> R) (raw_theta : nat -> nat -> nat -> R) (f : fields R) (nc : arr3 R) (r : refstate R),
    symmetric_grid c -> p_nh c = false -> (2 <= p_nlon c)%nat -> (2 <= p_kmax c)%nat -> symmetric_state c f -> odd_field c nc ->
    (forall l j i, (j < p_nlat c)%nat -> (i < p_nlon c)%nat -> raw_theta l (p_nlat c - 1 - j)%nat i = raw_theta l j i) ->
    symmetric_refs c r ->
    let av := domain_nhn22 c spline dspline raw_theta in
    let q := pv_nhn22 c f av in
    let b := barotropic_terms c (north_args c q f nc av r) (south_args c q f nc av r) in
    odd_field c q /\ (forall k, ts0 av k = tn0 av k /\ stat_s av k = stat_n av k) /\
    symmetric_fluxes c b /\
    symmetric_layers c (layerwise_terms c (north_args c q f nc av r) (south_args c q f nc av r)) /\
    even_map c (conv_zonal_flux c b) /\ odd_map c (flux_vector_phi c f r) /\
    (forall i j, lon_ok c i -> lat_ok c j -> j <> p_eq c -> div_momentum_flux c b i (p_nlat c + 1 - j)%nat = div_momentum_flux c b i j) /\
    exists d, stretch_term c f av r = Some d /\ even_field c d.
Proof.
  intros c spline dspline raw f nc r G NF Hl K Hf Hnc Hraw Hr av q b.
  assert (E : (fun l => t0_south c (raw l)) = (fun l => t0_north c (raw l))).
  { apply FunctionalExtensionality.functional_extensionality. intros l. apply t0_symmetric; [exact G|]. intros; apply Hraw; assumption. }
  assert (Ht : forall k, ts0 av k = tn0 av k /\ stat_s av k = stat_n av k).
  { intros k. unfold av, domain_nhn22. cbn [averages_nhn22 ts0 tn0 stat_s stat_n]. rewrite E. auto. }
  assert (Ht1 : forall k, ts0 av k = tn0 av k) by (intros; apply Ht). assert (Ht2 : forall k, stat_s av k = stat_n av k) by (intros; apply Ht).
  assert (Hq : odd_field c q) by (apply pv_nhn22_odd; assumption).
  assert (Hb : symmetric_fluxes c b) by (apply barotropic_symmetric; auto).
  split; [exact Hq|]. split; [exact Ht|].
  split; [exact Hb|]. split; [apply layerwise_symmetric; auto|]. split; [apply conv_even; assumption|]. split; [apply phi_odd; assumption|].
  split; [apply div_even; assumption|]. apply stretch_even; auto.
Qed.
Print Assumptions C43_symmetric_after_reference_states.
Example C43_case : symmetric_refs (cfg 1 false) {| qref_ := fun j k => INR k; uref_ := fun j k => INR k * (INR j - 3) * (INR j - 3); ptref_ := fun j k => INR k |}.
Proof.
  split; [|split]; intros j k Hj Hk; cbn [qref_ uref_ ptref_]; try reflexivity.
  unfold lat_ok in Hj. cbn [cfg p_nlat] in *. rewrite minus_INR, plus_INR by lia. cbn [INR]. lra.
Qed.

(** C85: rows strictly north of the equator do not depend on northern_hemisphere_results_only *)
Theorem C85_northern_results_same_nh18 :
  forall (c : pconf R) (solver : arr3 R -> arr3 R -> arr3 R -> refstate R) (q : arr3 R) (f : fields R) (nc : arr3 R) (av : averages R),
    symmetric_grid c -> p_jb c = 0%nat -> (2 <= p_nlon c)%nat -> (2 <= p_kmax c)%nat ->
    (* the solver's wind on the equator is the same whichever hemisphere it is given (RefStates.v) *)
    (forall k, lev_ok c k ->
       uref_ (solver (clip3 c q) (clip3 c (u_ f)) (clip3 c (theta_ f))) 1%nat k =
       uref_ (solver (clip3 c (neg3 (flip3 c q))) (clip3 c (flip3 c (u_ f))) (clip3 c (flip3 c (theta_ f)))) 1%nat k) ->
    let c1 := with_flag c true in let c0 := with_flag c false in
    let r1 := refs_nh18 c1 solver q f zero_refs in let r0 := refs_nh18 c0 solver q f zero_refs in
    let b1 := barotropic_terms c1 (north_args c1 q f nc av r1) (south_args c1 q f nc av r1) in
    let b0 := barotropic_terms c0 (north_args c0 q f nc av r0) (south_args c0 q f nc av r0) in
    same_north_refs c r1 r0 /\ same_north_fluxes c b1 b0 /\
    same_north2 c (div_momentum_flux c1 b1) (div_momentum_flux c0 b0) /\ same_north2 c (conv_zonal_flux c1 b1) (conv_zonal_flux c0 b0) /\
    same_north2 c (flux_vector_phi c1 f r1) (flux_vector_phi c0 f r0) /\
    same_north_layers c (layerwise_terms c1 (north_args c1 q f nc av r1) (south_args c1 q f nc av r1))
                        (layerwise_terms c0 (north_args c0 q f nc av r0) (south_args c0 q f nc av r0)) /\
    same_north_lwa_only c (lwa_only c1 q f r1) (lwa_only c0 q f r0) /\
    exists d1 d0, stretch_term c1 f av r1 = Some d1 /\ stretch_term c0 f av r0 = Some d0 /\
      forall i r k, lon_ok c i -> (1 <= r <= p_eq c)%nat -> lev_ok c k -> d1 i (p_eq c - 1 + r)%nat k = d0 i (p_eq c - 1 + r)%nat k.
Proof.
  intros c solver q f nc av G Hb Hl K Hs c1 c0 r1 r0 b1 b0.
  assert (Hr : same_north_refs c r1 r0) by (apply refs_nh18_same; [exact G|]; split; [|split]; intros ? ? ? ?; reflexivity).
  assert (Hw : p_jb c = 0%nat -> same_equatorial_wind c r1 r0) by (intros _; apply refs_nh18_equator; assumption).
  assert (Hf : same_north_fluxes c b1 b0) by (apply barotropic_same; assumption).
  split; [exact Hr|]. split; [exact Hf|]. split; [apply (div_same c G r1 r0 Hw); assumption|]. split; [apply (conv_same c G r1 r0 Hw); assumption|].
  split; [apply phi_same; assumption|]. split; [apply layerwise_same; assumption|]. split; [apply lwa_only_same; assumption|].
  apply stretch_same; assumption.
Qed.
Print Assumptions C85_northern_results_same_nh18.
Example C85_nh18_case : exists solver : arr3 R -> arr3 R -> arr3 R -> refstate R,
  (forall k, lev_ok (cfg 0 true) k -> forall q,
     let c := cfg 0 true in
     uref_ (solver (clip3 c q) (clip3 c (u_ state0)) (clip3 c (theta_ state0))) 1%nat k =
     uref_ (solver (clip3 c (neg3 (flip3 c q))) (clip3 c (flip3 c (u_ state0))) (clip3 c (flip3 c (theta_ state0)))) 1%nat k) /\
  exists q u t j k, uref_ (solver q u t) j k <> 0.
Proof.
  exists (fun q u t => {| qref_ := fun j k => q 1%nat (j + 2)%nat k; uref_ := fun j k => u 1%nat (j + 2)%nat k; ptref_ := fun j k => t 1%nat (j + 2)%nat k |}).
  split.
  - intros k Hk q c. unfold lev_ok in Hk. cbn in Hk. cbn [uref_]. unfold clip3, flip3. cbn [c cfg p_nlon p_nlat p_kmax].
    destruct k as [|[|[|[|[|k]]]]]; try lia; reflexivity.
  - exists (fun _ _ _ => 0), (fun _ _ _ => 1), (fun _ _ _ => 0), 1%nat, 1%nat. cbn. lra.
Qed.

Theorem C85_northern_results_same_nhn22 :
  forall (c : pconf R) (inversion : arr3 R -> arr3 R -> arr3 R -> arr3 R -> (nat -> R) -> (nat -> R) -> refstate R)
         (q avort : arr3 R) (f : fields R) (nc : arr3 R) (av : averages R),
    symmetric_grid c -> (1 <= p_jb c)%nat -> (2 <= p_nlon c)%nat -> (2 <= p_kmax c)%nat ->
    let c1 := with_flag c true in let c0 := with_flag c false in
    let r1 := refs_nhn22 c1 inversion q avort f av zero_refs in let r0 := refs_nhn22 c0 inversion q avort f av zero_refs in
    let b1 := barotropic_terms c1 (north_args c1 q f nc av r1) (south_args c1 q f nc av r1) in
    let b0 := barotropic_terms c0 (north_args c0 q f nc av r0) (south_args c0 q f nc av r0) in
    same_north_refs c r1 r0 /\ same_north_fluxes c b1 b0 /\
    same_north2 c (div_momentum_flux c1 b1) (div_momentum_flux c0 b0) /\ same_north2 c (conv_zonal_flux c1 b1) (conv_zonal_flux c0 b0) /\
    same_north2 c (flux_vector_phi c1 f r1) (flux_vector_phi c0 f r0) /\
    same_north_layers c (layerwise_terms c1 (north_args c1 q f nc av r1) (south_args c1 q f nc av r1))
                        (layerwise_terms c0 (north_args c0 q f nc av r0) (south_args c0 q f nc av r0)) /\
    same_north_lwa_only c (lwa_only c1 q f r1) (lwa_only c0 q f r0) /\
    exists d1 d0, stretch_term c1 f av r1 = Some d1 /\ stretch_term c0 f av r0 = Some d0 /\
      forall i r k, lon_ok c i -> (1 <= r <= p_eq c)%nat -> lev_ok c k -> d1 i (p_eq c - 1 + r)%nat k = d0 i (p_eq c - 1 + r)%nat k.
Proof.
  intros c inversion q avort f nc av G Hb Hl K c1 c0 r1 r0 b1 b0.
  assert (Hr : same_north_refs c r1 r0) by (apply refs_nhn22_same; [exact G|]; split; [|split]; intros ? ? ? ?; reflexivity).
  assert (Hw : p_jb c = 0%nat -> same_equatorial_wind c r1 r0) by (intros; lia).
  assert (Hf : same_north_fluxes c b1 b0) by (apply barotropic_same; assumption).
  split; [exact Hr|]. split; [exact Hf|]. split; [apply (div_same c G r1 r0 Hw); assumption|]. split; [apply (conv_same c G r1 r0 Hw); assumption|].
  split; [apply phi_same; assumption|]. split; [apply layerwise_same; assumption|]. split; [apply lwa_only_same; assumption|].
  apply stretch_same; assumption.
Qed.
Print Assumptions C85_northern_results_same_nhn22.
Example C85_nhn22_case : symmetric_grid (cfg 1 true) /\ (1 <= p_jb (cfg 1 true))%nat /\ (2 <= p_kmax (cfg 1 true))%nat.
Proof. split; [exact (proj2 (cfg_symmetric true))|]. cbn. lia. Qed.

(** C90 *)
Theorem C90_hemispheric_means_in_range :
  forall (c : pconf R) (theta : nat -> nat -> R) (m M : R),
    symmetric_grid c -> (1 <= p_nlon c)%nat -> (forall j, (j < p_nlat c)%nat -> 0 <= p_clat c j) -> 0 < csm c ->
    (forall j i, (j < p_nlat c)%nat -> (i < p_nlon c)%nat -> m <= theta j i <= M) ->
    m <= t0_south c theta <= M /\ m <= t0_north c theta <= M.
Proof. intros c theta m M G Hl Hc Hs H. apply t0_range; assumption. Qed.
Print Assumptions C90_hemispheric_means_in_range.
(** every set-up with cosines of latitudes between the poles meets the hypotheses; for instance *)
Example C90_case : (forall j, (j < p_nlat (cfg 0 true))%nat -> 0 <= p_clat (cfg 0 true) j) /\ 0 < csm (cfg 0 true).
Proof.
  assert (P := PI_RGT_0).
  assert (C : forall j, (j < 5)%nat -> 0 <= cos ((INR j - 2) * (PI / 4))).
  { intros j Hj. apply cos_ge_0; do 5 (destruct j as [|j]; [cbn [INR]; lra|]); lia. }
  split; [exact C|]. unfold csm. cbn [cfg p_jd p_clat Nat.sub nsum].
  assert (H0 := C 0%nat ltac:(lia)). assert (H1 := C 1%nat ltac:(lia)). cbn [INR] in *.
  cbn [nzero nadd RNum]. replace ((1 + 1 - 2) * (PI / 4)) with 0 by ring. rewrite cos_0. lra.
Qed.
(** on a grid whose equator is not in the middle, which the constructor accepts (C32), both the weights and the
    number of rows are wrong: an isothermal level does not keep its temperature *)
Definition off_centre : pconf R :=
  {| p_nlon := 1; p_nlat := 3; p_kmax := 2; p_eq := 2; p_jb := 0; p_jd := 2; p_nh := false;
     p_a := 1; p_om := 1; p_dz := 1; p_h := 1; p_rr := 1; p_cp := 1; p_prefac := 1; p_dphi := 1; p_dlambda := 1; p_tol := 1;
     p_height := INR; p_ylat := fun j => if Nat.eqb j 0 then -30 else if Nat.eqb j 1 then 0 else 60;
     p_clat := fun j => cos ((if Nat.eqb j 0 then -30 else if Nat.eqb j 1 then 0 else 60) * (PI / 180)) |}.
Theorem C90_off_centre_grid_refuted : t0_south off_centre (fun _ _ => 300) = 300 /\ t0_north off_centre (fun _ _ => 300) < 300.
Proof.
  unfold t0_south, t0_north, csm. cbn [off_centre p_jd p_nlon p_nlat p_clat nsum Nat.sub Nat.add Nat.eqb]. rewrite nofnat_INR.
  cbn [nzero nadd nmul ndiv RNum INR]. replace (0 * (PI / 180)) with 0 by ring. rewrite cos_0.
  replace (-30 * (PI / 180)) with (- (PI / 6)) by field. rewrite cos_neg, cos_PI6.
  replace (60 * (PI / 180)) with (PI / 3) by field. rewrite cos_PI3.
  assert (S : 1 < sqrt 3). { rewrite <- sqrt_1 at 1. apply sqrt_lt_1; lra. }
  split; [field; lra|].
  apply Rmult_lt_reg_r with (0 + sqrt 3 / 2 + 1); [lra|].
  replace ((0 + (0 + 300 * 1) / 1 + (0 + 300 * (1 / 2)) / 1) / (0 + sqrt 3 / 2 + 1) * (0 + sqrt 3 / 2 + 1)) with 450 by (field; lra). lra.
Qed.
Print Assumptions C90_off_centre_grid_refuted.

(** C91, C93: the three ways to compute LWA agree, in both hemispheres and both modes *)
Theorem C91_lwa_only_agrees :
  forall (c : pconf R) (q : arr3 R) (f : fields R) (nc : arr3 R) (av : averages R) (r : refstate R) (i j k : nat),
    (forall k, p_height c k = INR k * p_dz c) ->
    let b := barotropic_terms c (north_args c q f nc av r) (south_args c q f nc av r) in
    o_lwa (lwa_only c q f r) i j k = b_lwa3 b i j k /\ o_lwa_baro (lwa_only c q f r) i j = b_lwa b i j.
Proof. intros c q f nc av r i j k Hh b. split; [apply lwa3_same | apply lwa_baro_same; exact Hh]. Qed.
Print Assumptions C91_lwa_only_agrees.
Example C91_case : forall k, p_height (cfg 0 false) k = INR k * p_dz (cfg 0 false). Proof. reflexivity. Qed.

Theorem C93_layerwise_lwa_agrees :
  forall (c : pconf R) (q : arr3 R) (f : fields R) (nc : arr3 R) (av : averages R) (r : refstate R) (i j k : nat),
    symmetric_grid c -> (1 <= p_nlon c)%nat -> 0 <= p_a c ->
    l_lwa (layerwise_terms c (north_args c q f nc av r) (south_args c q f nc av r)) i j k =
    b_lwa3 (barotropic_terms c (north_args c q f nc av r) (south_args c q f nc av r)) i j k.
Proof. intros c q f nc av r i j k G Hl Ha. apply lwa3_layerwise_same; assumption. Qed.
Print Assumptions C93_layerwise_lwa_agrees.
Example C93_case : symmetric_grid (cfg 1 false) /\ (1 <= p_nlon (cfg 1 false))%nat /\ 0 <= p_a (cfg 1 false).
Proof. split; [apply cfg_symmetric|]. cbn. split; [lia|lra]. Qed.

(** C92: after compute_lwa_only the two stored components add up to the LWA north of the equator ... *)
Theorem C92_components_add_up_north :
  forall (c : pconf R) (q : arr3 R) (f : fields R) (r : refstate R) (i j k : nat),
    symmetric_grid c -> (1 <= p_nlon c)%nat -> 0 <= p_a c -> (rows c - p_eq c < j)%nat -> (p_nh c = false -> (p_eq c < j)%nat) ->
    o_astar1 (lwa_only c q f r) i j k + o_astar2 (lwa_only c q f r) i j k = o_lwa (lwa_only c q f r) i j k.
Proof. intros c q f r i j k G Hl Ha H1 H2. apply lwa_only_parts_north; assumption. Qed.
Print Assumptions C92_components_add_up_north.
Example C92_case : (rows (cfg 0 false) - p_eq (cfg 0 false) < 4)%nat /\ (p_eq (cfg 0 false) < 4)%nat. Proof. cbn. lia. Qed.
(** ... and not south of it: there the components stay zero although there is wave activity *)
Theorem C92_components_add_up_refuted :
  let c := cfg 0 false in let o := lwa_only c (fun _ _ _ => 1) state0 zero_refs in
  o_astar1 o 1%nat 2%nat 2%nat = 0 /\ o_astar2 o 1%nat 2%nat 2%nat = 0 /\ 0 < o_lwa o 1%nat 2%nat 2%nat.
Proof.
  intros c o. split; [reflexivity|]. split; [reflexivity|].
  cbn [o lwa_only o_lwa]. unfold global3, set_shem. cbn [c cfg p_nh p_eq Nat.leb Nat.sub Nat.add].
  rewrite lo_astar1_eq, lo_astar2_eq.
  assert (Hj : analysed_row (dims (cfg 0 false)) 2) by (unfold analysed_row; cbn; lia).
  assert (Hk : interior_level (dims (cfg 0 false)) 2) by (unfold interior_level; cbn; lia).
  assert (J : jmax (dims (cfg 0 false)) = (2 * nd (dims (cfg 0 false)) - 1)%nat) by reflexivity.
  assert (Nd : (2 <= nd (dims (cfg 0 false)))%nat) by (cbn; lia).
  set (pv := clip3 _ (neg3 _)). set (qr := clip2 _ _ _).
  destruct (astar_in (dims (cfg 0 false)) pv qr 1 2 2 Hj Hk) as [E1 E2]. fold c. fold c in E1, E2. rewrite E1, E2. cbn [c dims is_nhem].
  change (dims (cfg 0 false)) with (dims c) in *.
  assert (P1 := high_pv_south_nonneg (dims c) pv qr 1 2 2 J Nd ltac:(cbn; lra) ltac:(cbn; lia)).
  assert (P2 : 0 < low_pv_north (dims c) pv qr 1 2 2).
  { unfold low_pv_north. cbn [dims c cfg nd p_eq Nat.add]. rewrite Sum_S_l by lia.
    assert (Q : qr 2%nat 2%nat = 0).
    { unfold qr, clip2, neg2, first_rows_rev, qref_correct_unit. cbn [p_kmax c cfg Nat.leb andb p_nh zero_refs qref_ nzero nopp nmul RNum]. ring. }
    assert (V : pv 1%nat (field_row (dims c) 2) 2%nat = -1).
    { unfold pv, clip3, neg3, flip3, field_row. cbn. ring. }
    rewrite Q, V.
    assert (E : 0 < element (dims c) 2).
    { unfold element, latitude, row_spacing. cbn [dims c cfg f_a p_a is_nhem jmax p_nlat Nat.sub INR]. assert (P := PI_RGT_0).
      assert (0 < cos ((1 + 1 - 1) * (PI / (1 + 1 + 1 + 1)))) by (apply cos_gt_0; lra).
      apply Rmult_lt_0_compat; [|assumption]. apply Rmult_lt_0_compat; [lra|]. apply Rdiv_lt_0_compat; lra. }
    assert (W : ppart (0 - -1) = 1) by (unfold ppart; rewrite Rmax_left || rewrite Rmax_right; lra). rewrite W.
    match goal with |- _ < _ + ?s => assert (P4 : 0 <= s) end.
    { apply Sum_nonneg. intros r Hr. apply Rmult_le_pos; [apply ppart_nonneg|]. apply element_nonneg; auto; [cbn; lra|cbn; lia]. }
    lra. }
  cbn [nabs nadd RNum]. rewrite Rabs_right; lra.
Qed.
Print Assumptions C92_components_add_up_refuted.

(** C94 *)
Theorem C94_barotropic_lwa_nonnegative :
  forall (c : pconf R) (q : arr3 R) (f : fields R) (nc : arr3 R) (av : averages R) (r : refstate R) (i j : nat),
    symmetric_grid c -> (1 <= p_nlon c)%nat -> 0 <= p_a c -> 0 <= p_dz c -> 0 < p_prefac c ->
    0 <= b_lwa (barotropic_terms c (north_args c q f nc av r) (south_args c q f nc av r)) i j.
Proof. intros c q f nc av r i j G Hl Ha Hz Hp. apply lwa_baro_nonneg; assumption. Qed.
Print Assumptions C94_barotropic_lwa_nonnegative.
Example C94_case : 0 <= p_a (cfg 0 false) /\ 0 <= p_dz (cfg 0 false) /\ 0 < p_prefac (cfg 0 false). Proof. cbn. lra. Qed.
