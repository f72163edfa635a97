(** C126, C127: relabelling the longitudes of the input relabels the results; a zonally uniform state has zonally uniform results.
    Vocabulary: RotateSpec.v. *)
From Verif Require Import Base BaseFacts Spec SpecFacts Utilities UtilitiesProofs Pipeline PipelineSpec PipelineProofs PropertiesPipeline
  RefStates RefStatesSpec RefStatesProofs5 DirInv DirInvProofs5 RotateSpec RotateProofs RotateProofs2 RotateProofs3.
From Coq Require Import ZifyNat.
Open Scope R_scope.

(** ** C126: QGFieldNH18, with its own solver *)
Theorem C126_nh18_turned_state_gives_turned_results :
  forall (c : pconf R) (s npart maxit : nat) (tol rjac : R) (g1 g2 : arr2 R) (spline dspline : (nat -> R) -> nat -> R)
         (raw raw' : nat -> nat -> nat -> R) (f f' : fields R) (nc nc' : arr3 R) (old : refstate R),
    centred c -> (2 <= npart)%nat -> turned_raw c s raw raw' -> turned_state c s f f' -> turned c s nc nc' ->
    let av := domain_nh18 c spline dspline raw in let av' := domain_nh18 c spline dspline raw' in
    let q := pv_nh18 c f av in let q' := pv_nh18 c f' av' in
    let r := refs_nh18 c (nh18_solver c npart maxit tol rjac (stat_n av) g1 g2) q f old in
    let r' := refs_nh18 c (nh18_solver c npart maxit tol rjac (stat_n av') g1 g2) q' f' old in
    let b := barotropic_terms c (north_args c q f nc av r) (south_args c q f nc av r) in
    let b' := barotropic_terms c (north_args c q' f' nc' av' r') (south_args c q' f' nc' av' r') in
    av' = av /\ turned c s q q' /\ same_refs c r r' /\ turned_fluxes c s b b' /\
    turned_layers c s (layerwise_terms c (north_args c q f nc av r) (south_args c q f nc av r))
                      (layerwise_terms c (north_args c q' f' nc' av' r') (south_args c q' f' nc' av' r')) /\
    turned_lwa_only c s (lwa_only c q f r) (lwa_only c q' f' r') /\
    turned2 c s (div_momentum_flux c b) (div_momentum_flux c b') /\ turned2 c s (conv_zonal_flux c b) (conv_zonal_flux c b') /\
    turned2 c s (flux_vector_phi c f r) (flux_vector_phi c f' r') /\
    exists d d', stretch_term c f av r = Some d /\ stretch_term c f' av' r' = Some d' /\ turned c s d d'.
Proof.
  intros c s npart maxit tol rjac g1 g2 spline dspline raw raw' f f' nc nc' old G N Hraw Hf Hnc av av' q q' r r' b b'.
  assert (Ea : av' = av) by (apply (domain_turned c s G); exact Hraw).
  assert (Hq : turned c s q q') by (unfold q'; rewrite Ea; apply pv_nh18_turned; assumption).
  assert (Hr : same_refs c r r') by (unfold r'; rewrite Ea; apply (refs_nh18_turned c s G f f' Hf); assumption).
  clearbody av av' q q' r r'. subst av'.
  assert (KN := north_turned c s G f f' Hf q q' nc nc' Hq Hnc av r r' Hr). assert (KS := south_turned c s G f f' Hf q q' nc nc' Hq Hnc av r r' Hr).
  assert (Hb : turned_fluxes c s b b') by (apply (barotropic_turned c s G); assumption).
  split; [reflexivity|]. split; [exact Hq|]. split; [exact Hr|]. split; [exact Hb|].
  split; [apply (layerwise_turned c s G); assumption|]. split; [apply (lwa_only_turned c s G); assumption|].
  split; [apply (div_turned c s); assumption|]. split; [apply (conv_turned c s G); assumption|]. split; [apply (phi_turned c s G); assumption|].
  apply (stretch_turned c s G f f' Hf); assumption.
Qed.
Print Assumptions C126_nh18_turned_state_gives_turned_results.

(** ** C126: QGFieldNHN22, for every matrix inverse *)
Theorem C126_nhn22_turned_state_gives_turned_results :
  forall (c : pconf R) (s : nat) (inverse : nat -> arr2 R -> arr2 R) (spline dspline : (nat -> R) -> nat -> R)
         (raw raw' : nat -> nat -> nat -> R) (f f' : fields R) (nc nc' : arr3 R) (old : refstate R),
    centred c -> turned_raw c s raw raw' -> turned_state c s f f' -> turned c s nc nc' ->
    let av := domain_nhn22 c spline dspline raw in let av' := domain_nhn22 c spline dspline raw' in
    let q := pv_nhn22 c f av in let q' := pv_nhn22 c f' av' in
    let r := refs_nhn22 c (nhn22_inversion c inverse (tn0 av)) q (avort_nhn22 c f) f av old in
    let r' := refs_nhn22 c (nhn22_inversion c inverse (tn0 av')) q' (avort_nhn22 c f') f' av' old in
    let b := barotropic_terms c (north_args c q f nc av r) (south_args c q f nc av r) in
    let b' := barotropic_terms c (north_args c q' f' nc' av' r') (south_args c q' f' nc' av' r') in
    av' = av /\ turned c s q q' /\ same_refs c r r' /\ turned_fluxes c s b b' /\
    turned_layers c s (layerwise_terms c (north_args c q f nc av r) (south_args c q f nc av r))
                      (layerwise_terms c (north_args c q' f' nc' av' r') (south_args c q' f' nc' av' r')) /\
    turned_lwa_only c s (lwa_only c q f r) (lwa_only c q' f' r') /\
    turned2 c s (div_momentum_flux c b) (div_momentum_flux c b') /\ turned2 c s (conv_zonal_flux c b) (conv_zonal_flux c b') /\
    turned2 c s (flux_vector_phi c f r) (flux_vector_phi c f' r') /\
    exists d d', stretch_term c f av r = Some d /\ stretch_term c f' av' r' = Some d' /\ turned c s d d'.
Proof.
  intros c s inverse spline dspline raw raw' f f' nc nc' old G Hraw Hf Hnc av av' q q' r r' b b'.
  assert (Ea : av' = av) by (apply (domain_turned c s G); exact Hraw).
  assert (Hq : turned c s q q') by (unfold q'; rewrite Ea; apply pv_nhn22_turned; assumption).
  assert (Hr : same_refs c r r') by (unfold r'; rewrite Ea; apply (refs_nhn22_turned c s G f f' Hf); [exact Hq|apply avort_nhn22_turned; assumption]).
  clearbody av av' q q' r r'. subst av'.
  assert (KN := north_turned c s G f f' Hf q q' nc nc' Hq Hnc av r r' Hr). assert (KS := south_turned c s G f f' Hf q q' nc nc' Hq Hnc av r r' Hr).
  assert (Hb : turned_fluxes c s b b') by (apply (barotropic_turned c s G); assumption).
  split; [reflexivity|]. split; [exact Hq|]. split; [exact Hr|]. split; [exact Hb|].
  split; [apply (layerwise_turned c s G); assumption|]. split; [apply (lwa_only_turned c s G); assumption|].
  split; [apply (div_turned c s); assumption|]. split; [apply (conv_turned c s G); assumption|]. split; [apply (phi_turned c s G); assumption|].
  apply (stretch_turned c s G f f' Hf); assumption.
Qed.
Print Assumptions C126_nhn22_turned_state_gives_turned_results.
(** a wave, and the same wave one column further west *)
Definition wave (x : nat -> R) : fields R :=
  {| u_ := fun i j k => x i * INR j; v_ := fun i j k => INR k * x i; theta_ := fun i j k => 300 + INR k + x i * INR j |}.
Definition bump (i : nat) : R := if Nat.eqb i 1 then 1 else 0.
Definition bump' (i : nat) : R := if Nat.eqb i 4 then 1 else 0.
Lemma wide_centred nh : centred (wide nh).
Proof. repeat split; cbn; try lia; field. Qed.
Example C126_case : centred (wide false) /\ centred (wide true) /\ turned_state (wide false) 1 (wave bump) (wave bump') /\
  turned_raw (wide false) 1 (fun l j i => 300 + INR l + bump (i + 1)) (fun l j i => 300 + INR l + bump' (i + 1)) /\ u_ (wave bump) 1%nat 1%nat 1%nat <> u_ (wave bump') 1%nat 1%nat 1%nat.
Proof.
  split; [apply wide_centred|]. split; [apply wide_centred|].
  assert (T : forall i, lon_ok (wide false) i -> bump' i = bump (turn (wide false) 1 i)).
  { intros i Hi. unfold lon_ok, turn, bump, bump' in *. cbn [wide p_nlon] in *. do 5 (destruct i as [|i]; [try lia; reflexivity|]). lia. }
  split.
  - split; [|split]; intros i j k Hi Hj Hk; cbn [wave u_ v_ theta_]; rewrite (T i Hi); reflexivity.
  - split; [|unfold wave, bump, bump'; cbn; lra]. intros l j i Hj Hi. cbn [wide p_nlon] in Hi. rewrite (T (i + 1)%nat) by (split; cbn; lia).
    unfold turn. cbn [wide p_nlon]. replace (i + 1 - 1 + 1)%nat with (i + 1)%nat by lia. reflexivity.
Qed.

(** ** C127: a zonally uniform state *)
Lemma uniform_turned (c : pconf R) (x : nat -> R) : (2 <= p_nlon c)%nat -> (forall i, lon_ok c i -> x i = x (turn c 1 i)) -> forall i, lon_ok c i -> x i = x 1%nat.
Proof.
  intros N H i. induction i as [|i IH]; intros Hi; [unfold lon_ok in Hi; lia|]. destruct i as [|i]; [reflexivity|].
  unfold lon_ok in *. rewrite <- IH by lia. rewrite (H (S i)) by lia. f_equal. unfold turn. rewrite Nat.mod_small by lia. lia.
Qed.
(** [uniform2], [uniform3]: every column of a result equals the first; [uniform_state]: the same of the input *)
Definition uniform_in (c : pconf R) (x : arr3 R) : Prop := forall i j k, lon_ok c i -> lat_ok c j -> lev_ok c k -> x i j k = x 1%nat j k.
Definition uniform_state (c : pconf R) (f : fields R) : Prop := uniform_in c (u_ f) /\ uniform_in c (v_ f) /\ uniform_in c (theta_ f).
Definition uniform2 (c : pconf R) (x : arr2 R) : Prop := forall i j, lon_ok c i -> row_ok c j -> x i j = x 1%nat j.
Definition uniform3 (c : pconf R) (x : arr3 R) : Prop := forall i j k, lon_ok c i -> row_ok c j -> lev_ok c k -> x i j k = x 1%nat j k.

Section Uniform.
  Variable c : pconf R.
  Hypothesis N : (2 <= p_nlon c)%nat.
  Lemma turn1_ok i : lon_ok c (turn c 1 i).
  Proof. unfold lon_ok, turn. assert (X := Nat.mod_upper_bound (i - 1 + 1) (p_nlon c)). lia. Qed.
  Lemma uniform_in_turned x : uniform_in c x -> turned c 1 x x.
  Proof. intros H i j k Hi Hj Hk. rewrite (H i), (H (turn c 1 i)) by (assumption || apply turn1_ok). reflexivity. Qed.
  Lemma turned_uniform_in x : turned c 1 x x -> uniform_in c x.
  Proof. intros H i j k Hi Hj Hk. apply (uniform_turned c (fun i => x i j k) N); [|exact Hi]. intros i' Hi'. apply H; assumption. Qed.
  Lemma turned_uniform2 x : turned2 c 1 x x -> uniform2 c x.
  Proof. intros H i j Hi Hj. apply (uniform_turned c (fun i => x i j) N); [|exact Hi]. intros i' Hi'. apply H; assumption. Qed.
  Lemma turned_uniform3 x : turned3 c 1 x x -> uniform3 c x.
  Proof. intros H i j k Hi Hj Hk. apply (uniform_turned c (fun i => x i j k) N); [|exact Hi]. intros i' Hi'. apply H; assumption. Qed.
  Lemma conv_uniform b : turned_fluxes c 1 b b -> forall i j, lon_ok c i -> row_ok c j -> conv_zonal_flux c b i j = 0.
  Proof.
    intros (_ & _ & H1 & H2 & H3 & _) i j Hi Hj. unfold conv_zonal_flux, lon_ok, row_ok in *. apply zc_uniform; try lia.
    intros i' Hi'. unfold zonal_flux. replace (j - 1 + 1)%nat with j by lia.
    rewrite (turned_uniform2 _ H1 (i' + 1)%nat j), (turned_uniform2 _ H2 (i' + 1)%nat j), (turned_uniform2 _ H3 (i' + 1)%nat j) by (unfold lon_ok, row_ok; lia). reflexivity.
  Qed.
End Uniform.

Theorem C127_zonally_uniform_state :
  forall (c : pconf R) (npart maxit : nat) (tol rjac : R) (g1 g2 : arr2 R) (inverse : nat -> arr2 R -> arr2 R)
         (f : fields R) (nc : arr3 R) (old : refstate R) (av : averages R) (q : arr3 R) (r : refstate R),
    centred c -> (2 <= npart)%nat -> uniform_state c f -> uniform_in c nc ->
    (q = pv_nh18 c f av /\ r = refs_nh18 c (nh18_solver c npart maxit tol rjac (stat_n av) g1 g2) q f old
     \/ q = pv_nhn22 c f av /\ r = refs_nhn22 c (nhn22_inversion c inverse (tn0 av)) q (avort_nhn22 c f) f av old) ->
    let b := barotropic_terms c (north_args c q f nc av r) (south_args c q f nc av r) in
    let l := layerwise_terms c (north_args c q f nc av r) (south_args c q f nc av r) in
    uniform_in c q /\ uniform2 c (b_lwa b) /\ uniform3 c (b_lwa3 b) /\ uniform2 c (b_u b) /\
    uniform2 c (b_ua1 b) /\ uniform2 c (b_ua2 b) /\ uniform2 c (b_ep1 b) /\ uniform2 c (b_ep4 b) /\ uniform2 c (b_nc b) /\
    uniform2 c (div_momentum_flux c b) /\ uniform2 c (flux_vector_phi c f r) /\
    uniform3 c (l_lwa l) /\ uniform3 c (l_ua1 l) /\ uniform3 c (l_ua2 l) /\ uniform3 c (l_ep1 l) /\ uniform3 c (l_ep2 l) /\ uniform3 c (l_ep3 l) /\ uniform3 c (l_nc l) /\
    (forall i j, lon_ok c i -> row_ok c j -> conv_zonal_flux c b i j = 0).
Proof.
  intros c npart maxit tol rjac g1 g2 inverse f nc old av q r G Np (U1 & U2 & U3) Un Run b l.
  assert (N : (2 <= p_nlon c)%nat) by apply G.
  assert (Hf : turned_state c 1 f f) by (split; [|split]; apply uniform_in_turned; assumption).
  assert (Hnc : turned c 1 nc nc) by (apply uniform_in_turned; assumption).
  assert (Hq : turned c 1 q q) by (destruct Run as [[-> _]|[-> _]]; [apply pv_nh18_turned|apply pv_nhn22_turned]; assumption).
  assert (Hr : same_refs c r r) by (split; [|split]; intros j k _ _; reflexivity).
  assert (KN := north_turned c 1 G f f Hf q q nc nc Hq Hnc av r r Hr). assert (KS := south_turned c 1 G f f Hf q q nc nc Hq Hnc av r r Hr).
  assert (Hb : turned_fluxes c 1 b b) by (apply (barotropic_turned c 1 G); assumption).
  assert (Hl : turned_layers c 1 l l) by (apply (layerwise_turned c 1 G); assumption).
  assert (Hd := div_turned c 1 b b Hb). assert (Hphi := phi_turned c 1 G f f Hf r r Hr). assert (Hc := conv_uniform c N b Hb).
  destruct Hb as (B1 & B2 & B3 & B4 & B5 & B6 & B7 & B8 & B9 & B10 & B11 & B12). destruct Hl as (L1 & L2 & L3 & L4 & L5 & L6 & L7 & L8 & L9 & L10).
  repeat split; try (apply turned_uniform_in; assumption); try (apply turned_uniform2; assumption); try (apply turned_uniform3; assumption). exact Hc.
Qed.
Print Assumptions C127_zonally_uniform_state.
Example C127_case : centred (wide false) /\ uniform_state (wide false) (wave (fun _ => 2)) /\ uniform_in (wide false) (v_ (wave (fun _ => 2))) /\
  u_ (wave (fun _ => 2)) 1%nat 1%nat 1%nat <> u_ (wave (fun _ => 2)) 1%nat 2%nat 1%nat.
Proof. split; [apply wide_centred|]. repeat split; try (intros i j k Hi Hj Hk; reflexivity). cbn. lra. Qed.
