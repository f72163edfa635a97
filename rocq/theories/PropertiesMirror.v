(** C109, C110: mirroring the input about the equator mirrors the results.  Vocabulary: MirrorSpec.v. *)
From Verif Require Import Base BaseFacts Spec SpecFacts Pipeline PipelineSpec PipelineProofs PropertiesPipeline
  RefStates RefStatesSpec RefStatesProofs RefStatesProofs5 DirInv DirInvSpec DirInvProofs3 DirInvProofs4 DirInvProofs5 PropertiesDirInv MirrorSpec MirrorProofs.
Open Scope R_scope.

(** ** C109: QGFieldNH18, with its own solver *)
Theorem C109_mirrored_state_gives_mirrored_results :
  forall (c : pconf R) (npart maxit : nat) (tol rjac : R) (stat : nat -> R) (g1 g2 : arr2 R) (spline dspline : (nat -> R) -> nat -> R)
         (raw raw' : nat -> nat -> nat -> R) (f f' : fields R) (nc nc' : arr3 R) (old old' : refstate R),
    symmetric_grid c -> p_nh c = false -> (2 <= p_nlon c)%nat -> (2 <= p_kmax c)%nat -> (3 <= p_eq c)%nat ->
    raw_image c raw raw' -> image_state c f f' -> image_neg c nc nc' ->
    let solver := nh18_solver c npart maxit tol rjac stat g1 g2 in
    let av := domain_nh18 c spline dspline raw in let av' := domain_nh18 c spline dspline raw' in
    let q := pv_nh18 c f av in let q' := pv_nh18 c f' av' in
    let r := refs_nh18 c solver q f old in let r' := refs_nh18 c solver q' f' old' in
    let b := barotropic_terms c (north_args c q f nc av r) (south_args c q f nc av r) in
    let b' := barotropic_terms c (north_args c q' f' nc' av' r') (south_args c q' f' nc' av' r') in
    av' = av /\ image_neg c q q' /\ image_refs c r r' /\ image_fluxes c b b' /\
    image_layers c (layerwise_terms c (north_args c q f nc av r) (south_args c q f nc av r))
                   (layerwise_terms c (north_args c q' f' nc' av' r') (south_args c q' f' nc' av' r')) /\
    image_lwa_only c (lwa_only c q f r) (lwa_only c q' f' r') /\
    result2 c (div_momentum_flux c b) (div_momentum_flux c b') /\ result2 c (conv_zonal_flux c b) (conv_zonal_flux c b') /\
    result2_neg c (flux_vector_phi c f r) (flux_vector_phi c f' r') /\
    exists d d', stretch_term c f av r = Some d /\ stretch_term c f' av' r' = Some d' /\ result3 c d d'.
Proof.
  intros c npart maxit tol rjac stat g1 g2 spline dspline raw raw' f f' nc nc' old old' G NF Hl K E Hraw Hf Hnc solver av av' q q' r r' b b'.
  assert (Ea : av' = av) by (apply (domain_nh18_image c G); exact Hraw).
  assert (Hav : exchanged av av') by (rewrite Ea; repeat split).
  assert (Hq : image_neg c q q') by (unfold q'; rewrite Ea; apply pv_nh18_image; assumption).
  assert (Hr : image_refs c r r') by (apply refs_nh18_image; assumption).
  assert (Hw : forall k, lev_ok c k -> uref_ r' (p_eq c) k = uref_ r (p_eq c) k).
  { apply (refs_nh18_equator_image c NF solver q q' f f'); try assumption. intros k Hk. apply nh18_equator; assumption. }
  assert (Hb : image_fluxes c b b') by (apply barotropic_image; auto).
  split; [exact Ea|]. split; [exact Hq|]. split; [exact Hr|]. split; [exact Hb|]. split; [apply layerwise_image; auto|].
  split; [apply (lwa_only_image c G NF q q' f f' nc nc' av av' r r'); auto|].
  split; [apply div_image; assumption|]. split; [apply conv_image; assumption|]. split; [apply phi_image; assumption|].
  apply stretch_image; assumption.
Qed.
Print Assumptions C109_mirrored_state_gives_mirrored_results.
(** a state without any symmetry, and its image *)
Definition tilted : fields R := {| u_ := fun i j k => INR i * INR j; v_ := fun i j k => INR k * INR j; theta_ := fun i j k => INR k + INR j |}.
Definition tilted' : fields R := {| u_ := fun i j k => INR i * (6 - INR j); v_ := fun i j k => - (INR k * (6 - INR j)); theta_ := fun i j k => INR k + (6 - INR j) |}.
Example C109_case : symmetric_grid (cfg 0 false) /\ (2 <= p_nlon (cfg 0 false))%nat /\ (2 <= p_kmax (cfg 0 false))%nat /\ (3 <= p_eq (cfg 0 false))%nat /\
  image_state (cfg 0 false) tilted tilted' /\ image_neg (cfg 0 false) (v_ tilted) (v_ tilted') /\ ~ symmetric_state (cfg 0 false) tilted /\
  raw_image (cfg 0 false) (fun l j i => INR l + INR j) (fun l j i => INR l + (4 - INR j)).
Proof.
  split; [apply cfg_symmetric; lia|]. split; [cbn; lia|]. split; [cbn; lia|]. split; [cbn; lia|].
  assert (O : forall j, lat_ok (cfg 0 false) j -> INR (opposite (cfg 0 false) j) = 6 - INR j).
  { intros j Hj. unfold opposite, lat_ok in *. cbn [cfg p_nlat] in *. rewrite minus_INR, plus_INR by lia. cbn [INR]. ring. }
  assert (V : image_neg (cfg 0 false) (v_ tilted) (v_ tilted')) by (intros i j k Hi Hj Hk; cbn [tilted tilted' v_]; rewrite O by exact Hj; reflexivity).
  split; [split; [|split; [exact V|]]; intros i j k Hi Hj Hk; cbn [tilted tilted' u_ theta_]; rewrite O by exact Hj; reflexivity|].
  split; [exact V|]. split.
  - intros (Hu & _). assert (X := Hu 1%nat 1%nat 1%nat). unfold lon_ok, lat_ok, lev_ok in X. cbn [cfg p_nlon p_nlat p_kmax tilted u_] in X.
    specialize (X ltac:(lia) ltac:(lia) ltac:(lia)). replace (5 + 1 - 1)%nat with 5%nat in X by lia. cbn [INR] in X. lra.
  - intros l j i Hj Hi. cbn [cfg p_nlat] in *. rewrite !minus_INR by lia. cbn [INR]. ring.
Qed.

(** ** C110: QGFieldNHN22: averages exchanged, PV and reference PV mirrored, and LWA and fluxes mirrored if the reference wind and temperature are *)
Theorem C110_nhn22_mirrored_partial :
  forall (c : pconf R) (inverse : nat -> arr2 R -> arr2 R) (spline dspline : (nat -> R) -> nat -> R)
         (raw raw' : nat -> nat -> nat -> R) (f f' : fields R) (nc nc' : arr3 R) (old old' : refstate R),
    symmetric_grid c -> p_nh c = false -> (2 <= p_nlon c)%nat -> (2 <= p_kmax c)%nat -> (1 <= p_jb c)%nat ->
    raw_image c raw raw' -> image_state c f f' -> image_neg c nc nc' ->
    let av := domain_nhn22 c spline dspline raw in let av' := domain_nhn22 c spline dspline raw' in
    let q := pv_nhn22 c f av in let q' := pv_nhn22 c f' av' in
    let r := refs_nhn22 c (nhn22_inversion c inverse (tn0 av)) q (avort_nhn22 c f) f av old in
    let r' := refs_nhn22 c (nhn22_inversion c inverse (tn0 av')) q' (avort_nhn22 c f') f' av' old' in
    let b := barotropic_terms c (north_args c q f nc av r) (south_args c q f nc av r) in
    let b' := barotropic_terms c (north_args c q' f' nc' av' r') (south_args c q' f' nc' av' r') in
    exchanged av av' /\ image_neg c q q' /\ profile c (qref_ r) (qref_ r') /\ image_lwa_only c (lwa_only c q f r) (lwa_only c q' f' r') /\
    result2 c (b_lwa b) (b_lwa b') /\ result2 c (b_u b) (b_u b') /\ result3 c (b_lwa3 b) (b_lwa3 b') /\ result2 c (b_nc b) (b_nc b') /\
    (profile c (uref_ r) (uref_ r') -> profile c (ptref_ r) (ptref_ r') ->
     image_fluxes c b b' /\
     image_layers c (layerwise_terms c (north_args c q f nc av r) (south_args c q f nc av r))
                    (layerwise_terms c (north_args c q' f' nc' av' r') (south_args c q' f' nc' av' r')) /\
     result2 c (div_momentum_flux c b) (div_momentum_flux c b') /\ result2 c (conv_zonal_flux c b) (conv_zonal_flux c b') /\
     result2_neg c (flux_vector_phi c f r) (flux_vector_phi c f' r') /\
     exists d d', stretch_term c f av r = Some d /\ stretch_term c f' av' r' = Some d' /\ result3 c d d').
Proof.
  intros c inverse spline dspline raw raw' f f' nc nc' old old' G NF Hl K Hj Hraw Hf Hnc av av' q q' r r' b b'.
  assert (Hav : exchanged av av') by (apply (domain_nhn22_image c G); exact Hraw).
  assert (Hq : image_neg c q q') by (apply pv_nhn22_image; assumption).
  assert (Hr : profile c (qref_ r) (qref_ r')) by (apply qref_nhn22_image; assumption).
  (* with the wind and temperature of the image replaced by the mirrored ones *)
  set (s := {| qref_ := qref_ r'; uref_ := fun j k => uref_ r (opposite c j) k; ptref_ := fun j k => ptref_ r (opposite c j) k |}).
  assert (Hs : image_refs c r s) by (split; [exact Hr|split; intros j k _ _; reflexivity]).
  assert (Hw : p_jb c = 0%nat -> forall k, lev_ok c k -> uref_ s (p_eq c) k = uref_ r (p_eq c) k) by (intros; lia).
  assert (Hbs := barotropic_image c G NF q q' f f' nc nc' av av' r s Hf Hq Hnc Hav Hs Hw). fold b in Hbs.
  split; [exact Hav|]. split; [exact Hq|]. split; [exact Hr|]. split; [exact (lwa_only_image c G NF q q' f f' nc nc' av av' r s Hf Hq Hnc Hav Hs Hw)|].
  destruct Hbs as (B1 & B2 & _ & _ & _ & _ & _ & _ & _ & _ & B3 & B4).
  split; [exact B1|]. split; [exact B2|]. split; [exact B4|]. split; [exact B3|].
  intros H1 H2. assert (Hr' : image_refs c r r') by (split; [exact Hr|split; assumption]).
  assert (Hw' : p_jb c = 0%nat -> forall k, lev_ok c k -> uref_ r' (p_eq c) k = uref_ r (p_eq c) k) by (intros; lia).
  assert (Hb : image_fluxes c b b') by (apply barotropic_image; auto).
  split; [exact Hb|]. split; [apply layerwise_image; auto|]. split; [apply div_image; assumption|]. split; [apply conv_image; assumption|]. split; [apply phi_image; assumption|].
  apply stretch_image; assumption.
Qed.
Print Assumptions C110_nhn22_mirrored_partial.
(** the reference temperature is not mirrored: both hemispheres get the northern mean *)
Definition warm_south (l j i : nat) : R := if Nat.ltb j 4 then 310 else 290.
Definition warm_north (l j i : nat) : R := if Nat.ltb 4 j then 310 else 290.
Definition still : fields R := rest (fun j k => INR k + INR j).
Definition still' : fields R := rest (fun j k => INR k + (10 - INR j)).
Theorem C110_nhn22_mirrored_refuted :
  exists (c : pconf R) (inverse : nat -> arr2 R -> arr2 R) (spline dspline : (nat -> R) -> nat -> R) (raw raw' : nat -> nat -> nat -> R) (f f' : fields R),
    symmetric_grid c /\ regular c (p_nlat c) /\ p_nh c = false /\ (1 <= p_jb c)%nat /\ (p_jb c + 4 <= p_eq c)%nat /\ exact_inverse inverse /\
    raw_image c raw raw' /\ image_state c f f' /\
    let av := domain_nhn22 c spline dspline raw in let av' := domain_nhn22 c spline dspline raw' in
    let r := refs_nhn22 c (nhn22_inversion c inverse (tn0 av)) (pv_nhn22 c f av) (avort_nhn22 c f) f av zero_refs in
    let r' := refs_nhn22 c (nhn22_inversion c inverse (tn0 av')) (pv_nhn22 c f' av') (avort_nhn22 c f') f' av' zero_refs in
    (forall k, (k < p_kmax c)%nat -> 0 < stat_n av k /\ 0 < stat_s av k) /\ ~ profile c (ptref_ r) (ptref_ r').
Proof.
  exists (wide false), gauss_inverse, (fun x k => x k), (fun _ _ => 1), warm_south, warm_north, still, still'.
  assert (G := wide_grid false). assert (Rg := wide_regular false).
  split; [exact G|]. split; [exact Rg|]. split; [reflexivity|]. split; [cbn; lia|]. split; [cbn; lia|]. split; [exact gauss_inverse_exact|].
  split. { intros l j i Hj Hi. unfold warm_south, warm_north. cbn [wide p_nlat] in *. destruct (Nat.ltb_spec 4 j); destruct (Nat.ltb_spec (9 - 1 - j) 4); try lia; reflexivity. }
  split. { split; [|split]; intros i j k Hi Hj Hk; unfold lat_ok, opposite in *; cbn [still still' rest u_ v_ theta_ wide p_nlat] in *; try ring. rewrite minus_INR, plus_INR by lia. cbn [INR]. ring. }
  intros av av' r r'. split; [intros; cbn; lra|]. intros H.
  assert (M := proj2 (C107_reported_mean_theta (wide false) gauss_inverse (pv_nhn22 (wide false) still av) (avort_nhn22 (wide false) still) still av zero_refs G Rg ltac:(cbn; lia) ltac:(cbn; lia) 2%nat ltac:(cbn; lia)) eq_refl).
  assert (M' := proj1 (C107_reported_mean_theta (wide false) gauss_inverse (pv_nhn22 (wide false) still' av') (avort_nhn22 (wide false) still') still' av' zero_refs G Rg ltac:(cbn; lia) ltac:(cbn; lia) 2%nat ltac:(cbn; lia))).
  fold r in M. fold r' in M'.
  assert (S : forall j, (1 <= j <= 4)%nat -> ptref_ r' (north_row (wide false) (j + 1)) 2%nat = ptref_ r (south_row (wide false) (j + 1)) 2%nat).
  { intros j Hj. unfold north_row, south_row. cbn [wide p_nh p_eq]. rewrite (H (5 - 1 + (j + 1))%nat 2%nat); [|split; [split|]; cbn; lia|split; cbn; lia].
    replace (opposite (wide false) (5 - 1 + (j + 1))) with (5 + 1 - (j + 1))%nat by (unfold opposite; cbn [wide p_nlat]; lia). reflexivity. }
  assert (E : mean_from (nhn22_dims (wide false)) (p_jb (wide false)) (fun j => ptref_ r' (north_row (wide false) (j + p_jb (wide false))) 2%nat) =
              mean_from (nhn22_dims (wide false)) (p_jb (wide false)) (fun j => ptref_ r (south_row (wide false) (j + p_jb (wide false))) 2%nat)).
  { apply (mean_from_ext _ _ (tn0 av) (tn0 av) gauss_inverse); [cbn; lia|]. intros j Hj. apply S. cbn in Hj. lia. }
  rewrite M, M' in E. cbn [av av' domain_nhn22 averages_nhn22 tn0 Nat.sub] in E.
  assert (T : t0_north (wide false) (warm_south 1) = 290 /\ t0_north (wide false) (warm_north 1) = 310).
  { assert (C : 0 < csm (wide false)).
    { unfold csm. cbn [wide p_jd p_clat nsum nadd nzero RNum INR]. assert (P := PI_RGT_0).
      assert (A1 : 0 <= cos (PI / 8 * (0 - 4))) by (apply cos_ge_0; lra). assert (A2 : 0 < cos (PI / 8 * (1 - 4))) by (apply cos_gt_0; lra).
      assert (A3 : 0 < cos (PI / 8 * (1 + 1 - 4))) by (apply cos_gt_0; lra). assert (A4 : 0 < cos (PI / 8 * (1 + 1 + 1 - 4))) by (apply cos_gt_0; lra). lra. }
    assert (W := north_weights (wide false) G).
    assert (X : forall (th : nat -> nat -> R) v, (forall j i, (5 <= j)%nat -> th j i = v) -> t0_north (wide false) th = v).
    { intros th v Hv. unfold t0_north. apply Rmult_eq_reg_r with (csm (wide false)); [|lra]. match goal with |- ndiv ?a ?b * _ = _ => replace (ndiv a b * b) with a by (cbn [ndiv RNum]; field; lra) end.
      rewrite <- W at 1. rewrite <- rsum_scal. apply rsum_ext. intros s Hs. cbv zeta. rewrite nofnat_INR. cbn [wide p_nlon p_nlat p_jd] in *.
      rewrite (rsum_ext 4 _ (fun _ => v * p_clat (wide false) (9 - 4 + s)%nat)) by (intros i Hi; rewrite Hv by lia; reflexivity).
      cbn [nsum nadd nzero ndiv RNum INR]. cbn [wide p_clat]. field. }
    split; apply X; intros j i Hj; unfold warm_south, warm_north; [destruct (Nat.ltb_spec j 4)|destruct (Nat.ltb_spec 4 j)]; (lia || reflexivity). }
  destruct T as [T1 T2]. rewrite T1, T2 in E. lra.
Qed.
Print Assumptions C110_nhn22_mirrored_refuted.
