(** Properties of the direct solver of QGFieldNHN22 and of the reference states it reports: C43, C54, C56, C103-C108.
    Vocabulary: DirInvSpec.v and RefStatesSpec.v.  LAPACK is a parameter that returns an inverse of every nonsingular matrix. *)
From Verif Require Import Base BaseFacts Spec SpecFacts Flux FluxSpec FluxProofs Qgpv QgpvProofs Pipeline PipelineSpec PipelineProofs PropertiesPipeline
  RefStates RefStatesSpec RefStatesProofs RefStatesProofs2 RefStatesProofs3 RefStatesProofs4 RefStatesProofs5
  DirInv DirInvSpec DirInvProofs DirInvProofs2 DirInvProofs3 DirInvProofs4 DirInvProofs5.
From Coq Require Import FunctionalExtensionality ZifyNat.
Ltac Zify.zify_post_hook ::= Z.to_euclidean_division_equations.
Open Scope R_scope.

(** a matrix inversion of the assumed kind exists (Gauss-Jordan elimination) *)
Example exact_inverse_case : exact_inverse gauss_inverse. Proof. exact gauss_inverse_exact. Qed.

(** ** C54: the wind of one hemisphere is the unique solution of the elliptic equation with these boundary conditions *)
Theorem C54_direct_inversion_solves_the_problem :
  forall (c : pconf R) (inverse : nat -> arr2 R -> arr2 R) (tn : nat -> R) (pv uu vort pt : arr3 R) (t0 stat : nat -> R),
    symmetric_grid c -> regular c (p_nlat c) -> (p_jb c + 4 <= p_eq c)%nat -> exact_inverse inverse ->
    (forall k, (k < p_kmax c)%nat -> 0 < stat k) ->
    let P := nhn22_dims c in let jb := p_jb c in
    let r := nhn22_inversion c inverse tn pv uu vort pt t0 stat in
    let u := fun j k => uref_ r (j - jb)%nat k in
    let shear := fun j => thermal_shear P (zonal P pt) j (j - jb) in
    exists w0, wind_of_circulation P jb (p_om c * p_a c * cos (lat P (jb + 1))) vort w0 /\
      inverts P jb (one_based stat) (qref_ r) u w0 shear /\
      (forall u', inverts P jb (one_based stat) (qref_ r) u' w0 shear ->
         forall j k, (jb + 2 <= j <= p_eq c - 1)%nat -> (1 <= k <= p_kmax c)%nat -> u' j k = u j k) /\
      (forall k, u (p_eq c) k = 2 * u (p_eq c - 1)%nat k - u (p_eq c - 2)%nat k).
Proof.
  intros c inverse tn pv uu vort pt t0 stat G Rg Hj Inv Hs P jb r u shear.
  assert (GP := nhn22_grid c G Rg). assert (HP := nhn22_physical c (p_nlat c) stat Rg Hs). assert (J := nhn22_jd c G). fold P in GP, HP, J.
  assert (Hj' : (jb + 4 <= s_jd P)%nat) by (rewrite J; exact Hj).
  exists (fun k => u_bound P jb vort k). split; [|split; [|split]].
  - exact (wrapper_circulation c G Rg Hj vort stat Hs).
  - exact (wrapper_inverts c G Rg Hj inverse Inv tn pv uu vort pt t0 stat Hs).
  - intros u' (w' & S' & B' & U') j k Hr Hk. rewrite <- J in Hr. destruct (wrapper_inverts c G Rg Hj inverse Inv tn pv uu vort pt t0 stat Hs) as (w & S & B & U).
    fold r P jb in S, B, U. rewrite (U' j k Hr Hk). unfold u. rewrite (U j k Hr Hk). f_equal.
    assert (Q : forall i l, (jb + 1 <= i <= s_jd P)%nat -> (2 <= l <= s_kmax P - 1)%nat -> qref_ r i l = rs_qref P pv i l) by (intros; apply wrapper_qref; lia).
    apply (unique_from P jb pv (one_based stat) GP HP Hj' (fun k => u_bound P jb vort k) shear); try assumption.
    + apply (solves_from_q P jb (one_based stat) Hj' (qref_ r)); assumption.
    + apply (solves_from_q P jb (one_based stat) Hj' (qref_ r)); assumption.
  - intros k. unfold u. rewrite <- J. replace (s_jd P - 1 - jb)%nat with (s_jd P - 1 - jb)%nat by lia. exact (uref_polar P jb pv vort pt (one_based stat) inverse Hj' k).
Qed.
Print Assumptions C54_direct_inversion_solves_the_problem.

(** the same for the arrays the object reports.  The southern hemisphere is inverted with the boundary wind of the
    northern one: it belongs to the circulation of the absolute vorticity itself, not of its mirror image *)
Theorem C54_reported_wind_solves_the_problem :
  forall (c : pconf R) (inverse : nat -> arr2 R -> arr2 R) (q avort : arr3 R) (f : fields R) (av : averages R) (old : refstate R),
    symmetric_grid c -> regular c (p_nlat c) -> (1 <= p_jb c)%nat -> (p_jb c + 4 <= p_eq c)%nat -> exact_inverse inverse ->
    (forall k, (k < p_kmax c)%nat -> 0 < stat_n av k /\ 0 < stat_s av k) ->
    let P := nhn22_dims c in let jb := p_jb c in
    let r := refs_nhn22 c (nhn22_inversion c inverse (tn0 av)) q avort f av old in
    exists w0, wind_of_circulation P jb (p_om c * p_a c * cos (lat P (jb + 1))) avort w0 /\
      inverts P jb (one_based (stat_n av)) (fun j k => qref_ r (north_row c j) k) (fun j k => uref_ r (north_row c j) k) w0
        (fun j => thermal_shear P (zonal P (theta_ f)) j (j - jb)) /\
      (p_nh c = false ->
       inverts P jb (one_based (stat_s av)) (fun j k => qref_ r (south_row c j) k) (fun j k => uref_ r (south_row c j) k) w0
        (fun j => thermal_shear P (zonal P (flip3 c (theta_ f))) j (j - jb))).
Proof.
  intros c inverse q avort f av old G Rg Hb Hj Inv Hs P jb r.
  assert (GP := nhn22_grid c G Rg). assert (J := nhn22_jd c G). fold P in GP, J. assert (Hj' : (jb + 4 <= s_jd P)%nat) by (rewrite J; exact Hj).
  assert (Hn : forall k, (k < p_kmax c)%nat -> 0 < stat_n av k) by (intros; apply Hs; assumption).
  assert (Hss : forall k, (k < p_kmax c)%nat -> 0 < stat_s av k) by (intros; apply Hs; assumption).
  assert (K3 : (3 <= p_kmax c)%nat) by (destruct Rg as (_ & _ & X & _); exact X).
  assert (Sh : forall x j, (jb + 2 <= j <= s_jd P - 1)%nat -> thermal_shear P (zonal P (clip3 c x)) j (j - jb) = thermal_shear P (zonal P x) j (j - jb)).
  { intros x j Hr. unfold thermal_shear. rewrite !(zonal_clip22 c G) by (change (s_kmax P) with (p_kmax c); lia). reflexivity. }
  exists (fun k => u_bound P jb (clip3 c avort) k). split; [|split].
  - apply (wind_of_circulation_ext c jb _ (clip3 c avort)).
    + intros i j k [Hi Hr] Hk. cbn [nhn22_dims s_kmax s_nlon s_nlat] in *. apply clip_in; lia.
    + exact (wrapper_circulation c G Rg Hj (clip3 c avort) (stat_n av) Hn).
  - apply (inverts_shear P jb (one_based (stat_n av)) _ _ _ (fun j => thermal_shear P (zonal P (clip3 c (theta_ f))) j (j - jb))); [intros; apply Sh; assumption|].
    apply (inverts_ext P jb (one_based (stat_n av)) Hj' (qref_ (nhn22_inversion c inverse (tn0 av) (clip3 c q) (clip3 c (u_ f)) (clip3 c avort) (clip3 c (theta_ f)) (tn0 av) (stat_n av))) _
      (fun j k => uref_ (nhn22_inversion c inverse (tn0 av) (clip3 c q) (clip3 c (u_ f)) (clip3 c avort) (clip3 c (theta_ f)) (tn0 av) (stat_n av)) (j - jb)%nat k)).
    + intros j k Hr Hk. symmetry. apply (nhn22_north_q c G Hb). lia.
    + intros j k Hr Hk. symmetry. apply (nhn22_north c G Hb). fold jb. lia.
    + exact (wrapper_inverts c G Rg Hj inverse Inv (tn0 av) (clip3 c q) (clip3 c (u_ f)) (clip3 c avort) (clip3 c (theta_ f)) (tn0 av) (stat_n av) Hn).
  - intros Hf. apply (inverts_shear P jb (one_based (stat_s av)) _ _ _ (fun j => thermal_shear P (zonal P (clip3 c (flip3 c (theta_ f)))) j (j - jb))); [intros; apply Sh; assumption|].
    set (S := nhn22_inversion c inverse (tn0 av) (clip3 c (neg3 (flip3 c q))) (clip3 c (flip3 c (u_ f))) (clip3 c (flip3 c avort)) (clip3 c (flip3 c (theta_ f))) (ts0 av) (stat_s av)).
    apply (inverts_ext P jb (one_based (stat_s av)) Hj' (qref_ S) _ (fun j k => uref_ S (j - jb)%nat k)).
    + intros j k Hr Hk. symmetry. apply (nhn22_south_q c G Hb); [exact Hf|lia].
    + intros j k Hr Hk. symmetry. apply (nhn22_south c G Hb); [exact Hf|]. fold jb. lia.
    + assert (X := wrapper_inverts c G Rg Hj inverse Inv (tn0 av) (clip3 c (neg3 (flip3 c q))) (clip3 c (flip3 c (u_ f))) (clip3 c (flip3 c avort)) (clip3 c (flip3 c (theta_ f))) (ts0 av) (stat_s av) Hss).
      fold P jb S in X. replace (fun k => u_bound P jb (clip3 c (flip3 c avort)) k) with (fun k => u_bound P jb (clip3 c avort) k) in X; [exact X|].
      extensionality k. symmetry. apply (u_bound_flipped c avort k GP).
Qed.
Print Assumptions C54_reported_wind_solves_the_problem.
(** hypotheses met, with the circulation bracketed, by the resting atmosphere *)
Example C54_case : forall nh, symmetric_grid (wide nh) /\ regular (wide nh) (p_nlat (wide nh)) /\ (1 <= p_jb (wide nh))%nat /\ (p_jb (wide nh) + 4 <= p_eq (wide nh))%nat /\
  (forall k, (k < p_kmax (wide nh))%nat -> 0 < stat_n even_av k /\ 0 < stat_s even_av k) /\
  let x := avort_nhn22 (wide nh) (rest (fun _ k => INR k)) in let P := nhn22_dims (wide nh) in
  level_max P x 2 rest_max /\ level_min P x 2 (- rest_max) /\ - rest_max < rest_max /\ cap_area P 2 < area_of P x 2 (at_most (contour P rest_max (- rest_max) 2)).
Proof.
  intros nh. split; [apply wide_grid|]. split; [apply wide_regular|]. split; [cbn; lia|]. split; [cbn; lia|]. split; [intros; cbn; lra|].
  split; [apply rest_level_max|]. split; [apply rest_level_min|]. split; [assert (X := rest_max_pos); lra|apply rest_room].
Qed.

(** ** C103: no matrix handed to the factorisation is singular *)
Theorem C103_no_singular_matrix :
  forall (c : pconf R) (inverse : nat -> arr2 R -> arr2 R) (pv vort pt : arr3 R) (stat : nat -> R),
    symmetric_grid c -> regular c (p_nlat c) -> (p_jb c + 4 <= p_eq c)%nat -> exact_inverse inverse ->
    (forall k, (k < p_kmax c)%nat -> 0 < stat k) ->
    let P := nhn22_dims c in let n := (p_eq c - p_jb c - 2)%nat in
    forall k, (2 <= k <= p_kmax c - 1)%nat ->
      nonsingular n (mclip n (qjj P (p_jb c) (one_based stat) k (sjk P (p_jb c) pv vort pt (one_based stat) inverse k))).
Proof.
  intros c inverse pv vort pt stat G Rg Hj Inv Hs P n k Hk. assert (J := nhn22_jd c G).
  replace n with (d_n P (p_jb c)) by (unfold d_n, d_jd, P; rewrite J; reflexivity).
  apply all_nonsingular; try assumption; [apply nhn22_grid; assumption|apply (nhn22_physical c (p_nlat c)); assumption|unfold P; rewrite J; exact Hj].
Qed.
Print Assumptions C103_no_singular_matrix.
Example C103_case : exact_inverse gauss_inverse /\ symmetric_grid (wide true) /\ regular (wide true) (p_nlat (wide true)).
Proof. split; [exact gauss_inverse_exact|]. split; [apply wide_grid|apply wide_regular]. Qed.

(** ** C56: the wind reported on the boundary row *)
(** it does not depend on the input *)
Theorem C56_boundary_row_of_the_reported_wind :
  forall (c : pconf R) (inverse : nat -> arr2 R -> arr2 R) (q avort : arr3 R) (f : fields R) (av : averages R) (old : refstate R),
    symmetric_grid c -> regular c (p_nlat c) -> (1 <= p_jb c)%nat -> (p_jb c + 4 <= p_eq c)%nat ->
    let r := refs_nhn22 c (nhn22_inversion c inverse (tn0 av)) q avort f av old in
    forall k, uref_ r (north_row c (p_jb c + 1)) k = (if Nat.eqb k (p_kmax c) then - p_om c * p_a c else 0) /\
      (p_nh c = false -> uref_ r (south_row c (p_jb c + 1)) k = if Nat.eqb k (p_kmax c) then - p_om c * p_a c else 0).
Proof.
  intros c inverse q avort f av old G Rg Hb Hj r k. assert (GP := nhn22_grid c G Rg). assert (J := nhn22_jd c G).
  assert (Hj' : (p_jb c + 4 <= s_jd (nhn22_dims c))%nat) by (rewrite J; exact Hj). split.
  - unfold r. rewrite (proj1 (nhn22_north c G Hb _ q avort f av old (p_jb c + 1) k ltac:(lia))). replace (p_jb c + 1 - p_jb c)%nat with 1%nat by lia. apply (uref_edge _ _ _ _ _ _ inverse GP Hj').
  - intros Hn. unfold r. rewrite (proj1 (nhn22_south c G Hb _ q avort f av old (p_jb c + 1) k Hn ltac:(lia))). replace (p_jb c + 1 - p_jb c)%nat with 1%nat by lia. apply (uref_edge _ _ _ _ _ _ inverse GP Hj').
Qed.
Print Assumptions C56_boundary_row_of_the_reported_wind.
Example C56_case : uref_ (refs_nhn22 (wide false) (nhn22_inversion (wide false) gauss_inverse (tn0 even_av)) (fun _ _ _ => 0) (fun _ _ _ => 0) (rest (fun _ _ => 1)) even_av zero_refs) 6%nat 2%nat = 0.
Proof. exact (proj1 (C56_boundary_row_of_the_reported_wind (wide false) gauss_inverse (fun _ _ _ => 0) (fun _ _ _ => 0) (rest (fun _ _ => 1)) even_av zero_refs (wide_grid false) (wide_regular false) ltac:(cbn; lia) ltac:(cbn; lia) 2%nat)). Qed.

(** the claim fails for the resting atmosphere: whatever w solves the problem, the wind reported on the boundary row is not w / cos(lat) *)
Theorem C56_boundary_condition_reported_refuted :
  exists (c : pconf R) (inverse : nat -> arr2 R -> arr2 R) (f : fields R) (av : averages R),
    symmetric_grid c /\ regular c (p_nlat c) /\ (1 <= p_jb c)%nat /\ (p_jb c + 4 <= p_eq c)%nat /\ exact_inverse inverse /\
    (forall k, (k < p_kmax c)%nat -> 0 < stat_n av k /\ 0 < stat_s av k) /\
    let P := nhn22_dims c in let jb := p_jb c in
    let r := refs_nhn22 c (nhn22_inversion c inverse (tn0 av)) (pv_nhn22 c f av) (avort_nhn22 c f) f av zero_refs in
    ~ exists (w : arr2 R) (w0 sh : nat -> R), wind_of_circulation P jb (p_om c * p_a c * cos (lat P (jb + 1))) (avort_nhn22 c f) w0 /\ boundary_from P jb w0 sh w /\
        forall j k, (jb + 1 <= j <= p_eq c - 1)%nat -> (2 <= k <= p_kmax c - 1)%nat -> uref_ r (north_row c j) k = w j k / cos (lat P j).
Proof.
  exists (wide true), gauss_inverse, (rest (fun _ k => INR k)), even_av. destruct (C54_case true) as (G & Rg & Hb & Hj & Hs & HM & Hm & Hmm & Hr).
  split; [exact G|]. split; [exact Rg|]. split; [exact Hb|]. split; [exact Hj|]. split; [exact gauss_inverse_exact|]. split; [exact Hs|].
  set (x := avort_nhn22 (wide true) (rest (fun _ k => INR k))) in *. intros P jb r (w & w0 & sh & Hc & (_ & B & _) & U).
  assert (E := U 2%nat 2%nat ltac:(cbn; lia) ltac:(cbn; lia)).
  assert (Z := proj1 (C56_boundary_row_of_the_reported_wind (wide true) gauss_inverse (pv_nhn22 (wide true) (rest (fun _ k => INR k)) even_av) x (rest (fun _ k => INR k)) even_av zero_refs G Rg Hb Hj 2%nat)).
  assert (Z' : uref_ r (north_row (wide true) 2) 2%nat = 0) by exact Z. rewrite Z' in E.
  assert (L : lat P 2 = PI / 8) by (unfold lat, P; cbn; field). rewrite L in E. destruct eighth as (_ & Sn & Cs & _).
  assert (W : w 2%nat 2%nat = 0). { apply (f_equal (fun y => y * cos (PI / 8))) in E. unfold Rdiv in E. rewrite Rmult_assoc, Rinv_l in E by lra. lra. }
  assert (W2 := proj2 (B 2%nat ltac:(cbn; lia))). change (jb + 1)%nat with 2%nat in W2. rewrite W2 in W.
  destruct (Hc 2%nat rest_max (- rest_max) ltac:(cbn; lia) HM Hm Hmm Hr) as (C & HC & Hw).
  assert (Bd := cap_circulation_bound P x 2 rest_max (- rest_max) 2 C (nhn22_grid _ G Rg) ltac:(cbn; lra) HC).
  unfold P in Bd. rewrite rest_contour, wide_cap in Bd. fold P in Bd. unfold rest_max in Bd.
  change (jb + 1)%nat with 2%nat in Hw. rewrite W, L in Hw. cbn [wide p_om p_a] in Hw. change (s_a P) with 6378000 in Hw.
  assert (P0 := PI_RGT_0).
  assert (C = 2 * PI * 6378000 * (7 / 100000 * 6378000 * cos (PI / 8))).
  { assert (C / (2 * PI * 6378000) = 7 / 100000 * 6378000 * cos (PI / 8)) by lra. rewrite <- H. field. lra. }
  assert (0 < PI * cos (PI / 8)) by nra. rewrite H in Bd. clear - Bd H0 Sn. set (y := PI * cos (PI / 8)) in *.
  assert (2 * 6378000 * (7 / 100000 * 6378000) * y <= 3 / 4 * (2 * (7 / 100000)) * 2 * (6378000 * 6378000) * (1 - sin (PI / 8)) * y) by (unfold y in *; lra). nra.
Qed.
Print Assumptions C56_boundary_condition_reported_refuted.

(** ** C104: the boundary wind has the circulation of the polar cap: (u + omega a cos) 2 pi a cos = C, so w0 = C/(2 pi a) - omega a cos^2 *)
(** true when the boundary row is the equator *)
Theorem C104_boundary_wind_at_the_equator_partial :
  forall (c : pconf R) (inverse : nat -> arr2 R -> arr2 R) (tn : nat -> R) (pv uu vort pt : arr3 R) (t0 stat : nat -> R),
    symmetric_grid c -> regular c (p_nlat c) -> p_jb c = 0%nat -> (4 <= p_eq c)%nat -> exact_inverse inverse ->
    (forall k, (k < p_kmax c)%nat -> 0 < stat k) ->
    let P := nhn22_dims c in
    let r := nhn22_inversion c inverse tn pv uu vort pt t0 stat in
    exists w0 sh, wind_of_circulation P 0 (p_om c * p_a c * (cos (lat P 1))²) vort w0 /\ inverts P 0 (one_based stat) (qref_ r) (uref_ r) w0 sh.
Proof.
  intros c inverse tn pv uu vort pt t0 stat G Rg Hb Hj Inv Hs P r.
  destruct (C54_direct_inversion_solves_the_problem c inverse tn pv uu vort pt t0 stat G Rg ltac:(lia) Inv Hs) as (w0 & W & I & _). rewrite Hb in W, I. cbn [Nat.add] in W.
  exists w0, (fun j => thermal_shear P (zonal P pt) j (j - 0)). fold P in W, I. split.
  - assert (L : lat P 1 = 0) by (unfold lat; cbn [INR]; ring). rewrite L in *. rewrite cos_0 in *. rewrite Rsqr_1. exact W.
  - replace (uref_ r) with (fun j k => uref_ r (j - 0)%nat k) by (extensionality j; extensionality k; f_equal; lia). exact I.
Qed.
Print Assumptions C104_boundary_wind_at_the_equator_partial.
(** the same grid with the equator as boundary row *)
Definition wide_equator : pconf R :=
  {| p_nlon := 4; p_nlat := 9; p_kmax := 4; p_eq := 5; p_jb := 0; p_jd := 5; p_nh := false; p_a := 6378000; p_om := 7 / 100000; p_dz := 1000; p_h := 7000;
     p_rr := 287; p_cp := 1004; p_prefac := 1; p_dphi := PI / 8; p_dlambda := PI / 2; p_tol := 0;
     p_height := fun k => 1000 * INR k; p_ylat := fun j => 45 / 2 * (INR j - 4); p_clat := fun j => cos (PI / 8 * (INR j - 4)) |}.
Example C104_case : symmetric_grid wide_equator /\ regular wide_equator (p_nlat wide_equator) /\ p_jb wide_equator = 0%nat /\ (4 <= p_eq wide_equator)%nat /\ exact_inverse gauss_inverse.
Proof.
  destruct (wide_grid false) as (_ & _ & _ & _ & H). split; [|split; [repeat split; cbn; try lia; try lra; field|split; [reflexivity|split; [cbn; lia|exact gauss_inverse_exact]]]].
  split; [cbn; lia|]. split; [cbn; lia|]. split; [cbn; lia|]. split; [cbn; lia|]. exact H.
Qed.
(** on any other row the code subtracts omega a cos instead: the wind it reports is never the one with that circulation *)
Theorem C104_boundary_wind_refuted :
  forall (c : pconf R) (inverse : nat -> arr2 R -> arr2 R) (tn : nat -> R) (pv uu vort pt : arr3 R) (t0 stat : nat -> R) (k : nat) (M m : R),
    symmetric_grid c -> regular c (p_nlat c) -> (1 <= p_jb c)%nat -> (p_jb c + 4 <= p_eq c)%nat -> exact_inverse inverse ->
    (forall k, (k < p_kmax c)%nat -> 0 < stat k) ->
    let P := nhn22_dims c in let jb := p_jb c in
    (2 <= k <= p_kmax c - 1)%nat -> level_max P vort k M -> level_min P vort k m -> m < M ->
    cap_area P (jb + 1) < area_of P vort k (at_most (contour P M m 2)) ->
    let r := nhn22_inversion c inverse tn pv uu vort pt t0 stat in
    ~ exists w0 sh, wind_of_circulation P jb (p_om c * p_a c * (cos (lat P (jb + 1)))²) vort w0 /\
        inverts P jb (one_based stat) (qref_ r) (fun j k => uref_ r (j - jb)%nat k) w0 sh.
Proof.
  intros c inverse tn pv uu vort pt t0 stat k M m G Rg Hb Hj Inv Hs P jb Hk HM Hm Hmm Hf r (w0' & sh' & W' & I').
  assert (GP := nhn22_grid c G Rg). assert (HP := nhn22_physical c (p_nlat c) stat Rg Hs). assert (J := nhn22_jd c G). fold P in GP, HP, J.
  assert (Hj' : (jb + 4 <= s_jd P)%nat) by (rewrite J; exact Hj).
  destruct (C54_direct_inversion_solves_the_problem c inverse tn pv uu vort pt t0 stat G Rg Hj Inv Hs) as (w0 & W & I & _). fold P jb r in W, I.
  assert (E := proj1 (inverts_determines P jb (one_based stat) GP HP Hj' _ _ _ _ _ _ I I') k Hk).
  destruct (W k M m Hk HM Hm Hmm Hf) as (C & HC & E1). destruct (W' k M m Hk HM Hm Hmm Hf) as (C' & HC' & E2).
  assert (Ha : 0 < s_a P) by exact (proj1 HP). assert (Ho : 0 < p_om c) by exact (proj1 (proj2 HP)).
  rewrite (cap_circulation_unique P GP Ha vort k M m Hmm (jb + 1) C' C HC' HC) in E2.
  assert (Cs := cos_inside P GP (jb + 1) ltac:(lia)). assert (Sn := sin_inside P GP (jb + 1) ltac:(lia)). assert (T := sin2_cos2 (lat P (jb + 1))). unfold Rsqr in *.
  set (x := cos (lat P (jb + 1))) in *. set (y := sin (lat P (jb + 1))) in *. change (s_a P) with (p_a c) in Ha.
  assert (x < 1) by nra. assert (Z : p_om c * p_a c * (x * (1 - x)) = 0) by lra. assert (0 < p_om c * p_a c) by nra. assert (0 < x * (1 - x)) by nra. nra.
Qed.
Print Assumptions C104_boundary_wind_refuted.
(** met by the resting atmosphere *)
Example C104_refuted_case : let x := avort_nhn22 (wide false) (rest (fun _ k => INR k)) in forall tn pv uu pt t0,
  ~ exists w0 sh, wind_of_circulation (nhn22_dims (wide false)) 1 (p_om (wide false) * p_a (wide false) * (cos (lat (nhn22_dims (wide false)) 2))²) x w0 /\
      inverts (nhn22_dims (wide false)) 1 (one_based (fun _ => 1)) (qref_ (nhn22_inversion (wide false) gauss_inverse tn pv uu x pt t0 (fun _ => 1)))
        (fun j k => uref_ (nhn22_inversion (wide false) gauss_inverse tn pv uu x pt t0 (fun _ => 1)) (j - 1)%nat k) w0 sh.
Proof.
  intros x tn pv uu pt t0. destruct (C54_case false) as (G & Rg & Hb & Hj & _ & M & m & L & R).
  exact (C104_boundary_wind_refuted (wide false) gauss_inverse tn pv uu x pt t0 (fun _ => 1) 2%nat rest_max (- rest_max) G Rg Hb Hj gauss_inverse_exact ltac:(intros; lra) ltac:(cbn; lia) M m L R).
Qed.
(** the hypotheses: C54_case *)

(** ** C105: the shear at the top is the thermal wind of the temperature gradient at the same row *)
Theorem C105_top_shear_partial :
  forall (c : pconf R) (inverse : nat -> arr2 R -> arr2 R) (tn : nat -> R) (pv uu vort pt : arr3 R) (t0 stat : nat -> R),
    symmetric_grid c -> regular c (p_nlat c) -> p_jb c = 0%nat -> (4 <= p_eq c)%nat -> exact_inverse inverse ->
    (forall k, (k < p_kmax c)%nat -> 0 < stat k) ->
    let P := nhn22_dims c in
    let r := nhn22_inversion c inverse tn pv uu vort pt t0 stat in
    forall j, (2 <= j <= p_eq c - 1)%nat ->
      (uref_ r j (p_kmax c) - uref_ r j (p_kmax c - 1)%nat) * cos (lat P j) / p_dz c = thermal_shear P (zonal P pt) j j.
Proof.
  intros c inverse tn pv uu vort pt t0 stat G Rg Hb Hj Inv Hs P r j Hr. assert (J := nhn22_jd c G). assert (GP := nhn22_grid c G Rg). fold P in J, GP.
  assert (K3 : (3 <= p_kmax c)%nat) by (destruct Rg as (_ & _ & X & _); exact X).
  destruct (C54_direct_inversion_solves_the_problem c inverse tn pv uu vort pt t0 stat G Rg ltac:(lia) Inv Hs) as (w0 & W & (w & _ & (_ & _ & B) & U) & _). rewrite Hb in *. fold P r in B, U.
  assert (B1 := B j ltac:(lia)). rewrite Nat.sub_0_r in B1. rewrite <- B1.
  assert (U1 := U j (p_kmax c) ltac:(lia) ltac:(change (s_kmax P) with (p_kmax c); lia)). assert (U2 := U j (p_kmax c - 1)%nat ltac:(lia) ltac:(change (s_kmax P) with (p_kmax c); lia)). cbv beta in U1, U2.
  rewrite Nat.sub_0_r in U1, U2. rewrite U1, U2. change (s_kmax P) with (p_kmax c). change (s_dz P) with (p_dz c).
  assert (Cs := cos_inside P GP j ltac:(lia)). assert (Dz : 0 < p_dz c) by (destruct Rg as (_ & _ & _ & _ & _ & _ & _ & _ & X & _); exact X). field. split; lra.
Qed.
Print Assumptions C105_top_shear_partial.
Example C105_case : (2 <= 3 <= p_eq wide_equator - 1)%nat /\ forall tn pv uu vort pt t0, let r := nhn22_inversion wide_equator gauss_inverse tn pv uu vort pt t0 (fun _ => 1) in
  (uref_ r 3%nat 4%nat - uref_ r 3%nat 3%nat) * cos (lat (nhn22_dims wide_equator) 3) / 1000 = thermal_shear (nhn22_dims wide_equator) (zonal (nhn22_dims wide_equator) pt) 3 3.
Proof.
  split; [cbn; lia|]. intros tn pv uu vort pt t0. destruct C104_case as (G & Rg & B & E & I).
  exact (C105_top_shear_partial wide_equator gauss_inverse tn pv uu vort pt t0 (fun _ => 1) G Rg B E I ltac:(intros; lra) 3%nat ltac:(cbn; lia)).
Qed.
Definition curved : fields R := rest (fun j k => INR k + (INR j - 5) * (INR j - 5)).
Theorem C105_top_shear_refuted :
  exists (c : pconf R) (inverse : nat -> arr2 R -> arr2 R) (f : fields R) (av : averages R) (j : nat),
    symmetric_grid c /\ regular c (p_nlat c) /\ (1 <= p_jb c)%nat /\ (p_jb c + 4 <= p_eq c)%nat /\ exact_inverse inverse /\ (p_jb c + 2 <= j <= p_eq c - 1)%nat /\
    (forall k, (k < p_kmax c)%nat -> 0 < stat_n av k /\ 0 < stat_s av k) /\
    let P := nhn22_dims c in
    let r := refs_nhn22 c (nhn22_inversion c inverse (tn0 av)) (pv_nhn22 c f av) (avort_nhn22 c f) f av zero_refs in
    (uref_ r (north_row c j) (p_kmax c) - uref_ r (north_row c j) (p_kmax c - 1)%nat) * cos (lat P j) / p_dz c <> thermal_shear P (zonal P (theta_ f)) j j.
Proof.
  exists (wide false), gauss_inverse, curved, even_av, 3%nat. destruct (C54_case false) as (G & Rg & Hb & Hj & Hs & _).
  split; [exact G|]. split; [exact Rg|]. split; [exact Hb|]. split; [exact Hj|]. split; [exact gauss_inverse_exact|]. split; [cbn; lia|]. split; [exact Hs|].
  intros P r E.
  destruct (C54_reported_wind_solves_the_problem (wide false) gauss_inverse (pv_nhn22 (wide false) curved even_av) (avort_nhn22 (wide false) curved) curved even_av zero_refs G Rg Hb Hj gauss_inverse_exact Hs)
    as (w0 & _ & (w & _ & (_ & _ & B) & U) & _). fold r P in B, U.
  assert (GP := nhn22_grid _ G Rg). fold P in GP. assert (Cs := cos_inside P GP 3 ltac:(cbn; lia)). assert (Sn := sin_inside P GP 3 ltac:(cbn; lia)).
  assert (B1 := B 3%nat ltac:(cbn; lia)). cbv beta in B1.
  assert (U1 := U 3%nat 4%nat ltac:(cbn; lia) ltac:(cbn; lia)). assert (U2 := U 3%nat 3%nat ltac:(cbn; lia) ltac:(cbn; lia)). cbv beta in U1, U2.
  change (p_kmax (wide false)) with 4%nat in E. change (4 - 1)%nat with 3%nat in E. rewrite U1, U2 in E.
  change (s_kmax P) with 4%nat in B1. change (4 - 1)%nat with 3%nat in B1. change (s_dz P) with 1000 in B1. change (p_dz (wide false)) with 1000 in E.
  assert (E' : thermal_shear P (zonal P (theta_ curved)) 3 3 = thermal_shear P (zonal P (theta_ curved)) 3 2).
  { rewrite <- E. change (3 - p_jb (wide false))%nat with 2%nat in B1. rewrite <- B1. field. lra. }
  unfold thermal_shear in E'. change (s_kmax P) with 4%nat in E'.
  assert (Z : forall j, zonal P (theta_ curved) j 4 = 4 + (INR j - 1) * (INR j - 1)).
  { intros j. unfold zonal. change (s_nlon P) with 4%nat. change (s_jd P) with 5%nat. rewrite (Sum_ext _ _ _ (fun _ => 4 + (INR j - 1) * (INR j - 1))).
    - unfold Sum. cbn. field.
    - intros i Hi. unfold curved, rest. cbn [theta_]. rewrite minus_INR, plus_INR by lia. cbn [INR]. ring. }
  rewrite !Z in E'. clear - E' Cs Sn. set (Q := - s_r P / s_h P * exp (- (s_r P / s_cp P) * height P (4 - 1) / s_h P) * cos (lat P 3) / (2 * s_om P * sin (lat P 3))) in *.
  assert (Qn : Q < 0).
  { unfold Q. assert (X := exp_pos (- (s_r P / s_cp P) * height P (4 - 1) / s_h P)). set (e := exp _) in *. change (s_r P) with 287. change (s_h P) with 7000. change (s_om P) with (7 / 100000).
    assert (0 < e * cos (lat P 3) / (2 * (7 / 100000) * sin (lat P 3))). { apply Rmult_lt_0_compat; [nra|]. apply Rinv_0_lt_compat. lra. }
    replace (-287 / 7000 * e * cos (lat P 3) / (2 * (7 / 100000) * sin (lat P 3))) with (-287 / 7000 * (e * cos (lat P 3) / (2 * (7 / 100000) * sin (lat P 3)))) by (field; lra). lra. }
  cbn [Nat.add Nat.sub INR] in E'. change (s_dphi P) with (PI / 8) in E'. change (s_a P) with 6378000 in E'. assert (P0 := PI_RGT_0).
  assert (D : Q * (4 / (2 * (PI / 8) * 6378000)) = 0).
  { apply Rminus_diag_eq in E'. rewrite <- E'. field. lra. }
  assert (0 < 4 / (2 * (PI / 8) * 6378000)) by (apply Rmult_lt_0_compat; [lra|]; apply Rinv_0_lt_compat; lra). nra.
Qed.
Print Assumptions C105_top_shear_refuted.

(** ** C106: wind and temperature are in thermal wind balance *)
Theorem C106_reported_states_balanced :
  forall (c : pconf R) (inverse : nat -> arr2 R -> arr2 R) (q avort : arr3 R) (f : fields R) (av : averages R) (old : refstate R),
    symmetric_grid c -> regular c (p_nlat c) -> (1 <= p_jb c)%nat -> (p_jb c + 4 <= p_eq c)%nat ->
    let r := refs_nhn22 c (nhn22_inversion c inverse (tn0 av)) q avort f av old in
    forall j k, (p_jb c + 2 <= j <= p_eq c - 1)%nat -> (2 <= k <= p_kmax c - 1)%nat ->
      balanced c (uref_ r) (ptref_ r) (north_row c j) (p_dphi c * (INR j - 1)) k /\
      (p_nh c = false -> balanced c (uref_ r) (ptref_ r) (south_row c j) (latitude c (south_row c j)) k).
Proof.
  intros c inverse q avort f av old G Rg Hb Hj r j k Hr Hk. assert (GP := nhn22_grid c G Rg). assert (J := nhn22_jd c G).
  assert (Hj' : (p_jb c + 4 <= s_jd (nhn22_dims c))%nat) by (rewrite J; exact Hj).
  assert (Ha : p_a c <> 0) by (destruct Rg as (_ & _ & _ & _ & _ & _ & X & _); lra).
  assert (T : forall pv vort pt stat, _) by (intros pv vort pt stat; exact (thermal_wind_from (nhn22_dims c) (p_jb c) pv vort pt stat (one_based (tn0 av)) inverse GP Hj' j k ltac:(lia) Hk Ha)).
  unfold balanced. split.
  - assert (X := T (clip3 c q) (clip3 c avort) (clip3 c (theta_ f)) (one_based (stat_n av))).
    assert (N1 : (north_row c j + 1 = north_row c (j + 1))%nat) by (unfold north_row; destruct (p_nh c); lia).
    assert (N2 : (north_row c j - 1 = north_row c (j - 1))%nat) by (unfold north_row; destruct (p_nh c); lia). rewrite N1, N2. unfold r.
    rewrite !(proj1 (nhn22_north c G Hb _ q avort f av old j _ ltac:(lia))), (proj2 (nhn22_north c G Hb _ q avort f av old (j + 1) k ltac:(lia))), (proj2 (nhn22_north c G Hb _ q avort f av old (j - 1) k ltac:(lia))).
    replace (j + 1 - p_jb c)%nat with (j - p_jb c + 1)%nat by lia. replace (j - 1 - p_jb c)%nat with (j - p_jb c - 1)%nat by lia. exact X.
  - intros Hn. assert (X := T (clip3 c (neg3 (flip3 c q))) (clip3 c (flip3 c avort)) (clip3 c (flip3 c (theta_ f))) (one_based (stat_s av))).
    assert (S1 : (south_row c j + 1 = south_row c (j - 1))%nat) by (unfold south_row; lia). assert (S2 : (south_row c j - 1 = south_row c (j + 1))%nat) by (unfold south_row; lia). rewrite S1, S2. unfold r.
    rewrite !(proj1 (nhn22_south c G Hb _ q avort f av old j _ Hn ltac:(lia))), (proj2 (nhn22_south c G Hb _ q avort f av old (j + 1) k Hn ltac:(lia))), (proj2 (nhn22_south c G Hb _ q avort f av old (j - 1) k Hn ltac:(lia))).
    replace (j + 1 - p_jb c)%nat with (j - p_jb c + 1)%nat by lia. replace (j - 1 - p_jb c)%nat with (j - p_jb c - 1)%nat by lia.
    assert (L : latitude c (south_row c j) = - lat (nhn22_dims c) j).
    { unfold latitude, lat, south_row. cbn [nhn22_dims s_dphi]. rewrite minus_INR, plus_INR by lia. cbn [INR]. ring. }
    rewrite L, sin_neg. cbn [nhn22_inversion uref_ ptref_].
    match type of X with ?l = ?rr => match goal with |- ?l2 = ?r2 => replace l2 with (- l) by (cbn [nhn22_dims s_dphi s_a]; unfold Rdiv; ring); replace r2 with (- rr) end end.
    + rewrite X. reflexivity.
    + unfold height. cbn [nhn22_dims s_om s_h s_r s_cp s_dz]. unfold Rdiv. ring.
Qed.
Print Assumptions C106_reported_states_balanced.
Example C106_case : (p_jb (wide false) + 2 <= 3 <= p_eq (wide false) - 1)%nat /\ north_row (wide false) 3 = 7%nat /\ south_row (wide false) 3 = 3%nat. Proof. cbn. lia. Qed.

(** ** C107: the mean potential temperature of the reference state over the inverted rows *)
Theorem C107_reported_mean_theta :
  forall (c : pconf R) (inverse : nat -> arr2 R -> arr2 R) (q avort : arr3 R) (f : fields R) (av : averages R) (old : refstate R),
    symmetric_grid c -> regular c (p_nlat c) -> (1 <= p_jb c)%nat -> (p_jb c + 4 <= p_eq c)%nat ->
    let P := nhn22_dims c in let r := refs_nhn22 c (nhn22_inversion c inverse (tn0 av)) q avort f av old in
    forall k, (1 <= k <= p_kmax c)%nat ->
      mean_from P (p_jb c) (fun j => ptref_ r (north_row c (j + p_jb c)) k) = tn0 av (k - 1)%nat /\
      (p_nh c = false -> mean_from P (p_jb c) (fun j => ptref_ r (south_row c (j + p_jb c)) k) = tn0 av (k - 1)%nat).
Proof.
  intros c inverse q avort f av old G Rg Hb Hj P r k Hk. assert (GP := nhn22_grid c G Rg). assert (J := nhn22_jd c G). fold P in GP, J.
  assert (Hj' : (p_jb c + 4 <= s_jd P)%nat) by (rewrite J; exact Hj). split.
  - change (tn0 av (k - 1)%nat) with (one_based (tn0 av) k). rewrite <- (tref_mean_from P (p_jb c) (clip3 c q) (clip3 c avort) (clip3 c (theta_ f)) (one_based (stat_n av)) (one_based (tn0 av)) inverse GP Hj' k Hk).
    apply (mean_from_ext P (p_jb c) (tn0 av) (tn0 av) inverse Hj'). intros j Hr. unfold r. rewrite (proj2 (nhn22_north c G Hb _ q avort f av old (j + p_jb c) k ltac:(lia))). replace (j + p_jb c - p_jb c)%nat with j by lia. reflexivity.
  - intros Hn. change (tn0 av (k - 1)%nat) with (one_based (tn0 av) k). rewrite <- (tref_mean_from P (p_jb c) (clip3 c (neg3 (flip3 c q))) (clip3 c (flip3 c avort)) (clip3 c (flip3 c (theta_ f))) (one_based (stat_s av)) (one_based (tn0 av)) inverse GP Hj' k Hk).
    apply (mean_from_ext P (p_jb c) (tn0 av) (tn0 av) inverse Hj'). intros j Hr. unfold r. rewrite (proj2 (nhn22_south c G Hb _ q avort f av old (j + p_jb c) k Hn ltac:(lia))). replace (j + p_jb c - p_jb c)%nat with j by lia. reflexivity.
Qed.
Print Assumptions C107_reported_mean_theta.
Example C107_case : mean_from (nhn22_dims (wide false)) 1 (fun j => ptref_ (refs_nhn22 (wide false) (nhn22_inversion (wide false) gauss_inverse (tn0 even_av)) (pv_nhn22 (wide false) curved even_av) (avort_nhn22 (wide false) curved) curved even_av zero_refs) (north_row (wide false) (j + 1)%nat) 2%nat) = tn0 even_av 1%nat.
Proof.
  destruct (C54_case false) as (G & Rg & Hb & Hj & _).
  exact (proj1 (C107_reported_mean_theta (wide false) gauss_inverse _ _ curved even_av zero_refs G Rg Hb Hj 2%nat ltac:(cbn; lia))).
Qed.
(** the southern reference state should have the southern mean ts0, and does not *)
Theorem C107_southern_mean_theta_refuted :
  exists (c : pconf R) (inverse : nat -> arr2 R -> arr2 R) (f : fields R) (av : averages R) (k : nat),
    symmetric_grid c /\ regular c (p_nlat c) /\ (1 <= p_jb c)%nat /\ (p_jb c + 4 <= p_eq c)%nat /\ p_nh c = false /\ exact_inverse inverse /\ (1 <= k <= p_kmax c)%nat /\
    let P := nhn22_dims c in let r := refs_nhn22 c (nhn22_inversion c inverse (tn0 av)) (pv_nhn22 c f av) (avort_nhn22 c f) f av zero_refs in
    mean_from P (p_jb c) (fun j => ptref_ r (south_row c (j + p_jb c)) k) <> ts0 av (k - 1)%nat.
Proof.
  exists (wide false), gauss_inverse, curved, {| tn0 := fun _ => 300; ts0 := fun _ => 290; stat_n := fun _ => 1; stat_s := fun _ => 1 |}, 2%nat.
  split; [apply wide_grid|]. split; [apply wide_regular|]. split; [cbn; lia|]. split; [cbn; lia|]. split; [reflexivity|]. split; [exact gauss_inverse_exact|]. split; [cbn; lia|].
  intros P r. unfold r. rewrite (proj2 (C107_reported_mean_theta (wide false) gauss_inverse _ _ curved {| tn0 := fun _ => 300; ts0 := fun _ => 290; stat_n := fun _ => 1; stat_s := fun _ => 1 |} zero_refs
    (wide_grid false) (wide_regular false) ltac:(cbn; lia) ltac:(cbn; lia) 2%nat ltac:(cbn; lia)) eq_refl). cbn [tn0 ts0]. lra.
Qed.
Print Assumptions C107_southern_mean_theta_refuted.

(** ** C108: both classes report the same reference PV for the same PV *)
Lemma rs_qref_dims P P' : s_nlon P = s_nlon P' -> s_nlat P = s_nlat P' -> s_kmax P = s_kmax P' -> s_jd P = s_jd P' -> s_npart P = s_npart P' -> s_a P = s_a P' -> s_om P = s_om P' ->
  s_dphi P = s_dphi P' -> s_dlambda P = s_dlambda P' -> forall pv, @rs_qref R RNum RTrunc P pv = rs_qref P' pv.
Proof.
  destruct P as [n1 n2 n3 n4 n5 n6 x1 x2 x3 x4 x5 x6 x7 x8 x9 x10], P' as [m1 m2 m3 m4 m5 m6 y1 y2 y3 y4 y5 y6 y7 y8 y9 y10].
  cbn [s_nlon s_nlat s_kmax s_jd s_npart s_a s_om s_dphi s_dlambda]. intros -> -> -> -> -> -> -> -> -> pv. reflexivity.
Qed.
Theorem C108_same_reference_pv :
  forall (c : pconf R) (inverse : nat -> arr2 R -> arr2 R) (q avort : arr3 R) (f : fields R) (av : averages R) (old old' : refstate R)
         (maxit : nat) (tol rjac : R) (stat : nat -> R) (g1 g2 : arr2 R),
    symmetric_grid c -> (1 <= p_jb c)%nat ->
    let r22 := refs_nhn22 c (nhn22_inversion c inverse (tn0 av)) q avort f av old in
    let r18 := refs_nh18 c (nh18_solver c (p_nlat c) maxit tol rjac stat g1 g2) q f old' in
    forall j k, (2 <= j <= p_eq c)%nat ->
      qref_ r22 (north_row c j) k = qref_ r18 (north_row c j) k /\ (p_nh c = false -> qref_ r22 (south_row c j) k = qref_ r18 (south_row c j) k).
Proof.
  intros c inverse q avort f av old old' maxit tol rjac stat g1 g2 G Hb r22 r18 j k Hr.
  assert (E : forall pv, rs_qref (nhn22_dims c) pv = rs_qref (nh18_dims c (p_nlat c) maxit tol rjac) pv) by (intros pv; apply rs_qref_dims; try reflexivity; apply (nhn22_jd c G)).
  split.
  - unfold r22. rewrite (nhn22_north_q c G Hb) by exact Hr. rewrite wrapper_qref by lia. rewrite E. unfold r18, north_row. destruct (p_nh c) eqn:Hn.
    + rewrite (proj1 (reported_north_only c _ q f old' Hn j k ltac:(lia))). reflexivity.
    + rewrite (proj1 (reported_north c G _ q f old' Hn j k ltac:(lia))). reflexivity.
  - intros Hn. unfold r22. rewrite (nhn22_south_q c G Hb) by (exact Hn || lia). rewrite wrapper_qref by lia. rewrite E. unfold r18, south_row.
    rewrite (proj1 (reported_south c _ q f old' Hn j k ltac:(lia))). reflexivity.
Qed.
Print Assumptions C108_same_reference_pv.
Example C108_case : symmetric_grid (wide false) /\ (1 <= p_jb (wide false))%nat /\ (2 <= 3 <= p_eq (wide false))%nat. Proof. split; [apply wide_grid|cbn; lia]. Qed.

(** ** C43: a symmetric state gives symmetric reference states, LWA and fluxes *)
Theorem C43_symmetric_state_gives_symmetric_results :
  forall (c : pconf R) (inverse : nat -> arr2 R -> arr2 R) (spline dspline : (nat -> R) -> nat -> R) (raw_theta : nat -> nat -> nat -> R)
         (f : fields R) (nc : arr3 R) (old : refstate R),
    symmetric_grid c -> regular c (p_nlat c) -> p_nh c = false -> (2 <= p_nlon c)%nat -> symmetric_state c f -> odd_field c nc ->
    (forall l j i, (j < p_nlat c)%nat -> (i < p_nlon c)%nat -> raw_theta l (p_nlat c - 1 - j)%nat i = raw_theta l j i) ->
    symmetric_refs c old ->
    let av := domain_nhn22 c spline dspline raw_theta in
    let q := pv_nhn22 c f av in
    let r := refs_nhn22 c (nhn22_inversion c inverse (tn0 av)) q (avort_nhn22 c f) f av old in
    let b := barotropic_terms c (north_args c q f nc av r) (south_args c q f nc av r) in
    symmetric_refs c r /\ odd_field c q /\
    symmetric_fluxes c b /\
    symmetric_layers c (layerwise_terms c (north_args c q f nc av r) (south_args c q f nc av r)) /\
    even_map c (conv_zonal_flux c b) /\ odd_map c (flux_vector_phi c f r) /\
    (forall i j, lon_ok c i -> lat_ok c j -> j <> p_eq c -> div_momentum_flux c b i (p_nlat c + 1 - j)%nat = div_momentum_flux c b i j) /\
    exists d, stretch_term c f av r = Some d /\ even_field c d.
Proof.
  intros c inverse spline dspline raw f nc old G Rg NF Hl Hf Hnc Hraw Ho av q r b.
  assert (K : (2 <= p_kmax c)%nat) by (destruct Rg as (_ & _ & X & _); lia).
  assert (Hr : symmetric_refs c r).
  { destruct (C43_symmetric_after_reference_states c spline dspline raw f nc old G NF Hl K Hf Hnc Hraw Ho) as (Hq & Ht & _). fold av q in Hq, Ht.
    destruct Hf as (Hu & Hv & Hth). unfold r, refs_nhn22. rewrite NF. rewrite (flip_odd c _ Hq), (flip_even c _ Hu), (flip_even c _ Hth).
    rewrite (inversion_vort c inverse (tn0 av) (clip3 c q) (clip3 c (u_ f)) (clip3 c (flip3 c (avort_nhn22 c f))) (clip3 c (avort_nhn22 c f)) (clip3 c (theta_ f)) (ts0 av) (stat_s av)
      (ckref_flipped c _ (nhn22_grid c G Rg))).
    replace (stat_s av) with (stat_n av) by (extensionality k; symmetry; apply Ht). replace (ts0 av) with (tn0 av) by (extensionality k; symmetry; apply Ht).
    assert (G' := G). destruct G' as (G1 & G2 & G3 & G4 & _). apply store_even_refs; try assumption; lia. }
  destruct (C43_symmetric_after_reference_states c spline dspline raw f nc r G NF Hl K Hf Hnc Hraw Hr) as (Hq & _ & X). split; [exact Hr|]. split; [exact Hq|]. exact X.
Qed.
Print Assumptions C43_symmetric_state_gives_symmetric_results.
Example C43_full_case : symmetric_grid (wide false) /\ regular (wide false) (p_nlat (wide false)) /\ symmetric_state (wide false) curved /\ symmetric_refs (wide false) zero_refs.
Proof.
  split; [apply wide_grid|]. split; [apply wide_regular|]. split.
  - split; [|split]; intros i j k Hi Hj Hk; cbn [curved rest u_ v_ theta_]; try ring. unfold lat_ok in Hj. cbn [wide p_nlat] in *. rewrite minus_INR, plus_INR by lia. cbn [INR]. ring.
  - split; [|split]; intros j k _ _; reflexivity.
Qed.
