(** Proofs about the reference states of a whole session, continued: the boundary value problems of the two classes. *)
From Verif Require Import Base BaseFacts Spec SpecFacts Grid GridSpec GridProofs Flux FluxSpec FluxProofs Pipeline PipelineSpec PipelineProofs RefStates RefStatesSpec RefStatesProofs RefStatesProofs2 RefStatesProofs6 DirInv DirInvSpec DirInvProofs DirInvProofs2 DirInvProofs3 DirInvProofs4
  Qgpv QgpvSpec QgpvProofs Utilities UtilSpec RotateSpec RotateProofs2 Object ObjectSpec ObjectProofs ObjectProofs2 ObjectProofs3 ObjectProofs4 FormulaSpec FormulaProofs FormulaProofs2 FormulaProofs3 FormulaProofs6 Session StateSpec StateProofs StateProofs2 StateProofs3 StateProofs4 PropertiesRefStates PropertiesDirInv.
From Coq Require Import ZifyNat FunctionalExtensionality.
Ltac Zify.zify_post_hook ::= Z.to_euclidean_division_equations.
Open Scope R_scope.

Lemma parity_two a b : ((a + 1 + (b + 1)) mod 2 = (a + b) mod 2)%nat.
Proof. replace (a + 1 + (b + 1))%nat with (a + b + 1 * 2)%nat by lia. apply Nat.mod_add. lia. Qed.

(** ** QGFieldNH18 *)
Section Iterated.
  Variables (lib : library) (w : qgargs) (nc : field3) (g : grid) (t : tables).
  Hypothesis U : usable NH18 w.
  Hypothesis Hg : grid_of w = Done g.
  Hypothesis Od : Nat.even (w_nlat w) = false.
  Local Notation o := (object_of NH18 w g).
  Local Notation c := (ob_conf o).
  Local Notation x := (analyse lib NH18 w o nc).
  Local Notation h := (half w).
  Hypothesis T : are_stored x c t.
  Hypothesis Lat : pole_to_pole_latitudes w.
  Local Notation P := (StateProofs.P NH18 w g).
  Local Notation hemi := (StateProofs.hemi NH18 w g).
  Local Notation hemi_pv := (StateProofs.hemi_pv lib NH18 w nc g).
  Local Notation dims_common := (StateProofs.dims_common lib NH18 w nc g t U Hg Od T).
  Local Notation pole_P := (StateProofs.pole_P lib NH18 w nc g t U Hg T).
  Local Notation lat_P := (StateProofs.lat_P lib NH18 w nc g t U Hg Od T).
  Local Notation height_P := (StateProofs.height_P lib NH18 w nc g t U Hg Od T).
  Local Notation n_facts := (StateProofs3.n_facts NH18 w U Od).
  Local Notation s := (t_slope NH18 w lib true).
  Local Notation top := (result_levels w - 1)%nat.
  Variable north : bool.
  Hypothesis C : physical_constants w.
  Hypothesis Hs : forall l, (l < result_levels w)%nat -> 0 < s l.
  Hypothesis Hj : 0 <= w_rjac w < 1.
  Local Notation Q := (StateProofs4.Q lib NH18 w nc g north).
  Local Notation uu := (hemi north (u_ (s_f x))).
  Local Notation pt := (hemi north (theta_ (s_f x))).

  Lemma slope_at : stat_n (s_av x) = s.
  Proof. extensionality l. apply (means_odd lib NH18 w nc g t U Hg Od T l). Qed.
  Lemma iterations_at : iterations lib w o x north = rs_num_of_iter P (hemi_pv north) uu pt (one_based s) (lb_mem1 lib) (lb_mem2 lib).
  Proof. unfold iterations. rewrite slope_at. reflexivity. Qed.
  Lemma u_at d l : reported w north d -> ref_u w t north d l = rs_uref P (hemi_pv north) uu pt (one_based s) (lb_mem1 lib) (lb_mem2 lib) (d + 1)%nat (l + 1)%nat.
  Proof.
    intros Hr. rewrite (StateProofs.ref_u_at lib NH18 w nc g t U Hg Od T) by (assumption || (cbn [boundary]; lia)). cbn [boundary]. rewrite Nat.sub_0_r. rewrite <- slope_at. reflexivity.
  Qed.
  Lemma phys : physical P (one_based s). Proof. apply (physical_P lib NH18 w nc g t U Hg Od T); assumption. Qed.

  Lemma nh18_edges l : (l < result_levels w)%nat ->
    (reported w north 0 -> ref_u w t north 0 l = zonal_u w t north 0 l) /\
    (forall d, (1 <= d < h)%nat -> reported w north d -> ref_u w t north d 0 = 0) /\
    (reported w north (h - 2) -> ref_u w t north h l = 2 * ref_u w t north (h - 1) l - ref_u w t north (h - 2) l).
  Proof.
    intros Hl. destruct n_facts as [E H]. destruct dims_common as (_ & _ & _ & D4 & _). destruct (C96_edges_of_the_reference_wind P (hemi_pv north) uu pt (one_based s) (lb_mem1 lib) (lb_mem2 lib) pole_P phys Hj) as (A1 & A2 & A3).
    split; [|split].
    - intros Hr. rewrite u_at by exact Hr. cbn [Nat.add]. rewrite A1. rewrite <- (zonal_u_at lib NH18 w nc g t U Hg Od T) by lia. reflexivity.
    - intros d Hd Hr. rewrite u_at by exact Hr. apply A2. rewrite D4. lia.
    - intros Hr. rewrite !u_at by (apply (reported_more w north (h - 2)); [exact Hr|lia]). specialize (A3 (l + 1)%nat). rewrite D4 in A3. rewrite A3. replace (h + 1 - 1)%nat with (h - 1 + 1)%nat by lia. replace (h + 1 - 2)%nat with (h - 2 + 1)%nat by lia. reflexivity.
  Qed.

  Definition y_of (z : arr2 R) : nat -> nat -> R := fun d l => z (d + 1)%nat (l + 1)%nat.
  Lemma nh18_boundary (E : nat -> R) z : RefStatesSpec.boundary P E (zonal P pt) z ->
    edges w 0 (y_of z) (fun l => E (l + 1)%nat) /\
    (forall d, (1 <= d < h)%nat -> (y_of z d top - y_of z d (top - 2)) / (2 * thickness w) = balanced_shear w (zonal_theta w t north (d + 1) (top - 1) - zonal_theta w t north (d - 1) (top - 1)) d (top - 1)).
  Proof.
    intros (B1 & B2 & B3). destruct n_facts as [E0 H]. destruct (limits NH18 w U) as (_ & L & _). destruct dims_common as (_ & _ & D3 & D4 & D5 & D6 & D7 & D8 & D9 & _ & D11 & D12). rewrite D3 in B2, B3. rewrite D4 in B1, B2, B3. split; [split|].
    - intros d Hd. unfold y_of. apply B1. lia.
    - intros l [Hl1 Hl2]. unfold y_of. destruct (B2 (l + 1)%nat ltac:(lia)) as [X1 X2]. split; assumption.
    - intros d Hd. destruct C as (_ & C2 & _). apply (shear_form NH18 w U Od); [lra|lia|]. specialize (B3 (d + 1)%nat ltac:(lia)).
      unfold y_of. replace (top + 1)%nat with (result_levels w) by lia. replace (top - 2 + 1)%nat with (result_levels w - 2)%nat by lia.
      replace (result_levels w - 1)%nat with (top - 1 + 1)%nat in B3 by lia. replace (d + 1 - 1)%nat with (d - 1 + 1)%nat in B3 by lia. rewrite !(zonal_theta_at lib NH18 w nc g t U Hg Od T) in B3 by lia.
      rewrite lat_P, height_P, D5, D6, D7, D8, D9, D11, D12 in B3. rewrite B3. reflexivity.
  Qed.
  Lemma norm_at n (z : arr2 R) (y : nat -> nat -> R) : (forall d l, (1 <= d < h)%nat -> inner_level w l -> z (d + 1)%nat (l + 1)%nat = y d l) -> norm_colour P n z = total_of w n y.
  Proof.
    intros A. destruct (limits NH18 w U) as (_ & L & _). unfold norm_colour, total_of. destruct dims_common as (_ & _ & D3 & D4 & _). rewrite D3, D4. change 2%nat with (1 + 1)%nat at 1. rewrite Sum_1. apply Sum_ext. intros d Hd.
    replace (result_levels w) with (result_levels w - 1 + 1)%nat at 1 by lia. change 2%nat with (1 + 1)%nat at 1. rewrite Sum_1. apply Sum_ext. intros l Hl. unfold colour. rewrite parity_two.
    rewrite A by (unfold inner_level; lia). reflexivity.
  Qed.
  Lemma norm_all_at (z : arr2 R) (y : nat -> nat -> R) : (forall d l, (1 <= d < h)%nat -> inner_level w l -> z (d + 1)%nat (l + 1)%nat = y d l) -> norm_all P z = total w y.
  Proof.
    intros A. destruct (limits NH18 w U) as (_ & L & _). unfold norm_all, total. destruct dims_common as (_ & _ & D3 & D4 & _). rewrite D3, D4. change 2%nat with (1 + 1)%nat at 1. rewrite Sum_1. apply Sum_ext. intros d Hd.
    replace (result_levels w) with (result_levels w - 1 + 1)%nat at 1 by lia. change 2%nat with (1 + 1)%nat at 1. rewrite Sum_1. apply Sum_ext. intros l Hl. rewrite A by (unfold inner_level; lia). reflexivity.
  Qed.
  Lemma zonal_pv_at d l : (l < result_levels w)%nat -> (d <= h)%nat -> zonal P (hemi_pv north) (d + 1) (l + 1) = zonal_pv w t north l d.
  Proof.
    intros Hl Hd. unfold zonal, zonal_pv, zonal_average. destruct dims_common as (D1 & _ & _ & D4 & _). rewrite D1, D4. f_equal. change 1%nat with (0 + 1)%nat at 1. rewrite Sum_1. apply Sum_ext. intros i Hi. destruct n_facts as [E H].
    replace (d + 1 + (h + 1) - 1)%nat with (h + d + 1)%nat by lia. rewrite (pv_at lib NH18 w nc g t U Hg Od T north l Hl (h + d)%nat i) by lia. f_equal. unfold grid_row. destruct north; [reflexivity|lia].
  Qed.
  Lemma equator_at : exists B, circulates NH18 w (towards_pole t north) 0 B /\ forall l, inner_level w l ->
    u_equator P (hemi_pv north) uu (lb_mem1 lib) (lb_mem2 lib) (l + 1) = zonal_u w t north 0 l + (B l - hemisphere_integral w (zonal_pv w t north l)) / (2 * PI * w_a w).
  Proof.
    destruct C as (Ca & _). assert (N : 2 * PI * w_a w <> 0) by (assert (X := PI_RGT_0); nra). destruct dims_common as (_ & _ & D3 & D4 & D5 & _ & _ & _ & D9 & _).
    exists (fun l => (u_equator P (hemi_pv north) uu (lb_mem1 lib) (lb_mem2 lib) (l + 1) - zonal_u w t north 0 l) * (2 * PI * w_a w) + hemisphere_integral w (zonal_pv w t north l)). split; [|intros l _; field; assert (X := PI_RGT_0); split; lra].
    intros l M m [Hl1 Hl2] HM Hm Hmm Hc. assert (Hl : (l < result_levels w)%nat) by lia. assert (Z := pv_at lib NH18 w nc g t U Hg Od T north l Hl).
    destruct (equator_value P pole_P ltac:(rewrite D5; exact Ca) (hemi_pv north) (l + 1) M m ltac:(rewrite D3; lia) (image_max lib NH18 w nc g t U Hg Od T _ _ north l Z M HM) (image_min lib NH18 w nc g t U Hg Od T _ _ north l Z m Hm) Hmm
      uu (lb_mem1 lib) (lb_mem2 lib)) as (nn & p & H1 & H2 & H3 & H4).
    { change 1%nat with (0 + 1)%nat. rewrite (cap_at lib NH18 w nc g t U Hg Od T), (contour_2 lib NH18 w nc g t U Hg Od T), (image_area lib NH18 w nc g t U Hg Od T _ _ north l Z). exact Hc. }
    apply (circulation_at lib NH18 w nc g t U Hg Od T (hemi_pv north) _ north l M m 0 _ Z). exists nn, p. split; [exact H1|]. split; [exact H2|]. cbv zeta in H3, H4 |- *. split; [exact H3|]. rewrite H4.
    assert (A : zonal P uu 1 (l + 1) = zonal_u w t north 0 l) by (exact (zonal_u_at lib NH18 w nc g t U Hg Od T north 0 l Hl ltac:(lia))). rewrite A.
    assert (B : Sum 1 (s_jd P) (fun j => (zonal P (hemi_pv north) j (l + 1) + zonal P (hemi_pv north) (j + 1) (l + 1)) / 2 * (2 * PI * (s_a P)² * s_dphi P * cos (lat P j + s_dphi P / 2))) = hemisphere_integral w (zonal_pv w t north l)).
    { unfold hemisphere_integral. rewrite D4. change 1%nat with (0 + 1)%nat at 1. rewrite Sum_1. apply Sum_ext. intros d Hd. rewrite !zonal_pv_at, lat_P, D5, D9 by lia. reflexivity. }
    rewrite B, D5. field. assert (X := PI_RGT_0). split; lra.
  Qed.
  Lemma nh18_solution : reported w north 1 -> (iterations lib w o x north <= w_maxit w)%nat ->
    exists (y : nat -> nat -> R) (E B : nat -> R),
      circulates NH18 w (towards_pole t north) 0 B /\
      (forall l, inner_level w l -> E l = zonal_u w t north 0 l + (B l - hemisphere_integral w (zonal_pv w t north l)) / (2 * PI * w_a w)) /\
      edges w 0 y E /\
      (forall d, (1 <= d < h)%nat -> (y d top - y d (top - 2)%nat) / (2 * thickness w) = balanced_shear w (zonal_theta w t north (d + 1) (top - 1) - zonal_theta w t north (d - 1) (top - 1)) d (top - 1)) /\
      (forall d l, (1 <= d < h)%nat -> (l < result_levels w)%nat -> ref_u w t north d l = y d l / cos (angle w d)) /\
      total_of w (iterations lib w o x north) (misfit w s (scaled_ref w t north) y) < w_tol w * total w (forced w (scaled_ref w t north)).
  Proof.
    intros R1 Hi. assert (Ho : w_om w <> 0) by (destruct C as (_ & C2 & _); lra). destruct n_facts as [E0 H].
    destruct (C53_converged_residual_partial P (hemi_pv north) uu pt (one_based s) (lb_mem1 lib) (lb_mem2 lib) pole_P phys Hj) as (z & B1 & B2 & B3).
    { rewrite <- iterations_at. change (s_maxits P) with (w_maxit w). lia. }
    rewrite <- iterations_at in B3. change (s_eps P) with (w_tol w) in B3. destruct dims_common as (_ & _ & D3 & D4 & D5 & D6 & D7 & D8 & D9 & _). destruct equator_at as (B & E1 & E2). destruct (nh18_boundary _ z B1) as [E3 E4].
    exists (y_of z), (fun l => u_equator P (hemi_pv north) uu (lb_mem1 lib) (lb_mem2 lib) (l + 1)), B. split; [exact E1|]. split; [exact E2|]. split; [exact E3|]. split; [exact E4|]. split.
    - intros d l Hd Hl. rewrite u_at by (apply (reported_more w north 1); [exact R1|lia]). rewrite B2 by (rewrite D4; lia). rewrite lat_P. reflexivity.
    - rewrite (norm_at _ _ (misfit w s (scaled_ref w t north) (y_of z))) in B3.
      + rewrite (norm_all_at _ (forced w (scaled_ref w t north))) in B3; [exact B3|]. intros d l Hd Hl. unfold forcing, forced. rewrite D5, D6, D9. rewrite !(scaled_at lib NH18 w nc g t U Hg Od T Lat) by (assumption || lia).
        unfold StateProofs4.Q. replace (d + 1 - 1)%nat with (d - 1 + 1)%nat by lia. reflexivity.
      + intros d l Hd Hl. rewrite (residual_at lib NH18 w nc g t U Hg Od T) by (destruct Hl; lia). apply misfit_ext; symmetry; apply (scaled_at lib NH18 w nc g t U Hg Od T Lat); assumption || lia.
  Qed.
  (** without convergence *)
  Lemma nh18_count : (iterations lib w o x north <= w_maxit w + 1)%nat /\ (iterations lib w o x north = (w_maxit w + 1)%nat -> forall d l, (1 <= d < h)%nat -> reported w north d -> ref_u w t north d l = 0).
  Proof.
    destruct (C101_iteration_count P (hemi_pv north) uu pt (one_based s) (lb_mem1 lib) (lb_mem2 lib) pole_P) as (_ & A & B). rewrite <- iterations_at in A, B. change (s_maxits P) with (w_maxit w) in A, B. split; [lia|].
    intros E d l Hd Hr. rewrite u_at by exact Hr. apply B; [exact E|]. destruct dims_common as (_ & _ & _ & -> & _). lia.
  Qed.
End Iterated.

(** ** QGFieldNHN22 *)
Section Direct.
  Variables (lib : library) (b : nat) (w : qgargs) (nc : field3) (g : grid) (t : tables).
  Local Notation k := (NHN22 b).
  Hypothesis U : usable k w.
  Hypothesis Hg : grid_of w = Done g.
  Hypothesis Od : Nat.even (w_nlat w) = false.
  Local Notation o := (object_of k w g).
  Local Notation c := (ob_conf o).
  Local Notation x := (analyse lib k w o nc).
  Local Notation h := (half w).
  Hypothesis T : are_stored x c t.
  Hypothesis Lat : pole_to_pole_latitudes w.
  Local Notation P := (StateProofs.P k w g).
  Local Notation hemi := (StateProofs.hemi k w g).
  Local Notation hemi_pv := (StateProofs.hemi_pv lib k w nc g).
  Local Notation dims_common := (StateProofs.dims_common lib k w nc g t U Hg Od T).
  Local Notation pole_P := (StateProofs.pole_P lib k w nc g t U Hg T).
  Local Notation lat_P := (StateProofs.lat_P lib k w nc g t U Hg Od T).
  Local Notation height_P := (StateProofs.height_P lib k w nc g t U Hg Od T).
  Local Notation n_facts := (StateProofs3.n_facts k w U Od).
  Local Notation top := (result_levels w - 1)%nat.
  Hypothesis Rm : room k w.
  Variable north : bool.
  Local Notation s := (t_slope k w lib north).
  Local Notation vort := (hemi north (avort_nhn22 c (s_f x))).
  Local Notation pt := (hemi north (theta_ (s_f x))).
  Local Notation wind := (DirInvProofs2.wind P b (hemi_pv north) vort pt (one_based s) (lb_inverse lib)).

  Lemma room_at : (b + 4 <= s_jd P)%nat.
  Proof. destruct dims_common as (_ & _ & _ & -> & _). unfold room in Rm. lia. Qed.
  Lemma slope_side : (if north then stat_n (s_av x) else stat_s (s_av x)) = s.
  Proof. extensionality l. destruct (means_odd lib k w nc g t U Hg Od T l) as (_ & _ & A & B). destruct north; assumption. Qed.
  Lemma u_side d l : reported w north d -> (b <= d)%nat -> ref_u w t north d l = d_uref P b (hemi_pv north) vort pt (one_based s) (lb_inverse lib) (d + 1 - b)%nat (l + 1)%nat.
  Proof. intros Hr Hb. rewrite (StateProofs.ref_u_at lib k w nc g t U Hg Od T) by assumption. rewrite <- slope_side. reflexivity. Qed.
  Lemma vort_at l : (l < result_levels w)%nat -> image w vort (vorticity w (t_u t l) (t_v t l)) north l.
  Proof.
    intros Hl. apply (hemi_image k w g U Hg Od); [exact Hl|]. intros row i Hi Hr. destruct n_facts as [N _]. unfold avort_nhn22.
    destruct (sizes_odd k w g U Hg Od) as (-> & S2 & _). rewrite <- N in S2. rewrite S2. change (p_a c) with (w_a w). change (p_om c) with (w_om w).
    apply (vorticity_odd lib k w nc g t U Hg Od T l Hl); [|exact Hi|exact Hr]. apply (lats_ok k w U Od l Hl).
  Qed.
  Lemma nhn22_edges l : (l < result_levels w)%nat ->
    (forall d, (d < b)%nat -> reported w north d -> ref_u w t north d l = 0 /\ ref_theta w t north d l = 0) /\
    (reported w north b -> ref_u w t north b l = if Nat.eqb l top then - w_om w * w_a w else 0) /\
    (reported w north (h - 2) -> ref_u w t north h l = 2 * ref_u w t north (h - 1) l - ref_u w t north (h - 2) l).
  Proof.
    intros Hl. destruct n_facts as [E H]. assert (Rp := room_at). destruct dims_common as (_ & _ & D3 & D4 & D5 & D6 & _). split; [|split].
    - intros d Hd Hr. apply (ref_unset lib k w nc g t U Hg Od T); assumption.
    - intros Hr. rewrite u_side by (assumption || lia). replace (b + 1 - b)%nat with 1%nat by lia. rewrite uref_edge by (exact pole_P || exact Rp). rewrite D3, D5, D6.
      destruct (Nat.eqb_spec (l + 1) (result_levels w)) as [A|A], (Nat.eqb_spec l top) as [B|B]; try lia; reflexivity.
    - intros Hr. rewrite !u_side by (assumption || (apply (reported_more w north (h - 2)); [exact Hr|lia]) || (rewrite D4 in Rp; lia)).
      assert (A := uref_polar P b (hemi_pv north) vort pt (one_based s) (lb_inverse lib) Rp (l + 1)%nat). rewrite D4 in A. rewrite A. rewrite D4 in Rp.
      replace (h + 1 - 1 - b)%nat with (h - 1 + 1 - b)%nat by lia. replace (h + 1 - 2 - b)%nat with (h - 2 + 1 - b)%nat by lia. reflexivity.
  Qed.
  Hypothesis C : physical_constants w.
  Hypothesis Hs : forall l, (l < result_levels w)%nat -> 0 < s l.
  Hypothesis Inv : exact_inverse (lb_inverse lib).
  Lemma nhn22_solution : reported w north 1 ->
    exists (y : nat -> nat -> R) (E B : nat -> R),
      circulates k w (fun l => vorticity w (t_u t l) (t_v t l)) b B /\
      (forall l, inner_level w l -> E l = B l / (2 * PI * w_a w) - w_om w * w_a w * cos (angle w b)) /\
      edges w b y E /\
      (forall d, (b < d < h)%nat -> (y d top - y d (top - 1)%nat) / thickness w = balanced_shear w (zonal_theta w t north (d - b + 1) top - zonal_theta w t north (d - b - 1) top) d (top - 1)) /\
      (forall d l, (b < d < h)%nat -> (l < result_levels w)%nat -> ref_u w t north d l = y d l / cos (angle w d)) /\
      (forall d l, (b < d < h)%nat -> inner_level w l -> misfit w s (scaled_ref w t north) y d l = 0).
  Proof.
    intros R1. assert (Ho : w_om w <> 0) by (destruct C as (_ & C2 & _); lra). assert (Ca := proj1 C). destruct n_facts as [E0 H]. assert (Rp := room_at). assert (Ph : physical P (one_based s)) by (apply (physical_P lib k w nc g t U Hg Od T); assumption).
    assert (So := wind_solves P b (hemi_pv north) vort pt (one_based s) (lb_inverse lib) pole_P Ph Rp Inv). assert (Bo := wind_boundary P b (hemi_pv north) vort pt (one_based s) (lb_inverse lib) pole_P Ph Rp).
    assert (Ui := uref_inner P b (hemi_pv north) vort pt (one_based s) (lb_inverse lib) pole_P Rp). destruct (limits k w U) as (_ & L & _).
    destruct dims_common as (_ & _ & D3 & D4 & D5 & D6 & D7 & D8 & D9 & _ & D11 & D12). rewrite D4 in Rp, Ui.
    exists (y_of wind), (fun l => u_bound P b vort (l + 1)), (fun l => ckref P vort (b + 1) (l + 1)). split; [|split; [|split; [|split; [|split]]]].
    - intros l M m [Hl1 Hl2] HM Hm Hmm Hc. assert (Hl : (l < result_levels w)%nat) by lia. assert (Z := vort_at l Hl).
      apply (circulation_at lib k w nc g t U Hg Od T vort _ north l M m b _ Z). apply (ckref_value P pole_P ltac:(rewrite D5; exact Ca) vort (l + 1) M m ltac:(rewrite D3; lia) (image_max lib k w nc g t U Hg Od T _ _ north l Z M HM) (image_min lib k w nc g t U Hg Od T _ _ north l Z m Hm) Hmm); [rewrite D4; lia|].
      rewrite (cap_at lib k w nc g t U Hg Od T), (contour_2 lib k w nc g t U Hg Od T), (image_area lib k w nc g t U Hg Od T _ _ north l Z). exact Hc.
    - intros l Hl. rewrite u_bound_R by (exact pole_P || exact room_at). rewrite lat_P, D5, D6. reflexivity.
    - destruct Bo as (B1 & B2 & _). rewrite D3, D4 in B2. rewrite D4 in B1. split.
      + intros d Hd. unfold y_of. apply B1. lia.
      + intros l [Hl1 Hl2]. unfold y_of. destruct (B2 (l + 1)%nat ltac:(lia)) as [X1 X2]. split; assumption.
    - intros d Hd. destruct Bo as (_ & _ & B3). rewrite D4 in B3. specialize (B3 (d + 1)%nat ltac:(lia)). rewrite D3, D7 in B3. unfold y_of. replace (top + 1)%nat with (result_levels w) by lia. replace (top - 1 + 1)%nat with (result_levels w - 1)%nat by lia.
      rewrite B3. unfold thermal_shear. rewrite D3, D5, D6, D8, D9, D11, D12, lat_P. replace (result_levels w - 1)%nat with (top - 1 + 1)%nat at 1 by lia. rewrite height_P.
      replace (d + 1 - b + 1)%nat with (d - b + 1 + 1)%nat by lia. replace (d + 1 - b - 1)%nat with (d - b - 1 + 1)%nat by lia.
      assert (Zt : forall d', (d' <= h)%nat -> zonal P pt (d' + 1) (result_levels w) = zonal_theta w t north d' top) by (intros d' Hd'; rewrite <- (zonal_theta_at lib k w nc g t U Hg Od T) by lia; f_equal; lia).
      rewrite !Zt by lia. unfold balanced_shear. replace (- w_rr w / w_H w) with (- (w_rr w / w_H w)) by (unfold Rdiv; ring). reflexivity.
    - intros d l Hd Hl. rewrite u_side by ((apply (reported_more w north 1); [exact R1|lia]) || lia). rewrite Ui by lia. rewrite lat_P. reflexivity.
    - intros d l Hd Hl. assert (So' := So (d + 1)%nat (l + 1)%nat ltac:(split; [rewrite D4; lia|rewrite D3; destruct Hl; lia])).
      rewrite (residual_at lib k w nc g t U Hg Od T) in So' by (destruct Hl; lia). rewrite <- So'. apply misfit_ext; apply (scaled_at lib k w nc g t U Hg Od T Lat); assumption || lia.
  Qed.
End Direct.
