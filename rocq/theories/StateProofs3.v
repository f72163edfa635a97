(** Proofs about the reference states of a whole session, continued: contours of potential vorticity and the areas they enclose. *)
From Verif Require Import Base BaseFacts Spec SpecFacts Grid GridSpec GridProofs Flux FluxSpec FluxProofs Pipeline PipelineSpec PipelineProofs RefStates RefStatesSpec RefStatesProofs DirInv DirInvSpec DirInvProofs DirInvProofs2 DirInvProofs3 DirInvProofs4
  Utilities UtilSpec RotateSpec RotateProofs2 Object ObjectSpec ObjectProofs ObjectProofs2 ObjectProofs3 ObjectProofs4 FormulaSpec FormulaProofs FormulaProofs2 FormulaProofs3 FormulaProofs6 StateSpec StateProofs StateProofs2 PropertiesRefStates PropertiesDirInv.
From Coq Require Import ZifyNat FunctionalExtensionality.
Ltac Zify.zify_post_hook ::= Z.to_euclidean_division_equations.
Open Scope R_scope.

Section States.
  Variables (lib : library) (k : class) (w : qgargs) (nc : field3) (g : grid) (t : tables).
  Hypothesis U : usable k w.
  Hypothesis Hg : grid_of w = Done g.
  Hypothesis Od : Nat.even (w_nlat w) = false.
  Local Notation o := (object_of k w g).
  Local Notation c := (ob_conf o).
  Local Notation x := (analyse lib k w o nc).
  Local Notation h := (half w).
  Hypothesis T : are_stored x c t.
  Local Notation r := (s_refs x).
  Local Notation q := (s_q x).
  Local Notation f := (s_f x).
  Local Notation av := (s_av x).
  Local Notation sizes := (sizes_odd k w g U Hg Od).
  Local Notation P := (StateProofs.P k w g).
  Local Notation solved := (StateProofs.solved lib k w nc g).
  Local Notation hemi := (StateProofs.hemi k w g).
  Local Notation hemi_pv := (StateProofs.hemi_pv lib k w nc g).
  Local Notation dims_common := (StateProofs.dims_common lib k w nc g t U Hg Od T).
  Local Notation pole_P := (StateProofs.pole_P lib k w nc g t U Hg T).
  Local Notation lat_P := (StateProofs.lat_P lib k w nc g t U Hg Od T).
  Local Notation height_P := (StateProofs.height_P lib k w nc g t U Hg Od T).
  Local Notation ref_u_at := (StateProofs.ref_u_at lib k w nc g t U Hg Od T).
  Local Notation ref_theta_at := (StateProofs.ref_theta_at lib k w nc g t U Hg Od T).

  Local Notation npart_at := (StateProofs.npart_at lib k w nc g t U Hg Od T).
  Hypothesis Lat : pole_to_pole_latitudes w.

  Lemma n_facts : w_nlat w = (2 * h + 1)%nat /\ (2 <= h)%nat. Proof. exact (n_odd k w U Od). Qed.
  Lemma step_h : INR h * step w = PI / 2.
  Proof.
    destruct n_facts as [E H]. unfold step. rewrite E. replace (2 * h + 1 - 1)%nat with (2 * h)%nat by lia. rewrite mult_INR. cbn [INR]. field. apply not_0_INR. lia.
  Qed.
  (** latitudes of the rows *)
  Lemma row_angle north d : (d <= h)%nat -> sin (deg2rad (w_ylat w (grid_row w north d))) = sign north * sin (angle w d).
  Proof.
    intros Hd. destruct n_facts as [E H]. rewrite Lat by (unfold grid_row; rewrite E; destruct north; lia). assert (Hh : INR h <> 0) by (apply not_0_INR; lia).
    assert (A : deg2rad (-90 + INR (grid_row w north d) * (180 / INR (w_nlat w - 1))) = sign north * angle w d).
    { unfold deg2rad, angle, step, grid_row, sign. toR. rewrite E. replace (2 * h + 1 - 1)%nat with (2 * h)%nat by lia. rewrite mult_INR. cbn [INR]. destruct north; [rewrite plus_INR|rewrite minus_INR by lia]; field; assumption. }
    rewrite A. unfold sign. destruct north; [rewrite !Rmult_1_l; reflexivity|]. replace (-1 * angle w d) with (- angle w d) by ring. rewrite sin_neg. ring.
  Qed.
  Lemma qref_solved north d l : qref_ (solved north) (d + 1)%nat l = rs_qref P (hemi_pv north) (d + 1)%nat l.
  Proof. unfold StateProofs.solved, StateProofs.P. destruct k; [reflexivity|]. apply wrapper_qref. lia. Qed.
  Lemma pole_ref_at north l d : reported w north d -> pole_ref w t north l d = rs_qref P (hemi_pv north) (d + 1)%nat (l + 1)%nat * (2 * w_om w * sin (angle w d)).
  Proof.
    intros Hr. assert (Hd := proj1 Hr). unfold pole_ref. destruct T as (_ & _ & _ & _ & -> & _). unfold qref_correct_unit. rewrite (qref_at lib k w nc g t U Hg Od T) by exact Hr. rewrite qref_solved.
    destruct sizes as (_ & S2 & _ & S4 & _ & _ & S7 & _). destruct (lat_facts k w g U Hg) as (_ & _ & _ & _ & L).
    assert (Y : (if p_nh c then p_ylat c (p_nlat c - p_eq c + (result_row w north d + 1 - 1))%nat else p_ylat c (result_row w north d + 1 - 1)%nat) = w_ylat w (grid_row w north d)).
    { cbn [object_of ob_conf conf_of p_ylat] in *. rewrite (L Od). rewrite S2, S4, S7. destruct Hr as [_ Hr]. unfold result_row. destruct (w_nh w).
      - subst north. f_equal. unfold grid_row. lia.
      - f_equal. lia. }
    cbv zeta. rewrite Y. rewrite row_angle by exact Hd. destruct (conf_numbers k w g Hg) as (_ & -> & _). toR. unfold sign. destruct north; ring.
  Qed.
  Lemma cos_sym row : (row < w_nlat w)%nat -> cos (row_lat w (w_nlat w - 1 - row)) = cos (row_lat w row).
  Proof.
    intros Hrow. destruct n_facts as [E H]. rewrite <- (cos_neg (row_lat w row)). f_equal. unfold row_lat. rewrite minus_INR by lia.
    assert (A : INR (w_nlat w - 1) * step w = PI). { rewrite E. replace (2 * h + 1 - 1)%nat with (2 * h)%nat by lia. rewrite mult_INR. cbn [INR]. rewrite Rmult_assoc, step_h. field. }
    rewrite Rmult_minus_distr_r, A. field.
  Qed.
  (** a field as stored, possibly upside down *)
  Section Image.
    Variables (z : arr3 R) (y : nat -> nat -> R) (north : bool) (l : nat).
    Definition image : Prop := forall row i, (i < w_nlon w)%nat -> (row < w_nlat w)%nat -> z (i + 1)%nat (row + 1)%nat (l + 1)%nat = y (if north then row else w_nlat w - 1 - row)%nat i.
    Hypothesis Z : image.
    Lemma image_sum (F : R -> R) :
      Sum 1 (s_nlat P + 1) (fun j => Sum 1 (s_nlon P + 1) (fun i => cell_area P j * F (z i j (l + 1)%nat)))
      = Sum 0 (w_nlat w) (fun row => Sum 0 (w_nlon w) (fun i => (w_a w)² * step w * (2 * PI / INR (w_nlon w)) * cos (row_lat w row) * F (y row i))).
    Proof.
      destruct n_facts as [E H]. destruct dims_common as (D1 & D2 & _ & _ & D5 & _ & _ & _ & D9 & D10 & _). rewrite D1, D2.
      transitivity (Sum 0 (w_nlat w) (fun row => (fun r' => Sum 0 (w_nlon w) (fun i => (w_a w)² * step w * (2 * PI / INR (w_nlon w)) * cos (row_lat w r') * F (y r' i))) (if north then row else w_nlat w - 1 - row)%nat)).
      - rewrite E. change 1%nat with (0 + 1)%nat at 1. rewrite Sum_1. apply Sum_ext. intros row Hrow. cbv beta. change 1%nat with (0 + 1)%nat at 1. rewrite Sum_1. apply Sum_ext. intros i Hi.
        rewrite Z by (rewrite ?E; lia). rewrite <- E. f_equal. unfold cell_area. rewrite D5, D9, D10. f_equal.
        assert (A : global_lat P (row + 1) = row_lat w row) by (unfold global_lat, row_lat; rewrite lat_P; unfold angle; field). rewrite A.
        destruct north; [reflexivity|]. symmetry. apply cos_sym. rewrite E. lia.
      - destruct north; [reflexivity|]. rewrite (Sum_reflect (w_nlat w - 1) 0 (w_nlat w)) by lia.
        replace (Datatypes.S (w_nlat w - 1) - w_nlat w)%nat with 0%nat by lia. replace (Datatypes.S (w_nlat w - 1) - 0)%nat with (w_nlat w) by lia. apply Sum_ext. intros row Hrow. cbv beta.
        replace (w_nlat w - 1 - (w_nlat w - 1 - row))%nat with row by lia. reflexivity.
    Qed.
    Lemma image_area S : area_of P z (l + 1) S = area_where w y S.
    Proof.
      transitivity (Sum 1 (s_nlat P + 1) (fun j => Sum 1 (s_nlon P + 1) (fun i => cell_area P j * (fun v => if S v then 1 else 0) (z i j (l + 1)%nat)))).
      - unfold area_of. apply Sum_ext. intros j _. apply Sum_ext. intros i _. cbv beta. destruct (S _); ring.
      - rewrite (image_sum (fun v => if S v then 1 else 0)). unfold area_where. apply Sum_ext. intros j _. apply Sum_ext. intros i _. destruct (S _); ring.
    Qed.
    Lemma image_circulation S : circulation_of P z (l + 1) S = circulation_where w y S.
    Proof.
      transitivity (Sum 1 (s_nlat P + 1) (fun j => Sum 1 (s_nlon P + 1) (fun i => cell_area P j * (fun v => if S v then v else 0) (z i j (l + 1)%nat)))).
      - unfold circulation_of. apply Sum_ext. intros j _. apply Sum_ext. intros i _. cbv beta. destruct (S _); ring.
      - rewrite (image_sum (fun v => if S v then v else 0)). unfold circulation_where. apply Sum_ext. intros j _. apply Sum_ext. intros i _. destruct (S _); ring.
    Qed.
    Lemma image_point i j : grid_point P i j -> exists row i', (row < w_nlat w)%nat /\ (i' < w_nlon w)%nat /\ z i j (l + 1)%nat = y row i'.
    Proof.
      intros [Hi Hj]. destruct dims_common as (D1 & D2 & _). rewrite D1 in Hi. rewrite D2 in Hj. destruct n_facts as [E H]. exists (if north then j - 1 else w_nlat w - 1 - (j - 1))%nat, (i - 1)%nat.
      assert (X := Z (j - 1)%nat (i - 1)%nat ltac:(lia) ltac:(lia)). replace (i - 1 + 1)%nat with i in X by lia. replace (j - 1 + 1)%nat with j in X by lia. rewrite X. repeat split; [destruct north; lia|lia].
    Qed.
    Lemma image_back row i : (row < w_nlat w)%nat -> (i < w_nlon w)%nat -> exists i' j, grid_point P i' j /\ z i' j (l + 1)%nat = y row i.
    Proof.
      intros Hrow Hi. destruct dims_common as (D1 & D2 & _). destruct n_facts as [E H]. exists (i + 1)%nat, ((if north then row else w_nlat w - 1 - row) + 1)%nat. unfold grid_point. rewrite D1, D2. split.
      - destruct north; lia.
      - rewrite Z by (destruct north; lia). destruct north; [reflexivity|]. replace (w_nlat w - 1 - (w_nlat w - 1 - row))%nat with row by lia. reflexivity.
    Qed.
    Lemma image_max M : greatest w y M -> level_max P z (l + 1) M.
    Proof.
      intros [A (row & i & Hr & Hi & B)]. split.
      - intros i' j Hp. destruct (image_point i' j Hp) as (row' & i'' & X1 & X2 & ->). apply A; assumption.
      - destruct (image_back row i Hr Hi) as (i' & j & G & E). exists i', j. split; [exact G|]. rewrite E. exact B.
    Qed.
    Lemma image_min m : least w y m -> level_min P z (l + 1) m.
    Proof.
      intros [A (row & i & Hr & Hi & B)]. split.
      - intros i' j Hp. destruct (image_point i' j Hp) as (row' & i'' & X1 & X2 & ->). apply A; assumption.
      - destruct (image_back row i Hr Hi) as (i' & j & G & E). exists i', j. split; [exact G|]. rewrite E. exact B.
    Qed.
  End Image.
  Local Notation towards_pole := (StateSpec.towards_pole t).
  Lemma pv_at north l : (l < result_levels w)%nat -> image (hemi_pv north) (towards_pole north l) north l.
  Proof.
    intros Hl row i Hi Hrow. destruct n_facts as [E H]. unfold StateProofs.hemi_pv, towards_pole. rewrite (tab_q lib k w nc g t T). unfold sign. destruct north; rewrite (clip_in k w g U Hg Od) by lia; [ring|].
    unfold neg3, flip3. destruct sizes as (_ & -> & _). rewrite E. replace (2 * h + 1 + 1 - (row + 1))%nat with (2 * h + 1 - 1 - row + 1)%nat by lia. toR. ring.
  Qed.
  Lemma hemi_image north l (z : arr3 R) (y : nat -> nat -> R) : (l < result_levels w)%nat ->
    (forall row i, (i < w_nlon w)%nat -> (row < w_nlat w)%nat -> z (i + 1)%nat (row + 1)%nat (l + 1)%nat = y row i) -> image (hemi north z) y north l.
  Proof.
    intros Hl Z row i Hi Hrow. destruct n_facts as [E H]. unfold StateProofs.hemi. destruct north; rewrite (clip_in k w g U Hg Od) by lia; [apply Z; lia|].
    unfold flip3. destruct sizes as (_ & -> & _). rewrite <- Z by lia. f_equal. lia.
  Qed.
  Lemma area_at north l S : (l < result_levels w)%nat -> area_of P (hemi_pv north) (l + 1) S = area_where w (towards_pole north l) S.
  Proof. intros Hl. apply (image_area _ _ north). apply pv_at. exact Hl. Qed.
  Lemma max_at north l M : (l < result_levels w)%nat -> greatest w (towards_pole north l) M -> level_max P (hemi_pv north) (l + 1) M.
  Proof. intros Hl. apply (image_max _ _ north). apply pv_at. exact Hl. Qed.
  Lemma min_at north l m : (l < result_levels w)%nat -> least w (towards_pole north l) m -> level_min P (hemi_pv north) (l + 1) m.
  Proof. intros Hl. apply (image_min _ _ north). apply pv_at. exact Hl. Qed.
  Lemma cap_at d : cap_area P (d + 1) = cap w d.
  Proof. unfold cap_area, cap. rewrite lat_P. destruct dims_common as (_ & _ & _ & _ & -> & _). reflexivity. Qed.

  Section Level.
    Variables (north : bool) (l : nat) (M m : R).
    Hypothesis Ha : 0 < w_a w.
    Hypothesis Ho : 0 < w_om w.
    Hypothesis Hl : inner_level w l.
    Hypothesis HM : greatest w (towards_pole north l) M.
    Hypothesis Hm : least w (towards_pole north l) m.
    Hypothesis Hmm : m < M.
    Local Notation delta := ((M - m) / (INR (contours k w) - 1)).
    Local Notation area := (area_where w (towards_pole north l)).
    Lemma level_ok : (l < result_levels w)%nat. Proof. destruct Hl. lia. Qed.
    Lemma contour_2 : RefStatesSpec.contour P M m 2 = M - delta.
    Proof. unfold RefStatesSpec.contour. rewrite npart_at. cbn [INR]. ring. Qed.
    Lemma contour_next nn : RefStatesSpec.contour P M m (nn + 1) = RefStatesSpec.contour P M m nn - delta.
    Proof. unfold RefStatesSpec.contour. rewrite npart_at, plus_INR. cbn [INR]. ring. Qed.
    Lemma Q_at d : reported w north d -> pole_ref w t north l d = rs_qref P (hemi_pv north) (d + 1)%nat (l + 1)%nat * (2 * s_om P * sin (lat P (d + 1))).
    Proof. intros Hr. rewrite pole_ref_at by exact Hr. rewrite lat_P. destruct dims_common as (_ & _ & _ & _ & _ & -> & _). reflexivity. Qed.
    Lemma level_P : (2 <= l + 1 <= s_kmax P - 1)%nat.
    Proof. destruct dims_common as (_ & _ & -> & _). destruct Hl. lia. Qed.
    Lemma pv_range d1 d2 : reported w north d1 -> reported w north d2 -> (1 <= d1 <= d2)%nat -> cap w d1 < area (up_to (M - delta)) \/ d1 = h ->
      m <= pole_ref w t north l d1 <= M /\ m <= pole_ref w t north l d2 <= M /\ pole_ref w t north l d1 <= pole_ref w t north l d2.
    Proof.
      intros R1 R2 Hd Hc. assert (X1 := level_ok). assert (X2 := level_P). destruct dims_common as (_ & _ & _ & D4 & D5 & D6 & _). destruct R2 as [R2 R2'].
      destruct (C52_reference_pv_in_range_and_monotone_partial P (hemi_pv north) (l + 1) M m pole_P ltac:(rewrite D5; exact Ha) ltac:(rewrite D6; exact Ho) X2 (max_at north l M X1 HM) (min_at north l m X1 Hm) Hmm
        (d1 + 1) (d2 + 1)) as (A & B & C & _); [lia|rewrite D4; lia| |].
      - rewrite cap_at, contour_2, (area_at north l _ X1), D4. destruct Hc as [Hc|Hc]; [left; exact Hc|right; lia].
      - rewrite <- !Q_at in * by (assumption || (split; assumption)). auto.
    Qed.
    Lemma pv_pole : reported w north h -> pole_ref w t north l h = M.
    Proof.
      intros R1. assert (X1 := level_ok). assert (X2 := level_P). destruct n_facts as [_ H2]. destruct dims_common as (_ & _ & _ & D4 & D5 & D6 & _).
      destruct (C52_reference_pv_in_range_and_monotone_partial P (hemi_pv north) (l + 1) M m pole_P ltac:(rewrite D5; exact Ha) ltac:(rewrite D6; exact Ho) X2 (max_at north l M X1 HM) (min_at north l m X1 Hm) Hmm
        (h + 1) (h + 1)) as (_ & _ & _ & E); [lia|rewrite D4; lia|right; symmetry; exact D4|]. rewrite D4 in E. rewrite <- Q_at in E by assumption. exact E.
    Qed.
    Lemma pv_none d : reported w north d -> (1 <= d < h)%nat -> area (up_to (M - delta)) <= cap w d -> pole_ref w t north l d = 0.
    Proof.
      intros R1 Hd Hc. assert (X1 := level_ok). assert (X2 := level_P). destruct dims_common as (_ & _ & _ & D4 & D5 & D6 & _). rewrite Q_at by assumption.
      rewrite (C52_unbracketed_row_is_zero P (hemi_pv north) (l + 1) M m pole_P ltac:(rewrite D5; exact Ha) ltac:(rewrite D6; exact Ho) X2 (max_at north l M X1 HM) (min_at north l m X1 Hm) Hmm (d + 1)); [ring|rewrite D4; lia|].
      rewrite cap_at, contour_2, (area_at north l _ X1). exact Hc.
    Qed.
    Lemma pv_area d b : reported w north d -> (1 <= d < h)%nat -> cap w d < area (up_to (M - delta)) -> (forall v, area (within (v - delta) v) <= b) ->
      - (2 * b) <= area (exceeds (pole_ref w t north l d)) - cap w d <= b.
    Proof.
      intros R1 Hd Hc Hb. assert (X1 := level_ok). assert (X2 := level_P). destruct dims_common as (_ & _ & _ & D4 & D5 & D6 & _).
      assert (E := C51_reported_contour_encloses_the_cap P (hemi_pv north) (l + 1) (d + 1) M m b pole_P ltac:(rewrite D5; exact Ha) ltac:(rewrite D6; exact Ho) X2 ltac:(rewrite D4; lia) (max_at north l M X1 HM) (min_at north l m X1 Hm) Hmm).
      rewrite cap_at, contour_2, !(area_at north l _ X1), <- Q_at in E by assumption. apply E; [exact Hc|]. intros nn _. rewrite contour_next, (area_at north l _ X1). apply Hb.
    Qed.
  End Level.
End States.
