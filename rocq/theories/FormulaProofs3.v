(** Proofs of the formulas, continued: flux terms and their vertical means. *)
From Verif Require Import Base BaseFacts Spec SpecFacts Grid GridSpec GridProofs Flux FluxSpec FluxProofs Pipeline PipelineSpec PipelineProofs RefStates DirInv Utilities UtilSpec UtilitiesProofs RefStatesProofs
  Object ObjectSpec ObjectProofs ObjectProofs2 ObjectProofs3 ObjectProofs4 FormulaSpec FormulaProofs FormulaProofs2.
From Coq Require Import ZifyNat FunctionalExtensionality.
Ltac Zify.zify_post_hook ::= Z.to_euclidean_division_equations.
Open Scope R_scope.

Section Terms.
  Variables (lib : library) (k : class) (w : qgargs) (nc : field3) (g : grid) (t : tables).
  Hypothesis U : usable k w.
  Hypothesis Hg : grid_of w = Done g.
  Hypothesis Od : Nat.even (w_nlat w) = false.
  Local Notation o := (object_of k w g).
  Local Notation c := (ob_conf o).
  Local Notation x := (analyse lib k w o nc).
  Local Notation h := (half w).
  Local Notation D := (dims c).
  Local Notation side := (side lib k w nc g).
  Hypothesis T : are_stored x c t.

  (** ** domain means *)
  Lemma clat_odd j : p_clat c j = weight w j.
  Proof.
    destruct (lat_facts k w g U Hg) as (_ & _ & _ & _ & L4). cbn [object_of ob_conf conf_of p_clat]. rewrite (L4 Od). unfold weight, deg2rad. toR. f_equal. f_equal. field.
  Qed.
  Lemma weights_odd : csm c = Sum 0 (h + 1 - boundary k) (weight w).
  Proof. unfold csm. destruct (sizes_odd k w g U Hg Od) as (_ & _ & _ & _ & _ & -> & _). toR. rewrite Sum0_rsum. apply rsum_ext. intros j _. apply clat_odd. Qed.
  Lemma mean_odd (rw : nat -> nat) (y : nat -> nat -> R) : rsum (p_jd c) (fun r => rsum (p_nlon c) (fun i => y (rw r) i * p_clat c (rw r)) / @nofnat R RNum (p_nlon c)) / csm c = mean_over k w rw y.
  Proof.
    rewrite weights_odd. unfold mean_over. cbv zeta. destruct (sizes_odd k w g U Hg Od) as (-> & _ & _ & _ & _ & -> & _). f_equal. rewrite Sum0_rsum. apply rsum_ext. intros r _.
    rewrite nofnat_INR, Sum0_rsum. f_equal. apply rsum_ext. intros i _. rewrite clat_odd. reflexivity.
  Qed.
  Lemma theta_odd : ob_theta o = theta_data w.
  Proof. cbn [object_of ob_theta]. apply (to_analysis_odd k w g U Hg Od). Qed.
  Lemma mean_of_odd : (fun l => t0_south c (ob_theta o l)) = mean_of k w false /\ (fun l => t0_north c (ob_theta o l)) = mean_of k w true.
  Proof.
    rewrite theta_odd. split; extensionality l; unfold mean_of.
    - rewrite <- mean_odd. reflexivity.
    - rewrite <- mean_odd. unfold t0_north. toR. destruct (sizes_odd k w g U Hg Od) as (_ & -> & _ & _ & _ & -> & _). destruct (limits k w U) as (_ & _ & B).
      f_equal. apply rsum_ext. intros r Hr. f_equal. apply rsum_ext. intros i _. replace (2 * h + 1 - (h + 1 - boundary k) + r)%nat with (h + boundary k + r)%nat by lia. reflexivity.
  Qed.
  Lemma means_odd l : tn0 (s_av x) l = t_mean k w lib true l /\ ts0 (s_av x) l = t_mean k w lib false l /\ stat_n (s_av x) l = t_slope k w lib true l /\ stat_s (s_av x) l = t_slope k w lib false l.
  Proof.
    destruct mean_of_odd as [Ms Mn]. assert (Hh := result_height_eq w g Hg). cbn [analyse s_av].
    unfold domain, t_mean, t_slope, smooth, domain_nh18, domain_nhn22. cbv zeta. cbn [object_of ob_grid]. change (object_of k w g) with o. rewrite Hh.
    destruct k; cbn [averages_nh18 averages_nhn22 tn0 ts0 stat_n stat_s]; toR; rewrite ?nhalf_half, Ms, Mn; repeat split; unfold Rdiv; rewrite ?Rmult_1_l; reflexivity.
  Qed.
  Lemma t0_side north j : i_t0 (side north) j = t_mean k w lib north (j - 1).
  Proof. unfold FormulaProofs.side. destruct north; cbn [north_args south_args i_t0]; unfold one_based; apply means_odd. Qed.

  (** ** a layered result *)
  Lemma layer_at (K : kin R -> arr3 R) north l i d : reported w north d -> global3 c (K (side true)) (K (side false)) (i + 1)%nat (result_row w north d + 1)%nat (l + 1)%nat = K (side north) (i + 1)%nat (d + 1)%nat (l + 1)%nat.
  Proof. intros Hd. rewrite (global3_at k w g U Hg Od) by exact Hd. destruct north; reflexivity. Qed.
  Lemma map_at (K : kin R -> arr2 R) north i d : reported w north d -> global2 c (K (side true)) (K (side false)) (i + 1)%nat (result_row w north d + 1)%nat = K (side north) (i + 1)%nat (d + 1)%nat.
  Proof. intros Hd. rewrite (global2_at k w g U Hg Od) by exact Hd. destruct north; reflexivity. Qed.
  Lemma not_analysed d l : ~ (wave_row k w d /\ inner_level w l) -> ~ (analysed_row D (d + 1) /\ interior_level D (l + 1)).
  Proof. rewrite (wave_row_iff k w g U Hg Od), (inner_level_iff k w g U Hg Od). auto. Qed.

  Ltac tbl := destruct T as (T1 & T2 & T3 & T4 & T5 & T6 & T7 & T8 & T9 & T10 & T11 & T12 & T13 & T14 & T15 & T16 & T17 & T18 & T19 & T20 & T21 & T22 & T23 & T24 & T25).
  Section Point.
    Variables (north : bool) (l i d : nat).
    Hypothesis Hi : (i < w_nlon w)%nat.
    Hypothesis Hl : (l < result_levels w)%nat.
    Hypothesis Hd : reported w north d.
    Local Notation row := (result_row w north d).
    Local Notation grow := (grid_row w north d).
    Local Notation S := (side north).
    Lemma uref_at : wave_row k w d -> i_uref S (ref_row D (d + 1)) (l + 1)%nat = t_uref t l row.
    Proof.
      intros Hw. unfold ref_row. cbn [dims is_nhem jb]. destruct (sizes_odd k w g U Hg Od) as (_ & _ & _ & _ & -> & _). unfold wave_row in Hw.
      rewrite (side_uref lib k w nc g U Hg Od north i l Hi Hl d) by (lia || exact (reported_side w north d Hd)). tbl. rewrite T6. reflexivity.
    Qed.
    Lemma tref_at l' : (l' < result_levels w)%nat -> wave_row k w d -> i_tref S (ref_row D (d + 1)) (l' + 1)%nat = t_ptref t l' row.
    Proof.
      intros Hl' Hw. unfold ref_row. cbn [dims is_nhem jb]. destruct (sizes_odd k w g U Hg Od) as (_ & _ & _ & _ & -> & _). unfold wave_row in Hw.
      rewrite (side_tref lib k w nc g U Hg Od north i l' Hi Hl' d) by (lia || exact (reported_side w north d Hd)). tbl. rewrite T7. reflexivity.
    Qed.
    Lemma u_at d' : (d' <= h)%nat -> i_uu S (i + 1)%nat (field_row D (d' + 1)) (l + 1)%nat = t_u t l (grid_row w north d') i.
    Proof. intros. rewrite (field_row_odd k w g U Hg Od), (side_uu lib k w nc g U Hg Od) by assumption. tbl. rewrite T2. reflexivity. Qed.
    Lemma v_at l' d' : (l' < result_levels w)%nat -> (d' <= h)%nat -> i_vv S (i + 1)%nat (field_row D (d' + 1)) (l' + 1)%nat = sign north * t_v t l' (grid_row w north d') i.
    Proof. intros. rewrite (field_row_odd k w g U Hg Od), (side_vv lib k w nc g U Hg Od) by assumption. tbl. rewrite T3. reflexivity. Qed.
    Lemma theta_at l' d' : (l' < result_levels w)%nat -> (d' <= h)%nat -> i_pt S (i + 1)%nat (field_row D (d' + 1)) (l' + 1)%nat = t_theta t l' (grid_row w north d') i.
    Proof. intros. rewrite (field_row_odd k w g U Hg Od), (side_pt lib k w nc g U Hg Od) by assumption. tbl. rewrite T4. reflexivity. Qed.
    Lemma sgn2 : sign north * sign north = 1. Proof. unfold sign. destruct north; ring. Qed.

    Lemma ua1_formula : 0 <= w_a w -> t_ua1 t l row i = t_uref t l row * t_lwa t l row i.
    Proof.
      intros Ha. rewrite (lwa_layer lib k w nc g t U Hg Od T north l i d Ha Hi Hl Hd). tbl. rewrite T20, layer_sides. cbn [layerwise_terms l_ua1]. rewrite (layer_at (k_ua1 c)) by exact Hd. unfold k_ua1.
      destruct (wave_dec k w d l) as [[Hw Hv]|H].
      - rewrite ua1_in; [|apply (hemi_sizes k w g U Hg Od)|apply (wave_row_iff k w g U Hg Od); exact Hw|apply (inner_level_iff k w g U Hg Od); exact Hv].
        rewrite uref_at by exact Hw. reflexivity.
      - destruct (astar_none lib k w nc g U Hg Od north l i d H) as [-> ->]. unfold ua1. rewrite fill_out by (apply not_analysed; exact H). ring.
    Qed.
    Lemma across_displaced (G : nat -> R) G' : (d <= h)%nat -> (forall d', (d' <= h)%nat -> G (d' + 1)%nat = G' d') ->
      displaced D (i_pv S) (i_qref S) (i + 1)%nat (d + 1)%nat (l + 1)%nat G = across w (pole_pv w t north l i) (pole_ref w t north l d) d G'.
    Proof.
      intros Hd1 HG. unfold displaced, across. rewrite (ref_at lib k w nc g t U Hg Od T north l i d Hi Hl Hd). destruct (dims_odd k w g U Hg Od) as (_ & _ & _ & -> & _).
      change 1%nat with (0 + 1)%nat at 1. rewrite !Sum_1. f_equal; apply Sum_ext; intros d' Hd'; rewrite HG, (pv_at lib k w nc g t U Hg Od T north l i Hi Hl) by lia; reflexivity.
    Qed.
    Lemma ua2_formula :
      (wave_row k w d /\ inner_level w l -> t_ua2 t l row i = across w (pole_pv w t north l i) (pole_ref w t north l d) d (fun d' =>
         (pole_pv w t north l i d' - pole_ref w t north l d) * (t_u t l (grid_row w north d') i * cos (angle w d) - t_uref t l row * cos (angle w d')) * (w_a w * step w))) /\
      (~ (wave_row k w d /\ inner_level w l) -> t_ua2 t l row i = 0).
    Proof.
      assert (E : t_ua2 t l row i = ua2 D (i_pv S) (i_uu S) (i_qref S) (i_uref S) (i + 1)%nat (d + 1)%nat (l + 1)%nat).
      { tbl. rewrite T21, layer_sides. cbn [layerwise_terms l_ua2]. rewrite (layer_at (k_ua2 c)) by exact Hd. reflexivity. }
      rewrite E. split.
      - intros [Hw Hv]. rewrite ua2_in; [|apply (hemi_sizes k w g U Hg Od)|apply (wave_row_iff k w g U Hg Od); exact Hw|apply (inner_level_iff k w g U Hg Od); exact Hv].
        apply across_displaced; [apply Hd|]. intros d' Hd'. rewrite u_at, uref_at, (pv_at lib k w nc g t U Hg Od T north l i Hi Hl), (ref_at lib k w nc g t U Hg Od T north l i d Hi Hl Hd) by assumption.
        rewrite !(latitude_odd k w g U Hg Od), (spacing_odd k w g U Hg Od). reflexivity.
      - intros H. unfold ua2. apply fill_out, not_analysed. exact H.
    Qed.
    Lemma ep1_formula :
      (wave_row k w d /\ inner_level w l -> t_ep1 t l row i =
         / 2 * ((t_v t l grow i)² - (t_u t l grow i - t_uref t l row)²
                - (t_theta t l grow i - t_ptref t l row)² * (w_rr w / w_H w) * exp (- (w_rr w / w_cp w) * (INR l * thickness w) / w_H w)
                  * (2 * thickness w / (t_mean k w lib north (l + 1) - t_mean k w lib north (l - 1)))) * cos (angle w d)) /\
      (~ (wave_row k w d /\ inner_level w l) -> t_ep1 t l row i = 0).
    Proof.
      assert (E : t_ep1 t l row i = ep1 D (i_uu S) (i_vv S) (i_pt S) (i_t0 S) (i_uref S) (i_tref S) (i + 1)%nat (d + 1)%nat (l + 1)%nat).
      { tbl. rewrite T22, layer_sides. cbn [layerwise_terms l_ep1]. rewrite (layer_at (k_ep1 c)) by exact Hd. reflexivity. }
      rewrite E. split.
      - intros [Hw Hv]. rewrite ep1_in; [|apply (hemi_sizes k w g U Hg Od)|apply (wave_row_iff k w g U Hg Od); exact Hw|apply (inner_level_iff k w g U Hg Od); exact Hv].
        assert (Hh : (d <= h)%nat) by apply Hd. rewrite v_at, u_at, theta_at, uref_at, tref_at, !t0_side, (latitude_odd k w g U Hg Od) by assumption.
        cbn [dims f_rr f_h f_cp f_dz]. change (p_rr c) with (w_rr w). change (p_h c) with (w_H w). change (p_cp c) with (w_cp w). rewrite (dz_odd k w g Hg).
        replace (l + 1 + 1 - 1)%nat with (l + 1)%nat by lia. replace (l + 1 - 1 - 1)%nat with (l - 1)%nat by lia. rewrite plus_INR. cbn [INR]. replace (INR l + 1 - 1) with (INR l) by ring.
        replace ((sign north * t_v t l grow i)²) with ((t_v t l grow i)²); [reflexivity|]. unfold Rsqr. assert (Q := sgn2). nra.
      - intros H. unfold ep1. apply fill_out, not_analysed. exact H.
    Qed.
    Lemma heat_formula :
      (wave_row k w d -> t_heat t row i =
         2 * w_om w * sin (angle w d) * cos (angle w d) * thickness w / (thickness w * Sum 1 (result_levels w - 1) (fun l => exp (- (INR l * thickness w) / w_H w)))
         * (exp (- thickness w / w_H w) * (sign north * t_v t 1%nat grow i) * (t_theta t 1%nat grow i - t_ptref t 1%nat row) / (t_mean k w lib north 2 - t_mean k w lib north 0)
            + / 2 * (sign north * t_v t 0%nat grow i * (t_theta t 0%nat grow i - t_ptref t 0%nat row)) / (t_mean k w lib north 1 - t_mean k w lib north 0))) /\
      (~ wave_row k w d -> t_heat t row i = 0).
    Proof.
      assert (E : t_heat t row i = ep4 D (i_vv S) (i_pt S) (i_t0 S) (i_tref S) (i + 1)%nat (d + 1)%nat).
      { tbl. rewrite T13, baro_sides. cbn [barotropic_terms b_ep4]. rewrite (map_at (k_ep4 c)) by exact Hd. reflexivity. }
      rewrite E. destruct (limits k w U) as (_ & L3 & _). split.
      - intros Hw. rewrite ep4_in; [|apply (hemi_sizes k w g U Hg Od)|apply (wave_row_iff k w g U Hg Od); exact Hw|destruct (dims_odd k w g U Hg Od) as (_ & _ & -> & _); exact L3].
        assert (Hh : (d <= h)%nat) by apply Hd.
        assert (V0 := v_at 0%nat d ltac:(lia) Hh). assert (V1 := v_at 1%nat d ltac:(lia) Hh). assert (P0 := theta_at 0%nat d ltac:(lia) Hh). assert (P1 := theta_at 1%nat d ltac:(lia) Hh).
        assert (R0 := tref_at 0%nat ltac:(lia) Hw). assert (R1 := tref_at 1%nat ltac:(lia) Hw). cbn [Nat.add] in V0, V1, P0, P1, R0, R1.
        rewrite V0, V1, P0, P1, R0, R1, !t0_side, (latitude_odd k w g U Hg Od). cbn [dims f_om f_dz f_h f_prefac]. rewrite (prefac_odd k w g Hg), (dz_odd k w g Hg). reflexivity.
      - intros H. apply ep4_out. intros [A _]. apply H. apply (wave_row_iff k w g U Hg Od). exact A.
    Qed.
  End Point.
End Terms.
