(** Proofs of the formulas, continued: the tables read from an object, wave activity and the flux terms. *)
From Verif Require Import Base BaseFacts Spec SpecFacts Grid GridSpec GridProofs Flux FluxSpec FluxProofs Pipeline PipelineSpec PipelineProofs RefStates DirInv Utilities UtilSpec UtilitiesProofs
  Object ObjectSpec ObjectProofs ObjectProofs2 ObjectProofs3 ObjectProofs4 FormulaSpec FormulaProofs.
From Coq Require Import ZifyNat FunctionalExtensionality.
Ltac Zify.zify_post_hook ::= Z.to_euclidean_division_equations.
Open Scope R_scope.

(** what the tables are, in terms of the stored arrays *)
Definition are_stored (y : stores) (c : pconf R) (t : tables) : Prop :=
  (forall l row i, t_qgpv t l row i = s_q y (i + 1)%nat (row + 1)%nat (l + 1)%nat) /\ (forall l row i, t_u t l row i = u_ (s_f y) (i + 1)%nat (row + 1)%nat (l + 1)%nat) /\
  (forall l row i, t_v t l row i = v_ (s_f y) (i + 1)%nat (row + 1)%nat (l + 1)%nat) /\ (forall l row i, t_theta t l row i = theta_ (s_f y) (i + 1)%nat (row + 1)%nat (l + 1)%nat) /\
  (forall l row, t_qref t l row = qref_correct_unit c (s_refs y) (row + 1)%nat (l + 1)%nat) /\ (forall l row, t_uref t l row = uref_ (s_refs y) (row + 1)%nat (l + 1)%nat) /\
  (forall l row, t_ptref t l row = ptref_ (s_refs y) (row + 1)%nat (l + 1)%nat) /\
  (forall row i, t_f1 t row i = b_ua1 (s_baro y) (i + 1)%nat (row + 1)%nat) /\ (forall row i, t_f2 t row i = b_ua2 (s_baro y) (i + 1)%nat (row + 1)%nat) /\
  (forall row i, t_f3 t row i = b_ep1 (s_baro y) (i + 1)%nat (row + 1)%nat) /\ (forall row i, t_conv t row i = s_conv y (i + 1)%nat (row + 1)%nat) /\
  (forall row i, t_div t row i = s_div y (i + 1)%nat (row + 1)%nat) /\ (forall row i, t_heat t row i = b_ep4 (s_baro y) (i + 1)%nat (row + 1)%nat) /\
  (forall row i, t_lambda t row i = s_lambda y (i + 1)%nat (row + 1)%nat) /\ (forall row i, t_phi t row i = s_phi y (i + 1)%nat (row + 1)%nat) /\
  (forall row i, t_lwa_baro t row i = b_lwa (s_baro y) (i + 1)%nat (row + 1)%nat) /\ (forall row i, t_u_baro t row i = b_u (s_baro y) (i + 1)%nat (row + 1)%nat) /\
  (forall row i, t_nc_baro t row i = b_nc (s_baro y) (i + 1)%nat (row + 1)%nat) /\ (forall l row i, t_lwa t l row i = b_lwa3 (s_baro y) (i + 1)%nat (row + 1)%nat (l + 1)%nat) /\
  (forall l row i, t_ua1 t l row i = l_ua1 (s_layer y) (i + 1)%nat (row + 1)%nat (l + 1)%nat) /\ (forall l row i, t_ua2 t l row i = l_ua2 (s_layer y) (i + 1)%nat (row + 1)%nat (l + 1)%nat) /\
  (forall l row i, t_ep1 t l row i = l_ep1 (s_layer y) (i + 1)%nat (row + 1)%nat (l + 1)%nat) /\ (forall l row i, t_ep2 t l row i = l_ep2 (s_layer y) (i + 1)%nat (row + 1)%nat (l + 1)%nat) /\
  (forall l row i, t_ep3 t l row i = l_ep3 (s_layer y) (i + 1)%nat (row + 1)%nat (l + 1)%nat) /\
  exists s, s_stretch y = Some s /\ forall l row i, t_stretch t l row i = s (i + 1)%nat (p_nlat c - rows c + (row + 1))%nat (l + 1)%nat.

Section Tables.
  Variables (k : class) (w : qgargs) (g : grid).
  Hypothesis U : usable k w.
  Hypothesis Hg : grid_of w = Done g.
  Hypothesis Od : Nat.even (w_nlat w) = false.
  Local Notation o := (object_of k w g).
  Lemma reads_odd (y : stores) t : reads (read w o y) t -> are_stored y (ob_conf o) t.
  Proof.
    unfold reads, are_stored. destruct t as [a1 a2 a3 a4 a5 a6 a7 a8 a9 a10 a11 a12 a13 a14 a15 a16 a17 a18 a19 a20 a21 a22 a23 a24 a25].
    cbn [read out_qgpv out_u out_v out_theta out_qref out_uref out_ptref out_f1 out_f2 out_f3 out_conv out_div out_heat out_lambda out_phi out_lwa_baro out_u_baro out_nc_baro out_lwa out_ua1 out_ua2 out_ep1 out_ep2 out_ep3 out_stretch
      t_qgpv t_u t_v t_theta t_qref t_uref t_ptref t_f1 t_f2 t_f3 t_conv t_div t_heat t_lambda t_phi t_lwa_baro t_u_baro t_nc_baro t_lwa t_ua1 t_ua2 t_ep1 t_ep2 t_ep3 t_stretch].
    rewrite !(field_odd k w g U Hg _ _ Od), !(map_odd k w g U Hg Od), !(profile_odd k w g U Hg Od).
    intros (H1 & H2 & H3 & H4 & H5 & H6 & H7 & H8 & H9 & H10 & H11 & H12 & H13 & H14 & H15 & H16 & H17 & H18 & H19 & H20 & H21 & H22 & H23 & H24 & H25).
    injection H1 as <-. injection H2 as <-. injection H3 as <-. injection H4 as <-. injection H5 as <-. injection H6 as <-. injection H7 as <-. injection H8 as <-.
    injection H9 as <-. injection H10 as <-. injection H11 as <-. injection H12 as <-. injection H13 as <-. injection H14 as <-. injection H15 as <-. injection H16 as <-.
    injection H17 as <-. injection H18 as <-. injection H19 as <-. injection H20 as <-. injection H21 as <-. injection H22 as <-. injection H23 as <-. injection H24 as <-.
    do 24 (split; [reflexivity|]).
    destruct (s_stretch y) as [s|]; [|discriminate H25]. rewrite (field_odd k w g U Hg _ _ Od) in H25. injection H25 as <-. exists s. split; reflexivity.
  Qed.
  Lemma session_tables lib nc x t : session lib k w nc = Done x -> reads x t -> exists g', grid_of w = Done g' /\ are_stored (analyse lib k w (object_of k w g') nc) (ob_conf (object_of k w g')) t.
  Proof.
    intros Hs Ht. exists g. split; [exact Hg|]. apply reads_odd. assert (E := session_eq lib k w nc g Hg). rewrite Hs in E.
    destruct (out_qgpv (read w o (analyse lib k w o nc))); [|discriminate E]. injection E as ->. exact Ht.
  Qed.
End Tables.
Lemma session_stored lib k w nc x t : usable k w -> Nat.even (w_nlat w) = false -> session lib k w nc = Done x -> reads x t ->
  exists g, grid_of w = Done g /\ are_stored (analyse lib k w (object_of k w g) nc) (ob_conf (object_of k w g)) t.
Proof.
  intros U Od Hs Ht. assert (E : (exists g, grid_of w = Done g) \/ exists e, grid_of w = Raise e) by (destruct (grid_of w); eauto).
  destruct E as [[g Hg]|[e He]]; [exact (session_tables k w g U Hg Od lib nc x t Hs Ht)|]. rewrite (session_refused lib k w nc e He) in Hs. discriminate.
Qed.

(** ** wave activity and fluxes *)
Section Waves.
  Variables (lib : library) (k : class) (w : qgargs) (nc : field3) (g : grid) (t : tables).
  Hypothesis U : usable k w.
  Hypothesis Hg : grid_of w = Done g.
  Hypothesis Od : Nat.even (w_nlat w) = false.
  Local Notation o := (object_of k w g).
  Local Notation c := (ob_conf o).
  Local Notation x := (analyse lib k w o nc).
  Local Notation h := (half w).
  Local Notation D := (dims c).
  Local Notation side := (side lib k w nc g).
  Hypothesis T : are_stored x c t.

  (** the two calls, as in [analyse] *)
  Lemma baro_sides : s_baro x = barotropic_terms c (side true) (side false). Proof. reflexivity. Qed.
  Lemma layer_sides : s_layer x = layerwise_terms c (side true) (side false). Proof. reflexivity. Qed.

  Local Notation pole_pv := (FormulaSpec.pole_pv w t).
  Local Notation pole_ref := (FormulaSpec.pole_ref w t).
  Section Point.
    Variables (north : bool) (l i d : nat).
    Hypothesis Hi : (i < w_nlon w)%nat.
    Hypothesis Hl : (l < result_levels w)%nat.
    Hypothesis Hd : reported w north d.
    Local Notation S := (side north).
    Lemma pv_at d' : (d' <= h)%nat -> i_pv S (i + 1)%nat (field_row D (d' + 1)) (l + 1)%nat = pole_pv north l i d'.
    Proof. intros H. rewrite (field_row_odd k w g U Hg Od), (side_pv lib k w nc g U Hg Od) by assumption. unfold FormulaSpec.pole_pv. destruct T as (-> & _). reflexivity. Qed.
    Lemma ref_at : i_qref S (d + 1)%nat (l + 1)%nat = pole_ref north l d.
    Proof. rewrite (side_qref lib k w nc g U Hg Od north i l Hi Hl) by (try assumption; apply Hd). unfold FormulaSpec.pole_ref. destruct T as (_ & _ & _ & _ & -> & _). reflexivity. Qed.
    Lemma astar_sum : wave_row k w d -> inner_level w l ->
      k_astar1 c S (i + 1)%nat (d + 1)%nat (l + 1)%nat + k_astar2 c S (i + 1)%nat (d + 1)%nat (l + 1)%nat = contour w (pole_pv north l i) (pole_ref north l d) d.
    Proof.
      intros Hw Hv. unfold k_astar1, k_astar2. apply (wave_row_iff k w g U Hg Od) in Hw as Hw'. apply (inner_level_iff k w g U Hg Od) in Hv as Hv'.
      destruct (astar_in D (i_pv S) (i_qref S) (i + 1)%nat (d + 1)%nat (l + 1)%nat Hw' Hv') as [-> ->]. cbn [dims is_nhem].
      unfold high_pv_south, low_pv_north, contour. rewrite ref_at. destruct (dims_odd k w g U Hg Od) as (_ & _ & _ & -> & _). unfold wave_row in Hw.
      change 1%nat with (0 + 1)%nat at 1. rewrite !Sum_1. f_equal; apply Sum_ext; intros d' Hd'; rewrite pv_at, (element_odd k w g U Hg Od) by lia; reflexivity.
    Qed.
    Lemma astar_none : ~ (wave_row k w d /\ inner_level w l) -> k_astar1 c S (i + 1)%nat (d + 1)%nat (l + 1)%nat = 0 /\ k_astar2 c S (i + 1)%nat (d + 1)%nat (l + 1)%nat = 0.
    Proof. intros H. apply astar_out. rewrite (wave_row_iff k w g U Hg Od), (inner_level_iff k w g U Hg Od). exact H. Qed.
  End Point.
  Lemma wave_dec d l : (wave_row k w d /\ inner_level w l) \/ ~ (wave_row k w d /\ inner_level w l).
  Proof. unfold wave_row, inner_level. lia. Qed.
  Lemma arc_nonneg d : 0 <= w_a w -> (d <= h)%nat -> 0 <= arc w d.
  Proof.
    intros Ha Hd. rewrite <- (element_odd k w g U Hg Od). destruct (dims_odd k w g U Hg Od) as (_ & E2 & _ & E4 & _). destruct (n_odd k w U Od).
    apply element_nonneg; rewrite ?E2, ?E4; try lia. exact Ha.
  Qed.
  Lemma contour_nonneg q Q d : 0 <= w_a w -> (d <= h)%nat -> 0 <= contour w q Q d.
  Proof.
    intros Ha Hd. unfold contour. apply Rplus_le_le_0_compat; apply Sum_nonneg; intros d' Hd'; (apply Rmult_le_pos; [apply ppart_nonneg|apply arc_nonneg; [exact Ha|lia]]).
  Qed.

  Lemma lwa_formula north l i d : 0 <= w_a w -> (i < w_nlon w)%nat -> (l < result_levels w)%nat -> reported w north d ->
    (wave_row k w d /\ inner_level w l -> t_lwa t l (result_row w north d) i = contour w (pole_pv north l i) (pole_ref north l d) d) /\
    (~ (wave_row k w d /\ inner_level w l) -> t_lwa t l (result_row w north d) i = 0).
  Proof.
    intros Ha Hi Hl Hd. destruct T as (_ & _ & _ & _ & _ & _ & _ & _ & _ & _ & _ & _ & _ & _ & _ & _ & _ & _ & TL & _). rewrite TL, baro_sides. cbn [barotropic_terms b_lwa3].
    rewrite (global3_at k w g U Hg Od) by exact Hd. toR.
    assert (A := astar_sum north l i d Hi Hl Hd). assert (B := astar_none north l i d).
    split; intros H.
    - specialize (A (proj1 H) (proj2 H)). destruct north; rewrite A; apply Rabs_right, Rle_ge, contour_nonneg; try exact Ha; apply Hd.
    - destruct (B H) as [B1 B2]. destruct north; rewrite B1, B2, Rplus_0_r; apply Rabs_R0.
  Qed.
  Lemma lwa_layer north l i d : 0 <= w_a w -> (i < w_nlon w)%nat -> (l < result_levels w)%nat -> reported w north d ->
    t_lwa t l (result_row w north d) i = k_astar1 c (side north) (i + 1)%nat (d + 1)%nat (l + 1)%nat + k_astar2 c (side north) (i + 1)%nat (d + 1)%nat (l + 1)%nat.
  Proof.
    intros Ha Hi Hl Hd. destruct (lwa_formula north l i d Ha Hi Hl Hd) as [A B]. destruct (wave_dec d l) as [H|H].
    - rewrite (A H). symmetry. apply astar_sum; try assumption; apply H.
    - rewrite (B H). destruct (astar_none north l i d H) as [-> ->]. lra.
  Qed.
End Waves.
