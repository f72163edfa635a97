(** Proofs of the formulas, continued: momentum fluxes, vertical means, divergences. *)
From Verif Require Import Base BaseFacts Spec SpecFacts Grid GridSpec GridProofs Flux FluxSpec FluxProofs Pipeline PipelineSpec PipelineProofs RefStates DirInv Utilities UtilSpec UtilitiesProofs RefStatesProofs
  Object ObjectSpec ObjectProofs ObjectProofs2 ObjectProofs3 ObjectProofs4 FormulaSpec FormulaProofs FormulaProofs2 FormulaProofs3.
From Coq Require Import ZifyNat FunctionalExtensionality.
Ltac Zify.zify_post_hook ::= Z.to_euclidean_division_equations.
Open Scope R_scope.

Section Means.
  Variables (lib : library) (k : class) (w : qgargs) (nc : field3) (g : grid) (t : tables).
  Hypothesis U : usable k w.
  Hypothesis Hg : grid_of w = Done g.
  Hypothesis Od : Nat.even (w_nlat w) = false.
  Local Notation o := (object_of k w g).
  Local Notation c := (ob_conf o).
  Local Notation x := (analyse lib k w o nc).
  Local Notation h := (half w).
  Local Notation D := (dims c).
  Local Notation side := (side lib k w nc g).
  Hypothesis T : are_stored x c t.
  Ltac tbl := destruct T as (T1 & T2 & T3 & T4 & T5 & T6 & T7 & T8 & T9 & T10 & T11 & T12 & T13 & T14 & T15 & T16 & T17 & T18 & T19 & T20 & T21 & T22 & T23 & T24 & T25).

  (** ** momentum fluxes at the two neighbouring rows *)
  Local Notation flux_at := (FormulaSpec.flux_at w t).
  Lemma mflux_at north d l i : (w_nh w = true -> north = true) -> (i < w_nlon w)%nat -> (l < result_levels w)%nat -> (boundary k <= d <= h)%nat ->
    momentum_flux D (i_uu (side north)) (i_vv (side north)) (i_uref (side north) (d + 1 - boundary k)%nat (l + 1)%nat) (i + 1)%nat (d + 1)%nat (l + 1)%nat = sign north * flux_at north d l i.
  Proof.
    intros Hn Hi Hl Hd. unfold momentum_flux, FormulaSpec.flux_at, momentum. rewrite (u_at lib k w nc g t U Hg Od T) by (assumption || lia).
    rewrite (v_at lib k w nc g t U Hg Od T north i Hi l d Hl) by lia. rewrite (side_uref lib k w nc g U Hg Od north i l Hi Hl d Hd Hn), (latitude_odd k w g U Hg Od). tbl. rewrite T6. ring.
  Qed.
  Lemma momentum_formula north l i d : (i < w_nlon w)%nat -> (l < result_levels w)%nat -> reported w north d -> wave_row k w d -> inner_level w l -> (boundary k + 1 <= d)%nat ->
    t_ep2 t l (result_row w north d) i = flux_at north (if north then d + 1 else d - 1) l i /\ t_ep3 t l (result_row w north d) i = flux_at north (if north then d - 1 else d + 1) l i.
  Proof.
    intros Hi Hl Hd Hw Hv Hb. assert (Hn := reported_side w north d Hd). apply (wave_row_iff k w g U Hg Od) in Hw as Hw'. apply (inner_level_iff k w g U Hg Od) in Hv as Hv'.
    assert (Sz := hemi_sizes k w g U Hg Od). destruct (dims_odd k w g U Hg Od) as (E1 & E2 & E3 & E4 & E5 & E6). assert (Hi' : (1 <= i + 1 <= imax D)%nat) by (rewrite E1; lia).
    assert (Hb' : (jb D + 2 <= d + 1)%nat) by (rewrite E5; lia). unfold wave_row in Hw. unfold inner_level in Hv.
    assert (A : forall b, (w_nh w = true -> b = true) -> k_ep2 c (side b) (i + 1)%nat (d + 1)%nat (l + 1)%nat = sign b * flux_at b (d + 1) l i).
    { intros b Hnb. unfold k_ep2. rewrite (ep2_main D eq_refl Sz _ _ _ _ _ _ Hi' Hw' Hv'). rewrite E5. apply mflux_at; try assumption; lia. }
    assert (B : forall b, (w_nh w = true -> b = true) -> k_ep3 c (side b) (i + 1)%nat (d + 1)%nat (l + 1)%nat = sign b * flux_at b (d - 1) l i).
    { intros b Hnb. unfold k_ep3. rewrite (ep3_main D eq_refl Sz _ _ _ _ _ _ Hi' Hw' Hv' Hb'). rewrite E5.
      assert (M := mflux_at b (d - 1) l i Hnb Hi Hl ltac:(lia)). replace (d - 1 + 1)%nat with d in M by lia. replace (d + 1 - 1)%nat with d by lia. exact M. }
    tbl. rewrite T23, T24, (layer_sides lib k w nc g). cbn [layerwise_terms l_ep2 l_ep3]. rewrite !(global3_at k w g U Hg Od) by exact Hd. toR.
    destruct north; rewrite A, B by exact Hn; unfold sign; split; ring.
  Qed.

  (** ** vertical means *)
  Lemma mean_ext y y' : (forall l, (l < result_levels w)%nat -> y l = y' l) -> vertical_mean w y = vertical_mean w y'.
  Proof. intros H. unfold vertical_mean. f_equal. apply Sum_ext. intros l Hl. rewrite H by lia. reflexivity. Qed.
  Lemma mean_plus y y' : vertical_mean w (fun l => y l + y' l) = vertical_mean w y + vertical_mean w y'.
  Proof. unfold vertical_mean. rewrite <- Rdiv_plus_distr, <- Sum_plus. f_equal. apply Sum_ext. intros. ring. Qed.
  Lemma mean_opp y : vertical_mean w (fun l => - y l) = - vertical_mean w y.
  Proof. unfold vertical_mean. replace (Sum 1 (result_levels w) (fun l => - y l * exp (- result_height w l / w_H w) * thickness w)) with (-1 * Sum 1 (result_levels w) (fun l => y l * exp (- result_height w l / w_H w) * thickness w)); [unfold Rdiv; ring|]. rewrite <- Sum_scal. apply Sum_ext. intros; ring. Qed.
  Section Maps.
    Variables (north : bool) (i d : nat).
    Hypothesis Hi : (i < w_nlon w)%nat.
    Hypothesis Hd : reported w north d.
    Local Notation row := (result_row w north d).
    Lemma mean_layer (K : kin R -> arr3 R) (y : nat -> R) : (forall l, (l < result_levels w)%nat -> y l = K (side north) (i + 1)%nat (d + 1)%nat (l + 1)%nat) ->
      global2 c (avg c (K (side true))) (avg c (K (side false))) (i + 1)%nat (row + 1)%nat = vertical_mean w y.
    Proof. intros H. rewrite (map_at lib k w nc g U Hg Od (fun a => avg c (K a)) north i d Hd). rewrite (avg_odd k w g U Hg Od). apply mean_ext. intros l Hl. symmetry. apply H. exact Hl. Qed.
    Lemma f1_mean : t_f1 t row i = vertical_mean w (fun l => t_ua1 t l row i).
    Proof. tbl. rewrite T8, (baro_sides lib k w nc g). cbn [barotropic_terms b_ua1]. apply mean_layer. intros l _. rewrite T20, (layer_sides lib k w nc g). cbn [layerwise_terms l_ua1]. apply (layer_at lib k w nc g U Hg Od). exact Hd. Qed.
    Lemma f2_mean : t_f2 t row i = vertical_mean w (fun l => t_ua2 t l row i).
    Proof. tbl. rewrite T9, (baro_sides lib k w nc g). cbn [barotropic_terms b_ua2]. apply mean_layer. intros l _. rewrite T21, (layer_sides lib k w nc g). cbn [layerwise_terms l_ua2]. apply (layer_at lib k w nc g U Hg Od). exact Hd. Qed.
    Lemma f3_mean : t_f3 t row i = vertical_mean w (fun l => t_ep1 t l row i).
    Proof. tbl. rewrite T10, (baro_sides lib k w nc g). cbn [barotropic_terms b_ep1]. apply mean_layer. intros l _. rewrite T22, (layer_sides lib k w nc g). cbn [layerwise_terms l_ep1]. apply (layer_at lib k w nc g U Hg Od). exact Hd. Qed.
    Lemma lwa_mean : 0 <= w_a w -> t_lwa_baro t row i = vertical_mean w (fun l => t_lwa t l row i).
    Proof.
      intros Ha. transitivity (vertical_mean w (fun l => k_astar1 c (side north) (i + 1)%nat (d + 1)%nat (l + 1)%nat + k_astar2 c (side north) (i + 1)%nat (d + 1)%nat (l + 1)%nat)).
      - tbl. rewrite T16, (baro_sides lib k w nc g). cbn [barotropic_terms b_lwa]. rewrite (map_at lib k w nc g U Hg Od (k_lwa_baro c) north i d Hd). unfold k_lwa_baro. rewrite !(avg_odd k w g U Hg Od), mean_plus. reflexivity.
      - apply mean_ext. intros l Hl. symmetry. apply (lwa_layer lib k w nc g t U Hg Od T); assumption.
    Qed.
    Lemma u_mean : t_u_baro t row i = vertical_mean w (fun l => t_u t l (grid_row w north d) i).
    Proof.
      tbl. rewrite T17, (baro_sides lib k w nc g). cbn [barotropic_terms b_u]. rewrite (map_at lib k w nc g U Hg Od (k_u_baro c) north i d Hd). unfold k_u_baro, py_u_baro.
      change (column_average D (p_height c)) with (avg c). rewrite (avg_odd k w g U Hg Od). apply mean_ext. intros l Hl.
      destruct (dims_odd k w g U Hg Od) as (_ & -> & _ & -> & _). replace (d + 1 + (2 * h + 1 - (h + 1)))%nat with (h + d + 1)%nat by lia.
      rewrite (side_uu lib k w nc g U Hg Od) by (assumption || apply Hd). rewrite T2. reflexivity.
    Qed.
    Lemma nc_mean :
      (wave_row k w d -> t_nc_baro t row i = sign north * vertical_mean w (fun l => if Nat.eqb l (result_levels w - 1) then 0
         else across w (pole_pv w t north l i) (pole_ref w t north l d) d (fun d' => nc l (grid_row w north d') i * arc w d'))) /\
      (~ wave_row k w d -> t_nc_baro t row i = 0).
    Proof.
      assert (E : t_nc_baro t row i = sign north * vertical_mean w (fun l => k_ncforce c (side north) (i + 1)%nat (d + 1)%nat (l + 1)%nat)).
      { tbl. rewrite T18, (baro_sides lib k w nc g). cbn [barotropic_terms b_nc]. rewrite (global2_at k w g U Hg Od) by exact Hd. toR. destruct north; rewrite (avg_odd k w g U Hg Od); unfold sign; ring. }
      rewrite E. unfold k_ncforce, ncforce3d. split.
      - intros Hw. f_equal. unfold vertical_mean. f_equal. apply Sum_ext. intros l [Hl1 Hl]. f_equal. f_equal. destruct (Nat.eqb_spec l (result_levels w - 1)) as [He|He].
        + apply fill_out. apply (not_analysed k w g U Hg Od). unfold inner_level. lia.
        + assert (Hv : inner_level w l) by (unfold inner_level; lia). apply (wave_row_iff k w g U Hg Od) in Hw as Hw'. apply (inner_level_iff k w g U Hg Od) in Hv as Hv'. rewrite fill_in by assumption.
          rewrite sum_ncforce_R by (destruct (dims_odd k w g U Hg Od) as (_ & _ & _ & -> & _); unfold wave_row in Hw; lia).
          apply (across_displaced lib k w nc g t U Hg Od T north l i d Hi Hl Hd); [apply Hd|]. intros d' Hd'. rewrite (element_odd k w g U Hg Od), (field_row_odd k w g U Hg Od), (side_nc lib k w nc g U Hg Od) by assumption. reflexivity.
      - intros H. match goal with |- sign north * vertical_mean w ?y = 0 => assert (Z : forall l, y l = 0) by (intros l; apply fill_out, (not_analysed k w g U Hg Od); tauto); set (y' := y) in * end.
        assert (Z' : vertical_mean w y' = 0); [|rewrite Z'; ring]. unfold vertical_mean. rewrite Sum_zero by (intros l _; rewrite (Z l); ring). unfold Rdiv. ring.
    Qed.
    Lemma lambda_sum : t_lambda t row i = t_f1 t row i + t_f2 t row i + t_f3 t row i.
    Proof. tbl. rewrite T8, T9, T10, T14. reflexivity. Qed.
  End Maps.
End Means.
