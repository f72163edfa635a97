(** Proofs of the formulas, continued: convergence, divergence, meridional flux vector, stretching term. *)
From Verif Require Import Base BaseFacts Spec SpecFacts Grid GridSpec GridProofs Flux FluxSpec FluxProofs Pipeline PipelineSpec PipelineProofs RefStates DirInv Utilities UtilSpec UtilitiesProofs RefStatesProofs
  Object ObjectSpec ObjectProofs ObjectProofs2 ObjectProofs3 ObjectProofs4 FormulaSpec FormulaProofs FormulaProofs2 FormulaProofs3 FormulaProofs4.
From Coq Require Import ZifyNat FunctionalExtensionality.
Ltac Zify.zify_post_hook ::= Z.to_euclidean_division_equations.
Open Scope R_scope.

Section Budget.
  Variables (lib : library) (k : class) (w : qgargs) (nc : field3) (g : grid) (t : tables).
  Hypothesis U : usable k w.
  Hypothesis Hg : grid_of w = Done g.
  Hypothesis Od : Nat.even (w_nlat w) = false.
  Local Notation o := (object_of k w g).
  Local Notation c := (ob_conf o).
  Local Notation x := (analyse lib k w o nc).
  Local Notation h := (half w).
  Local Notation D := (dims c).
  Local Notation side := (side lib k w nc g).
  Hypothesis T : are_stored x c t.
  Ltac tbl := destruct T as (T1 & T2 & T3 & T4 & T5 & T6 & T7 & T8 & T9 & T10 & T11 & T12 & T13 & T14 & T15 & T16 & T17 & T18 & T19 & T20 & T21 & T22 & T23 & T24 & T25).

  Lemma mean_scal y a : vertical_mean w (fun l => y l * a) = vertical_mean w y * a.
  Proof.
    unfold vertical_mean. replace (Sum 1 (result_levels w) (fun l => y l * a * exp (- result_height w l / w_H w) * thickness w)) with (a * Sum 1 (result_levels w) (fun l => y l * exp (- result_height w l / w_H w) * thickness w)); [unfold Rdiv; ring|].
    rewrite <- Sum_scal. apply Sum_ext. intros; ring.
  Qed.
  Lemma dphi_odd : p_dphi c = step w.
  Proof.
    change (p_dphi c) with (g_dphi g). destruct (grid_inv w g Hg) as (_ & _ & _ & _ & _ & _ & -> & _). destruct (lat_facts k w g U Hg) as (_ & L & _). unfold analysis_rows in L. rewrite Od in L. rewrite L. unfold step.
    destruct (n_odd k w U Od) as [N N2]. assert (0 < INR (w_nlat w - 1)) by (apply lt_0_INR; lia). field. lra.
  Qed.
  Lemma dlambda_odd : p_dlambda c = 2 * PI / INR (w_nlon w).
  Proof.
    change (p_dlambda c) with (g_dlambda g). destruct (grid_inv w g Hg) as (_ & _ & _ & _ & _ & _ & _ & -> & _). destruct (limits k w U) as (L & _). assert (0 < INR (w_nlon w)) by (apply lt_0_INR; lia). field. lra.
  Qed.
  Section Point.
    Variables (north : bool) (i d : nat).
    Hypothesis Hi : (i < w_nlon w)%nat.
    Hypothesis Hd : reported w north d.
    Local Notation row := (result_row w north d).
    Local Notation grow := (grid_row w north d).
    Lemma row_shift : (if w_nh w then (h + row)%nat else row) = grow /\ (row < rows c)%nat.
    Proof.
      destruct (sizes_odd k w g U Hg Od) as (_ & _ & _ & _ & _ & _ & _ & ->). destruct Hd as [H1 H2]. unfold result_row. destruct (w_nh w); [subst; unfold grid_row; lia|]. unfold grid_row in *. destruct north; lia.
    Qed.
    Lemma out_clat_odd : out_clat c row = weight w grow.
    Proof.
      destruct (sizes_odd k w g U Hg Od) as (_ & S2 & _ & S4 & _ & _ & S7 & _). unfold out_clat. rewrite S2, S4, S7, !(clat_odd k w g U Hg Od).
      destruct row_shift as [E _]. destruct (w_nh w); f_equal; lia.
    Qed.
    Lemma div_formula : t_div t row i = vertical_mean w (fun l => t_ep2 t l row i - t_ep3 t l row i) / (2 * w_a w * step w * weight w grow).
    Proof.
      assert (E : b_ep2 (s_baro x) (i + 1)%nat (row + 1)%nat - b_ep3 (s_baro x) (i + 1)%nat (row + 1)%nat = vertical_mean w (fun l => t_ep2 t l row i - t_ep3 t l row i)).
      { tbl. rewrite (baro_sides lib k w nc g). cbn [barotropic_terms b_ep2 b_ep3]. rewrite !(global2_at k w g U Hg Od) by exact Hd.
        rewrite (mean_ext w _ (fun l => global3 c (k_ep2 c (side true)) (fun i j m => - k_ep3 c (side false) i j m) (i + 1)%nat (row + 1)%nat (l + 1)%nat
          + - global3 c (k_ep3 c (side true)) (fun i j m => - k_ep2 c (side false) i j m) (i + 1)%nat (row + 1)%nat (l + 1)%nat)).
        - rewrite (mean_plus w), (mean_opp w). toR.
          rewrite (mean_ext w (fun l => global3 c _ _ _ _ _) (fun l => if north then k_ep2 c (side true) (i + 1)%nat (d + 1)%nat (l + 1)%nat else - k_ep3 c (side false) (i + 1)%nat (d + 1)%nat (l + 1)%nat)) by (intros l Hl; apply (global3_at k w g U Hg Od); exact Hd).
          rewrite (mean_ext w (fun l => global3 c _ _ _ _ _) (fun l => if north then k_ep3 c (side true) (i + 1)%nat (d + 1)%nat (l + 1)%nat else - k_ep2 c (side false) (i + 1)%nat (d + 1)%nat (l + 1)%nat)) by (intros l Hl; apply (global3_at k w g U Hg Od); exact Hd).
          destruct north; rewrite !(avg_odd k w g U Hg Od), ?(mean_opp w); ring.
        - intros l Hl. rewrite T23, T24, (layer_sides lib k w nc g). reflexivity. }
      rewrite <- E. tbl. rewrite T12. change (s_div x) with (div_momentum_flux c (s_baro x)). unfold div_momentum_flux. toR. replace (row + 1 - 1)%nat with row by lia. rewrite out_clat_odd, dphi_odd. reflexivity.
    Qed.
    Lemma conv_formula : t_conv t row i =
      (if Rlt_dec (1 / 100000) (weight w grow) then - (t_lambda t row (eastward w i) - t_lambda t row (westward w i)) / (2 * w_a w * weight w grow * (2 * PI / INR (w_nlon w)))
       else t_lambda t row (eastward w i) - t_lambda t row (westward w i)).
    Proof.
      tbl. rewrite T11. change (s_conv x) with (conv_zonal_flux c (s_baro x)). unfold conv_zonal_flux. replace (row + 1 - 1)%nat with row by lia. replace (i + 1 - 1)%nat with i by lia.
      destruct (sizes_odd k w g U Hg Od) as (S1 & _). destruct (limits k w U) as (L & _). rewrite S1, zc_value by assumption. rewrite out_clat_odd, dlambda_odd. change (p_a c) with (w_a w). change (p_tol c) with (1 / 100000).
      rewrite Rabs_pos_eq by (unfold weight; apply Rabs_pos). rewrite !T14. change (s_lambda x) with (zonal_flux (s_baro x)).
      change (UtilSpec.east (w_nlon w) i) with (eastward w i). change (UtilSpec.west (w_nlon w) i) with (westward w i).
      destruct Rlt_dec; [|ring]. set (dl := 2 * PI / INR (w_nlon w)). replace (w_a w * weight w grow * 2 * dl) with (2 * w_a w * weight w grow * dl) by ring.
      generalize (2 * w_a w * weight w grow * dl). intros y. unfold zonal_flux. unfold Rdiv. toR. ring.
    Qed.
    Lemma phi_formula : t_phi t row i = - vertical_mean w (fun l => (t_u t l grow i - t_uref t l row) * t_v t l grow i) * weight w grow.
    Proof.
      transitivity (vertical_mean w (fun l => - ((t_u t l grow i - t_uref t l row) * t_v t l grow i * weight w grow))).
      - tbl. rewrite T15. change (s_phi x) with (flux_vector_phi c (s_f x) (s_refs x)). unfold flux_vector_phi. rewrite (avg_odd k w g U Hg Od). apply (mean_ext w). intros l Hl.
        destruct (sizes_odd k w g U Hg Od) as (_ & _ & _ & S4 & _ & _ & S7 & _). rewrite S4, S7. replace (h + 1 - 1)%nat with h by lia. rewrite T2, T3, T6, (clat_odd k w g U Hg Od). destruct row_shift as [E _].
        replace ((if w_nh w then h else 0) + (row + 1))%nat with (grow + 1)%nat by (destruct (w_nh w); lia). replace (grow + 1 - 1)%nat with grow by lia. reflexivity.
      - rewrite (mean_opp w), mean_scal. ring.
    Qed.
    Local Notation stability := (FormulaSpec.stability k w lib north d).
    Lemma stability_odd l : stability_temp (p_eq c) (stat_n (s_av x)) (stat_s (s_av x)) l grow = stability l.
    Proof.
      destruct (sizes_odd k w g U Hg Od) as (_ & _ & _ & -> & _). destruct (means_odd lib k w nc g t U Hg Od T l) as (_ & _ & M1 & M2). unfold stability_temp, FormulaSpec.stability. rewrite M1, M2. toR. replace (h + 1 - 1)%nat with h by lia.
      destruct Hd as [H1 _]. unfold grid_row. destruct north.
      - destruct (Nat.ltb_spec (h + d) h); [lia|]. destruct (Nat.eqb_spec (h + d) h), (Nat.eqb_spec d 0); try lia; lra.
      - destruct (Nat.ltb_spec (h - d) h), (Nat.eqb_spec (h - d) h), (Nat.eqb_spec d 0); try lia; lra.
    Qed.
    Lemma stretch_formula l : (l < result_levels w)%nat -> t_stretch t l row i =
      - (2 * w_om w * sin (w_ylat w grow * PI / 180) * exp (result_height w l / w_H w)
         * vertical_derivative w (fun l' => exp (- result_height w l' / w_H w) * (t_v t l' grow i * (t_theta t l' grow i - t_ptref t l' row) * weight w grow) / stability l') l).
    Proof.
      intros Hl. tbl. destruct T25 as (s & Hs & Ht). rewrite Ht. clear Ht. change (s_stretch x) with (stretch_term c (s_f x) (s_av x) (s_refs x)) in Hs. unfold stretch_term in Hs.
      destruct (sizes_odd k w g U Hg Od) as (_ & S2 & S3 & S4 & _ & _ & S7 & S8). destruct (limits k w U) as (_ & L3 & _).
      unfold z_derivative_of_prod in Hs. match type of Hs with context [to_be_diff _ _ ?y] => set (G := y) in Hs end.
      match type of Hs with context [if ?b then _ else _] => assert (B : b = true) by (rewrite S2, S3, S4; apply andb_true_intro; split; [apply Nat.eqb_eq|apply Nat.leb_le]; lia); rewrite B in Hs; clear B end.
      cbn [option_map] in Hs. injection Hs as <-. replace (l + 1 - 1)%nat with l by lia. replace (i + 1 - 1)%nat with i by lia.
      destruct row_shift as [E E']. replace (p_nlat c - rows c + (row + 1) - 1)%nat with grow by (rewrite S2, S8; destruct (w_nh w); lia).
      assert (Q : forall m, to_be_diff (stability_temp (p_eq c) (stat_n (s_av x)) (stat_s (s_av x))) (fun m => exp (- p_height c m / p_h c)) G m grow i
        = exp (- result_height w m / w_H w) * (t_v t m grow i * (t_theta t m grow i - t_ptref t m row) * weight w grow) / stability m).
      { intros m. unfold to_be_diff. rewrite stability_odd, (height_odd k w g Hg). subst G. cbv beta. rewrite T3, T4, T7, S2, S4, S7, (clat_odd k w g U Hg Od). change (p_h c) with (w_H w).
        destruct (w_nh w) eqn:Ew; [|rewrite <- E; reflexivity]. destruct (Nat.leb_spec (grow + 1) (2 * h + 1 - (h + 1))); [lia|].
        replace (grow + 1 - (2 * h + 1 - (h + 1)))%nat with (row + 1)%nat by lia. reflexivity. }
      clear T1 T2 T3 T4 T5 T6 T7 T8 T9 T10 T11 T12 T13 T14 T15 T16 T17 T18 T19 T20 T21 T22 T23 T24. unfold z_der. rewrite !Q. change (g_dz g) with (p_dz c). change (g_height g) with (p_height c). change (g_kmax g) with (p_kmax c). change (lg_ylat (g_lat g)) with (p_ylat c).
      rewrite S3, (dz_odd k w g Hg), (height_odd k w g Hg). toR.
      replace (p_ylat c grow) with (w_ylat w grow) by (change (p_ylat c) with (lg_ylat (g_lat g)); destruct (lat_facts k w g U Hg) as (_ & _ & _ & _ & ->); [reflexivity|exact Od]).
      change (p_om c) with (w_om w). change (p_h c) with (w_H w). unfold vertical_derivative. set (m := result_levels w) in *. f_equal.
      replace (w_ylat w grow * (PI / 180)) with (w_ylat w grow * PI / 180) by (unfold Rdiv; ring).
      destruct (Nat.eqb_spec l (m - 1)) as [->|]; [unfold deg2rad; toR; unfold Rdiv; ring|]. destruct (Nat.eqb_spec l 0) as [->|]; unfold deg2rad; toR; unfold Rdiv; ring.
    Qed.
  End Point.
End Budget.
