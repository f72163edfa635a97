(** Proofs about sessions on grids with an even number of latitudes. *)
From Verif Require Import Base BaseFacts Spec SpecFacts Grid GridSpec GridProofs Pipeline PipelineSpec PipelineProofs RefStates DirInv Object ObjectSpec ObjectProofs ObjectProofs2 ObjectProofs3 ObjectProofs4
  FormulaSpec FormulaProofs FormulaProofs2 EvenSpec.
From Coq Require Import ZifyNat FunctionalExtensionality.
Ltac Zify.zify_post_hook ::= Z.to_euclidean_division_equations.
Open Scope R_scope.

Lemma segment_spec x v m : forall j, (forall r, (r <= j)%nat -> r = O \/ x r < v) ->
  let s := segment x v m j in (j <= s <= j + m)%nat /\ (forall r, (r <= s)%nat -> r = O \/ x r < v) /\ (s = (j + m)%nat \/ v <= x (S s)).
Proof.
  induction m as [|m IH]; intros j H; cbn [segment]; cbv zeta; [repeat split; auto; lia|].
  destruct Rle_dec as [L|L]; [repeat split; auto; lia|]. destruct (IH (S j)) as (A & B & C).
  - intros r Hr. destruct (Nat.eq_dec r (S j)) as [->|]; [right; lra|apply H; lia].
  - split; [lia|]. split; [exact B|]. destruct C as [C|C]; [left; lia|right; exact C].
Qed.
Lemma interp1d_polyline n (x y : nat -> R) v : (2 <= n)%nat -> ascending n x -> interp1d n x y v = polyline n x y v.
Proof.
  intros Hn Asc. destruct (searchsorted_split n x v Asc) as [L H]. unfold interp1d, polyline. toR.
  destruct (segment_spec x v (n - 2) 0) as (A & B & C); [intros r Hr; left; lia|]. set (s := segment x v (n - 2) 0) in *.
  assert (E : Nat.min (Nat.max (searchsorted n x v) 1) (n - 1) = S s).
  { set (p := searchsorted n x v) in *.
    assert (P1 : (s = 0 \/ s < p)%nat). { destruct (B s (le_n s)) as [->|Q]; [left; reflexivity|]. right. apply H; [lia|exact Q]. }
    assert (P2 : (s = n - 2 \/ p <= S s)%nat). { destruct C as [C|C]; [left; lia|]. destruct (Nat.eq_dec s (n - 2)); [left; assumption|]. right. destruct (Nat.le_gt_cases p (S s)); [assumption|]. exfalso. assert (x (S s) < v) by (apply H; lia). lra. }
    lia. }
  rewrite E. replace (S s - 1)%nat with s by lia. ring.
Qed.
Lemma full_latitude_eq n : (0 < n)%nat -> @linspace_lat R RNum n = full_latitude n.
Proof.
  intros Hn. extensionality j. unfold linspace_lat, full_latitude. rewrite !nofnat_INR. toR. assert (INR n <> 0) by (apply not_0_INR; lia).
  destruct (Nat.eqb_spec j n) as [->|]; [field; assumption|]. replace (90 - -90) with 180 by lra. lra.
Qed.

Lemma analyse_same lib k w w' o o' nc : ob_conf o' = ob_conf o -> ob_u o' = ob_u o -> ob_v o' = ob_v o -> ob_theta o' = ob_theta o ->
  g_height (ob_grid o') = g_height (ob_grid o) -> g_npart (ob_grid o') = g_npart (ob_grid o) -> w_evenly w' = w_evenly w -> w_nlev w' = w_nlev w ->
  data_height w' = data_height w -> w_maxit w' = w_maxit w -> w_tol w' = w_tol w -> w_rjac w' = w_rjac w -> analyse lib k w' o' nc = analyse lib k w o nc.
Proof.
  intros E1 E2 E3 E4 E5 E6 E7 E8 E9 E10 E11 E12.
  assert (F : interpolated w' o' = interpolated w o) by (unfold interpolated, to_levels, vertical_interpolation; rewrite E2, E3, E4, E5, E7, E8, E9; reflexivity).
  assert (A : domain lib k w' o' = domain lib k w o) by (unfold domain; rewrite E1, E4, E5, E8, E9; reflexivity).
  unfold analyse. rewrite F, A, E1, E6, E10, E11, E12. reflexivity.
Qed.

Section Even.
  Variables (k : class) (w : qgargs).
  Hypothesis U : usable k w.
  Hypothesis Ev : Nat.even (w_nlat w) = true.
  Local Notation n := (w_nlat w).
  Local Notation w' := (one_more_row w).
  Lemma even_half : n = (2 * (n / 2))%nat /\ (S n / 2 = n / 2)%nat /\ Nat.even (S n) = false /\ (4 <= n)%nat.
  Proof.
    assert (P := parity w). rewrite Ev in P. split; [exact P|]. split; [lia|]. split; [|apply U]. rewrite Nat.even_succ, <- Nat.negb_even, Ev. reflexivity.
  Qed.
  Lemma more_usable : usable k w'.
  Proof.
    destruct even_half as (E1 & E2 & E3 & N4). destruct U as (_ & A & B & C & D). unfold usable. cbn [one_more_row w_nlat w_ylat w_nlon w_nlev w_evenly w_npart w_kmax]. rewrite E2. split; [|auto].
    assert (P : 0 < INR n) by (apply lt_0_INR; lia).
    split; [lia|]. split.
    - intros j Hj. unfold full_latitude. rewrite S_INR. assert (0 < 180 / INR n) by (apply Rdiv_lt_0_compat; lra). lra.
    - right. split; [exact E3|]. rewrite E2. unfold full_latitude. assert (I : INR n = 2 * INR (n / 2)) by (rewrite E1 at 1; rewrite mult_INR; reflexivity). rewrite I. field. lra.
  Qed.
  Variable g : grid.
  Hypothesis Hg : grid_of w = Done g.
  Lemma more_grid : exists g', grid_of w' = Done g'.
  Proof. apply (grid_exists k w' more_usable). apply (grid_exists k w U). exists g. exact Hg. Qed.
  Variable g' : grid.
  Hypothesis Hg' : grid_of w' = Done g'.
  Local Notation o := (object_of k w g).
  Local Notation o' := (object_of k w' g').
  Lemma own_latitudes : ascending n (w_ylat w).
  Proof. apply balanced_ascending. apply U. Qed.
  Lemma more_to_analysis (x : field3) : to_analysis w (g_lat g) x = fun l j i => polyline n (w_ylat w) (fun r => x l r i) (full_latitude n j).
  Proof.
    destruct even_half as (_ & _ & _ & N4). destruct (lat_facts k w g U Hg) as (L1 & _ & _ & L3 & _). unfold to_analysis. rewrite L1, Ev, (L3 Ev), full_latitude_eq by lia.
    extensionality l. extensionality j. extensionality i. apply interp1d_polyline; [lia|apply own_latitudes].
  Qed.
  Lemma polyline_scal m x (y : nat -> R) a v : polyline m x (fun r => y r * a) v = polyline m x y v * a.
  Proof. unfold polyline, Rdiv. ring. Qed.
  Lemma more_fields : ob_u o' = ob_u o /\ ob_v o' = ob_v o /\ ob_theta o' = ob_theta o.
  Proof.
    destruct even_half as (_ & _ & E3 & _). cbn [object_of ob_u ob_v ob_theta]. rewrite !(to_analysis_odd k w' g' more_usable Hg' E3), !more_to_analysis. split; [reflexivity|]. split; [reflexivity|].
    extensionality l. extensionality j. extensionality i. unfold theta_data. rewrite polyline_scal. reflexivity.
  Qed.
  Lemma more_lat : lg_n (g_lat g') = lg_n (g_lat g) /\ lg_eq (g_lat g') = lg_eq (g_lat g) /\ lg_ylat (g_lat g') = lg_ylat (g_lat g) /\ lg_n (g_lat g) = S n.
  Proof.
    destruct even_half as (E1 & E2 & E3 & N4). destruct (lat_facts k w g U Hg) as (_ & A & B & C & _). destruct (lat_facts k w' g' more_usable Hg') as (_ & A' & B' & _ & C').
    rewrite A, A', B, B', (C Ev), (C' E3), full_latitude_eq by lia. unfold analysis_rows. rewrite Ev. change (w_nlat w') with (S n). rewrite E3, E2. split; [lia|]. split; [reflexivity|]. split; [reflexivity|]. lia.
  Qed.
  Lemma more_levels : g_kmax g' = g_kmax g /\ g_height g' = g_height g /\ g_dz g' = g_dz g /\ g_prefactor g' = g_prefactor g.
  Proof.
    destruct (grid_inv w g Hg) as (_ & _ & _ & A & _ & _ & _ & _ & _ & Ge & Gu). destruct (grid_inv w' g' Hg') as (_ & _ & _ & A' & _ & _ & _ & _ & _ & Ge' & Gu').
    assert (K : g_kmax g' = g_kmax g) by (rewrite A, A'; reflexivity). assert (Z : g_dz g' = g_dz g).
    { change (w_evenly w') with (w_evenly w) in Ge', Gu'. destruct (w_evenly w); [destruct (Ge eq_refl) as [_ ->], (Ge' eq_refl) as [_ ->]|destruct (Gu eq_refl) as (_ & -> & _), (Gu' eq_refl) as (_ & -> & _)]; reflexivity. }
    split; [exact K|]. split; [rewrite (result_height_eq w g Hg), (result_height_eq w' g' Hg'); reflexivity|]. split; [exact Z|]. rewrite (prefac_eq w g Hg), (prefac_eq w' g' Hg'), K, Z. reflexivity.
  Qed.
  Lemma more_conf : ob_conf o' = ob_conf o.
  Proof.
    destruct more_lat as (A & B & C & _). destruct more_levels as (D & E & F & G). destruct (grid_inv w g Hg) as (_ & _ & N1 & _ & _ & N2 & N3 & N4 & _). destruct (grid_inv w' g' Hg') as (_ & _ & N1' & _ & _ & N2' & N3' & N4' & _).
    cbn [object_of ob_conf]. unfold conf_of. cbv zeta. rewrite A, B, C, D, E, F, G, N1, N1', N2, N2', N3, N3', N4, N4', A. reflexivity.
  Qed.
  Lemma more_npart : g_npart g' = g_npart g.
  Proof. destruct (grid_inv w g Hg) as (_ & _ & _ & _ & -> & _). destruct (grid_inv w' g' Hg') as (_ & _ & _ & _ & -> & _). change (w_npart w') with (w_npart w). destruct more_lat as (-> & _). reflexivity. Qed.
  Lemma more_analyse lib nc : analyse lib k w' o' nc = analyse lib k w o nc.
  Proof. destruct more_fields as (F1 & F2 & F3). apply analyse_same; try assumption; try reflexivity; [apply more_conf|apply more_levels|apply more_npart]. Qed.
  Hypothesis NF : w_nh w = false.
  Lemma column_polyline x row : column w x row = at_row w x row.
  Proof.
    destruct even_half as (_ & _ & _ & N4). unfold column, at_row. rewrite Ev. rewrite <- full_latitude_eq by lia. replace (n + 1)%nat with (S n) by lia. apply interp1d_polyline; [lia|].
    replace (S n) with (n + 1)%nat by lia. apply linspace_ascending. lia.
  Qed.
  Lemma more_reads lib nc t : reads (read w' o' (analyse lib k w' o' nc)) t -> reads (read w o (analyse lib k w o nc)) (reread w t).
  Proof.
    destruct even_half as (E1 & E2 & E3 & N4). intros H. apply (reads_odd k w' g' more_usable Hg' E3) in H. rewrite more_analyse, more_conf in H.
    assert (W := rows_global k w g U Hg NF). destruct (conf_facts k w g U Hg) as (_ & C2 & _).
    set (y := analyse lib k w o nc) in *. clearbody y.
    destruct H as (T1 & T2 & T3 & T4 & T5 & T6 & T7 & T8 & T9 & T10 & T11 & T12 & T13 & T14 & T15 & T16 & T17 & T18 & T19 & T20 & T21 & T22 & T23 & T24 & s & Hs & T25).
    unfold reads.
    cbn [read out_qgpv out_u out_v out_theta out_qref out_uref out_ptref out_f1 out_f2 out_f3 out_conv out_div out_heat out_lambda out_phi out_lwa_baro out_u_baro out_nc_baro out_lwa out_ua1 out_ua2 out_ep1 out_ep2 out_ep3 out_stretch
      reread t_qgpv t_u t_v t_theta t_qref t_uref t_ptref t_f1 t_f2 t_f3 t_conv t_div t_heat t_lambda t_phi t_lwa_baro t_u_baro t_nc_baro t_lwa t_ua1 t_ua2 t_ep1 t_ep2 t_ep3 t_stretch].
    rewrite Hs. rewrite W in T25. rewrite W, C2 in *.
    repeat split; rewrite ?(read_field_global k w g U Hg NF), ?(read_map_global k w g U Hg NF), ?(read_profile_global k w g U Hg NF); f_equal; unfold reread_field, reread_map, reread_profile;
      repeat (let v := fresh "v" in extensionality v); rewrite <- column_polyline; f_equal; extensionality r; symmetry; auto.
  Qed.
End Even.
