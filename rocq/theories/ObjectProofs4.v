(** Proofs about whole objects: which arguments are accepted, and what can be read. *)
From Verif Require Import Base BaseFacts Spec SpecFacts Grid GridSpec GridProofs Pipeline PipelineSpec PipelineProofs RefStates RefStatesProofs5 DirInv Object ObjectSpec ObjectProofs ObjectProofs2 ObjectProofs3.
From Coq Require Import ZifyNat FunctionalExtensionality.
Ltac Zify.zify_post_hook ::= Z.to_euclidean_division_equations.
Open Scope R_scope.

Lemma list_eqb_refl l : list_eqb l l = true.
Proof. induction l; [reflexivity|]. cbn. rewrite Nat.eqb_refl. exact IHl. Qed.
Lemma own_shape a b c : (1 <= a)%nat -> (1 <= b)%nat -> (1 <= c)%nat -> broadcast_shapes [a; b; c] [a; 1; 1]%nat = Some [a; b; c].
Proof.
  intros. unfold broadcast_shapes. cbn [rev app]. destruct a as [|[|a]]; [lia| |]; destruct b as [|[|b]]; try lia; destruct c as [|[|c]]; try lia; cbn; rewrite ?Nat.eqb_refl; reflexivity.
Qed.
Lemma balanced_accepted n y : balanced_latitudes n y -> exists g, check_and_flip_ylat n y = Done g.
Proof.
  intros B. assert (Asc := balanced_ascending n y B). destruct B as (N & H & D). apply accepted_iff. split; [lia|]. split; [left; apply H; lia|].
  destruct D as [[Ev D]|[Od D]]; [left; split; [apply Nat.even_spec; exact Ev|exact D]|]. right. exists (n / 2)%nat. split; [lia|]. split; [exact D|].
  intros j Hj E. destruct (Nat.lt_total j (n / 2)) as [L|[L|L]]; [|exact L|]; [assert (A := Asc j (n / 2)%nat ltac:(lia))|assert (A := Asc (n / 2)%nat j ltac:(lia))]; lra.
Qed.
Lemma valid_plev w : (2 <= w_nlev w)%nat -> (check_valid_plev (w_nlev w) (w_plev w) (w_H w) (w_kmax w) (w_dz w) = None <->
  w_plev w 1%nat <= w_plev w 0%nat /\ (INR (w_kmax w) - 1) * w_dz w <= data_height w (w_nlev w - 1)).
Proof.
  intros N. unfold check_valid_plev, data_height. destruct (Nat.ltb_spec (w_nlev w) 2); [lia|].
  rewrite minus_IZR, <- INR_IZR_INZ.
  destruct (Rltb_spec 0 (w_plev w 1%nat - w_plev w 0%nat)); [split; [discriminate|intros; lra]|].
  destruct (Rltb_spec (plev_to_height (w_H w) (w_plev w (w_nlev w - 1))) ((INR (w_kmax w) - 1) * w_dz w)); split; intros; try discriminate; try reflexivity; lra.
Qed.
Lemma grid_exists k w : usable k w -> (accepted_levels w <-> exists g, grid_of w = Done g).
Proof.
  intros U. split.
  - intros (N & V). destruct U as (B & NL & _). destruct (balanced_accepted _ _ B) as [lat L]. assert (N4 := proj1 B).
    unfold grid_of, qg_init. destruct (w_evenly w).
    + destruct (Nat.ltb_spec (w_nlev w) 2); [lia|]. rewrite own_shape, L, list_eqb_refl by lia. cbn [negb]. eexists; reflexivity.
    + rewrite (proj2 (valid_plev w N) (V eq_refl)). rewrite own_shape, L, list_eqb_refl by lia. cbn [negb]. eexists; reflexivity.
  - intros [g Hg]. destruct (grid_inv w g Hg) as (_ & _ & _ & _ & _ & _ & _ & _ & N & _ & V). split; [exact N|].
    intros E. apply valid_plev; [exact N|]. apply V. exact E.
Qed.

(** ** sessions *)
Section Sessions.
  Variables (lib : library) (k : class) (w : qgargs) (nc : field3).
  Local Notation n := (w_nlat w).
  Lemma session_refused e : grid_of w = Raise e -> session lib k w nc = Raise e.
  Proof. intros H. unfold session. rewrite create_eq, H. reflexivity. Qed.
  Variable g : grid.
  Hypothesis U : usable k w.
  Hypothesis Hg : grid_of w = Done g.
  Local Notation o := (object_of k w g).
  Local Notation x := (analyse lib k w o nc).
  Lemma stretch_some : exists d, s_stretch x = Some d.
  Proof.
    destruct (conf_facts k w g U Hg) as (C1 & C2 & C3 & C4 & _). assert (E := analysis_odd w). assert (K := proj1 (proj2 (proj2 U))). fold (result_levels w) in K.
    cbn [analyse s_stretch]. unfold stretch_term, z_derivative_of_prod. rewrite C2, C3, C4.
    assert (S1 : (analysis_rows w =? n / 2 + 1 - 1 + 1 + (n / 2 + 1 - 1))%nat && (2 <=? result_levels w)%nat = true)
      by (apply andb_true_intro; split; [apply Nat.eqb_eq|apply Nat.leb_le]; lia).
    rewrite S1. cbn [option_map]. eexists. reflexivity.
  Qed.
  Lemma session_eq : session lib k w nc = match out_qgpv (read w o x) with Raise e => Raise e | Done _ => Done (read w o x) end.
  Proof. unfold session. rewrite create_eq, Hg. reflexivity. Qed.
  Lemma session_global : w_nh w = false -> session lib k w nc = Done (read w o x) /\ all_returned (read w o x).
  Proof.
    intros NF. rewrite session_eq. destruct stretch_some as [d Hd]. assert (W := rows_global k w g U Hg NF). destruct (conf_facts k w g U Hg) as (_ & C2 & _).
    set (y := x) in *. clearbody y. unfold all_returned, returned.
    cbn [read out_qgpv out_u out_v out_theta out_qref out_uref out_ptref out_f1 out_f2 out_f3 out_conv out_div out_heat out_lambda out_phi out_lwa_baro out_u_baro out_nc_baro out_lwa out_ua1 out_ua2 out_ep1 out_ep2 out_ep3 out_stretch].
    rewrite Hd, W, C2. split; [rewrite (read_field_global k w g U Hg NF); reflexivity|].
    repeat split; eexists; first [apply (read_field_global k w g U Hg NF)|apply (read_map_global k w g U Hg NF)|apply (read_profile_global k w g U Hg NF)].
  Qed.
  Lemma field_odd y m : Nat.even n = false -> read_field w o m y = Done (fun l r i => y (i + 1)%nat (r + 1)%nat (l + 1)%nat).
  Proof.
    intros Od. unfold read_field, read_map, each, back, return_interp. cbn [object_of ob_grid]. destruct (lat_facts k w g U Hg) as (L1 & _). rewrite L1, Od. reflexivity.
  Qed.
  Lemma session_north : w_nh w = true -> Nat.even n = false -> session lib k w nc = Done (read w o x) /\ all_returned (read w o x).
  Proof.
    intros NT Od. rewrite session_eq. destruct stretch_some as [d Hd]. assert (W := rows_north k w g U Hg NT). destruct (conf_facts k w g U Hg) as (_ & C2 & _).
    set (y := x) in *. clearbody y. unfold all_returned, returned.
    cbn [read out_qgpv out_u out_v out_theta out_qref out_uref out_ptref out_f1 out_f2 out_f3 out_conv out_div out_heat out_lambda out_phi out_lwa_baro out_u_baro out_nc_baro out_lwa out_ua1 out_ua2 out_ep1 out_ep2 out_ep3 out_stretch].
    rewrite Hd, W. split; [rewrite field_odd by exact Od; reflexivity|].
    repeat split; eexists; first [apply (field_odd _ _ Od)|apply (read_map_north k w g U Hg NT)|apply (read_profile_north k w g U Hg NT)].
  Qed.
  Lemma session_north_even : w_nh w = true -> Nat.even n = true -> session lib k w nc = Raise ValueError.
  Proof.
    intros NT Ev. rewrite session_eq. destruct (conf_facts k w g U Hg) as (_ & C2 & _). destruct (lat_facts k w g U Hg) as (L1 & L2 & _).
    assert (E : out_qgpv (read w o x) = Raise ValueError); [|rewrite E; reflexivity].
    cbn [read out_qgpv]. unfold read_field, read_map, each, back. rewrite C2, NT. cbn [object_of ob_grid].
    rewrite <- L2. rewrite return_full_rejected; [reflexivity|apply (grid_inv w g Hg)|rewrite L1; exact Ev].
  Qed.
End Sessions.

(** ** the sign of the reported wave activity *)
Lemma interp1d_nonneg m (x y : nat -> R) v : (2 <= m)%nat -> ascending m x -> x 0%nat <= v <= x (m - 1)%nat -> (forall j, (j < m)%nat -> 0 <= y j) -> 0 <= interp1d m x y v.
Proof.
  intros Hm Asc Hv Hy. destruct (interp1d_between m x y v Hm Asc Hv) as (lo & Hlo & _ & B).
  pose proof (Hy lo ltac:(lia)). pose proof (Hy (S lo) Hlo). unfold Rmin in B. destruct Rle_dec; lra.
Qed.
Lemma any_lwa_nonneg (c : pconf R) nn ss i j : (2 <= p_eq c)%nat -> p_nlat c = (2 * p_eq c - 1)%nat -> (p_jb c < p_eq c)%nat -> p_jd c = (p_eq c - p_jb c)%nat ->
  (1 <= p_nlon c)%nat -> 0 <= p_a c -> 0 <= p_dz c -> 0 < p_prefac c -> 0 <= b_lwa (barotropic_terms c nn ss) i j.
Proof.
  intros H1 H2 H3 H4 H5 H6 H7 H8. destruct c as [c1 c2 c3 c4 c5 c6 c7 c8 c9 c10 c11 c12 c13 c14 c15 c16 c17 c18 c19 c20].
  set (c' := {| p_nlon := c1; p_nlat := c2; p_kmax := c3; p_eq := c4; p_jb := c5; p_jd := c6; p_nh := c7; p_a := c8; p_om := c9; p_dz := c10; p_h := c11; p_rr := c12;
    p_cp := c13; p_prefac := c14; p_dphi := c15; p_dlambda := c16; p_tol := c17; p_height := c18; p_ylat := fun _ => 0; p_clat := fun _ => 1 |}).
  change (0 <= b_lwa (barotropic_terms c' nn ss) i j). apply lwa_baro_nonneg; try assumption.
  split; [exact H1|]. split; [exact H2|]. split; [exact H3|]. split; [exact H4|]. intros; cbn; split; [ring|reflexivity].
Qed.
Section Sign.
  Variables (lib : library) (k : class) (w : qgargs) (nc : field3) (g : grid).
  Hypothesis U : usable k w.
  Hypothesis Hg : grid_of w = Done g.
  Hypothesis Ha : 0 <= w_a w.
  Hypothesis Hz : if w_evenly w then data_height w 0 < data_height w 1 else 0 < w_dz w.
  Local Notation o := (object_of k w g).
  Local Notation c := (ob_conf o).
  Local Notation n := (w_nlat w).
  Lemma prefac_eq : g_prefactor g = prefactor (g_kmax g) (g_dz g) (w_H w).
  Proof.
    assert (Q := Hg). unfold grid_of, qg_init in Q.
    match type of Q with match ?v with _ => _ end = _ => destruct v as [[[? ?] ?]|]; [|discriminate] end.
    destruct broadcast_shapes; [|discriminate]. destruct check_and_flip_ylat; [|discriminate].
    destruct list_eqb; [|discriminate]. destruct list_eqb; [|discriminate]. cbn [negb] in Q. injection Q as <-. reflexivity.
  Qed.
  Lemma stored_lwa_nonneg i j : 0 <= b_lwa (s_baro (analyse lib k w o nc)) i j.
  Proof.
    destruct (conf_facts k w g U Hg) as (C1 & C2 & C3 & C4 & C5 & C6 & _). assert (E := analysis_odd w). destruct (grid_inv w g Hg) as (_ & _ & _ & G4 & _ & _ & _ & _ & _ & Ge & Gu).
    assert (Dz : 0 < g_dz g) by (destruct (w_evenly w); [destruct (Ge eq_refl) as [_ ->]; lra|destruct (Gu eq_refl) as (_ & -> & _); exact Hz]).
    destruct U as ((N4 & _) & NL & NK & NB & _). fold (result_levels w) in NK.
    cbn [analyse s_baro]. apply any_lwa_nonneg; rewrite ?C1, ?C2, ?C4, ?C5, ?C6; try lia; cbn [object_of ob_conf conf_of p_a p_dz p_prefac]; [exact Ha|lra|].
    rewrite prefac_eq, prefactor_R. apply Rmult_lt_0_compat; [exact Dz|]. apply weights_pos. rewrite G4. exact NK.
  Qed.
  Lemma stored_layer_nonneg i j l : 0 <= b_lwa3 (s_baro (analyse lib k w o nc)) i j l.
  Proof.
    cbn [analyse s_baro barotropic_terms b_lwa3]. unfold global3, set_shem, set_nhem. cbn [nzero nabs RNum].
    destruct (p_nh c); repeat destruct (Nat.leb _ _); try apply Rabs_pos; lra.
  Qed.
  Hypothesis In : forall j, (j < n)%nat -> -90 <= w_ylat w j <= 90.
  Lemma linspace_end : @linspace_lat R RNum n n = 90.
  Proof. rewrite linspace_R by (destruct U as ((N4 & _) & _); lia). assert (INR n <> 0) by (apply not_0_INR; destruct U as ((N4 & _) & _); lia). field. assumption. Qed.
  Lemma column_nonneg x row : (row < n)%nat -> (forall r, 0 <= x r) -> 0 <= column w x row.
  Proof.
    intros Hr Hx. unfold column. destruct (Nat.even n); [|apply Hx]. assert (N4 := proj1 (proj1 U)). apply interp1d_nonneg; [lia|apply linspace_ascending; lia| |intros; apply Hx].
    replace (n + 1 - 1)%nat with n by lia. rewrite linspace_end. rewrite linspace_R by lia. cbn [INR]. rewrite Rmult_0_l, Rplus_0_r. apply In. exact Hr.
  Qed.
End Sign.

(** ** reading back what was given *)
Section Readback.
  Variables (lib : library) (k : class) (w : qgargs) (nc : field3) (g : grid).
  Hypothesis U : usable k w.
  Hypothesis Hg : grid_of w = Done g.
  Hypothesis Od : Nat.even (w_nlat w) = false.
  Local Notation o := (object_of k w g).
  Local Notation x := (read w o (analyse lib k w o nc)).
  Lemma to_analysis_odd y : to_analysis w (g_lat g) y = y.
  Proof. unfold to_analysis. destruct (lat_facts k w g U Hg) as (L1 & _). rewrite L1, Od. reflexivity. Qed.
  Lemma stored_at y l r i : stored y (i + 1)%nat (r + 1)%nat (l + 1)%nat = y l r i.
  Proof. unfold stored. replace (l + 1 - 1)%nat with l by lia. replace (r + 1 - 1)%nat with r by lia. replace (i + 1 - 1)%nat with i by lia. reflexivity. Qed.
  Lemma readback : out_u x = Done (to_levels w g (w_u w)) /\ out_v x = Done (to_levels w g (w_v w)) /\ out_theta x = Done (to_levels w g (theta_data w)).
  Proof.
    cbn [read out_u out_v out_theta analyse s_f interpolated u_ v_ theta_]. rewrite !(field_odd k w g U Hg _ _ Od).
    cbn [object_of ob_grid ob_u ob_v ob_theta]. rewrite !to_analysis_odd.
    split; [|split]; f_equal; extensionality l; extensionality r; extensionality i; apply stored_at.
  Qed.
End Readback.

(** ** more about grids *)
Lemma analysis_lat k w g row : usable k w -> grid_of w = Done g -> (row < analysis_rows w)%nat -> lg_ylat (g_lat g) row = analysis_latitude w row.
Proof.
  intros U Hg Hr. destruct (lat_facts k w g U Hg) as (_ & _ & _ & L3 & L4). unfold analysis_latitude, analysis_rows in *. assert (N4 := proj1 (proj1 U)). destruct (Nat.even (w_nlat w)).
  - rewrite (L3 eq_refl). apply linspace_R; lia.
  - rewrite (L4 eq_refl). reflexivity.
Qed.
Lemma heights_ascending w : descending_pressure w -> ascending (w_nlev w) (data_height w).
Proof.
  intros [HH D]. assert (Asc : forall a b, (a < b < w_nlev w)%nat -> w_plev w b < w_plev w a).
  { intros a b Hab. induction b; [lia|]. destruct (Nat.eq_dec a b) as [->|]; [apply D; lia|]. assert (a < b < w_nlev w)%nat by lia. specialize (IHb ltac:(lia)). assert (X := D b ltac:(lia)). lra. }
  intros a b Hab. unfold data_height, plev_to_height. assert (P : w_plev w b < w_plev w a) by (apply Asc; lia).
  assert (0 < w_plev w b) by (destruct b; [lia|]; apply (D b); lia). assert (ln (w_plev w b / 1000) < ln (w_plev w a / 1000)) by (apply ln_increasing; lra). nra.
Qed.
Lemma result_height_eq w g : grid_of w = Done g -> g_height g = result_height w.
Proof.
  intros Hg. destruct (grid_inv w g Hg) as (_ & _ & _ & _ & _ & _ & _ & _ & _ & Ge & Gu). unfold result_height. extensionality l. destruct (w_evenly w).
  - destruct (Ge eq_refl) as [-> _]. reflexivity.
  - destruct (Gu eq_refl) as (-> & _). unfold uniform_height. rewrite nofnat_INR. reflexivity.
Qed.
Lemma theta_power w l : w_H w <> 0 -> 0 < w_plev w l -> forall j i, theta_data w l j i = w_t w l j i * Rpower (1000 / w_plev w l) (w_rr w / w_cp w).
Proof.
  intros H P j i. unfold theta_data, data_height, plev_to_height, Rpower. f_equal. f_equal.
  replace (1000 / w_plev w l) with (/ (w_plev w l / 1000)) by (field; lra). rewrite ln_Rinv by lra. set (q := w_rr w / w_cp w). clearbody q. field. assumption.
Qed.
Lemma interp1d_segment m (x y : nat -> R) v lo : (2 <= m)%nat -> ascending m x -> (S lo < m)%nat -> x lo < v <= x (S lo) ->
  interp1d m x y v = (y (S lo) - y lo) / (x (S lo) - x lo) * (v - x lo) + y lo.
Proof.
  intros Hm Asc Hlo Hv. destruct (searchsorted_split m x v Asc) as [L H].
  assert (S1 : (lo < searchsorted m x v)%nat) by (apply H; [lia|lra]).
  assert (S2 : ~ (S lo < searchsorted m x v)%nat) by (intros Q; apply H in Q; [lra|lia]).
  unfold interp1d. toR. replace (Nat.min (Nat.max (searchsorted m x v) 1) (m - 1)) with (S lo) by lia. replace (S lo - 1)%nat with lo by lia. reflexivity.
Qed.
(** the field reported on a grid without the equator, when there is no vertical interpolation *)
Lemma readback_even lib k w nc g : usable k w -> grid_of w = Done g -> Nat.even (w_nlat w) = true -> w_nh w = false -> w_evenly w = true ->
  out_u (read w (object_of k w g) (analyse lib k w (object_of k w g) nc)) =
  Done (fun l row i => interp1d (w_nlat w + 1) (linspace_lat (w_nlat w)) (fun r => interp1d (w_nlat w) (w_ylat w) (fun r' => w_u w l r' i) (linspace_lat (w_nlat w) r)) (w_ylat w row)).
Proof.
  intros U Hg Ev NF Hev. cbn [read out_u analyse s_f interpolated u_]. destruct (conf_facts k w g U Hg) as (_ & C2 & _). rewrite C2. rewrite (read_field_global k w g U Hg NF).
  destruct (lat_facts k w g U Hg) as (L1 & _ & _ & L3 & _). f_equal. extensionality l. extensionality row. extensionality i. unfold column. rewrite Ev. f_equal. extensionality r.
  rewrite stored_at. unfold to_levels. rewrite Hev. cbn [object_of ob_grid ob_u]. unfold to_analysis. rewrite L1, Ev, (L3 Ev). reflexivity.
Qed.
