(** Proofs about whole objects: the configuration made by the constructor, and reading. *)
From Verif Require Import Base BaseFacts Spec SpecFacts Grid GridSpec GridProofs Pipeline PipelineSpec RefStates DirInv RotateSpec RotateProofs RotateProofs2 RotateProofs3 PropertiesRotate Object ObjectSpec.
From Coq Require Import ZifyNat FunctionalExtensionality.
Ltac Zify.zify_post_hook ::= Z.to_euclidean_division_equations.
Open Scope R_scope.

Lemma create_eq k w : create k w = match grid_of w with Raise e => Raise e | Done g => Done (object_of k w g) end.
Proof. reflexivity. Qed.

Lemma balanced_ascending n y : balanced_latitudes n y -> ascending n y.
Proof.
  intros (_ & H & _) a b Hab. destruct Hab as [Hab Hb]. induction b as [|b IH]; [lia|].
  destruct (Nat.eq_dec a b) as [->|]; [apply H; lia|]. apply Rlt_trans with (y b); [apply IH; lia|apply H; lia].
Qed.
(** what the constructor makes of the latitudes *)
Lemma balanced_grid n y g : balanced_latitudes n y -> check_and_flip_ylat n y = Done g ->
  lg_need g = Nat.even n /\ lg_n g = (if Nat.even n then n + 1 else n)%nat /\ lg_eq g = (n / 2 + 1)%nat /\
  (Nat.even n = true -> lg_ylat g = linspace_lat n) /\ (Nat.even n = false -> lg_ylat g = y).
Proof.
  intros B C. assert (Asc := balanced_ascending n y B). destruct B as (N & _ & D).
  destruct (accepted_grid n y g C) as [_ Z].
  destruct D as [[Ev H]|[Od H]].
  - assert (Nd : lg_need g = true).
    { unfold check_and_flip_ylat in C. destruct (Nat.ltb_spec n 2); [lia|]. destruct nltb; [discriminate|].
      assert (Z0 : count_zero n y = 0%nat) by (apply count_zero_0; intros k Hk; toR; apply Reqb_false, H; assumption).
      rewrite Z0, Ev in C. cbn [andb Nat.eqb] in C. destruct first_zero; [|discriminate]. injection C as <-. reflexivity. }
    destruct (return_needs_even n y g C Nd) as (_ & _ & E1 & E2 & E3). rewrite Ev, Nd. repeat split; try assumption; intros; try assumption. discriminate.
  - assert (Nd : lg_need g = false /\ lg_n g = n /\ lg_ylat g = y).
    { unfold check_and_flip_ylat in C. destruct (Nat.ltb_spec n 2); [lia|]. destruct nltb; [discriminate|]. rewrite Od in C. cbn [andb] in C.
      destruct Nat.eqb; [|discriminate]. destruct first_zero; [|discriminate]. injection C as <-. repeat split. }
    destruct Nd as (E1 & E2 & E3). rewrite Od, E1, E2. repeat split; try assumption; try discriminate; intros; try assumption.
    assert (X := Z (n / 2)%nat). rewrite E2, E3 in X. assert (N2 : (n / 2 < n)%nat) by lia. assert (Y := proj1 (X N2) H). lia.
Qed.

Lemma grid_inv w g : grid_of w = Done g ->
  check_and_flip_ylat (w_nlat w) (w_ylat w) = Done (g_lat g) /\ g_nlat g = w_nlat w /\ g_nlon g = w_nlon w /\ g_kmax g = result_levels w /\
  g_npart g = match w_npart w with Some p => p | None => lg_n (g_lat g) end /\ g_nh g = w_nh w /\
  g_dphi g = 180 / INR (lg_n (g_lat g) - 1) * (PI / 180) /\ g_dlambda g = 360 / INR (w_nlon w) * (PI / 180) /\
  (2 <= w_nlev w)%nat /\
  (w_evenly w = true -> g_height g = data_height w /\ g_dz g = data_height w 1 - data_height w 0) /\
  (w_evenly w = false -> g_height g = uniform_height (w_dz w) /\ g_dz g = w_dz w /\ check_valid_plev (w_nlev w) (w_plev w) (w_H w) (w_kmax w) (w_dz w) = None).
Proof.
  unfold grid_of, qg_init, result_levels. set (shape := [w_nlev w; w_nlat w; w_nlon w]).
  assert (N : (if w_evenly w then if (w_nlev w <? 2)%nat then Raise IndexError else Done (w_nlev w, fun k => plev_to_height (w_H w) (w_plev w k), plev_to_height (w_H w) (w_plev w 1%nat) - plev_to_height (w_H w) (w_plev w 0%nat)) else
               match check_valid_plev (w_nlev w) (w_plev w) (w_H w) (w_kmax w) (w_dz w) with Some e => Raise e | None => Done (w_kmax w, uniform_height (w_dz w), w_dz w) end) =
              (if w_evenly w then if (w_nlev w <? 2)%nat then Raise IndexError else Done (w_nlev w, data_height w, data_height w 1 - data_height w 0) else
               match check_valid_plev (w_nlev w) (w_plev w) (w_H w) (w_kmax w) (w_dz w) with Some e => Raise e | None => Done (w_kmax w, uniform_height (w_dz w), w_dz w) end)) by reflexivity.
  rewrite N. clear N.
  destruct (w_evenly w).
  - destruct (Nat.ltb_spec (w_nlev w) 2); [discriminate|]. destruct broadcast_shapes; [|discriminate]. destruct check_and_flip_ylat; [|discriminate].
    destruct list_eqb; [|discriminate]. destruct list_eqb; [|discriminate]. cbn [negb]. intros Q; injection Q as <-. cbn. repeat split; try assumption; discriminate.
  - destruct (check_valid_plev (w_nlev w) (w_plev w) (w_H w) (w_kmax w) (w_dz w)) eqn:V; [discriminate|]. destruct broadcast_shapes; [|discriminate]. destruct check_and_flip_ylat; [|discriminate].
    destruct list_eqb; [|discriminate]. destruct list_eqb; [|discriminate]. cbn [negb]. intros Q; injection Q as <-. cbn.
    assert (2 <= w_nlev w)%nat by (unfold check_valid_plev in V; destruct (Nat.ltb_spec (w_nlev w) 2); [discriminate|assumption]).
    repeat split; try assumption; discriminate.
Qed.

Section Accepted.
  Variables (k : class) (w : qgargs) (g : grid).
  Hypothesis U : usable k w.
  Hypothesis Hg : grid_of w = Done g.
  Local Notation o := (object_of k w g).
  Local Notation c := (ob_conf o).
  Local Notation n := (w_nlat w).

  Lemma lat_facts : lg_need (g_lat g) = Nat.even n /\ lg_n (g_lat g) = analysis_rows w /\ lg_eq (g_lat g) = (n / 2 + 1)%nat /\
    (Nat.even n = true -> lg_ylat (g_lat g) = linspace_lat n) /\ (Nat.even n = false -> lg_ylat (g_lat g) = w_ylat w).
  Proof. apply balanced_grid; [apply U|apply (grid_inv w g Hg)]. Qed.
  Lemma parity : n = (if Nat.even n then 2 * (n / 2) else 2 * (n / 2) + 1)%nat.
  Proof.
    destruct (Nat.even n) eqn:E.
    - apply Nat.even_spec in E. destruct E as [m ->]. lia.
    - assert (O : Nat.Odd n) by (apply Nat.odd_spec; unfold Nat.odd; rewrite E; reflexivity). destruct O as [m ->]. lia.
  Qed.
  Lemma analysis_odd : analysis_rows w = (2 * (n / 2 + 1) - 1)%nat.
  Proof. unfold analysis_rows. assert (P := parity). destruct (Nat.even n); lia. Qed.
  Lemma conf_facts : p_nlon c = w_nlon w /\ p_nlat c = analysis_rows w /\ p_kmax c = result_levels w /\ p_eq c = (n / 2 + 1)%nat /\
    p_jb c = boundary k /\ p_jd c = (n / 2 + 1 - boundary k)%nat /\ p_nh c = w_nh w.
  Proof.
    destruct (grid_inv w g Hg) as (_ & _ & G1 & G2 & _ & G3 & _). destruct lat_facts as (_ & L1 & L2 & _).
    cbn [ob_conf object_of conf_of p_nlon p_nlat p_kmax p_eq p_jb p_jd p_nh]. rewrite G1, G2, G3, L1, L2. repeat split.
    assert (E := analysis_odd). lia.
  Qed.
  Lemma conf_centred : centred c.
  Proof.
    destruct conf_facts as (C1 & C2 & C3 & C4 & C5 & C6 & C7). assert (E := analysis_odd). assert (P := PI_RGT_0).
    destruct U as ((N4 & _) & NL & NK & NB & _). fold (result_levels w) in NK.
    unfold centred. rewrite C1, C2, C3, C4, C5, C6, E. repeat split; try lia.
    - cbn [ob_conf object_of conf_of p_dphi]. destruct (grid_inv w g Hg) as (_ & _ & _ & _ & _ & _ & D & _). rewrite D. destruct lat_facts as (_ & L1 & _). rewrite L1, E.
      replace (n / 2 + 1 - 1)%nat with (n / 2)%nat by lia. replace (2 * (n / 2 + 1) - 1 - 1)%nat with (2 * (n / 2))%nat by lia.
      rewrite mult_INR. cbn [INR]. assert (INR (n / 2) <> 0) by (apply not_0_INR; lia). field. assumption.
    - cbn [ob_conf object_of conf_of p_dlambda]. destruct (grid_inv w g Hg) as (_ & _ & _ & _ & _ & _ & _ & D & _). rewrite D.
      assert (INR (w_nlon w) <> 0) by (apply not_0_INR; lia). field. assumption.
  Qed.
  Lemma npart_ok : (2 <= g_npart g)%nat.
  Proof.
    destruct (grid_inv w g Hg) as (_ & _ & _ & _ & E & _). rewrite E. destruct U as ((N4 & _) & _ & _ & _ & H). destruct (w_npart w); [exact H|].
    destruct lat_facts as (_ & L1 & _). rewrite L1. rewrite analysis_odd. lia.
  Qed.
  Lemma rows_facts : rows c = (if w_nh w then n / 2 + 1 else analysis_rows w)%nat.
  Proof. unfold rows. destruct conf_facts as (_ & C2 & _ & C4 & _ & _ & C7). rewrite C2, C4, C7. reflexivity. Qed.

  (** ** reading *)
  Lemma interp1d_ext m (x y y' : nat -> R) v : (2 <= m)%nat -> (forall r, (r < m)%nat -> y' r = y r) -> interp1d m x y' v = interp1d m x y v.
  Proof. intros Hm H. unfold interp1d. rewrite !H by lia. reflexivity. Qed.
  (** rows the user gets from a stored array with m rows *)
  Lemma back_same m R0 (x x' : nat -> R) : (2 <= m)%nat -> (lg_need (g_lat g) = false -> (R0 <= m)%nat) -> (forall r, (r < m)%nat -> x' r = x r) ->
    outcome (fun a b => forall row, (row < R0)%nat -> b row = a row) (back w o m x) (back w o m x').
  Proof.
    intros Hm HR H. unfold back, return_interp. cbn [object_of ob_grid]. destruct (lg_need (g_lat g)); [|cbn; intros row Hr; apply H; specialize (HR eq_refl); lia].
    destruct (w_nh w); unfold interp1d_checked.
    - destruct (Nat.eqb_spec (lg_n (g_lat g) / 2 + 1) m) as [E|]; [|reflexivity]. unfold outcome. intros row Hr. cbv beta. rewrite E. apply interp1d_ext; assumption.
    - destruct (Nat.eqb_spec (lg_n (g_lat g)) m) as [E|]; [|reflexivity]. unfold outcome. intros row Hr. cbv beta. rewrite E. apply interp1d_ext; assumption.
  Qed.
  Lemma each_rel (P : (nat -> R) -> (nat -> R) -> Prop) (f f' : nat -> res (nat -> R)) (Q : nat -> nat -> Prop) :
    (forall i i', Q i i' -> outcome P (f i) (f' i')) ->
    (forall i, (exists e, f i = Raise e /\ f O = Raise e) \/ (exists a b, f i = Done a /\ f O = Done b)) ->
    (forall i, (exists e, f' i = Raise e /\ f' O = Raise e) \/ (exists a b, f' i = Done a /\ f' O = Done b)) ->
    (exists i i', Q i i') ->
    outcome (fun a b => forall i i', Q i i' -> P (fun row => a row i) (fun row => b row i')) (each f) (each f').
  Proof.
    intros H A B (i0 & i0' & Q0). unfold each.
    assert (X := H _ _ Q0). unfold outcome in X.
    destruct (A i0) as [(e & E1 & E2)|(a & b & E1 & E2)], (B i0') as [(e' & E1' & E2')|(a' & b' & E1' & E2')]; rewrite E1, E1' in X; try contradiction; rewrite E2, E2'; cbn [outcome].
    - exact X.
    - intros i i' Qi. assert (Y := H _ _ Qi). unfold outcome in Y.
      destruct (A i) as [(e & F1 & F2)|(a1 & b1 & F1 & F2)]; [congruence|]. destruct (B i') as [(e & F1' & F2')|(a1' & b1' & F1' & F2')]; [congruence|].
      rewrite F1, F1' in *. exact Y.
  Qed.
  Lemma back_uniform m (x x0 : nat -> R) : (exists e, back w o m x = Raise e /\ back w o m x0 = Raise e) \/ (exists a b, back w o m x = Done a /\ back w o m x0 = Done b).
  Proof.
    unfold back, return_interp. destruct lg_need; [|right; eauto].
    destruct (w_nh w); unfold interp1d_checked; destruct Nat.eqb; try (left; eauto; fail); right; eauto.
  Qed.
End Accepted.

(** ** longitudes relabelled *)
Section Rolled.
  Variables (k : class) (w : qgargs) (g : grid) (s : nat).
  Hypothesis U : usable k w.
  Hypothesis Hg : grid_of w = Done g.
  Variables u' v' t' : field3.
  Local Notation w' := (with_data w u' v' t').
  Local Notation o := (object_of k w g).
  Local Notation o' := (object_of k w' g).
  Local Notation c := (ob_conf o).
  Local Notation nl := (w_nlon w).
  Local Notation n := (w_nlat w).
  Hypothesis Hu : rolled_input w s (w_nlev w) n (w_u w) u'.
  Hypothesis Hv : rolled_input w s (w_nlev w) n (w_v w) v'.
  Hypothesis Ht : rolled_input w s (w_nlev w) n (w_t w) t'.

  Lemma shift_ok i : ((i + s) mod nl < nl)%nat.
  Proof. destruct U as (_ & N & _). apply Nat.mod_upper_bound. lia. Qed.
  Lemma turn_shift i : turn c s (i + 1) = ((i + s) mod nl + 1)%nat.
  Proof. unfold turn. destruct (conf_facts k w g U Hg) as (E & _). rewrite E. repeat f_equal. lia. Qed.

  (** the data on the analysis latitudes *)
  Lemma analysis_rolled (x x' : field3) : rolled_input w s (w_nlev w) n x x' ->
    rolled_input w s (w_nlev w) (analysis_rows w) (to_analysis w (g_lat g) x) (to_analysis w' (g_lat g) x').
  Proof.
    intros H l j i Hl Hj Hi. unfold to_analysis. cbn [with_data w_nlat w_ylat]. destruct (lat_facts k w g U Hg) as (L1 & _). rewrite L1.
    destruct (Nat.even n) eqn:E.
    - apply interp1d_ext; [destruct U as ((N & _) & _); lia|]. intros r Hr. apply H; assumption.
    - unfold analysis_rows in Hj. rewrite E in Hj. apply H; assumption.
  Qed.
  Lemma theta_rolled : rolled_input w s (w_nlev w) n (theta_data w) (theta_data w').
  Proof. intros l j i Hl Hj Hi. unfold theta_data, data_height. cbn [with_data w_t w_rr w_cp w_H w_plev]. rewrite Ht by assumption. reflexivity. Qed.
  Lemma levels_turned (x x' : field3) : rolled_input w s (w_nlev w) (analysis_rows w) x x' ->
    turned c s (stored (to_levels w g x)) (stored (to_levels w' g x')).
  Proof.
    intros H i j l Hi Hj Hl. destruct (conf_facts k w g U Hg) as (C1 & C2 & C3 & _). unfold lon_ok, lat_ok, lev_ok in *. rewrite C1, C2, C3 in *. unfold stored.
    replace (turn c s i) with ((i - 1 + s) mod nl + 1)%nat by (replace i with (i - 1 + 1)%nat at 2 by lia; rewrite turn_shift; reflexivity).
    replace ((i - 1 + s) mod nl + 1 - 1)%nat with ((i - 1 + s) mod nl)%nat by lia.
    unfold to_levels. cbn [with_data w_evenly]. unfold result_levels in Hl. destruct (w_evenly w).
    - apply H; lia.
    - unfold vertical_interpolation. cbn [with_data w_nlev].
      apply interp1d_ext; [apply (grid_inv w g Hg)|]. intros r Hr. apply H; lia.
  Qed.
  Lemma fields_turned : turned_state c s (interpolated w o) (interpolated w' o').
  Proof.
    split; [|split]; cbn [interpolated u_ v_ theta_ object_of ob_grid ob_u ob_v ob_theta with_data w_u w_v]; apply levels_turned; apply analysis_rolled; [exact Hu|exact Hv|exact theta_rolled].
  Qed.
  (** only the data levels enter the averages *)
  Lemma domain_rolled lib : (forall m x y y' h, (forall l, (l < m)%nat -> y' l = y l) -> lb_spline lib m x y' h = lb_spline lib m x y h) ->
    (forall m x y y' h, (forall l, (l < m)%nat -> y' l = y l) -> lb_dspline lib m x y' h = lb_dspline lib m x y h) ->
    domain lib k w' o' = domain lib k w o.
  Proof.
    intros S1 S2. assert (G := conf_centred k w g U Hg). destruct (conf_facts k w g U Hg) as (C1 & C2 & _).
    assert (X : forall l, (l < w_nlev w)%nat -> t0_south c (ob_theta o' l) = t0_south c (ob_theta o l) /\ t0_north c (ob_theta o' l) = t0_north c (ob_theta o l)).
    { intros l Hl. apply (t0_turned c s G). intros j i Hj Hi. rewrite C1, C2 in *. apply (analysis_rolled _ _ theta_rolled); assumption. }
    assert (F : forall (spl : nat -> (nat -> R) -> (nat -> R) -> R -> R), (forall m x y y' h, (forall l, (l < m)%nat -> y' l = y l) -> spl m x y' h = spl m x y h) ->
      (fun l => spl (w_nlev w) (data_height w) (fun l => t0_south c (ob_theta o' l)) (g_height g l)) = (fun l => spl (w_nlev w) (data_height w) (fun l => t0_south c (ob_theta o l)) (g_height g l)) /\
      (fun l => spl (w_nlev w) (data_height w) (fun l => t0_north c (ob_theta o' l)) (g_height g l)) = (fun l => spl (w_nlev w) (data_height w) (fun l => t0_north c (ob_theta o l)) (g_height g l))).
    { intros spl Sp. split; extensionality l; apply Sp; apply X. }
    destruct (F _ S1) as [A1 A2]. destruct (F _ S2) as [A3 A4]. clear F X.
    unfold domain, domain_nh18, domain_nhn22.
    change (data_height w') with (data_height w). change (w_nlev w') with (w_nlev w). change (ob_grid o') with g. change (ob_grid o) with g. change (ob_conf o') with c. cbv zeta beta.
    destruct k; rewrite A1, A2, A3, A4; reflexivity.
  Qed.

  Variable lib : library.
  Hypothesis Hlib : data_only lib.
  Variables nc nc' : field3.
  Hypothesis Hnc : rolled_input w s (result_levels w) (analysis_rows w) nc nc'.
  Local Notation x := (analyse lib k w o nc).
  Local Notation x' := (analyse lib k w' o' nc').
  Lemma nc_turned : turned c s (stored nc) (stored nc').
  Proof.
    intros i j l Hi Hj Hl. destruct (conf_facts k w g U Hg) as (C1 & C2 & C3 & _). unfold lon_ok, lat_ok, lev_ok in *. rewrite C1, C2, C3 in *. unfold stored.
    replace (turn c s i) with ((i - 1 + s) mod nl + 1)%nat by (replace i with (i - 1 + 1)%nat at 2 by lia; rewrite turn_shift; reflexivity).
    replace ((i - 1 + s) mod nl + 1 - 1)%nat with ((i - 1 + s) mod nl)%nat by lia. apply Hnc; lia.
  Qed.
  Lemma stores_turned : s_av x' = s_av x /\ turned_state c s (s_f x) (s_f x') /\ turned c s (s_q x) (s_q x') /\ same_refs c (s_refs x) (s_refs x') /\
    turned_fluxes c s (s_baro x) (s_baro x') /\ turned_layers c s (s_layer x) (s_layer x') /\ turned_lwa_only c s (s_only x) (s_only x') /\
    turned2 c s (s_div x) (s_div x') /\ turned2 c s (s_conv x) (s_conv x') /\ turned2 c s (s_lambda x) (s_lambda x') /\ turned2 c s (s_phi x) (s_phi x') /\
    exists d d', s_stretch x = Some d /\ s_stretch x' = Some d' /\ turned c s d d'.
  Proof.
    assert (G := conf_centred k w g U Hg). assert (Np := npart_ok k w g U Hg). assert (Hf := fields_turned). assert (HN := nc_turned).
    assert (Ea := domain_rolled lib (proj1 Hlib) (proj2 Hlib)).
    unfold analyse. cbn [s_f s_av s_q s_refs s_baro s_layer s_only s_div s_conv s_lambda s_phi s_stretch].
    change (ob_conf o') with c. change (ob_grid o') with g. change (ob_grid o) with g. rewrite Ea.
    change (w_maxit w') with (w_maxit w). change (w_tol w') with (w_tol w). change (w_rjac w') with (w_rjac w).
    set (av := domain lib k w o). set (f := interpolated w o) in *. set (f' := interpolated w' o') in *. set (C := ob_conf o) in *. clearbody av f f' C.
    set (q := match k with NH18 => pv_nh18 C f av | NHN22 _ => pv_nhn22 C f av end). set (q' := match k with NH18 => pv_nh18 C f' av | NHN22 _ => pv_nhn22 C f' av end).
    set (r := match k with NH18 => refs_nh18 C _ q f zero_refs | NHN22 _ => _ end). set (r' := match k with NH18 => refs_nh18 C _ q' f' zero_refs | NHN22 _ => _ end).
    assert (Hq : turned C s q q') by (unfold q, q'; destruct k; [apply pv_nh18_turned|apply pv_nhn22_turned]; assumption).
    assert (Hr : same_refs C r r').
    { unfold r, r'. destruct k; [apply (refs_nh18_turned C s G f f' Hf)|apply (refs_nhn22_turned C s G f f' Hf); [|apply avort_nhn22_turned]]; assumption. }
    clearbody q q' r r'.
    assert (KN := north_turned C s G f f' Hf q q' _ _ Hq HN av r r' Hr). assert (KS := south_turned C s G f f' Hf q q' _ _ Hq HN av r r' Hr).
    assert (Hb := barotropic_turned C s G _ _ _ _ KN KS).
    split; [reflexivity|]. split; [exact Hf|]. split; [exact Hq|]. split; [exact Hr|]. split; [exact Hb|].
    split; [apply (layerwise_turned C s G); assumption|]. split; [apply (lwa_only_turned C s G); assumption|].
    split; [apply (div_turned C s); assumption|]. split; [apply (conv_turned C s G); assumption|].
    split. { destruct Hb as (_ & _ & B1 & B2 & B3 & _). intros i j Hi Hj. unfold zonal_flux. rewrite B1, B2, B3 by assumption. reflexivity. }
    split; [apply (phi_turned C s G); assumption|]. apply (stretch_turned C s G f f' Hf); assumption.
  Qed.

  (** reading *)
  Lemma result_rows_le : lg_need (g_lat g) = false -> (result_rows w <= rows c)%nat /\ (n <= p_nlat c)%nat.
  Proof.
    destruct (lat_facts k w g U Hg) as (L1 & _). rewrite L1. intros E. destruct (conf_facts k w g U Hg) as (_ & C2 & _). rewrite C2, (rows_facts k w g U Hg).
    unfold result_rows, analysis_rows. rewrite E. destruct (w_nh w); lia.
  Qed.
  Lemma rows2 : (2 <= rows c)%nat /\ (2 <= p_nlat c)%nat /\ (rows c <= p_nlat c)%nat.
  Proof.
    destruct (conf_facts k w g U Hg) as (_ & C2 & _). rewrite C2, (rows_facts k w g U Hg). rewrite (analysis_odd w). destruct U as ((N & _) & _). destruct (w_nh w); lia.
  Qed.
  Lemma read_map_turned_gen m R0 (y y' : arr2 R) : (2 <= m)%nat -> (lg_need (g_lat g) = false -> (R0 <= m)%nat) ->
    (forall i j, lon_ok c i -> (1 <= j <= m)%nat -> y' i j = y (turn c s i) j) ->
    outcome (fun a b => forall row i, (row < R0)%nat -> (i < nl)%nat -> b row i = a row ((i + s) mod nl)%nat) (read_map w o m y) (read_map w' o' m y').
  Proof.
    intros Hm HR H. destruct (conf_facts k w g U Hg) as (C1 & _). unfold read_map.
    assert (X := each_rel (fun a b => forall row, (row < R0)%nat -> b row = a row)
      (fun i => back w o m (fun r => y (i + 1)%nat (r + 1)%nat)) (fun i => back w' o' m (fun r => y' (i + 1)%nat (r + 1)%nat))
      (fun i i' => (i' < nl)%nat /\ i = ((i' + s) mod nl)%nat)).
    assert (Y : outcome (fun a b : nat -> nat -> R => forall i i', (i' < nl)%nat /\ i = ((i' + s) mod nl)%nat -> forall row, (row < R0)%nat -> b row i' = a row i)
      (each (fun i => back w o m (fun r => y (i + 1)%nat (r + 1)%nat))) (each (fun i => back w' o' m (fun r => y' (i + 1)%nat (r + 1)%nat)))).
    { apply X.
      - intros i i' [Hi E]. apply (back_same k w g m R0 _ _ Hm HR). intros r Hr. rewrite H by (unfold lon_ok; rewrite ?C1; lia). rewrite turn_shift, E. reflexivity.
      - intros i. apply (back_uniform k w g).
      - intros i. apply (back_uniform k w g).
      - exists ((0 + s) mod nl)%nat, 0%nat. destruct U as (_ & N & _). split; [lia|reflexivity]. }
    clear X. destruct (each (fun i => back w o m _)) as [a|], (each (fun i => back w' o' m _)) as [b|]; cbn [outcome] in *; try exact Y. intros row i Hr Hi. apply Y; auto.
  Qed.
  Lemma read_map_turned (y y' : arr2 R) : turned2 c s y y' -> outcome (rolled_map w s) (read_map w o (rows c) y) (read_map w' o' (rows c) y').
  Proof. intros H. apply read_map_turned_gen; [apply rows2|apply result_rows_le|]. intros i j Hi Hj. apply H; assumption. Qed.
  Lemma read_field_turned_gen m R0 (y y' : arr3 R) : (2 <= m)%nat -> (lg_need (g_lat g) = false -> (R0 <= m)%nat) ->
    (forall i j l, lon_ok c i -> (1 <= j <= m)%nat -> lev_ok c l -> y' i j l = y (turn c s i) j l) ->
    outcome (rolled_field w s R0) (read_field w o m y) (read_field w' o' m y').
  Proof.
    intros Hm HR H. destruct (conf_facts k w g U Hg) as (_ & _ & C3 & _). destruct U as (_ & _ & N3 & _). fold (result_levels w) in N3.
    assert (L : forall l, (l < result_levels w)%nat -> outcome (fun a b => forall row i, (row < R0)%nat -> (i < nl)%nat -> b row i = a row ((i + s) mod nl)%nat)
      (read_map w o m (fun i j => y i j (l + 1)%nat)) (read_map w' o' m (fun i j => y' i j (l + 1)%nat))).
    { intros l Hl. apply read_map_turned_gen; [exact Hm|exact HR|]. intros i j Hi Hj. apply H; try assumption. unfold lev_ok. rewrite C3. lia. }
    assert (V : forall m (z z0 : arr2 R), (exists e, read_map w o m z = Raise e /\ read_map w o m z0 = Raise e) \/ (exists a b, read_map w o m z = Done a /\ read_map w o m z0 = Done b)).
    { intros m0 z z0. unfold read_map, each. destruct (back_uniform k w g m0 (fun r => z (0 + 1)%nat (r + 1)%nat) (fun r => z0 (0 + 1)%nat (r + 1)%nat)) as [(e & -> & ->)|(a & b & -> & ->)]; [left|right]; eauto. }
    assert (V' : forall m (z z0 : arr2 R), (exists e, read_map w' o' m z = Raise e /\ read_map w' o' m z0 = Raise e) \/ (exists a b, read_map w' o' m z = Done a /\ read_map w' o' m z0 = Done b)) by exact V.
    unfold read_field. assert (L0 := L 0%nat ltac:(lia)). cbn [Nat.add] in L0.
    destruct (read_map w o m (fun i j => y i j 1%nat)) as [a|e] eqn:E0, (read_map w' o' m (fun i j => y' i j 1%nat)) as [b|e'] eqn:E0'; cbn [outcome] in *; try exact L0.
    intros l row i Hl Hr Hi. assert (Ll := L l Hl).
    destruct (V m (fun i j => y i j (l + 1)%nat) (fun i j => y i j 1%nat)) as [(e & _ & E2)|(a1 & b1 & E1 & _)]; [congruence|].
    destruct (V' m (fun i j => y' i j (l + 1)%nat) (fun i j => y' i j 1%nat)) as [(e & _ & E2')|(a1' & b1' & E1' & _)]; [congruence|].
    rewrite E1, E1' in *. cbn [outcome] in Ll. apply Ll; assumption.
  Qed.
  Lemma read_field_turned (y y' : arr3 R) : turned3 c s y y' -> outcome (rolled_field w s (result_rows w)) (read_field w o (rows c) y) (read_field w' o' (rows c) y').
  Proof. intros H. apply read_field_turned_gen; [apply rows2|apply result_rows_le|]. intros i j l Hi Hj Hl. apply H; assumption. Qed.
  Lemma read_input_turned (y y' : arr3 R) : turned c s y y' -> outcome (rolled_field w s n) (read_field w o (p_nlat c) y) (read_field w' o' (p_nlat c) y').
  Proof. intros H. apply read_field_turned_gen; [apply rows2|apply result_rows_le|]. intros i j l Hi Hj Hl. apply H; assumption. Qed.
  Lemma read_profile_same (y y' : arr2 R) : same_profile c y y' -> outcome (same_table w) (read_profile w o (rows c) y) (read_profile w' o' (rows c) y').
  Proof.
    intros H. destruct (conf_facts k w g U Hg) as (_ & _ & C3 & _). destruct U as (_ & _ & N3 & _). fold (result_levels w) in N3. unfold read_profile.
    assert (Y : outcome (fun a b : nat -> nat -> R => forall l l', (l' < result_levels w)%nat /\ l = l' -> forall row, (row < result_rows w)%nat -> b row l' = a row l)
      (each (fun l => back w o (rows c) (fun r => y (r + 1)%nat (l + 1)%nat))) (each (fun l => back w' o' (rows c) (fun r => y' (r + 1)%nat (l + 1)%nat)))).
    { apply (each_rel (fun a b => forall row, (row < result_rows w)%nat -> b row = a row) (fun l => back w o (rows c) (fun r => y (r + 1)%nat (l + 1)%nat))
        (fun l => back w' o' (rows c) (fun r => y' (r + 1)%nat (l + 1)%nat)) (fun l l' => (l' < result_levels w)%nat /\ l = l')).
      - intros l l' [Hl ->]. apply (back_same k w g); [apply rows2|apply result_rows_le|]. intros r Hr. apply H; unfold row_ok, lev_ok; rewrite ?C3; lia.
      - intros i. apply (back_uniform k w g).
      - intros i. apply (back_uniform k w g).
      - exists 0%nat, 0%nat. split; [lia|reflexivity]. }
    destruct (each (fun l => back w o (rows c) _)) as [a|], (each (fun l => back w' o' (rows c) _)) as [b|]; cbn [outcome] in *; try exact Y. intros l row Hl Hr. apply Y; auto.
  Qed.
  Lemma read_rolled : rolled_outputs w s (read w o x) (read w' o' x').
  Proof.
    destruct stores_turned as (Ea & (F1 & F2 & F3) & Hq & Hr & Hb & Hl & _ & Hd & Hc & Hlam & Hp & (d & d' & E1 & E2 & Hs)).
    assert (Hq' := qref_unit_same c _ _ Hr).
    destruct Hr as (R1 & R2 & R3).
    destruct Hb as (B1 & B2 & B3 & B4 & B5 & B6 & B7 & B8 & B9 & B10 & B11 & B12). destruct Hl as (L1 & L2 & L3 & L4 & L5 & L6 & L7 & L8 & L9 & L10).
    set (y := analyse lib k w o nc) in *. set (y' := analyse lib k w' o' nc') in *. clearbody y y'.
    assert (St : outcome (rolled_field w s (result_rows w)) (out_stretch (read w o y)) (out_stretch (read w' o' y'))).
    { unfold read. cbn [out_stretch]. rewrite E1, E2. apply read_field_turned. intros i j l Hi Hj Hl. apply Hs; try assumption.
      assert (W := rows2). unfold row_ok, lat_ok in *. change (ob_conf o') with c. lia. }
    unfold read in *. unfold rolled_outputs.
    cbn [out_qgpv out_u out_v out_theta out_stat_n out_stat_s out_qref out_uref out_ptref out_f1 out_f2 out_f3 out_conv out_div out_heat out_lambda out_phi out_lwa_baro out_u_baro out_nc_baro out_lwa out_ua1 out_ua2 out_ep1 out_ep2 out_ep3 out_stretch] in *.
    change (ob_conf o') with c. rewrite Ea.
    split; [apply read_input_turned; exact Hq|]. split; [apply read_input_turned; exact F1|]. split; [apply read_input_turned; exact F2|]. split; [apply read_input_turned; exact F3|].
    split; [reflexivity|]. split; [reflexivity|].
    split; [apply read_profile_same; exact Hq'|]. split; [apply read_profile_same; exact R2|]. split; [apply read_profile_same; exact R3|].
    split; [apply read_map_turned; exact B3|]. split; [apply read_map_turned; exact B4|]. split; [apply read_map_turned; exact B5|].
    split; [apply read_map_turned; exact Hc|]. split; [apply read_map_turned; exact Hd|]. split; [apply read_map_turned; exact B8|].
    split; [apply read_map_turned; exact Hlam|]. split; [apply read_map_turned; exact Hp|].
    split; [apply read_map_turned; exact B1|]. split; [apply read_map_turned; exact B2|]. split; [apply read_map_turned; exact B11|].
    split; [apply read_field_turned; exact B12|]. split; [apply read_field_turned; exact L5|]. split; [apply read_field_turned; exact L6|].
    split; [apply read_field_turned; exact L7|]. split; [apply read_field_turned; exact L8|]. split; [apply read_field_turned; exact L9|]. exact St.
  Qed.
End Rolled.
