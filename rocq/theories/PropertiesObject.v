(** C128 to C139: whole objects, from the arrays given to the constructor to the arrays read from the properties.
    Vocabulary: ObjectSpec.v. *)
From Verif Require Import Base BaseFacts Spec SpecFacts Grid GridSpec GridProofs Pipeline PipelineSpec PipelineProofs RefStates DirInv
  Object ObjectSpec ObjectProofs ObjectProofs2 ObjectProofs3 ObjectProofs4.
From Coq Require Import ZifyNat.
Ltac Zify.zify_post_hook ::= Z.to_euclidean_division_equations.
Open Scope R_scope.

(** ** Arguments used in the examples: five latitudes 45 degrees apart, or four off the equator; heights 0, 1, 2, 3; the spline returns the first value *)
Definition some_library : library :=
  {| lb_spline := fun m _ y _ => match m with O => 0 | _ => y O end; lb_dspline := fun m _ y _ => match m with O => 0 | _ => 1 + y O * y O end;
     lb_inverse := fun _ a => a; lb_mem1 := fun _ _ => 3; lb_mem2 := fun _ _ => 5 |}.
Definition some_args (odd nh : bool) : qgargs :=
  {| w_nlon := 4; w_nlat := if odd then 5 else 4; w_nlev := 4; w_ylat := fun j => if odd then 45 * INR j - 90 else 45 * INR j - 67.5;
     w_plev := fun l => 1000 * exp (- INR l / 7); w_u := fun l j i => INR (l + j * i); w_v := fun l j i => INR (l * i) - INR j; w_t := fun l j i => 300 + INR (l * j + i);
     w_kmax := 3; w_maxit := 10; w_dz := 1; w_npart := None; w_tol := 1; w_rjac := 1; w_H := 7; w_cp := 1004; w_rr := 287; w_om := 1; w_a := 6;
     w_nh := nh; w_evenly := false |}.
Lemma some_height odd nh l : data_height (some_args odd nh) l = INR l.
Proof.
  unfold data_height, plev_to_height. cbn [some_args w_H w_plev]. replace (1000 * exp (- INR l / 7) / 1000) with (exp (- INR l / 7)) by field. rewrite ln_exp. field.
Qed.
Lemma some_usable k odd nh : (boundary k <= 1)%nat -> usable k (some_args odd nh).
Proof.
  intros B. unfold usable, balanced_latitudes. cbn [some_args w_nlat w_ylat w_nlon w_nlev w_evenly w_npart w_kmax].
  destruct odd; (split; [split; [lia|]; split; [intros j Hj; rewrite S_INR; lra|]|split; [lia|]; split; [lia|]; split; [|exact I]]).
  - right. split; [reflexivity|]. change (5 / 2)%nat with 2%nat. cbn [INR]. lra.
  - apply (Nat.le_trans _ _ _ B). apply Nat.leb_le; reflexivity.
  - left. split; [reflexivity|]. intros j Hj. destruct j as [|[|[|[|]]]]; [| | | |lia]; cbn [INR]; lra.
  - apply (Nat.le_trans _ _ _ B). apply Nat.leb_le; reflexivity.
Qed.
Lemma some_accepted odd nh : accepted_levels (some_args odd nh).
Proof.
  split; [cbn; lia|]. intros _. split.
  - cbn [some_args w_plev INR]. apply Rmult_le_compat_l; [lra|]. apply Rlt_le, exp_increasing. lra.
  - rewrite some_height. cbn. lra.
Qed.
Lemma some_symmetric odd nh : symmetric_latitudes (some_args odd nh).
Proof.
  intros j Hj. cbn [some_args w_nlat w_ylat] in *. destruct odd.
  - replace (5 - 1 - j)%nat with (4 - j)%nat by lia. rewrite minus_INR by lia. cbn [INR]. lra.
  - replace (4 - 1 - j)%nat with (3 - j)%nat by lia. rewrite minus_INR by lia. cbn [INR]. lra.
Qed.
Lemma some_range odd nh j : (j < w_nlat (some_args odd nh))%nat -> -90 <= w_ylat (some_args odd nh) j <= 90.
Proof.
  cbn [some_args w_nlat w_ylat]. intros Hj. destruct odd.
  - destruct j as [|[|[|[|[|]]]]]; [| | | | |lia]; cbn [INR]; lra.
  - destruct j as [|[|[|[|]]]]; [| | | |lia]; cbn [INR]; lra.
Qed.
Lemma some_data_only : data_only some_library.
Proof. split; intros [|m] x y y' h H; try reflexivity; cbn; rewrite (H 0%nat) by lia; reflexivity. Qed.

(** ** C131: which sessions succeed, and that every result is then readable *)
Theorem C131_session_succeeds_exactly_when :
  forall (lib : library) (k : class) (w : qgargs) (nc : field3), usable k w ->
    ((exists x, session lib k w nc = Done x) <-> accepted_levels w /\ (w_nh w = true -> Nat.even (w_nlat w) = false)) /\
    (forall x, session lib k w nc = Done x -> all_returned x) /\
    (accepted_levels w -> w_nh w = true -> Nat.even (w_nlat w) = true -> session lib k w nc = Raise ValueError).
Proof.
  intros lib k w nc U. assert (E := grid_exists k w U). split; [|split].
  - split.
    + intros [x Hx]. destruct (grid_of w) as [g|e] eqn:Hg; [|rewrite (session_refused lib k w nc e Hg) in Hx; discriminate].
      split; [apply E; exists g; reflexivity|]. intros NT. destruct (Nat.even (w_nlat w)) eqn:Ev; [|reflexivity].
      rewrite (session_north_even lib k w nc g U Hg NT Ev) in Hx. discriminate.
    + intros [L Hn]. apply E in L. destruct L as [g Hg]. destruct (w_nh w) eqn:N.
      * eexists. apply (session_north lib k w nc g U Hg N (Hn eq_refl)).
      * eexists. apply (session_global lib k w nc g U Hg N).
  - intros x Hx. destruct (grid_of w) as [g|e] eqn:Hg; [|rewrite (session_refused lib k w nc e Hg) in Hx; discriminate]. destruct (w_nh w) eqn:N.
    + destruct (Nat.even (w_nlat w)) eqn:Ev; [rewrite (session_north_even lib k w nc g U Hg N Ev) in Hx; discriminate|].
      destruct (session_north lib k w nc g U Hg N Ev) as [Q A]. rewrite Q in Hx. injection Hx as <-. exact A.
    + destruct (session_global lib k w nc g U Hg N) as [Q A]. rewrite Q in Hx. injection Hx as <-. exact A.
  - intros L NT Ev. apply E in L. destruct L as [g Hg]. exact (session_north_even lib k w nc g U Hg NT Ev).
Qed.
Print Assumptions C131_session_succeeds_exactly_when.
Lemma global_session lib k w nc : usable k w -> accepted_levels w -> w_nh w = false -> exists x, session lib k w nc = Done x.
Proof. intros U L NF. apply (C131_session_succeeds_exactly_when lib k w nc U). split; [exact L|]. rewrite NF. discriminate. Qed.
Example C131_applies : forall odd, usable (NHN22 1) (some_args odd false) /\ accepted_levels (some_args odd false) /\
  (exists x, session some_library (NHN22 1) (some_args odd false) (fun _ _ _ => 1) = Done x) /\
  (exists x, session some_library NH18 (some_args true true) (fun _ _ _ => 1) = Done x) /\
  session some_library NH18 (some_args false true) (fun _ _ _ => 1) = Raise ValueError.
Proof.
  intros odd. assert (U : usable (NHN22 1) (some_args odd false)) by (apply some_usable; cbn; lia). split; [exact U|]. split; [apply some_accepted|]. split; [|split].
  - apply (C131_session_succeeds_exactly_when _ _ _ _ U). split; [apply some_accepted|discriminate].
  - apply C131_session_succeeds_exactly_when; [apply some_usable; cbn; lia|]. split; [apply some_accepted|reflexivity].
  - apply C131_session_succeeds_exactly_when; [apply some_usable; cbn; lia|apply some_accepted|reflexivity|reflexivity].
Qed.

(** ** C128: longitudes relabelled *)
Theorem C128_rolled_input_gives_rolled_output :
  forall (lib : library) (k : class) (w : qgargs) (s : nat) (u' v' t' nc nc' : field3),
    data_only lib -> usable k w ->
    rolled_input w s (w_nlev w) (w_nlat w) (w_u w) u' -> rolled_input w s (w_nlev w) (w_nlat w) (w_v w) v' -> rolled_input w s (w_nlev w) (w_nlat w) (w_t w) t' ->
    rolled_input w s (result_levels w) (analysis_rows w) nc nc' ->
    outcome (rolled_outputs w s) (session lib k w nc) (session lib k (with_data w u' v' t') nc').
Proof.
  intros lib k w s u' v' t' nc nc' Hlib U Hu Hv Ht Hnc. destruct (grid_of w) as [g|e] eqn:Hg.
  - assert (X := read_rolled k w g s U Hg u' v' t' Hu Hv Ht lib Hlib nc nc' Hnc).
    rewrite (session_eq lib k w nc g Hg). rewrite (session_eq lib k (with_data w u' v' t') nc' g Hg).
    assert (Y := proj1 X). set (y := read w _ _) in *. set (y' := read (with_data w u' v' t') _ _) in *. clearbody y y'.
    destruct (out_qgpv y), (out_qgpv y'); cbn in Y |- *; try contradiction; assumption.
  - rewrite (session_refused lib k w nc e Hg). rewrite (session_refused lib k (with_data w u' v' t') nc' e Hg). reflexivity.
Qed.
Print Assumptions C128_rolled_input_gives_rolled_output.
Definition roll (w : qgargs) (s : nat) (x : field3) : field3 := fun l j i => x l j ((i + s) mod w_nlon w)%nat.
Example C128_applies : forall odd s, let w := some_args odd false in
  (exists x, session some_library (NHN22 1) w (fun _ j i => INR (j * i)) = Done x) /\
  outcome (rolled_outputs w s) (session some_library (NHN22 1) w (fun _ j i => INR (j * i)))
    (session some_library (NHN22 1) (with_data w (roll w s (w_u w)) (roll w s (w_v w)) (roll w s (w_t w))) (roll w s (fun _ j i => INR (j * i)))).
Proof.
  intros odd s w. assert (U : usable (NHN22 1) w) by (apply some_usable; cbn; lia). split.
  - apply (C131_session_succeeds_exactly_when _ _ _ _ U). split; [apply some_accepted|discriminate].
  - apply C128_rolled_input_gives_rolled_output; [exact some_data_only|exact U|..]; intros l j i _ _ _; reflexivity.
Qed.

(** ** C129: the mirror image *)
Theorem C129_nh18_mirrored_input_gives_mirrored_output :
  forall (lib : library) (w : qgargs) (u' v' t' nc nc' : field3),
    data_only lib -> usable NH18 w -> accepted_levels w -> w_nh w = false -> symmetric_latitudes w -> (forall j, (j < w_nlat w)%nat -> -90 <= w_ylat w j <= 90) ->
    mirrored_input w 1 (w_nlev w) (w_nlat w) (w_u w) u' -> mirrored_input w (-1) (w_nlev w) (w_nlat w) (w_v w) v' ->
    mirrored_input w 1 (w_nlev w) (w_nlat w) (w_t w) t' -> mirrored_input w (-1) (result_levels w) (analysis_rows w) nc nc' ->
    both (mirrored_outputs w) (session lib NH18 w nc) (session lib NH18 (with_data w u' v' t') nc').
Proof.
  intros lib w u' v' t' nc nc' Hlib U L NF Sym In Hu Hv Ht Hnc. apply (grid_exists NH18 w U) in L. destruct L as [g Hg].
  rewrite (proj1 (session_global lib NH18 w nc g U Hg NF)). rewrite (proj1 (session_global lib NH18 (with_data w u' v' t') nc' g U Hg NF)).
  exact (read_mirrored w g U Hg NF Sym In u' v' t' Hu Hv Ht lib Hlib nc nc' Hnc).
Qed.
Print Assumptions C129_nh18_mirrored_input_gives_mirrored_output.
(** For QGFieldNHN22 the QGPV, the static stabilities, Qref, LWA, the mean wind and the mean forcing are mirrored.  Missing: Uref, the reference
    temperature and the fluxes computed from them, which are not (C110). *)
Theorem C129_nhn22_mirrored_input_gives_mirrored_activity_partial :
  forall (lib : library) (b : nat) (w : qgargs) (u' v' t' nc nc' : field3),
    data_only lib -> (1 <= b)%nat -> usable (NHN22 b) w -> accepted_levels w -> w_nh w = false -> symmetric_latitudes w ->
    (forall j, (j < w_nlat w)%nat -> -90 <= w_ylat w j <= 90) ->
    mirrored_input w 1 (w_nlev w) (w_nlat w) (w_u w) u' -> mirrored_input w (-1) (w_nlev w) (w_nlat w) (w_v w) v' ->
    mirrored_input w 1 (w_nlev w) (w_nlat w) (w_t w) t' -> mirrored_input w (-1) (result_levels w) (analysis_rows w) nc nc' ->
    both (mirrored_activity w) (session lib (NHN22 b) w nc) (session lib (NHN22 b) (with_data w u' v' t') nc').
Proof.
  intros lib b w u' v' t' nc nc' Hlib Hb U L NF Sym In Hu Hv Ht Hnc. apply (grid_exists (NHN22 b) w U) in L. destruct L as [g Hg].
  rewrite (proj1 (session_global lib (NHN22 b) w nc g U Hg NF)). rewrite (proj1 (session_global lib (NHN22 b) (with_data w u' v' t') nc' g U Hg NF)).
  exact (read_activity b w g U Hb Hg NF Sym In u' v' t' Hu Hv Ht lib Hlib nc nc' Hnc).
Qed.
Print Assumptions C129_nhn22_mirrored_input_gives_mirrored_activity_partial.
Definition image (sg : R) (n : nat) (x : field3) : field3 := fun l j i => sg * x l (n - 1 - j)%nat i.
Example C129_applies : forall odd, let w := some_args odd false in let n := w_nlat w in
  let w' := with_data w (image 1 n (w_u w)) (image (-1) n (w_v w)) (image 1 n (w_t w)) in let nc := fun _ j i => INR (j * i) in
  both (mirrored_outputs w) (session some_library NH18 w nc) (session some_library NH18 w' (image (-1) (analysis_rows w) nc)) /\
  both (mirrored_activity w) (session some_library (NHN22 1) w nc) (session some_library (NHN22 1) w' (image (-1) (analysis_rows w) nc)) /\
  away w 0 /\ away w (n - 1).
Proof.
  intros odd w n w' nc. split; [|split].
  - apply C129_nh18_mirrored_input_gives_mirrored_output; [exact some_data_only|apply some_usable; cbn; lia|apply some_accepted|reflexivity|apply some_symmetric|apply some_range|..]; intros l j i _ _ _; reflexivity.
  - apply C129_nhn22_mirrored_input_gives_mirrored_activity_partial; [exact some_data_only|lia|apply some_usable; cbn; lia|apply some_accepted|reflexivity|apply some_symmetric|apply some_range|..]; intros l j i _ _ _; reflexivity.
  - unfold away, n, w. destruct odd; cbn [some_args w_nlat w_ylat Nat.even Nat.sub INR]; [split; lra|]. rewrite Rabs_left, Rabs_right by lra. split; lra.
Qed.

(** ** C130: one hemisphere or both *)
Theorem C130_northern_only_gives_the_northern_rows :
  forall (lib : library) (k : class) (w : qgargs) (nc : field3),
    usable k w -> accepted_levels w -> symmetric_latitudes w -> Nat.even (w_nlat w) = false -> match k with NH18 => True | NHN22 b => (1 <= b)%nat end ->
    both (same_northern_outputs w) (session lib k (with_mode w true) nc) (session lib k (with_mode w false) nc).
Proof.
  intros lib k w nc U L Sym Od Hk.
  destruct (proj1 (grid_exists k (with_mode w true) U) L) as [g1 H1]. destruct (proj1 (grid_exists k (with_mode w false) U) L) as [g0 H0].
  rewrite (proj1 (session_north lib k (with_mode w true) nc g1 U H1 eq_refl Od)). rewrite (proj1 (session_global lib k (with_mode w false) nc g0 U H0 eq_refl)).
  exact (read_modes k w g1 g0 U H1 H0 Sym lib nc Hk).
Qed.
Print Assumptions C130_northern_only_gives_the_northern_rows.
(** on grids without the equator there is no northern-only session to compare with *)
Theorem C130_even_grids_refuted :
  ~ forall (lib : library) (k : class) (w : qgargs) (nc : field3),
    usable k w -> accepted_levels w -> symmetric_latitudes w -> match k with NH18 => True | NHN22 b => (1 <= b)%nat end ->
    both (same_northern_outputs w) (session lib k (with_mode w true) nc) (session lib k (with_mode w false) nc).
Proof.
  intros F. specialize (F some_library NH18 (some_args false false) (fun _ _ _ => 0) (some_usable NH18 false false ltac:(cbn; lia)) (some_accepted _ _) (some_symmetric _ _) I).
  change (with_mode (some_args false false) true) with (some_args false true) in F.
  assert (E := proj2 (proj2 (proj2 (proj2 (C131_applies false))))).
  assert (X := proj2 (proj2 (C131_session_succeeds_exactly_when some_library NH18 (some_args false true) (fun _ _ _ => 0) (some_usable NH18 false true ltac:(cbn; lia)))) (some_accepted _ _) eq_refl eq_refl).
  rewrite X in F. exact F.
Qed.
Print Assumptions C130_even_grids_refuted.
Example C130_applies : both (same_northern_outputs (some_args true false)) (session some_library (NHN22 1) (some_args true true) (fun _ _ _ => 2)) (session some_library (NHN22 1) (some_args true false) (fun _ _ _ => 2)).
Proof. apply (C130_northern_only_gives_the_northern_rows some_library (NHN22 1) (some_args true false)); [apply some_usable; cbn; lia|apply some_accepted|apply some_symmetric|reflexivity|lia]. Qed.

(** ** C133: reported wave activity is not negative *)
Theorem C133_reported_wave_activity_is_not_negative :
  forall (lib : library) (k : class) (w : qgargs) (nc : field3) (x : outputs),
    usable k w -> session lib k w nc = Done x -> 0 <= w_a w -> (if w_evenly w then data_height w 0 < data_height w 1 else 0 < w_dz w) ->
    (forall j, (j < w_nlat w)%nat -> -90 <= w_ylat w j <= 90) ->
    gives (out_lwa_baro x) (fun y => forall row i, (row < result_rows w)%nat -> 0 <= y row i) /\
    gives (out_lwa x) (fun y => forall l row i, (row < result_rows w)%nat -> 0 <= y l row i).
Proof.
  intros lib k w nc x U Hx Ha Hz In. destruct (grid_of w) as [g|e] eqn:Hg; [|rewrite (session_refused lib k w nc e Hg) in Hx; discriminate].
  assert (B := stored_lwa_nonneg lib k w nc g U Hg Ha Hz). assert (T := stored_layer_nonneg lib k w nc g). destruct (w_nh w) eqn:N.
  - destruct (Nat.even (w_nlat w)) eqn:Ev; [rewrite (session_north_even lib k w nc g U Hg N Ev) in Hx; discriminate|].
    rewrite (proj1 (session_north lib k w nc g U Hg N Ev)) in Hx. injection Hx as <-. set (y := analyse lib k w _ nc) in *. clearbody y.
    cbn [read out_lwa_baro out_lwa]. rewrite (rows_north k w g U Hg N), (read_map_north k w g U Hg N), (field_odd k w g U Hg _ _ Ev).
    unfold north_column. rewrite Ev. split; cbn; intros; [apply B|apply T].
  - rewrite (proj1 (session_global lib k w nc g U Hg N)) in Hx. injection Hx as <-. set (y := analyse lib k w _ nc) in *. clearbody y.
    cbn [read out_lwa_baro out_lwa]. rewrite (rows_global k w g U Hg N), (read_map_global k w g U Hg N), (read_field_global k w g U Hg N).
    unfold result_rows. rewrite N. split; cbn [gives]; intros; apply (column_nonneg k w U In); try assumption; intros; [apply B|apply T].
Qed.
Print Assumptions C133_reported_wave_activity_is_not_negative.
Example C133_applies : forall odd, exists x, session some_library NH18 (some_args odd false) (fun _ _ _ => 0) = Done x /\
  gives (out_lwa_baro x) (fun y => forall row i, (row < result_rows (some_args odd false))%nat -> 0 <= y row i).
Proof.
  intros odd. assert (U : usable NH18 (some_args odd false)) by (apply some_usable; cbn; lia).
  destruct (global_session some_library NH18 (some_args odd false) (fun _ _ _ => 0) U (some_accepted _ _) eq_refl) as [x Hx].
  exists x. split; [exact Hx|]. apply (C133_reported_wave_activity_is_not_negative some_library NH18 _ (fun _ _ _ => 0) x U Hx); [cbn; lra|cbn; lra|apply some_range].
Qed.

(** ** C132: numbers derived from the grid.  dphi is pi over the number of latitude steps of the analysis, dlambda 2 pi over the number of
    longitudes; counted from the northern end, row jd + eq_boundary_index is the equator; the heights are those of the results *)
Theorem C132_derived_grid_numbers :
  forall (k : class) (w : qgargs) (o : qgobj), usable k w -> create k w = Done o ->
    g_dphi (ob_grid o) * INR (analysis_rows w - 1) = PI /\ p_dphi (ob_conf o) = g_dphi (ob_grid o) /\
    g_dlambda (ob_grid o) * INR (w_nlon w) = 2 * PI /\ p_dlambda (ob_conf o) = g_dlambda (ob_grid o) /\
    analysis_latitude w (analysis_rows w - (p_jd (ob_conf o) + boundary k)) = 0 /\ analysis_latitude w (analysis_rows w - g_jd (ob_grid o)) = 0 /\
    analysis_latitude w (p_eq (ob_conf o) - 1) = 0 /\
    (forall l, p_height (ob_conf o) l = result_height w l) /\ p_dz (ob_conf o) = result_height w 1 - result_height w 0.
Proof.
  intros k w o U Ho. rewrite create_eq in Ho. destruct (grid_of w) as [g|] eqn:Hg; [|discriminate]. injection Ho as <-.
  destruct (conf_centred k w g U Hg) as (_ & _ & _ & _ & _ & _ & P1 & P2). destruct (conf_facts k w g U Hg) as (C1 & C2 & C3 & C4 & C5 & C6 & C7).
  assert (E := analysis_odd w). assert (Hp := parity w). assert (N4 := proj1 (proj1 U)).
  assert (Z : analysis_latitude w (w_nlat w / 2) = 0).
  { unfold analysis_latitude. destruct (proj2 (proj2 (proj1 U))) as [[Ev _]|[Od Z]]; [rewrite Ev in *|rewrite Od in *; exact Z].
    assert (Q : INR (w_nlat w) = 2 * INR (w_nlat w / 2)) by (rewrite Hp at 1; rewrite mult_INR; reflexivity). rewrite Q. assert (INR (w_nlat w / 2) <> 0) by (apply not_0_INR; lia). field. assumption. }
  assert (J : g_jd g = (w_nlat w / 2 + 1)%nat).
  { destruct (lat_facts k w g U Hg) as (_ & L2 & _). assert (Q := Hg). unfold grid_of, qg_init in Q.
    match type of Q with match ?v with _ => _ end = _ => destruct v as [[[? ?] ?]|]; [|discriminate] end.
    destruct broadcast_shapes; [|discriminate]. destruct check_and_flip_ylat; [|discriminate]. destruct list_eqb; [|discriminate]. destruct list_eqb; [|discriminate].
    cbn [negb] in Q. injection Q as <-. cbn [g_lat g_jd] in *. rewrite L2. clear - E. assert (M : (2 <> 0)%nat) by lia. assert (D := Nat.div_mod (analysis_rows w) 2 M). assert (B := Nat.mod_upper_bound (analysis_rows w) 2 M).
    change (analysis_rows w / 2 + analysis_rows w mod 2 = w_nlat w / 2 + 1)%nat. lia. }
  rewrite C4 in P1. rewrite C1 in P2. cbn [object_of ob_grid ob_conf conf_of p_dphi p_dlambda p_dz p_height] in *.
  assert (HH := result_height_eq w g Hg). destruct (grid_inv w g Hg) as (_ & _ & _ & _ & _ & _ & _ & _ & _ & Ge & Gu).
  split; [|split; [reflexivity|]]; [|split; [exact P2|]; split; [reflexivity|]; split; [|split; [|split; [|split]]]].
  - rewrite E. replace (2 * (w_nlat w / 2 + 1) - 1 - 1)%nat with (2 * (w_nlat w / 2 + 1 - 1))%nat by lia. rewrite mult_INR. change (INR 2) with 2. lra.
  - rewrite C6. destruct U as (_ & _ & _ & NB & _).
    replace (analysis_rows w - (w_nlat w / 2 + 1 - boundary k + boundary k))%nat with (w_nlat w / 2)%nat by lia. exact Z.
  - rewrite J, E. replace (2 * (w_nlat w / 2 + 1) - 1 - (w_nlat w / 2 + 1))%nat with (w_nlat w / 2)%nat by lia. exact Z.
  - rewrite C4. replace (w_nlat w / 2 + 1 - 1)%nat with (w_nlat w / 2)%nat by lia. exact Z.
  - intros l. rewrite HH. reflexivity.
  - unfold result_height. destruct (w_evenly w); [exact (proj2 (Ge eq_refl))|]. destruct (Gu eq_refl) as (_ & -> & _). cbn [INR]. ring.
Qed.
Print Assumptions C132_derived_grid_numbers.
(** on a grid without the equator dphi is therefore the spacing of the analysis rows; a grid with the equator has to reach from pole to pole *)
Theorem C132_dphi_is_the_spacing_from_pole_to_pole :
  forall (k : class) (w : qgargs) (o : qgobj) (d : R), usable k w -> create k w = Done o ->
    (Nat.even (w_nlat w) = false -> uniform_latitudes w d /\ w_ylat w 0 = -90 /\ w_ylat w (w_nlat w - 1) = 90) ->
    forall row, (S row < analysis_rows w)%nat -> g_dphi (ob_grid o) = (analysis_latitude w (S row) - analysis_latitude w row) * (PI / 180).
Proof.
  intros k w o d U Ho H row Hr. destruct (C132_derived_grid_numbers k w o U Ho) as (P & _). unfold analysis_rows in *. unfold analysis_latitude. assert (N4 := proj1 (proj1 U)).
  destruct (Nat.even (w_nlat w)).
  - replace (w_nlat w + 1 - 1)%nat with (w_nlat w) in P by lia. assert (Q : INR (w_nlat w) <> 0) by (apply not_0_INR; lia). rewrite S_INR.
    replace (g_dphi (ob_grid o)) with (g_dphi (ob_grid o) * INR (w_nlat w) / INR (w_nlat w)) by (field; assumption). rewrite P. field. assumption.
  - destruct (H eq_refl) as (Un & A & B).
    assert (L : forall j, (j < w_nlat w)%nat -> w_ylat w j = -90 + INR j * d).
    { intros j. induction j; intros Hj; [rewrite A; cbn; ring|]. assert (X := Un j Hj). rewrite S_INR. specialize (IHj ltac:(lia)). lra. }
    rewrite !L by lia. rewrite S_INR. rewrite L in B by lia. assert (Q : INR (w_nlat w - 1) <> 0) by (apply not_0_INR; lia).
    replace (g_dphi (ob_grid o)) with (g_dphi (ob_grid o) * INR (w_nlat w - 1) / INR (w_nlat w - 1)) by (field; assumption). rewrite P.
    replace PI with (PI * (INR (w_nlat w - 1) * d) / 180) at 1 by (replace (INR (w_nlat w - 1) * d) with 180 by lra; field). field. assumption.
Qed.
Print Assumptions C132_dphi_is_the_spacing_from_pole_to_pole.
Definition off_pole_args : qgargs :=
  {| w_nlon := 4; w_nlat := 5; w_nlev := 4; w_ylat := fun j => 36 * INR j - 72; w_plev := fun l => 1000 * exp (- INR l / 7);
     w_u := fun _ _ _ => 0; w_v := fun _ _ _ => 0; w_t := fun _ _ _ => 300; w_kmax := 3; w_maxit := 10; w_dz := 1; w_npart := None; w_tol := 1; w_rjac := 1;
     w_H := 7; w_cp := 1004; w_rr := 287; w_om := 1; w_a := 6; w_nh := false; w_evenly := false |}.
(** an evenly spaced grid with the equator that stops short of the poles is accepted, with another dphi *)
Theorem C132_dphi_is_the_spacing_refuted :
  ~ forall (k : class) (w : qgargs) (o : qgobj) (d : R), usable k w -> create k w = Done o -> Nat.even (w_nlat w) = false -> uniform_latitudes w d ->
    g_dphi (ob_grid o) = d * (PI / 180).
Proof.
  intros F. assert (U : usable NH18 off_pole_args).
  { unfold usable, balanced_latitudes. cbn [off_pole_args w_nlat w_ylat w_nlon w_nlev w_evenly w_npart w_kmax boundary]. split; [|split; [lia|split; [lia|split; [lia|exact I]]]].
    split; [lia|]. split; [intros j Hj; rewrite S_INR; lra|]. right. split; [reflexivity|]. change (5 / 2)%nat with 2%nat. cbn [INR]. lra. }
  assert (L : accepted_levels off_pole_args) by exact (some_accepted true false).
  destruct (proj1 (grid_exists NH18 _ U) L) as [g Hg]. assert (C : create NH18 off_pole_args = Done (object_of NH18 off_pole_args g)) by (rewrite create_eq, Hg; reflexivity).
  specialize (F NH18 _ _ 36 U C eq_refl ltac:(intros j Hj; cbn [off_pole_args w_ylat]; rewrite S_INR; lra)).
  destruct (C132_derived_grid_numbers NH18 _ _ U C) as (P & _). rewrite F in P. cbn [off_pole_args analysis_rows w_nlat Nat.even Nat.sub INR] in P. assert (Q := PI_RGT_0). lra.
Qed.
Print Assumptions C132_dphi_is_the_spacing_refuted.
Example C132_applies : forall odd, exists o, create (NHN22 1) (some_args odd false) = Done o /\
  g_dphi (ob_grid o) = (analysis_latitude (some_args odd false) 1 - analysis_latitude (some_args odd false) 0) * (PI / 180).
Proof.
  intros odd. assert (U : usable (NHN22 1) (some_args odd false)) by (apply some_usable; cbn; lia). destruct (proj1 (grid_exists _ _ U) (some_accepted _ _)) as [g Hg].
  exists (object_of (NHN22 1) (some_args odd false) g). assert (C : create (NHN22 1) (some_args odd false) = Done (object_of (NHN22 1) (some_args odd false) g)) by (rewrite create_eq, Hg; reflexivity).
  split; [exact C|]. apply (C132_dphi_is_the_spacing_from_pole_to_pole _ _ _ 45 U C); [|destruct odd; cbn; lia]. intros Od. destruct odd; [|discriminate Od].
  split; [intros j Hj; cbn [some_args w_ylat]; rewrite S_INR; lra|]. cbn. split; lra.
Qed.

(** ** C134: reported winds and potential temperature *)
Lemma session_read lib k w nc x : session lib k w nc = Done x -> exists g, grid_of w = Done g /\ x = read w (object_of k w g) (analyse lib k w (object_of k w g) nc).
Proof.
  intros Hx. destruct (grid_of w) as [g|e] eqn:Hg; [|rewrite (session_refused lib k w nc e Hg) in Hx; discriminate].
  exists g. split; [reflexivity|]. rewrite (session_eq lib k w nc g Hg) in Hx. destruct (out_qgpv _); [|discriminate]. injection Hx as <-. reflexivity.
Qed.
(** with the equator among the latitudes: exact where a level of the results is a level of the data *)
Theorem C134_levels_of_the_data_are_kept :
  forall (lib : library) (k : class) (w : qgargs) (nc : field3) (x : outputs),
    usable k w -> session lib k w nc = Done x -> Nat.even (w_nlat w) = false -> descending_pressure w ->
    forall l l0, (l < result_levels w)%nat -> (l0 < w_nlev w)%nat -> result_height w l = data_height w l0 ->
    gives (out_u x) (fun y => forall j i, y l j i = w_u w l0 j i) /\ gives (out_v x) (fun y => forall j i, y l j i = w_v w l0 j i) /\
    gives (out_theta x) (fun y => forall j i, y l j i = w_t w l0 j i * Rpower (1000 / w_plev w l0) (w_rr w / w_cp w)).
Proof.
  intros lib k w nc x U Hx Od D l l0 Hl Hl0 E. destruct (session_read lib k w nc x Hx) as (g & Hg & ->).
  destruct (readback lib k w nc g U Hg Od) as (R1 & R2 & R3). rewrite R1, R2, R3. cbn [gives].
  assert (A := heights_ascending w D). assert (H2 : (2 <= w_nlev w)%nat) by apply (grid_inv w g Hg). assert (HH := result_height_eq w g Hg).
  assert (T : forall (y : field3) j i, to_levels w g y l j i = y l0 j i).
  { intros y j i. unfold to_levels, vertical_interpolation. destruct (w_evenly w) eqn:Ev.
    - unfold result_height, result_levels in *. rewrite Ev in *. f_equal. destruct (Nat.lt_total l l0) as [Q|[Q|Q]]; [|exact Q|].
      + assert (Z := A l l0 ltac:(lia)). lra.
      + assert (Z := A l0 l ltac:(lia)). lra.
    - rewrite HH, E. apply (interp1d_node (w_nlev w) (data_height w) (fun l => y l j i)); assumption. }
  split; [|split]; intros j i; rewrite T; try reflexivity. apply theta_power; [destruct D; lra|]. destruct D as [_ D].
  destruct l0; [assert (Q := D 0%nat ltac:(lia)); lra|apply (D l0); lia].
Qed.
Print Assumptions C134_levels_of_the_data_are_kept.
(** profiles linear in height are kept at every level, also below the lowest level of the data *)
Theorem C134_linear_profiles_are_kept :
  forall (lib : library) (k : class) (w : qgargs) (nc : field3) (x : outputs) (a b : nat -> nat -> R),
    usable k w -> session lib k w nc = Done x -> Nat.even (w_nlat w) = false -> descending_pressure w ->
    (forall l j i, (l < w_nlev w)%nat -> (j < w_nlat w)%nat -> (i < w_nlon w)%nat -> w_u w l j i = a j i + b j i * data_height w l) ->
    gives (out_u x) (fun y => forall l j i, (l < result_levels w)%nat -> (j < w_nlat w)%nat -> (i < w_nlon w)%nat -> y l j i = a j i + b j i * result_height w l).
Proof.
  intros lib k w nc x a b U Hx Od D Hu. destruct (session_read lib k w nc x Hx) as (g & Hg & ->).
  destruct (readback lib k w nc g U Hg Od) as (R1 & _). rewrite R1. cbn [gives]. intros l j i Hl Hj Hi.
  assert (A := heights_ascending w D). assert (H2 : (2 <= w_nlev w)%nat) by apply (grid_inv w g Hg). assert (HH := result_height_eq w g Hg).
  unfold to_levels, vertical_interpolation, result_levels in *. destruct (w_evenly w) eqn:Ev.
  - unfold result_height. rewrite Ev. apply Hu; assumption.
  - rewrite HH. apply (interp1d_line (w_nlev w) (data_height w) (fun l => w_u w l j i)); [assumption|assumption|]. intros l' Hl'. apply Hu; assumption.
Qed.
Print Assumptions C134_linear_profiles_are_kept.
Lemma some_descending odd nh : descending_pressure (some_args odd nh).
Proof.
  split; [cbn; lra|]. intros l Hl. cbn [some_args w_plev]. split; [assert (Q := exp_pos (- INR (S l) / 7)); lra|]. apply Rmult_lt_compat_l; [lra|]. apply exp_increasing. rewrite S_INR. lra.
Qed.
Example C134_applies : exists x, session some_library NH18 (some_args true false) (fun _ _ _ => 0) = Done x /\
  forall l, (l < 3)%nat -> gives (out_u x) (fun y => forall j i, y l j i = w_u (some_args true false) l j i).
Proof.
  assert (U : usable NH18 (some_args true false)) by (apply some_usable; cbn; lia).
  destruct (global_session some_library NH18 (some_args true false) (fun _ _ _ => 0) U (some_accepted _ _) eq_refl) as [x Hx].
  exists x. split; [exact Hx|]. intros l Hl. apply (C134_levels_of_the_data_are_kept some_library NH18 _ (fun _ _ _ => 0) x U Hx eq_refl (some_descending _ _) l l); [exact Hl|cbn; lia|].
  rewrite some_height. unfold result_height. cbn. ring.
Qed.
(** without the equator the winds go to another grid and back: winds linear in latitude survive it, others do not *)
Theorem C134_even_grids_keep_linear_winds_partial :
  forall (lib : library) (k : class) (w : qgargs) (nc : field3) (x : outputs) (a b : nat -> nat -> R),
    usable k w -> session lib k w nc = Done x -> Nat.even (w_nlat w) = true -> w_evenly w = true ->
    (forall l j i, (l < w_nlev w)%nat -> (j < w_nlat w)%nat -> (i < w_nlon w)%nat -> w_u w l j i = a l i + b l i * w_ylat w j) ->
    gives (out_u x) (fun y => forall l j i, (l < w_nlev w)%nat -> (j < w_nlat w)%nat -> (i < w_nlon w)%nat -> y l j i = w_u w l j i).
Proof.
  intros lib k w nc x a b U Hx Ev Hev Hu.
  assert (NF : w_nh w = false). { destruct (w_nh w) eqn:N; [|reflexivity]. assert (Q := proj2 (proj1 (proj1 (C131_session_succeeds_exactly_when lib k w nc U)) (ex_intro _ x Hx)) N). congruence. }
  destruct (session_read lib k w nc x Hx) as (g & Hg & ->). rewrite (readback_even lib k w nc g U Hg Ev NF Hev). cbn [gives]. intros l j i Hl Hj Hi. rewrite Hu by assumption.
  assert (N4 := proj1 (proj1 U)). apply interp1d_line; [lia|apply linspace_ascending; lia|]. intros r Hr.
  apply interp1d_line; [lia|apply balanced_ascending, U|]. intros r' Hr'. apply Hu; assumption.
Qed.
Print Assumptions C134_even_grids_keep_linear_winds_partial.
Definition shear_args : qgargs :=
  {| w_nlon := 4; w_nlat := 4; w_nlev := 4; w_ylat := fun j => 45 * INR j - 67.5; w_plev := fun l => 1000 * exp (- INR l / 7);
     w_u := fun l j _ => 5 + INR l * (45 * INR j - 67.5); w_v := fun _ _ _ => 0; w_t := fun _ _ _ => 300; w_kmax := 3; w_maxit := 10; w_dz := 1; w_npart := None; w_tol := 1; w_rjac := 1;
     w_H := 7; w_cp := 1004; w_rr := 287; w_om := 1; w_a := 6; w_nh := false; w_evenly := true |}.
Example C134_even_grids_case : exists x, session some_library NH18 shear_args (fun _ _ _ => 0) = Done x /\
  gives (out_u x) (fun y => y 2%nat 1%nat 0%nat = 5 + 2 * (-22.5)).
Proof.
  assert (U : usable NH18 shear_args).
  { assert (Q := some_usable NH18 false false ltac:(cbn; lia)). destruct Q as (Q1 & Q2 & Q3 & Q4 & Q5). split; [exact Q1|]. split; [exact Q2|]. split; [cbn; lia|]. split; [exact Q4|exact I]. }
  assert (L : accepted_levels shear_args) by (split; [cbn; lia|discriminate]).
  destruct (global_session some_library NH18 shear_args (fun _ _ _ => 0) U L eq_refl) as [x Hx]. exists x. split; [exact Hx|].
  assert (K := C134_even_grids_keep_linear_winds_partial some_library NH18 shear_args (fun _ _ _ => 0) x (fun _ _ => 5) (fun l _ => INR l) U Hx eq_refl eq_refl ltac:(intros; reflexivity)).
  destruct (out_u x); cbn [gives] in *; [|exact K]. rewrite K by (cbn; lia). cbn. lra.
Qed.
Definition spike_args : qgargs :=
  {| w_nlon := 4; w_nlat := 4; w_nlev := 4; w_ylat := fun j => 45 * INR j - 67.5; w_plev := fun l => 1000 * exp (- INR l / 7);
     w_u := fun _ j _ => if Nat.eqb j 1 then 1 else 0; w_v := fun _ _ _ => 0; w_t := fun _ _ _ => 300; w_kmax := 3; w_maxit := 10; w_dz := 1; w_npart := None; w_tol := 1; w_rjac := 1;
     w_H := 7; w_cp := 1004; w_rr := 287; w_om := 1; w_a := 6; w_nh := false; w_evenly := true |}.
Theorem C134_even_grids_keep_winds_refuted :
  ~ forall (lib : library) (k : class) (w : qgargs) (nc : field3) (x : outputs),
    usable k w -> session lib k w nc = Done x -> w_evenly w = true -> descending_pressure w -> symmetric_latitudes w ->
    gives (out_u x) (fun y => forall l j i, (l < w_nlev w)%nat -> (j < w_nlat w)%nat -> (i < w_nlon w)%nat -> y l j i = w_u w l j i).
Proof.
  intros F. assert (U : usable NH18 spike_args).
  { assert (Q := some_usable NH18 false false ltac:(cbn; lia)). destruct Q as (Q1 & Q2 & Q3 & Q4 & Q5). split; [exact Q1|]. split; [exact Q2|]. split; [cbn; lia|]. split; [exact Q4|exact I]. }
  assert (L : accepted_levels spike_args) by (split; [cbn; lia|discriminate]).
  destruct (global_session some_library NH18 spike_args (fun _ _ _ => 0) U L eq_refl) as [x Hx].
  specialize (F _ _ _ _ _ U Hx eq_refl (some_descending false false) (some_symmetric false false)). destruct (session_read _ _ _ _ _ Hx) as (g & Hg & ->).
  rewrite (readback_even _ _ _ _ g U Hg eq_refl eq_refl eq_refl) in F. cbn [gives] in F. specialize (F 0%nat 1%nat 0%nat ltac:(cbn; lia) ltac:(cbn; lia) ltac:(cbn; lia)).
  assert (A4 : ascending 4 (w_ylat spike_args)) by (apply balanced_ascending, U). assert (A5 := linspace_ascending 4 ltac:(lia)).
  assert (V : forall r, (r <= 4)%nat -> @linspace_lat R RNum 4 r = -90 + INR r * 45) by (intros r Hr; rewrite linspace_R by lia; replace (INR 4) with 4 by (cbn; lra); lra).
  change (w_nlat spike_args) with 4%nat in F.
  rewrite (interp1d_segment (4 + 1) (linspace_lat 4) _ _ 1 ltac:(lia) A5 ltac:(lia)) in F by (rewrite !V by lia; cbn; lra).
  rewrite !V in F by lia.
  rewrite (interp1d_segment 4 (w_ylat spike_args) _ (-90 + INR 2 * 45) 1 ltac:(lia) A4 ltac:(lia)) in F by (cbn; lra).
  rewrite (interp1d_segment 4 (w_ylat spike_args) _ (-90 + INR 1 * 45) 0 ltac:(lia) A4 ltac:(lia)) in F by (cbn; lra).
  cbn in F. lra.
Qed.
Print Assumptions C134_even_grids_keep_winds_refuted.

(** ** C135: the named tuple *)
Theorem C135_named_tuple_is_the_properties :
  forall (lib : library) (k : class) (w : qgargs) (nc : field3) (o : qgobj), usable k w -> create k w = Done o -> Nat.even (w_nlat w) = false ->
    let s := analyse lib k w o nc in let x := read w o s in
    tuple_rows o = result_rows w /\
    [out_f1 x; out_f2 x; out_f3 x; out_conv x; out_div x; out_heat x; out_lwa_baro x; out_u_baro x] = map (fun y => Done y) (tuple_maps s) /\
    out_lwa x = Done (tuple_lwa s).
Proof.
  intros lib k w nc o U Ho Od s x. rewrite create_eq in Ho. destruct (grid_of w) as [g|] eqn:Hg; [|discriminate]. injection Ho as <-.
  split; [|split].
  - unfold tuple_rows. rewrite (rows_facts k w g U Hg). unfold result_rows, analysis_rows. rewrite Od. reflexivity.
  - unfold x, s. set (y := analyse lib k w _ nc). clearbody y. cbn [read out_f1 out_f2 out_f3 out_conv out_div out_heat out_lwa_baro out_u_baro].
    assert (M : forall m z, read_map w (object_of k w g) m z = Done (fun row i => z (i + 1)%nat (row + 1)%nat)).
    { intros m z. unfold read_map, each, back, return_interp. cbn [object_of ob_grid]. destruct (lat_facts k w g U Hg) as (L1 & _). rewrite L1, Od. reflexivity. }
    rewrite !M. reflexivity.
  - unfold x. cbn [read out_lwa]. apply (field_odd k w g U Hg _ _ Od).
Qed.
Print Assumptions C135_named_tuple_is_the_properties.
(** without the equator the tuple has the rows of the analysis: one more than the properties *)
Theorem C135_named_tuple_rows_refuted :
  (forall (k : class) (w : qgargs) (o : qgobj), usable k w -> create k w = Done o -> Nat.even (w_nlat w) = true -> tuple_rows o = (result_rows w + 1)%nat) /\
  ~ forall (k : class) (w : qgargs) (o : qgobj), usable k w -> create k w = Done o -> tuple_rows o = result_rows w.
Proof.
  assert (P : forall (k : class) (w : qgargs) (o : qgobj), usable k w -> create k w = Done o -> Nat.even (w_nlat w) = true -> tuple_rows o = (result_rows w + 1)%nat).
  { intros k w o U Ho Ev. rewrite create_eq in Ho. destruct (grid_of w) as [g|] eqn:Hg; [|discriminate]. injection Ho as <-.
    unfold tuple_rows. rewrite (rows_facts k w g U Hg). unfold result_rows, analysis_rows. rewrite Ev. destruct (w_nh w); lia. }
  split; [exact P|]. intros F. assert (U : usable NH18 (some_args false false)) by (apply some_usable; cbn; lia). destruct (proj1 (grid_exists _ _ U) (some_accepted _ _)) as [g Hg].
  assert (C : create NH18 (some_args false false) = Done (object_of NH18 (some_args false false) g)) by (rewrite create_eq, Hg; reflexivity).
  assert (X := F _ _ _ U C). rewrite (P _ _ _ U C eq_refl) in X. lia.
Qed.
Print Assumptions C135_named_tuple_rows_refuted.
Example C135_applies : exists o, usable NH18 (some_args true true) /\ create NH18 (some_args true true) = Done o /\ tuple_rows o = 3%nat.
Proof.
  assert (U : usable NH18 (some_args true true)) by (apply some_usable; cbn; lia). destruct (proj1 (grid_exists _ _ U) (some_accepted _ _)) as [g Hg].
  assert (C : create NH18 (some_args true true) = Done (object_of NH18 (some_args true true) g)) by (rewrite create_eq, Hg; reflexivity).
  eexists. split; [exact U|]. split; [exact C|]. rewrite (proj1 (C135_named_tuple_is_the_properties some_library NH18 _ (fun _ _ _ => 0) _ U C eq_refl)). reflexivity.
Qed.

(** ** C136: forcing from heating.  With the equator among the latitudes it returns an array that fits the argument ncforce, and the linear
    interpolation in height reproduces heating given on the levels of the results; without the equator it never returns *)
Theorem C136_heating_to_forcing :
  forall (k : class) (w : qgargs) (o : qgobj) (av : averages R) (heating : field3), usable k w -> create k w = Done o ->
    ((exists nc, ncforce_from_heating_rate w o av heating = Some nc) <-> Nat.even (w_nlat w) = false) /\
    (Nat.even (w_nlat w) = false -> analysis_rows w = w_nlat w).
Proof.
  intros k w o av heating U Ho. rewrite create_eq in Ho. destruct (grid_of w) as [g|] eqn:Hg; [|discriminate]. injection Ho as <-.
  destruct (conf_facts k w g U Hg) as (C1 & C2 & C3 & C4 & _). assert (P := parity w). assert (K := proj1 (proj2 (proj2 U))). fold (result_levels w) in K.
  split; [|intros Od; unfold analysis_rows; rewrite Od; reflexivity].
  unfold ncforce_from_heating_rate, z_derivative_of_prod. rewrite C3, C4. destruct (Nat.eqb_spec (w_nlat w) (w_nlat w / 2 + 1 - 1 + 1 + (w_nlat w / 2 + 1 - 1))) as [E|E]; cbn [andb].
  - destruct (Nat.leb_spec 2 (result_levels w)); [|lia]. split; [|eexists; reflexivity]. intros _. destruct (Nat.even (w_nlat w)); [lia|reflexivity].
  - split; [intros [? Q]; discriminate|]. intros Od. rewrite Od in P. lia.
Qed.
Print Assumptions C136_heating_to_forcing.
Theorem C136_heating_on_every_grid_refuted :
  ~ forall (k : class) (w : qgargs) (o : qgobj) (av : averages R) (heating : field3), usable k w -> create k w = Done o -> exists nc, ncforce_from_heating_rate w o av heating = Some nc.
Proof.
  intros F. assert (U : usable NH18 (some_args false false)) by (apply some_usable; cbn; lia). destruct (proj1 (grid_exists _ _ U) (some_accepted _ _)) as [g Hg].
  assert (C : create NH18 (some_args false false) = Done (object_of NH18 (some_args false false) g)) by (rewrite create_eq, Hg; reflexivity).
  set (av := domain some_library NH18 (some_args false false) (object_of NH18 (some_args false false) g)).
  specialize (F _ _ _ av (fun _ _ _ => 1) U C). apply (proj1 (C136_heating_to_forcing _ _ _ _ _ U C)) in F. discriminate F.
Qed.
Print Assumptions C136_heating_on_every_grid_refuted.
Example C136_applies : exists o, create NH18 (some_args true false) = Done o /\
  exists nc, ncforce_from_heating_rate (some_args true false) o (domain some_library NH18 (some_args true false) o) (fun l j i => INR (l + j * i)) = Some nc.
Proof.
  assert (U : usable NH18 (some_args true false)) by (apply some_usable; cbn; lia). destruct (proj1 (grid_exists _ _ U) (some_accepted _ _)) as [g Hg].
  assert (C : create NH18 (some_args true false) = Done (object_of NH18 (some_args true false) g)) by (rewrite create_eq, Hg; reflexivity).
  eexists. split; [exact C|]. apply (C136_heating_to_forcing _ _ _ _ _ U C). reflexivity.
Qed.

(** ** C137: the kmax suggested when kmax is refused is accepted, and no larger one is *)
Definition with_kmax (w : qgargs) (kmax : nat) : qgargs :=
  {| w_nlon := w_nlon w; w_nlat := w_nlat w; w_nlev := w_nlev w; w_ylat := w_ylat w; w_plev := w_plev w; w_u := w_u w; w_v := w_v w; w_t := w_t w;
     w_kmax := kmax; w_maxit := w_maxit w; w_dz := w_dz w; w_npart := w_npart w; w_tol := w_tol w; w_rjac := w_rjac w;
     w_H := w_H w; w_cp := w_cp w; w_rr := w_rr w; w_om := w_om w; w_a := w_a w; w_nh := w_nh w; w_evenly := w_evenly w |}.
Theorem C137_suggested_kmax_is_the_largest_accepted :
  forall (k : class) (w : qgargs) (kmax : nat), 0 < w_dz w -> (2 <= w_nlev w)%nat -> w_plev w 1%nat <= w_plev w 0%nat -> w_evenly w = false -> usable k (with_kmax w kmax) ->
    ((exists o, create k (with_kmax w kmax) = Done o) <-> (Z.of_nat kmax <= suggested_kmax w)%Z) /\ suggested_kmax (with_kmax w kmax) = suggested_kmax w.
Proof.
  intros k w kmax Hd H2 Hp Ev U. split; [|reflexivity].
  transitivity (accepted_levels (with_kmax w kmax)).
  - rewrite (grid_exists k (with_kmax w kmax) U). split.
    + intros [o Ho]. rewrite create_eq in Ho. destruct (grid_of _) as [g|]; [eexists; reflexivity|discriminate].
    + intros [g Hg]. rewrite create_eq, Hg. eexists. reflexivity.
  - unfold accepted_levels, suggested_kmax. cbn [with_kmax w_nlev w_evenly w_plev w_kmax w_dz]. change (data_height (with_kmax w kmax)) with (data_height w).
    set (h := data_height w (w_nlev w - 1)). set (q := h / w_dz w). assert (Eh : h = q * w_dz w) by (unfold q; field; lra). destruct (base_Int_part q) as [B1 B2].
    rewrite INR_IZR_INZ. split.
    + intros (_ & Q). destruct (Q Ev) as [_ Q']. assert (IZR (Z.of_nat kmax) - 1 <= q) by (apply (Rmult_le_reg_r (w_dz w)); [exact Hd|lra]).
      assert (IZR (Z.of_nat kmax - 1) < IZR (Int_part q + 1)) by (rewrite minus_IZR, plus_IZR; lra). apply lt_IZR in H0. lia.
    + intros Q. split; [exact H2|]. intros _. split; [exact Hp|]. rewrite Eh. apply Rmult_le_compat_r; [lra|].
      apply IZR_le in Q. rewrite plus_IZR in Q. lra.
Qed.
Print Assumptions C137_suggested_kmax_is_the_largest_accepted.
Example C137_applies : suggested_kmax (some_args true false) = 4%Z /\ usable NH18 (with_kmax (some_args true false) 4) /\ exists o, create NH18 (with_kmax (some_args true false) 4) = Done o.
Proof.
  assert (E : suggested_kmax (some_args true false) = 4%Z).
  { unfold suggested_kmax. rewrite some_height. cbn [some_args w_nlev w_dz Nat.sub]. replace (INR 3 / 1) with (IZR 3) by (cbn; field).
    destruct (base_Int_part (IZR 3)) as [B1 B2]. apply le_IZR in B1. assert (IZR 3 - 1 < IZR (Int_part (IZR 3))) by lra. rewrite <- minus_IZR in H. apply lt_IZR in H. lia. }
  assert (U : usable NH18 (with_kmax (some_args true false) 4)).
  { destruct (some_usable NH18 true false ltac:(cbn; lia)) as (Q1 & Q2 & Q3 & Q4 & Q5). split; [exact Q1|]. split; [exact Q2|]. split; [cbn; lia|]. split; [exact Q4|exact I]. }
  split; [exact E|]. split; [exact U|]. apply (C137_suggested_kmax_is_the_largest_accepted NH18 (some_args true false) 4); [cbn; lra|cbn; lia|apply (proj2 (some_accepted true false) eq_refl)|reflexivity|exact U|rewrite E; lia].
Qed.

(** ** C138: what the constructors check about the order of the axes: the first step only *)
Theorem C138_first_steps_are_checked_partial :
  forall (k : class) (w : qgargs) (o : qgobj), create k w = Done o ->
    w_ylat w 0%nat <= w_ylat w 1%nat /\ (w_evenly w = false -> w_plev w 1%nat <= w_plev w 0%nat).
Proof.
  intros k w o Ho. rewrite create_eq in Ho. destruct (grid_of w) as [g|] eqn:Hg; [|discriminate].
  destruct (grid_inv w g Hg) as (C & _ & _ & _ & _ & _ & _ & _ & N & _ & V). split.
  - apply (accepted_iff (w_nlat w) (w_ylat w)). eexists. exact C.
  - intros Ev. apply (valid_plev w N). apply V. exact Ev.
Qed.
Print Assumptions C138_first_steps_are_checked_partial.
Definition disordered_args (e : bool) : qgargs :=
  {| w_nlon := 4; w_nlat := 5; w_nlev := 4; w_ylat := fun j => nth j [-60; -30; -45; 0; 45] 0; w_plev := fun l => nth l [800; 600; 900; 1 / 1000] 0;
     w_u := fun _ _ _ => 0; w_v := fun _ _ _ => 0; w_t := fun _ _ _ => 300; w_kmax := 1; w_maxit := 10; w_dz := 1; w_npart := None; w_tol := 1; w_rjac := 1;
     w_H := 7; w_cp := 1004; w_rr := 287; w_om := 1; w_a := 6; w_nh := false; w_evenly := e |}.
Lemma disordered_accepted e : exists o, create NH18 (disordered_args e) = Done o.
Proof.
  assert (B : exists g, check_and_flip_ylat 5 (w_ylat (disordered_args e)) = Done g).
  { apply accepted_iff. split; [lia|]. cbn [disordered_args w_ylat nth]. split; [lra|]. right. exists 3%nat. split; [lia|]. split; [reflexivity|].
    intros j Hj E. destruct j as [|[|[|[|[|]]]]]; try lia; cbn in E; lra. }
  destruct B as [lat L]. cut (exists g, grid_of (disordered_args e) = Done g). { intros [g Hg]. rewrite create_eq, Hg. eexists. reflexivity. }
  unfold grid_of, qg_init. change (w_nlev (disordered_args e)) with 4%nat. change (w_nlat (disordered_args e)) with 5%nat. change (w_nlon (disordered_args e)) with 4%nat. destruct e.
  - change (w_evenly (disordered_args true)) with true. change (4 <? 2)%nat with false. cbv iota. rewrite own_shape by lia. rewrite L. eexists. reflexivity.
  - assert (V : check_valid_plev 4 (w_plev (disordered_args false)) (w_H (disordered_args false)) (w_kmax (disordered_args false)) (w_dz (disordered_args false)) = None).
    { apply (valid_plev (disordered_args false)); [cbn; lia|]. cbn [disordered_args w_plev w_kmax w_dz w_nlev nth Nat.sub INR]. split; [lra|].
      unfold data_height, plev_to_height. cbn [disordered_args w_plev w_H nth]. replace ((1 - 1) * 1) with 0 by ring.
      assert (Q : ln (1 / 1000 / 1000) < ln 1) by (apply ln_increasing; lra). rewrite ln_1 in Q. lra. }
    change (w_evenly (disordered_args false)) with false. cbv iota. rewrite V. rewrite own_shape by lia. rewrite L. eexists. reflexivity.
Qed.
(** the first steps of this case are in order, as C138_first_steps_are_checked_partial demands *)
Example C138_case : exists o, create NH18 (disordered_args false) = Done o /\ w_ylat (disordered_args false) 0%nat < w_ylat (disordered_args false) 1%nat.
Proof. destruct (disordered_accepted false) as (o & Ho). exists o. split; [exact Ho|cbn; lra]. Qed.
Theorem C138_disordered_axes_are_rejected_refuted :
  (~ forall (k : class) (w : qgargs) (o : qgobj), create k w = Done o -> forall j, (S j < w_nlat w)%nat -> w_ylat w j <= w_ylat w (S j)) /\
  (~ forall (k : class) (w : qgargs) (o : qgobj), create k w = Done o -> forall l, (S l < w_nlev w)%nat -> w_plev w (S l) <= w_plev w l) /\
  (~ forall (k : class) (w : qgargs) (o : qgobj), create k w = Done o -> w_evenly w = true -> forall l, (S (S l) < w_nlev w)%nat ->
       data_height w (S (S l)) - data_height w (S l) = data_height w (S l) - data_height w l).
Proof.
  split; [|split]; intros F; [destruct (disordered_accepted false) as [o Ho]|destruct (disordered_accepted false) as [o Ho]|destruct (disordered_accepted true) as [o Ho]].
  - specialize (F _ _ _ Ho 1%nat ltac:(cbn; lia)). cbn in F. lra.
  - specialize (F _ _ _ Ho 1%nat ltac:(cbn; lia)). cbn in F. lra.
  - specialize (F _ _ _ Ho eq_refl 0%nat ltac:(cbn; lia)). unfold data_height, plev_to_height in F. cbn [disordered_args w_plev w_H nth] in F.
    assert (Q1 : ln (600 / 1000) < ln (800 / 1000)) by (apply ln_increasing; lra). assert (Q2 : ln (600 / 1000) < ln (900 / 1000)) by (apply ln_increasing; lra). lra.
Qed.
Print Assumptions C138_disordered_axes_are_rejected_refuted.

(** ** C139: ylat_ref_states are the latitudes of the results: all of them, or those from the equator northward *)
Theorem C139_latitudes_of_the_results :
  forall (k : class) (w : qgargs) (o : qgobj), usable k w -> symmetric_latitudes w -> create k w = Done o ->
    let (m, y) := ylat_ref_states w o in
    m = result_rows w /\ (w_nh w = false -> m = get_latitude_dim w) /\ (forall r, (S r < m)%nat -> y r < y (S r)) /\
    (forall v, (exists r, (r < m)%nat /\ y r = v) <-> (exists j, (j < w_nlat w)%nat /\ w_ylat w j = v /\ (w_nh w = true -> 0 <= v))).
Proof.
  intros k w o U Sym Ho. rewrite create_eq in Ho. destruct (grid_of w) as [g|] eqn:Hg; [|discriminate]. injection Ho as <-.
  assert (Asc := balanced_ascending _ _ (proj1 U)). assert (P := parity w). assert (N4 := proj1 (proj1 U)).
  assert (S2 : forall j, (j < w_nlat w)%nat -> (0 <= w_ylat w j <-> (w_nlat w - 1 - j <= j)%nat)).
  { intros j Hj. assert (Q := Sym j Hj). split.
    - intros H0. destruct (Nat.le_gt_cases (w_nlat w - 1 - j) j) as [|C]; [assumption|]. assert (X := Asc j (w_nlat w - 1 - j)%nat ltac:(lia)). lra.
    - intros C. destruct (Nat.eq_dec (w_nlat w - 1 - j) j) as [E|E]; [rewrite E in Q; lra|]. assert (X := Asc (w_nlat w - 1 - j)%nat j ltac:(lia)). lra. }
  unfold ylat_ref_states, result_rows. cbn [object_of ob_grid]. destruct (lat_facts k w g U Hg) as (L1 & _). rewrite L1. destruct (w_nh w); [destruct (Nat.even (w_nlat w))|].
  - split; [reflexivity|]. split; [try discriminate; reflexivity|]. split; [intros r Hr; apply Asc; lia|]. intros v. split.
    + intros (r & Hr & E). exists (w_nlat w - w_nlat w / 2 + r)%nat. split; [lia|]. split; [exact E|]. intros _. rewrite <- E. apply S2; lia.
    + intros (j & Hj & E & V). specialize (V eq_refl). rewrite <- E in V. apply S2 in V; [|exact Hj]. exists (j - (w_nlat w - w_nlat w / 2))%nat. split; [lia|]. rewrite <- E. f_equal. lia.
  - split; [reflexivity|]. split; [try discriminate; reflexivity|]. split; [intros r Hr; apply Asc; lia|]. intros v. split.
    + intros (r & Hr & E). exists (w_nlat w - (w_nlat w / 2 + 1) + r)%nat. split; [lia|]. split; [exact E|]. intros _. rewrite <- E. apply S2; lia.
    + intros (j & Hj & E & V). specialize (V eq_refl). rewrite <- E in V. apply S2 in V; [|exact Hj]. exists (j - (w_nlat w - (w_nlat w / 2 + 1)))%nat. split; [lia|]. rewrite <- E. f_equal. lia.
  - split; [reflexivity|]. split; [try discriminate; reflexivity|]. split; [intros r Hr; apply Asc; lia|]. intros v. split.
    + intros (r & Hr & E). exists r. split; [exact Hr|]. split; [exact E|discriminate].
    + intros (j & Hj & E & _). exists j. split; assumption.
Qed.
Print Assumptions C139_latitudes_of_the_results.
Example C139_applies : forall odd nh, exists o, usable NH18 (some_args odd nh) /\ symmetric_latitudes (some_args odd nh) /\ create NH18 (some_args odd nh) = Done o.
Proof.
  intros odd nh. assert (U : usable NH18 (some_args odd nh)) by (apply some_usable; cbn; lia). destruct (proj1 (grid_exists _ _ U) (some_accepted _ _)) as [g Hg].
  eexists. split; [exact U|]. split; [apply some_symmetric|]. rewrite create_eq, Hg. reflexivity.
Qed.
