(** Properties C141, C142 (continued) and C176: which arrays a call overwrites, which arrays it makes, and what happens when
    a call is repeated. *)
From Verif Require Import Alias AliasSpec AliasProofs AliasProofs3 PropertiesAlias.

(** the content of the arrays a call or a read returns; None for an exception *)
Definition shown {X} (r : @state X * option (list nat)) : option (list X) := option_map (map (cell (fst r))) (snd r).

(** the properties whose array a method writes into: its own results, and for compute_layerwise_lwa_fluxes also the heat flux *)
Definition overwrites (c : acfg) (m : method) (p : prop) : bool :=
  negb (a_even c) &&
  match m, p with
  | Refs, (P_uref | P_ptref) => true
  | LwaOnly, (P_lwa_baro | P_u_baro | P_lwa) => true
  | Fluxes _, (P_adv_flux_f1 | P_adv_flux_f2 | P_adv_flux_f3 | P_meridional_heat_flux | P_ncforce_baro | P_lwa_baro | P_u_baro | P_lwa) => true
  | Layerwise _, (P_ua1 | P_ua2 | P_ep1 | P_ep2 | P_ep3 | P_meridional_heat_flux) => true
  | Layerwise _, P_stretch_term => a_nh c
  | _, _ => false
  end.

Section Properties.
  Context {X : Type}.
  Variable K : kernel -> list (option X) -> X.
  Variable converges : list (option X) -> bool.

  Lemma top_step c st e n : n <= top st -> n <= top (fst (step K converges c st e)).
  Proof.
    intros H. apply (step_good K converges c (fun s => n <= top s)); trivial.
    - intros st0 i _ T. pose proof (top_exec K st0 i). lia.
    - intros st0 x T. cbn. lia.
    - destruct e; trivial.
  Qed.
  Lemma start c u v t y h : assigns_own K converges c [in_u; in_v; in_t] (create K c u v t y) h ->
    exists own, both c own (runs K converges c (create K c u v t y) h).
  Proof.
    intros A. apply (both_runs K converges c h [in_u; in_v; in_t]); trivial. apply (fewer c inputs); [|apply create_both].
    intros l H. cbn in *. tauto.
  Qed.

  Definition refs_call (c : acfg) (is : list (@instr)) (ps : list prop) (cs : list src) (st : @state X) : @state X * option (list nat) :=
    match get_prop K c P_qgpv st with
    | (st0, None) => (st0, None)
    | (st0, Some _) =>
        let bad := negb (converges (map (peek st0) cs)) in
        let st1 := execs K st0 is in
        let non := nonconv st1 || bad in
        get_props K c ps (flags st1 non (if non then refs_done st1 else true) (layer_done st1))
    end.
  Lemma call_keeps c p m own st2 l : both c own st2 -> l < top st2 ->
    safe c l st2 \/ ((a_even c = false /\ p <> P_qref) /\ env st2 (prop_slot p) = Some l) ->
    overwrites c m p = false -> cell (fst (step K converges c st2 (Call m))) l = cell st2 l.
  Proof.
    intros B2 L2 Src Ov. assert (W2 := both_wf c own st2 B2).
    assert (J : forall s', inplace c s' = true -> overwrites c m p = false -> env st2 s' = Some l ->
                (a_even c = false /\ p <> P_qref) /\ (prop_slot p = s' \/ partner (prop_slot p) = Some s')).
    { intros s' I _ E'. destruct Src as [S|[Ev Es]]; [now apply S in E'|]. split; trivial.
      exact (proj2 B2 s' (prop_slot p) l I E' Es). }
    assert (Q : forall is st0, Forall (instr_ok c []) is -> wf st0 -> ext st2 st0 -> (forall s', env st0 s' = env st2 s') ->
              (forall s', existsb (into s') is = true -> inplace c s' = true /\
                 (a_even c = false /\ p <> P_qref -> prop_slot p <> s' /\ partner (prop_slot p) <> Some s')) ->
              cell (execs K st0 is) l = cell st2 l).
    { intros is st0 O W0 X0 Ev H. rewrite <- (e_cell _ _ X0 l L2). apply (execs_leave K c is l st0 O).
      - pose proof (e_top _ _ X0). lia.
      - intros s' I E'. destruct (H s' I) as [H1 H2]. rewrite Ev in E'. destruct (J s' H1 Ov E') as [J1 [J2|J2]]; destruct (H2 J1); congruence. }
    clear J Src.
    assert (Kp : forall ps st0, wf st0 -> top st2 <= top st0 -> cell st0 l = cell st2 l -> cell (fst (get_props K c ps st0)) l = cell st2 l).
    { intros ps st0 W0 T0 C0. destruct (get_props_ext K c ps st0 W0) as [X0 _]. rewrite (e_cell _ _ X0 l ltac:(lia)). exact C0. }
    assert (Tp : forall is st0, top st0 <= top (execs K st0 is)).
    { induction is as [|i is IH]; intros st0; trivial. change (execs K st0 (i :: is)) with (execs K (exec K st0 i) is).
      pose proof (top_exec K st0 i). specialize (IH (exec K st0 i)). lia. }
    assert (Wi : forall is st0, Forall (instr_ok c []) is -> wf st0 -> wf (execs K st0 is)).
    { induction is as [|i is IH]; intros st0 O W0; trivial. inversion O; subst. apply (IH (exec K st0 i)); trivial. now apply (exec_wf K c). }
    assert (Tab : forall is, Forall (instr_ok c []) is ->
              (a_even c = false /\ p <> P_qref -> forallb (fun i => negb (into (prop_slot p) i) && match partner (prop_slot p) with Some s => negb (into s i) | None => true end) is = true) ->
              forall s', existsb (into s') is = true -> inplace c s' = true /\ (a_even c = false /\ p <> P_qref -> prop_slot p <> s' /\ partner (prop_slot p) <> Some s')).
    { intros is O H s' Ex. apply existsb_exists in Ex. destruct Ex as (i & I1 & I2). rewrite Forall_forall in O. specialize (O i I1).
      split.
      - destruct i; try discriminate. cbn in I2. destruct (slot_eq_dec s' s); [subst; exact O|discriminate].
      - intros Ev. specialize (H Ev). rewrite forallb_forall in H. specialize (H i I1). apply andb_prop in H. destruct H as [H1 H2].
        split; [intros Es; rewrite Es, I2 in H1; discriminate|intros Es; rewrite Es, I2 in H2; discriminate]. }
    assert (Gq : forall st0, get_prop K c P_qgpv st2 = (st0, snd (get_prop K c P_qgpv st2)) -> ext st2 st0 /\ wf st0 /\ forall s', env st0 s' = env st2 s').
    { intros st0 G. pose proof (get_prop_ext K c P_qgpv st2 W2) as X0. pose proof (get_prop_wf K c P_qgpv st2 W2) as W0. rewrite G in X0, W0.
      split; [exact X0|split; [exact W0|]]. apply (f_equal fst) in G; cbn [fst] in G. rewrite <- G. intros s'. unfold get_prop.
      destruct (env st2 (prop_slot P_qgpv)); trivial. cbn [needs_layerwise andb]. destruct (a_even c); trivial. destruct (a_nh c && _); trivial. }
    assert (In_ : forall is ps, Forall (instr_ok c []) is -> cell (execs K st2 is) l = cell st2 l -> cell (fst (get_props K c ps (execs K st2 is))) l = cell st2 l).
    { intros is ps O C. apply Kp; auto. }
    assert (Re : forall is ps cs, Forall (instr_ok c []) is ->
              (forall st0, wf st0 -> ext st2 st0 -> (forall s', env st0 s' = env st2 s') -> cell (execs K st0 is) l = cell st2 l) ->
              cell (fst (refs_call c is ps cs st2)) l = cell st2 l).
    { intros is ps cs O C. unfold refs_call. specialize (Gq (fst (get_prop K c P_qgpv st2)) (surjective_pairing _)).
      destruct (get_prop K c P_qgpv st2) as [st0 [l0|]]; cbn [fst] in *; destruct Gq as (X0 & W0 & Ev); [|apply (e_cell _ _ X0 l L2)].
      specialize (C st0 W0 X0 Ev). specialize (Wi is st0 O W0). pose proof (Tp is st0) as T0. pose proof (e_top _ _ X0) as T1.
      cbv zeta. set (st1 := execs K st0 is) in *. clearbody st1. apply Kp; cbn [flags cell top]; trivial. lia. }
    assert (Fl : forall is os nc, 
              (forall st0, wf st0 -> ext st2 st0 -> (forall s', env st0 s' = env st2 s') -> cell (execs K st0 is) l = cell st2 l) ->
              cell (fst (flux_call K c is os nc st2)) l = cell st2 l).
    { intros is os nc C. unfold flux_call. specialize (Gq (fst (get_prop K c P_qgpv st2)) (surjective_pairing _)).
      destruct (get_prop K c P_qgpv st2) as [st0 [l0|]]; cbn [fst] in *; destruct Gq as (X0 & W0 & Ev); [|apply (e_cell _ _ X0 l L2)].
      destruct (nonconv st0 || _ || _); cbn [fst]; [apply (e_cell _ _ X0 l L2)|]. now apply C. }
    assert (La : forall is ok nc, cell (execs K st2 is) l = cell st2 l -> cell (fst (layer_call K c is ok nc st2)) l = cell st2 l).
    { intros is ok nc C. unfold layer_call. destruct (_ && _ && _); trivial. }
    destruct m as [| | |nc|nc].
    - apply (In_ (interpolate c) [P_qgpv; P_interpolated_u; P_interpolated_v; P_interpolated_theta]); [apply interpolate_ok|].
      apply Q; trivial; [apply interpolate_ok|apply ext_refl|].
      apply Tab; [apply interpolate_ok|]. intros _. clear. destruct c as [ev nh []]; destruct p; vm_compute; reflexivity.
    - apply (Re refs [P_qref; P_uref; P_ptref] [Slot Qgpv; Slot IntU; Slot IntT] (refs_ok c)).
      intros st0 W0 X0 Ev. apply Q; trivial; [apply refs_ok|]. apply Tab; [apply refs_ok|].
      intros [E1 Nq]. unfold overwrites in Ov. rewrite E1 in Ov. clear -Ov Nq. destruct p; try discriminate Ov; try (now elim Nq); vm_compute; reflexivity.
    - assert (C : cell (execs K st2 (lwa_only c)) l = cell st2 l).
      { apply Q; trivial; [apply lwa_only_ok|apply ext_refl|]. apply Tab; [apply lwa_only_ok|].
        intros [E1 Nq]. unfold overwrites in Ov. rewrite E1 in Ov. clear -Ov Nq. destruct p; try discriminate Ov; try (now elim Nq); vm_compute; reflexivity. }
      cbn [step call]. destruct (has st2 Qgpv); trivial.
    - apply (Fl (fluxes nc) [OF1; OF2; OF3; OConv; ODiv; OHeat; BLwa; BU; Lwa] nc).
      intros st0 W0 X0 Ev. apply Q; trivial; [apply fluxes_ok|]. apply Tab; [apply fluxes_ok|].
      intros [E1 Nq]. unfold overwrites in Ov. rewrite E1 in Ov. clear -Ov Nq. destruct p; try discriminate Ov; try (now elim Nq); destruct nc; vm_compute; reflexivity.
    - apply (La (layerwise c nc) (negb (a_even c && match nc with None => true | _ => false end)) nc).
      apply Q; trivial; [apply layerwise_ok|apply ext_refl|]. apply Tab; [apply layerwise_ok|].
      intros [E1 Nq]. unfold overwrites in Ov. rewrite E1 in Ov. clear -Ov Nq. destruct c as [ev nh el]. cbn [a_nh] in *.
      destruct p; try discriminate Ov; try (now elim Nq); destruct nc, nh; try discriminate Ov; vm_compute; reflexivity.
  Qed.

  (** C141: an array read from a property keeps its content through a call that does not overwrite this property *)
  Theorem C141_a_call_overwrites_only_its_own_results_partial : forall c p m u v t ylat h l,
    let st1 := runs K converges c (create K c u v t ylat) h in
    let st2 := fst (get_prop K c p st1) in
    assigns_own K converges c [in_u; in_v; in_t] (create K c u v t ylat) h ->
    snd (get_prop K c p st1) = Some l ->
    overwrites c m p = false ->
    cell (fst (step K converges c st2 (Call m))) l = cell st2 l.
  Proof.
    intros c p m u v t y h l st1 st2 A E Ov.
    destruct (start c u v t y h A) as [own B]. fold st1 in B.
    assert (B2 : both c own st2) by (now apply get_prop_both).
    assert (W1 := both_wf c own st1 B). assert (W2 := both_wf c own st2 B2).
    assert (L2 : l < top st2) by (now apply get_prop_below).
    assert (Src : safe c l st2 \/ ((a_even c = false /\ p <> P_qref) /\ env st2 (prop_slot p) = Some l)).
    { unfold st2. clear Ov A B2 W2 L2. unfold get_prop in E |- *. destruct (env st1 (prop_slot p)) as [l0|] eqn:E0; [|discriminate].
      destruct (needs_layerwise p && negb (layer_done st1)); [discriminate|].
      assert (T : safe c (top st1) st1) by (intros s _ Q; apply W1 in Q; lia).
      destruct (a_even c).
      - destruct (a_nh c && full_height_field p); [discriminate|]. injection E as <-. left. exact T.
      - destruct p; injection E as <-; try (right; repeat split; trivial; discriminate). left. exact T. }
    exact (call_keeps c p m own st2 l B2 L2 Src Ov).
  Qed.

  (** C142: unless the data are on an evenly spaced height grid and an odd latitude grid, the arrays of interpolated fields and QGPV
      are new ones: none that existed before interpolate_fields was called *)
  Theorem C142_interpolated_fields_are_new_arrays_partial : forall c u v t ylat h p l,
    let st := runs K converges c (create K c u v t ylat) h in
    let st1 := fst (step K converges c st (Call Interpolate)) in
    a_even c = true \/ a_evenly c = false \/ p = P_qgpv ->
    In p [P_qgpv; P_interpolated_u; P_interpolated_v; P_interpolated_theta] ->
    snd (get_prop K c p st1) = Some l ->
    top st <= l /\ 4 <= l.
  Proof.
    intros c u v t y h p l st st1 C I E.
    assert (T4 : 4 <= top st).
    { unfold st. assert (T : 4 <= top (create K c u v t y)) by (destruct c as [[] [] []]; vm_compute; lia). revert T.
      generalize (create K c u v t y). clear. induction h as [|e h IH]; intros s T; trivial. apply IH. now apply top_step. }
    enough (top st <= l) by lia. clear T4. unfold st1 in E. clear st1. clearbody st.
    cbn [step call] in E. set (s0 := execs K st (interpolate c)) in E. set (ps := [P_qgpv; _; _; _]) in E.
    assert (T0 : top st <= top s0) by (unfold s0; generalize (interpolate c); clear; intros is; revert st; induction is as [|i is IH]; intros st; trivial;
      change (execs K st (i :: is)) with (execs K (exec K st i) is); pose proof (top_exec K st i); specialize (IH (exec K st i)); lia).
    assert (Ge : forall q s, top s <= top (fst (get_prop K c q s)) /\ forall w, env (fst (get_prop K c q s)) w = env s w).
    { intros q s. unfold get_prop. destruct (env s (prop_slot q)); auto. destruct (_ && _); auto. destruct (a_even c); [destruct (_ && _); cbn; auto|].
      destruct q; cbn; auto. }
    assert (G : forall qs s, top s <= top (fst (get_props K c qs s)) /\ forall w, env (fst (get_props K c qs s)) w = env s w).
    { induction qs as [|q qs IH]; intros s; cbn; auto. destruct (Ge q s) as [G1 G2]. destruct (get_prop K c q s) as [sa [la|]]; cbn [fst] in *; auto.
      destruct (IH sa) as [G3 G4]. destruct (get_props K c qs sa) as [sb [lb|]]; cbn [fst] in *; (split; [lia|intros; now rewrite G4]). }
    destruct (G ps s0) as [G1 G2]. set (s2 := fst (get_props K c ps s0)) in *.
    unfold get_prop in E. destruct (env s2 (prop_slot p)) as [l0|] eqn:E0; [|discriminate]. destruct (_ && _); [discriminate|].
    destruct (a_even c) eqn:Ev.
    - destruct (_ && _); [discriminate|]. injection E as <-. lia.
    - assert (L : l = l0) by (destruct I as [<-|[<-|[<-|[<-|[]]]]]; now injection E).
      subst l0. rewrite G2 in E0. clear -E0 I C Ev. unfold s0 in E0. destruct c as [ev nh el]; cbn in Ev, C; subst ev.
      destruct el.
      + destruct C as [C|[C|C]]; try discriminate. subst p. injection E0 as <-. cbn. lia.
      + destruct I as [<-|[<-|[<-|[<-|[]]]]]; injection E0 as <-; cbn; lia.
  Qed.

  (** C176: calling a method twice in a row is the same as calling it once: it returns the same contents, and every property and
      attribute shows the same content afterwards (x is the array passed as ncforce, if any; the storage arrays astar1 and astar2 are
      left out after compute_lwa_only on the whole globe) *)
  Theorem C176_repeating_a_call_changes_nothing : forall c u v t ylat h x m e,
    let before := runs K converges c (create K c u v t ylat) h in
    let st := fst (step K converges c before (NewArray x)) in
    let once := fst (step K converges c st (Call m)) in
    let twice := fst (step K converges c once (Call m)) in
    assigns_own K converges c [in_u; in_v; in_t] (create K c u v t ylat) h ->
    match m with Fluxes (Some l) | Layerwise (Some l) => l = top before | _ => True end ->
    match e with
    | Get _ => True
    | GetRaw r => m = LwaOnly -> a_nh c = false -> r <> R_storage_astar1 /\ r <> R_storage_astar2
    | _ => False
    end ->
    shown (step K converges c once (Call m)) = shown (step K converges c st (Call m)) /\
    shown (step K converges c twice e) = shown (step K converges c once e).
  Proof.
    intros c u v t y h x m e before st once twice A Nc He.
    destruct (start c u v t y h A) as [own B0]. fold before in B0.
    assert (B1 : both c (top before :: own) st).
    { destruct B0 as [I0 A0]. split; [now apply (inv_alloc c own before x)|exact A0]. }
    assert (Ps : passes c st m).
    { destruct B1 as [[_ _ Q] _]. specialize (Q (top before) (or_introl eq_refl)). destruct m as [| | |[l|]|[l|]]; trivial; subst l; exact Q. }
    assert (B : both c [] st) by (apply (fewer c (top before :: own)); [intros l []|exact B1]).
    assert (Once : once = fst (call K converges c m st)) by reflexivity. assert (Twice : twice = fst (call K converges c m once)) by reflexivity.
    clearbody once twice. cbn [step].
    assert (R : shows_all (call K converges c m once) = shows_all (call K converges c m st) /\ alike once twice /\
                (m = LwaOnly /\ a_nh c = false \/ ext once twice)).
    { destruct m as [| | |nc|nc].
      - destruct (again_interpolate K converges c st B) as [R1 R2]. rewrite <- Once, <- Twice in *. split; [exact R2|]. split; [now apply ext_alike|now right].
      - destruct (again_refs K converges c st B) as [R1 R2]. rewrite <- Once, <- Twice in *. split; [exact R2|]. split; [now apply ext_alike|now right].
      - destruct (again_lwa_only K converges c st B) as (R1 & R2 & R3). rewrite <- Once, <- Twice in *. split; [exact R2|]. split; [exact R1|].
        destruct (a_nh c); [right; now apply R3|now left].
      - destruct (again_fluxes K converges c st nc B Ps) as [R1 R2]. rewrite <- Once, <- Twice in *. split; [exact R2|]. split; [now apply ext_alike|now right].
      - destruct (again_layerwise K converges c st nc B Ps) as [R1 R2]. rewrite <- Once, <- Twice in *. split; [exact R2|]. split; [now apply ext_alike|now right]. }
    destruct R as (R1 & R2 & R3). split; [exact R1|].
    destruct e as [|p|r| | |]; try contradiction; cbn [step].
    - pose proof (get_prop_shows K c p once twice R2) as G. unfold shows, shown in *.
      destruct (get_prop K c p once) as [sa [la|]], (get_prop K c p twice) as [sb [lb|]]; cbn in *; try discriminate G; trivial. now injection G as ->.
    - assert (P : peek twice (Slot (raw_slot r)) = peek once (Slot (raw_slot r))).
      { destruct R3 as [[R3 R4]|R3]; [|apply (e_peek _ _ R3)]. destruct (He R3 R4). apply (a_peek _ _ R2); destruct r; try discriminate; congruence. }
      unfold shown, get_raw. unfold peek in P; cbn in P.
      destruct (env once (raw_slot r)), (env twice (raw_slot r)); cbn in *; try discriminate P; trivial. now injection P as ->.
  Qed.
End Properties.
Print Assumptions C141_a_call_overwrites_only_its_own_results_partial.
Print Assumptions C142_interpolated_fields_are_new_arrays_partial.
Print Assumptions C176_repeating_a_call_changes_nothing.

(** C141: each of the overwritten properties does change in some run *)
Theorem C141_a_call_overwrites_its_own_results_refuted : forall c p m, overwrites c m p = true ->
  match m with Fluxes (Some _) | Layerwise (Some _) => False | _ => True end ->
  exists (K : kernel -> list (option nat) -> nat) converges u v t ylat h l,
    let st1 := runs K converges c (create K c u v t ylat) h in
    let st2 := fst (get_prop K c p st1) in
    assigns_own K converges c [in_u; in_v; in_t] (create K c u v t ylat) h /\
    snd (get_prop K c p st1) = Some l /\
    cell (fst (step K converges c st2 (Call m))) l <> cell st2 l.
Proof.
  intros c p m Ov Nn.
  exists sums, solved, 1, 2, 3, 4, (NewArray 9 :: whole_analysis ++ [SetField FU 39; SetField FV 39; Call Interpolate]).
  destruct c as [[] nh ev]; [discriminate|].
  destruct m as [| | |[nc|]|[nc|]]; try contradiction; destruct p; try discriminate Ov; destruct nh; try discriminate Ov; destruct ev; eexists;
    (cbv zeta; split; [vm_compute; tauto|split; [vm_compute; reflexivity|vm_compute; discriminate]]).
Qed.
Print Assumptions C141_a_call_overwrites_its_own_results_refuted.

(** non-vacuity *)
Example C141_call_case : let st := runs sums solved odd_grid (some_object odd_grid) whole_analysis in
  overwrites odd_grid (Layerwise None) P_lwa = false /\ live odd_grid P_lwa = true /\ snd (get_prop sums odd_grid P_lwa st) <> None.
Proof. vm_compute. repeat split; discriminate. Qed.
Example C142_new_arrays_case : let st := runs sums solved odd_grid (some_object odd_grid) [Call Interpolate] in
  snd (get_prop sums odd_grid P_interpolated_u st) = Some 40.
Proof. vm_compute. reflexivity. Qed.
Example C176_case : let before := runs sums solved odd_grid (some_object odd_grid) whole_analysis in
  let st := fst (step sums solved odd_grid before (NewArray 9)) in
  let m := Fluxes (Some (top before)) in
  let once := fst (step sums solved odd_grid st (Call m)) in
  shown (step sums solved odd_grid once (Get P_lwa_baro)) <> shown (step sums solved odd_grid before (Get P_lwa_baro)) /\
  shown (step sums solved odd_grid once (Call m)) <> None.
Proof. vm_compute. split; discriminate. Qed.
