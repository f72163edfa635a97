(** Properties C140-C143: arrays shared between a QGField object and its user.

    Cells 0, 1, 2, 3 are the arrays u_field, v_field, t_field and ylat given to the constructor.  The theorems hold
    for every function the numerical kernels may compute and every outcome of the solver. *)
From Verif Require Import Alias AliasSpec AliasProofs AliasProofs2.

(** kernels for the examples: one more than the sum of what is read *)
Definition sums (_ : kernel) (l : list (option nat)) : nat :=
  S (fold_right (fun x a => match x with Some n => n + a | None => a end) 0 l).
Definition solved (_ : list (option nat)) : bool := true.
Definition odd_grid : acfg := {| a_even := false; a_nh := false; a_evenly := false |}.
Definition even_grid : acfg := {| a_even := true; a_nh := false; a_evenly := false |}.
Definition some_object (c : acfg) : @state nat := create sums c 1 2 3 4.
Definition whole_analysis : list (@event nat) := [Call Interpolate; Call Refs; Call (Fluxes None); Call (Layerwise None)].

Section Properties.
  Context {X : Type}.
  Variable K : kernel -> list (option X) -> X.
  Variable converges : list (option X) -> bool.

  (** C140: no sequence of calls, reads and assignments changes an array given to the constructor; only the
      user's own writes to that array do *)
  Theorem C140_constructor_arguments_never_modified : forall c u v t ylat h,
    let st := create K c u v t ylat in
    (Forall (leaves_alone 0) h -> cell (runs K converges c st h) 0 = u) /\
    (Forall (leaves_alone 1) h -> cell (runs K converges c st h) 1 = v) /\
    (Forall (leaves_alone 2) h -> cell (runs K converges c st h) 2 = t) /\
    (Forall (leaves_alone 3) h -> cell (runs K converges c st h) 3 = ylat).
  Proof.
    intros c u v t y h st. destruct (create_inv K c u v t y) as [I E].
    destruct (wf_runs K converges c h st (i_wf _ _ _ I)) as [_ G].
    assert (F : forall l, l < 4 -> Forall (leaves_alone l) h -> cell (runs K converges c st h) l = cell st l).
    { intros l L A. apply (G l); trivial; apply (i_own _ _ _ I); cbn; lia. }
    repeat split; intros A; rewrite F by (trivial; lia); unfold st; now rewrite E by lia.
  Qed.
  (** ... nor any array the user made later, passed as ncforce or assigned to a field attribute *)
  Theorem C140_other_arrays_never_modified : forall c u v t ylat h1 x h2,
    let st := runs K converges c (create K c u v t ylat) h1 in
    Forall (leaves_alone (top st)) h2 ->
    snd (step K converges c st (NewArray x)) = Some [top st] /\
    cell (runs K converges c st (NewArray x :: h2)) (top st) = x.
  Proof.
    intros c u v t y h1 x h2 st F. split; [reflexivity|].
    destruct (create_inv K c u v t y) as [I _].
    destruct (wf_runs K converges c h1 (create K c u v t y) (i_wf _ _ _ I)) as [W _]. fold st in W.
    change (runs K converges c st (NewArray x :: h2)) with (runs K converges c (fst (alloc st x)) h2).
    destruct (wf_runs K converges c h2 (fst (alloc st x)) (wf_alloc st x W)) as [_ G].
    rewrite (k_cell _ _ _ _ (G (top st) ltac:(cbn; lia) ltac:(intros s _ E; cbn in E; apply W in E; lia) F)).
    apply set_cell_same.
  Qed.

  (** C141: an array read from a property keeps its content whatever is called later, for every property that is
      not [live] (all of them on even grids) *)
  Theorem C141_results_keep_their_values_partial : forall c p u v t ylat h1 h2 l,
    let st1 := runs K converges c (create K c u v t ylat) h1 in
    let st2 := fst (get_prop K c p st1) in
    live c p = false ->
    assigns_own K converges c [in_u; in_v; in_t] (create K c u v t ylat) h1 ->
    snd (get_prop K c p st1) = Some l ->
    Forall (leaves_alone l) h2 ->
    cell (runs K converges c st2 h2) l = cell st2 l.
  Proof.
    intros c p u v t y h1 h2 l st1 st2 Lv A E F.
    destruct (create_inv K c u v t y) as [I _].
    assert (I' : inv c [in_u; in_v; in_t] (create K c u v t y)).
    { destruct I as [W P Q]. split; trivial. intros l' H. apply Q. cbn in *. tauto. }
    destruct (inv_runs K converges c h1 _ _ I' A) as [own J]. fold st1 in J.
    assert (S : l < top st2 /\ safe c l st2).
    { unfold st2. clear F. unfold get_prop in *. destruct (env st1 (prop_slot p)) as [l0|] eqn:E0; [|discriminate].
      destruct (needs_layerwise p && negb (layer_done st1)); [discriminate|].
      assert (T : safe c (top st1) st1) by (intros s _ Q; apply (i_wf _ _ _ J) in Q; lia).
      unfold live in Lv. destruct (a_even c); cbn [negb andb] in Lv.
      - destruct (a_nh c && full_height_field p); [discriminate|].
        injection E as <-. split; [cbn; lia|exact T].
      - assert (Ap : apart c (prop_slot p) = true \/ p = P_qref).
        { destruct p; cbn; auto; try discriminate. rewrite Lv. now left. }
        destruct p; try (injection E as <-; split; [cbn; lia|exact T]);
          (injection E as <-; destruct Ap as [Ap|Ap]; [|discriminate];
           split; [exact (i_wf _ _ _ J _ _ E0)|exact (i_sep _ _ _ J _ _ Ap E0)]). }
    assert (W2 : wf st2).
    { unfold st2. apply (get_prop_good K c wf) with (p := p); trivial; [intros; now apply wf_alloc|].
      exact (i_wf _ _ _ J). }
    destruct (wf_runs K converges c h2 st2 W2) as [_ G].
    apply (G l); tauto.
  Qed.

  (** C143: overwriting t_field after construction, copies obtained from the object or, on even grids, u_field
      and v_field, changes nothing the user sees later *)
  Theorem C143_edits_of_copies_never_reach_the_object_partial : forall c edited u v t ylat h,
    let st := create K c u v t ylat in
    edits_only_copies K converges c edited (detached_inputs c) st h ->
    seen K converges c st h = seen K converges c st (without_writes h).
  Proof. intros. now apply seen_equal with (edited := edited). Qed.

  (** C142: on even grids the user may overwrite u_field, v_field and t_field as soon as the object exists *)
  Theorem C142_even_grid_input_fields_are_copied_partial : forall c u v t ylat h,
    let st := create K c u v t ylat in
    a_even c = true ->
    Forall (fun e => match e with
                     | Write l _ => l = in_u \/ l = in_v \/ l = in_t
                     | SetField _ l | Call (Fluxes (Some l)) | Call (Layerwise (Some l)) => ~ (l = in_u \/ l = in_v \/ l = in_t)
                     | _ => True
                     end) h ->
    seen K converges c st h = seen K converges c st (without_writes h).
  Proof.
    intros c u v t y h st A F.
    apply (C143_edits_of_copies_never_reach_the_object_partial c (fun l => l <? 3)).
    unfold in_u, in_v, in_t in F.
    assert (G : forall ok s, In 0 ok /\ In 1 ok /\ In 2 ok ->
                edits_only_copies K converges c (fun l => l <? 3) ok s h).
    { clear -F. induction F as [|e h B F IH]; intros ok s O; cbn [edits_only_copies]; trivial.
      split.
      - destruct e as [[| | |[l|]|[l|]]| | | |f l|l x]; trivial; try (apply Nat.ltb_ge; lia).
        split; [destruct B as [B|[B|B]]; subst l; tauto|apply Nat.ltb_lt; lia].
      - apply IH. repeat split; apply in_or_app; right; tauto. }
    apply G. unfold detached_inputs. rewrite A. cbn. tauto.
  Qed.
End Properties.
Print Assumptions C140_constructor_arguments_never_modified.
Print Assumptions C140_other_arrays_never_modified.
Print Assumptions C141_results_keep_their_values_partial.
Print Assumptions C143_edits_of_copies_never_reach_the_object_partial.
Print Assumptions C142_even_grid_input_fields_are_copied_partial.

(** non-vacuity: a full analysis with an ncforce array and a new wind field *)
Example C140_case : let h := NewArray 9 :: whole_analysis ++ [Call (Fluxes (Some 39)); SetField FU 39] ++ whole_analysis in
  Forall (leaves_alone 0) h /\ snd (step sums solved odd_grid (runs sums solved odd_grid (some_object odd_grid) h) (Get P_lwa_baro)) <> None.
Proof. intros h. split; [repeat constructor|vm_compute; discriminate]. Qed.
Example C141_case : let st := runs sums solved odd_grid (some_object odd_grid) whole_analysis in
  live odd_grid P_qref = false /\ snd (get_prop sums odd_grid P_qref st) <> None /\
  live odd_grid P_divergence_eddy_momentum_flux = false /\ live even_grid P_lwa_baro = false.
Proof. vm_compute. repeat split; discriminate. Qed.
Example C143_case : exists h edited, edits_only_copies sums solved odd_grid edited (detached_inputs odd_grid) (some_object odd_grid) h /\
  h = [Write 2 100; Call Interpolate; Call Refs; Get P_qref; Write 45 7; Get P_qref; Get P_uref].
Proof.
  eexists. exists (fun l => (l =? 2) || (l =? 45)). split; [|reflexivity].
  vm_compute. tauto.
Qed.
Example C142_case : seen sums solved even_grid (some_object even_grid) ([Write 0 50] ++ whole_analysis ++ [Get P_lwa_baro; Write 1 60; Call Interpolate; Get P_qgpv])
  = seen sums solved even_grid (some_object even_grid) (whole_analysis ++ [Get P_lwa_baro; Call Interpolate; Get P_qgpv]).
Proof. vm_compute. reflexivity. Qed.

(** C141: each live property hands out an array that a later computation overwrites *)
Theorem C141_results_keep_their_values_refuted : forall c p, live c p = true ->
  exists (K : kernel -> list (option nat) -> nat) converges u v t ylat h1 h2 l,
    let st1 := runs K converges c (create K c u v t ylat) h1 in
    let st2 := fst (get_prop K c p st1) in
    assigns_own K converges c [in_u; in_v; in_t] (create K c u v t ylat) h1 /\
    snd (get_prop K c p st1) = Some l /\
    Forall (fun e => is_write e = false) h2 /\
    cell (runs K converges c st2 h2) l <> cell st2 l.
Proof.
  intros c p Lv.
  exists sums, solved, 1, 2, 3, 4, (NewArray 9 :: whole_analysis),
    ([SetField FU 39; SetField FV 39] ++ whole_analysis).
  destruct c as [[] nh ev]; [discriminate|].
  destruct p; try discriminate Lv; destruct nh; try discriminate Lv; destruct ev; eexists;
    (split; [cbn; tauto|split; [vm_compute; reflexivity|split; [repeat constructor|vm_compute; discriminate]]]).
Qed.
Print Assumptions C141_results_keep_their_values_refuted.

(** C141: the arrays of the named tuple of compute_lwa_and_barotropic_fluxes are overwritten by the next call, on
    even grids too: here lwa_baro, the seventh *)
Theorem C141_named_tuple_keeps_its_values_refuted :
  exists (K : kernel -> list (option nat) -> nat) converges u v t ylat h1 h2 l,
    let st1 := runs K converges even_grid (create K even_grid u v t ylat) h1 in
    let st2 := fst (step K converges even_grid st1 (Call (Fluxes None))) in
    option_map (fun ls => nth 6 ls 0) (snd (step K converges even_grid st1 (Call (Fluxes None)))) = Some l /\
    Forall (fun e => is_write e = false) h2 /\
    cell (runs K converges even_grid st2 h2) l <> cell st2 l.
Proof.
  exists sums, solved, 1, 2, 3, 4, [NewArray 9; Call Interpolate; Call Refs],
    [SetField FU 42; Call Interpolate; Call Refs; Call (Fluxes None)].
  eexists. split; [vm_compute; reflexivity|]. split; [repeat constructor|vm_compute; discriminate].
Qed.
Print Assumptions C141_named_tuple_keeps_its_values_refuted.

(** C142: on an odd grid, overwriting u_field after construction changes the results; overwriting ylat changes them
    on both kinds of grid *)
Theorem C142_inputs_are_copied_refuted :
  exists (K : kernel -> list (option nat) -> nat) converges u v t ylat,
    (let st := create K odd_grid u v t ylat in
     seen K converges odd_grid st (Write in_u 50 :: whole_analysis) <> seen K converges odd_grid st whole_analysis) /\
    (forall c, let st := create K c u v t ylat in
     seen K converges c st (Write in_ylat 50 :: Call Interpolate :: Call Refs :: [Get P_qref]) <>
     seen K converges c st (Call Interpolate :: Call Refs :: [Get P_qref])).
Proof.
  exists sums, solved, 1, 2, 3, 4. split; [vm_compute; discriminate|].
  intros [[] [] []]; vm_compute; discriminate.
Qed.
Print Assumptions C142_inputs_are_copied_refuted.

(** C142: with data on an evenly spaced pseudoheight grid and an odd latitude grid, the array returned by
    interpolated_u is the user's own u_field, so editing that result edits the input *)
Theorem C142_result_is_the_input_array_refuted : forall X (K : kernel -> list (option X) -> X) converges u v t ylat c,
  a_even c = false -> a_evenly c = true ->
  let st := runs K converges c (create K c u v t ylat) [Call Interpolate] in
  snd (get_prop K c P_interpolated_u st) = Some in_u.
Proof. intros X K cv u v t y [[] [] []] E1 E2; try discriminate; reflexivity. Qed.
Print Assumptions C142_result_is_the_input_array_refuted.

(** C143: on an odd grid, overwriting the array read from a property changes what the same property returns next;
    on an even grid this happens for the arrays of the named tuple (here lwa_baro) *)
Theorem C143_editing_results_is_harmless_refuted :
  exists (K : kernel -> list (option nat) -> nat) converges u v t ylat,
    (forall p, In p [P_qgpv; P_uref; P_ptref; P_adv_flux_f1; P_convergence_zonal_advective_flux; P_lwa_baro; P_lwa] ->
      exists l, let st := runs K converges odd_grid (create K odd_grid u v t ylat) whole_analysis in
      snd (get_prop K odd_grid p st) = Some l /\
      seen K converges odd_grid st [Get p; Write l 1000; Get p] <> seen K converges odd_grid st [Get p; Get p]) /\
    (exists l, let st := runs K converges even_grid (create K even_grid u v t ylat) [Call Interpolate; Call Refs] in
      option_map (fun ls => nth 6 ls 0) (snd (step K converges even_grid st (Call (Fluxes None)))) = Some l /\
      seen K converges even_grid st [Call (Fluxes None); Write l 1000; Get P_lwa_baro] <>
      seen K converges even_grid st [Call (Fluxes None); Get P_lwa_baro]).
Proof.
  exists sums, solved, 1, 2, 3, 4. split.
  - intros p I. repeat (destruct I as [<-|I]; [eexists; split; [vm_compute; reflexivity|vm_compute; discriminate]|]). destruct I.
  - eexists; split; [vm_compute; reflexivity|vm_compute; discriminate].
Qed.
Print Assumptions C143_editing_results_is_harmless_refuted.
