(** Property C179: symmetries of the state are symmetries of everything read from the object. *)
From Verif Require Import Base BaseFacts Spec SpecFacts Grid Object ObjectSpec ObjectProofs ObjectProofs4 PropertiesObject.
Open Scope R_scope.

Lemma with_own_data w : with_data w (w_u w) (w_v w) (w_t w) = w.
Proof. destruct w. reflexivity. Qed.

(** ** a pattern that repeats after s longitudes (zonal wave number nlon/s) repeats in all results *)
Definition repeats (w : qgargs) (s m n : nat) (x : field3) : Prop :=
  forall l j i, (l < m)%nat -> (j < n)%nat -> (i < w_nlon w)%nat -> x l j i = x l j ((i + s) mod w_nlon w)%nat.
Definition repeating_state (w : qgargs) (s : nat) (nc : field3) : Prop :=
  repeats w s (w_nlev w) (w_nlat w) (w_u w) /\ repeats w s (w_nlev w) (w_nlat w) (w_v w) /\ repeats w s (w_nlev w) (w_nlat w) (w_t w) /\
  repeats w s (result_levels w) (analysis_rows w) nc.
Definition repeating_results (w : qgargs) (s : nat) (x : outputs) : Prop :=
  let f3 n (r : res field3) := forall y, r = Done y -> repeats w s (result_levels w) n y in
  let f2 (r : res (nat -> nat -> R)) := forall y, r = Done y -> forall row i, (row < result_rows w)%nat -> (i < w_nlon w)%nat -> y row i = y row ((i + s) mod w_nlon w)%nat in
  (f3 (w_nlat w) (out_qgpv x) /\ f3 (w_nlat w) (out_u x) /\ f3 (w_nlat w) (out_v x) /\ f3 (w_nlat w) (out_theta x)) /\
  (f2 (out_f1 x) /\ f2 (out_f2 x) /\ f2 (out_f3 x) /\ f2 (out_conv x) /\ f2 (out_div x) /\ f2 (out_heat x) /\ f2 (out_lambda x) /\ f2 (out_phi x) /\
   f2 (out_lwa_baro x) /\ f2 (out_u_baro x) /\ f2 (out_nc_baro x)) /\
  (f3 (result_rows w) (out_lwa x) /\ f3 (result_rows w) (out_ua1 x) /\ f3 (result_rows w) (out_ua2 x) /\ f3 (result_rows w) (out_ep1 x) /\
   f3 (result_rows w) (out_ep2 x) /\ f3 (result_rows w) (out_ep3 x) /\ f3 (result_rows w) (out_stretch x)).
Theorem C179_repeating_pattern :
  forall (lib : library) (k : class) (w : qgargs) (s : nat) (nc : field3) (x : outputs), data_only lib -> usable k w -> repeating_state w s nc ->
    session lib k w nc = Done x -> repeating_results w s x.
Proof.
  intros lib k w s nc x Hl U (Ru & Rv & Rt & Rn) H. assert (A := C128_rolled_input_gives_rolled_output lib k w s (w_u w) (w_v w) (w_t w) nc nc Hl U Ru Rv Rt Rn).
  rewrite with_own_data, H in A. cbn [outcome] in A. unfold rolled_outputs in A.
  assert (F3 : forall n (r : res field3), outcome (rolled_field w s n) r r -> forall y, r = Done y -> repeats w s (result_levels w) n y) by (intros n r O y E; rewrite E in O; exact O).
  assert (F2 : forall (r : res (nat -> nat -> R)), outcome (rolled_map w s) r r -> forall y, r = Done y -> forall row i, (row < result_rows w)%nat -> (i < w_nlon w)%nat -> y row i = y row ((i + s) mod w_nlon w)%nat)
    by (intros r O y E; rewrite E in O; exact O).
  decompose [and] A. clear A. unfold repeating_results. cbv zeta. repeat split; first [apply F3; assumption|apply F2; assumption].
Qed.
Print Assumptions C179_repeating_pattern.

(** ** a state that does not depend on longitude has results that do not *)
Definition uniform_field (w : qgargs) (m n : nat) (x : field3) : Prop := forall l j i, (l < m)%nat -> (j < n)%nat -> (i < w_nlon w)%nat -> x l j i = x l j 0%nat.
Definition uniform_results (w : qgargs) (x : outputs) : Prop :=
  let f3 n (r : res field3) := forall y, r = Done y -> uniform_field w (result_levels w) n y in
  let f2 (r : res (nat -> nat -> R)) := forall y, r = Done y -> forall row i, (row < result_rows w)%nat -> (i < w_nlon w)%nat -> y row i = y row 0%nat in
  (f3 (w_nlat w) (out_qgpv x) /\ f3 (w_nlat w) (out_u x) /\ f3 (w_nlat w) (out_v x) /\ f3 (w_nlat w) (out_theta x)) /\
  (f2 (out_f1 x) /\ f2 (out_f2 x) /\ f2 (out_f3 x) /\ f2 (out_conv x) /\ f2 (out_div x) /\ f2 (out_heat x) /\ f2 (out_lambda x) /\ f2 (out_phi x) /\
   f2 (out_lwa_baro x) /\ f2 (out_u_baro x) /\ f2 (out_nc_baro x)) /\
  (f3 (result_rows w) (out_lwa x) /\ f3 (result_rows w) (out_ua1 x) /\ f3 (result_rows w) (out_ua2 x) /\ f3 (result_rows w) (out_ep1 x) /\
   f3 (result_rows w) (out_ep2 x) /\ f3 (result_rows w) (out_ep3 x) /\ f3 (result_rows w) (out_stretch x)).
Lemma steps_uniform n (y : nat -> R) : (forall i, (i < n)%nat -> y i = y ((i + 1) mod n)%nat) -> forall i, (i < n)%nat -> y i = y 0%nat.
Proof. intros H i. induction i as [|i IH]; intros Hi; [reflexivity|]. rewrite <- IH by lia. rewrite (H i) by lia. rewrite Nat.mod_small by lia. f_equal. lia. Qed.
Theorem C179_uniform_state :
  forall (lib : library) (k : class) (w : qgargs) (nc : field3) (x : outputs), data_only lib -> usable k w ->
    uniform_field w (w_nlev w) (w_nlat w) (w_u w) -> uniform_field w (w_nlev w) (w_nlat w) (w_v w) -> uniform_field w (w_nlev w) (w_nlat w) (w_t w) ->
    uniform_field w (result_levels w) (analysis_rows w) nc ->
    session lib k w nc = Done x -> uniform_results w x.
Proof.
  intros lib k w nc x Hl U Ru Rv Rt Rn H.
  assert (St : forall m n y, uniform_field w m n y -> repeats w 1 m n y).
  { intros m n y E l j i Hl' Hj Hi. rewrite (E l j i) by assumption. symmetry. apply E; [assumption|assumption|]. apply Nat.mod_upper_bound. lia. }
  assert (A := C179_repeating_pattern lib k w 1 nc x Hl U (conj (St _ _ _ Ru) (conj (St _ _ _ Rv) (conj (St _ _ _ Rt) (St _ _ _ Rn)))) H). clear St Ru Rv Rt Rn H.
  assert (F3 : forall n (r : res field3), (forall y, r = Done y -> repeats w 1 (result_levels w) n y) -> forall y, r = Done y -> uniform_field w (result_levels w) n y)
    by (intros n r O y E l j i Hl' Hj Hi; apply (steps_uniform (w_nlon w) (fun i => y l j i)); [intros i' Hi'; apply (O y E); assumption|exact Hi]).
  assert (F2 : forall (r : res (nat -> nat -> R)), (forall y, r = Done y -> forall row i, (row < result_rows w)%nat -> (i < w_nlon w)%nat -> y row i = y row ((i + 1) mod w_nlon w)%nat) ->
    forall y, r = Done y -> forall row i, (row < result_rows w)%nat -> (i < w_nlon w)%nat -> y row i = y row 0%nat)
    by (intros r O y E row i Hr Hi; apply (steps_uniform (w_nlon w) (fun i => y row i)); [intros i' Hi'; apply (O y E); assumption|exact Hi]).
  unfold repeating_results in A. cbv zeta in A. decompose [and] A. clear A. unfold uniform_results. cbv zeta. repeat split; first [apply F3; assumption|apply F2; assumption].
Qed.
Print Assumptions C179_uniform_state.

(** ** a state symmetric about the equator (u, T even, v and the forcing odd) has symmetric results in a global QGFieldNH18 *)
Theorem C179_state_symmetric_about_the_equator :
  forall (lib : library) (w : qgargs) (nc : field3), data_only lib -> usable NH18 w -> accepted_levels w -> w_nh w = false -> symmetric_latitudes w ->
    (forall j, (j < w_nlat w)%nat -> -90 <= w_ylat w j <= 90) ->
    mirrored_input w 1 (w_nlev w) (w_nlat w) (w_u w) (w_u w) -> mirrored_input w (-1) (w_nlev w) (w_nlat w) (w_v w) (w_v w) ->
    mirrored_input w 1 (w_nlev w) (w_nlat w) (w_t w) (w_t w) -> mirrored_input w (-1) (result_levels w) (analysis_rows w) nc nc ->
    exists x, session lib NH18 w nc = Done x /\ mirrored_outputs w x x /\ out_stat_n x = out_stat_s x.
Proof.
  intros lib w nc Hl U L NF Sym In Hu Hv Ht Hn. assert (A := C129_nh18_mirrored_input_gives_mirrored_output lib w (w_u w) (w_v w) (w_t w) nc nc Hl U L NF Sym In Hu Hv Ht Hn).
  rewrite with_own_data in A. destruct (session lib NH18 w nc) as [x|]; [|contradiction]. exists x. split; [reflexivity|]. split; [exact A|]. symmetry. apply A.
Qed.
Print Assumptions C179_state_symmetric_about_the_equator.
(** A wave number two pattern, symmetric about the equator: u and T even, v and the forcing odd; the hypotheses of C179 hold and the sessions return. *)
Definition wave_two (odd : bool) : qgargs :=
  let w := some_args odd false in
  with_data w (fun l j i => INR l + INR (j * (w_nlat w - 1 - j)) + INR (i mod 2)) (fun l j i => (INR j - INR (w_nlat w - 1 - j)) * INR (i mod 2))
    (fun l j i => 300 + INR (j * (w_nlat w - 1 - j)) * INR (i mod 2)).
Lemma two_of_four i : (i < 4)%nat -> (i mod 2 = ((i + 2) mod 4) mod 2)%nat.
Proof. intros H. destruct i as [|[|[|[|i]]]]; [reflexivity|reflexivity|reflexivity|reflexivity|lia]. Qed.
Lemma flip n j : (j < n)%nat -> (n - 1 - (n - 1 - j) = j)%nat.
Proof. lia. Qed.
Lemma flip_product n j : (j < n)%nat -> (j * (n - 1 - j) = (n - 1 - j) * (n - 1 - (n - 1 - j)))%nat.
Proof. intros H. rewrite (flip n j H). apply Nat.mul_comm. Qed.
Example C179_case : forall odd, let w := wave_two odd in let nc := fun l j i => (INR j - INR (analysis_rows w - 1 - j)) * INR (i mod 2) in
  repeating_state w 2 nc /\ w_u w 0%nat 0%nat 0%nat <> w_u w 0%nat 0%nat 1%nat /\
  exists x, session some_library NH18 w nc = Done x /\ repeating_results w 2 x /\ mirrored_outputs w x x.
Proof.
  intros odd w nc.
  assert (Rs : repeating_state w 2 nc).
  { unfold repeating_state, repeats, nc, w, wave_two. cbn [with_data some_args w_nlon w_u w_v w_t].
    repeat split; intros l j i _ _ Hi; rewrite <- (two_of_four i Hi); reflexivity. }
  split; [exact Rs|]. split; [unfold w, wave_two; cbn [with_data w_u]; change (0 mod 2)%nat with 0%nat; change (1 mod 2)%nat with 1%nat; cbn [INR]; lra|].
  destruct (C179_state_symmetric_about_the_equator some_library w nc) as (x & H & M & _).
  - exact some_data_only.
  - exact (some_usable NH18 odd false ltac:(cbn; lia)).
  - exact (some_accepted odd false).
  - reflexivity.
  - exact (some_symmetric odd false).
  - exact (some_range odd false).
  - intros l j i _ Hj _. change (w_nlat w) with (w_nlat (some_args odd false)) in *. unfold w, wave_two. cbn [with_data w_u]. generalize dependent (w_nlat (some_args odd false)). intros n Hj. rewrite Rmult_1_l. rewrite <- (flip_product _ j Hj). reflexivity.
  - intros l j i _ Hj _. change (w_nlat w) with (w_nlat (some_args odd false)) in *. unfold w, wave_two. cbn [with_data w_v]. generalize dependent (w_nlat (some_args odd false)). intros n Hj. rewrite (flip _ j Hj). ring.
  - intros l j i _ Hj _. change (w_nlat w) with (w_nlat (some_args odd false)) in *. unfold w, wave_two. cbn [with_data w_t]. generalize dependent (w_nlat (some_args odd false)). intros n Hj. rewrite Rmult_1_l. rewrite <- (flip_product _ j Hj). reflexivity.
  - intros l j i _ Hj _. unfold nc. cbv beta. rewrite (flip _ j Hj). ring.
  - exists x. split; [exact H|]. split; [|exact M]. exact (C179_repeating_pattern some_library NH18 w 2 nc x some_data_only (some_usable NH18 odd false ltac:(cbn; lia)) Rs H).
Qed.
