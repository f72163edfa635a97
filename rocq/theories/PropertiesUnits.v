(** C182, C195: results do not depend on the units of time, length and temperature in which the data, the grid and the planet are described. *)
From Verif Require Import Base BaseFacts Grid GridProofs Pipeline Object ObjectSpec ObjectProofs ObjectProofs4 FormulaSpec FormulaProofs FormulaProofs3 Session SessionProofs StateCase PropertiesObject PropertiesSession
  UnitSpec UnitProofs UnitProofs3 UnitProofs4.
From Coq Require Import ZifyNat FunctionalExtensionality.
Ltac Zify.zify_post_hook ::= Z.to_euclidean_division_equations.
Open Scope R_scope.

Lemma map_returned q x : (exists y, map_in q x = Done y) -> exists y, x = Done y.
Proof. destruct x as [y|e]; intros [z H]; [exists y; reflexivity|discriminate]. Qed.

Section Both.
  Variables (c l kt : R).
  Hypothesis Hc : 0 < c.
  Hypothesis Hl : 0 < l.
  Hypothesis Ht : 0 < kt.
  Variables (lib : library) (k : class) (w : qgargs) (named raising : bool).
  Hypothesis LF : unit_free l kt lib.
  Notation lib' := (memory_in c l lib).
  Notation w' := (in_units c l kt w).
  Lemma create_u : create k w' = match grid_of w with Done g => Done (object_of k w' (grid_units l g)) | Raise e => Raise e end.
  Proof. rewrite create_eq, (grid_of_u c l kt Hc Hl). destruct (grid_of w); reflexivity. Qed.
  Lemma prepared_u nc : prepared lib' k w' named raising (force_in_units c nc) =
    match prepared lib k w named raising nc with
    | Stopped s e => Stopped s e
    | Returned (o, x) => Returned (object_of k w' (grid_units l (ob_grid o)), analyse lib' k w' (object_of k w' (grid_units l (ob_grid o))) (force_in_units c nc))
    end.
  Proof.
    unfold prepared. rewrite create_u, create_eq. destruct (grid_of w) as [g|e]; [|reflexivity]. cbv zeta.
    rewrite (read_u c l kt Hc Hl Ht w k g lib LF nc), (nonconvergent_same c l kt Hc Hl Ht w k g lib LF nc). cbn [set_conv results_in out_qgpv].
    destruct (out_qgpv (read w (object_of k w g) (analyse lib k w (object_of k w g) nc))) as [q|e]; [|reflexivity]. cbn [field_in].
    destruct (raising && nonconvergent lib k w (object_of k w g) (analyse lib k w (object_of k w g) nc)); reflexivity.
  Qed.
  Lemma prepared_from nc o x : prepared lib k w named raising nc = Returned (o, x) -> exists g, grid_of w = Done g /\ o = object_of k w g /\ x = analyse lib k w (object_of k w g) nc.
  Proof.
    unfold prepared. rewrite create_eq. destruct (grid_of w) as [g|e]; [|discriminate]. cbv zeta.
    destruct (out_qgpv (read w (object_of k w g) (analyse lib k w (object_of k w g) nc))) as [q|e]; [|discriminate].
    destruct (raising && nonconvergent lib k w (object_of k w g) (analyse lib k w (object_of k w g) nc)); [discriminate|]. intros H. injection H as <- <-. exists g. repeat split.
  Qed.
  (** the session in the new units: the results in the new units, except for the convergence of the zonal flux, which is read from [s_conv] *)
  Lemma fluxes_u nc : session_with_fluxes lib' k w' named raising (force_in_units c nc) =
    match session_with_fluxes lib k w named raising nc, grid_of w with
    | Returned x, Done g => Returned (set_conv (read_map w (object_of k w g) (rows (ob_conf (object_of k w g))) (fun i j => conv_factor c l (ob_conf (object_of k w g)) j * s_conv (analyse lib k w (object_of k w g) nc) i j)) (results_in c l kt x))
    | Stopped s e, _ => Stopped s e
    | Returned _, Raise e => Stopped Constructor e
    end.
  Proof.
    unfold session_with_fluxes. rewrite prepared_u. destruct (prepared lib k w named raising nc) as [[o x]|s e] eqn:P; [|reflexivity].
    destruct (prepared_from nc o x P) as (g & Hg & -> & ->). rewrite Hg. cbn [object_of ob_grid].
    change (object_of k w' (grid_units l (ob_grid (object_of k w g)))) with (object_of k w' (grid_units l g)).
    rewrite (nonconvergent_same c l kt Hc Hl Ht w k g lib LF nc). destruct (nonconvergent lib k w (object_of k w g) (analyse lib k w (object_of k w g) nc)); [reflexivity|].
    rewrite (read_u c l kt Hc Hl Ht w k g lib LF nc), (analyse_u c l kt Hc Hl Ht w k g lib LF nc). reflexivity.
  Qed.
  Lemma lwa_u : session_with_lwa_only lib' k w' named raising = ending_in (lwa_results_in c l kt) (session_with_lwa_only lib k w named raising).
  Proof.
    unfold session_with_lwa_only. assert (E := prepared_u (fun _ _ _ => 0)). replace (force_in_units c (fun _ _ _ => 0)) with (fun _ _ _ : nat => 0) in E by (extensionality z; extensionality y; extensionality x; unfold force_in_units; ring).
    rewrite E. clear E. destruct (prepared lib k w named raising (fun _ _ _ => 0)) as [[o x]|s e] eqn:P; [|reflexivity]. destruct (prepared_from _ o x P) as (g & Hg & -> & ->). cbn [ending_in].
    change (object_of k w' (grid_units l (ob_grid (object_of k w g)))) with (object_of k w' (grid_units l g)).
    assert (E := read_lwa_u c l kt Hc Hl Ht w k g lib LF (fun _ _ _ => 0)). replace (force_in_units c (fun _ _ _ => 0)) with (fun _ _ _ : nat => 0) in E by (extensionality z; extensionality y; extensionality x; unfold force_in_units; ring).
    rewrite E. reflexivity.
  Qed.
End Both.
Lemma time_only lib : unit_free 1 1 lib.
Proof.
  assert (E : forall x : nat -> R, (fun i => 1 * x i) = x) by (intros x; extensionality i; ring).
  split; intros n x y z; rewrite !E, !Rmult_1_l; [reflexivity|]. rewrite Rinv_1, !Rmult_1_l. reflexivity.
Qed.

Lemma length_only l lib : length_free l lib -> unit_free l 1 lib.
Proof.
  intros [L1 L2]. assert (E : forall x : nat -> R, (fun i => 1 * x i) = x) by (intros x; extensionality i; ring).
  split; intros n x y z; rewrite E; [rewrite L1; ring|rewrite L2; ring].
Qed.
Section Full.
  Variables (c kt : R) (lib : library) (k : class) (w : qgargs) (named raising : bool) (nc : field3).
  Hypothesis Hc : 0 < c.
  Hypothesis Ht : 0 < kt.
  Hypothesis LF : unit_free 1 kt lib.
  (** the unit of length unchanged: also the convergence of the zonal flux *)
  Lemma full_u : session_with_fluxes (memory_in c 1 lib) k (in_units c 1 kt w) named raising (force_in_units c nc) = ending_in (results_in c 1 kt) (session_with_fluxes lib k w named raising nc).
  Proof.
    rewrite (fluxes_u c 1 kt Hc Rlt_0_1 Ht lib k w named raising LF). destruct (session_with_fluxes lib k w named raising nc) as [x|s e] eqn:H; [|reflexivity].
    unfold session_with_fluxes in H. destruct (prepared lib k w named raising nc) as [[o y]|s e] eqn:P; [|discriminate]. destruct (prepared_from lib k w named raising nc o y P) as (g & Hg & -> & ->).
    destruct (nonconvergent _ _ _ _ _); [discriminate|]. injection H as <-. rewrite Hg. cbn [ending_in]. f_equal.
    set (C := ob_conf (object_of k w g)). set (y := analyse lib k w (object_of k w g) nc).
    assert (E : (fun i j : nat => conv_factor c 1 C j * s_conv y i j) = scale2 (1 * c * c) (s_conv y)).
    { extensionality i; extensionality j. unfold scale2, conv_factor. destruct (Rltb _ _); ring. }
    assert (E2 := f_equal (read_map w (object_of k w g) (rows C)) E). rewrite read_map_u in E2. rewrite E2. reflexivity.
  Qed.
End Full.
Lemma all_but_convergence_u c l kt lib k w named raising nc : 0 < c -> 0 < l -> 0 < kt -> unit_free l kt lib ->
  ending_in (set_conv (Raise ValueError)) (session_with_fluxes (memory_in c l lib) k (in_units c l kt w) named raising (force_in_units c nc)) =
  ending_in (fun x => set_conv (Raise ValueError) (results_in c l kt x)) (session_with_fluxes lib k w named raising nc).
Proof.
  intros Hc Hl Ht LF.
  rewrite (fluxes_u c l kt Hc Hl Ht lib k w named raising LF). destruct (session_with_fluxes lib k w named raising nc) as [x|s e] eqn:H; [|reflexivity].
  unfold session_with_fluxes in H. destruct (prepared lib k w named raising nc) as [[o y]|s e] eqn:P; [|discriminate]. destruct (prepared_from lib k w named raising nc o y P) as (g & Hg & -> & ->).
  rewrite Hg. reflexivity.
Qed.

(** ** Another unit of time: the same atmosphere and planet with the wind, the rotation, the gas constants and the forcing expressed per hour, say, instead of per
    second.  Every session ends in the same way; every result is the same result in the new unit.  No hypothesis on the grid, the data, or the splines. *)
Theorem C182_unit_of_time :
  forall (c : R) (lib : library) (k : class) (w : qgargs) (named raising : bool) (nc : field3), 0 < c ->
    session_with_fluxes (memory_in c 1 lib) k (in_units c 1 1 w) named raising (force_in_units c nc) = ending_in (results_in c 1 1) (session_with_fluxes lib k w named raising nc) /\
    session_with_lwa_only (memory_in c 1 lib) k (in_units c 1 1 w) named raising = ending_in (lwa_results_in c 1 1) (session_with_lwa_only lib k w named raising).
Proof. intros c lib k w named raising nc Hc. split; [apply full_u|apply lwa_u]; try assumption; try lra; apply time_only. Qed.
Print Assumptions C182_unit_of_time.

(** ** Other units of time and length.  The splines that scipy fits must not know the unit of length.  All results but the convergence of the zonal flux
    ([C182_zonal_flux_convergence]) are the same results in the new units. *)
Theorem C182_units_of_time_and_length :
  forall (c l : R) (lib : library) (k : class) (w : qgargs) (named raising : bool) (nc : field3), 0 < c -> 0 < l -> length_free l lib ->
    let all_but_convergence := set_conv (Raise ValueError) in
    ending_in all_but_convergence (session_with_fluxes (memory_in c l lib) k (in_units c l 1 w) named raising (force_in_units c nc)) =
      ending_in (fun x => all_but_convergence (results_in c l 1 x)) (session_with_fluxes lib k w named raising nc) /\
    session_with_lwa_only (memory_in c l lib) k (in_units c l 1 w) named raising = ending_in (lwa_results_in c l 1) (session_with_lwa_only lib k w named raising).
Proof. intros c l lib k w named raising nc Hc Hl LF all. split; [apply all_but_convergence_u|apply lwa_u]; try assumption; try lra; apply length_only, LF. Qed.
Print Assumptions C182_units_of_time_and_length.

(** ** Other units of time and temperature: also every result, the convergence of the zonal flux included.  The splines must scale with the temperatures they
    are fitted to; nothing else in a session stands in the way. *)
Theorem C195_units_of_time_and_temperature :
  forall (c kt : R) (lib : library) (k : class) (w : qgargs) (named raising : bool) (nc : field3), 0 < c -> 0 < kt -> unit_free 1 kt lib ->
    session_with_fluxes (memory_in c 1 lib) k (in_units c 1 kt w) named raising (force_in_units c nc) = ending_in (results_in c 1 kt) (session_with_fluxes lib k w named raising nc) /\
    session_with_lwa_only (memory_in c 1 lib) k (in_units c 1 kt w) named raising = ending_in (lwa_results_in c 1 kt) (session_with_lwa_only lib k w named raising).
Proof. intros c kt lib k w named raising nc Hc Ht LF. split; [apply full_u|apply lwa_u]; assumption || lra. Qed.
Print Assumptions C195_units_of_time_and_temperature.

(** ** Other units of time, length and temperature together *)
Theorem C195_units_of_time_length_and_temperature :
  forall (c l kt : R) (lib : library) (k : class) (w : qgargs) (named raising : bool) (nc : field3), 0 < c -> 0 < l -> 0 < kt -> unit_free l kt lib ->
    let all_but_convergence := set_conv (Raise ValueError) in
    ending_in all_but_convergence (session_with_fluxes (memory_in c l lib) k (in_units c l kt w) named raising (force_in_units c nc)) =
      ending_in (fun x => all_but_convergence (results_in c l kt x)) (session_with_fluxes lib k w named raising nc) /\
    session_with_lwa_only (memory_in c l lib) k (in_units c l kt w) named raising = ending_in (lwa_results_in c l kt) (session_with_lwa_only lib k w named raising).
Proof. intros c l kt lib k w named raising nc Hc Hl Ht LF all. split; [apply all_but_convergence_u|apply lwa_u]; assumption. Qed.
Print Assumptions C195_units_of_time_length_and_temperature.

(** the convergence of the zonal flux on a grid that includes the equator, in the rows whose cosine of latitude is above 1/100000 *)
Theorem C195_zonal_flux_convergence :
  forall (c l kt : R) (lib : library) (k : class) (w : qgargs) (named raising : bool) (nc : field3) (x x' : outputs) (y y' : nat -> nat -> R) (row i : nat),
    0 < c -> 0 < l -> 0 < kt -> unit_free l kt lib -> usable k w -> Nat.even (w_nlat w) = false -> (row < result_rows w)%nat ->
    session_with_fluxes lib k w named raising nc = Returned x -> out_conv x = Done y ->
    session_with_fluxes (memory_in c l lib) k (in_units c l kt w) named raising (force_in_units c nc) = Returned x' -> out_conv x' = Done y' ->
    1 / 100000 < Rabs (cos (w_ylat w (if w_nh w then w_nlat w / 2 + row else row)%nat * PI / 180)) ->
    y' row i = l * c * c * y row i.
Proof.
  intros c l kt lib k w named raising nc x x' y y' row i Hc Hl Ht LF U Od Hrow H Hy H' Hy' Far.
  rewrite (fluxes_u c l kt Hc Hl Ht lib k w named raising LF), H in H'.
  unfold session_with_fluxes in H. destruct (prepared lib k w named raising nc) as [[o z]|s e] eqn:P; [|discriminate]. destruct (prepared_from lib k w named raising nc o z P) as (g & Hg & -> & ->).
  destruct (nonconvergent _ _ _ _ _); [discriminate|]. injection H as <-. rewrite Hg in H'. apply (f_equal (fun e => match e with Returned v => v | Stopped _ _ => x' end)) in H'. cbv beta iota in H'. rewrite <- H' in Hy'. clear H'. cbn [set_conv out_conv] in Hy'. cbn [read out_conv] in Hy.
  set (s := s_conv (analyse lib k w (object_of k w g) nc)) in *. clearbody s.
  assert (F : conv_factor c l (ob_conf (object_of k w g)) (row + 1)%nat = l * c * c).
  { unfold conv_factor. assert (E : out_clat (ob_conf (object_of k w g)) (row + 1 - 1)%nat = weight w (if w_nh w then w_nlat w / 2 + row else row)%nat).
    { destruct (sizes_odd k w g U Hg Od) as (_ & S2 & _ & S4 & _ & _ & S7 & _). destruct (n_odd k w U Od) as [N1 N2]. unfold out_clat. rewrite S2, S4, S7, !(clat_odd k w g U Hg Od). unfold half in *. destruct (w_nh w); f_equal; lia. }
    rewrite E. unfold weight. rewrite Rabs_Rabsolu. change (p_tol (ob_conf (object_of k w g))) with (1 / 100000). destruct (Rltb _ _) eqn:Q; [reflexivity|]. exfalso. apply Rltb_false in Q. lra. }
  unfold read_map, back, return_interp in Hy, Hy'. cbn [object_of ob_grid] in Hy, Hy'. destruct (lat_facts k w g U Hg) as (L1 & _). rewrite L1, Od in Hy, Hy'. cbn in Hy, Hy'. injection Hy as <-. injection Hy' as <-.
  apply (f_equal2 Rmult); [exact F|reflexivity].
Qed.
Print Assumptions C195_zonal_flux_convergence.
Theorem C182_zonal_flux_convergence :
  forall (c l : R) (lib : library) (k : class) (w : qgargs) (named raising : bool) (nc : field3) (x x' : outputs) (y y' : nat -> nat -> R) (row i : nat),
    0 < c -> 0 < l -> length_free l lib -> usable k w -> Nat.even (w_nlat w) = false -> (row < result_rows w)%nat ->
    session_with_fluxes lib k w named raising nc = Returned x -> out_conv x = Done y ->
    session_with_fluxes (memory_in c l lib) k (in_units c l 1 w) named raising (force_in_units c nc) = Returned x' -> out_conv x' = Done y' ->
    1 / 100000 < Rabs (cos (w_ylat w (if w_nh w then w_nlat w / 2 + row else row)%nat * PI / 180)) ->
    y' row i = l * c * c * y row i.
Proof. intros c l lib k w named raising nc x x' y y' row i Hc Hl LF. exact (C195_zonal_flux_convergence c l 1 lib k w named raising nc x x' y y' row i Hc Hl Rlt_0_1 (length_only l lib LF)). Qed.
Print Assumptions C182_zonal_flux_convergence.

(** QGFieldNHN22 reads no uninitialised memory: nothing has to be assumed about it *)
Theorem C182_units_nhn22 :
  forall (c l : R) (lib : library) (b : nat) (w : qgargs) (named raising : bool) (nc : field3), 0 < c -> 0 < l -> length_free l lib ->
    let all_but_convergence := set_conv (Raise ValueError) in
    ending_in all_but_convergence (session_with_fluxes lib (NHN22 b) (in_units c l 1 w) named raising (force_in_units c nc)) =
      ending_in (fun x => all_but_convergence (results_in c l 1 x)) (session_with_fluxes lib (NHN22 b) w named raising nc) /\
    session_with_lwa_only lib (NHN22 b) (in_units c l 1 w) named raising = ending_in (lwa_results_in c l 1) (session_with_lwa_only lib (NHN22 b) w named raising).
Proof. intros c l lib b w named raising nc Hc Hl LF. exact (C182_units_of_time_and_length c l lib (NHN22 b) w named raising nc Hc Hl LF). Qed.
Print Assumptions C182_units_nhn22.
Theorem C195_units_nhn22 :
  forall (c l kt : R) (lib : library) (b : nat) (w : qgargs) (named raising : bool) (nc : field3), 0 < c -> 0 < l -> 0 < kt -> unit_free l kt lib ->
    let all_but_convergence := set_conv (Raise ValueError) in
    ending_in all_but_convergence (session_with_fluxes lib (NHN22 b) (in_units c l kt w) named raising (force_in_units c nc)) =
      ending_in (fun x => all_but_convergence (results_in c l kt x)) (session_with_fluxes lib (NHN22 b) w named raising nc) /\
    session_with_lwa_only lib (NHN22 b) (in_units c l kt w) named raising = ending_in (lwa_results_in c l kt) (session_with_lwa_only lib (NHN22 b) w named raising).
Proof. intros c l kt lib b w named raising nc Hc Hl Ht LF. exact (C195_units_of_time_length_and_temperature c l kt lib (NHN22 b) w named raising nc Hc Hl Ht LF). Qed.
Print Assumptions C195_units_nhn22.

(** a library that does not know the units of length and temperature: values of the lowest level, slopes of the secant *)
Definition secant_library : library :=
  {| lb_spline := fun _ _ y _ => y O; lb_dspline := fun _ x y _ => (y 1%nat - y O) / (x 1%nat - x O); lb_inverse := fun _ a => a; lb_mem1 := fun _ _ => 3; lb_mem2 := fun _ _ => 5 |}.
Lemma secant_free l kt : l <> 0 -> unit_free l kt secant_library.
Proof.
  intros Hl. split; intros n x y z; cbn [secant_library lb_spline lb_dspline]; [reflexivity|]. unfold Rdiv. replace (l * x 1%nat - l * x O) with (l * (x 1%nat - x O)) by ring. rewrite Rinv_mult. ring.
Qed.
Lemma secant_length_free l : l <> 0 -> length_free l secant_library.
Proof.
  intros Hl. split; intros n x y z; cbn [secant_library lb_spline lb_dspline]; [reflexivity|]. unfold Rdiv. replace (l * x 1%nat - l * x O) with (l * (x 1%nat - x O)) by ring. rewrite Rinv_mult. ring.
Qed.
(** sessions that return results, in hours and kilometres; the units matter: a speed of 1 becomes 3.6 *)
Example C182_case : forall named raising nc,
  length_free (1 / 1000) secant_library /\
  (exists x, session_with_fluxes secant_library (NHN22 1) (some_args true false) named raising nc = Returned x) /\
  (exists x', session_with_fluxes secant_library (NHN22 1) (in_units 3600 (1 / 1000) 1 (some_args true false)) named raising (force_in_units 3600 nc) = Returned x') /\
  w_u (in_units 3600 (1 / 1000) 1 (some_args true false)) 1%nat 0%nat 0%nat = 3.6 /\
  (exists tol x, session_with_fluxes isentropic_library NH18 (jet_args tol) named raising nc = Returned x /\
    session_with_fluxes (memory_in 3600 1 isentropic_library) NH18 (in_units 3600 1 1 (jet_args tol)) named raising (force_in_units 3600 nc) = Returned (results_in 3600 1 1 x)) /\
  1 / 100000 < Rabs (cos (w_ylat (some_args true false) 2%nat * PI / 180)).
Proof.
  intros named raising nc. assert (LF : length_free (1 / 1000) secant_library) by (apply secant_length_free; lra). split; [exact LF|].
  assert (X : exists x, session_with_fluxes secant_library (NHN22 1) (some_args true false) named raising nc = Returned x).
  { assert (U : usable (NHN22 1) (some_args true false)) by (apply some_usable; cbn; lia). assert (F := with_fluxes_cases secant_library (NHN22 1) (some_args true false) named raising nc U).
    assert (Y : exists x, session secant_library (NHN22 1) (some_args true false) nc = Done x) by (apply (C131_session_succeeds_exactly_when _ _ _ _ U); split; [apply some_accepted|discriminate]). destruct Y as [x Hx].
    rewrite Hx in F. destruct F as (g & _ & _ & F). rewrite nonconvergent_nhn22 in F. exists x. exact F. }
  split; [exact X|]. split.
  - destruct X as [x X]. assert (E := proj1 (C182_units_nhn22 3600 (1 / 1000) secant_library 1 (some_args true false) named raising nc ltac:(lra) ltac:(lra) LF)). rewrite X in E. cbn [ending_in] in E.
    destruct (session_with_fluxes _ _ (in_units _ _ _ _) _ _ _) as [x'|]; [exists x'; reflexivity|discriminate].
  - split; [cbn [in_units some_args w_u Nat.add Nat.mul INR]; lra|]. split.
    + destruct (C158_applies named raising nc) as ((tol & x & H) & _). exists tol, x. split; [exact H|]. rewrite (proj1 (C182_unit_of_time 3600 isentropic_library NH18 (jet_args tol) named raising nc ltac:(lra))), H. reflexivity.
    + cbn [some_args w_ylat]. replace ((45 * INR 2 - 90) * PI / 180) with 0 by (cbn; field). rewrite cos_0, Rabs_R1. lra.
Qed.
(** the same session in hours, kilometres and degrees Rankine: a temperature of 1 becomes 9/5; splines that scale for every factor.  Smoothing towards a fixed
    bound does not scale: a library that returns the mean where the spread is below 1 *)
Definition smoothing_library : library :=
  {| lb_spline := fun _ _ y _ => if Rltb (Rabs (y 1%nat - y O)) 1 then (y 1%nat + y O) / 2 else y O; lb_dspline := fun _ x y _ => (y 1%nat - y O) / (x 1%nat - x O);
     lb_inverse := fun _ a => a; lb_mem1 := fun _ _ => 3; lb_mem2 := fun _ _ => 5 |}.
Example C195_case : forall named raising nc,
  (forall l kt, l <> 0 -> unit_free l kt secant_library) /\
  (exists x', session_with_fluxes secant_library (NHN22 1) (in_units 3600 (1 / 1000) (9 / 5) (some_args true false)) named raising (force_in_units 3600 nc) = Returned x') /\
  w_t (in_units 3600 (1 / 1000) (9 / 5) (some_args true false)) 0%nat 0%nat 0%nat = 9 / 5 * w_t (some_args true false) 0%nat 0%nat 0%nat /\
  ~ unit_free 1 (9 / 5) smoothing_library.
Proof.
  intros named raising nc. split; [exact secant_free|]. split; [|split].
  - destruct (C182_case named raising nc) as (_ & [x X] & _).
    assert (E := proj1 (C195_units_nhn22 3600 (1 / 1000) (9 / 5) secant_library 1 (some_args true false) named raising nc ltac:(lra) ltac:(lra) ltac:(lra) (secant_free (1 / 1000) (9 / 5) ltac:(lra)))). rewrite X in E. cbn [ending_in] in E.
    destruct (session_with_fluxes _ _ (in_units _ _ _ _) _ _ _) as [x'|]; [exists x'; reflexivity|discriminate].
  - reflexivity.
  - intros [L _]. specialize (L O (fun _ => 0) (fun i => INR i * (2 / 3)) 0). cbn [smoothing_library lb_spline] in L. cbn [INR] in L.
    replace (9 / 5 * (1 * (2 / 3)) - 9 / 5 * (0 * (2 / 3))) with (6 / 5) in L by field. replace (1 * (2 / 3) - 0 * (2 / 3)) with (2 / 3) in L by field. rewrite !Rabs_pos_eq in L by lra.
    unfold Rltb in L. destruct (Rlt_dec (6 / 5) 1); [lra|]. destruct (Rlt_dec (2 / 3) 1); lra.
Qed.
