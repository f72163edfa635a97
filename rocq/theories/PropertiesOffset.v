(** C196: only differences of potential temperature matter. *)
From Verif Require Import Base BaseFacts Grid GridProofs Pipeline Object ObjectSpec ObjectProofs ObjectProofs4 Session SessionProofs PropertiesObject InfluenceSpec InfluenceProofs UnitSpec PropertiesUnits
  OffsetSpec OffsetProofs OffsetProofs2 OffsetProofs3.
From Coq Require Import ZifyNat.
Ltac Zify.zify_post_hook ::= Z.to_euclidean_division_equations.
Open Scope R_scope.

(** Adding a constant to the potential temperature of all grid points leaves the potential vorticity, its reference state, the wave activity and the mean forcing as
    they were.  Both classes, both settings of northern_hemisphere_results_only; a session fails with the same exception in both cases, or in neither. *)
Theorem C196_constant_added_to_potential_temperature :
  forall (b : R) (lib : library) (k : class) (w : qgargs) (nc : field3),
    offset_free b lib -> usable k w -> symmetric_latitudes w -> (forall j, (j < w_nlat w)%nat -> -90 <= w_ylat w j <= 90) -> (boundary k < w_nlat w / 2)%nat ->
    related (fun x y => warmer_fields b w x y /\ same_activity x y /\ same_forcing x y) (session lib k w nc) (session lib k (warmer b w) nc).
Proof.
  intros b lib k w nc OF U Sym In Bd. assert (Eg : grid_of (warmer b w) = grid_of w) by reflexivity. destruct (grid_of w) as [g|e] eqn:Hg.
  - rewrite (session_eq lib k w nc g Hg), (session_eq lib k (warmer b w) nc g Eg). assert (F := fields_b b k w g U Hg Sym In Bd lib OF nc). assert (A := activity_b b k w g U Hg Sym In Bd lib OF nc).
    assert (Q := proj1 (proj2 F)). destruct (out_qgpv (read w _ _)), (out_qgpv (read (warmer b w) _ _)); try contradiction; [split; assumption|exact Q].
  - rewrite (session_refused lib k w nc e Hg), (session_refused lib k (warmer b w) nc e Eg). reflexivity.
Qed.
Print Assumptions C196_constant_added_to_potential_temperature.
(** a session that returns results, with ten degrees added; the potential temperature does change.  The weight of the rows must not vanish: hence a boundary away from
    the pole.  Interpolating and smoothing libraries are both free of the offset *)
Example C196_case : forall nc,
  (forall b, offset_free b secant_library) /\ (forall b, offset_free b smoothing_library) /\ usable (NHN22 1) (some_args true false) /\ symmetric_latitudes (some_args true false) /\
  (forall j, (j < w_nlat (some_args true false))%nat -> -90 <= w_ylat (some_args true false) j <= 90) /\ (boundary (NHN22 1) < w_nlat (some_args true false) / 2)%nat /\
  (exists x y, session secant_library (NHN22 1) (some_args true false) nc = Done x /\ session secant_library (NHN22 1) (warmer 10 (some_args true false)) nc = Done y /\
     outcome (differ_by 10 (some_args true false)) (out_theta x) (out_theta y)) /\
  w_t (warmer 10 (some_args true false)) 0%nat 0%nat 0%nat <> w_t (some_args true false) 0%nat 0%nat 0%nat.
Proof.
  intros nc.
  assert (OF : forall b, offset_free b secant_library) by (intros b; split; intros n x y z; cbn [secant_library lb_spline lb_dspline]; [reflexivity|f_equal; ring]).
  assert (OS : forall b, offset_free b smoothing_library).
  { intros b; split; intros n x y z; cbn [smoothing_library lb_spline lb_dspline]; [|f_equal; ring]. replace (y 1%nat + b - (y O + b)) with (y 1%nat - y O) by ring. destruct (Rltb _ _); field. }
  assert (U : usable (NHN22 1) (some_args true false)) by (apply some_usable; cbn; lia). assert (Sy := some_symmetric true false).
  assert (In : forall j, (j < w_nlat (some_args true false))%nat -> -90 <= w_ylat (some_args true false) j <= 90).
  { intros j Hj. cbn [some_args w_ylat w_nlat] in *. assert (L : INR j <= 4) by (apply (le_INR j 4) in Hj || (assert (Hj' : (j <= 4)%nat) by lia; apply le_INR in Hj'; cbn in Hj'; lra)). assert (P := pos_INR j). lra. }
  assert (Bd : (boundary (NHN22 1) < w_nlat (some_args true false) / 2)%nat) by (cbn; lia).
  split; [exact OF|]. split; [exact OS|]. split; [exact U|]. split; [exact Sy|]. split; [exact In|]. split; [exact Bd|]. split.
  - assert (R := C196_constant_added_to_potential_temperature 10 secant_library (NHN22 1) (some_args true false) nc (OF 10) U Sy In Bd).
    assert (Y : exists x, session secant_library (NHN22 1) (some_args true false) nc = Done x) by (apply (C131_session_succeeds_exactly_when _ _ _ _ U); split; [apply some_accepted|discriminate]).
    destruct Y as [x Hx]. rewrite Hx in R. destruct (session secant_library (NHN22 1) (warmer 10 (some_args true false)) nc) as [y|]; [|contradiction]. exists x, y.
    split; [exact Hx|]. split; [reflexivity|]. exact (proj1 (proj1 R)).
  - unfold warmer. cbn [with_data w_t]. match goal with |- ?a + 10 * exp ?z <> _ => assert (E := exp_pos z) end. lra.
Qed.

(** The reference wind, all fluxes and their divergences are the same too: the terms of the wind outright, those with temperature anomalies at every grid point, as the
    reference temperature follows the temperature. *)
Theorem C196_constant_added_leaves_fluxes :
  forall (b : R) (lib : library) (k : class) (w : qgargs) (nc : field3),
    offset_free b lib -> usable k w -> symmetric_latitudes w -> (forall j, (j < w_nlat w)%nat -> -90 <= w_ylat w j <= 90) -> (boundary k < w_nlat w / 2)%nat ->
    related (fun x y => same_wind_terms x y /\ same_heat_terms w x y) (session lib k w nc) (session lib k (warmer b w) nc).
Proof.
  intros b lib k w nc OF U Sym In Bd. assert (Eg : grid_of (warmer b w) = grid_of w) by reflexivity. destruct (grid_of w) as [g|e] eqn:Hg.
  - rewrite (session_eq lib k w nc g Hg), (session_eq lib k (warmer b w) nc g Eg). assert (F := fields_b b k w g U Hg Sym In Bd lib OF nc).
    assert (W := wind_b b k w g U Hg Sym In Bd lib OF nc). assert (H := heat_b b k w g U Hg Sym In Bd lib OF nc).
    assert (Q := proj1 (proj2 F)). destruct (out_qgpv (read w _ _)), (out_qgpv (read (warmer b w) _ _)); try contradiction; [split; assumption|exact Q].
  - rewrite (session_refused lib k w nc e Hg), (session_refused lib k (warmer b w) nc e Eg). reflexivity.
Qed.
Print Assumptions C196_constant_added_leaves_fluxes.
(** Without an equatorial boundary the reference temperature is larger by the same constant, in all rows; with one, the rows next to the equator hold zeros in both cases *)
Theorem C196_constant_added_to_reference_temperature :
  forall (b : R) (lib : library) (k : class) (w : qgargs) (nc : field3),
    offset_free b lib -> usable k w -> symmetric_latitudes w -> (forall j, (j < w_nlat w)%nat -> -90 <= w_ylat w j <= 90) -> boundary k = O ->
    related (warmer_reference b w) (session lib k w nc) (session lib k (warmer b w) nc).
Proof.
  intros b lib k w nc OF U Sym In B0. assert (Bd : (boundary k < w_nlat w / 2)%nat) by (destruct U as ((N & _) & _); rewrite B0; lia).
  assert (Eg : grid_of (warmer b w) = grid_of w) by reflexivity. destruct (grid_of w) as [g|e] eqn:Hg.
  - rewrite (session_eq lib k w nc g Hg), (session_eq lib k (warmer b w) nc g Eg). assert (F := fields_b b k w g U Hg Sym In Bd lib OF nc).
    assert (W := reference_b b k w g U Hg Sym In Bd lib OF nc B0).
    assert (Q := proj1 (proj2 F)). destruct (out_qgpv (read w _ _)), (out_qgpv (read (warmer b w) _ _)); try contradiction; [assumption|exact Q].
  - rewrite (session_refused lib k w nc e Hg), (session_refused lib k (warmer b w) nc e Eg). reflexivity.
Qed.
Print Assumptions C196_constant_added_to_reference_temperature.
(** a session of the class without such a boundary *)
Example C196_reference_case : forall nc,
  usable NH18 (some_args true false) /\ boundary NH18 = O /\
  exists x y, session secant_library NH18 (some_args true false) nc = Done x /\ session secant_library NH18 (warmer 10 (some_args true false)) nc = Done y /\
    warmer_reference 10 (some_args true false) x y /\ same_heat_terms (some_args true false) x y.
Proof.
  intros nc. destruct (C196_case nc) as (OF & _ & _ & Sy & In & _).
  assert (U : usable NH18 (some_args true false)) by (apply some_usable; cbn; lia). assert (Bd : (boundary NH18 < w_nlat (some_args true false) / 2)%nat) by (cbn; lia).
  split; [exact U|]. split; [reflexivity|].
  assert (R1 := C196_constant_added_leaves_fluxes 10 secant_library NH18 (some_args true false) nc (OF 10) U Sy In Bd).
  assert (R2 := C196_constant_added_to_reference_temperature 10 secant_library NH18 (some_args true false) nc (OF 10) U Sy In eq_refl).
  assert (Y : exists x, session secant_library NH18 (some_args true false) nc = Done x) by (apply (C131_session_succeeds_exactly_when _ _ _ _ U); split; [apply some_accepted|discriminate]).
  destruct Y as [x Hx]. rewrite Hx in R1, R2. destruct (session secant_library NH18 (warmer 10 (some_args true false)) nc) as [y|]; [|contradiction]. exists x, y.
  split; [exact Hx|]. split; [reflexivity|]. split; [exact R2|]. exact (proj2 R1).
Qed.
