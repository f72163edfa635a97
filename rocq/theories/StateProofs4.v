(** Proofs about the reference states of a whole session, continued: the elliptic problem and the edges of the reference wind. *)
From Verif Require Import Base BaseFacts Spec SpecFacts Grid GridSpec GridProofs Flux FluxSpec FluxProofs Pipeline PipelineSpec PipelineProofs RefStates RefStatesSpec RefStatesProofs RefStatesProofs2 DirInv DirInvSpec DirInvProofs DirInvProofs2 DirInvProofs3 DirInvProofs4
  Utilities UtilSpec RotateSpec RotateProofs2 Object ObjectSpec ObjectProofs ObjectProofs2 ObjectProofs3 ObjectProofs4 FormulaSpec FormulaProofs FormulaProofs2 FormulaProofs3 FormulaProofs6 StateSpec StateProofs StateProofs2 StateProofs3 Session PropertiesRefStates PropertiesDirInv.
From Coq Require Import ZifyNat FunctionalExtensionality.
Ltac Zify.zify_post_hook ::= Z.to_euclidean_division_equations.
Open Scope R_scope.

Section States.
  Variables (lib : library) (k : class) (w : qgargs) (nc : field3) (g : grid) (t : tables).
  Hypothesis U : usable k w.
  Hypothesis Hg : grid_of w = Done g.
  Hypothesis Od : Nat.even (w_nlat w) = false.
  Local Notation o := (object_of k w g).
  Local Notation c := (ob_conf o).
  Local Notation x := (analyse lib k w o nc).
  Local Notation h := (half w).
  Hypothesis T : are_stored x c t.
  Local Notation r := (s_refs x).
  Local Notation q := (s_q x).
  Local Notation f := (s_f x).
  Local Notation av := (s_av x).
  Local Notation sizes := (sizes_odd k w g U Hg Od).
  Local Notation P := (StateProofs.P k w g).
  Local Notation solved := (StateProofs.solved lib k w nc g).
  Local Notation hemi := (StateProofs.hemi k w g).
  Local Notation hemi_pv := (StateProofs.hemi_pv lib k w nc g).
  Local Notation dims_common := (StateProofs.dims_common lib k w nc g t U Hg Od T).
  Local Notation pole_P := (StateProofs.pole_P lib k w nc g t U Hg T).
  Local Notation lat_P := (StateProofs.lat_P lib k w nc g t U Hg Od T).
  Local Notation height_P := (StateProofs.height_P lib k w nc g t U Hg Od T).
  Local Notation ref_u_at := (StateProofs.ref_u_at lib k w nc g t U Hg Od T).
  Local Notation ref_theta_at := (StateProofs.ref_theta_at lib k w nc g t U Hg Od T).

  Local Notation npart_at := (StateProofs.npart_at lib k w nc g t U Hg Od T).
  Local Notation n_facts := (StateProofs3.n_facts k w U Od).
  Local Notation hemi_stat := (StateProofs.hemi_stat lib k w nc g).
  Local Notation qref_solved := (StateProofs3.qref_solved lib k w nc g t U T).
  Hypothesis Lat : pole_to_pole_latitudes w.


  Lemma step_pos : 0 < step w.
  Proof. destruct n_facts as [E H]. unfold step. apply Rdiv_lt_0_compat; [exact PI_RGT_0|]. apply lt_0_INR. lia. Qed.
  Lemma sin_angle d : (1 <= d <= h)%nat -> 0 < sin (angle w d).
  Proof.
    intros Hd. destruct n_facts as [E H]. assert (S := step_h k w U Od). assert (Sp := step_pos). unfold angle. assert (1 <= INR d) by (apply (le_INR 1); lia). assert (INR d <= INR h) by (apply le_INR; lia).
    apply sin_gt_0; [nra|]. assert (PI > 0) by exact PI_RGT_0. nra.
  Qed.
  Definition Q (north : bool) (d l : nat) : R := rs_qref P (hemi_pv north) (d + 1)%nat (l + 1)%nat.
  Lemma Q_extrapolated north l : inner_level w l -> Q north 0 l = 2 * Q north 1 l - Q north 2 l.
  Proof.
    intros [Hl1 Hl2]. unfold Q. cbn [Nat.add]. generalize (hemi_pv north). intros z. unfold rs_qref. cbn [Nat.eqb andb]. rewrite interior_true; [toR; reflexivity|].
    destruct dims_common as (_ & _ & D3 & _). rewrite D3. lia.
  Qed.
  Lemma reported_more north d d' : reported w north d -> (d <= d' <= h)%nat -> reported w north d'.
  Proof. intros [A B] Hd. split; [lia|]. destruct (w_nh w); [exact B|]. intros E. specialize (B E). lia. Qed.
  Lemma scaled_at north d l : w_om w <> 0 -> inner_level w l -> reported w north 1 -> (d <= h)%nat -> scaled_ref w t north d l = Q north d l.
  Proof.
    intros Ho Hl R1 Hd. destruct n_facts as [_ H2].
    assert (A : forall d', (1 <= d' <= h)%nat -> pole_ref w t north l d' / (2 * w_om w * sin (angle w d')) = Q north d' l).
    { intros d' Hd'. rewrite (pole_ref_at lib k w nc g t U Hg Od T Lat) by (apply (reported_more north 1); [exact R1|lia]). unfold Q. assert (X := sin_angle d' Hd'). field. split; [lra|exact Ho]. }
    unfold scaled_ref. destruct (Nat.eqb_spec d 0) as [->|]; [|apply A; lia]. rewrite !A by lia. symmetry. apply Q_extrapolated. exact Hl.
  Qed.
  (** above a boundary row nothing is extrapolated, and one reported row less is needed *)
  Lemma scaled_inner north d l : w_om w <> 0 -> reported w north d -> (1 <= d)%nat -> scaled_ref w t north d l = Q north d l.
  Proof.
    intros Ho Hr Hd. unfold scaled_ref. destruct (Nat.eqb_spec d 0) as [|_]; [lia|]. rewrite (pole_ref_at lib k w nc g t U Hg Od T Lat) by exact Hr. unfold Q.
    assert (X := sin_angle d ltac:(destruct Hr; lia)). field. split; [lra|exact Ho].
  Qed.
  (** the operators agree *)
  Lemma density_at s a b : RefStatesSpec.density P (one_based s) (a + 1) (b + 1) = density w s a b.
  Proof. unfold RefStatesSpec.density, density, one_based. rewrite !height_P. replace (a + 1 - 1)%nat with a by lia. replace (b + 1 - 1)%nat with b by lia. destruct dims_common as (_ & _ & _ & _ & _ & _ & _ & -> & _ & _ & -> & ->). reflexivity. Qed.
  Lemma residual_at s q (z : arr2 R) d l : (1 <= d)%nat -> (1 <= l)%nat ->
    residual P (one_based s) q z (d + 1) (l + 1) = misfit w s (fun d l => q (d + 1)%nat (l + 1)%nat) (fun d l => z (d + 1)%nat (l + 1)%nat) d l.
  Proof.
    intros Hd Hl. unfold residual, misfit, forced. rewrite lat_P, height_P. replace (d + 1 - 1)%nat with (d - 1 + 1)%nat by lia. replace (l + 1 - 1)%nat with (l - 1 + 1)%nat by lia. rewrite !density_at.
    destruct dims_common as (_ & _ & _ & _ & -> & -> & -> & -> & -> & _ & -> & _). reflexivity.
  Qed.
  Lemma misfit_ext s q q' z d l : q (d + 1)%nat l = q' (d + 1)%nat l -> q (d - 1)%nat l = q' (d - 1)%nat l -> misfit w s q z d l = misfit w s q' z d l.
  Proof. intros A B. unfold misfit, forced. rewrite A, B. reflexivity. Qed.
  Lemma stat_at north l : hemi_stat north l = t_slope k w lib north l.
  Proof.
    destruct (means_odd lib k w nc g t U Hg Od T l) as (_ & _ & A & B). unfold StateProofs.hemi_stat. revert A B. destruct k; intros A B; [|destruct north; assumption].
    rewrite A. unfold t_slope, smooth. reflexivity.
  Qed.
  Lemma physical_P (s : nat -> R) : physical_constants w -> (forall l, (l < result_levels w)%nat -> 0 < s l) -> physical P (one_based s).
  Proof.
    intros (C1 & C2 & C3 & C4 & C5 & C6) Hs. destruct dims_common as (_ & _ & D3 & _ & D5 & D6 & D7 & D8 & _ & _ & D11 & D12). unfold physical. rewrite D3, D5, D6, D7, D8, D11, D12.
    repeat split; try assumption. intros l Hl. unfold one_based. apply Hs. lia.
  Qed.
  Lemma shear_form dT d l : w_om w <> 0 -> (1 <= d <= h)%nat -> forall X, X * (2 * w_om w * sin (angle w d)) = - w_rr w / w_H w * exp (- (w_rr w / w_cp w) * (INR l * thickness w) / w_H w) * cos (angle w d) * (dT / (2 * step w * w_a w)) ->
    X = balanced_shear w dT d l.
  Proof.
    intros Ho Hd X E. assert (S := sin_angle d Hd). assert (N : 2 * w_om w * sin (angle w d) <> 0) by (apply Rmult_integral_contrapositive_currified; [apply Rmult_integral_contrapositive_currified; [lra|exact Ho]|lra]).
    apply (Rmult_eq_reg_r (2 * w_om w * sin (angle w d))); [|exact N]. rewrite E. unfold balanced_shear.
    generalize (exp (- (w_rr w / w_cp w) * (INR l * thickness w) / w_H w)) (dT / (2 * step w * w_a w)). intros e y. revert N. generalize (2 * w_om w * sin (angle w d)). intros v N.
    unfold Rdiv. generalize (/ w_H w). intros u. field. exact N.
  Qed.
  Local Notation top := (result_levels w - 1)%nat.
  (** a boundary value problem on the solver's grid, in terms of rows and levels *)
  Lemma circulation_at (z : arr3 R) (y : nat -> nat -> R) north l M m d C : image w z y north l -> DirInvSpec.cap_circulation P z (l + 1) M m (d + 1) C -> cap_circulation k w y M m d C.
  Proof.
    intros Z (nn & p & H1 & H2 & H3 & H4). unfold cap_circulation. rewrite (npart_at) in H1. exists nn, p. split; [exact H1|]. split; [exact H2|].
    assert (A : forall S, area_of P z (l + 1) S = area_where w y S) by (intros S; apply (image_area lib k w nc g t U Hg Od T z y north); exact Z).
    assert (B : forall S, circulation_of P z (l + 1) S = circulation_where w y S) by (intros S; apply (image_circulation lib k w nc g t U Hg Od T z y north); exact Z).
    assert (V : forall n, RefStatesSpec.contour P M m (n + 1) = M - INR n * ((M - m) / (INR (contours k w) - 1))).
    { intros n. unfold RefStatesSpec.contour. rewrite npart_at, plus_INR. cbn [INR]. f_equal. f_equal. ring. }
    cbv zeta in H3, H4. rewrite !A, (StateProofs3.cap_at lib k w nc g t U Hg Od T) in H3. rewrite !B in H4. change 2%nat with (1 + 1)%nat in H3, H4. rewrite !V in H3, H4. split; assumption.
  Qed.
End States.
