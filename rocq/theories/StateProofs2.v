(** Proofs about the reference states of a whole session, continued: balance, means, edges, areas. *)
From Verif Require Import Base BaseFacts Spec SpecFacts Grid GridSpec GridProofs Flux FluxSpec FluxProofs Pipeline PipelineSpec PipelineProofs RefStates RefStatesSpec RefStatesProofs DirInv DirInvSpec DirInvProofs DirInvProofs2 DirInvProofs3 DirInvProofs4
  Utilities UtilSpec RotateSpec RotateProofs2 Object ObjectSpec ObjectProofs ObjectProofs2 ObjectProofs3 ObjectProofs4 FormulaSpec FormulaProofs FormulaProofs2 FormulaProofs3 FormulaProofs6 StateSpec StateProofs PropertiesRefStates PropertiesDirInv.
From Coq Require Import ZifyNat FunctionalExtensionality.
Ltac Zify.zify_post_hook ::= Z.to_euclidean_division_equations.
Open Scope R_scope.

Section States.
  Variables (lib : library) (k : class) (w : qgargs) (nc : field3) (g : grid) (t : tables).
  Hypothesis U : usable k w.
  Hypothesis Hg : grid_of w = Done g.
  Hypothesis Od : Nat.even (w_nlat w) = false.
  Local Notation o := (object_of k w g).
  Local Notation c := (ob_conf o).
  Local Notation x := (analyse lib k w o nc).
  Local Notation h := (half w).
  Hypothesis T : are_stored x c t.
  Local Notation r := (s_refs x).
  Local Notation q := (s_q x).
  Local Notation f := (s_f x).
  Local Notation av := (s_av x).
  Local Notation sizes := (sizes_odd k w g U Hg Od).
  Local Notation P := (StateProofs.P k w g).
  Local Notation solved := (StateProofs.solved lib k w nc g).
  Local Notation hemi := (StateProofs.hemi k w g).
  Local Notation hemi_pv := (StateProofs.hemi_pv lib k w nc g).
  Local Notation dims_common := (StateProofs.dims_common lib k w nc g t U Hg Od T).
  Local Notation pole_P := (StateProofs.pole_P lib k w nc g t U Hg T).
  Local Notation lat_P := (StateProofs.lat_P lib k w nc g t U Hg Od T).
  Local Notation height_P := (StateProofs.height_P lib k w nc g t U Hg Od T).
  Local Notation ref_u_at := (StateProofs.ref_u_at lib k w nc g t U Hg Od T).
  Local Notation ref_theta_at := (StateProofs.ref_theta_at lib k w nc g t U Hg Od T).

  Lemma room_P : room k w -> match k with NH18 => True | NHN22 b => (b + 4 <= s_jd P)%nat end.
  Proof. destruct dims_common as (_ & _ & _ & -> & _). unfold room. destruct k; [trivial|lia]. Qed.

  (** ** thermal wind *)
  Lemma solved_balanced north j l : room k w -> s_a P <> 0 -> (boundary k + 2 <= j <= s_jd P - 1)%nat -> (2 <= l <= s_kmax P - 1)%nat ->
    let u := uref_ (solved north) in let t := ptref_ (solved north) in let b := boundary k in
    (t (j - b + 1)%nat l - t (j - b - 1)%nat l) / (2 * s_dphi P * s_a P)
      = - (2 * s_om P * sin (lat P j)) * (s_h P / s_r P) * exp (s_r P / s_cp P * height P l / s_h P) * ((u (j - b)%nat (l + 1)%nat - u (j - b)%nat (l - 1)%nat) / (2 * s_dz P)).
  Proof.
    intros Rm. assert (R := room_P Rm). assert (G := pole_P). unfold StateProofs.solved. revert R G. unfold StateProofs.P.
    destruct k as [|b]; cbn [boundary]; intros R G Ha Hj Hl; cbv zeta.
    - rewrite Nat.sub_0_r. cbn [nh18_solver uref_ ptref_]. apply (C95_thermal_wind_balance _ _ _ _ _ _ _ G Ha). split; lia.
    - cbn [nhn22_inversion uref_ ptref_]. exact (thermal_wind_from _ _ _ _ _ _ _ _ G R j l Hj Hl Ha).
  Qed.
  Lemma balance north d l : room k w -> w_a w <> 0 -> inner_level w l -> (boundary k + 1 <= d < h)%nat -> reported w north (d - 1) ->
    (ref_theta w t north (d + 1) l - ref_theta w t north (d - 1) l) / (2 * step w * w_a w)
      = - (2 * w_om w * sin (angle w d)) * (w_H w / w_rr w) * exp (w_rr w / w_cp w * (INR l * thickness w) / w_H w) * ((ref_u w t north d (l + 1) - ref_u w t north d (l - 1)) / (2 * thickness w)).
  Proof.
    intros Rm Ha [Hl1 Hl2] Hd Hr.
    assert (Hr1 : reported w north d) by (destruct Hr as [A B]; split; [lia|]; destruct (w_nh w); [exact B|]; intros E; specialize (B E); lia).
    assert (Hr2 : reported w north (d + 1)) by (destruct Hr as [A B]; split; [lia|]; destruct (w_nh w); [exact B|]; intros E; specialize (B E); lia).
    destruct dims_common as (D1 & D2 & D3 & D4 & D5 & D6 & D7 & D8 & D9 & D10 & D11 & D12).
    assert (E := solved_balanced north (d + 1) (l + 1) Rm). rewrite D3, D4, D5, D6, D7, D8, D9, D11, D12, lat_P, height_P in E. specialize (E Ha ltac:(lia) ltac:(lia)). cbv zeta in E.
    rewrite !ref_theta_at, !ref_u_at by (assumption || lia). replace (d + 1 + 1 - boundary k)%nat with (d + 1 - boundary k + 1)%nat by lia.
    replace (d - 1 + 1 - boundary k)%nat with (d + 1 - boundary k - 1)%nat by lia. replace (l - 1 + 1)%nat with (l + 1 - 1)%nat by lia. exact E.
  Qed.

  (** ** hemispheric mean of potential temperature *)
  Lemma mean_at lo (y : nat -> R) : (lo <= h)%nat -> mean_from P lo y = cap_mean w lo (fun d => y (d + 1 - lo)%nat).
  Proof.
    intros Hlo. unfold mean_from, cap_mean. destruct dims_common as (_ & _ & _ & -> & _).
    assert (A : forall z : nat -> R, Sum 1 (h + 1 - lo + 1) (fun j => z (j + lo)%nat) = Sum lo (h + 1) (fun d => z (d + 1)%nat)).
    { intros z. rewrite <- (Sum_shift lo 1 (h + 1 - lo + 1) z). replace (1 + lo)%nat with (lo + 1)%nat by lia. replace (h + 1 - lo + 1 + lo)%nat with (h + 1 + 1)%nat by lia. apply Sum_shift. }
    assert (B := A (fun j => cos (lat P j))). cbv beta in B. rewrite B. f_equal; [|apply Sum_ext; intros d _; rewrite lat_P; reflexivity].
    transitivity (Sum 1 (h + 1 - lo + 1) (fun j => (fun j' => cos (lat P j') * y (j' - lo)%nat) (j + lo)%nat)).
    - apply Sum_ext. intros j Hj. cbv beta. replace (j + lo - lo)%nat with j by lia. reflexivity.
    - rewrite (A (fun j' => cos (lat P j') * y (j' - lo)%nat)). apply Sum_ext. intros d _. cbv beta. rewrite lat_P. reflexivity.
  Qed.
  Lemma hemispheric_at (y : nat -> nat -> R) l : hemispheric_mean P y l = cap_mean w 0 (fun d => y (d + 1)%nat l).
  Proof.
    assert (E : hemispheric_mean P y l = mean_from P 0 (fun d => y d l)).
    { unfold hemispheric_mean, mean_from. rewrite Nat.sub_0_r. f_equal; apply Sum_ext; intros j _; rewrite Nat.add_0_r; reflexivity. }
    rewrite E, mean_at by lia. unfold cap_mean. f_equal. apply Sum_ext. intros d _. rewrite Nat.sub_0_r. reflexivity.
  Qed.
  Lemma cap_mean_ext lo (y z : nat -> R) : (forall d, (lo <= d <= h)%nat -> y d = z d) -> cap_mean w lo y = cap_mean w lo z.
  Proof. intros E. unfold cap_mean. f_equal. apply Sum_ext. intros d Hd. rewrite E by lia. reflexivity. Qed.
  Lemma solved_mean north l : room k w -> (1 <= l <= s_kmax P)%nat ->
    match k with
    | NH18 => hemispheric_mean P (ptref_ (solved north)) l = hemispheric_mean P (zonal P (hemi north (theta_ f))) l
    | NHN22 b => mean_from P b (fun j => ptref_ (solved north) j l) = tn0 av (l - 1)%nat
    end.
  Proof.
    intros Rm. assert (R := room_P Rm). assert (G := pole_P). unfold StateProofs.solved. revert R G. unfold StateProofs.P.
    destruct k as [|b]; intros R G Hl.
    - cbn [nh18_solver ptref_]. apply (C55_hemispheric_mean_theta_kept _ _ _ _ _ _ _ G l Hl).
    - cbn [nhn22_inversion ptref_]. exact (tref_mean_from _ b _ _ _ _ _ _ G R l Hl).
  Qed.
  Lemma theta_mean north l : room k w -> (l < result_levels w)%nat -> reported w north (boundary k) ->
    cap_mean w (boundary k) (fun d => ref_theta w t north d l) = match k with NH18 => cap_mean w 0 (fun d => zonal_theta w t north d l) | NHN22 _ => t_mean k w lib true l end.
  Proof.
    intros Rm Hl Hr. assert (M := solved_mean north (l + 1) Rm). destruct dims_common as (_ & _ & D3 & _). rewrite D3 in M. specialize (M ltac:(lia)).
    destruct (limits k w U) as (_ & _ & Lb).
    assert (Rr : forall d, (boundary k <= d <= h)%nat -> reported w north d).
    { intros d Hd. destruct Hr as [A B]. split; [lia|]. destruct (w_nh w); [exact B|]. intros E. specialize (B E). lia. }
    assert (Z : forall d, (d <= h)%nat -> zonal P (hemi north (theta_ f)) (d + 1) (l + 1) = zonal_theta w t north d l) by (intros d Hd; apply (zonal_theta_at lib k w nc g t U Hg Od T); lia).
    assert (Y : forall d, (boundary k <= d <= h)%nat -> ref_theta w t north d l = ptref_ (solved north) (d + 1 - boundary k)%nat (l + 1)%nat) by (intros d Hd; apply ref_theta_at; [apply Rr; lia|lia]).
    rewrite (cap_mean_ext _ _ _ Y). destruct (means_odd lib k w nc g t U Hg Od T l) as (E1 & _). rewrite <- E1. clear E1.
    assert (HA := hemispheric_at). assert (MA := mean_at). revert M Z HA MA Lb. generalize (solved north) as s, P as p. clear. intros s p. destruct k as [|b]; cbn [boundary]; intros M Z HA MA Lb.
    - rewrite !HA in M. erewrite (cap_mean_ext 0 (fun d => zonal p _ _ _)) in M by (intros d Hd; apply Z; lia). rewrite <- M. apply cap_mean_ext. intros d _. rewrite Nat.sub_0_r. reflexivity.
    - rewrite (MA b _ Lb) in M. replace (l + 1 - 1)%nat with l in M by lia. exact M.
  Qed.
End States.
