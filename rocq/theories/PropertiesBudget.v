(** Properties C185-C186: budgets of a column and of a meridian. *)
From Verif Require Import Base BaseFacts Spec SpecFacts Grid Pipeline Object ObjectSpec ObjectProofs ObjectProofs4 FormulaSpec FormulaProofs StateSpec StateProofs3 StateProofs4 BudgetSpec BudgetProofs PropertiesObject PropertiesFormula StateCase.
Open Scope R_scope.

(** ** C185: the vertical mean of the stretching term is the low-level heat flux less what leaves through the top *)
Theorem C185_stretching_term_adds_up_to_the_heat_flux_less_the_top :
  forall (lib : library) (k : class) (w : qgargs) (nc : field3) (t : tables), session_tables_are lib k w nc t ->
  pole_to_pole_latitudes w -> thickness w <> 0 -> result_height w 0 = 0 -> result_height w 1 = thickness w ->
  forall north d i, (i < w_nlon w)%nat -> reported w north d -> (1 <= d)%nat -> wave_row k w d -> low_level_slopes k w lib north ->
    let row := result_row w north d in
    vertical_mean w (fun l => t_stretch t l row i) = t_heat t row i - top_heat_flux k w lib t north d i.
Proof.
  intros lib k w nc t H Lat Ht Z0 Z1. start H. intros north d i Hi Hd H1 Hw Sl row. unfold row. rewrite (column_sum lib k w nc g t U Hg Od T north d i Hi Hd Ht), (heat_at_low_levels lib k w nc g t U Hg Od T north d i Hi Hd H1 Hw Lat Ht Z0 Z1 Sl). reflexivity.
Qed.
Print Assumptions C185_stretching_term_adds_up_to_the_heat_flux_less_the_top.
(** without assumptions on the stratification: half the sum of the heat fluxes at the two lowest levels, less the top *)
Theorem C185_vertical_mean_of_the_stretching_term :
  forall (lib : library) (k : class) (w : qgargs) (nc : field3) (t : tables), session_tables_are lib k w nc t -> thickness w <> 0 ->
  forall north d i, (i < w_nlon w)%nat -> reported w north d ->
    vertical_mean w (fun l => t_stretch t l (result_row w north d) i)
    = coriolis w north d * (/ 2 * (eddy_heat k w lib t north d 0 i + eddy_heat k w lib t north d 1 i)) / column w - top_heat_flux k w lib t north d i.
Proof. intros lib k w nc t H Ht. start H. intros north d i Hi Hd. exact (column_sum lib k w nc g t U Hg Od T north d i Hi Hd Ht). Qed.
Print Assumptions C185_vertical_mean_of_the_stretching_term.

(** a meridional wind at the top level only, over a temperature that varies with longitude there; without it the mean potential temperature grows by 1 per level *)
Definition column_args : qgargs :=
  {| w_nlon := 4; w_nlat := 5; w_nlev := 4; w_ylat := fun j => -90 + INR j * 45;
     w_plev := fun l => 1000 * exp (- INR l / 7); w_u := fun _ _ _ => 0; w_v := fun l _ _ => if Nat.eqb l 2 then 1 else 0;
     w_t := fun l _ i => (300 + INR l + (if Nat.eqb l 2 then if Nat.eqb i 0 then 1 else if Nat.eqb i 1 then -1 else 0 else 0)) * exp (- (287 / 1004 * INR l / 7));
     w_kmax := 3; w_maxit := 10; w_dz := 1; w_npart := Some 2%nat; w_tol := 1; w_rjac := 1 / 2; w_H := 7; w_cp := 1004; w_rr := 287; w_om := 1; w_a := 6;
     w_nh := true; w_evenly := false |}.
Definition linear_library : library := {| lb_spline := fun _ _ _ z => 300 + z; lb_dspline := fun _ _ _ _ => 1; lb_inverse := lb_inverse isentropic_library; lb_mem1 := fun _ _ => 3; lb_mem2 := fun _ _ => 5 |}.
Lemma column_height l : data_height column_args l = INR l. Proof. exact (jet_height 1 l). Qed.
Lemma column_usable : usable NH18 column_args. Proof. exact (jet_usable 1). Qed.
Lemma column_accepted : accepted_levels column_args. Proof. exact (jet_accepted 1). Qed.
Lemma column_poles : pole_to_pole_latitudes column_args. Proof. exact (jet_poles 1). Qed.
Lemma column_slopes north : low_level_slopes NH18 column_args linear_library north.
Proof. unfold low_level_slopes, t_slope, t_mean, smooth, result_height, thickness. cbn [linear_library lb_spline lb_dspline column_args w_evenly w_dz INR]. split; field. Qed.
Lemma column_descending : descending_pressure column_args.
Proof. split; [cbn; lra|]. intros l Hl. cbn [column_args w_plev]. split; [assert (Q := exp_pos (- INR (S l) / 7)); lra|]. apply Rmult_lt_compat_l; [lra|]. apply exp_increasing. rewrite S_INR. lra. Qed.
Lemma column_fields nc t : session_tables_are linear_library NH18 column_args nc t -> forall l, (l < 3)%nat -> forall row i,
  t_v t l row i = (if Nat.eqb l 2 then 1 else 0) /\ t_theta t l row i = 300 + INR l + (if Nat.eqb l 2 then if Nat.eqb i 0 then 1 else if Nat.eqb i 1 then -1 else 0 else 0).
Proof.
  intros (U & Od & x & Hx & Hr) l Hl row i. destruct (C134_levels_of_the_data_are_kept linear_library NH18 column_args nc x U Hx Od column_descending l l ltac:(cbn; lia) ltac:(cbn; lia)) as (_ & B & C).
  { rewrite column_height. unfold result_height. cbn [column_args w_evenly w_dz]. ring. }
  destruct Hr as (_ & _ & R3 & R4 & _). rewrite R3 in B. rewrite R4 in C. cbn [gives] in B, C. rewrite (B row i), (C row i). cbn [column_args w_v w_t w_plev w_rr w_cp]. split; [reflexivity|].
  unfold Rpower. replace (1000 / (1000 * exp (- INR l / 7))) with (exp (INR l / 7)).
  - rewrite ln_exp. rewrite Rmult_assoc, <- exp_plus. replace (- (287 / 1004 * INR l / 7) + 287 / 1004 * (INR l / 7)) with 0 by field. rewrite exp_0. ring.
  - assert (Q := exp_pos (- INR l / 7)). assert (E : exp (INR l / 7) * exp (- INR l / 7) = 1) by (rewrite <- exp_plus; replace (INR l / 7 + - INR l / 7) with 0 by field; apply exp_0). apply (Rmult_eq_reg_r (exp (- INR l / 7))); [|lra]. rewrite E. field. lra.
Qed.
(** the documented equality fails: heat leaves the column through its top *)
Theorem C185_mean_of_stretching_term_is_the_heat_flux_refuted :
  ~ forall (lib : library) (k : class) (w : qgargs) (nc : field3) (t : tables), session_tables_are lib k w nc t ->
    pole_to_pole_latitudes w -> physical_constants w -> result_height w 0 = 0 -> result_height w 1 = thickness w ->
    forall north d i, (i < w_nlon w)%nat -> reported w north d -> (1 <= d)%nat -> wave_row k w d -> low_level_slopes k w lib north ->
      vertical_mean w (fun l => t_stretch t l (result_row w north d) i) = t_heat t (result_row w north d) i.
Proof.
  intros F. destruct (tables_of linear_library NH18 column_args (fun _ _ _ => 0) column_usable column_accepted eq_refl) as [t H].
  assert (Th : thickness column_args = 1) by reflexivity. assert (Z : forall l, result_height column_args l = INR l) by (intros l; unfold result_height; cbn [column_args w_evenly w_dz]; ring).
  assert (Rp : reported column_args true 1) by (split; [cbn; lia|reflexivity]). assert (Wv : wave_row NH18 column_args 1) by (unfold wave_row; cbn; lia).
  assert (A : forall i, (i < 4)%nat -> eddy_heat NH18 column_args linear_library t true 1 2 i = 0).
  { intros i Hi. assert (E := C185_stretching_term_adds_up_to_the_heat_flux_less_the_top _ _ _ _ _ H column_poles ltac:(rewrite Th; lra) (Z 0%nat) ltac:(rewrite Th; apply Z) true 1%nat i Hi Rp ltac:(lia) Wv (column_slopes true)). cbv zeta in E.
    rewrite (F _ _ _ _ _ H column_poles (jet_constants 1) (Z 0%nat) ltac:(rewrite Th; apply Z) true 1%nat i Hi Rp ltac:(lia) Wv (column_slopes true)) in E.
    assert (T0 : top_heat_flux NH18 column_args linear_library t true 1 i = 0) by lra. unfold top_heat_flux in T0. change (result_levels column_args - 1)%nat with 2%nat in T0. change (result_levels column_args - 2)%nat with 1%nat in T0.
    assert (E1 : eddy_heat NH18 column_args linear_library t true 1 1 i = 0). { unfold eddy_heat. rewrite (proj1 (column_fields _ _ H 1%nat ltac:(lia) _ i)). cbn [Nat.eqb]. unfold Rdiv. ring. }
    rewrite E1 in T0. assert (Cl : 0 < column column_args). { unfold column. rewrite Th. change (result_levels column_args - 1)%nat with 2%nat. rewrite Sum_S_r, Sum_empty by lia. assert (Q := exp_pos (- (INR 1 * 1) / w_H column_args)). lra. }
    assert (Co : coriolis column_args true 1 <> 0).
    { rewrite (coriolis_of NH18 column_args column_usable eq_refl) by (exact column_poles || (cbn; lia)). unfold angle, step. cbn [column_args w_nlat w_om sign]. change (5 - 1)%nat with 4%nat. cbn [INR]. replace (1 * (PI / (1 + 1 + 1 + 1))) with (PI / 4) by field. assert (Q := s_pos). lra. }
    unfold Rdiv in T0 at 1. apply Rmult_integral in T0. destruct T0 as [T0|T0]; [|exfalso; revert T0; apply Rinv_neq_0_compat; lra]. apply Rmult_integral in T0. destruct T0 as [T0|T0]; [contradiction|lra]. }
  assert (We : weight column_args (grid_row column_args true 1) <> 0).
  { rewrite (weight_of NH18 column_args column_usable eq_refl) by (exact column_poles || (cbn; lia)). unfold angle, step. cbn [column_args w_nlat]. change (5 - 1)%nat with 4%nat. cbn [INR]. replace (1 * (PI / (1 + 1 + 1 + 1))) with (PI / 4) by field. rewrite cos_4. assert (Q := s_pos). lra. }
  assert (B : forall i, (i < 4)%nat -> t_theta t 2%nat (grid_row column_args true 1) i = t_ptref t 2 (result_row column_args true 1)).
  { intros i Hi. assert (E := A i Hi). unfold eddy_heat in E. rewrite (proj1 (column_fields _ _ H 2%nat ltac:(lia) _ i)) in E. cbn [Nat.eqb] in E.
    assert (St : stability NH18 column_args linear_library true 1 2 = 1) by (unfold stability, t_slope, smooth; cbn [Nat.eqb linear_library lb_dspline]; field). rewrite St in E. assert (Q := exp_pos (- result_height column_args 2 / w_H column_args)).
    replace (1 * (t_theta t 2%nat (grid_row column_args true 1) i - t_ptref t 2 (result_row column_args true 1)) * weight column_args (grid_row column_args true 1)) with ((t_theta t 2%nat (grid_row column_args true 1) i - t_ptref t 2 (result_row column_args true 1)) * weight column_args (grid_row column_args true 1)) in E by ring.
    unfold Rdiv in E. rewrite Rinv_1, Rmult_1_r in E. apply Rmult_integral in E. destruct E as [E|E]; [lra|]. apply Rmult_integral in E. destruct E as [E|E]; [lra|contradiction]. }
  assert (B0 := B 0%nat ltac:(lia)). assert (B1 := B 1%nat ltac:(lia)). rewrite (proj2 (column_fields _ _ H 2%nat ltac:(lia) _ _)) in B0. rewrite (proj2 (column_fields _ _ H 2%nat ltac:(lia) _ _)) in B1. cbn [Nat.eqb] in B0, B1. lra.
Qed.
Print Assumptions C185_mean_of_stretching_term_is_the_heat_flux_refuted.
Example C185_case : forall nc, exists t, session_tables_are linear_library NH18 column_args nc t /\ forall i, (i < 4)%nat ->
  vertical_mean column_args (fun l => t_stretch t l 1%nat i) = t_heat t 1%nat i - top_heat_flux NH18 column_args linear_library t true 1 i.
Proof.
  intros nc. destruct (tables_of linear_library NH18 column_args nc column_usable column_accepted eq_refl) as [t H]. exists t. split; [exact H|]. intros i Hi.
  assert (Z : forall l, result_height column_args l = INR l) by (intros l; unfold result_height; cbn [column_args w_evenly w_dz]; ring).
  apply (C185_stretching_term_adds_up_to_the_heat_flux_less_the_top _ _ _ _ _ H column_poles); [unfold thickness; cbn; lra|apply Z|unfold thickness; cbn [column_args w_evenly w_dz]; apply Z|exact Hi|split; [cbn; lia|reflexivity]|lia|unfold wave_row; cbn; lia|apply column_slopes].
Qed.

(** ** C186: the divergence of the eddy momentum flux adds up to the fluxes at the ends *)
Theorem C186_momentum_is_only_redistributed_between_the_ends :
  forall (lib : library) (k : class) (w : qgargs) (nc : field3) (t : tables), session_tables_are lib k w nc t -> pole_to_pole_latitudes w -> w_a w <> 0 ->
  forall north first last i, (i < w_nlon w)%nat -> reported w north first -> (boundary k + 1 <= first <= last)%nat -> (last < half w)%nat ->
    Sum first (last + 1) (fun d => t_div t (result_row w north d) i * cos (angle w d) * (w_a w * step w))
    = sign north * ((mean_momentum_flux w t north (last + 1) i + mean_momentum_flux w t north last i) / 2
                    - (mean_momentum_flux w t north first i + mean_momentum_flux w t north (first - 1) i) / 2).
Proof.
  intros lib k w nc t H Lat Ha. start H. intros north first last i Hi R Hf Hl. assert (Sp := step_pos k w U Od).
  rewrite (Sum_ext _ _ _ (fun d => sign north / 2 * (mean_momentum_flux w t north (d + 1) i - mean_momentum_flux w t north (d - 1) i))).
  - rewrite Sum_scal. rewrite (rows_telescope (fun d => mean_momentum_flux w t north d i)) by lia. field.
  - intros d Hd. assert (R' : reported w north d) by (apply (reported_more w north first); [exact R|lia]). assert (Hw : wave_row k w d) by (unfold wave_row; lia).
    rewrite (FormulaProofs5.div_formula lib k w nc g t U Hg Od T north i d Hi R'). rewrite (momentum_difference lib k w nc g t U Hg Od T north i d Hi R' Hw ltac:(lia)). rewrite (weight_of k w U Od north d Lat ltac:(lia)).
    assert (Cp : 0 < cos (angle w d)). { apply cos_gt_0; [assert (Q := angle_range k w U Od d ltac:(lia)); assert (P := PI_RGT_0); lra|]. assert (Q := angle_range k w U Od (d + 1) ltac:(lia)). unfold angle in *. rewrite plus_INR in Q. cbn [INR] in Q. lra. }
    field. repeat split; lra.
Qed.
Print Assumptions C186_momentum_is_only_redistributed_between_the_ends.
Example C186_case : forall nc, exists t, session_tables_are isentropic_library NH18 (jet_args 1) nc t /\ forall i, (i < 4)%nat ->
  t_div t 1%nat i * cos (PI / 4) * (6 * (PI / 4)) = (mean_momentum_flux (jet_args 1) t true 2 i + mean_momentum_flux (jet_args 1) t true 1 i) / 2 - (mean_momentum_flux (jet_args 1) t true 1 i + mean_momentum_flux (jet_args 1) t true 0 i) / 2.
Proof.
  intros nc. destruct (tables_of isentropic_library NH18 (jet_args 1) nc (jet_usable 1) (jet_accepted 1) eq_refl) as [t H]. exists t. split; [exact H|]. intros i Hi.
  assert (E := C186_momentum_is_only_redistributed_between_the_ends _ _ _ _ _ H (jet_poles 1) ltac:(cbn; lra) true 1%nat 1%nat i Hi (jet_reported 1 1 ltac:(lia)) ltac:(cbn; lia) ltac:(cbn; lia)).
  rewrite Sum_S_r, Sum_empty in E by lia. rewrite (jet_step 1) in E. unfold angle in E. rewrite (jet_step 1) in E. cbn [INR jet_args w_a sign Nat.add Nat.sub] in E. rewrite !Rmult_1_l, Rplus_0_l in E. exact E.
Qed.
