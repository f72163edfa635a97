(** Budgets along a meridian and along a column. *)
From Verif Require Import Base BaseFacts Spec SpecFacts Flux FluxSpec FluxProofs Pipeline PipelineSpec Object ObjectSpec ObjectProofs ObjectProofs4 FormulaSpec FormulaProofs FormulaProofs2 FormulaProofs3 FormulaProofs4 FormulaProofs5 StateSpec StateProofs3 StateProofs4 BudgetSpec PropertiesFormula.
Open Scope R_scope.

Lemma rows_telescope (F : nat -> R) a b : (1 <= a)%nat -> (a <= b)%nat -> Sum a (b + 1) (fun d => F (d + 1)%nat - F (d - 1)%nat) = F (b + 1)%nat + F b - F a - F (a - 1)%nat.
Proof.
  intros A H. replace b with (a + (b - a))%nat by lia. induction (b - a)%nat as [|n IH].
  - replace (a + 0 + 1)%nat with (S a) by lia. rewrite Sum_S_r, Sum_empty by lia. replace (a + 0)%nat with a by lia. replace (a + 1)%nat with (S a) by lia. ring.
  - replace (a + S n + 1)%nat with (S (a + n + 1)) by lia. rewrite Sum_S_r by lia. rewrite IH. replace (a + S n)%nat with (a + n + 1)%nat by lia. replace (a + n + 1 - 1)%nat with (a + n)%nat by lia. replace (a + n + 1 + 1)%nat with (S (a + n + 1)) by lia. ring.
Qed.
Lemma levels_telescope (Y : nat -> R) m : (3 <= m)%nat ->
  Sum 1 (m - 1) (fun l => (Y (l + 1)%nat - Y (l - 1)%nat) / 2) = (Y (m - 1)%nat + Y (m - 2)%nat - Y 1%nat - Y 0%nat) / 2.
Proof.
  intros H. replace (Sum 1 (m - 1) (fun l => (Y (l + 1)%nat - Y (l - 1)%nat) / 2)) with (/ 2 * Sum 1 (m - 2 + 1) (fun l => Y (l + 1)%nat - Y (l - 1)%nat)).
  - rewrite rows_telescope by lia. replace (m - 2 + 1)%nat with (m - 1)%nat by lia. change (1 - 1)%nat with 0%nat. field.
  - rewrite <- Sum_scal. replace (m - 2 + 1)%nat with (m - 1)%nat by lia. apply Sum_ext. intros. field.
Qed.

Section Session.
  Variables (lib : library) (k : class) (w : qgargs) (nc : field3) (g : grid) (t : tables).
  Hypothesis U : usable k w.
  Hypothesis Hg : grid_of w = Done g.
  Hypothesis Od : Nat.even (w_nlat w) = false.
  Local Notation o := (object_of k w g).
  Local Notation c := (ob_conf o).
  Hypothesis T : are_stored (analyse lib k w o nc) c t.
  Local Notation h := (half w).
  Local Notation D := (dims c).
  Local Notation side b := (side lib k w nc g b).

  Ltac tbl := destruct T as (T1 & T2 & T3 & T4 & T5 & T6 & T7 & T8 & T9 & T10 & T11 & T12 & T13 & T14 & T15 & T16 & T17 & T18 & T19 & T20 & T21 & T22 & T23 & T24 & T25).
  (** momentum flux terms vanish at the levels outside *)
  Lemma momentum_outside north l i d : (i < w_nlon w)%nat -> (l < result_levels w)%nat -> reported w north d -> wave_row k w d -> ~ inner_level w l ->
    t_ep2 t l (result_row w north d) i = 0 /\ t_ep3 t l (result_row w north d) i = 0.
  Proof.
    intros Hi Hl Hd Hw Hv. apply (wave_row_iff k w g U Hg Od) in Hw as Hw'.
    assert (Hv' : ~ interior_level D (l + 1)). { intros Q. apply Hv. apply (inner_level_iff k w g U Hg Od). exact Q. }
    assert (Sz := hemi_sizes k w g U Hg Od). destruct (dims_odd k w g U Hg Od) as (E1 & E2 & E3 & E4 & E5 & E6). assert (Hi' : (1 <= i + 1 <= imax D)%nat) by (rewrite E1; lia).
    assert (Hj : (1 <= d + 1 <= nd D)%nat) by (unfold wave_row in Hw; rewrite E4; lia).
    assert (A : forall b, k_ep2 c (side b) (i + 1)%nat (d + 1)%nat (l + 1)%nat = 0).
    { intros b. unfold k_ep2, ep2. rewrite ep2_writes_eq. apply put_writes_none; try assumption; try reflexivity; [lia|tauto|]. intros E. exfalso. refine (edge_row_not_analysed D eq_refl Sz _). rewrite <- E. exact Hw'. }
    assert (B : forall b, k_ep3 c (side b) (i + 1)%nat (d + 1)%nat (l + 1)%nat = 0).
    { intros b. unfold k_ep3, ep3. rewrite ep3_writes_eq. apply put_writes_none; try assumption; try reflexivity; [lia|tauto|]. intros E. exfalso. refine (edge_row_not_analysed D eq_refl Sz _). rewrite <- E. exact Hw'. }
    tbl. rewrite T23, T24, (layer_sides lib k w nc g). cbn [layerwise_terms l_ep2 l_ep3]. rewrite !(global3_at k w g U Hg Od) by exact Hd. toR.
    destruct north; rewrite ?A, ?B; split; ring.
  Qed.
  Lemma momentum_difference north i d : (i < w_nlon w)%nat -> reported w north d -> wave_row k w d -> (boundary k + 1 <= d)%nat ->
    vertical_mean w (fun l => t_ep2 t l (result_row w north d) i - t_ep3 t l (result_row w north d) i)
    = sign north * (mean_momentum_flux w t north (d + 1) i - mean_momentum_flux w t north (d - 1) i).
  Proof.
    intros Hi Hd Hw Hb. unfold mean_momentum_flux, vertical_mean. unfold Rdiv. rewrite <- Rmult_minus_distr_r, <- Rmult_assoc. f_equal. rewrite <- Sum_minus, <- Sum_scal. apply Sum_ext. intros l Hl.
    destruct (Nat.leb_spec (l + 2) (result_levels w)) as [L|L].
    - destruct (momentum_formula lib k w nc g t U Hg Od T north l i d Hi ltac:(lia) Hd Hw ltac:(unfold inner_level; lia) Hb) as [-> ->]. destruct north; unfold sign; ring.
    - destruct (momentum_outside north l i d Hi ltac:(lia) Hd Hw ltac:(unfold inner_level; lia)) as [-> ->]. ring.
  Qed.

  (** ** latitudes *)
  Lemma latitude_of north d : pole_to_pole_latitudes w -> (d <= h)%nat -> w_ylat w (grid_row w north d) * PI / 180 = sign north * angle w d.
  Proof.
    intros Lat Hd. destruct (n_facts k w U Od) as [N N2]. rewrite Lat by (unfold grid_row; destruct north; lia). unfold angle, step. replace (w_nlat w - 1)%nat with (2 * h)%nat by lia. rewrite mult_INR. cbn [INR]. replace (1 + 1) with 2 by ring.
    assert (0 < INR h) by (apply lt_0_INR; lia). unfold grid_row, sign. destruct north; [rewrite plus_INR|rewrite minus_INR by lia]; field; lra.
  Qed.
  Lemma angle_range d : (d <= h)%nat -> 0 <= angle w d <= PI / 2.
  Proof.
    intros Hd. destruct (n_facts k w U Od) as [N N2]. assert (Sp := step_pos k w U Od). assert (E : angle w h = PI / 2).
    { unfold angle, step. replace (w_nlat w - 1)%nat with (2 * h)%nat by lia. rewrite mult_INR. cbn [INR]. assert (0 < INR h) by (apply lt_0_INR; lia). field. lra. }
    rewrite <- E. unfold angle. apply le_INR in Hd. assert (Q := pos_INR d). split; [apply Rmult_le_pos; lra|apply Rmult_le_compat_r; lra].
  Qed.
  Lemma weight_of north d : pole_to_pole_latitudes w -> (d <= h)%nat -> weight w (grid_row w north d) = cos (angle w d).
  Proof.
    intros Lat Hd. unfold weight. rewrite latitude_of by assumption. assert (A := angle_range d Hd). assert (P := PI_RGT_0). rewrite Rabs_right; [unfold sign; destruct north; [f_equal; ring|rewrite <- cos_neg; f_equal; ring]|].
    apply Rle_ge. apply cos_ge_0; unfold sign; destruct north; lra.
  Qed.
  Lemma coriolis_of north d : pole_to_pole_latitudes w -> (d <= h)%nat -> coriolis w north d = 2 * w_om w * (sign north * sin (angle w d)).
  Proof. intros Lat Hd. unfold coriolis. rewrite latitude_of by assumption. f_equal. unfold sign. destruct north; [rewrite !Rmult_1_l; reflexivity|]. replace (-1 * angle w d) with (- angle w d) by ring. rewrite sin_neg. ring. Qed.

  (** ** a column *)
  Lemma column_sum north d i : (i < w_nlon w)%nat -> reported w north d -> thickness w <> 0 ->
    vertical_mean w (fun l => t_stretch t l (result_row w north d) i)
    = coriolis w north d * (/ 2 * (eddy_heat k w lib t north d 0 i + eddy_heat k w lib t north d 1 i)) / column w - top_heat_flux k w lib t north d i.
  Proof.
    intros Hi Hd Ht. destruct (limits k w U) as (_ & L & _). set (m := result_levels w) in *. set (Y := fun l => eddy_heat k w lib t north d l i).
    unfold top_heat_flux. fold m. change (eddy_heat k w lib t north d 0 i) with (Y 0%nat). change (eddy_heat k w lib t north d 1 i) with (Y 1%nat). change (eddy_heat k w lib t north d (m - 1) i) with (Y (m - 1)%nat). change (eddy_heat k w lib t north d (m - 2) i) with (Y (m - 2)%nat).
    unfold vertical_mean. fold m. change (thickness w * Sum 1 (m - 1) (fun l => exp (- (INR l * thickness w) / w_H w))) with (column w).
    set (f := coriolis w north d).
    assert (E : Sum 1 m (fun l => t_stretch t l (result_row w north d) i * exp (- result_height w l / w_H w) * thickness w) = f * (/ 2 * (Y 0%nat + Y 1%nat) - (3 / 2 * Y (m - 1)%nat - / 2 * Y (m - 2)%nat))).
    - assert (B : forall l, (l < m)%nat -> t_stretch t l (result_row w north d) i * exp (- result_height w l / w_H w) * thickness w = - f * (vertical_derivative w Y l * thickness w)).
      { intros l Hl. rewrite (stretch_formula lib k w nc g t U Hg Od T north i d Hi Hd l Hl). fold Y. unfold f, coriolis.
        assert (X : exp (result_height w l / w_H w) * exp (- result_height w l / w_H w) = 1). { rewrite <- exp_plus. replace (result_height w l / w_H w + - result_height w l / w_H w) with 0; [apply exp_0|]. unfold Rdiv. ring. }
        match goal with |- - (?a * ?e * ?v) * ?e' * ?z = _ => replace (- (a * e * v) * e' * z) with (- a * v * z * (e * e')) by ring end. rewrite X. unfold Y, eddy_heat. ring. }
      replace (Sum 1 m (fun l => t_stretch t l (result_row w north d) i * exp (- result_height w l / w_H w) * thickness w)) with (Sum 1 (S (m - 1)) (fun l => - f * (vertical_derivative w Y l * thickness w))).
      + rewrite Sum_scal, Sum_S_r by lia. replace (Sum 1 (m - 1) (fun l => vertical_derivative w Y l * thickness w)) with (Sum 1 (m - 1) (fun l => (Y (l + 1)%nat - Y (l - 1)%nat) / 2)).
        * rewrite levels_telescope by lia. unfold vertical_derivative. fold m. rewrite Nat.eqb_refl. field. exact Ht.
        * apply Sum_ext. intros l Hl. unfold vertical_derivative. fold m. destruct (Nat.eqb_spec l (m - 1)) as [Q|Q]; [lia|]. destruct (Nat.eqb_spec l 0) as [Q'|Q']; [lia|]. field. exact Ht.
      + replace (S (m - 1)) with m by lia. apply Sum_ext. intros l Hl. symmetry. apply B. lia.
    - rewrite E. unfold Rdiv. ring.
  Qed.
  Lemma heat_at_low_levels north d i : (i < w_nlon w)%nat -> reported w north d -> (1 <= d)%nat -> wave_row k w d -> pole_to_pole_latitudes w -> thickness w <> 0 ->
    result_height w 0 = 0 -> result_height w 1 = thickness w -> low_level_slopes k w lib north ->
    t_heat t (result_row w north d) i = coriolis w north d * (/ 2 * (eddy_heat k w lib t north d 0 i + eddy_heat k w lib t north d 1 i)) / column w.
  Proof.
    intros Hi Hd H1 Hw Lat Ht Z0 Z1 [S0 S1]. destruct (limits k w U) as (_ & L & _). destruct (heat_formula lib k w nc g t U Hg Od T north 0 i d Hi ltac:(lia) Hd) as [A _]. rewrite (A Hw).
    assert (Hh : (d <= h)%nat) by apply Hd. rewrite coriolis_of by assumption. unfold eddy_heat, stability. destruct (Nat.eqb_spec d 0) as [Q|Q]; [lia|]. rewrite weight_of, Z0, Z1, S0, S1 by assumption. fold (column w).
    replace (- 0 / w_H w) with 0 by (unfold Rdiv; ring). rewrite exp_0. unfold Rdiv. rewrite !Rinv_mult, !Rinv_inv. generalize (/ column w) (/ (t_mean k w lib north 2 - t_mean k w lib north 0)) (/ (t_mean k w lib north 1 - t_mean k w lib north 0)). intros. field.
  Qed.
End Session.
