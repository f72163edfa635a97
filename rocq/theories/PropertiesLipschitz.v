(** Property C189: how much the wave activity read from a session can change with the dataset; and what C187 says of grids with an even number of latitudes. *)
From Verif Require Import Base BaseFacts Spec SpecFacts Grid Pipeline Object ObjectSpec ObjectProofs ObjectProofs4 FormulaSpec FormulaProofs FormulaProofs2 StateSpec StateProofs StateProofs3 StateProofs4 BudgetProofs BoundProofs LipschitzProofs
  EvenSpec EvenProofs PropertiesObject PropertiesFormula PropertiesEven PropertiesBounds PropertiesBudget StateCase.
Open Scope R_scope.

(** two sets of arguments with the same grid and the same planet; everything else may differ *)
Definition same_grid (w w' : qgargs) : Prop :=
  w_nlon w' = w_nlon w /\ w_nlat w' = w_nlat w /\ w_nh w' = w_nh w /\ w_a w' = w_a w /\ result_levels w' = result_levels w.
(** the PV of the two sessions differs by at most [e] on a meridian, the reference PV of a row by at most [e'] *)
Definition pv_apart (w : qgargs) (t t' : tables) (north : bool) (l d i : nat) (e e' : R) : Prop :=
  (forall d', (d' <= half w)%nat -> Rabs (pole_pv w t north l i d' - pole_pv w t' north l i d') <= e) /\ Rabs (pole_ref w t north l d - pole_ref w t' north l d) <= e'.

(** ** C189: the wave activities of two sessions differ by at most the difference in PV and that in the reference PV, times the radius (and one row more) *)
Theorem C189_wave_activity_changes_at_most_as_much_as_the_pv :
  forall (lib lib' : library) (k : class) (w w' : qgargs) (nc nc' : field3) (t t' : tables), session_tables_are lib k w nc t -> session_tables_are lib' k w' nc' t' -> same_grid w w' -> 0 < w_a w ->
  forall north d i, (i < w_nlon w)%nat -> reported w north d ->
    (forall l e e', (l < result_levels w)%nat -> pv_apart w t t' north l d i e e' ->
       Rabs (t_lwa t l (result_row w north d) i - t_lwa t' l (result_row w north d) i) <= (e + e') * (w_a w * (1 + step w))) /\
    (0 < thickness w -> thickness w' = thickness w -> w_H w' = w_H w -> (forall l, (1 <= l)%nat -> (l < result_levels w)%nat -> result_height w l = INR l * thickness w /\ result_height w' l = INR l * thickness w) ->
       forall e e', (forall l, inner_level w l -> pv_apart w t t' north l d i e e') ->
       Rabs (t_lwa_baro t (result_row w north d) i - t_lwa_baro t' (result_row w north d) i) <= (e + e') * (w_a w * (1 + step w))).
Proof.
  intros lib lib' k w w' nc nc' t t' H H' (S1 & S2 & S3 & S4 & S5) Ha north d i Hi Hd.
  assert (Eh : half w' = half w) by (unfold half; rewrite S2; reflexivity). assert (Es : step w' = step w) by (unfold step; rewrite S2; reflexivity).
  assert (Er : forall b j, grid_row w' b j = grid_row w b j) by (intros; unfold grid_row; rewrite Eh; reflexivity). assert (Err : forall b j, result_row w' b j = result_row w b j) by (intros; unfold result_row; rewrite S3, Er; reflexivity).
  assert (Hd' : reported w' north d) by (unfold reported; rewrite Eh, S3; exact Hd). assert (Ei : forall l, inner_level w' l = inner_level w l) by (intros; unfold inner_level; rewrite S5; reflexivity). assert (Ew : wave_row k w' d = wave_row k w d) by (unfold wave_row; rewrite Eh; reflexivity).
  assert (Ec : forall q Q, contour w' q Q d = contour w q Q d). { intros q Q. unfold contour. rewrite Eh. f_equal; apply Sum_ext; intros j Hj; unfold arc, angle; rewrite Es, S4; reflexivity. }
  destruct (C147_wave_activity_follows_from_qgpv lib k w nc t H ltac:(lra) north d i Hi Hd) as [A B]. destruct (C147_wave_activity_follows_from_qgpv lib' k w' nc' t' H' ltac:(lra) north d i ltac:(rewrite S1; exact Hi) Hd') as [A' B'].
  rewrite Err in B'. clear H'. start H. assert (Sp := step_pos k w U Od). assert (Pa : 0 < w_a w * (1 + step w)) by (apply Rmult_lt_0_compat; lra). destruct (limits k w U) as (_ & L3 & _).
  assert (D : forall l e e', (l < result_levels w)%nat -> pv_apart w t t' north l d i e e' -> Rabs (t_lwa t l (result_row w north d) i - t_lwa t' l (result_row w north d) i) <= (e + e') * (w_a w * (1 + step w))).
  { intros l e e' Hl [X Y]. destruct (A l Hl) as [A1 A2]. destruct (A' l ltac:(rewrite S5; exact Hl)) as [A3 A4]. rewrite Err, Ew, Ei in A3, A4. assert (X0 := X 0%nat ltac:(lia)). assert (Z1 := Rabs_pos (pole_pv w t north l i 0 - pole_pv w t' north l i 0)). assert (Z2 := Rabs_pos (pole_ref w t north l d - pole_ref w t' north l d)).
    assert (C : (wave_row k w d /\ inner_level w l) \/ ~ (wave_row k w d /\ inner_level w l)) by (unfold wave_row, inner_level; lia). destruct C as [C|C].
    - rewrite (A1 C), (A3 C), Ec. apply (contour_difference k w U Od Ha); [unfold wave_row in C; lia|]. intros j Hj. assert (Xj := X j Hj).
      replace (pole_pv w t north l i j - pole_ref w t north l d - (pole_pv w' t' north l i j - pole_ref w' t' north l d)) with ((pole_pv w t north l i j - pole_pv w t' north l i j) + - (pole_ref w t north l d - pole_ref w t' north l d)) by (unfold pole_pv, pole_ref; rewrite Er, Err; ring).
      eapply Rle_trans; [apply Rabs_triang|]. rewrite Rabs_Ropp. lra.
    - rewrite (A2 C), (A4 C), Rminus_0_r, Rabs_R0. apply Rmult_le_pos; lra. }
  split; [exact D|]. intros Ht Et EH Hz e e' X. rewrite B, B'.
  assert (Em : vertical_mean w' (fun l => t_lwa t' l (result_row w north d) i) = vertical_mean w (fun l => t_lwa t' l (result_row w north d) i)).
  { unfold vertical_mean. rewrite S5, Et, EH. f_equal. apply Sum_ext. intros l Hl. destruct (Hz l ltac:(lia) ltac:(lia)) as [-> ->]. reflexivity. }
  rewrite Em. apply mean_difference; try assumption.
  - intros l L1 L2. apply Hz; assumption.
  - intros l Hl. apply D; [unfold inner_level in Hl; lia|]. apply X. exact Hl.
  - rewrite (proj2 (A (result_levels w - 1)%nat ltac:(lia))) by (unfold inner_level; lia). assert (Q := proj2 (A' (result_levels w - 1)%nat ltac:(lia))). rewrite Err in Q. rewrite Q; [reflexivity|]. rewrite Ei. unfold inner_level. lia.
Qed.
Print Assumptions C189_wave_activity_changes_at_most_as_much_as_the_pv.

(** a jet, and no wind but at the top *)
Example C189_case : forall nc nc', exists t t' e e', session_tables_are isentropic_library NH18 (jet_args 0) nc t /\ session_tables_are linear_library NH18 column_args nc' t' /\ same_grid (jet_args 0) column_args /\
  pv_apart (jet_args 0) t t' true 1 1 0 e e' /\ Rabs (t_lwa_baro t (result_row (jet_args 0) true 1) 0%nat - t_lwa_baro t' (result_row (jet_args 0) true 1) 0%nat) <= (e + e') * (6 * (1 + PI / 4)).
Proof.
  intros nc nc'. destruct (tables_of isentropic_library NH18 (jet_args 0) nc (jet_usable 0) (jet_accepted 0) eq_refl) as [t H]. destruct (tables_of linear_library NH18 column_args nc' column_usable column_accepted eq_refl) as [t' H'].
  set (y d := Rabs (pole_pv (jet_args 0) t true 1 0 d - pole_pv (jet_args 0) t' true 1 0 d)). exists t, t', (y 0%nat + y 1%nat + y 2%nat), (Rabs (pole_ref (jet_args 0) t true 1 1 - pole_ref (jet_args 0) t' true 1 1)).
  split; [exact H|]. split; [exact H'|]. assert (Sg : same_grid (jet_args 0) column_args) by (repeat split). split; [exact Sg|].
  assert (A : pv_apart (jet_args 0) t t' true 1 1 0 (y 0%nat + y 1%nat + y 2%nat) (Rabs (pole_ref (jet_args 0) t true 1 1 - pole_ref (jet_args 0) t' true 1 1))).
  { split; [|apply Rle_refl]. intros d Hd. assert (P : forall d, 0 <= y d) by (intros; apply Rabs_pos). assert (P0 := P 0%nat). assert (P1 := P 1%nat). assert (P2 := P 2%nat). fold (y d). unfold half in Hd. cbn [jet_args w_nlat] in Hd. change (5 / 2)%nat with 2%nat in Hd. destruct d as [|[|[|d]]]; [lra|lra|lra|lia]. }
  split; [exact A|]. destruct (C189_wave_activity_changes_at_most_as_much_as_the_pv _ _ _ _ _ _ _ _ _ H H' Sg ltac:(cbn; lra) true 1%nat 0%nat ltac:(cbn; lia) (jet_reported 0 1 ltac:(lia))) as [_ B]. rewrite (jet_step 0) in B.
  apply B; [cbn; lra|reflexivity|reflexivity|intros l _ _; split; reflexivity|]. intros l Hl. assert (l = 1%nat) as -> by (unfold inner_level in Hl; cbn in Hl; lia). exact A.
Qed.

(** ** C187 on grids with an even number of latitudes: the results interpolated back stay within the same bound *)
Lemma polyline_between n x y v j lo hi : (2 <= n)%nat -> ascending n x -> (j + 1 < n)%nat -> x j <= v <= x (j + 1)%nat -> (forall r, (r < n)%nat -> lo <= y r <= hi) -> lo <= polyline n x y v <= hi.
Proof.
  intros Hn As Hj Hv Hy. rewrite (polyline_on_segment n x y v j Hn As Hj Hv). assert (A := Hy j ltac:(lia)). assert (B := Hy (j + 1)%nat ltac:(lia)). assert (X : x j < x (j + 1)%nat) by (apply As; lia).
  set (p := (v - x j) / (x (j + 1)%nat - x j)). replace (y j + (v - x j) * ((y (j + 1)%nat - y j) / (x (j + 1)%nat - x j))) with ((1 - p) * y j + p * y (j + 1)%nat) by (unfold p; field; lra).
  assert (P : 0 <= p <= 1). { unfold p. split; [apply Rmult_le_pos; [lra|left; apply Rinv_0_lt_compat; lra]|]. apply (Rmult_le_reg_r (x (j + 1)%nat - x j)); [lra|]. unfold Rdiv. rewrite Rmult_assoc, Rinv_l by lra. lra. }
  clearbody p. assert (C1 : 0 <= (1 - p) * (y j - lo)) by (apply Rmult_le_pos; lra). assert (C2 : 0 <= p * (y (j + 1)%nat - lo)) by (apply Rmult_le_pos; lra).
  assert (C3 : 0 <= (1 - p) * (hi - y j)) by (apply Rmult_le_pos; lra). assert (C4 : 0 <= p * (hi - y (j + 1)%nat)) by (apply Rmult_le_pos; lra). lra.
Qed.
Lemma some_segment x v n : (1 <= n)%nat -> x 0%nat <= v <= x n -> exists j, (j + 1 < S n)%nat /\ x j <= v <= x (j + 1)%nat.
Proof.
  intros Hn. induction n as [|n IH]; [lia|]. intros Hv. destruct (Rle_dec (x n) v) as [L|L].
  - exists n. split; [lia|]. replace (n + 1)%nat with (S n) by lia. lra.
  - destruct n as [|n]; [lra|]. destruct (IH ltac:(lia) ltac:(lra)) as (j & Hj & E). exists j. split; [lia|exact E].
Qed.
Lemma spread_of_both w t north l s : pv_spread w t north l s -> forall b, pv_spread w t b l s.
Proof.
  intros (M & m & [A1 (r1 & i1 & R1 & I1 & E1)] & [B1 (r2 & i2 & R2 & I2 & E2)] & Hm & ->) b. destruct (Bool.bool_dec b north) as [->|D].
  - exists M, m. repeat split; try assumption; [exists r1, i1; auto|exists r2, i2; auto].
  - assert (E : forall r i, towards_pole t b l r i = - towards_pole t north l r i) by (intros; unfold towards_pole, sign; destruct b, north; congruence || ring).
    exists (- m), (- M). repeat split; try lra.
    + intros r i Hr Hi. rewrite E. assert (X := B1 r i Hr Hi). lra.
    + exists r2, i2. rewrite E, E2. auto.
    + intros r i Hr Hi. rewrite E. assert (X := A1 r i Hr Hi). lra.
    + exists r1, i1. rewrite E, E1. auto.
    + unfold Rmax, Rmin. repeat destruct Rle_dec; lra.
Qed.
Theorem C187_wave_activity_is_bounded_on_even_grids_too :
  forall (lib : library) (k : class) (w : qgargs) (nc : field3) (x : outputs) (t : tables), usable k w -> Nat.even (w_nlat w) = true -> w_nh w = false ->
  (forall row, (row < w_nlat w)%nat -> -90 <= w_ylat w row <= 90) -> 0 < w_a w -> 0 < w_om w ->
  session lib k w nc = Done x -> session_tables_are lib k (one_more_row w) nc t ->
  forall l s, (l < result_levels w)%nat -> pv_spread (one_more_row w) t true l s ->
  exists y, out_lwa x = Done y /\ forall row i, (row < w_nlat w)%nat -> (i < w_nlon w)%nat -> 0 <= y l row i <= s * (w_a w * (1 + PI / INR (w_nlat w))).
Proof.
  intros lib k w nc x t U Ev NF Lat Ha Ho Hx Ht l s Hl Hs. destruct (C151_even_grids_are_interpolated_odd_grids lib k w nc U Ev) as ((U' & Od') & Q). destruct (Q NF) as [_ Rd]. assert (Rx := Rd x t Hx Ht).
  exists (t_lwa (reread w t)). split; [apply Rx|]. intros row i Hr Hi. cbn [reread t_lwa]. unfold reread_field, at_row.
  destruct (n_facts k (one_more_row w) U' Od') as [N N2]. change (w_nlat (one_more_row w)) with (S (w_nlat w)) in N. assert (P : 0 < INR (w_nlat w)) by (apply lt_0_INR; lia).
  assert (As : ascending (S (w_nlat w)) (full_latitude (w_nlat w))). { intros a b L. unfold full_latitude. assert (INR a < INR b) by (apply lt_INR; lia). assert (0 < 180 / INR (w_nlat w)) by (apply Rmult_lt_0_compat; [lra|apply Rinv_0_lt_compat; exact P]). assert (INR a * (180 / INR (w_nlat w)) < INR b * (180 / INR (w_nlat w))) by (apply Rmult_lt_compat_r; assumption). lra. }
  destruct (some_segment (full_latitude (w_nlat w)) (w_ylat w row) (w_nlat w) ltac:(lia)) as (j & Hj & Hv).
  { assert (X := Lat row Hr). unfold full_latitude. cbn [INR]. replace (INR (w_nlat w) * (180 / INR (w_nlat w))) with 180 by (field; lra). lra. }
  apply (polyline_between _ _ _ _ j); try assumption; [lia|]. intros r Hrr.
  assert (Lat' : pole_to_pole_latitudes (one_more_row w)) by (intros r0 _; cbn [one_more_row w_ylat w_nlat]; unfold full_latitude; replace (S (w_nlat w) - 1)%nat with (w_nlat w) by lia; reflexivity).
  assert (Es : step (one_more_row w) = PI / INR (w_nlat w)) by (unfold step; cbn [one_more_row w_nlat]; replace (S (w_nlat w) - 1)%nat with (w_nlat w) by lia; reflexivity).
  assert (Bd : forall north d, reported (one_more_row w) north d -> 0 <= t_lwa t l (result_row (one_more_row w) north d) i <= s * (w_a w * (1 + PI / INR (w_nlat w)))).
  { intros north d Hd. rewrite <- Es. apply (proj1 (C187_wave_activity_is_at_most_the_spread_of_pv_times_the_radius lib k (one_more_row w) nc t Ht Lat' Ha Ho north d i Hi Hd) l s Hl). left. exact (spread_of_both _ _ true _ _ Hs north). }
  set (h := half (one_more_row w)) in *. destruct (le_lt_dec r h) as [L|L].
  - assert (Z := Bd false (h - r)%nat). unfold result_row, grid_row, reported in Z. change (w_nh (one_more_row w)) with (w_nh w) in Z. rewrite NF in Z. fold h in Z. replace (h - (h - r))%nat with r in Z by lia. apply Z. split; [lia|discriminate].
  - assert (Z := Bd true (r - h)%nat). unfold result_row, grid_row, reported in Z. change (w_nh (one_more_row w)) with (w_nh w) in Z. rewrite NF in Z. fold h in Z. replace (h + (r - h))%nat with r in Z by lia. apply Z. split; [lia|lia].
Qed.
Print Assumptions C187_wave_activity_is_bounded_on_even_grids_too.
(** a resting isothermal-in-latitude atmosphere on four rows *)
Definition resting_args : qgargs :=
  {| w_nlon := 4; w_nlat := 4; w_nlev := 4; w_ylat := fun j => -67.5 + INR j * 45;
     w_plev := fun l => 1000 * exp (- INR l / 7); w_u := fun _ _ _ => 0; w_v := fun _ _ _ => 0; w_t := fun l _ _ => 300 * exp (- (287 / 1004 * INR l / 7));
     w_kmax := 3; w_maxit := 10; w_dz := 1; w_npart := Some 2%nat; w_tol := 1; w_rjac := 1 / 2; w_H := 7; w_cp := 1004; w_rr := 287; w_om := 1; w_a := 6;
     w_nh := false; w_evenly := false |}.
Lemma resting_usable : usable NH18 resting_args.
Proof.
  unfold usable, balanced_latitudes. cbn [resting_args w_nlat w_ylat w_nlon w_nlev w_evenly w_npart w_kmax boundary]. split; [split; [lia|]; split; [intros j Hj; rewrite S_INR; lra|]|].
  - left. split; [reflexivity|]. intros j Hj. destruct j as [|[|[|[|]]]]; [| | | |lia]; cbn [INR]; lra.
  - repeat split; lia.
Qed.
Lemma resting_accepted : accepted_levels resting_args. Proof. exact (jet_accepted 1). Qed.
Lemma resting_fields nc t : session_tables_are isentropic_library NH18 (one_more_row resting_args) nc t -> forall l, (l < 3)%nat -> forall row i, t_u t l row i = 0 /\ t_v t l row i = 0 /\ t_theta t l row i = 300.
Proof.
  intros (U & Od & x & Hx & Hr) l Hl row i.
  destruct (C134_levels_of_the_data_are_kept isentropic_library NH18 (one_more_row resting_args) nc x U Hx Od) with (l := l) (l0 := l) as (A & B & C); try (cbn; lia).
  { split; [cbn; lra|]. intros m Hm. cbn [one_more_row resting_args w_plev]. split; [assert (Q := exp_pos (- INR (S m) / 7)); lra|]. apply Rmult_lt_compat_l; [lra|]. apply exp_increasing. rewrite S_INR. lra. }
  { change (data_height (one_more_row resting_args) l) with (data_height (jet_args 1) l). rewrite jet_height. unfold result_height. cbn [one_more_row resting_args w_evenly w_dz]. ring. }
  destruct Hr as (_ & R2 & R3 & R4 & _). rewrite R2 in A. rewrite R3 in B. rewrite R4 in C. cbn [gives] in A, B, C. rewrite (A row i), (B row i), (C row i). cbn [one_more_row resting_args w_u w_v w_t w_plev w_rr w_cp w_nlat w_ylat].
  assert (P : forall n y a v, polyline n y (fun _ => a) v = a) by (intros; unfold polyline, Rdiv; ring). rewrite !P. split; [reflexivity|]. split; [reflexivity|].
  unfold Rpower. replace (1000 / (1000 * exp (- INR l / 7))) with (exp (INR l / 7)).
  - rewrite ln_exp. rewrite Rmult_assoc, <- exp_plus. replace (- (287 / 1004 * INR l / 7) + 287 / 1004 * (INR l / 7)) with 0 by field. rewrite exp_0. ring.
  - assert (Q := exp_pos (- INR l / 7)). assert (E : exp (INR l / 7) * exp (- INR l / 7) = 1) by (rewrite <- exp_plus; replace (INR l / 7 + - INR l / 7) with 0 by field; apply exp_0). apply (Rmult_eq_reg_r (exp (- INR l / 7))); [|lra]. rewrite E. field. lra.
Qed.
Example C187_even_case : forall nc, exists x t, session isentropic_library NH18 resting_args nc = Done x /\ session_tables_are isentropic_library NH18 (one_more_row resting_args) nc t /\
  pv_spread (one_more_row resting_args) t true 1 (4 * sin (PI / 4)) /\ exists y, out_lwa x = Done y /\ forall row i, (row < 4)%nat -> (i < 4)%nat -> 0 <= y 1%nat row i <= 4 * sin (PI / 4) * (6 * (1 + PI / 4)).
Proof.
  intros nc. destruct (C151_even_grids_are_interpolated_odd_grids isentropic_library NH18 resting_args nc resting_usable eq_refl) as ((U & Od) & Q). destruct (Q eq_refl) as [E _].
  destruct (C131_session_succeeds_exactly_when isentropic_library NH18 resting_args nc resting_usable) as (Suc & _). assert (NE : w_nh resting_args = true -> Nat.even (w_nlat resting_args) = false) by (intros NE; discriminate NE).
  destruct (proj2 Suc (conj resting_accepted NE)) as [x Hx]. destruct (proj1 E (ex_intro _ x Hx)) as [t Ht]. exists x, t. split; [exact Hx|]. split; [exact Ht|].
  assert (F := resting_fields nc t Ht).
  assert (V : forall row i, (row = 1 \/ row = 2 \/ row = 3)%nat -> vorticity_inside (one_more_row resting_args) (t_u t 1%nat) (t_v t 1%nat) row i = match row with 1%nat => - (2 * sin (PI / 4)) | 2%nat => 0 | _ => 2 * sin (PI / 4) end).
  { intros row i Hr. unfold vorticity_inside. rewrite !(proj1 (F 1%nat ltac:(lia) _ _)), !(proj1 (proj2 (F 1%nat ltac:(lia) _ _))). unfold Rdiv. repeat (rewrite ?Rmult_0_l, ?Rminus_0_r, ?Rplus_0_r). change (w_om (one_more_row resting_args)) with 1. change (row_lat (one_more_row resting_args) row) with (row_lat (jet_args 1) row).
    destruct Hr as [-> | [-> | ->]]; [rewrite lat_1, sin_m4|rewrite lat_2, sin_0|rewrite lat_3]; unfold Rdiv; ring. }
  assert (PV : forall row i, (row < 5)%nat -> (i < 4)%nat -> t_qgpv t 1%nat row i = match row with 0%nat | 1%nat => - (2 * sin (PI / 4)) | 2%nat => 0 | _ => 2 * sin (PI / 4) end).
  { intros row i Hr Hi. destruct (C146_qgpv_follows_from_the_fields _ _ _ _ _ Ht 1%nat row i Hi Hr ltac:(cbn; lia)) as [A _]. rewrite A by (unfold inner_level; cbn; lia).
    assert (Z : stretching_of (one_more_row resting_args) (fun l => t_theta t l row i) (t_mean NH18 (one_more_row resting_args) isentropic_library true) (t_slope NH18 (one_more_row resting_args) isentropic_library true) 1 = 0).
    { unfold stretching_of. change (1 + 1)%nat with 2%nat. change (1 - 1)%nat with 0%nat. rewrite (proj2 (proj2 (F 2%nat ltac:(lia) _ _))), (proj2 (proj2 (F 0%nat ltac:(lia) _ _))). unfold t_mean, smooth. cbn [isentropic_library lb_spline]. replace (300 - / 2 * (300 + 300)) with 0 by field. unfold Rdiv. ring. }
    rewrite Z, Rmult_0_r, Rplus_0_r. unfold vorticity. change (w_nlat (one_more_row resting_args) - 1)%nat with 4%nat. change (w_nlat (one_more_row resting_args) - 2)%nat with 3%nat.
    destruct row as [|[|[|[|[|row]]]]]; [| | | | |lia]; cbn [Nat.eqb].
    - change (zonal_average (one_more_row resting_args)) with (zonal_average (jet_args 1)). rewrite four_mean, !V by lia. field.
    - apply V. lia.
    - apply V. lia.
    - apply V. lia.
    - change (zonal_average (one_more_row resting_args)) with (zonal_average (jet_args 1)). rewrite four_mean, !V by lia. field. }
  assert (A := s_pos).
  assert (Sp : pv_spread (one_more_row resting_args) t true 1 (4 * sin (PI / 4))).
  { exists (2 * sin (PI / 4)), (- (2 * sin (PI / 4))). repeat split.
    - intros row i Hr Hi. unfold towards_pole, sign. rewrite PV by assumption. destruct row as [|[|[|row]]]; lra.
    - exists 3%nat, 0%nat. split; [cbn; lia|]. split; [cbn; lia|]. unfold towards_pole, sign. rewrite PV by lia. ring.
    - intros row i Hr Hi. unfold towards_pole, sign. rewrite PV by assumption. destruct row as [|[|[|row]]]; lra.
    - exists 1%nat, 0%nat. split; [cbn; lia|]. split; [cbn; lia|]. unfold towards_pole, sign. rewrite PV by lia. ring.
    - lra.
    - rewrite Rmax_left, Rmin_left by lra. ring. }
  split; [exact Sp|].
  destruct (C187_wave_activity_is_bounded_on_even_grids_too isentropic_library NH18 resting_args nc x t resting_usable eq_refl eq_refl) with (l := 1%nat) (s := 4 * sin (PI / 4)) as (y & Hy & B); try assumption; try (cbn; lra || lia).
  { intros row Hr. cbn [resting_args w_nlat w_ylat] in *. destruct row as [|[|[|[|row]]]]; [| | | |lia]; cbn [INR]; lra. }
  exists y. split; [exact Hy|]. intros row i Hr Hi. assert (X := B row i Hr Hi). cbn [resting_args w_nlat w_a] in X. replace (INR 4) with 4 in X by (cbn; ring). exact X.
Qed.
