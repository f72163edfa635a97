(** Properties C187-C188: how large the wave activity of a session can be, and when there is none. *)
From Verif Require Import Base BaseFacts Spec SpecFacts Grid Pipeline Object ObjectSpec ObjectProofs ObjectProofs4 FormulaSpec FormulaProofs FormulaProofs2 StateSpec StateProofs StateProofs3 StateProofs4 BudgetProofs BoundProofs PropertiesObject PropertiesFormula StateCase.
Open Scope R_scope.

(** what a user can say of the values of PV at a level before any analysis: how far they (and 0) lie apart *)
Definition pv_spread (w : qgargs) (t : tables) (north : bool) (l : nat) (s : R) : Prop :=
  exists M m, greatest w (towards_pole t north l) M /\ least w (towards_pole t north l) m /\ m < M /\ s = Rmax M 0 - Rmin m 0.

(** ** C187: wave activity is not negative, and at most the spread of PV times the radius (and one row more) *)
Theorem C187_wave_activity_is_at_most_the_spread_of_pv_times_the_radius :
  forall (lib : library) (k : class) (w : qgargs) (nc : field3) (t : tables), session_tables_are lib k w nc t ->
  pole_to_pole_latitudes w -> 0 < w_a w -> 0 < w_om w ->
  forall north d i, (i < w_nlon w)%nat -> reported w north d ->
    (forall l s, (l < result_levels w)%nat -> pv_spread w t north l s \/ ~ inner_level w l /\ s = 0 ->
       0 <= t_lwa t l (result_row w north d) i <= s * (w_a w * (1 + step w))) /\
    (0 < thickness w -> (forall l, (1 <= l)%nat -> (l < result_levels w)%nat -> result_height w l = INR l * thickness w) ->
       forall b, (forall l, inner_level w l -> exists s, pv_spread w t north l s /\ s <= b) ->
       0 <= t_lwa_baro t (result_row w north d) i <= b * (w_a w * (1 + step w))).
Proof.
  intros lib k w nc t H Lat Ha Ho north d i Hi Hd. destruct (C147_wave_activity_follows_from_qgpv lib k w nc t H ltac:(lra) north d i Hi Hd) as [A B]. start H. assert (Sp := step_pos k w U Od). assert (Pa : 0 < w_a w * (1 + step w)) by (apply Rmult_lt_0_compat; lra).
  assert (L : forall l s, (l < result_levels w)%nat -> inner_level w l -> pv_spread w t north l s -> 0 <= s /\ 0 <= t_lwa t l (result_row w north d) i <= s * (w_a w * (1 + step w))).
  { intros l s Hl Hv (M & m & HM & Hm & Hmm & ->). assert (A1 := Rmin_l m 0). assert (A2 := Rmin_r m 0). assert (B1 := Rmax_l M 0). assert (B2 := Rmax_r M 0). split; [lra|]. destruct (A l Hl) as [A3 A4].
    destruct (le_lt_dec (boundary k) d) as [W1|W1]; [destruct (le_lt_dec (half w) d) as [W2|W2]|].
    - rewrite A4 by (unfold wave_row; lia). split; [lra|]. apply Rmult_le_pos; lra.
    - rewrite A3 by (split; [split; assumption|exact Hv]). split; [apply (contour_nonneg k w U Od Ha); lia|]. apply (contour_bound k w U Od Ha); [lia| |].
      + intros j Hj. destruct (n_facts k w U Od) as [N N2]. assert (Rw : (grid_row w north j < w_nlat w)%nat) by (unfold grid_row; destruct north; lia). assert (X := proj1 HM _ i Rw Hi). assert (Y := proj1 Hm _ i Rw Hi). unfold towards_pole in X, Y. unfold pole_pv. lra.
      + exact (reference_range lib k w nc g t U Hg Od T Lat Ha Ho north l M m Hv HM Hm Hmm d Hd).
    - rewrite A4 by (unfold wave_row; lia). split; [lra|]. apply Rmult_le_pos; lra. }
  split.
  - intros l s Hl [Hs|[Hv ->]].
    + destruct (le_lt_dec 1 l) as [L1|L1]; [destruct (le_lt_dec (l + 2) (result_levels w)) as [L2|L2]|].
      * exact (proj2 (L l s Hl (conj L1 L2) Hs)).
      * destruct Hs as (M & m & _ & _ & Hmm & ->). assert (A1 := Rmin_r m 0). assert (B1 := Rmax_r M 0). rewrite (proj2 (A l Hl)) by (unfold inner_level; lia). split; [lra|]. apply Rmult_le_pos; lra.
      * destruct Hs as (M & m & _ & _ & Hmm & ->). assert (A1 := Rmin_r m 0). assert (B1 := Rmax_r M 0). rewrite (proj2 (A l Hl)) by (unfold inner_level; lia). split; [lra|]. apply Rmult_le_pos; lra.
    + rewrite (proj2 (A l Hl)) by tauto. lra.
  - intros Ht Hz b Hb. rewrite B. destruct (limits k w U) as (_ & L3 & _). apply mean_bound; try assumption.
    + intros l Hv. destruct (Hb l Hv) as (s & Hs & Hsb). destruct (L l s ltac:(unfold inner_level in Hv; lia) Hv Hs) as (P0 & P1 & P2). split; [exact P1|]. eapply Rle_trans; [exact P2|]. apply Rmult_le_compat_r; lra.
    + apply (A (result_levels w - 1)%nat); [lia|]. unfold inner_level. lia.
Qed.
Print Assumptions C187_wave_activity_is_at_most_the_spread_of_pv_times_the_radius.
Example C187_case : forall nc, exists t s, session_tables_are isentropic_library NH18 (jet_args 0) nc t /\ pv_spread (jet_args 0) t true 1 s /\ forall d i, (d <= 2)%nat -> (i < 4)%nat ->
  0 <= t_lwa_baro t (result_row (jet_args 0) true d) i <= s * (w_a (jet_args 0) * (1 + PI / 4)).
Proof.
  intros nc. destruct (tables_of isentropic_library NH18 (jet_args 0) nc (jet_usable 0) (jet_accepted 0) eq_refl) as [t H]. exists t. eexists. split; [exact H|]. assert (H0 := H). start H.
  assert (S : pv_spread (jet_args 0) t true 1 (Rmax (2 * sin (PI / 4) + jet_curl) 0 - Rmin (- (2 * sin (PI / 4)) - jet_curl) 0)).
  { eexists _, _. split; [eapply jet_greatest; eassumption|]. split; [eapply jet_least; eassumption|]. split; [apply jet_mM|reflexivity]. }
  split; [exact S|]. intros d i Hd Hi. destruct (C187_wave_activity_is_at_most_the_spread_of_pv_times_the_radius _ _ _ _ _ H0 (jet_poles 0) ltac:(cbn; lra) ltac:(cbn; lra) true d i Hi (jet_reported 0 d Hd)) as [_ B]. rewrite (jet_step 0) in B.
  apply B; [cbn; lra|intros l _ _; reflexivity|]. intros l Hl. assert (l = 1%nat) as -> by (unfold inner_level in Hl; cbn in Hl; lia). eexists. split; [exact S|apply Rle_refl].
Qed.

(** ** C188: no wave activity exactly where the meridian is undisturbed: nothing above the reference value equatorward of the row, nothing below it poleward *)
Theorem C188_no_wave_activity_exactly_when_no_air_is_displaced :
  forall (lib : library) (k : class) (w : qgargs) (nc : field3) (t : tables), session_tables_are lib k w nc t -> 0 < w_a w ->
  forall north d i l, (i < w_nlon w)%nat -> reported w north d -> wave_row k w d -> inner_level w l ->
    (t_lwa t l (result_row w north d) i = 0 <->
       (forall d', (d' < d)%nat -> pole_pv w t north l i d' <= pole_ref w t north l d) /\
       (forall d', (d <= d' < half w)%nat -> pole_ref w t north l d <= pole_pv w t north l i d')).
Proof.
  intros lib k w nc t H Ha north d i l Hi Hd Hw Hl. destruct (C147_wave_activity_follows_from_qgpv lib k w nc t H ltac:(lra) north d i Hi Hd) as [A _]. start H.
  rewrite (proj1 (A l ltac:(unfold inner_level in Hl; lia)) (conj Hw Hl)). apply (contour_zero k w U Od Ha). unfold wave_row in Hw. lia.
Qed.
Print Assumptions C188_no_wave_activity_exactly_when_no_air_is_displaced.
(** and the barotropic wave activity vanishes exactly where there is none at any level *)
Theorem C188_barotropic_wave_activity_vanishes_exactly_when_that_of_all_levels_does :
  forall (lib : library) (k : class) (w : qgargs) (nc : field3) (t : tables), session_tables_are lib k w nc t -> 0 < w_a w -> 0 < thickness w ->
  forall north d i, (i < w_nlon w)%nat -> reported w north d ->
    (t_lwa_baro t (result_row w north d) i = 0 <-> forall l, (l < result_levels w)%nat -> t_lwa t l (result_row w north d) i = 0).
Proof.
  intros lib k w nc t H Ha Ht north d i Hi Hd. destruct (C147_wave_activity_follows_from_qgpv lib k w nc t H ltac:(lra) north d i Hi Hd) as [A B]. start H. destruct (limits k w U) as (_ & L3 & _).
  assert (N : forall l, (l < result_levels w)%nat -> 0 <= t_lwa t l (result_row w north d) i).
  { intros l Hl. destruct (A l Hl) as [A1 A2]. destruct (le_lt_dec (boundary k) d); [destruct (le_lt_dec (half w) d); [|destruct (le_lt_dec 1 l); [destruct (le_lt_dec (l + 2) (result_levels w))|]]|].
    2: { rewrite A1 by (unfold wave_row, inner_level; lia). apply (contour_nonneg k w U Od Ha). lia. } all: rewrite A2 by (unfold wave_row, inner_level; lia); lra. }
  assert (P : forall l, 0 < exp (- result_height w l / w_H w) * thickness w) by (intros l; apply Rmult_lt_0_compat; [apply exp_pos|exact Ht]).
  assert (D : 0 < thickness w * Sum 1 (result_levels w - 1) (fun l => exp (- (INR l * thickness w) / w_H w))).
  { apply Rmult_lt_0_compat; [exact Ht|]. replace (result_levels w - 1)%nat with (S (result_levels w - 2)) by lia. rewrite Sum_S_r by lia. assert (X : 0 <= Sum 1 (result_levels w - 2) (fun l => exp (- (INR l * thickness w) / w_H w))) by (apply Sum_nonneg; intros; left; apply exp_pos).
    assert (Y := exp_pos (- (INR (result_levels w - 2) * thickness w) / w_H w)). lra. }
  rewrite B. unfold vertical_mean. split.
  - intros E l Hl. destruct (Nat.eq_dec l 0) as [->|L0]; [apply A; [lia|unfold inner_level; lia]|]. unfold Rdiv in E at 1. apply Rmult_integral in E. destruct E as [E|E]; [|exfalso; revert E; apply Rinv_neq_0_compat; lra].
    assert (Z := fun Q => Sum_eq0 1 (result_levels w) _ Q E l ltac:(lia)). cbv beta in Z. rewrite Rmult_assoc in Z. assert (X := P l). destruct (Rmult_integral _ _ (Z ltac:(intros j Hj; rewrite Rmult_assoc; apply Rmult_le_pos; [apply N; lia|left; apply P]))) as [Y|Y]; [exact Y|lra].
  - intros Z. rewrite Sum_zero; [unfold Rdiv; ring|]. intros l Hl. rewrite Z by lia. ring.
Qed.
Print Assumptions C188_barotropic_wave_activity_vanishes_exactly_when_that_of_all_levels_does.
Example C188_case : forall nc, exists t, session_tables_are isentropic_library NH18 (jet_args 0) nc t /\ forall i, (i < 4)%nat -> t_lwa t 1%nat (result_row (jet_args 0) true 1) i = 0.
Proof.
  intros nc. destruct (tables_of isentropic_library NH18 (jet_args 0) nc (jet_usable 0) (jet_accepted 0) eq_refl) as [t H]. exists t. split; [exact H|]. intros i Hi.
  apply (C188_no_wave_activity_exactly_when_no_air_is_displaced _ _ _ _ _ H ltac:(cbn; lra) true 1%nat i 1%nat Hi (jet_reported 0 1 ltac:(lia)) ltac:(unfold wave_row; cbn; lia) (jet_inner 0)). start H.
  rewrite (jet_inner_value 0 nc g t Hg T). assert (A := s_pos). assert (B := jet_curl_pos). split; intros d Hd; unfold pole_pv, sign; rewrite Rmult_1_l.
  - assert (d = 0%nat) as -> by lia. change (grid_row (jet_args 0) true 0) with 2%nat. rewrite (jet_qgpv 0 nc g t Hg T) by (exact Hi || lia). unfold jet_pv. cbn. lra.
  - assert (d = 1%nat) as -> by (unfold half in Hd; cbn in Hd; lia). change (grid_row (jet_args 0) true 1) with 3%nat. rewrite (jet_qgpv 0 nc g t Hg T) by (exact Hi || lia). unfold jet_pv. cbn. destruct (Nat.eqb i 0); lra.
Qed.
