(** C181: winds act level by level on QGPV, the reference PV and the wave activity of a session. *)
From Verif Require Import Base BaseFacts Spec SpecFacts Grid GridSpec Flux Pipeline RefStates DirInv Object ObjectSpec ObjectProofs ObjectProofs4 FormulaSpec FormulaProofs FormulaProofs2
  StateSpec StateProofs StateProofs3 InfluenceProofs LevelProofs PropertiesObject PropertiesFormula.
Open Scope R_scope.

(** the two sets of tables have the same winds on level l *)
Definition same_winds_on (w : qgargs) (l : nat) (t t' : tables) : Prop :=
  forall row i, (row < w_nlat w)%nat -> (i < w_nlon w)%nat -> t_u t' l row i = t_u t l row i /\ t_v t' l row i = t_v t l row i.
(** the same QGPV, reference PV and wave activity on level l *)
Definition same_activity_on (w : qgargs) (l : nat) (t t' : tables) : Prop :=
  (forall row i, (row < w_nlat w)%nat -> (i < w_nlon w)%nat -> t_qgpv t' l row i = t_qgpv t l row i) /\
  (forall row, (row < result_rows w)%nat -> t_qref t' l row = t_qref t l row) /\
  (forall row i, (row < result_rows w)%nat -> (i < w_nlon w)%nat -> t_lwa t' l row i = t_lwa t l row i).

Lemma vorticity_ext w u u' v v' : (1 <= w_nlon w)%nat -> (3 <= w_nlat w)%nat ->
  (forall row i, (row < w_nlat w)%nat -> (i < w_nlon w)%nat -> u' row i = u row i /\ v' row i = v row i) ->
  forall row i, (row < w_nlat w)%nat -> (i < w_nlon w)%nat -> vorticity w u' v' row i = vorticity w u v row i.
Proof.
  intros H1 H3 E.
  assert (Md : forall x, (x mod w_nlon w < w_nlon w)%nat) by (intros x; apply Nat.mod_upper_bound; lia).
  assert (I : forall row i, (1 <= row)%nat -> (row + 1 < w_nlat w)%nat -> (i < w_nlon w)%nat -> vorticity_inside w u' v' row i = vorticity_inside w u v row i).
  { intros row i Hr1 Hr2 Hi. unfold vorticity_inside. rewrite (proj1 (E (row + 1)%nat i ltac:(lia) Hi)), (proj1 (E (row - 1)%nat i ltac:(lia) Hi)).
    rewrite (proj2 (E row (eastward w i) ltac:(lia) (Md _))), (proj2 (E row (westward w i) ltac:(lia) (Md _))). reflexivity. }
  intros row i Hr Hi. unfold vorticity, zonal_average. destruct (Nat.eqb_spec row 0); [|destruct (Nat.eqb_spec row (w_nlat w - 1))].
  - f_equal. apply Sum_ext. intros i' Hi'. apply I; lia.
  - f_equal. apply Sum_ext. intros i' Hi'. apply I; lia.
  - apply I; lia.
Qed.
(** every row of the results is reported *)
Lemma row_reported k w row : usable k w -> Nat.even (w_nlat w) = false -> (row < result_rows w)%nat -> exists north d, reported w north d /\ row = result_row w north d.
Proof.
  intros U Od Hr. destruct (n_odd k w U Od) as [En _]. unfold result_rows in Hr. fold (half w) in Hr. rewrite Od in Hr. unfold reported, result_row, grid_row. destruct (w_nh w).
  - exists true, row. repeat split; lia.
  - destruct (Nat.le_gt_cases row (half w)) as [L|L].
    + exists false, (half w - row)%nat. split; [split; [lia|discriminate]|lia].
    + exists true, (row - half w)%nat. split; [split; [lia|intros _; lia]|lia].
Qed.

Lemma theta_unmoved lib k w g u' v' nc nc' :
  theta_ (s_f (analyse lib k (with_data w u' v' (w_t w)) (object_of k (with_data w u' v' (w_t w)) g) nc')) = theta_ (s_f (analyse lib k w (object_of k w g) nc)).
Proof. rewrite !analyse_assemble. cbn [assemble s_f]. unfold interpolated. cbn [theta_]. reflexivity. Qed.

Theorem C181_winds_act_level_by_level :
  forall (lib : library) (k : class) (w : qgargs) (u' v' nc nc' : field3) (t t' : tables) (l : nat), 0 <= w_a w ->
    session_tables_are lib k w nc t -> session_tables_are lib k (with_data w u' v' (w_t w)) nc' t' -> (l < result_levels w)%nat ->
    same_winds_on w l t t' -> same_activity_on w l t t'.
Proof.
  intros lib k w u' v' nc nc' t t' l Ha H H' Hl W. pose (w' := with_data w u' v' (w_t w)). fold w' in H'.
  assert (Q : forall row i, (row < w_nlat w)%nat -> (i < w_nlon w)%nat -> t_qgpv t' l row i = t_qgpv t l row i).
  { intros row i Hr Hi. assert (Th : forall l', t_theta t' l' row i = t_theta t l' row i).
    { destruct H as (U & Od & x & Hs & Rd), H' as (U' & Od' & x' & Hs' & Rd'). destruct (session_stored _ _ _ _ _ _ U Od Hs Rd) as (g & Hg & T). destruct (session_stored _ _ _ _ _ _ U' Od' Hs' Rd') as (g' & Hg' & T').
      change (grid_of w') with (grid_of w) in Hg'. rewrite Hg in Hg'. injection Hg' as <-. destruct T as (_ & _ & _ & T & _). destruct T' as (_ & _ & _ & T' & _). intros l'. rewrite T, T'. exact (f_equal (fun z => z (i + 1)%nat (row + 1)%nat (l' + 1)%nat) (theta_unmoved lib k w g u' v' nc nc')). }
    assert (U := proj1 H). destruct (limits k w U) as (L1 & _). destruct (n_odd k w U (proj1 (proj2 H))) as [En Hh].
    destruct (C146_qgpv_follows_from_the_fields lib k w nc t H l row i Hi Hr Hl) as [A1 A2]. destruct (C146_qgpv_follows_from_the_fields lib k w' nc' t' H' l row i Hi Hr Hl) as [B1 B2].
    change (inner_level w' l) with (inner_level w l) in *. assert (Dec : inner_level w l \/ ~ inner_level w l) by (unfold inner_level; lia).
    destruct Dec as [I|I]; [|rewrite (A2 I), (B2 I); reflexivity]. rewrite (A1 I), (B1 I).
    assert (V : forall i, (i < w_nlon w)%nat -> vorticity w' (t_u t' l) (t_v t' l) row i = vorticity w (t_u t l) (t_v t l) row i).
    { intros i' Hi'. change (vorticity w') with (vorticity w). apply vorticity_ext; [lia|lia|exact W|exact Hr|exact Hi']. }
    rewrite (V i Hi). unfold stretching_of. cbv zeta. rewrite !Th. f_equal. destruct k.
    - f_equal. unfold zonal_average. change (w_nlon w') with (w_nlon w). f_equal. apply Sum_ext. intros i' Hi'. apply V. lia.
    - reflexivity. }
  assert (R : forall north d, reported w north d -> t_qref t' l (result_row w north d) = t_qref t l (result_row w north d)).
  { intros north d Hd. destruct H as (U & Od & x & Hs & Rd), H' as (U' & Od' & x' & Hs' & Rd'). destruct (session_stored _ _ _ _ _ _ U Od Hs Rd) as (g & Hg & T). destruct (session_stored _ _ _ _ _ _ U' Od' Hs' Rd') as (g' & Hg' & T').
    assert (Hg2 : grid_of w' = Done g) by exact Hg. rewrite Hg2 in Hg'. injection Hg' as <-.
    assert (QA := qref_at lib k w nc g t U Hg Od T north d (l + 1)%nat Hd). assert (QB := qref_at lib k w' nc' g t' U' Hg2 Od' T' north d (l + 1)%nat Hd).
    rewrite (qref_solved lib k w nc g t U T) in QA. rewrite (qref_solved lib k w' nc' g t' U' T') in QB.
    assert (PA := pv_at lib k w nc g t U Hg Od T north l Hl). assert (PB := pv_at lib k w' nc' g t' U' Hg2 Od' T' north l Hl).
    assert (L : rs_qref (P k w' g) (hemi_pv lib k w' nc' g north) (d + 1) (l + 1) = rs_qref (P k w g) (hemi_pv lib k w nc g north) (d + 1) (l + 1)).
    { change (P k w' g) with (P k w g). apply rs_qref_level. intros i j Hi Hj. destruct (dims_common lib k w nc g t U Hg Od T) as (D1 & D2 & _). rewrite D1 in Hi. rewrite D2 in Hj.
      destruct (n_odd k w U Od) as [En _].
      specialize (PA (j - 1)%nat (i - 1)%nat ltac:(lia) ltac:(lia)). specialize (PB (j - 1)%nat (i - 1)%nat ltac:(cbn; lia) ltac:(cbn; lia)).
      replace (i - 1 + 1)%nat with i in * by lia. replace (j - 1 + 1)%nat with j in * by lia. rewrite PA, PB. unfold towards_pole. change (w_nlat w') with (w_nlat w). f_equal. apply Q; [destruct north; lia|lia]. }
    change (result_row w' north d) with (result_row w north d) in QB.
    destruct T as (_ & _ & _ & _ & T & _). destruct T' as (_ & _ & _ & _ & T' & _). rewrite T, T'. unfold qref_correct_unit. rewrite QA, QB, L. reflexivity. }
  split; [exact Q|]. split.
  - intros row Hr. destruct (row_reported k w row (proj1 H) (proj1 (proj2 H)) Hr) as (north & d & Hd & ->). apply R. exact Hd.
  - intros row i Hr Hi. destruct (row_reported k w row (proj1 H) (proj1 (proj2 H)) Hr) as (north & d & Hd & ->).
    destruct (proj1 (C147_wave_activity_follows_from_qgpv lib k w nc t H Ha north d i Hi Hd) l Hl) as [A1 A2]. destruct (proj1 (C147_wave_activity_follows_from_qgpv lib k w' nc' t' H' Ha north d i Hi Hd) l Hl) as [B1 B2].
    change (wave_row k w' d) with (wave_row k w d) in *. change (inner_level w' l) with (inner_level w l) in *. change (result_row w' north d) with (result_row w north d) in *.
    assert (Dec : (wave_row k w d /\ inner_level w l) \/ ~ (wave_row k w d /\ inner_level w l)) by (unfold inner_level, wave_row; lia).
    destruct Dec as [I|I]; [|rewrite (A2 I), (B2 I); reflexivity]. rewrite (A1 I), (B1 I). destruct (n_odd k w (proj1 H) (proj1 (proj2 H))) as [En _].
    assert (PR : pole_ref w' t' north l d = pole_ref w t north l d) by (unfold pole_ref; change (result_row w' north d) with (result_row w north d); rewrite R by exact Hd; reflexivity).
    assert (PP : forall d', (d' <= half w)%nat -> pole_pv w' t' north l i d' = pole_pv w t north l i d').
    { intros d' Hd'. unfold pole_pv. f_equal. change (grid_row w') with (grid_row w). apply Q; [|exact Hi]. unfold grid_row. destruct north; lia. }
    unfold contour. change (half w') with (half w). destruct Hd as [Hd _]. rewrite PR. f_equal; apply Sum_ext; intros d' Hd'; rewrite PP by lia; reflexivity.
Qed.
Print Assumptions C181_winds_act_level_by_level.

(** the data levels between which result level l lies: the level itself if the data are on the levels of the results *)
Definition lies_between (w : qgargs) (l b : nat) : Prop :=
  if w_evenly w then b = l else ascending (w_nlev w) (data_height w) /\ (b + 1 < w_nlev w)%nat /\ data_height w b <= result_height w l <= data_height w (b + 1)%nat.
Definition same_on_data_level (w : qgargs) (m : nat) (x x' : field3) : Prop := forall row i, (row < w_nlat w)%nat -> (i < w_nlon w)%nat -> x' m row i = x m row i.
Lemma interp1d_bracket n (x y y' : nat -> R) v b : ascending n x -> (b + 1 < n)%nat -> x b <= v <= x (b + 1)%nat -> y' b = y b -> y' (b + 1)%nat = y (b + 1)%nat -> interp1d n x y' v = interp1d n x y v.
Proof.
  intros Asc Hb Hv E0 E1. destruct (Req_dec v (x b)) as [->|Nv].
  - rewrite !GridProofs.interp1d_node by (assumption || lia). exact E0.
  - destruct (GridProofs.searchsorted_split n x v Asc) as [L Hs]. assert (Sb : searchsorted n x v = (b + 1)%nat).
    { assert (b < searchsorted n x v)%nat by (apply Hs; [lia|lra]). destruct (Nat.le_gt_cases (searchsorted n x v) (b + 1)); [lia|]. assert (x (b + 1)%nat < v) by (apply Hs; lia). lra. }
    unfold interp1d. rewrite Sb. replace (Nat.min (Nat.max (b + 1) 1) (n - 1)) with (b + 1)%nat by lia. replace (b + 1 - 1)%nat with b by lia. rewrite E0, E1. reflexivity.
Qed.
Lemma tables_winds lib k w nc t : session_tables_are lib k w nc t -> exists g, grid_of w = Done g /\ t_u t = to_levels w g (w_u w) /\ t_v t = to_levels w g (w_v w).
Proof.
  intros (U & Od & x & Hs & Rd). destruct (grid_of w) as [g|e] eqn:Hg; [|rewrite (session_refused lib k w nc e Hg) in Hs; discriminate].
  exists g. split; [reflexivity|]. rewrite (session_eq lib k w nc g Hg) in Hs. destruct (out_qgpv _) as [q|] in Hs; [|discriminate]. assert (Ex : x = read w (object_of k w g) (analyse lib k w (object_of k w g) nc)) by congruence.
  destruct (readback lib k w nc g U Hg Od) as (E1 & E2 & _). rewrite <- Ex in E1, E2. destruct Rd as (_ & F1 & F2 & _). rewrite F1 in E1. rewrite F2 in E2. split; [injection E1 as ->|injection E2 as ->]; reflexivity.
Qed.
(** The same in terms of the data: winds on other data levels than the two around a level do not change its QGPV, reference PV or wave activity. *)
Theorem C181_only_the_two_data_levels_around_a_level_matter :
  forall (lib : library) (k : class) (w : qgargs) (u' v' nc nc' : field3) (t t' : tables) (l b : nat), 0 <= w_a w ->
    session_tables_are lib k w nc t -> session_tables_are lib k (with_data w u' v' (w_t w)) nc' t' -> (l < result_levels w)%nat -> lies_between w l b ->
    same_on_data_level w b (w_u w) u' -> same_on_data_level w b (w_v w) v' -> same_on_data_level w (b + 1) (w_u w) u' -> same_on_data_level w (b + 1) (w_v w) v' ->
    same_activity_on w l t t'.
Proof.
  intros lib k w u' v' nc nc' t t' l b Ha H H' Hl B U0 V0 U1 V1. apply (C181_winds_act_level_by_level lib k w u' v' nc nc' t t' l Ha H H' Hl).
  destruct (tables_winds _ _ _ _ _ H) as (g & Hg & Eu & Ev). destruct (tables_winds _ _ _ _ _ H') as (g' & Hg' & Eu' & Ev'). change (grid_of (with_data w u' v' (w_t w))) with (grid_of w) in Hg'. rewrite Hg in Hg'. injection Hg' as <-.
  intros row i Hr Hi. rewrite Eu, Ev, Eu', Ev'. unfold to_levels, lies_between, result_height in *. cbn [with_data w_evenly w_u w_v]. assert (Gh := result_height_eq w g Hg). unfold result_height in Gh. destruct (w_evenly w) eqn:Fe.
  - subst b. split; [apply U0|apply V0]; assumption.
  - destruct B as (Asc & Hb & Bv). unfold vertical_interpolation. cbn [with_data w_nlev]. change (data_height (with_data w u' v' (w_t w))) with (data_height w). rewrite Gh. cbv beta.
    split; apply (interp1d_bracket _ _ _ _ _ b Asc Hb Bv); [apply U0|apply U1|apply V0|apply V1]; assumption.
Qed.
Print Assumptions C181_only_the_two_data_levels_around_a_level_matter.

(** The example of C146: other winds on the highest data level leave level 1 alone. *)
Example C181_case : forall k nh nc, (boundary k <= 1)%nat -> let w := some_args true nh in let u' := fun l j i => if Nat.eqb l 3 then 7 else w_u w l j i in
  exists t t', session_tables_are some_library k w nc t /\ session_tables_are some_library k (with_data w u' (w_v w) (w_t w)) nc t' /\ lies_between w 1 1 /\ inner_level w 1 /\ same_activity_on w 1 t t'.
Proof.
  intros k nh nc B w u'. destruct (formulas_apply k nh nc B) as (t & H & Ha & _ & I & _). fold w in H, Ha, I.
  destruct (tables_of some_library k (with_data w u' (w_v w) (w_t w)) nc (some_usable k true nh B) (some_accepted true nh) eq_refl) as [t' H']. exists t, t'. split; [exact H|]. split; [exact H'|].
  assert (Lb : lies_between w 1 1).
  { unfold lies_between, w. cbn [some_args w_evenly]. split; [|split].
    - intros a b Hab. rewrite !some_height. apply lt_INR. lia.
    - cbn [some_args w_nlev]. lia.
    - rewrite !some_height. unfold result_height. cbn [some_args w_evenly w_dz Nat.add INR]. lra. }
  split; [exact Lb|]. split; [exact I|].
  apply (C181_only_the_two_data_levels_around_a_level_matter some_library k w u' (w_v w) nc nc t t' 1 1 Ha H H'); [cbn; lia|exact Lb|..]; intros row i _ _; reflexivity.
Qed.
