(** Proofs for C196, continued: the fluxes *)
From Coq Require Import Reals Lra Lia List FunctionalExtensionality.
From Coq Require Import ZifyNat.
From Verif Require Import Base BaseFacts Spec SpecFacts Grid GridProofs Flux FluxProofs Utilities Qgpv Pipeline PipelineSpec PipelineProofs RotateSpec RotateProofs2 RefStates RefStatesSpec RefStatesProofs RefStatesProofs2 DirInv
  Object ObjectSpec ObjectProofs ObjectProofs2 ObjectProofs4 Session SessionProofs InfluenceSpec InfluenceProofs OffsetSpec OffsetProofs OffsetProofs2.
Ltac Zify.zify_post_hook ::= Z.to_euclidean_division_equations.
Open Scope R_scope.

Section OffsetFluxes.
  Variables (b : R) (k : class) (w : qgargs) (g : grid).
  Hypothesis U : usable k w.
  Hypothesis Hg : grid_of w = Done g.
  Hypothesis Sym : symmetric_latitudes w.
  Hypothesis In : forall j, (j < w_nlat w)%nat -> -90 <= w_ylat w j <= 90.
  Hypothesis Bd : (boundary k < w_nlat w / 2)%nat.
  Variable lib : library.
  Hypothesis OF : offset_free b lib.
  Notation w' := (warmer b w).
  Notation o := (object_of k w g).
  Notation o' := (object_of k w' g).
  Notation c := (ob_conf o).
  Notation f := (interpolated w o).
  Notation f' := (interpolated w' o').
  Notation av := (domain lib k w o).
  Notation av' := (domain lib k w' o').
  Notation q := (the_pv lib k w o).
  Notation q' := (the_pv lib k w' o').
  Notation r := (the_refs lib k w o).
  Notation r' := (the_refs lib k w' o').

  Lemma clip_theta_south i j l : lon_ok c i -> lat_ok c j -> lev_ok c l -> clip3 c (flip3 c (theta_ f')) i j l = clip3 c (flip3 c (theta_ f)) i j l + b.
  Proof.
    intros Hi Hj Hl. rewrite theta_b. unfold clip3, flip3, lon_ok, lat_ok, lev_ok in *.
    replace (Nat.leb 1 i && Nat.leb i (p_nlon c) && Nat.leb 1 j && Nat.leb j (p_nlat c) && Nat.leb 1 l && Nat.leb l (p_kmax c))%bool with true; [reflexivity|].
    symmetry. repeat (apply andb_true_intro; split); apply Nat.leb_le; lia.
  Qed.
  (** the hemispheres seen by the solvers: two temperatures that differ by the constant on the grid *)
  Definition apart (x x' : arr3 R) : Prop := forall i j l, lon_ok c i -> lat_ok c j -> lev_ok c l -> x' i j l = x i j l + b.
  Lemma solver_b pv uu x x' st g1 g2 : apart x x' ->
    let S := nh18_solver c (g_npart g) (w_maxit w) (w_tol w) (w_rjac w) st g1 g2 in
    uref_ (S pv uu x') = uref_ (S pv uu x) /\ (forall j l, lev_ok c l -> ptref_ (S pv uu x') j l = ptref_ (S pv uu x) j l + b).
  Proof.
    intros H. cbv zeta. destruct (conf_centred k w g U Hg) as (A1 & A2 & A3 & A4 & A5 & A6 & _). assert (G := nh18_pole c (conf_centred k w g U Hg) (g_npart g) (w_maxit w) (w_tol w) (w_rjac w) (npart_ok k w g U Hg)).
    unfold nh18_solver. cbv zeta. cbn [uref_ ptref_]. set (P := nh18_dims c (g_npart g) (w_maxit w) (w_tol w) (w_rjac w)) in *.
    assert (E : forall i rr l, (1 <= i <= s_nlon P)%nat -> (1 <= rr <= s_jd P)%nat -> (1 <= l <= s_kmax P)%nat -> x' i (rr + s_jd P - 1)%nat l = x i (rr + s_jd P - 1)%nat l + b).
    { intros i rr l Hi Hr Hl. unfold P in *. cbn [nh18_dims s_nlon s_jd s_kmax] in *. apply H; unfold lon_ok, lat_ok, lev_ok; lia. }
    destruct G as (G1 & G2 & G3 & G4 & G5). split.
    - apply (uref_b b); assumption.
    - intros j l Hl. apply (tref_b b); try assumption. repeat split; try assumption; apply G5.
  Qed.
  Lemma inversion_b pv uu vo x x' t t' st tn tn' : apart x x' -> (forall l, tn' l = tn l + b) ->
    uref_ (nhn22_inversion c (lb_inverse lib) tn' pv uu vo x' t' st) = uref_ (nhn22_inversion c (lb_inverse lib) tn pv uu vo x t st) /\
    (forall j l, lev_ok c l -> ptref_ (nhn22_inversion c (lb_inverse lib) tn' pv uu vo x' t' st) j l = ptref_ (nhn22_inversion c (lb_inverse lib) tn pv uu vo x t st) j l + b).
  Proof.
    intros H HT. destruct (conf_centred k w g U Hg) as (A1 & A2 & A3 & A4 & A5 & A6 & _).
    unfold nhn22_inversion. cbv zeta. cbn [uref_ ptref_]. set (P := nhn22_dims c) in *.
    assert (E : forall i rr l, (1 <= i <= s_nlon P)%nat -> (1 <= rr <= s_jd P)%nat -> (1 <= l <= s_kmax P)%nat -> x' i (rr + s_jd P - 1)%nat l = x i (rr + s_jd P - 1)%nat l + b).
    { intros i rr l Hi Hr Hl. unfold P in *. cbn [nhn22_dims s_nlon s_jd s_kmax] in *. apply H; unfold lon_ok, lat_ok, lev_ok; lia. }
    assert (HL : (1 <= s_nlon P)%nat) by (unfold P; cbn [nhn22_dims s_nlon]; lia). assert (HK : (3 <= s_kmax P)%nat) by (unfold P; cbn [nhn22_dims s_kmax]; lia). split.
    - apply (d_uref_b b P pv x x' (one_based st) (fun _ _ => 0)); assumption.
    - intros j l Hl. apply (d_tref_b b P pv x x' (one_based st) (fun _ _ => 0)); try assumption. intros l'. unfold one_based. apply HT.
  Qed.
  Definition set_row (j : nat) : Prop := (rows c - p_jd c < j)%nat \/ (p_nh c = false /\ (j <= p_jd c)%nat).
  Definition shifted (x x' : refstate R) : Prop := uref_ x' = uref_ x /\ (forall j l, lev_ok c l -> ptref_ x' j l = ptref_ x j l + b).
  Lemma store_b m mq x x' y y' : p_jd c = m -> shifted x x' -> shifted y y' ->
    let p x y := if p_nh c then store_north c mq m zero_refs x else store_south mq m (store_north c mq m zero_refs x) y in
    uref_ (p x' y') = uref_ (p x y) /\ (forall j l, set_row j -> lev_ok c l -> ptref_ (p x' y') j l = ptref_ (p x y) j l + b).
  Proof.
    intros Em [X1 X2] [Y1 Y2]. cbv zeta. unfold set_row. rewrite Em. clear Em. destruct (p_nh c); unfold store_south, store_north; cbn [uref_ ptref_]; rewrite ?X1, ?Y1; (split; [reflexivity|]); intros j l Hj Hl; unfold set_nhem, set_shem.
    - destruct (Nat.leb_spec j (rows c - m)) as [L|L]; [destruct Hj as [Hj|[Hj _]]; [lia|discriminate]|apply X2, Hl].
    - destruct (Nat.leb_spec j m) as [L|L]; [apply Y2, Hl|]. destruct (Nat.leb_spec j (rows c - m)) as [L'|L']; [destruct Hj as [Hj|[_ Hj]]; lia|apply X2, Hl].
  Qed.
  Lemma refs_b : uref_ r' = uref_ r /\ (forall j l, set_row j -> lev_ok c l -> ptref_ r' j l = ptref_ r j l + b).
  Proof.
    assert (E1 := clip_pv b k w g U Hg Sym In Bd lib OF). assert (E2 := clip_pv_south b k w g U Hg Sym In Bd lib OF).
    assert (T1 : apart (clip3 c (theta_ f)) (clip3 c (theta_ f'))) by (intros i j l Hi Hj Hl; apply clip_theta; assumption).
    assert (T2 : apart (clip3 c (flip3 c (theta_ f))) (clip3 c (flip3 c (theta_ f')))) by exact clip_theta_south.
    assert (DB := domain_b b k w g U Hg Sym In Bd lib OF).
    assert (PJ : k = NH18 -> p_jd c = p_eq c) by (intros K; destruct (conf_facts k w g U Hg) as (_ & _ & _ & C4 & C5 & C6 & _); rewrite C4, C6, K; cbn [boundary]; lia).
    assert (SB := solver_b). assert (IB := inversion_b). assert (ST := store_b).
    unfold the_refs. cbv zeta. rewrite DB. rewrite (conf_b b k w g). clear DB.
    replace (avort_nhn22 c f') with (avort_nhn22 c f) by (unfold avort_nhn22; rewrite (u_b b k w g), (v_b b k w g); reflexivity). change (ob_grid o') with g. change (ob_grid o) with g.
    change (w_maxit w') with (w_maxit w). change (w_tol w') with (w_tol w). change (w_rjac w') with (w_rjac w).
    unfold set_row, shifted, apart, refs_nh18, refs_nhn22 in *. cbv zeta in *. cbn [tn0 ts0 stat_n stat_s]. rewrite (u_b b k w g).
    revert E1 E2 T1 T2 SB IB ST PJ. generalize (the_pv lib k w' o') (the_pv lib k w o) (domain lib k w o) (theta_ f) (theta_ f') (avort_nhn22 c f) (u_ f). generalize c.
    intros C Q' Q A F F' vo uf E1 E2 T1 T2 SB IB ST PJ. destruct k as [|jb]; rewrite E1, E2.
    - rewrite <- (PJ eq_refl) in *. apply ST; [reflexivity| |].
      + apply SB, T1.
      + apply SB, T2.
    - apply ST; [reflexivity| |].
      + apply (IB _ _ _ _ _ (tn0 A) (fun l => tn0 A l + b)); [exact T1|reflexivity].
      + destruct (IB (clip3 C (neg3 (flip3 C Q))) (clip3 C (flip3 C uf)) (clip3 C (flip3 C vo)) _ _ (ts0 A) (fun l => ts0 A l + b) (stat_s A) (tn0 A) (fun l => tn0 A l + b) T2 (fun _ => eq_refl)) as [I1 I2]. split; assumption.
  Qed.

  Variable nc : field3.
  Notation x := (read w o (analyse lib k w o nc)).
  Notation x' := (read w' o' (analyse lib k w' o' nc)).
  Lemma wind_b : same_wind_terms x x'.
  Proof.
    assert (Q := qref_b b k w g U Hg Sym In Bd lib OF). destruct refs_b as [UR _]. assert (E1 := clip_pv b k w g U Hg Sym In Bd lib OF). assert (E2 := clip_pv_south b k w g U Hg Sym In Bd lib OF).
    assert (EU := u_b b k w g). assert (EV := v_b b k w g).
    unfold same_wind_terms. rewrite !analyse_assemble. unfold read, assemble. cbv zeta. rewrite (conf_b b k w g).
    cbn [out_uref out_f1 out_f2 out_div out_phi out_ua1 out_ua2 out_ep2 out_ep3 s_f s_av s_q s_refs s_baro s_layer s_div s_phi].
    assert (A : qref_correct_unit c r' = qref_correct_unit c r) by (unfold qref_correct_unit; rewrite Q; reflexivity).
    assert (EP : flux_vector_phi c f' r' = flux_vector_phi c f r) by (unfold flux_vector_phi; rewrite UR, EU, EV; reflexivity).
    rewrite UR, EP. split; [reflexivity|].
    unfold barotropic_terms, layerwise_terms, div_momentum_flux. cbv zeta. cbn [b_ua1 b_ua2 b_ep2 b_ep3 l_ua1 l_ua2 l_ep2 l_ep3].
    unfold k_ua1, k_ua2, k_ep2, k_ep3, north_args, south_args. cbn [i_pv i_uu i_vv i_qref i_uref]. rewrite A, E1, E2, UR, EU, EV. repeat split; reflexivity.
  Qed.

  (** the two calls of a hemisphere's flux routine *)
  Definition near (x x' : kin R) : Prop := i_uu x' = i_uu x /\ i_vv x' = i_vv x /\ i_uref x' = i_uref x /\ (forall l, i_t0 x' l = i_t0 x l + b) /\ apart (i_pt x) (i_pt x') /\
    (forall rr l, (1 <= rr <= p_jd c)%nat -> lev_ok c l -> i_tref x' rr l = i_tref x rr l + b).
  Lemma calls_b xx xx' : near xx xx' -> (forall i j l, lon_ok c i -> k_ep1 c xx' i j l = k_ep1 c xx i j l) /\ (forall i j, lon_ok c i -> k_ep4 c xx' i j = k_ep4 c xx i j).
  Proof.
    intros (H1 & H2 & H3 & H4 & H5 & H6). destruct (conf_centred k w g U Hg) as (A1 & A2 & A3 & A4 & A5 & A6 & _).
    assert (T : forall i j l, lon_ok c i -> (p_jb c + 1 <= j <= p_eq c - 1)%nat -> lev_ok c l ->
      i_pt xx' i (j + p_eq c - 1)%nat l - rd2 (p_jd c) (i_tref xx') (j - p_jb c)%nat l = i_pt xx i (j + p_eq c - 1)%nat l - rd2 (p_jd c) (i_tref xx) (j - p_jb c)%nat l).
    { intros i j l Hi Hj Hl. assert (Hl' := Hl). unfold lev_ok in Hl'. rewrite !rd2_in by lia. rewrite H6 by (try assumption; lia). rewrite H5 by (try assumption; unfold lat_ok; lia). ring. }
    assert (D : forall x y, i_t0 xx' x - i_t0 xx' y = i_t0 xx x - i_t0 xx y) by (intros; rewrite !H4; ring).
    split.
    - intros i j l Hi. unfold k_ep1. rewrite H1, H2, H3. unfold ep1, fill, analysed, jstart, jend, grow, uref_row. cbn [dims is_nhem jb nd kmax jd].
      destruct (Nat.leb_spec 2 l); [|reflexivity]. destruct (Nat.leb_spec l (p_kmax c - 1)); [|reflexivity]. destruct (Nat.leb_spec (p_jb c + 1) j); [|reflexivity]. destruct (Nat.leb_spec j (p_eq c - 1)); [|reflexivity].
      cbn [andb]. cbv zeta. toR. rewrite T by (try assumption; unfold lev_ok; lia). rewrite D. reflexivity.
    - intros i j Hi. unfold k_ep4. rewrite H2. unfold ep4, analysed, jstart, jend, grow, uref_row. cbn [dims is_nhem jb nd kmax jd].
      destruct (Nat.leb_spec 2 2); [|reflexivity]. destruct (Nat.leb_spec 2 (p_kmax c - 1)); [|reflexivity]. destruct (Nat.leb_spec (p_jb c + 1) j); [|reflexivity]. destruct (Nat.leb_spec j (p_eq c - 1)); [|reflexivity].
      cbn [andb]. cbv zeta. toR. rewrite !T by (try assumption; unfold lev_ok; lia). rewrite !D. reflexivity.
  Qed.
  Lemma clip2_b (y y' : arr2 R) : (forall rr l, (1 <= rr <= p_jd c)%nat -> lev_ok c l -> y' rr l = y rr l + b) ->
    forall rr l, (1 <= rr <= p_jd c)%nat -> lev_ok c l -> clip2 c (p_jd c) y' rr l = clip2 c (p_jd c) y rr l + b.
  Proof.
    intros H rr l Hr Hl. unfold clip2. assert (Hl' := Hl). unfold lev_ok in Hl'.
    replace (Nat.leb 1 rr && Nat.leb rr (p_jd c) && Nat.leb 1 l && Nat.leb l (p_kmax c))%bool with true by (symmetry; repeat (apply andb_true_intro; split); apply Nat.leb_le; lia).
    apply H; assumption.
  Qed.
  Lemma north_near F : near (north_args c q f F av r) (north_args c q' f' F av' r').
  Proof.
    destruct refs_b as [UR PR]. assert (DB := domain_b b k w g U Hg Sym In Bd lib OF). unfold near, north_args. cbn [i_uu i_vv i_uref i_t0 i_pt i_tref]. rewrite UR, DB, (u_b b k w g), (v_b b k w g). cbn [tn0].
    do 3 (split; [reflexivity|]). split; [intros l; reflexivity|]. split; [intros i j l Hi Hj Hl; apply clip_theta; assumption|].
    apply clip2_b. intros rr l Hr Hl. unfold last_rows. apply PR; [left; lia|exact Hl].
  Qed.
  Lemma south_near F : p_nh c = false -> near (south_args c q f F av r) (south_args c q' f' F av' r').
  Proof.
    intros Hn. destruct refs_b as [UR PR]. assert (DB := domain_b b k w g U Hg Sym In Bd lib OF). unfold near, south_args. cbn [i_uu i_vv i_uref i_t0 i_pt i_tref]. rewrite UR, DB, (u_b b k w g), (v_b b k w g). cbn [ts0].
    do 3 (split; [reflexivity|]). split; [intros l; reflexivity|]. split; [exact clip_theta_south|].
    apply clip2_b. intros rr l Hr Hl. unfold first_rows_rev. apply PR; [right; split; [exact Hn|lia]|exact Hl].
  Qed.
  Lemma global2_b (n n' s s' : arr2 R) i : (forall j, n' i j = n i j) -> (p_nh c = false -> forall j, s' i j = s i j) -> forall j, global2 c n' s' i j = global2 c n s i j.
  Proof. intros H1 H2 j. unfold global2. cbv zeta. unfold set_nhem, set_shem. destruct (p_nh c); rewrite ?H1, ?(H2 eq_refl); reflexivity. Qed.
  Lemma global3_b (n n' s s' : arr3 R) i : (forall j l, n' i j l = n i j l) -> (p_nh c = false -> forall j l, s' i j l = s i j l) -> forall j l, global3 c n' s' i j l = global3 c n s i j l.
  Proof. intros H1 H2 j l. unfold global3. cbv zeta. unfold set_nhem, set_shem. destruct (p_nh c); rewrite ?H1, ?(H2 eq_refl); reflexivity. Qed.
  Lemma avg_b (y y' : arr3 R) i j : (forall l, y' i j l = y i j l) -> avg c y' i j = avg c y i j.
  Proof. intros H. unfold avg, column_average, vertical_average. cbv zeta. f_equal. extensionality l0. rewrite H. reflexivity. Qed.

  Lemma read_map_same (y y' : arr2 R) : (forall i j, lon_ok c i -> y' i j = y i j) -> outcome (same_map_on_grid w) (read_map w o (rows c) y) (read_map w' o' (rows c) y').
  Proof.
    intros H. assert (N := nlon_pos k w g U Hg).
    assert (X' : outcome (fun a b : nat -> nat -> R => forall row i, (row < result_rows w)%nat -> (i < w_nlon w)%nat -> b row i = a row ((i + 0) mod w_nlon w)%nat) (read_map w o (rows c) y) (read_map w' o' (rows c) y')).
    { apply (read_map_turned_gen k w g 0 U Hg); [apply (rows2 k w g U Hg)|apply (result_rows_le k w g U Hg)|]. intros i j Hi _. rewrite H by assumption. f_equal.
      unfold turn, lon_ok in *. rewrite Nat.add_0_r, Nat.mod_small by lia. lia. }
    destruct (read_map w o (rows c) y) as [z|e], (read_map w' o' (rows c) y') as [z'|e']; try exact X'.
    cbn [outcome] in *. intros row i Hr Hi. rewrite (X' row i Hr Hi). rewrite Nat.add_0_r, Nat.mod_small by exact Hi. reflexivity.
  Qed.
  Lemma read_field_same (y y' : arr3 R) : (forall i j l, lon_ok c i -> y' i j l = y i j l) -> outcome (same_field_on_grid w) (read_field w o (rows c) y) (read_field w' o' (rows c) y').
  Proof.
    intros H. assert (N := nlon_pos k w g U Hg).
    assert (X : outcome (rolled_field w 0 (result_rows w)) (read_field w o (rows c) y) (read_field w' o' (rows c) y')).
    { apply (read_field_turned_gen k w g 0 U Hg); [apply (rows2 k w g U Hg)|apply (result_rows_le k w g U Hg)|]. intros i j l Hi _ _. rewrite H by assumption. f_equal.
      unfold turn, lon_ok in *. rewrite Nat.add_0_r, Nat.mod_small by lia. lia. }
    destruct (read_field w o (rows c) y) as [z|e], (read_field w' o' (rows c) y') as [z'|e']; try exact X.
    cbn [outcome] in *. intros l row i Hl Hr Hi. rewrite (X l row i Hl Hr Hi). rewrite Nat.add_0_r, Nat.mod_small by exact Hi. reflexivity.
  Qed.
  Lemma heat_b : same_heat_terms w x x'.
  Proof.
    assert (Q := qref_b b k w g U Hg Sym In Bd lib OF). destruct refs_b as [UR _]. assert (E1 := clip_pv b k w g U Hg Sym In Bd lib OF). assert (E2 := clip_pv_south b k w g U Hg Sym In Bd lib OF).
    assert (EU := u_b b k w g). assert (EV := v_b b k w g). assert (N := nlon_pos k w g U Hg).
    destruct (conf_centred k w g U Hg) as (_ & _ & _ & _ & A5 & _).
    assert (A : qref_correct_unit c r' = qref_correct_unit c r) by (unfold qref_correct_unit; rewrite Q; reflexivity).
    unfold same_heat_terms. rewrite !analyse_assemble. unfold read, assemble. cbv zeta. rewrite (conf_b b k w g).
    cbn [out_f3 out_heat out_lambda out_conv out_ep1 s_f s_av s_q s_refs s_baro s_layer s_conv s_lambda].
    assert (CN := calls_b _ _ (north_near (stored nc))). assert (CS := fun h => calls_b _ _ (south_near (stored nc) h)).
    set (n := north_args c q f (stored nc) av r) in *. set (n' := north_args c q' f' (stored nc) av' r') in *.
    set (s := south_args c q f (stored nc) av r) in *. set (s' := south_args c q' f' (stored nc) av' r') in *.
    assert (F1 : b_ua1 (barotropic_terms c n' s') = b_ua1 (barotropic_terms c n s)).
    { unfold barotropic_terms. cbv zeta. cbn [b_ua1]. unfold k_ua1, n, n', s, s', north_args, south_args. cbn [i_pv i_qref i_uref]. rewrite A, E1, E2, UR. reflexivity. }
    assert (F2 : b_ua2 (barotropic_terms c n' s') = b_ua2 (barotropic_terms c n s)).
    { unfold barotropic_terms. cbv zeta. cbn [b_ua2]. unfold k_ua2, n, n', s, s', north_args, south_args. cbn [i_pv i_uu i_qref i_uref]. rewrite A, E1, E2, UR, EU. reflexivity. }
    assert (F3 : forall i j, lon_ok c i -> b_ep1 (barotropic_terms c n' s') i j = b_ep1 (barotropic_terms c n s) i j).
    { intros i j Hi. unfold barotropic_terms. cbv zeta. cbn [b_ep1]. apply global2_b; [intros j0|intros h j0]; apply avg_b; intros l; [apply CN, Hi|apply (CS h), Hi]. }
    assert (F4 : forall i j, lon_ok c i -> b_ep4 (barotropic_terms c n' s') i j = b_ep4 (barotropic_terms c n s) i j).
    { intros i j Hi. unfold barotropic_terms. cbv zeta. cbn [b_ep4]. apply global2_b; [intros j0; apply CN, Hi|intros h j0; apply (CS h), Hi]. }
    assert (F5 : forall i j l, lon_ok c i -> l_ep1 (layerwise_terms c n' s') i j l = l_ep1 (layerwise_terms c n s) i j l).
    { intros i j l Hi. unfold layerwise_terms. cbv zeta. cbn [l_ep1]. apply global3_b; [intros j0 l0; apply CN, Hi|intros h j0 l0; apply (CS h), Hi]. }
    clearbody n n' s s'.
    assert (F6 : forall i j, lon_ok c i -> zonal_flux (barotropic_terms c n' s') i j = zonal_flux (barotropic_terms c n s) i j) by (intros i j Hi; unfold zonal_flux; rewrite F1, F2, F3 by exact Hi; reflexivity).
    assert (F7 : forall i j, lon_ok c i -> conv_zonal_flux c (barotropic_terms c n' s') i j = conv_zonal_flux c (barotropic_terms c n s) i j).
    { intros i j Hi. unfold conv_zonal_flux, zonal_convergence, zonal_diff, lon_ok in *. destruct (Nat.eqb_spec (i - 1) (p_nlon c - 1)); [rewrite !F6 by lia; reflexivity|].
      destruct (Nat.eqb_spec (i - 1) 0); [rewrite !F6 by lia; reflexivity|]. rewrite !F6 by lia. reflexivity. }
    split; [apply read_map_same, F3|]. split; [apply read_map_same, F4|]. split; [apply read_map_same, F6|]. split; [apply read_map_same, F7|]. apply read_field_same, F5.
  Qed.
  Lemma reference_b : boundary k = O -> warmer_reference b w x x'.
  Proof.
    intros B0. destruct refs_b as [_ PR]. destruct (conf_facts k w g U Hg) as (_ & C2 & _ & C4 & C5 & C6 & _). destruct (conf_centred k w g U Hg) as (A1 & A2 & _).
    unfold warmer_reference. rewrite !analyse_assemble. unfold read, assemble. cbv zeta. rewrite (conf_b b k w g). cbn [out_ptref s_refs].
    set (y1 := fun j l => ptref_ r j l + b).
    assert (X : outcome (same_table w) (read_profile w o (rows c) y1) (read_profile w' o' (rows c) (ptref_ r'))).
    { apply (read_profile_same k w g U Hg). intros j l Hj Hl. rewrite PR; [reflexivity| |exact Hl]. unfold set_row, row_ok in *. rewrite C6, B0 in *. unfold rows in *. rewrite C4 in *. destruct (p_nh c); [left; lia|].
      destruct (Nat.le_gt_cases j (w_nlat w / 2 + 1 - 0)); [right; split; [reflexivity|assumption]|left; lia]. }
    unfold y1 in X. rewrite read_profile_plus in X.
    destruct (read_profile w o (rows c) (ptref_ r)) as [z|e], (read_profile w' o' (rows c) (ptref_ r')) as [z'|e']; exact X.
  Qed.
End OffsetFluxes.
