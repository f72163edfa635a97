(** Proofs: LWA and fluxes move with a relabelling of the longitudes. *)
From Verif Require Import Base BaseFacts Spec SpecFacts Flux FluxSpec FluxProofs Utilities UtilitiesProofs
  Pipeline PipelineSpec PipelineProofs RotateSpec RotateProofs RotateProofs2.
From Coq Require Import FunctionalExtensionality.
Open Scope R_scope.

Section Kernels.
  Variable c : pconf R.
  Variable s : nat.
  Hypothesis G : centred c.
  Local Notation n := (p_nlat c).
  Local Notation e := (p_eq c).
  Local Notation nl := (p_nlon c).
  Local Notation tn := (turn c s).
  Local Notation cols := (cols c s).

  (** arguments of a hemispheric call and of the call for the relabelled state *)
  Definition kin_turned (x x' : kin R) : Prop :=
    cols (i_pv x) (i_pv x') /\ cols (i_uu x) (i_uu x') /\ cols (i_vv x) (i_vv x') /\ cols (i_pt x) (i_pt x') /\ cols (i_nc x) (i_nc x') /\
    i_t0 x' = i_t0 x /\ i_qref x' = i_qref x /\ i_uref x' = i_uref x /\ i_tref x' = i_tref x.

  Section Call.
    Variables x x' : kin R.
    Hypothesis K : kin_turned x x'.
    Ltac start := intros i Hi; destruct K as (Kpv & Kuu & Kvv & Kpt & Knc & Kt0 & Kq & Kur & Ktr);
                  assert (Kpv' := Kpv i Hi); assert (Kuu' := Kuu i Hi); assert (Kvv' := Kvv i Hi); assert (Kpt' := Kpt i Hi); assert (Knc' := Knc i Hi);
                  extensionality j; try extensionality k.
    Lemma astar1_cols : cols (k_astar1 c x) (k_astar1 c x').
    Proof. start. unfold k_astar1, astar1, fill. cbn [dims is_nhem]. unfold sum_above, above, qe. rewrite Kq, Kpv'. reflexivity. Qed.
    Lemma astar2_cols : cols (k_astar2 c x) (k_astar2 c x').
    Proof. start. unfold k_astar2, astar2, fill. cbn [dims is_nhem]. unfold sum_below, below, qe. rewrite Kq, Kpv'. reflexivity. Qed.
    Lemma ncforce_cols : cols (k_ncforce c x) (k_ncforce c x').
    Proof. start. unfold k_ncforce, ncforce3d, fill, sum_ncforce, below, above, qe. rewrite Kq, Kpv', Knc'. reflexivity. Qed.
    Lemma ua1_cols : cols (k_ua1 c x) (k_ua1 c x').
    Proof.
      intros i Hi. assert (E1 := astar1_cols i Hi). assert (E2 := astar2_cols i Hi). destruct K as (_ & _ & _ & _ & _ & _ & Kq & Kur & _).
      extensionality j; extensionality k. unfold k_ua1, ua1, fill, k_astar1, k_astar2 in *. rewrite E1, E2, Kur. reflexivity.
    Qed.
    Lemma ua2_cols : cols (k_ua2 c x) (k_ua2 c x').
    Proof. start. unfold k_ua2, ua2, fill, sum_ua2, below, above, qe, ue. rewrite Kq, Kur, Kpv', Kuu'. reflexivity. Qed.
    Lemma ep1_cols : cols (k_ep1 c x) (k_ep1 c x').
    Proof. start. unfold k_ep1, ep1, fill. rewrite Kur, Ktr, Kt0, Kuu', Kvv', Kpt'. reflexivity. Qed.
    Lemma ep4_cols : cols (k_ep4 c x) (k_ep4 c x').
    Proof. start. unfold k_ep4, ep4. rewrite Ktr, Kt0, Kvv', Kpt'. reflexivity. Qed.
    (** momentum fluxes: through the memory model, at points inside the arrays *)
    Lemma ep_cases i j k : lon_ok c i -> (1 <= j <= e)%nat -> lev_ok c k ->
      k_ep2 c x' i j k = k_ep2 c x (tn i) j k /\ k_ep3 c x' i j k = k_ep3 c x (tn i) j k.
    Proof.
      intros Hi Hj Hk. assert (T := turn_ok c s G i). destruct K as (Kpv & Kuu & Kvv & Kpt & Knc & Kt0 & Kq & Kur & Ktr).
      assert (Z := dims_sizes c G). assert (NT : is_nhem (dims c) = true) by reflexivity.
      unfold k_ep2, k_ep3. rewrite Kur. unfold lon_ok, lev_ok in *.
      assert (D : (analysed_row (dims c) j /\ interior_level (dims c) k) \/ ~ (analysed_row (dims c) j /\ interior_level (dims c) k)).
      { unfold analysed_row, interior_level. cbn [dims is_nhem jb nd kmax]. lia. }
      unfold ep2, ep3. rewrite !ep2_writes_eq, !ep3_writes_eq.
      destruct D as [[D1 D2]|D].
      - rewrite !(put_writes_main (dims c) NT Z) by (assumption || (cbn [dims imax]; lia)). unfold main2, main3, mflux. rewrite (Kuu i Hi), (Kvv i Hi). auto.
      - assert (E : (j = edge_row (dims c) /\ exists k', interior_level (dims c) k' /\ k = edge_level (dims c) k') \/
                    (j = edge_row (dims c) -> forall k', interior_level (dims c) k' -> k <> edge_level (dims c) k')).
        { destruct (Nat.eq_dec j (edge_row (dims c))) as [J|J]; [|right; intros; contradiction].
          unfold edge_level, interior_level. cbn [dims jb kmax]. destruct (Nat.eqb_spec (p_jb c) 0) as [B|B].
          - assert (C : (2 <= k + 1 <= p_kmax c - 1)%nat \/ ~ (2 <= k + 1 <= p_kmax c - 1)%nat) by lia. destruct C as [C|C].
            + left. split; [exact J|]. exists (k + 1)%nat. lia.
            + right. intros _ k' Hk'. lia.
          - assert (C : (2 <= k <= p_kmax c - 1)%nat \/ ~ (2 <= k <= p_kmax c - 1)%nat) by lia. destruct C as [C|C].
            + left. split; [exact J|]. exists k. lia.
            + right. intros _ k' Hk'. lia. }
        destruct E as [(-> & k' & Hk' & ->)|E].
        + rewrite !(put_writes_edge (dims c) NT Z) by (assumption || (cbn [dims imax]; lia)). unfold edge2, edge3, mflux. rewrite (Kuu i Hi), (Kvv i Hi). auto.
        + rewrite !(put_writes_none (dims c) NT Z) by (assumption || (cbn [dims imax nd]; lia)). auto.
    Qed.
    Lemma avg_cols (y y' : arr3 R) : cols y y' -> cols (avg c y) (avg c y').
    Proof. intros H i Hi. extensionality j. unfold avg, column_average. rewrite (H i Hi). reflexivity. Qed.
    Lemma avg_ep i j : lon_ok c i -> (1 <= j <= e)%nat ->
      avg c (k_ep2 c x') i j = avg c (k_ep2 c x) (tn i) j /\ avg c (k_ep3 c x') i j = avg c (k_ep3 c x) (tn i) j.
    Proof.
      intros Hi Hj. unfold avg. rewrite !column_average_Sum. cbn [dims kmax].
      split; apply Sum_ext; intros k Hk; destruct (ep_cases i j k Hi Hj ltac:(unfold lev_ok; lia)) as [E1 E2]; [rewrite E1|rewrite E2]; reflexivity.
    Qed.
    Lemma u_baro_cols : cols (k_u_baro c x) (k_u_baro c x').
    Proof. start. unfold k_u_baro, py_u_baro, column_average. rewrite Kuu'. reflexivity. Qed.
    Lemma lwa_baro_cols : cols (k_lwa_baro c x) (k_lwa_baro c x').
    Proof.
      intros i Hi. extensionality j. unfold k_lwa_baro. rewrite (avg_cols _ _ astar1_cols i Hi), (avg_cols _ _ astar2_cols i Hi). reflexivity.
    Qed.
  End Call.

  Lemma global2_turned (a b a' b' : arr2 R) : (forall i j, lon_ok c i -> (1 <= j <= e)%nat -> a' i j = a (tn i) j /\ b' i j = b (tn i) j) ->
    turned2 c s (global2 c a b) (global2 c a' b').
  Proof.
    intros H i j Hi Hj. unfold global2. assert (R0 := rows_eq c G).
    assert (N : set_nhem c e (fun _ => nzero) (fun r => a' i r) j = set_nhem c e (fun _ => nzero) (fun r => a (tn i) r) j).
    { apply set_nhem_same; [exact R0|exact Hj|]. intros r Hr. apply H; assumption. }
    destruct (p_nh c); [exact N|]. apply set_shem_same; [unfold row_ok in Hj; lia|exact N|]. intros r Hr. apply H; assumption.
  Qed.
  Lemma global3_turned (a b a' b' : arr3 R) : (forall i j k, lon_ok c i -> (1 <= j <= e)%nat -> lev_ok c k -> a' i j k = a (tn i) j k /\ b' i j k = b (tn i) j k) ->
    turned3 c s (global3 c a b) (global3 c a' b').
  Proof.
    intros H i j k Hi Hj Hk. unfold global3. assert (R0 := rows_eq c G).
    assert (N : set_nhem c e (fun _ => nzero) (fun r => a' i r k) j = set_nhem c e (fun _ => nzero) (fun r => a (tn i) r k) j).
    { apply set_nhem_same; [exact R0|exact Hj|]. intros r Hr. apply H; assumption. }
    destruct (p_nh c); [exact N|]. apply set_shem_same; [unfold row_ok in Hj; lia|exact N|]. intros r Hr. apply H; assumption.
  Qed.
  Lemma global2_cols (a b a' b' : arr2 R) : cols a a' -> cols b b' -> turned2 c s (global2 c a b) (global2 c a' b').
  Proof. intros H1 H2. apply global2_turned. intros i j Hi _. rewrite (H1 i Hi), (H2 i Hi). auto. Qed.
  Lemma global3_cols (a b a' b' : arr3 R) : cols a a' -> cols b b' -> turned3 c s (global3 c a b) (global3 c a' b').
  Proof. intros H1 H2. apply global3_turned. intros i j k Hi _ _. rewrite (H1 i Hi), (H2 i Hi). auto. Qed.

  Lemma barotropic_turned a b a' b' : kin_turned a a' -> kin_turned b b' -> turned_fluxes c s (barotropic_terms c a b) (barotropic_terms c a' b').
  Proof.
    intros Ha Hb. unfold turned_fluxes, barotropic_terms. cbn [b_lwa b_u b_ua1 b_ua2 b_ep1 b_ep2 b_ep3 b_ep4 b_astar1 b_astar2 b_nc b_lwa3].
    assert (N : forall y y' : arr2 R, cols y y' -> cols (fun i j => nopp (y i j)) (fun i j => nopp (y' i j))) by (intros y y' H i Hi; extensionality j; rewrite (H i Hi); reflexivity).
    assert (M : forall y z y' z' : arr3 R, cols y y' -> cols z z' -> cols (fun i j k => nabs (nadd (y i j k) (z i j k))) (fun i j k => nabs (nadd (y' i j k) (z' i j k)))).
    { intros y z y' z' H1 H2 i Hi. extensionality j. extensionality k. rewrite (H1 i Hi), (H2 i Hi). reflexivity. }
    split; [apply global2_cols; apply lwa_baro_cols; assumption|]. split; [apply global2_cols; apply u_baro_cols; assumption|].
    split; [apply global2_cols; apply avg_cols; apply ua1_cols; assumption|]. split; [apply global2_cols; apply avg_cols; apply ua2_cols; assumption|].
    split; [apply global2_cols; apply avg_cols; apply ep1_cols; assumption|].
    split. { apply global2_turned. intros i j Hi Hj. destruct (avg_ep a a' Ha i j Hi Hj) as [E1 E2]. destruct (avg_ep b b' Hb i j Hi Hj) as [E3 E4]. rewrite E1, E4. auto. }
    split. { apply global2_turned. intros i j Hi Hj. destruct (avg_ep a a' Ha i j Hi Hj) as [E1 E2]. destruct (avg_ep b b' Hb i j Hi Hj) as [E3 E4]. rewrite E2, E3. auto. }
    split; [apply global2_cols; apply ep4_cols; assumption|].
    split; [apply global2_cols; apply avg_cols; apply astar1_cols; assumption|]. split; [apply global2_cols; apply avg_cols; apply astar2_cols; assumption|].
    split; [apply global2_cols; [|apply N]; apply avg_cols; apply ncforce_cols; assumption|].
    apply global3_cols; apply M; first [apply astar1_cols; assumption|apply astar2_cols; assumption].
  Qed.
  Lemma layerwise_turned a b a' b' : kin_turned a a' -> kin_turned b b' -> turned_layers c s (layerwise_terms c a b) (layerwise_terms c a' b').
  Proof.
    intros Ha Hb. unfold turned_layers, layerwise_terms. cbn [l_lwa l_astar1 l_astar2 l_nc l_ua1 l_ua2 l_ep1 l_ep2 l_ep3 l_ep4].
    assert (N : forall y y' : arr3 R, cols y y' -> cols (fun i j k => nopp (y i j k)) (fun i j k => nopp (y' i j k))) by (intros y y' H i Hi; extensionality j; extensionality k; rewrite (H i Hi); reflexivity).
    assert (A1 : turned3 c s (global3 c (k_astar1 c a) (k_astar1 c b)) (global3 c (k_astar1 c a') (k_astar1 c b'))) by (apply global3_cols; apply astar1_cols; assumption).
    assert (A2 : turned3 c s (global3 c (k_astar2 c a) (k_astar2 c b)) (global3 c (k_astar2 c a') (k_astar2 c b'))) by (apply global3_cols; apply astar2_cols; assumption).
    split. { intros i j k Hi Hj Hk. rewrite (A1 i j k Hi Hj Hk), (A2 i j k Hi Hj Hk). reflexivity. }
    split; [exact A1|]. split; [exact A2|].
    split; [apply global3_cols; [|apply N]; apply ncforce_cols; assumption|]. split; [apply global3_cols; apply ua1_cols; assumption|].
    split; [apply global3_cols; apply ua2_cols; assumption|]. split; [apply global3_cols; apply ep1_cols; assumption|].
    split. { apply global3_turned. intros i j k Hi Hj Hk. destruct (ep_cases a a' Ha i j k Hi Hj Hk) as [E1 E2]. destruct (ep_cases b b' Hb i j k Hi Hj Hk) as [E3 E4]. rewrite E1, E4. auto. }
    split. { apply global3_turned. intros i j k Hi Hj Hk. destruct (ep_cases a a' Ha i j k Hi Hj Hk) as [E1 E2]. destruct (ep_cases b b' Hb i j k Hi Hj Hk) as [E3 E4]. rewrite E2, E3. auto. }
    apply global2_cols; apply ep4_cols; assumption.
  Qed.
  Lemma div_turned b b' : turned_fluxes c s b b' -> turned2 c s (div_momentum_flux c b) (div_momentum_flux c b').
  Proof.
    intros (_ & _ & _ & _ & _ & E2 & E3 & _) i j Hi Hj. unfold div_momentum_flux. rewrite (E2 i j Hi Hj), (E3 i j Hi Hj). reflexivity.
  Qed.
  Lemma conv_turned b b' : turned_fluxes c s b b' -> turned2 c s (conv_zonal_flux c b) (conv_zonal_flux c b').
  Proof.
    intros (_ & _ & U1 & U2 & E1 & _) i j Hi Hj. destruct (gsz c G) as (_ & _ & _ & _ & L & _). unfold conv_zonal_flux.
    replace (tn i - 1)%nat with ((i - 1 + s) mod nl)%nat by (unfold turn; lia). unfold lon_ok in Hi.
    rewrite <- zc_rotation by lia. unfold zonal_convergence, zonal_diff, zonal_flux. cbv beta.
    assert (Z : forall i', (i' < nl)%nat -> b_ua1 b' (i' + 1)%nat (j - 1 + 1)%nat = b_ua1 b ((i' + s) mod nl + 1)%nat (j - 1 + 1)%nat /\
       b_ua2 b' (i' + 1)%nat (j - 1 + 1)%nat = b_ua2 b ((i' + s) mod nl + 1)%nat (j - 1 + 1)%nat /\ b_ep1 b' (i' + 1)%nat (j - 1 + 1)%nat = b_ep1 b ((i' + s) mod nl + 1)%nat (j - 1 + 1)%nat).
    { intros i' Hi'. unfold row_ok in Hj. assert (Hj' : row_ok c (j - 1 + 1)) by (unfold row_ok; lia). assert (Hl : lon_ok c (i' + 1)) by (unfold lon_ok; lia).
      rewrite (U1 _ _ Hl Hj'), (U2 _ _ Hl Hj'), (E1 _ _ Hl Hj'). unfold turn. replace (i' + 1 - 1)%nat with i' by lia. auto. }
    destruct (Nat.eqb_spec (i - 1) (nl - 1)) as [X|X]; [|destruct (Nat.eqb_spec (i - 1) 0) as [Y|Y]];
    repeat match goal with |- context [b_ua1 b' (?k + 1)%nat (j - 1 + 1)%nat] => let A := fresh in let B := fresh in let C := fresh in destruct (Z k ltac:(lia)) as (A & B & C); rewrite A, B, C; clear A B C end; reflexivity.
  Qed.

  (** ** the arguments *)
  Variables f f' : fields R.
  Hypothesis Ff : turned_state c s f f'.
  Variables q q' nc nc' : arr3 R.
  Hypothesis Hq : turned c s q q'.
  Hypothesis Hn : turned c s nc nc'.
  Variable av : averages R.
  Variables r r' : refstate R.
  Hypothesis Hr : same_refs c r r'.

  Lemma last_same m x x' : (m <= rows c)%nat -> same_profile c x x' -> clip2 c m (last_rows c m x') = clip2 c m (last_rows c m x).
  Proof.
    intros Hm H. extensionality j. extensionality k. unfold clip2, last_rows.
    repeat match goal with |- context [Nat.leb ?a ?b] => destruct (Nat.leb_spec a b) end; cbn [andb]; try reflexivity. apply H; unfold row_ok, lev_ok; lia.
  Qed.
  Lemma first_same m x x' : (m <= rows c)%nat -> same_profile c x x' -> clip2 c m (first_rows_rev m x') = clip2 c m (first_rows_rev m x).
  Proof.
    intros Hm H. extensionality j. extensionality k. unfold clip2, first_rows_rev.
    repeat match goal with |- context [Nat.leb ?a ?b] => destruct (Nat.leb_spec a b) end; cbn [andb]; try reflexivity. apply H; unfold row_ok, lev_ok; lia.
  Qed.
  Lemma first_same_neg m x x' : (m <= rows c)%nat -> same_profile c x x' -> clip2 c m (neg2 (first_rows_rev m x')) = clip2 c m (neg2 (first_rows_rev m x)).
  Proof.
    intros Hm H. extensionality j. extensionality k. unfold clip2, neg2, first_rows_rev.
    repeat match goal with |- context [Nat.leb ?a ?b] => destruct (Nat.leb_spec a b) end; cbn [andb]; try reflexivity. f_equal. apply H; unfold row_ok, lev_ok; lia.
  Qed.
  Lemma qref_unit_same : same_profile c (qref_correct_unit c r) (qref_correct_unit c r').
  Proof. destruct Hr as (H & _). intros j k Hj Hk. unfold qref_correct_unit. rewrite (H j k Hj Hk). reflexivity. Qed.
  Lemma jd_rows : (p_jd c <= rows c)%nat.
  Proof. assert (R0 := rows_eq c G). destruct (gsz c G) as (_ & _ & _ & A4 & _). lia. Qed.
  Lemma north_turned : kin_turned (north_args c q f nc av r) (north_args c q' f' nc' av r').
  Proof.
    destruct Ff as (Hu & Hv & Ht). assert (Hr' := Hr). destruct Hr' as (H1 & H2 & H3). unfold kin_turned, north_args. cbn [i_pv i_uu i_vv i_pt i_nc i_t0 i_qref i_uref i_tref].
    repeat split; try (apply clip_cols; assumption); apply last_same; try assumption; try apply jd_rows; try apply (rows_eq c G). apply qref_unit_same.
  Qed.
  Lemma south_turned : kin_turned (south_args c q f nc av r) (south_args c q' f' nc' av r').
  Proof.
    destruct Ff as (Hu & Hv & Ht). assert (Hr' := Hr). destruct Hr' as (H1 & H2 & H3). unfold kin_turned, south_args. cbn [i_pv i_uu i_vv i_pt i_nc i_t0 i_qref i_uref i_tref].
    repeat split; try (apply clip_cols; try apply neg_turned; try apply flip_turned; assumption).
    - apply first_same_neg; [apply (rows_eq c G)|apply qref_unit_same].
    - apply first_same; [apply jd_rows|exact H2].
    - apply first_same; [apply jd_rows|exact H3].
  Qed.
  Lemma phi_turned : turned2 c s (flux_vector_phi c f r) (flux_vector_phi c f' r').
  Proof.
    destruct Ff as (Hu & Hv & Ht). destruct Hr as (H1 & H2 & H3). destruct (gsz c G) as (A1 & A2 & A3 & A4 & A5 & A6).
    intros i j Hi Hj. unfold flux_vector_phi, avg. rewrite !column_average_Sum. apply Sum_ext. intros k Hk. cbn [dims kmax] in Hk.
    assert (Lk : lev_ok c k) by (unfold lev_ok; lia).
    assert (Lj : lat_ok c ((if p_nh c then e - 1 else 0) + j)) by (unfold lat_ok, row_ok, rows in *; destruct (p_nh c); lia).
    rewrite (Hu i _ k Hi Lj Lk), (Hv i _ k Hi Lj Lk), (H2 j k Hj Lk). reflexivity.
  Qed.
  Lemma stretch_turned : (exists d d', stretch_term c f av r = Some d /\ stretch_term c f' av r' = Some d' /\
     forall i j k, lon_ok c i -> lat_ok c j -> lev_ok c k -> d' i j k = d (tn i) j k).
  Proof.
    destruct Ff as (Hu & Hv & Ht). destruct Hr as (H1 & H2 & H3). destruct (gsz c G) as (A1 & A2 & A3 & A4 & A5 & A6).
    unfold stretch_term, z_derivative_of_prod.
    assert (S1 : (n =? e - 1 + 1 + (e - 1))%nat && (2 <=? p_kmax c)%nat = true) by (apply andb_true_intro; split; [apply Nat.eqb_eq|apply Nat.leb_le]; lia).
    rewrite S1. cbn [option_map]. eexists. eexists. split; [reflexivity|]. split; [reflexivity|]. intros i j k Hi Hj Hk. cbv beta.
    assert (X : forall k0, (k0 < p_kmax c)%nat -> forall P P' : R, P' = P ->
      v_ f' (i - 1 + 1)%nat (j - 1 + 1)%nat (k0 + 1)%nat * (theta_ f' (i - 1 + 1)%nat (j - 1 + 1)%nat (k0 + 1)%nat - P') =
      v_ f (tn i - 1 + 1)%nat (j - 1 + 1)%nat (k0 + 1)%nat * (theta_ f (tn i - 1 + 1)%nat (j - 1 + 1)%nat (k0 + 1)%nat - P)).
    { intros k0 Hk0 P P' EP. unfold lon_ok, lat_ok, lev_ok in *. assert (T := turn_ok c s G i). unfold lon_ok in T.
      replace (i - 1 + 1)%nat with i by lia. replace (j - 1 + 1)%nat with j by lia. replace (tn i - 1 + 1)%nat with (tn i) by lia.
      rewrite Hv, Ht by (unfold lon_ok, lat_ok, lev_ok; lia). rewrite EP. reflexivity. }
    assert (Pt : forall k0, (k0 < p_kmax c)%nat ->
      (if p_nh c then if (j - 1 + 1 <=? n - e)%nat then nzero else ptref_ r' (j - 1 + 1 - (n - e))%nat (k0 + 1)%nat else ptref_ r' (j - 1 + 1)%nat (k0 + 1)%nat) =
      (if p_nh c then if (j - 1 + 1 <=? n - e)%nat then nzero else ptref_ r (j - 1 + 1 - (n - e))%nat (k0 + 1)%nat else ptref_ r (j - 1 + 1)%nat (k0 + 1)%nat)).
    { intros k0 Hk0. unfold lat_ok in Hj. destruct (p_nh c) eqn:NH.
      - destruct (Nat.leb_spec (j - 1 + 1) (n - e)); [reflexivity|]. apply H3; unfold row_ok, lev_ok, rows; rewrite ?NH; lia.
      - apply H3; unfold row_ok, lev_ok, rows; rewrite ?NH; lia. }
    unfold z_der, to_be_diff. cbv beta zeta. cbn [nmul nsub RNum].
    unfold lev_ok in Hk.
    destruct (Nat.eqb_spec (k - 1) (p_kmax c - 1)); [|destruct (Nat.eqb_spec (k - 1) 0)];
      repeat match goal with |- context [v_ f' (i - 1 + 1)%nat (j - 1 + 1)%nat (?k0 + 1)%nat] => erewrite (X k0) by (lia || (apply Pt; lia)) end; reflexivity.
  Qed.
  Lemma lwa_only_turned : turned_lwa_only c s (lwa_only c q f r) (lwa_only c q' f' r').
  Proof.
    destruct Ff as (Hu & Hv & Ht). assert (E1 := last_same e _ _ (rows_eq c G) qref_unit_same). assert (E2 := first_same_neg e _ _ (rows_eq c G) qref_unit_same).
    assert (P1 := clip_cols c s G q q' Hq). assert (P2 := clip_cols c s G _ _ (neg_turned c s _ _ (flip_turned c s _ _ Hq))).
    assert (U1 := clip_cols c s G _ _ Hu). assert (U2 := clip_cols c s G _ _ (flip_turned c s _ _ Hu)).
    unfold lwa_only. rewrite E1, E2. set (qn := clip2 c e (last_rows c e (qref_correct_unit c r))). set (qs := clip2 c e (neg2 _)).
    set (pn := clip3 c q) in *. set (pn' := clip3 c q') in *. set (ps := clip3 c (neg3 (flip3 c q))) in *. set (ps' := clip3 c (neg3 (flip3 c q'))) in *.
    assert (L1 : forall (p p' : arr3 R) (qq : arr2 R), cols p p' -> cols (lo_astar1 (dims c) p qq) (lo_astar1 (dims c) p' qq)).
    { intros p p' qq H i Hi. extensionality j. extensionality k. unfold lo_astar1, fill. rewrite (H i Hi). reflexivity. }
    assert (L2 : forall (p p' : arr3 R) (qq : arr2 R), cols p p' -> cols (lo_astar2 (dims c) p qq) (lo_astar2 (dims c) p' qq)).
    { intros p p' qq H i Hi. extensionality j. extensionality k. unfold lo_astar2, fill. rewrite (H i Hi). reflexivity. }
    unfold turned_lwa_only. cbn [o_lwa_baro o_u_baro o_lwa o_astar1 o_astar2].
    split; [|split; [|split; [|split]]].
    - apply global2_cols; intros i Hi; extensionality j; unfold lo_astarbaro; [rewrite (L1 _ _ qn P1 i Hi), (L2 _ _ qn P1 i Hi)|rewrite (L1 _ _ qs P2 i Hi), (L2 _ _ qs P2 i Hi)]; reflexivity.
    - apply global2_cols; intros i Hi; extensionality j; unfold lo_ubaro; [rewrite (U1 i Hi)|rewrite (U2 i Hi)]; reflexivity.
    - apply global3_cols; intros i Hi; extensionality j; extensionality k; [rewrite (L1 _ _ qn P1 i Hi), (L2 _ _ qn P1 i Hi)|rewrite (L1 _ _ qs P2 i Hi), (L2 _ _ qs P2 i Hi)]; reflexivity.
    - intros i j k Hi Hj Hk. rewrite (L1 pn pn' qn P1 i Hi). reflexivity.
    - intros i j k Hi Hj Hk. rewrite (L2 pn pn' qn P1 i Hi). reflexivity.
  Qed.
End Kernels.
