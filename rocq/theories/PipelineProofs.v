(** Proofs about the two-hemisphere computations. *)
From Verif Require Import Base BaseFacts Spec SpecFacts Flux FluxSpec FluxProofs Utilities UtilitiesProofs Storage StorageProofs Qgpv QgpvSpec QgpvProofs Pipeline PipelineSpec.
From Coq Require Import FunctionalExtensionality.
Open Scope R_scope.
Open Scope list_scope.

(** [set_nhem] and [set_shem] are the row-wise effect of the descriptors of data_storage.py *)
Section Descriptors.
  Variable c : pconf R.
  Lemma set_nhem_is_descriptor (st : storage R) attr arr v :
    getattr st attr = Some arr -> length arr = rows c -> (1 <= length v <= length arr)%nat ->
    exists st' arr', nhem_set st attr v = Ok st' /\ getattr st' attr = Some arr' /\
      forall j d, (1 <= j <= rows c)%nat ->
        nth (j - 1) arr' d = set_nhem c (length v) (fun j => nth (j - 1) arr d) (fun j => nth (j - 1) v d) j.
  Proof.
    intros G L H. destruct (nhem_write st attr v arr G H) as (st' & arr' & E & G' & _ & R1 & _).
    exists st', arr'. split; [exact E|]. split; [exact G'|]. intros j d Hj. rewrite R1 by lia. unfold set_nhem. rewrite <- L.
    destruct (Nat.ltb_spec (j - 1) (length arr - length v)); destruct (Nat.leb_spec j (length arr - length v)); try lia; [reflexivity|].
    f_equal. lia.
  Qed.
  Lemma set_shem_is_descriptor (st : storage R) attr arr v :
    st_nh_only st = false -> getattr st attr = Some arr -> length arr = rows c -> (length v <= length arr)%nat ->
    exists st' arr', shem_set st attr v = Ok st' /\ getattr st' attr = Some arr' /\
      forall j d, (1 <= j <= rows c)%nat ->
        nth (j - 1) arr' d = set_shem (length v) (fun j => nth (j - 1) arr d) (fun j => nth (j - 1) v d) j.
  Proof.
    intros N G L H. destruct (shem_write st attr v arr N G H) as (st' & arr' & E & G' & _ & R1 & _).
    exists st', arr'. split; [exact E|]. split; [exact G'|]. intros j d Hj. rewrite R1 by lia. unfold set_shem.
    destruct (Nat.ltb_spec (j - 1) (length v)); destruct (Nat.leb_spec j (length v)); try lia; [|reflexivity]. f_equal. lia.
  Qed.
End Descriptors.

Section Clip.
  Variable c : pconf R.
  Lemma andb6 (a b c' d e' f : bool) : a && b && c' && d && e' && f = true -> a = true /\ b = true /\ c' = true /\ d = true /\ e' = true /\ f = true.
  Proof. destruct a, b, c', d, e', f; cbn; intuition congruence. Qed.
  Lemma clip3_cases x i j k : (lon_ok c i /\ lat_ok c j /\ lev_ok c k /\ clip3 c x i j k = x i j k) \/ clip3 c x i j k = 0.
  Proof.
    unfold clip3. destruct (_ && _) eqn:E; [left|right; reflexivity]. apply andb6 in E. destruct E as (E1 & E2 & E3 & E4 & E5 & E6).
    apply Nat.leb_le in E1, E2, E3, E4, E5, E6. unfold lon_ok, lat_ok, lev_ok. repeat (split; [lia|]). reflexivity.
  Qed.
  Lemma clip3_ext x y : (forall i j k, lon_ok c i -> lat_ok c j -> lev_ok c k -> x i j k = y i j k) -> clip3 c x = clip3 c y.
  Proof.
    intros H. extensionality i. extensionality j. extensionality k. unfold clip3.
    destruct (_ && _) eqn:E; [|reflexivity]. apply andb6 in E. destruct E as (E1 & E2 & E3 & E4 & E5 & E6).
    apply Nat.leb_le in E1, E2, E3, E4, E5, E6. apply H; unfold lon_ok, lat_ok, lev_ok; lia.
  Qed.
  Lemma clip2_ext m x y : (forall j k, (1 <= j <= m)%nat -> lev_ok c k -> x j k = y j k) -> clip2 c m x = clip2 c m y.
  Proof.
    intros H. extensionality j. extensionality k. unfold clip2.
    destruct (_ && _) eqn:E; [|reflexivity]. apply andb_true_iff in E. destruct E as [E E4]. apply andb_true_iff in E. destruct E as [E E3].
    apply andb_true_iff in E. destruct E as [E1 E2]. apply Nat.leb_le in E1, E2, E3, E4. apply H; unfold lev_ok; lia.
  Qed.
End Clip.

Section Mirror.
  Variable c : pconf R.
  Hypothesis G : symmetric_grid c.
  Hypothesis NF : p_nh c = false.
  Local Notation n := (p_nlat c).
  Local Notation e := (p_eq c).

  Lemma sizes : (2 <= e)%nat /\ n = (2 * e - 1)%nat /\ (p_jb c < e)%nat /\ p_jd c = (e - p_jb c)%nat.
  Proof. destruct G as (A & B & C & D & _). auto. Qed.
  Lemma rows_n : rows c = n. Proof. unfold rows. rewrite NF. reflexivity. Qed.

  Lemma flip_even x : even_field c x -> clip3 c (flip3 c x) = clip3 c x.
  Proof. intros H. apply clip3_ext. intros i j k Hi Hj Hk. unfold flip3. apply H; assumption. Qed.
  Lemma flip_odd x : odd_field c x -> clip3 c (neg3 (flip3 c x)) = clip3 c x.
  Proof. intros H. apply clip3_ext. intros i j k Hi Hj Hk. unfold flip3, neg3. rewrite H by assumption. cbn [nopp RNum]. ring. Qed.

  (** storing equal results for both hemispheres gives an even array *)
  Lemma store_even m old v j : (1 <= m <= e)%nat -> (forall j, (m < j < n + 1 - m)%nat -> old j = old (n + 1 - j)%nat) -> (1 <= j <= n)%nat ->
    set_shem m (set_nhem c m old v) v (n + 1 - j)%nat = set_shem m (set_nhem c m old v) v j.
  Proof.
    intros Hm Ho Hj. destruct sizes as (S1 & S2 & _). unfold set_shem, set_nhem. rewrite rows_n.
    destruct (Nat.leb_spec (n + 1 - j) m) as [L1|L1]; destruct (Nat.leb_spec j m) as [L2|L2].
    - f_equal. lia.
    - destruct (Nat.leb_spec j (n - m)); [lia|]. f_equal. lia.
    - destruct (Nat.leb_spec (n + 1 - j) (n - m)); [lia|]. f_equal. lia.
    - destruct (Nat.leb_spec (n + 1 - j) (n - m)); destruct (Nat.leb_spec j (n - m)); try lia. symmetry. apply Ho. lia.
  Qed.
  Lemma store_even_refs mq m old v : (1 <= mq <= e)%nat -> (1 <= m <= e)%nat -> symmetric_refs c old ->
    symmetric_refs c (store_south mq m (store_north c mq m old v) v).
  Proof.
    intros Hq Hm (O1 & O2 & O3). destruct sizes as (S1 & S2 & _).
    split; [|split]; intros j k Hj Hk; cbn [store_south store_north qref_ uref_ ptref_].
    - apply (store_even mq (fun j => qref_ old j k) (fun j => qref_ v j k)); try assumption. intros. symmetry. apply O1; [unfold lat_ok; lia|exact Hk].
    - apply (store_even m (fun j => uref_ old j k) (fun j => uref_ v j k)); try assumption. intros. symmetry. apply O2; [unfold lat_ok; lia|exact Hk].
    - apply (store_even m (fun j => ptref_ old j k) (fun j => ptref_ v j k)); try assumption. intros. symmetry. apply O3; [unfold lat_ok; lia|exact Hk].
  Qed.
  Lemma store_full_refs old v : symmetric_refs c (store_south e e (store_north c e e old v) v).
  Proof.
    destruct sizes as (S1 & S2 & _). split; [|split]; intros j k Hj Hk; cbn [store_south store_north qref_ uref_ ptref_].
    - apply (store_even e (fun j => qref_ old j k) (fun j => qref_ v j k)); try assumption; intros; lia.
    - apply (store_even e (fun j => uref_ old j k) (fun j => uref_ v j k)); try assumption; intros; lia.
    - apply (store_even e (fun j => ptref_ old j k) (fun j => ptref_ v j k)); try assumption; intros; lia.
  Qed.

  Lemma refs_nh18_symmetric solver qgpv f old :
    symmetric_state c f -> odd_field c qgpv -> symmetric_refs c (refs_nh18 c solver qgpv f old).
  Proof.
    intros (Hu & Hv & Ht) Hq. unfold refs_nh18. rewrite NF. rewrite (flip_odd _ Hq), (flip_even _ Hu), (flip_even _ Ht). apply store_full_refs.
  Qed.

  (** the two hemispheric calls of the flux kernel receive the same arguments *)
  Section Calls.
    Variables (qgpv : arr3 R) (f : fields R) (nc : arr3 R) (av : averages R) (r : refstate R).
    Hypothesis Hf : symmetric_state c f.
    Hypothesis Hq : odd_field c qgpv.
    Hypothesis Hnc : odd_field c nc.
    Hypothesis Hr : symmetric_refs c r.
    Hypothesis Ht : forall k, ts0 av k = tn0 av k.
    Local Notation N := (north_args c qgpv f nc av r).
    Local Notation S := (south_args c qgpv f nc av r).

    Lemma qref_args : i_qref S = i_qref N.
    Proof.
      cbn [south_args north_args i_qref]. apply clip2_ext. intros j k Hj Hk. destruct sizes as (S1 & S2 & _).
      unfold neg2, first_rows_rev, last_rows, qref_correct_unit. rewrite rows_n, NF. destruct Hr as (Hr1 & _).
      replace (n - e + j)%nat with (n + 1 - (e + 1 - j))%nat by lia. rewrite (Hr1 (e + 1 - j)%nat) by (assumption || (unfold lat_ok; lia)).
      replace (n + 1 - (e + 1 - j) - 1)%nat with (n - 1 - (e + 1 - j - 1))%nat by lia.
      destruct G as (_ & _ & _ & _ & Y). destruct (Y (e + 1 - j - 1)%nat ltac:(lia)) as [-> _].
      unfold deg2rad. cbn [nmul ndiv nopp nsin nofZ npi RNum].
      replace (- p_ylat c (e + 1 - j - 1)%nat * (PI / 180)) with (- (p_ylat c (e + 1 - j - 1)%nat * (PI / 180))) by ring. rewrite sin_neg. ring.
    Qed.
    Lemma profile_args x : even_profile c x -> clip2 c (p_jd c) (first_rows_rev (p_jd c) x) = clip2 c (p_jd c) (last_rows c (p_jd c) x).
    Proof.
      intros H. apply clip2_ext. intros j k Hj Hk. destruct sizes as (S1 & S2 & S3 & S4). unfold first_rows_rev, last_rows. rewrite rows_n.
      rewrite <- (H (p_jd c + 1 - j)%nat) by (assumption || (unfold lat_ok; lia)). f_equal. lia.
    Qed.
    Lemma args_eq : i_pv S = i_pv N /\ i_uu S = i_uu N /\ i_vv S = i_vv N /\ i_pt S = i_pt N /\ i_t0 S = i_t0 N /\ i_qref S = i_qref N /\
      i_uref S = i_uref N /\ i_tref S = i_tref N.
    Proof.
      destruct Hf as (Hu & Hv & Hth). destruct Hr as (R1 & R2 & R3).
      assert (Et : ts0 av = tn0 av) by (extensionality k; apply Ht).
      cbn [south_args north_args i_pv i_uu i_vv i_pt i_t0 i_uref i_tref].
      rewrite (flip_odd _ Hq), (flip_even _ Hu), (flip_odd _ Hv), (flip_even _ Hth), (profile_args _ R2), (profile_args _ R3), Et.
      repeat (split; [reflexivity|]). split; [exact qref_args|]. split; reflexivity.
    Qed.
    Lemma nc_args i j k : i_nc S i j k = - i_nc N i j k.
    Proof.
      cbn [south_args north_args i_nc]. unfold clip3, flip3. destruct (_ && _) eqn:E; cbn [nzero RNum]; [|ring].
      apply andb6 in E. destruct E as (E1 & E2 & E3 & E4 & E5 & E6). apply Nat.leb_le in E1, E2, E3, E4, E5, E6.
      rewrite Hnc by (unfold lon_ok, lat_ok, lev_ok; lia). ring.
    Qed.
    Lemma k_nc i j k : k_ncforce c S i j k = - k_ncforce c N i j k.
    Proof.
      destruct args_eq as (E1 & _ & _ & _ & _ & E2 & _). unfold k_ncforce. rewrite E1, E2.
      replace (i_nc S) with (fun i j k => (-1) * i_nc N i j k + 0 * i_nc N i j k).
      2: { extensionality i'. extensionality j'. extensionality k'. rewrite nc_args. ring. }
      rewrite ncforce3d_linear. ring.
    Qed.
    Lemma k_eqs : k_astar1 c S = k_astar1 c N /\ k_astar2 c S = k_astar2 c N /\ k_ua1 c S = k_ua1 c N /\ k_ua2 c S = k_ua2 c N /\
      k_ep1 c S = k_ep1 c N /\ k_ep2 c S = k_ep2 c N /\ k_ep3 c S = k_ep3 c N /\ k_ep4 c S = k_ep4 c N /\ k_u_baro c S = k_u_baro c N.
    Proof.
      destruct args_eq as (E1 & E2 & E3 & E4 & E5 & E6 & E7 & E8).
      unfold k_astar1, k_astar2, k_ua1, k_ua2, k_ep1, k_ep2, k_ep3, k_ep4, k_u_baro. rewrite E1, E2, E3, E4, E5, E6, E7, E8. repeat split.
    Qed.

    Lemma global2_even x y : (forall i j, y i j = x i j) -> even_map c (global2 c x y).
    Proof.
      intros H i j Hi Hj. unfold global2. rewrite NF. destruct sizes as (S1 & S2 & _).
      replace (fun r0 => y i r0) with (fun r0 => x i r0) by (extensionality r0; symmetry; apply H).
      apply store_even; try assumption; [lia|]. intros. reflexivity.
    Qed.
    Lemma global3_even x y : (forall i j k, y i j k = x i j k) -> even_field c (global3 c x y).
    Proof.
      intros H i j k Hi Hj Hk. unfold global3. rewrite NF. destruct sizes as (S1 & S2 & _).
      replace (fun r0 => y i r0 k) with (fun r0 => x i r0 k) by (extensionality r0; symmetry; apply H).
      apply store_even; try assumption; [lia|]. intros. reflexivity.
    Qed.
    Lemma global2_swap x y i j : (1 <= j <= n)%nat -> j <> e ->
      global2 c x (fun i j => - y i j) i (n + 1 - j)%nat = - global2 c y (fun i j => - x i j) i j.
    Proof.
      intros Hj Hne. unfold global2, set_shem, set_nhem. rewrite NF, rows_n. destruct sizes as (S1 & S2 & _).
      destruct (Nat.leb_spec (n + 1 - j) e); destruct (Nat.leb_spec j e); try lia.
      - destruct (Nat.leb_spec j (n - e)); [lia|]. f_equal. f_equal. lia.
      - destruct (Nat.leb_spec (n + 1 - j) (n - e)); [lia|]. rewrite Ropp_involutive. f_equal. lia.
    Qed.
    Lemma global3_swap x y i j k : (1 <= j <= n)%nat -> j <> e ->
      global3 c x (fun i j k => - y i j k) i (n + 1 - j)%nat k = - global3 c y (fun i j k => - x i j k) i j k.
    Proof.
      intros Hj Hne. unfold global3, set_shem, set_nhem. rewrite NF, rows_n. destruct sizes as (S1 & S2 & _).
      destruct (Nat.leb_spec (n + 1 - j) e); destruct (Nat.leb_spec j e); try lia.
      - destruct (Nat.leb_spec j (n - e)); [lia|]. f_equal. f_equal. lia.
      - destruct (Nat.leb_spec (n + 1 - j) (n - e)); [lia|]. rewrite Ropp_involutive. f_equal. lia.
    Qed.
    Lemma avg_opp x y i j : (forall i j k, y i j k = - x i j k) -> avg c y i j = - avg c x i j.
    Proof.
      intros H. unfold avg. rewrite !column_average_Sum. match goal with |- _ = - ?s => replace (- s) with (-1 * s) by ring end. rewrite <- Sum_scal.
      apply Sum_ext. intros k _. rewrite H. ring.
    Qed.

    Lemma barotropic_symmetric : symmetric_fluxes c (barotropic_terms c N S).
    Proof.
      destruct k_eqs as (E1 & E2 & E3 & E4 & E5 & E6 & E7 & E8 & E9).
      unfold symmetric_fluxes. cbn [barotropic_terms b_lwa b_u b_ua1 b_ua2 b_ep1 b_ep2 b_ep3 b_ep4 b_astar1 b_astar2 b_nc b_lwa3].
      rewrite E1, E2, E3, E4, E5, E6, E7, E8, E9. unfold k_lwa_baro. rewrite E1, E2.
      repeat match goal with |- even_map c _ /\ _ => split end; try (apply global2_even; reflexivity).
      - apply global2_even. intros i j. cbn [nopp RNum]. rewrite (avg_opp (k_ncforce c N)) by apply k_nc. ring.
      - split; [apply global3_even; reflexivity|]. intros i j Hi Hj Hne. cbn [nopp RNum]. split; apply (global2_swap _ _ i j); assumption.
    Qed.
    Lemma layerwise_symmetric : symmetric_layers c (layerwise_terms c N S).
    Proof.
      destruct k_eqs as (E1 & E2 & E3 & E4 & E5 & E6 & E7 & E8 & E9).
      unfold symmetric_layers. cbn [layerwise_terms l_lwa l_astar1 l_astar2 l_nc l_ua1 l_ua2 l_ep1 l_ep2 l_ep3 l_ep4].
      rewrite E1, E2, E3, E4, E5, E6, E7, E8.
      split. { intros i j k Hi Hj Hk. cbn [nadd RNum]. rewrite (global3_even (k_astar1 c N) (k_astar1 c N)), (global3_even (k_astar2 c N) (k_astar2 c N)) by (reflexivity || assumption). reflexivity. }
      repeat match goal with |- even_field c _ /\ _ => split end; try (apply global3_even; reflexivity).
      - apply global3_even. intros i j k. cbn [nopp RNum]. rewrite k_nc. ring.
      - split; [apply global2_even; reflexivity|]. intros i j k Hi Hj Hk Hne. cbn [nopp RNum]. split; apply (global3_swap _ _ i j k); assumption.
    Qed.
  End Calls.

  Lemma clat_sym j : (1 <= j <= n)%nat -> out_clat c (n + 1 - j - 1) = out_clat c (j - 1).
  Proof.
    intros Hj. unfold out_clat. rewrite NF. destruct sizes as (S1 & S2 & _). destruct G as (_ & _ & _ & _ & Y).
    destruct (Y (j - 1)%nat ltac:(lia)) as [_ Y2]. rewrite <- Y2. f_equal. lia.
  Qed.
  Lemma div_even b : symmetric_fluxes c b -> forall i j, lon_ok c i -> lat_ok c j -> j <> e ->
    div_momentum_flux c b i (n + 1 - j)%nat = div_momentum_flux c b i j.
  Proof.
    intros (_ & _ & _ & _ & _ & _ & _ & _ & _ & _ & H) i j Hi Hj Hne. unfold div_momentum_flux. rewrite clat_sym by exact Hj.
    destruct (H i j Hi Hj Hne) as [-> ->]. cbn [nsub nmul ndiv RNum]. unfold Rdiv. ring.
  Qed.
  Lemma zonal_flux_even b : symmetric_fluxes c b -> even_map c (zonal_flux b).
  Proof. intros (_ & _ & H1 & H2 & H3 & _) i j Hi Hj. unfold zonal_flux. rewrite H1, H2, H3 by assumption. reflexivity. Qed.
  Lemma conv_even b : (2 <= p_nlon c)%nat -> symmetric_fluxes c b -> even_map c (conv_zonal_flux c b).
  Proof.
    intros Hl H i j Hi Hj. assert (Z := zonal_flux_even b H). destruct sizes as (S1 & S2 & _). unfold lon_ok, lat_ok in Hi, Hj.
    unfold conv_zonal_flux, zonal_convergence. rewrite clat_sym by exact Hj.
    assert (E : zonal_diff (p_nlon c) (fun j' i' => zonal_flux b (i' + 1)%nat (j' + 1)%nat) (n + 1 - j - 1) (i - 1) =
                zonal_diff (p_nlon c) (fun j' i' => zonal_flux b (i' + 1)%nat (j' + 1)%nat) (j - 1) (i - 1)).
    { unfold zonal_diff. replace (n + 1 - j - 1 + 1)%nat with (n + 1 - j)%nat by lia. replace (j - 1 + 1)%nat with j by lia.
      destruct (Nat.eqb_spec (i - 1) (p_nlon c - 1)); [|destruct (Nat.eqb_spec (i - 1) 0)]; rewrite !Z by (unfold lon_ok, lat_ok; lia); reflexivity. }
    rewrite E. reflexivity.
  Qed.
  Lemma phi_odd f r : symmetric_state c f -> symmetric_refs c r -> odd_map c (flux_vector_phi c f r).
  Proof.
    intros (Hu & Hv & _) (_ & Hr & _) i j Hi Hj. unfold flux_vector_phi. rewrite NF. destruct sizes as (S1 & S2 & _).
    unfold avg. rewrite !column_average_Sum.
    match goal with |- _ = - ?s => replace (- s) with (-1 * s) by ring end. rewrite <- Sum_scal.
    apply Sum_ext. intros k Hk. cbn [dims kmax] in Hk. cbn [Nat.add nopp nmul nsub RNum]. assert (Hk' : lev_ok c k) by (unfold lev_ok; lia).
    rewrite (Hu i j k Hi Hj Hk'), (Hv i j k Hi Hj Hk'), (Hr j k Hj Hk'). unfold lat_ok in Hj.
    destruct G as (_ & _ & _ & _ & Y). destruct (Y (j - 1)%nat ltac:(lia)) as [_ Y2].
    replace (n + 1 - j - 1)%nat with (n - 1 - (j - 1))%nat by lia. rewrite Y2. ring.
  Qed.

  (** terms with a vertical derivative *)
  Lemma z_der_mirror (mult : nat -> nat -> R) (tbd : nat -> nat -> nat -> R) t k j i : (2 <= p_kmax c)%nat -> (k < p_kmax c)%nat ->
    (forall k', (k' < p_kmax c)%nat -> mult k' (n - 1 - j)%nat = - mult k' j) ->
    (forall k', (k' < p_kmax c)%nat -> tbd k' (n - 1 - j)%nat i = t * tbd k' j i) ->
    @z_der R RNum (p_kmax c) (p_dz c) mult tbd k (n - 1 - j) i = - t * @z_der R RNum (p_kmax c) (p_dz c) mult tbd k j i.
  Proof.
    intros K Hk M T. unfold z_der. cbn [nmul nsub ndiv nofZ RNum]. unfold Rdiv.
    destruct (Nat.eqb_spec k (p_kmax c - 1)); [|destruct (Nat.eqb_spec k 0)]; rewrite !M, !T by lia; ring.
  Qed.
  Lemma stab_mirror (st : nat -> R) k j : (j < n)%nat -> @stability_temp R RNum e st st k (n - 1 - j) = @stability_temp R RNum e st st k j.
  Proof.
    intros Hj. destruct sizes as (S1 & S2 & _). unfold stability_temp. cbn [nmul none nofZ ndiv nadd RNum].
    repeat match goal with |- context [Nat.ltb ?a ?b] => destruct (Nat.ltb_spec a b) end;
    repeat match goal with |- context [Nat.eqb ?a ?b] => destruct (Nat.eqb_spec a b) end; try lia; lra.
  Qed.
  Lemma coriolis_mirror k j : (j < n)%nat ->
    2 * p_om c * sin (@deg2rad R RNum (p_ylat c (n - 1 - j))) * exp (p_height c k / p_h c) = - (2 * p_om c * sin (@deg2rad R RNum (p_ylat c j)) * exp (p_height c k / p_h c)).
  Proof.
    intros Hj. destruct G as (_ & _ & _ & _ & Y). destruct (Y j Hj) as [-> _]. unfold deg2rad. cbn [nmul ndiv nofZ npi RNum].
    replace (- p_ylat c j * (PI / 180)) with (- (p_ylat c j * (PI / 180))) by ring. rewrite sin_neg. ring.
  Qed.
  Lemma z_prod_some (sn ss : nat -> R) dd gf mult : (2 <= p_kmax c)%nat ->
    @z_derivative_of_prod R RNum sn ss (p_kmax c) n e (p_dz c) dd gf mult =
    Some (@z_der R RNum (p_kmax c) (p_dz c) mult (@to_be_diff R RNum (@stability_temp R RNum e sn ss) dd gf)).
  Proof.
    intros K. destruct sizes as (S1 & S2 & _). unfold z_derivative_of_prod.
    replace (Nat.eqb n (e - 1 + 1 + (e - 1))) with true by (symmetry; apply Nat.eqb_eq; lia).
    replace (Nat.leb 2 (p_kmax c)) with true by (symmetry; apply Nat.leb_le; lia). reflexivity.
  Qed.
  Lemma stretch_even f av r : (2 <= p_kmax c)%nat -> symmetric_state c f -> symmetric_refs c r -> (forall k, stat_s av k = stat_n av k) ->
    exists d, stretch_term c f av r = Some d /\ even_field c d.
  Proof.
    intros K (Hu & Hv & Ht) (_ & _ & Hp) Hs. assert (E : stat_s av = stat_n av) by (extensionality k; apply Hs).
    unfold stretch_term. rewrite z_prod_some by exact K. eexists. split; [reflexivity|].
    intros i j k Hi Hj Hk. cbn [option_map nopp RNum]. unfold lon_ok, lat_ok, lev_ok in *. f_equal. destruct sizes as (S1 & S2 & _).
    replace (n + 1 - j - 1)%nat with (n - 1 - (j - 1))%nat by lia. rewrite (z_der_mirror _ _ (-1)); try lia; [ring| |].
    - intros k' Hk'. cbn [nmul nofZ nsin nexp ndiv RNum]. apply coriolis_mirror. lia.
    - intros k' Hk'. unfold to_be_diff. rewrite E, stab_mirror by lia. rewrite NF. cbn [nmul nsub ndiv RNum].
      replace (n - 1 - (j - 1) + 1)%nat with (n + 1 - j)%nat by lia. replace (i - 1 + 1)%nat with i by lia. replace (j - 1 + 1)%nat with j by lia.
      rewrite Hv, Ht by (unfold lon_ok, lat_ok, lev_ok; lia). rewrite (Hp j) by (unfold lat_ok, lev_ok; lia).
      destruct G as (_ & _ & _ & _ & Y). destruct (Y (j - 1)%nat ltac:(lia)) as [_ ->]. unfold Rdiv. ring.
  Qed.
  Lemma heating_odd av (q : nat -> nat -> nat -> R) : (2 <= p_kmax c)%nat -> (forall k, stat_s av k = stat_n av k) ->
    (forall k j i, (k < p_kmax c)%nat -> (j < n)%nat -> (i < p_nlon c)%nat -> q k (n - 1 - j)%nat i = q k j i) ->
    exists d, ncforce_from_heating c av q = Some d /\
      forall k j i, (k < p_kmax c)%nat -> (j < n)%nat -> (i < p_nlon c)%nat -> d k (n - 1 - j)%nat i = - d k j i.
  Proof.
    intros K Hs Hq. assert (E : stat_s av = stat_n av) by (extensionality k; apply Hs).
    unfold ncforce_from_heating. rewrite z_prod_some by exact K. eexists. split; [reflexivity|].
    intros k j i Hk Hj Hi. rewrite (z_der_mirror _ _ 1); try lia; [ring| |].
    - intros k' Hk'. cbn [nmul nofZ nsin nexp ndiv RNum]. apply coriolis_mirror. lia.
    - intros k' Hk'. unfold to_be_diff. rewrite E, stab_mirror by lia. rewrite Hq by lia. ring.
  Qed.
End Mirror.

(** ** the PV of a symmetric state is odd, and its hemispheric means agree *)
Section SymmetricPv.
  Variable c : pconf R.
  Hypothesis G : symmetric_grid c.
  Local Notation n := (p_nlat c).
  Local Notation e := (p_eq c).
  Lemma mirror_clip x : even_field c x -> mirror n (clip3 c x) = clip3 c x.
  Proof.
    intros H. extensionality i. extensionality j. extensionality k. unfold mirror. destruct G as (S1 & S2 & _).
    destruct (clip3_cases c x i j k) as [(Hi & Hj & Hk & E)|E].
    - rewrite E. unfold lat_ok, lon_ok, lev_ok in *. unfold clip3.
      repeat match goal with |- context [Nat.leb ?a ?b] => destruct (Nat.leb_spec a b); try lia end. cbn. apply H; assumption.
    - unfold clip3 in *. repeat match goal with |- context [Nat.leb ?a ?b] => destruct (Nat.leb_spec a b); try lia; cbn [andb] end; try reflexivity.
      cbn [andb] in E. repeat match type of E with context [Nat.leb ?a ?b] => destruct (Nat.leb_spec a b); try lia; cbn [andb] in E end.
      rewrite H; [reflexivity|split; assumption|split; lia|split; assumption].
  Qed.
  Lemma mirror_clip_odd x : odd_field c x -> negated (mirror n (clip3 c x)) = clip3 c x.
  Proof.
    intros H. extensionality i. extensionality j. extensionality k. unfold negated, mirror. destruct G as (S1 & S2 & _).
    destruct (clip3_cases c x i j k) as [(Hi & Hj & Hk & E)|E].
    - rewrite E. unfold lat_ok, lon_ok, lev_ok in *. unfold clip3.
      repeat match goal with |- context [Nat.leb ?a ?b] => destruct (Nat.leb_spec a b); try lia end. cbn. rewrite H by assumption. ring.
    - rewrite E. unfold clip3 in *. repeat match goal with |- context [Nat.leb ?a ?b] => destruct (Nat.leb_spec a b); try lia; cbn [andb] end; try (cbn; ring).
      cbn [andb] in E. repeat match type of E with context [Nat.leb ?a ?b] => destruct (Nat.leb_spec a b); try lia; cbn [andb] in E end.
      rewrite H; [rewrite E; cbn; ring|split; assumption|split; lia|split; assumption].
  Qed.
  Lemma pv_nh18_odd f av : (2 <= p_nlon c)%nat -> symmetric_state c f -> odd_field c (pv_nh18 c f av).
  Proof.
    intros Hl (Hu & Hv & Ht) i j k Hi Hj Hk. destruct G as (S1 & S2 & _). unfold pv_nh18, lat_ok, lon_ok in *.
    rewrite <- (mirror_clip _ Hu), <- (mirror_clip _ Ht), <- (mirror_clip_odd _ Hv).
    assert (L : (3 <= n)%nat) by lia.
    rewrite (qgpv_nh18_mirror (p_nlon c) n (p_kmax c) (p_a c) (p_om c) (p_h c) (one_based (p_height c)) L Hl) by lia.
    replace (n + 1 - (n + 1 - j))%nat with j by lia. rewrite (mirror_clip _ Hu), (mirror_clip _ Ht), (mirror_clip_odd _ Hv). reflexivity.
  Qed.
  Lemma pv_nhn22_odd f av : (2 <= p_nlon c)%nat -> symmetric_state c f -> (forall k, ts0 av k = tn0 av k) -> (forall k, stat_s av k = stat_n av k) ->
    odd_field c (pv_nhn22 c f av).
  Proof.
    intros Hl (Hu & Hv & Ht) E1 E2 i j k Hi Hj Hk. destruct G as (S1 & S2 & _). unfold pv_nhn22, lat_ok, lon_ok in *.
    assert (F1 : ts0 av = tn0 av) by (extensionality x; apply E1). assert (F2 : stat_s av = stat_n av) by (extensionality x; apply E2). rewrite F1, F2.
    rewrite <- (mirror_clip _ Hu), <- (mirror_clip _ Ht), <- (mirror_clip_odd _ Hv).
    assert (L : (3 <= n)%nat) by lia.
    rewrite (qgpv_nhn22_mirror (p_nlon c) n (p_kmax c) (p_a c) (p_om c) (p_h c) (one_based (p_height c)) L Hl) by lia.
    replace (n + 1 - (n + 1 - j))%nat with j by lia. rewrite (mirror_clip _ Hu), (mirror_clip _ Ht), (mirror_clip_odd _ Hv). reflexivity.
  Qed.

  Lemma north_weights : rsum (p_jd c) (fun r => p_clat c (n - p_jd c + r)%nat) = csm c.
  Proof.
    destruct G as (S1 & S2 & S3 & S4 & Y). unfold csm. rewrite <- (rsum_rev (p_jd c) (p_clat c)). apply rsum_ext. intros r Hr.
    destruct (Y (p_jd c - 1 - r)%nat ltac:(lia)) as [_ Y2]. rewrite <- Y2. f_equal. lia.
  Qed.
  Lemma t0_symmetric theta : (forall j i, (j < n)%nat -> (i < p_nlon c)%nat -> theta (n - 1 - j)%nat i = theta j i) -> t0_south c theta = t0_north c theta.
  Proof.
    intros H. destruct G as (S1 & S2 & S3 & S4 & Y). unfold t0_south, t0_north. f_equal.
    rewrite <- (rsum_rev (p_jd c)). apply rsum_ext. intros r Hr. cbv zeta.
    replace (n - p_jd c + r)%nat with (n - 1 - (p_jd c - 1 - r))%nat by lia. destruct (Y (p_jd c - 1 - r)%nat ltac:(lia)) as [_ Y2]. rewrite Y2.
    f_equal. apply rsum_ext. intros i Hi. rewrite H by lia. reflexivity.
  Qed.
  Lemma t0_range theta m M : (1 <= p_nlon c)%nat -> (forall j, (j < n)%nat -> 0 <= p_clat c j) -> 0 < csm c ->
    (forall j i, (j < n)%nat -> (i < p_nlon c)%nat -> m <= theta j i <= M) -> m <= t0_south c theta <= M /\ m <= t0_north c theta <= M.
  Proof.
    intros Hl Hc Hs H. destruct G as (S1 & S2 & S3 & S4 & Y).
    assert (L : 0 < INR (p_nlon c)) by (apply lt_0_INR; lia).
    assert (Z : forall j, (j < n)%nat -> m * p_clat c j <= rsum (p_nlon c) (fun i => theta j i * p_clat c j) / INR (p_nlon c) <= M * p_clat c j).
    { intros j Hj. rewrite rsum_scal_r.
      assert (B : INR (p_nlon c) * m <= rsum (p_nlon c) (theta j) <= INR (p_nlon c) * M).
      { split.
        - rewrite <- rsum_const. apply rsum_le. intros i Hi. apply H; assumption.
        - rewrite <- rsum_const. apply rsum_le. intros i Hi. apply H; assumption. }
      assert (C := Hc j Hj).
      replace (rsum (p_nlon c) (theta j) * p_clat c j / INR (p_nlon c)) with (rsum (p_nlon c) (theta j) / INR (p_nlon c) * p_clat c j) by (unfold Rdiv; ring).
      split; apply Rmult_le_compat_r; try exact C.
      - apply Rmult_le_reg_r with (INR (p_nlon c)); [exact L|]. replace (rsum (p_nlon c) (theta j) / INR (p_nlon c) * INR (p_nlon c)) with (rsum (p_nlon c) (theta j)) by (field; lra). lra.
      - apply Rmult_le_reg_r with (INR (p_nlon c)); [exact L|]. replace (rsum (p_nlon c) (theta j) / INR (p_nlon c) * INR (p_nlon c)) with (rsum (p_nlon c) (theta j)) by (field; lra). lra. }
    assert (Q : forall s, m * csm c <= s <= M * csm c -> m <= s / csm c <= M).
    { intros s [A B]. split; apply Rmult_le_reg_r with (csm c); try exact Hs; replace (s / csm c * csm c) with s by (field; lra); assumption. }
    split.
    - unfold t0_south. apply Q. unfold csm. rewrite <- !rsum_scal. split; apply rsum_le; intros j Hj; rewrite ?nofnat_INR; apply Z; lia.
    - unfold t0_north. apply Q. rewrite <- north_weights, <- !rsum_scal. split; apply rsum_le; intros j Hj; cbv zeta; rewrite ?nofnat_INR; apply Z; lia.
  Qed.
End SymmetricPv.

(** ** northern_hemisphere_results_only *)
Section Flag.
  Variable c : pconf R.
  Hypothesis G : symmetric_grid c.
  Local Notation n := (p_nlat c).
  Local Notation e := (p_eq c).
  Local Notation c1 := (with_flag c true).
  Local Notation c0 := (with_flag c false).

  Lemma sizesF : (2 <= e)%nat /\ n = (2 * e - 1)%nat /\ (p_jb c < e)%nat /\ p_jd c = (e - p_jb c)%nat.
  Proof. destruct G as (A & B & C & D & _). auto. Qed.
  Lemma equator : p_ylat c (e - 1)%nat = 0.
  Proof.
    destruct sizesF as (S1 & S2 & _). destruct G as (_ & _ & _ & _ & Y). destruct (Y (e - 1)%nat ltac:(lia)) as [H _].
    replace (n - 1 - (e - 1))%nat with (e - 1)%nat in H by lia. lra.
  Qed.
  Lemma set_n1 m old v r : (1 <= m <= e)%nat -> set_nhem c1 m old v r = if Nat.leb r (e - m) then old r else v (r - (e - m))%nat.
  Proof. reflexivity. Qed.
  Lemma set_n0 m old v r : (1 <= m <= e)%nat -> (2 <= r <= e)%nat ->
    set_shem m (set_nhem c0 m old v) v (e - 1 + r)%nat = if Nat.leb r (e - m) then old (e - 1 + r)%nat else v (r - (e - m))%nat.
  Proof.
    intros Hm Hr. destruct sizesF as (S1 & S2 & _). unfold set_shem, set_nhem. cbn [rows with_flag p_nh p_nlat p_eq].
    destruct (Nat.leb_spec (e - 1 + r) m); [lia|]. unfold rows. cbn [with_flag p_nh p_nlat].
    destruct (Nat.leb_spec (e - 1 + r) (n - m)); destruct (Nat.leb_spec r (e - m)); try lia; [reflexivity|]. f_equal. lia.
  Qed.
  Lemma set_north m old1 old0 v w r : (1 <= m <= e)%nat -> (2 <= r <= e)%nat -> old1 r = old0 (e - 1 + r)%nat ->
    set_nhem c1 m old1 v r = set_shem m (set_nhem c0 m old0 v) w (e - 1 + r)%nat.
  Proof.
    intros Hm Hr Ho. destruct sizesF as (S1 & S2 & _). unfold set_shem, set_nhem, rows. cbn [with_flag p_nh p_nlat p_eq].
    destruct (Nat.leb_spec (e - 1 + r) m); [lia|].
    destruct (Nat.leb_spec (e - 1 + r) (n - m)); destruct (Nat.leb_spec r (e - m)); try lia; [exact Ho|]. f_equal. lia.
  Qed.
  Lemma store_north_same mq m old1 old0 v w : (1 <= mq <= e)%nat -> (1 <= m <= e)%nat -> same_north_refs c old1 old0 ->
    same_north_refs c (store_north c1 mq m old1 v) (store_south mq m (store_north c0 mq m old0 v) w).
  Proof.
    intros Hq Hm (O1 & O2 & O3). split; [|split]; intros r k Hr Hk; cbn [store_south store_north qref_ uref_ ptref_].
    - apply (set_north mq (fun j => qref_ old1 j k) (fun j => qref_ old0 j k)); auto.
    - apply (set_north m (fun j => uref_ old1 j k) (fun j => uref_ old0 j k)); auto.
    - apply (set_north m (fun j => ptref_ old1 j k) (fun j => ptref_ old0 j k)); auto.
  Qed.
  Lemma refs_nh18_same solver qgpv f old1 old0 : same_north_refs c old1 old0 ->
    same_north_refs c (refs_nh18 c1 solver qgpv f old1) (refs_nh18 c0 solver qgpv f old0).
  Proof. intros Ho. destruct sizesF as (S1 & _). unfold refs_nh18. cbn [with_flag p_nh]. apply store_north_same; cbn [with_flag p_eq]; auto; lia. Qed.
  Lemma refs_nhn22_same inv qgpv av_ f av old1 old0 : same_north_refs c old1 old0 ->
    same_north_refs c (refs_nhn22 c1 inv qgpv av_ f av old1) (refs_nhn22 c0 inv qgpv av_ f av old0).
  Proof.
    intros Ho. destruct sizesF as (S1 & S2 & S3 & S4). unfold refs_nhn22. cbn [with_flag p_nh].
    apply store_north_same; cbn [with_flag p_eq p_jd]; auto; lia.
  Qed.
  (** with a boundary off the equator the equatorial row is never written *)
  Lemma refs_nhn22_equator inv qgpv av_ f av old1 old0 : (1 <= p_jb c)%nat -> same_equatorial_wind c old1 old0 ->
    same_equatorial_wind c (refs_nhn22 c1 inv qgpv av_ f av old1) (refs_nhn22 c0 inv qgpv av_ f av old0).
  Proof.
    intros Hb Ho k Hk. destruct sizesF as (S1 & S2 & S3 & S4). unfold refs_nhn22. cbn [with_flag p_nh store_north store_south uref_ p_jd p_eq].
    unfold set_shem, set_nhem, rows. cbn [with_flag p_nh p_nlat p_eq].
    destruct (Nat.leb_spec 1 (e - p_jd c)); [|lia]. destruct (Nat.leb_spec e (p_jd c)); [lia|]. destruct (Nat.leb_spec e (n - p_jd c)); [|lia].
    apply Ho. exact Hk.
  Qed.
  Lemma refs_nh18_equator (solver : arr3 R -> arr3 R -> arr3 R -> refstate R) qgpv f old1 old0 :
    (forall k, lev_ok c k ->
       uref_ (solver (clip3 c qgpv) (clip3 c (u_ f)) (clip3 c (theta_ f))) 1%nat k =
       uref_ (solver (clip3 c (neg3 (flip3 c qgpv))) (clip3 c (flip3 c (u_ f))) (clip3 c (flip3 c (theta_ f)))) 1%nat k) ->
    same_equatorial_wind c (refs_nh18 c1 solver qgpv f old1) (refs_nh18 c0 solver qgpv f old0).
  Proof.
    intros H k Hk. destruct sizesF as (S1 & S2 & S3 & S4). unfold refs_nh18. cbn [with_flag p_nh store_north store_south uref_ p_eq].
    unfold set_shem, set_nhem, rows. cbn [with_flag p_nh p_nlat p_eq]. replace (e - e)%nat with 0%nat by lia. cbn [Nat.leb Nat.sub].
    rewrite Nat.leb_refl. replace (e + 1 - e)%nat with 1%nat by lia. exact (H k Hk).
  Qed.

  Section Results.
    Variables (qgpv : arr3 R) (f : fields R) (nc : arr3 R) (av : averages R) (r1 r0 : refstate R).
    Hypothesis Hr : same_north_refs c r1 r0.
    Local Notation N1 := (north_args c1 qgpv f nc av r1).
    Local Notation N0 := (north_args c0 qgpv f nc av r0).
    Local Notation S1' := (south_args c1 qgpv f nc av r1).
    Local Notation S0' := (south_args c0 qgpv f nc av r0).

    Lemma qref_arg_same : clip2 c1 e (last_rows c1 e (qref_correct_unit c1 r1)) = clip2 c0 e (last_rows c0 e (qref_correct_unit c0 r0)).
    Proof.
      unfold clip2. cbn [with_flag p_kmax]. change (clip2 c e (last_rows c1 e (qref_correct_unit c1 r1)) = clip2 c e (last_rows c0 e (qref_correct_unit c0 r0))).
      apply clip2_ext. intros j k Hj Hk. destruct sizesF as (S1 & S2 & _). unfold last_rows, qref_correct_unit, rows. cbn [with_flag p_nh p_nlat p_eq p_om p_ylat].
      replace (e - e + j)%nat with j by lia. replace (n - e + j - 1)%nat with (n - e + (j - 1))%nat by lia. replace (n - e + j)%nat with (e - 1 + j)%nat by lia.
      destruct (Nat.eq_dec j 1) as [->|D].
      - replace (n - e + (1 - 1))%nat with (e - 1)%nat by lia. rewrite equator. unfold deg2rad. cbn [nmul nsin RNum]. rewrite !Rmult_0_l, sin_0. ring.
      - destruct Hr as (H & _). rewrite (H j k) by (assumption || lia). reflexivity.
    Qed.
    Hypothesis Hw : p_jb c = 0%nat -> same_equatorial_wind c r1 r0.
    Lemma uref_arg_same : i_uref N1 = i_uref N0.
    Proof.
      cbn [north_args i_uref with_flag p_jd]. change (clip2 c (p_jd c) (last_rows c1 (p_jd c) (uref_ r1)) = clip2 c (p_jd c) (last_rows c0 (p_jd c) (uref_ r0))).
      apply clip2_ext. intros j k Hj Hk. destruct sizesF as (S1 & S2 & S3 & S4). unfold last_rows, rows. cbn [with_flag p_nh p_nlat p_eq].
      replace (n - p_jd c + j)%nat with (e - 1 + (e - p_jd c + j))%nat by lia.
      destruct (Nat.eq_dec (e - p_jd c + j) 1) as [E|D].
      - rewrite E. replace (e - 1 + 1)%nat with e by lia. apply Hw; [lia|exact Hk].
      - destruct Hr as (_ & H & _). apply H; [lia|exact Hk].
    Qed.
    Lemma tref_arg_same j k : (2 <= p_jb c + j)%nat -> i_tref N1 j k = i_tref N0 j k.
    Proof.
      intros Hj. cbn [north_args i_tref with_flag p_jd]. unfold clip2. cbn [with_flag p_kmax]. destruct (_ && _) eqn:E; [|reflexivity].
      apply andb_true_iff in E. destruct E as [E E4]. apply andb_true_iff in E. destruct E as [E E3]. apply andb_true_iff in E. destruct E as [E1 E2].
      apply Nat.leb_le in E1, E2, E3, E4. destruct sizesF as (S1 & S2 & S3 & S4). unfold last_rows, rows. cbn [with_flag p_nh p_nlat p_eq].
      replace (n - p_jd c + j)%nat with (e - 1 + (e - p_jd c + j))%nat by lia. destruct Hr as (_ & _ & H). apply H; unfold lev_ok; lia.
    Qed.

    Lemma glob2_same x1 y1 x0 y0 : (forall i r, (2 <= r <= e)%nat -> x1 i r = x0 i r) -> same_north2 c (global2 c1 x1 y1) (global2 c0 x0 y0).
    Proof.
      intros H i r Hi Hr'. destruct sizesF as (S1 & S2 & _). unfold global2. cbn [with_flag p_nh p_eq].
      rewrite (set_north e (fun _ => nzero) (fun _ => nzero) (fun r => x1 i r) (fun r => y0 i r) r) by (auto; lia).
      unfold set_shem, set_nhem, rows. cbn [with_flag p_nh p_nlat]. destruct (Nat.leb_spec (e - 1 + r) e); [lia|].
      destruct (Nat.leb_spec (e - 1 + r) (n - e)); [lia|]. apply H. lia.
    Qed.
    Lemma glob3_same x1 y1 x0 y0 : (forall i r k, (2 <= r <= e)%nat -> x1 i r k = x0 i r k) -> same_north3 c (global3 c1 x1 y1) (global3 c0 x0 y0).
    Proof.
      intros H i r k Hi Hr' Hk. destruct sizesF as (S1 & S2 & _). unfold global3. cbn [with_flag p_nh p_eq].
      rewrite (set_north e (fun _ => nzero) (fun _ => nzero) (fun r => x1 i r k) (fun r => y0 i r k) r) by (auto; lia).
      unfold set_shem, set_nhem, rows. cbn [with_flag p_nh p_nlat]. destruct (Nat.leb_spec (e - 1 + r) e); [lia|].
      destruct (Nat.leb_spec (e - 1 + r) (n - e)); [lia|]. apply H. lia.
    Qed.

    Local Notation D := (dims c).
    Lemma ep1_same i r k : (2 <= r)%nat -> k_ep1 c1 N1 i r k = k_ep1 c0 N0 i r k.
    Proof.
      intros Hr'. unfold k_ep1. rewrite uref_arg_same.
      change (@ep1 R RNum D (i_uu N0) (i_vv N0) (i_pt N0) (one_based (tn0 av)) (i_uref N0) (i_tref N1) i r k = @ep1 R RNum D (i_uu N0) (i_vv N0) (i_pt N0) (one_based (tn0 av)) (i_uref N0) (i_tref N0) i r k).
      unfold ep1, fill. destruct (analysed D r k) eqn:E; [|reflexivity]. apply analysed_true in E. destruct E as [E1 E2].
      unfold analysed_row, interior_level in *. cbn [dims is_nhem jb nd kmax] in E1, E2. destruct sizesF as (S1 & S2 & S3 & S4).
      cbv zeta. unfold uref_row. cbn [dims is_nhem jb jd]. rewrite !(rd2_in (p_jd c) (i_tref _)) by lia. rewrite (tref_arg_same (r - p_jb c) k) by lia. reflexivity.
    Qed.
    Lemma ep4_same i r : (2 <= r)%nat -> k_ep4 c1 N1 i r = k_ep4 c0 N0 i r.
    Proof.
      intros Hr'. unfold k_ep4.
      change (@ep4 R RNum D (i_vv N0) (i_pt N0) (one_based (tn0 av)) (i_tref N1) i r = @ep4 R RNum D (i_vv N0) (i_pt N0) (one_based (tn0 av)) (i_tref N0) i r).
      unfold ep4. destruct (analysed D r 2) eqn:E; [|reflexivity]. apply analysed_true in E. destruct E as [E1 E2].
      unfold analysed_row, interior_level in *. cbn [dims is_nhem jb nd kmax] in E1, E2. destruct sizesF as (S1 & S2 & S3 & S4).
      cbv zeta. unfold uref_row. cbn [dims is_nhem jb jd]. rewrite !(rd2_in (p_jd c) (i_tref _)) by lia.
      rewrite (tref_arg_same (r - p_jb c) 1), (tref_arg_same (r - p_jb c) 2) by lia. reflexivity.
    Qed.
    Lemma k_same : k_astar1 c1 N1 = k_astar1 c0 N0 /\ k_astar2 c1 N1 = k_astar2 c0 N0 /\ k_ncforce c1 N1 = k_ncforce c0 N0 /\
      k_ua1 c1 N1 = k_ua1 c0 N0 /\ k_ua2 c1 N1 = k_ua2 c0 N0 /\ k_ep2 c1 N1 = k_ep2 c0 N0 /\ k_ep3 c1 N1 = k_ep3 c0 N0.
    Proof.
      assert (Q : i_qref N1 = i_qref N0) by exact qref_arg_same.
      unfold k_astar1, k_astar2, k_ncforce, k_ua1, k_ua2, k_ep2, k_ep3. rewrite uref_arg_same, Q. repeat split.
    Qed.
    Lemma avg_same x i j : avg c1 x i j = avg c0 x i j. Proof. reflexivity. Qed.
    Lemma avg_ext x y i j : (forall k, x i j k = y i j k) -> avg c1 x i j = avg c0 y i j.
    Proof. intros H. unfold avg. rewrite !column_average_Sum. apply Sum_ext. intros k _. rewrite H. reflexivity. Qed.

    Lemma barotropic_same : same_north_fluxes c (barotropic_terms c1 N1 S1') (barotropic_terms c0 N0 S0').
    Proof.
      destruct k_same as (E1 & E2 & E3 & E4 & E5 & E6 & E7).
      unfold same_north_fluxes. cbn [barotropic_terms b_lwa b_u b_ua1 b_ua2 b_ep1 b_ep2 b_ep3 b_ep4 b_astar1 b_astar2 b_nc b_lwa3].
      repeat (split; [apply glob2_same; intros i r Hr'|]); [| | | | | | | | | | |apply glob3_same; intros i r k Hr'].
      - unfold k_lwa_baro. rewrite E1, E2. reflexivity.
      - reflexivity.
      - rewrite E4. reflexivity.
      - rewrite E5. reflexivity.
      - apply avg_ext. intros k. apply ep1_same. lia.
      - rewrite E6. reflexivity.
      - rewrite E7. reflexivity.
      - apply ep4_same. lia.
      - rewrite E1. reflexivity.
      - rewrite E2. reflexivity.
      - rewrite E3. reflexivity.
      - rewrite E1, E2. reflexivity.
    Qed.
    Lemma layerwise_same : same_north_layers c (layerwise_terms c1 N1 S1') (layerwise_terms c0 N0 S0').
    Proof.
      destruct k_same as (E1 & E2 & E3 & E4 & E5 & E6 & E7).
      unfold same_north_layers. cbn [layerwise_terms l_lwa l_astar1 l_astar2 l_nc l_ua1 l_ua2 l_ep1 l_ep2 l_ep3 l_ep4].
      split. { intros i r k Hi Hr' Hk. cbn [nadd RNum]. f_equal; apply glob3_same; auto; intros; [rewrite E1|rewrite E2]; reflexivity. }
      repeat (split; [apply glob3_same; intros i r k Hr'|]); [| | | | | | | |apply glob2_same; intros i r Hr'].
      - rewrite E1. reflexivity.
      - rewrite E2. reflexivity.
      - rewrite E3. reflexivity.
      - rewrite E4. reflexivity.
      - rewrite E5. reflexivity.
      - apply ep1_same. lia.
      - rewrite E6. reflexivity.
      - rewrite E7. reflexivity.
      - apply ep4_same. lia.
    Qed.
    Lemma lwa_only_same : same_north_lwa_only c (lwa_only c1 qgpv f r1) (lwa_only c0 qgpv f r0).
    Proof.
      assert (Q := qref_arg_same). unfold same_north_lwa_only. cbn [lwa_only o_lwa_baro o_u_baro o_lwa o_astar1 o_astar2 with_flag p_eq].
      change (p_eq c1) with e. change (p_eq c0) with e. rewrite Q.
      split; [apply glob2_same; intros; reflexivity|]. split; [apply glob2_same; intros; reflexivity|]. split; [apply glob3_same; intros; reflexivity|].
      destruct sizesF as (S1 & S2 & _).
      split; intros i r k Hi Hr' Hk; unfold set_nhem, rows; cbn [with_flag p_nh p_nlat p_eq];
        (destruct (Nat.leb_spec (e - 1 + r) (n - e)); [lia|]); (destruct (Nat.leb_spec r (e - e)); [lia|]);
        replace (e - 1 + r - (n - e))%nat with (r - (e - e))%nat by lia; reflexivity.
    Qed.
    Lemma out_clat_same r : (1 <= r <= e)%nat -> out_clat c1 (r - 1) = out_clat c0 (e - 1 + r - 1).
    Proof. intros Hr'. destruct sizesF as (S1 & S2 & _). unfold out_clat. cbn [with_flag p_nh p_nlat p_eq p_clat]. f_equal. lia. Qed.
    Lemma div_same b1 b0 : same_north_fluxes c b1 b0 -> same_north2 c (div_momentum_flux c1 b1) (div_momentum_flux c0 b0).
    Proof.
      intros (_ & _ & _ & _ & _ & H2 & H3 & _) i r Hi Hr'. unfold div_momentum_flux. rewrite (H2 i r), (H3 i r), out_clat_same by (assumption || lia). reflexivity.
    Qed.
    Lemma zflux_same b1 b0 : same_north_fluxes c b1 b0 -> same_north2 c (zonal_flux b1) (zonal_flux b0).
    Proof. intros (_ & _ & H1 & H2 & H3 & _) i r Hi Hr'. unfold zonal_flux. rewrite (H1 i r), (H2 i r), (H3 i r) by assumption. reflexivity. Qed.
    Lemma conv_same b1 b0 : (2 <= p_nlon c)%nat -> same_north_fluxes c b1 b0 -> same_north2 c (conv_zonal_flux c1 b1) (conv_zonal_flux c0 b0).
    Proof.
      intros Hl H i r Hi Hr'. assert (Z := zflux_same _ _ H). destruct sizesF as (S1 & S2 & _). unfold lon_ok in Hi.
      unfold conv_zonal_flux, zonal_convergence. rewrite out_clat_same by lia. cbn [with_flag p_nlon p_dlambda p_a p_tol].
      assert (E : zonal_diff (p_nlon c) (fun j' i' => zonal_flux b1 (i' + 1)%nat (j' + 1)%nat) (r - 1) (i - 1) =
                  zonal_diff (p_nlon c) (fun j' i' => zonal_flux b0 (i' + 1)%nat (j' + 1)%nat) (e - 1 + r - 1) (i - 1)).
      { unfold zonal_diff. replace (e - 1 + r - 1 + 1)%nat with (e - 1 + r)%nat by lia. replace (r - 1 + 1)%nat with r by lia.
        destruct (Nat.eqb_spec (i - 1) (p_nlon c - 1)); [|destruct (Nat.eqb_spec (i - 1) 0)];
          rewrite !(Z _ r) by (assumption || (unfold lon_ok; lia)); reflexivity. }
      rewrite E. reflexivity.
    Qed.
    Lemma phi_same : same_north2 c (flux_vector_phi c1 f r1) (flux_vector_phi c0 f r0).
    Proof.
      intros i r Hi Hr'. destruct sizesF as (S1 & S2 & _). unfold flux_vector_phi, avg. rewrite !column_average_Sum.
      apply Sum_ext. intros k Hk. cbn [dims kmax with_flag p_kmax p_nh p_eq p_clat p_height p_h p_dz p_prefac f_h f_dz f_prefac] in *.
      destruct Hr as (_ & H & _). rewrite (H r k) by (assumption || (unfold lev_ok; lia)).
      cbn [Nat.add]. replace (0 + (e - 1 + r))%nat with (e - 1 + r)%nat by lia. reflexivity.
    Qed.
    Lemma stretch_same : (2 <= p_kmax c)%nat -> exists d1 d0, stretch_term c1 f av r1 = Some d1 /\ stretch_term c0 f av r0 = Some d0 /\
      forall i r k, lon_ok c i -> (1 <= r <= e)%nat -> lev_ok c k -> d1 i (e - 1 + r)%nat k = d0 i (e - 1 + r)%nat k.
    Proof.
      intros K. destruct sizesF as (S1 & S2 & _). unfold stretch_term. cbn [with_flag p_kmax p_nlat p_eq p_dz p_nh p_height p_h p_om p_ylat p_clat].
      unfold z_derivative_of_prod.
      replace (Nat.eqb n (e - 1 + 1 + (e - 1))) with true by (symmetry; apply Nat.eqb_eq; lia).
      replace (Nat.leb 2 (p_kmax c)) with true by (symmetry; apply Nat.leb_le; lia). cbn [andb option_map].
      eexists. eexists. split; [reflexivity|]. split; [reflexivity|]. intros i r k Hi Hr' Hk. unfold lon_ok, lev_ok in *. f_equal.
      destruct (Nat.eq_dec r 1) as [->|D'].
      - replace (e - 1 + 1 - 1)%nat with (e - 1)%nat by lia. unfold z_der. rewrite equator. unfold deg2rad. cbn [nmul nsub ndiv nofZ nsin nexp RNum].
        rewrite !Rmult_0_l, sin_0. unfold Rdiv. rewrite !Rmult_0_r, !Rmult_0_l, !Rmult_0_r. reflexivity.
      - assert (T : forall k', (k' < p_kmax c)%nat ->
          (if Nat.leb (e - 1 + r - 1 + 1) (n - e) then nzero else ptref_ r1 (e - 1 + r - 1 + 1 - (n - e))%nat (k' + 1)%nat) = ptref_ r0 (e - 1 + r - 1 + 1)%nat (k' + 1)%nat).
        { intros k' Hk'. destruct (Nat.leb_spec (e - 1 + r - 1 + 1) (n - e)); [lia|]. destruct Hr as (_ & _ & H').
          replace (e - 1 + r - 1 + 1 - (n - e))%nat with r by lia. rewrite (H' r) by (unfold lev_ok; lia). f_equal. lia. }
        unfold z_der, to_be_diff.
        destruct (Nat.eqb_spec (k - 1) (p_kmax c - 1)); [|destruct (Nat.eqb_spec (k - 1) 0)]; rewrite !T by lia; reflexivity.
    Qed.
  End Results.
End Flag.

(** ** the two ways to compute LWA agree *)
Section LwaPaths.
  Variable c : pconf R.
  Hypothesis G : symmetric_grid c.
  Hypothesis Hlon : (1 <= p_nlon c)%nat.
  Hypothesis Ha : 0 <= p_a c.
  Local Notation D := (dims c).

  Lemma D_sizes : jmax D = (2 * nd D - 1)%nat /\ (2 <= nd D)%nat.
  Proof. destruct G as (A & B & _). split; assumption. Qed.
  Lemma astar_nonneg pv qref i j k : 0 <= @astar1 R RNum D pv qref i j k /\ 0 <= @astar2 R RNum D pv qref i j k.
  Proof.
    destruct D_sizes as [S1 S2].
    assert (Dec : (analysed_row D j /\ interior_level D k) \/ ~ (analysed_row D j /\ interior_level D k)).
    { unfold analysed_row, interior_level. cbn [dims is_nhem]. lia. }
    destruct Dec as [[Hj Hk]|H].
    - destruct (astar_in D pv qref i j k Hj Hk) as [-> ->]. assert (Hj' := analysed_row_nd D j Hj). cbn [dims is_nhem].
      split; [apply high_pv_south_nonneg | apply low_pv_north_nonneg]; auto; lia.
    - destruct (astar_out D pv qref i j k H) as [-> ->]. lra.
  Qed.
  Lemma lwa3_same qgpv f nc av r : forall i j k,
    o_lwa (lwa_only c qgpv f r) i j k = b_lwa3 (barotropic_terms c (north_args c qgpv f nc av r) (south_args c qgpv f nc av r)) i j k.
  Proof.
    intros i j k. cbn [lwa_only barotropic_terms o_lwa b_lwa3]. unfold global3.
    assert (E : forall pv q i j k, @nabs R RNum (lo_astar1 D pv q i j k + lo_astar2 D pv q i j k) = nabs (astar1 D pv q i j k + astar2 D pv q i j k)).
    { intros. rewrite lo_astar1_eq, lo_astar2_eq. reflexivity. }
    unfold set_shem, set_nhem. cbn [nadd RNum] in *. destruct (p_nh c); repeat destruct (Nat.leb _ _); rewrite ?E; reflexivity.
  Qed.
  Lemma lwa3_layerwise_same qgpv f nc av r : forall i j k,
    l_lwa (layerwise_terms c (north_args c qgpv f nc av r) (south_args c qgpv f nc av r)) i j k =
    b_lwa3 (barotropic_terms c (north_args c qgpv f nc av r) (south_args c qgpv f nc av r)) i j k.
  Proof.
    intros i j k. cbn [layerwise_terms barotropic_terms l_lwa b_lwa3]. unfold global3, k_astar1, k_astar2, set_shem, set_nhem. cbn [nabs nadd nzero RNum].
    assert (E : forall pv q i j k, Rabs (@astar1 R RNum D pv q i j k + @astar2 R RNum D pv q i j k) = @astar1 R RNum D pv q i j k + @astar2 R RNum D pv q i j k).
    { intros. apply Rabs_right. destruct (astar_nonneg pv q i0 j0 k0). lra. }
    destruct (p_nh c); repeat destruct (Nat.leb _ _); rewrite ?E; lra.
  Qed.
  Lemma lwa_baro_same qgpv f nc av r : (forall k, p_height c k = INR k * p_dz c) -> forall i j,
    o_lwa_baro (lwa_only c qgpv f r) i j = b_lwa (barotropic_terms c (north_args c qgpv f nc av r) (south_args c qgpv f nc av r)) i j.
  Proof.
    intros Hh i j. cbn [lwa_only barotropic_terms o_lwa_baro b_lwa]. unfold global2.
    assert (E : forall x, k_lwa_baro c x = lo_astarbaro D (i_pv x) (i_qref x)).
    { intros x. extensionality i'. extensionality j'. change (k_lwa_baro c x i' j') with (@py_astar_baro R RNum D (p_height c) (i_pv x) (i_qref x) i' j').
      replace (p_height c) with (fun k => 0 + INR k * f_dz D) by (extensionality k; rewrite Hh; cbn [dims f_dz]; ring).
      rewrite py_astar_baro_Sum. unfold Rdiv. rewrite Ropp_0, Rmult_0_l, exp_0. ring. }
    rewrite !E. reflexivity.
  Qed.
  Lemma lwa_baro_nonneg n s : 0 <= p_dz c -> 0 < p_prefac c -> forall i j, 0 <= b_lwa (barotropic_terms c n s) i j.
  Proof.
    intros Hz Hp i j. cbn [barotropic_terms b_lwa]. unfold global2.
    assert (P : forall x i j, 0 <= k_lwa_baro c x i j).
    { intros x i' j'. unfold k_lwa_baro, avg. rewrite !column_average_Sum.
      assert (W : 0 <= f_dz D / f_prefac D). { cbn [dims f_dz f_prefac]. apply Rmult_le_pos; [exact Hz|]. apply Rlt_le, Rinv_0_lt_compat; exact Hp. }
      apply Rplus_le_le_0_compat; apply Sum_nonneg; intros k _; (apply Rmult_le_pos; [|exact W]); (apply Rmult_le_pos; [|apply Rlt_le, exp_pos]);
        unfold k_astar1, k_astar2; destruct (astar_nonneg (i_pv x) (i_qref x) i' j' k); assumption. }
    unfold set_shem, set_nhem. cbn [nzero RNum]. destruct (p_nh c); repeat destruct (Nat.leb _ _); auto; lra.
  Qed.
  Lemma lwa_only_parts_north qgpv f r i j k : (rows c - p_eq c < j)%nat -> (p_nh c = false -> (p_eq c < j)%nat) ->
    o_astar1 (lwa_only c qgpv f r) i j k + o_astar2 (lwa_only c qgpv f r) i j k = o_lwa (lwa_only c qgpv f r) i j k.
  Proof.
    intros H1 H2. cbn [lwa_only o_astar1 o_astar2 o_lwa]. unfold global3, set_shem, set_nhem. rewrite !lo_astar1_eq, !lo_astar2_eq.
    destruct (Nat.leb_spec j (rows c - p_eq c)); [lia|]. cbn [nabs nadd RNum].
    set (x := @astar1 R RNum D _ _ _ _ _). set (y := @astar2 R RNum D _ _ _ _ _).
    assert (E : Rabs x + Rabs y = Rabs (x + y)).
    { unfold x, y. match goal with |- Rabs (astar1 D ?pv ?q ?i ?j ?k) + _ = _ => destruct (astar_nonneg pv q i j k) end. rewrite !Rabs_right by lra. reflexivity. }
    destruct (p_nh c).
    - exact E.
    - destruct (Nat.leb_spec j (p_eq c)); [specialize (H2 eq_refl); lia|]. exact E.
  Qed.
End LwaPaths.
