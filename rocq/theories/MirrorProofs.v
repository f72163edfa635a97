(** Proofs: the two hemispheric calls for a mirrored state are those for the state itself, exchanged. *)
From Verif Require Import Base BaseFacts Spec SpecFacts Flux FluxSpec FluxProofs Utilities UtilitiesProofs Qgpv QgpvSpec QgpvProofs Pipeline PipelineSpec PipelineProofs DirInv MirrorSpec.
From Coq Require Import FunctionalExtensionality.
Open Scope R_scope.

Section Image.
  Variable c : pconf R.
  Hypothesis G : symmetric_grid c.
  Hypothesis NF : p_nh c = false.
  Local Notation n := (p_nlat c).
  Local Notation e := (p_eq c).

  Lemma szs : (2 <= e)%nat /\ n = (2 * e - 1)%nat /\ (p_jb c < e)%nat /\ p_jd c = (e - p_jb c)%nat.
  Proof. destruct G as (A & B & C & D & _). auto. Qed.
  Lemma rws : rows c = n. Proof. unfold rows. rewrite NF. reflexivity. Qed.
  Lemma opp_ok j : lat_ok c j -> lat_ok c (opposite c j). Proof. unfold lat_ok, opposite. lia. Qed.
  Lemma opp_opp j : lat_ok c j -> opposite c (opposite c j) = j. Proof. unfold lat_ok, opposite. lia. Qed.
  Lemma opp_off j : off_equator c j -> off_equator c (opposite c j).
  Proof. destruct szs as (S1 & S2 & _). unfold off_equator, lat_ok, opposite. lia. Qed.

  Lemma image_back x x' : image c x x' -> image c x' x.
  Proof. intros H i j k Hi Hj Hk. rewrite H by (try apply opp_ok; assumption). rewrite opp_opp by assumption. reflexivity. Qed.
  Lemma image_neg_back x x' : image_neg c x x' -> image_neg c x' x.
  Proof. intros H i j k Hi Hj Hk. rewrite H by (try apply opp_ok; assumption). rewrite opp_opp by assumption. ring. Qed.
  Lemma flip_image x x' : image c x x' -> clip3 c x' = clip3 c (flip3 c x).
  Proof. intros H. apply clip3_ext. intros. apply H; assumption. Qed.
  Lemma flip_image_neg x x' : image_neg c x x' -> clip3 c x' = clip3 c (neg3 (flip3 c x)).
  Proof. intros H. apply clip3_ext. intros. apply H; assumption. Qed.
  Lemma clip_mirror x x' : image c x x' -> clip3 c x' = mirror n (clip3 c x).
  Proof.
    intros H. rewrite (flip_image x x' H). extensionality i. extensionality j. extensionality k. unfold mirror, clip3, flip3.
    destruct szs as (S1 & S2 & _).
    repeat match goal with |- context [Nat.leb ?a ?b] => destruct (Nat.leb_spec a b); try lia end; reflexivity.
  Qed.
  Lemma clip_mirror_neg x x' : image_neg c x x' -> clip3 c x' = negated (mirror n (clip3 c x)).
  Proof.
    intros H. rewrite (flip_image_neg x x' H). extensionality i. extensionality j. extensionality k. unfold negated, mirror, clip3, neg3, flip3.
    destruct szs as (S1 & S2 & _). cbn [nopp nzero RNum].
    repeat match goal with |- context [Nat.leb ?a ?b] => destruct (Nat.leb_spec a b); try lia end; cbn [andb]; ring.
  Qed.

  Lemma pv_nh18_image f f' av : (2 <= p_nlon c)%nat -> image_state c f f' -> image_neg c (pv_nh18 c f av) (pv_nh18 c f' av).
  Proof.
    intros Hl (Hu & Hv & Ht) i j k Hi Hj Hk. destruct szs as (S1 & S2 & _). unfold pv_nh18, lat_ok, lon_ok in *.
    rewrite (clip_mirror _ _ Hu), (clip_mirror _ _ Ht), (clip_mirror_neg _ _ Hv).
    assert (L : (3 <= n)%nat) by lia. apply (qgpv_nh18_mirror (p_nlon c) n (p_kmax c) (p_a c) (p_om c) (p_h c) (one_based (p_height c)) L Hl); lia.
  Qed.
  Lemma exchanged_back av av' : exchanged av av' -> exchanged av' av.
  Proof. intros (A & B & C & D). repeat split; symmetry; assumption. Qed.
  Lemma pv_nhn22_image f f' av av' : (2 <= p_nlon c)%nat -> image_state c f f' -> exchanged av av' -> image_neg c (pv_nhn22 c f av) (pv_nhn22 c f' av').
  Proof.
    intros Hl (Hu & Hv & Ht) (A1 & A2 & A3 & A4) i j k Hi Hj Hk. destruct szs as (S1 & S2 & _). unfold pv_nhn22, lat_ok, lon_ok in *.
    rewrite (clip_mirror _ _ Hu), (clip_mirror _ _ Ht), (clip_mirror_neg _ _ Hv), A1, A2, A3, A4.
    assert (L : (3 <= n)%nat) by lia. apply (qgpv_nhn22_mirror (p_nlon c) n (p_kmax c) (p_a c) (p_om c) (p_h c) (one_based (p_height c)) L Hl); lia.
  Qed.
  Lemma t0_image th th' : (forall j i, (j < n)%nat -> (i < p_nlon c)%nat -> th' j i = th (n - 1 - j)%nat i) ->
    t0_south c th' = t0_north c th /\ t0_north c th' = t0_south c th.
  Proof.
    intros H. destruct G as (S1 & S2 & S3 & S4 & Y). unfold t0_south, t0_north. split; f_equal.
    - rewrite <- (rsum_rev (p_jd c)). apply rsum_ext. intros r Hr. cbv zeta.
      replace (n - p_jd c + r)%nat with (n - 1 - (p_jd c - 1 - r))%nat by lia. destruct (Y (p_jd c - 1 - r)%nat ltac:(lia)) as [_ Y2]. rewrite Y2.
      f_equal. apply rsum_ext. intros i Hi. rewrite H by lia. reflexivity.
    - rewrite <- (rsum_rev (p_jd c)). apply rsum_ext. intros r Hr. cbv zeta.
      replace (n - p_jd c + (p_jd c - 1 - r))%nat with (n - 1 - r)%nat by lia. destruct (Y r ltac:(lia)) as [_ Y2]. rewrite Y2.
      f_equal. apply rsum_ext. intros i Hi. rewrite H by lia. replace (n - 1 - (n - 1 - r))%nat with r by lia. reflexivity.
  Qed.
  Lemma domain_nhn22_image spline dspline th th' : raw_image c th th' -> exchanged (domain_nhn22 c spline dspline th) (domain_nhn22 c spline dspline th').
  Proof.
    intros H. assert (E1 : (fun l => t0_south c (th' l)) = (fun l => t0_north c (th l))) by (extensionality l; apply t0_image; auto).
    assert (E2 : (fun l => t0_north c (th' l)) = (fun l => t0_south c (th l))) by (extensionality l; apply t0_image; auto).
    unfold exchanged, domain_nhn22. cbn [averages_nhn22 tn0 ts0 stat_n stat_s]. rewrite E1, E2. auto.
  Qed.
  Lemma domain_nh18_image spline dspline th th' : raw_image c th th' -> domain_nh18 c spline dspline th' = domain_nh18 c spline dspline th.
  Proof.
    intros H. assert (E1 : (fun l => t0_south c (th' l)) = (fun l => t0_north c (th l))) by (extensionality l; apply t0_image; auto).
    assert (E2 : (fun l => t0_north c (th' l)) = (fun l => t0_south c (th l))) by (extensionality l; apply t0_image; auto).
    unfold domain_nh18. rewrite E1, E2. unfold averages_nh18. cbn [nadd RNum]. f_equal; extensionality k; f_equal; apply Rplus_comm.
  Qed.
  Lemma nh18_exchanged spline dspline th : exchanged (domain_nh18 c spline dspline th) (domain_nh18 c spline dspline th).
  Proof. repeat split. Qed.

  (** ** reference states *)
  Lemma refs_nh18_calls solver q q' f f' : image_neg c q q' -> image_state c f f' ->
    solver (clip3 c q') (clip3 c (u_ f')) (clip3 c (theta_ f')) = solver (clip3 c (neg3 (flip3 c q))) (clip3 c (flip3 c (u_ f))) (clip3 c (flip3 c (theta_ f))) :> refstate R /\
    solver (clip3 c (neg3 (flip3 c q'))) (clip3 c (flip3 c (u_ f'))) (clip3 c (flip3 c (theta_ f'))) = solver (clip3 c q) (clip3 c (u_ f)) (clip3 c (theta_ f)).
  Proof.
    intros Hq (Hu & Hv & Ht).
    rewrite (flip_image_neg _ _ Hq), (flip_image _ _ Hu), (flip_image _ _ Ht).
    rewrite <- (flip_image_neg _ _ (image_neg_back _ _ Hq)), <- (flip_image _ _ (image_back _ _ Hu)), <- (flip_image _ _ (image_back _ _ Ht)). auto.
  Qed.
  Lemma refs_nh18_image solver q q' f f' old old' : image_neg c q q' -> image_state c f f' ->
    image_refs c (refs_nh18 c solver q f old) (refs_nh18 c solver q' f' old').
  Proof.
    intros Hq Hf. destruct (refs_nh18_calls solver q q' f f' Hq Hf) as [E1 E2]. unfold refs_nh18. rewrite NF, E1, E2. destruct szs as (S1 & S2 & _).
    set (vn := solver _ _ _). set (vs := solver _ _ _).
    assert (W : forall (o o' vn vs : nat -> R) j, off_equator c j -> set_shem e (set_nhem c e o' vs) vn j = set_shem e (set_nhem c e o vn) vs (opposite c j)).
    { clear -S1 S2 NF. intros o o' vn vs j [Hj Hne]. unfold set_shem, set_nhem, rows. rewrite NF. unfold opposite, lat_ok in *.
      destruct (Nat.leb_spec j e); destruct (Nat.leb_spec (n + 1 - j) e); try lia.
      - destruct (Nat.leb_spec (n + 1 - j) (n - e)); [lia|]. f_equal. lia.
      - destruct (Nat.leb_spec j (n - e)); [lia|]. f_equal. lia. }
    split; [|split]; intros j k Hj Hk; cbn [store_south store_north qref_ uref_ ptref_].
    - apply (W (fun j => qref_ old j k) (fun j => qref_ old' j k) (fun j => qref_ vn j k) (fun j => qref_ vs j k)). exact Hj.
    - apply (W (fun j => uref_ old j k) (fun j => uref_ old' j k) (fun j => uref_ vn j k) (fun j => uref_ vs j k)). exact Hj.
    - apply (W (fun j => ptref_ old j k) (fun j => ptref_ old' j k) (fun j => ptref_ vn j k) (fun j => ptref_ vs j k)). exact Hj.
  Qed.
  Lemma refs_nh18_equator_image (solver : arr3 R -> arr3 R -> arr3 R -> refstate R) q q' f f' old old' : image_neg c q q' -> image_state c f f' ->
    (forall k, lev_ok c k -> uref_ (solver (clip3 c q) (clip3 c (u_ f)) (clip3 c (theta_ f))) 1%nat k =
       uref_ (solver (clip3 c (neg3 (flip3 c q))) (clip3 c (flip3 c (u_ f))) (clip3 c (flip3 c (theta_ f)))) 1%nat k) ->
    forall k, lev_ok c k -> uref_ (refs_nh18 c solver q' f' old') e k = uref_ (refs_nh18 c solver q f old) e k.
  Proof.
    intros Hq Hf H k Hk. destruct (refs_nh18_calls solver q q' f f' Hq Hf) as [E1 E2]. unfold refs_nh18. rewrite NF, E2. cbn [store_south store_north uref_].
    unfold set_shem. rewrite Nat.leb_refl. replace (e + 1 - e)%nat with 1%nat by lia. apply H. exact Hk.
  Qed.

  Lemma qref_nhn22_image inverse tn tn' q q' a a' f f' av av' old old' : image_neg c q q' ->
    profile c (qref_ (refs_nhn22 c (nhn22_inversion c inverse tn) q a f av old)) (qref_ (refs_nhn22 c (nhn22_inversion c inverse tn') q' a' f' av' old')).
  Proof.
    intros Hq j k [Hj Hne] Hk. unfold refs_nhn22. rewrite NF. cbn [store_south store_north qref_ nhn22_inversion]. destruct szs as (S1 & S2 & _).
    rewrite (flip_image_neg _ _ Hq), <- (flip_image_neg _ _ (image_neg_back _ _ Hq)). unfold set_shem, set_nhem, rows. rewrite NF. unfold opposite, lat_ok in *.
    destruct (Nat.leb_spec j e); destruct (Nat.leb_spec (n + 1 - j) e); try lia.
    - destruct (Nat.leb_spec (n + 1 - j) (n - e)); [lia|]. replace (n + 1 - j - (n - e))%nat with (e + 1 - j)%nat by lia. reflexivity.
    - destruct (Nat.leb_spec j (n - e)); [lia|]. replace (e + 1 - (n + 1 - j))%nat with (j - (n - e))%nat by lia. reflexivity.
  Qed.

  (** ** kernel calls *)
  Definition same_call (x y : kin R) : Prop :=
    i_pv x = i_pv y /\ i_uu x = i_uu y /\ i_vv x = i_vv y /\ i_pt x = i_pt y /\ i_t0 x = i_t0 y /\ i_qref x = i_qref y /\ i_uref x = i_uref y /\
    (forall j k, (2 <= p_jb c + j)%nat -> i_tref x j k = i_tref y j k) /\ (forall i j k, i_nc x i j k = - i_nc y i j k).

  Section Same.
    Variables x y : kin R.
    Hypothesis E : same_call x y.
    Lemma sc_ep1 i r k : (2 <= r)%nat -> k_ep1 c x i r k = k_ep1 c y i r k.
    Proof.
      destruct E as (E1 & E2 & E3 & E4 & E5 & E6 & E7 & E8 & E9). intros Hr. unfold k_ep1. rewrite E2, E3, E4, E5, E7. unfold ep1, fill.
      destruct (analysed (dims c) r k) eqn:An; [|reflexivity]. apply analysed_true in An. destruct An as [A1 A2]. unfold analysed_row, interior_level in *.
      cbn [dims is_nhem jb nd kmax] in A1, A2. destruct szs as (S1 & S2 & S3 & S4). cbv zeta. unfold uref_row. cbn [dims is_nhem jb jd].
      rewrite !(rd2_in (p_jd c) (i_tref _)) by lia. rewrite (E8 (r - p_jb c)%nat k) by lia. reflexivity.
    Qed.
    Lemma sc_ep4 i r : (2 <= r)%nat -> k_ep4 c x i r = k_ep4 c y i r.
    Proof.
      destruct E as (E1 & E2 & E3 & E4 & E5 & E6 & E7 & E8 & E9). intros Hr. unfold k_ep4. rewrite E3, E4, E5. unfold ep4.
      destruct (analysed (dims c) r 2) eqn:An; [|reflexivity]. apply analysed_true in An. destruct An as [A1 A2]. unfold analysed_row, interior_level in *.
      cbn [dims is_nhem jb nd kmax] in A1, A2. destruct szs as (S1 & S2 & S3 & S4). cbv zeta. unfold uref_row. cbn [dims is_nhem jb jd].
      rewrite !(rd2_in (p_jd c) (i_tref _)) by lia. rewrite (E8 (r - p_jb c)%nat 1%nat), (E8 (r - p_jb c)%nat 2%nat) by lia. reflexivity.
    Qed.
    Lemma sc_nc i j k : k_ncforce c x i j k = - k_ncforce c y i j k.
    Proof.
      destruct E as (E1 & E2 & E3 & E4 & E5 & E6 & E7 & E8 & E9). unfold k_ncforce. rewrite E1, E6.
      replace (i_nc x) with (fun i j k => (-1) * i_nc y i j k + 0 * i_nc y i j k).
      2: { extensionality i'. extensionality j'. extensionality k'. rewrite E9. ring. }
      rewrite ncforce3d_linear. ring.
    Qed.
    Lemma sc_rest : k_astar1 c x = k_astar1 c y /\ k_astar2 c x = k_astar2 c y /\ k_ua1 c x = k_ua1 c y /\ k_ua2 c x = k_ua2 c y /\
      k_ep2 c x = k_ep2 c y /\ k_ep3 c x = k_ep3 c y /\ k_u_baro c x = k_u_baro c y /\ k_lwa_baro c x = k_lwa_baro c y.
    Proof.
      destruct E as (E1 & E2 & E3 & E4 & E5 & E6 & E7 & E8 & E9).
      unfold k_lwa_baro, k_astar1, k_astar2, k_ua1, k_ua2, k_ep2, k_ep3, k_u_baro. rewrite E1, E2, E3, E6, E7. repeat split.
    Qed.
    Lemma sc_avg z w i r : (forall k, z i r k = w i r k) -> avg c z i r = avg c w i r.
    Proof. intros H. unfold avg. rewrite !column_average_Sum. apply Sum_ext. intros k _. rewrite H. reflexivity. Qed.
  End Same.

  Lemma global2_image xn xs xn' xs' : (forall i r, (2 <= r)%nat -> xn' i r = xs i r /\ xs' i r = xn i r) -> result2 c (global2 c xn xs) (global2 c xn' xs').
  Proof.
    intros H i j Hi [Hj Hne]. destruct szs as (S1 & S2 & _). unfold global2, set_shem, set_nhem, rows. rewrite NF. unfold opposite, lat_ok in *.
    destruct (Nat.leb_spec j e); destruct (Nat.leb_spec (n + 1 - j) e); try lia.
    - destruct (Nat.leb_spec (n + 1 - j) (n - e)); [lia|]. rewrite (proj2 (H i (e + 1 - j)%nat ltac:(lia))). f_equal. lia.
    - destruct (Nat.leb_spec j (n - e)); [lia|]. rewrite (proj1 (H i (j - (n - e))%nat ltac:(lia))). f_equal. lia.
  Qed.
  Lemma global2_image_neg xn xs xn' xs' : (forall i r, (2 <= r)%nat -> xn' i r = - xs i r /\ xs' i r = - xn i r) -> result2_neg c (global2 c xn xs) (global2 c xn' xs').
  Proof.
    intros H i j Hi [Hj Hne]. destruct szs as (S1 & S2 & _). unfold global2, set_shem, set_nhem, rows. rewrite NF. unfold opposite, lat_ok in *.
    destruct (Nat.leb_spec j e); destruct (Nat.leb_spec (n + 1 - j) e); try lia.
    - destruct (Nat.leb_spec (n + 1 - j) (n - e)); [lia|]. rewrite (proj2 (H i (e + 1 - j)%nat ltac:(lia))). f_equal. f_equal. lia.
    - destruct (Nat.leb_spec j (n - e)); [lia|]. rewrite (proj1 (H i (j - (n - e))%nat ltac:(lia))). f_equal. f_equal. lia.
  Qed.
  Lemma global3_image xn xs xn' xs' : (forall i r k, (2 <= r)%nat -> xn' i r k = xs i r k /\ xs' i r k = xn i r k) -> result3 c (global3 c xn xs) (global3 c xn' xs').
  Proof.
    intros H i j k Hi Hj Hk. exact (global2_image (fun i r => xn i r k) (fun i r => xs i r k) (fun i r => xn' i r k) (fun i r => xs' i r k) (fun i r Hr => H i r k Hr) i j Hi Hj).
  Qed.
  Lemma global3_image_neg xn xs xn' xs' : (forall i r k, (2 <= r)%nat -> xn' i r k = - xs i r k /\ xs' i r k = - xn i r k) -> result3_neg c (global3 c xn xs) (global3 c xn' xs').
  Proof.
    intros H i j k Hi Hj Hk. exact (global2_image_neg (fun i r => xn i r k) (fun i r => xs i r k) (fun i r => xn' i r k) (fun i r => xs' i r k) (fun i r Hr => H i r k Hr) i j Hi Hj).
  Qed.
  Lemma avg_neg z w i r : (forall k, z i r k = - w i r k) -> avg c z i r = - avg c w i r.
  Proof.
    intros H. unfold avg. rewrite !column_average_Sum. match goal with |- _ = - ?s => replace (- s) with (-1 * s) by ring end. rewrite <- Sum_scal.
    apply Sum_ext. intros k _. rewrite H. ring.
  Qed.

  Section Calls.
    Variables (q q' : arr3 R) (f f' : fields R) (nc nc' : arr3 R) (av av' : averages R) (r r' : refstate R).
    Hypothesis Hf : image_state c f f'.
    Hypothesis Hq : image_neg c q q'.
    Hypothesis Hnc : image_neg c nc nc'.
    Hypothesis Hav : exchanged av av'.
    Hypothesis Hr : image_refs c r r'.
    Hypothesis Hw : p_jb c = 0%nat -> forall k, lev_ok c k -> uref_ r' e k = uref_ r e k.
    Local Notation N := (north_args c q f nc av r).
    Local Notation S := (south_args c q f nc av r).
    Local Notation N' := (north_args c q' f' nc' av' r').
    Local Notation S' := (south_args c q' f' nc' av' r').

    Lemma equator_lat : p_ylat c (e - 1)%nat = 0.
    Proof.
      destruct szs as (S1 & S2 & _). destruct G as (_ & _ & _ & _ & Y). destruct (Y (e - 1)%nat ltac:(lia)) as [H _].
      replace (n - 1 - (e - 1))%nat with (e - 1)%nat in H by lia. lra.
    Qed.
    Lemma unit_image j k : lat_ok c j -> lev_ok c k -> qref_correct_unit c r' j k = - qref_correct_unit c r (opposite c j) k.
    Proof.
      intros Hj Hk. destruct szs as (S1 & S2 & _). unfold qref_correct_unit. rewrite NF. unfold deg2rad. cbn [nmul ndiv nofZ nsin npi RNum].
      destruct (Nat.eq_dec j e) as [->|Ne].
      - unfold opposite. replace (n + 1 - e)%nat with e by lia. rewrite equator_lat. rewrite !Rmult_0_l, sin_0. ring.
      - destruct Hr as (H & _). rewrite (H j k (conj Hj Ne) Hk). unfold opposite, lat_ok in *.
        destruct G as (_ & _ & _ & _ & Y). destruct (Y (j - 1)%nat ltac:(lia)) as [Y1 _].
        replace (n + 1 - j - 1)%nat with (n - 1 - (j - 1))%nat by lia. rewrite Y1.
        replace (- p_ylat c (j - 1) * (PI / 180)) with (- (p_ylat c (j - 1) * (PI / 180))) by ring. rewrite sin_neg. ring.
    Qed.
    Lemma north_south : same_call N' S.
    Proof.
      destruct Hf as (Hu & Hv & Ht). destruct Hav as (A1 & A2 & _). destruct Hr as (R1 & R2 & R3). destruct szs as (S1 & S2 & S3 & S4).
      unfold same_call. cbn [north_args south_args i_pv i_uu i_vv i_pt i_t0 i_qref i_uref i_tref i_nc].
      rewrite (flip_image_neg _ _ Hq), (flip_image _ _ Hu), (flip_image_neg _ _ Hv), (flip_image _ _ Ht), A1.
      do 5 (split; [reflexivity|]). split; [|split; [|split]].
      - apply clip2_ext. intros j k Hj Hk. unfold last_rows, neg2, first_rows_rev. rewrite rws. rewrite unit_image by (assumption || (unfold lat_ok; lia)).
        cbn [nopp RNum]. f_equal. f_equal. unfold opposite. lia.
      - apply clip2_ext. intros j k Hj Hk. unfold last_rows, first_rows_rev. rewrite rws.
        destruct (Nat.eq_dec (n - p_jd c + j) e) as [D|D].
        + rewrite D. replace (p_jd c + 1 - j)%nat with e by lia. apply Hw; [lia|exact Hk].
        + rewrite (R2 (n - p_jd c + j)%nat k) by first [exact Hk | split; [unfold lat_ok; lia|exact D]]. f_equal. unfold opposite. lia.
      - intros j k Hj. unfold clip2. destruct (_ && _) eqn:B; [|reflexivity].
        apply andb_true_iff in B. destruct B as [B B4]. apply andb_true_iff in B. destruct B as [B B3]. apply andb_true_iff in B. destruct B as [B1 B2].
        apply Nat.leb_le in B1, B2, B3, B4. unfold last_rows, first_rows_rev. rewrite rws.
        rewrite (R3 (n - p_jd c + j)%nat k) by first [unfold lev_ok; lia | split; [unfold lat_ok; lia|lia]]. f_equal. unfold opposite. lia.
      - intros i j k. rewrite (flip_image_neg _ _ Hnc). unfold clip3, neg3. destruct (_ && _); cbn [nopp nzero RNum]; ring.
    Qed.
    Lemma south_north : same_call S' N.
    Proof.
      destruct Hf as (Hu & Hv & Ht). destruct Hav as (A1 & A2 & _). destruct Hr as (R1 & R2 & R3). destruct szs as (S1 & S2 & S3 & S4).
      unfold same_call. cbn [north_args south_args i_pv i_uu i_vv i_pt i_t0 i_qref i_uref i_tref i_nc].
      rewrite <- (flip_image_neg _ _ (image_neg_back _ _ Hq)), <- (flip_image _ _ (image_back _ _ Hu)), <- (flip_image_neg _ _ (image_neg_back _ _ Hv)), <- (flip_image _ _ (image_back _ _ Ht)), A2.
      do 5 (split; [reflexivity|]). split; [|split; [|split]].
      - apply clip2_ext. intros j k Hj Hk. unfold last_rows, neg2, first_rows_rev. rewrite rws. rewrite unit_image by (assumption || (unfold lat_ok; lia)).
        cbn [nopp RNum]. rewrite Ropp_involutive. f_equal. unfold opposite. lia.
      - apply clip2_ext. intros j k Hj Hk. unfold last_rows, first_rows_rev. rewrite rws.
        destruct (Nat.eq_dec (p_jd c + 1 - j) e) as [D|D].
        + rewrite D. replace (n - p_jd c + j)%nat with e by lia. apply Hw; [lia|exact Hk].
        + rewrite (R2 (p_jd c + 1 - j)%nat k) by first [exact Hk | split; [unfold lat_ok; lia|exact D]]. f_equal. unfold opposite. lia.
      - intros j k Hj. unfold clip2. destruct (_ && _) eqn:B; [|reflexivity].
        apply andb_true_iff in B. destruct B as [B B4]. apply andb_true_iff in B. destruct B as [B B3]. apply andb_true_iff in B. destruct B as [B1 B2].
        apply Nat.leb_le in B1, B2, B3, B4. unfold last_rows, first_rows_rev. rewrite rws.
        rewrite (R3 (p_jd c + 1 - j)%nat k) by first [unfold lev_ok; lia | split; [unfold lat_ok; lia|lia]]. f_equal. unfold opposite. lia.
      - intros i j k. assert (X : clip3 c (neg3 (flip3 c nc')) i j k = clip3 c nc i j k) by (rewrite <- (flip_image_neg _ _ (image_neg_back _ _ Hnc)); reflexivity).
        unfold clip3, neg3 in *. destruct (_ && _); cbn [nopp nzero RNum] in *; lra.
    Qed.

    Lemma barotropic_image : image_fluxes c (barotropic_terms c N S) (barotropic_terms c N' S').
    Proof.
      assert (X := north_south). assert (Y := south_north).
      destruct (sc_rest _ _ X) as (X1 & X2 & X3 & X4 & X5 & X6 & X7 & X8). destruct (sc_rest _ _ Y) as (Y1 & Y2 & Y3 & Y4 & Y5 & Y6 & Y7 & Y8).
      unfold image_fluxes. cbn [barotropic_terms b_lwa b_u b_ua1 b_ua2 b_ep1 b_ep2 b_ep3 b_ep4 b_astar1 b_astar2 b_nc b_lwa3].
      rewrite X1, X2, X3, X4, X5, X6, X7, X8, Y1, Y2, Y3, Y4, Y5, Y6, Y7, Y8.
      do 4 (split; [apply global2_image; intros; split; reflexivity|]).
      split. { apply global2_image; intros i r0 Hr0; split; apply sc_avg; intros k; apply sc_ep1; assumption. }
      split. { apply global2_image_neg; intros; cbn [nopp RNum]; split; ring. }
      split. { apply global2_image_neg; intros; cbn [nopp RNum]; split; ring. }
      split. { apply global2_image; intros i r0 Hr0; split; apply sc_ep4; assumption. }
      do 2 (split; [apply global2_image; intros; split; reflexivity|]).
      split. { apply global2_image; intros i r0 Hr0; cbn [nopp RNum]; split.
        - rewrite (avg_neg _ (k_ncforce c S)) by (intros; apply sc_nc; exact X). ring.
        - rewrite (avg_neg _ (k_ncforce c N)) by (intros; apply sc_nc; exact Y). ring. }
      apply global3_image; intros; split; reflexivity.
    Qed.
    Lemma layerwise_image : image_layers c (layerwise_terms c N S) (layerwise_terms c N' S').
    Proof.
      assert (X := north_south). assert (Y := south_north).
      destruct (sc_rest _ _ X) as (X1 & X2 & X3 & X4 & X5 & X6 & X7 & X8). destruct (sc_rest _ _ Y) as (Y1 & Y2 & Y3 & Y4 & Y5 & Y6 & Y7 & Y8).
      unfold image_layers. cbn [layerwise_terms l_lwa l_astar1 l_astar2 l_nc l_ua1 l_ua2 l_ep1 l_ep2 l_ep3 l_ep4].
      rewrite X1, X2, X3, X4, X5, X6, Y1, Y2, Y3, Y4, Y5, Y6.
      assert (A1 : result3 c (global3 c (k_astar1 c N) (k_astar1 c S)) (global3 c (k_astar1 c S) (k_astar1 c N))) by (apply global3_image; intros; split; reflexivity).
      assert (A2 : result3 c (global3 c (k_astar2 c N) (k_astar2 c S)) (global3 c (k_astar2 c S) (k_astar2 c N))) by (apply global3_image; intros; split; reflexivity).
      split. { intros i j k Hi Hj Hk. rewrite (A1 i j k Hi Hj Hk), (A2 i j k Hi Hj Hk). reflexivity. }
      split; [exact A1|]. split; [exact A2|].
      split. { apply global3_image; intros i r0 k Hr0; cbn [nopp RNum]; split; [rewrite (sc_nc _ _ X)|rewrite (sc_nc _ _ Y)]; ring. }
      do 2 (split; [apply global3_image; intros; split; reflexivity|]).
      split. { apply global3_image; intros i r0 k Hr0; split; apply sc_ep1; assumption. }
      split. { apply global3_image_neg; intros; cbn [nopp RNum]; split; ring. }
      split. { apply global3_image_neg; intros; cbn [nopp RNum]; split; ring. }
      apply global2_image; intros i r0 Hr0; split; apply sc_ep4; assumption.
    Qed.
    Lemma lwa_only_image : image_lwa_only c (lwa_only c q f r) (lwa_only c q' f' r').
    Proof.
      assert (X := north_south). assert (Y := south_north). destruct X as (X1 & X2 & _ & _ & _ & X6 & _). destruct Y as (Y1 & Y2 & _ & _ & _ & Y6 & _).
      cbn [north_args south_args i_pv i_uu i_qref] in *.
      unfold image_lwa_only. cbn [lwa_only o_lwa_baro o_u_baro o_lwa]. rewrite X1, X2, X6, Y1, Y2, Y6.
      split; [apply global2_image; intros; split; reflexivity|]. split; [apply global2_image; intros; split; reflexivity|]. apply global3_image; intros; split; reflexivity.
    Qed.
  End Calls.

  Lemma clat_opp j : lat_ok c j -> out_clat c (opposite c j - 1) = out_clat c (j - 1).
  Proof.
    intros Hj. unfold out_clat, opposite, lat_ok in *. rewrite NF. destruct szs as (S1 & S2 & _). destruct G as (_ & _ & _ & _ & Y).
    destruct (Y (j - 1)%nat ltac:(lia)) as [_ Y2]. rewrite <- Y2. f_equal. lia.
  Qed.
  Lemma div_image b b' : image_fluxes c b b' -> result2 c (div_momentum_flux c b) (div_momentum_flux c b').
  Proof.
    intros (_ & _ & _ & _ & _ & H2 & H3 & _) i j Hi Hj. unfold div_momentum_flux. rewrite (H2 i j Hi Hj), (H3 i j Hi Hj), clat_opp by apply Hj.
    cbn [nsub nmul ndiv RNum]. unfold Rdiv. ring.
  Qed.
  Lemma zonal_flux_image b b' : image_fluxes c b b' -> result2 c (zonal_flux b) (zonal_flux b').
  Proof. intros (_ & _ & H1 & H2 & H3 & _) i j Hi Hj. unfold zonal_flux. rewrite (H1 i j Hi Hj), (H2 i j Hi Hj), (H3 i j Hi Hj). reflexivity. Qed.
  Lemma conv_image b b' : (2 <= p_nlon c)%nat -> image_fluxes c b b' -> result2 c (conv_zonal_flux c b) (conv_zonal_flux c b').
  Proof.
    intros Hl H i j Hi Hj. assert (Z := zonal_flux_image b b' H). destruct szs as (S1 & S2 & _).
    unfold conv_zonal_flux, zonal_convergence. rewrite clat_opp by apply Hj.
    assert (E : zonal_diff (p_nlon c) (fun j' i' => zonal_flux b' (i' + 1)%nat (j' + 1)%nat) (j - 1) (i - 1) =
                zonal_diff (p_nlon c) (fun j' i' => zonal_flux b (i' + 1)%nat (j' + 1)%nat) (opposite c j - 1) (i - 1)).
    { unfold zonal_diff. destruct Hj as [Hj Ne]. assert (Ho := opp_ok j Hj). unfold lat_ok, lon_ok in *.
      replace (opposite c j - 1 + 1)%nat with (opposite c j) by lia. replace (j - 1 + 1)%nat with j by lia.
      destruct (Nat.eqb_spec (i - 1) (p_nlon c - 1)); [|destruct (Nat.eqb_spec (i - 1) 0)]; rewrite !Z by (unfold lon_ok, off_equator, lat_ok; lia); reflexivity. }
    rewrite E. reflexivity.
  Qed.
  Lemma phi_image f f' r r' : image_state c f f' -> image_refs c r r' -> result2_neg c (flux_vector_phi c f r) (flux_vector_phi c f' r').
  Proof.
    intros (Hu & Hv & _) (_ & Hr & _) i j Hi Hj. unfold flux_vector_phi. rewrite NF. destruct szs as (S1 & S2 & _).
    unfold avg. rewrite !column_average_Sum. match goal with |- _ = - ?s => replace (- s) with (-1 * s) by ring end. rewrite <- Sum_scal.
    apply Sum_ext. intros k Hk. cbn [dims kmax] in Hk. cbn [Nat.add nopp nmul nsub RNum]. assert (Hk' : lev_ok c k) by (unfold lev_ok; lia).
    rewrite (Hu i j k Hi (proj1 Hj) Hk'), (Hv i j k Hi (proj1 Hj) Hk'), (Hr j k Hj Hk'). destruct Hj as [Hj Ne]. unfold lat_ok, opposite in *.
    destruct G as (_ & _ & _ & _ & Y). destruct (Y (j - 1)%nat ltac:(lia)) as [_ Y2].
    replace (n + 1 - j - 1)%nat with (n - 1 - (j - 1))%nat by lia. rewrite Y2. ring.
  Qed.

  (** terms with a vertical derivative *)
  Lemma stab_exchange (sn ss : nat -> R) k j : (j < n)%nat -> @stability_temp R RNum e ss sn k j = @stability_temp R RNum e sn ss k (n - 1 - j).
  Proof.
    intros Hj. destruct szs as (S1 & S2 & _). unfold stability_temp. cbn [nmul none nofZ ndiv nadd RNum].
    repeat match goal with |- context [Nat.ltb ?a ?b] => destruct (Nat.ltb_spec a b) end;
    repeat match goal with |- context [Nat.eqb ?a ?b] => destruct (Nat.eqb_spec a b) end; try lia; lra.
  Qed.
  Lemma z_der_exchange (mult : nat -> nat -> R) (t1 t2 : nat -> nat -> nat -> R) s k j i : (2 <= p_kmax c)%nat -> (k < p_kmax c)%nat ->
    (forall k', (k' < p_kmax c)%nat -> mult k' (n - 1 - j)%nat = - mult k' j) ->
    (forall k', (k' < p_kmax c)%nat -> t2 k' j i = s * t1 k' (n - 1 - j)%nat i) ->
    @z_der R RNum (p_kmax c) (p_dz c) mult t2 k j i = - s * @z_der R RNum (p_kmax c) (p_dz c) mult t1 k (n - 1 - j) i.
  Proof.
    intros K Hk M T. unfold z_der. cbn [nmul nsub ndiv nofZ RNum]. unfold Rdiv.
    destruct (Nat.eqb_spec k (p_kmax c - 1)); [|destruct (Nat.eqb_spec k 0)]; rewrite !M, !T by lia; ring.
  Qed.
  Lemma stretch_image f f' av av' r r' : (2 <= p_kmax c)%nat -> image_state c f f' -> image_refs c r r' -> exchanged av av' ->
    exists d d', stretch_term c f av r = Some d /\ stretch_term c f' av' r' = Some d' /\ result3 c d d'.
  Proof.
    intros K (Hu & Hv & Ht) (_ & _ & Hp) (_ & _ & A3 & A4).
    unfold stretch_term. rewrite !(z_prod_some c G) by exact K. eexists. eexists. split; [reflexivity|]. split; [reflexivity|].
    intros i j k Hi [Hj Ne] Hk. cbn [option_map nopp RNum]. unfold lon_ok, lat_ok, lev_ok, opposite in *. f_equal. destruct szs as (S1 & S2 & _).
    replace (n + 1 - j - 1)%nat with (n - 1 - (j - 1))%nat by lia. rewrite A3, A4. match goal with |- z_der _ _ ?m ?t2 ?kk ?jj ?ii = z_der _ _ _ ?t1 _ _ _ => rewrite (z_der_exchange m t1 t2 (-1) kk jj ii) end; try lia; [replace (- (-1)) with 1 by ring; rewrite Rmult_1_l; reflexivity| |].
    - intros k' Hk'. cbn [nmul nofZ nsin nexp ndiv RNum]. apply (coriolis_mirror c G). lia.
    - intros k' Hk'. unfold to_be_diff. rewrite stab_exchange by lia. rewrite NF. cbn [nmul nsub ndiv RNum].
      replace (n - 1 - (j - 1) + 1)%nat with (n + 1 - j)%nat by lia. replace (i - 1 + 1)%nat with i by lia. replace (j - 1 + 1)%nat with j by lia.
      rewrite Hv, Ht by (unfold lon_ok, lat_ok, lev_ok; lia). rewrite (Hp j) by (unfold off_equator, lat_ok, lev_ok; lia). unfold opposite.
      destruct G as (_ & _ & _ & _ & Y). destruct (Y (j - 1)%nat ltac:(lia)) as [_ ->]. unfold Rdiv. ring.
  Qed.
  Lemma heating_image av av' (h h' : nat -> nat -> nat -> R) : (2 <= p_kmax c)%nat -> exchanged av av' ->
    (forall k j i, (k < p_kmax c)%nat -> (j < n)%nat -> (i < p_nlon c)%nat -> h' k j i = h k (n - 1 - j)%nat i) ->
    exists d d', ncforce_from_heating c av h = Some d /\ ncforce_from_heating c av' h' = Some d' /\
      forall k j i, (k < p_kmax c)%nat -> (j < n)%nat -> (i < p_nlon c)%nat -> d' k j i = - d k (n - 1 - j)%nat i.
  Proof.
    intros K (_ & _ & A3 & A4) Hh. unfold ncforce_from_heating. rewrite !(z_prod_some c G) by exact K. eexists. eexists. split; [reflexivity|]. split; [reflexivity|].
    intros k j i Hk Hj Hi. rewrite A3, A4. rewrite (z_der_exchange _ (to_be_diff (stability_temp e (stat_n av) (stat_s av)) (fun k => nexp (ndiv (nopp (p_height c k)) (p_h c))) h) _ 1); try lia; [ring| |].
    - intros k' Hk'. cbn [nmul nofZ nsin nexp ndiv RNum]. apply (coriolis_mirror c G). lia.
    - intros k' Hk'. unfold to_be_diff. rewrite stab_exchange by lia. rewrite Hh by lia. ring.
  Qed.
End Image.
