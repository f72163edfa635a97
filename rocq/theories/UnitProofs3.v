(** Proofs for C182, continued: the stored results of a whole session *)
From Coq Require Import Reals Lra Lia List FunctionalExtensionality.
From Verif Require Import Base BaseFacts Grid Flux Utilities Qgpv Pipeline RefStates DirInv Object Session InfluenceProofs UnitSpec UnitProofs UnitProofs2.
Import ListNotations.
Open Scope R_scope.

Definition conf_units (c l kt : R) (C : pconf R) : pconf R :=
  {| p_nlon := p_nlon C; p_nlat := p_nlat C; p_kmax := p_kmax C; p_eq := p_eq C; p_jb := p_jb C; p_jd := p_jd C; p_nh := p_nh C;
     p_a := l * p_a C; p_om := c * p_om C; p_dz := l * p_dz C; p_h := l * p_h C; p_rr := l * l * c * c * / kt * p_rr C; p_cp := l * l * c * c * / kt * p_cp C;
     p_prefac := l * p_prefac C; p_dphi := p_dphi C; p_dlambda := p_dlambda C; p_tol := p_tol C;
     p_height := scale1 l (p_height C); p_ylat := p_ylat C; p_clat := p_clat C |}.
Definition fields_units (c l kt : R) (f : fields R) : fields R := {| u_ := scale3 (l * c) (u_ f); v_ := scale3 (l * c) (v_ f); theta_ := scale3 kt (theta_ f) |}.
Definition av_units (l kt : R) (av : averages R) : averages R := {| tn0 := scale1 kt (tn0 av); ts0 := scale1 kt (ts0 av); stat_n := scale1 (/ l * kt) (stat_n av); stat_s := scale1 (/ l * kt) (stat_s av) |}.
Definition refs_units (c l kt : R) (r : refstate R) : refstate R := {| qref_ := qref_ r; uref_ := scale2 (l * c) (uref_ r); ptref_ := scale2 kt (ptref_ r) |}.
Definition kin_units (c l kt : R) (x : kin R) : kin R :=
  {| i_pv := scale3 c (i_pv x); i_uu := scale3 (l * c) (i_uu x); i_vv := scale3 (l * c) (i_vv x); i_pt := scale3 kt (i_pt x); i_nc := scale3 (c * c) (i_nc x);
     i_t0 := scale1 kt (i_t0 x); i_qref := scale2 c (i_qref x); i_uref := scale2 (l * c) (i_uref x); i_tref := scale2 kt (i_tref x) |}.

Ltac ex2 := extensionality i; extensionality j.
Ltac ex3 := extensionality i; extensionality j; extensionality k.

Section PipelineUnits.
  Variables c l kt : R.
  Hypothesis Hc : 0 < c.
  Hypothesis Hl : 0 < l.
  Hypothesis Ht : 0 < kt.
  Let c0 : c <> 0. Proof. lra. Qed.
  Let l0 : l <> 0. Proof. lra. Qed.
  Let k0 : kt <> 0. Proof. lra. Qed.
  Let lc : 0 < l * c. Proof. nra. Qed.
  Variable C : pconf R.
  Notation C' := (conf_units c l kt C).
  Ltac pj := cbn [conf_units p_nlon p_nlat p_kmax p_eq p_jb p_jd p_nh p_a p_om p_dz p_h p_rr p_cp p_prefac p_dphi p_dlambda p_tol p_height p_ylat p_clat].

  Lemma clip3_u q x : clip3 C' (scale3 q x) = scale3 q (clip3 C x).
  Proof. ex3. unfold clip3, scale3. pj. destruct (_ && _); [reflexivity|toR; ring]. Qed.
  Lemma clip3_s x : clip3 C' x = clip3 C x.
  Proof. reflexivity. Qed.
  Lemma clip2_u q m x : clip2 C' m (scale2 q x) = scale2 q (clip2 C m x).
  Proof. ex2. unfold clip2, scale2. pj. destruct (_ && _); [reflexivity|toR; ring]. Qed.
  Lemma flip3_u q x : flip3 C' (scale3 q x) = scale3 q (flip3 C x).
  Proof. reflexivity. Qed.
  Lemma neg3_u q (x : arr3 R) : neg3 (scale3 q x) = scale3 q (neg3 x).
  Proof. ex3. unfold neg3, scale3. toR. ring. Qed.
  Lemma neg2_u q (x : arr2 R) : neg2 (scale2 q x) = scale2 q (neg2 x).
  Proof. ex2. unfold neg2, scale2. toR. ring. Qed.

  Variable f : fields R.
  Variable av : averages R.
  Notation f' := (fields_units c l kt f).
  Notation av' := (av_units l kt av).
  Lemma pv_nh18_u : pv_nh18 C' f' av' = scale3 c (pv_nh18 C f av).
  Proof.
    ex3. unfold pv_nh18. pj. cbn [fields_units av_units u_ v_ theta_ tn0 ts0 stat_n stat_s]. rewrite !clip3_u.
    exact (qgpv_nh18_u c l kt Hc Hl Ht _ _ _ _ _ _ _ _ _ (one_based (p_height C)) (one_based (tn0 av)) (one_based (stat_n av)) i j k).
  Qed.
  Lemma pv_nhn22_u : pv_nhn22 C' f' av' = scale3 c (pv_nhn22 C f av).
  Proof.
    ex3. unfold pv_nhn22. pj. cbn [fields_units av_units u_ v_ theta_ tn0 ts0 stat_n stat_s]. rewrite !clip3_u.
    exact (qgpv_nhn22_u c l kt Hc Hl Ht _ _ _ _ _ _ _ _ _ (one_based (p_height C)) _ (one_based (ts0 av)) (one_based (tn0 av)) (one_based (stat_s av)) (one_based (stat_n av)) i j k).
  Qed.
  Lemma avort_nhn22_u : avort_nhn22 C' f' = scale3 c (avort_nhn22 C f).
  Proof.
    ex3. unfold avort_nhn22. pj. cbn [fields_units u_ v_]. rewrite !clip3_u. unfold scale3 at 3. apply (avort_u c l Hc Hl).
  Qed.

  (** the reference states *)
  Section Store.
    Variables (mq m : nat) (old new new' : refstate R).
    Hypothesis Q : forall j k, (1 <= j)%nat -> qref_ new' j k = qref_ new j k.
    Hypothesis U : forall j k, (1 <= j)%nat -> uref_ new' j k = l * c * uref_ new j k.
    Hypothesis T : forall j k, (1 <= j)%nat -> ptref_ new' j k = kt * ptref_ new j k.
    Lemma store_north_u : store_north C' mq m (refs_units c l kt old) new' = refs_units c l kt (store_north C mq m old new).
    Proof.
      unfold store_north, refs_units. cbn [qref_ uref_ ptref_]. change (rows C') with (rows C).
      f_equal; ex2; unfold set_nhem, scale2; change (rows C') with (rows C); destruct (Nat.leb_spec i (rows C - m)), (Nat.leb_spec i (rows C - mq)); try reflexivity; first [apply Q|apply U|apply T]; lia.
    Qed.
    Lemma store_south_u : store_south mq m (refs_units c l kt old) new' = refs_units c l kt (store_south mq m old new).
    Proof.
      unfold store_south, refs_units. cbn [qref_ uref_ ptref_].
      f_equal; ex2; unfold set_shem, scale2; destruct (Nat.leb_spec i m), (Nat.leb_spec i mq); try reflexivity; first [apply Q|apply U|apply T]; lia.
    Qed.
  End Store.
  Lemma zero_refs_u : refs_units c l kt zero_refs = zero_refs.
  Proof. unfold refs_units, zero_refs. cbn [qref_ uref_ ptref_]. f_equal; ex2; unfold scale2; toR; ring. Qed.

  Variable q : arr3 R.
  Lemma refs_nh18_u n it tol rj g1 g2 :
    refs_nh18 C' (nh18_solver C' n it tol rj (stat_n av') (scale2 (l * l * c) g1) (scale2 (l * l * c) g2)) (scale3 c q) f' zero_refs
    = refs_units c l kt (refs_nh18 C (nh18_solver C n it tol rj (stat_n av) g1 g2) q f zero_refs).
  Proof.
    set (S1 := nh18_solver C' n it tol rj (stat_n av') (scale2 (l * l * c) g1) (scale2 (l * l * c) g2)). set (S0 := nh18_solver C n it tol rj (stat_n av) g1 g2).
    assert (Q : forall a b d j k, (1 <= j)%nat -> qref_ (S1 (scale3 c a) (scale3 (l * c) b) (scale3 kt d)) j k = qref_ (S0 a b d) j k)
      by (intros a b d j k J; assert (E := rs_qref_u c l kt Hc Hl Ht (nh18_dims C n it tol rj) a j k J); change (rs_units c l kt (nh18_dims C n it tol rj)) with (nh18_dims C' n it tol rj) in E; exact E).
    assert (U : forall a b d j k, (1 <= j)%nat -> uref_ (S1 (scale3 c a) (scale3 (l * c) b) (scale3 kt d)) j k = l * c * uref_ (S0 a b d) j k)
      by (intros a b d j k J; assert (E := rs_uref_u c l kt Hc Hl Ht (nh18_dims C n it tol rj) a b d (one_based (stat_n av)) g1 g2 j k);
          change (rs_units c l kt (nh18_dims C n it tol rj)) with (nh18_dims C' n it tol rj) in E; change (scale1 (/ l * kt) (one_based (stat_n av))) with (one_based (stat_n av')) in E; exact E).
    assert (T : forall a b d j k, (1 <= j)%nat -> ptref_ (S1 (scale3 c a) (scale3 (l * c) b) (scale3 kt d)) j k = kt * ptref_ (S0 a b d) j k)
      by (intros a b d j k J; assert (E := rs_tref_u c l kt Hc Hl Ht (nh18_dims C n it tol rj) a b d (one_based (stat_n av)) g1 g2 j k);
          change (rs_units c l kt (nh18_dims C n it tol rj)) with (nh18_dims C' n it tol rj) in E; change (scale1 (/ l * kt) (one_based (stat_n av))) with (one_based (stat_n av')) in E; exact E).
    clearbody S1 S0. unfold refs_nh18. cbv zeta. cbn [fields_units u_ v_ theta_]. rewrite !flip3_u, neg3_u, !clip3_u. pj.
    assert (N := store_north_u (p_eq C) (p_eq C) zero_refs (S0 (clip3 C q) (clip3 C (u_ f)) (clip3 C (theta_ f))) _ (Q _ _ _) (U _ _ _) (T _ _ _)). rewrite zero_refs_u in N. rewrite N.
    destruct (p_nh C); [reflexivity|]. apply store_south_u; [apply Q|apply U|apply T].
  Qed.
  Lemma refs_nhn22_u inv :
    refs_nhn22 C' (nhn22_inversion C' inv (tn0 av')) (scale3 c q) (avort_nhn22 C' f') f' av' zero_refs
    = refs_units c l kt (refs_nhn22 C (nhn22_inversion C inv (tn0 av)) q (avort_nhn22 C f) f av zero_refs).
  Proof.
    rewrite avort_nhn22_u. set (vo := avort_nhn22 C f).
    set (S1 := nhn22_inversion C' inv (tn0 av')). set (S0 := nhn22_inversion C inv (tn0 av)).
    assert (Q : forall a b d e t s j k, (1 <= j)%nat -> qref_ (S1 (scale3 c a) (scale3 (l * c) b) (scale3 c d) (scale3 kt e) (scale1 kt t) (scale1 (/ l * kt) s)) j k = qref_ (S0 a b d e t s) j k).
    { intros a b d e t s j k _. unfold S1, S0, nhn22_inversion. cbv zeta. cbn [qref_]. assert (E := d_qref_u c l kt Hc Hl Ht (nhn22_dims C) a j k). change (rs_units c l kt (nhn22_dims C)) with (nhn22_dims C') in E. rewrite E. toR. pj.
      replace (IZR 2 * (c * p_om C)) with (c * (IZR 2 * p_om C)) by ring. apply ratio, c0. }
    assert (U : forall a b d e t s j k, (1 <= j)%nat -> uref_ (S1 (scale3 c a) (scale3 (l * c) b) (scale3 c d) (scale3 kt e) (scale1 kt t) (scale1 (/ l * kt) s)) j k = l * c * uref_ (S0 a b d e t s) j k)
      by (intros a b d e t s j k _; assert (E := d_uref_u c l kt Hc Hl Ht (nhn22_dims C) (p_jb C) a d e (one_based s) inv j k);
          change (rs_units c l kt (nhn22_dims C)) with (nhn22_dims C') in E; change (scale1 (/ l * kt) (one_based s)) with (one_based (scale1 (/ l * kt) s)) in E; exact E).
    assert (T : forall a b d e t s j k, (1 <= j)%nat -> ptref_ (S1 (scale3 c a) (scale3 (l * c) b) (scale3 c d) (scale3 kt e) (scale1 kt t) (scale1 (/ l * kt) s)) j k = kt * ptref_ (S0 a b d e t s) j k)
      by (intros a b d e t s j k _; assert (E := d_tref_u c l kt Hc Hl Ht (nhn22_dims C) (p_jb C) a d e (one_based s) (one_based (tn0 av)) inv j k);
          change (rs_units c l kt (nhn22_dims C)) with (nhn22_dims C') in E; change (scale1 (/ l * kt) (one_based s)) with (one_based (scale1 (/ l * kt) s)) in E; exact E).
    clearbody S1 S0 vo. unfold refs_nhn22. cbv zeta. cbn [fields_units av_units u_ v_ theta_ tn0 ts0 stat_n stat_s]. rewrite !flip3_u, neg3_u, !clip3_u. pj.
    assert (N := store_north_u (p_eq C) (p_jd C) zero_refs (S0 (clip3 C q) (clip3 C (u_ f)) (clip3 C vo) (clip3 C (theta_ f)) (tn0 av) (stat_n av)) _ (Q _ _ _ _ _ _) (U _ _ _ _ _ _) (T _ _ _ _ _ _)). rewrite zero_refs_u in N. rewrite N.
    destruct (p_nh C); [reflexivity|]. apply store_south_u; [apply Q|apply U|apply T].
  Qed.

  (** wave activity and fluxes *)
  Variables (nc : arr3 R) (r : refstate R).
  Notation r' := (refs_units c l kt r).
  Lemma unit_u : qref_correct_unit C' r' = scale2 c (qref_correct_unit C r).
  Proof. ex2. unfold qref_correct_unit, scale2. cbv zeta. pj. cbn [refs_units qref_]. toR. ring. Qed.
  Lemma last_rows_u k m x : last_rows C' m (scale2 k x) = scale2 k (last_rows C m x).
  Proof. reflexivity. Qed.
  Lemma first_rows_u k m (x : arr2 R) : first_rows_rev m (scale2 k x) = scale2 k (first_rows_rev m x).
  Proof. reflexivity. Qed.
  Lemma north_args_u : north_args C' (scale3 c q) f' (scale3 (c * c) nc) av' r' = kin_units c l kt (north_args C q f nc av r).
  Proof.
    unfold north_args, kin_units. cbn [i_pv i_uu i_vv i_pt i_nc i_t0 i_qref i_uref i_tref fields_units av_units refs_units u_ v_ theta_ tn0 ts0 uref_ ptref_]. pj.
    change {| qref_ := qref_ r; uref_ := scale2 (l * c) (uref_ r); ptref_ := scale2 kt (ptref_ r) |} with r'. rewrite unit_u. rewrite !last_rows_u, !clip2_u, !clip3_u. reflexivity.
  Qed.
  Lemma south_args_u : south_args C' (scale3 c q) f' (scale3 (c * c) nc) av' r' = kin_units c l kt (south_args C q f nc av r).
  Proof.
    unfold south_args, kin_units. cbn [i_pv i_uu i_vv i_pt i_nc i_t0 i_qref i_uref i_tref fields_units av_units refs_units u_ v_ theta_ tn0 ts0 uref_ ptref_]. pj.
    change {| qref_ := qref_ r; uref_ := scale2 (l * c) (uref_ r); ptref_ := scale2 kt (ptref_ r) |} with r'. rewrite unit_u. rewrite !flip3_u, !first_rows_u, !neg3_u, neg2_u, !clip2_u, !clip3_u. reflexivity.
  Qed.

  Variables n s : kin R.
  Notation n' := (kin_units c l kt n).
  Notation s' := (kin_units c l kt s).
  Lemma dims_u : dims C' = flux_units c l kt (dims C).
  Proof. reflexivity. Qed.
  Lemma avg_u k x : avg C' (scale3 k x) = scale2 k (avg C x).
  Proof. unfold avg. rewrite dims_u. apply (column_average_u c l kt Hc Hl). Qed.
  Lemma k_astar1_u x : k_astar1 C' (kin_units c l kt x) = scale3 (l * c) (k_astar1 C x).
  Proof. unfold k_astar1. rewrite dims_u. apply astar1_u; assumption. Qed.
  Lemma k_astar2_u x : k_astar2 C' (kin_units c l kt x) = scale3 (l * c) (k_astar2 C x).
  Proof. unfold k_astar2. rewrite dims_u. apply astar2_u; assumption. Qed.
  Lemma k_ncforce_u x : k_ncforce C' (kin_units c l kt x) = scale3 (l * c * c) (k_ncforce C x).
  Proof. unfold k_ncforce. rewrite dims_u. apply ncforce3d_u; assumption. Qed.
  Lemma k_ua1_u x : k_ua1 C' (kin_units c l kt x) = scale3 (l * l * c * c) (k_ua1 C x).
  Proof. unfold k_ua1. rewrite dims_u. apply ua1_u; assumption. Qed.
  Lemma k_ua2_u x : k_ua2 C' (kin_units c l kt x) = scale3 (l * l * c * c) (k_ua2 C x).
  Proof. unfold k_ua2. rewrite dims_u. apply ua2_u; assumption. Qed.
  Lemma k_ep1_u x : k_ep1 C' (kin_units c l kt x) = scale3 (l * l * c * c) (k_ep1 C x).
  Proof. unfold k_ep1. rewrite dims_u. apply ep1_u; assumption. Qed.
  Lemma k_ep2_u x : k_ep2 C' (kin_units c l kt x) = scale3 (l * l * c * c) (k_ep2 C x).
  Proof. unfold k_ep2. rewrite dims_u. apply ep2_u; assumption. Qed.
  Lemma k_ep3_u x : k_ep3 C' (kin_units c l kt x) = scale3 (l * l * c * c) (k_ep3 C x).
  Proof. unfold k_ep3. rewrite dims_u. apply ep3_u; assumption. Qed.
  Lemma k_ep4_u x : k_ep4 C' (kin_units c l kt x) = scale2 (l * c * c) (k_ep4 C x).
  Proof. unfold k_ep4. rewrite dims_u. apply ep4_u; assumption. Qed.
  Lemma k_lwa_baro_u x : k_lwa_baro C' (kin_units c l kt x) = scale2 (l * c) (k_lwa_baro C x).
  Proof. ex2. unfold k_lwa_baro. rewrite k_astar1_u, k_astar2_u, !avg_u. unfold scale2. toR. ring. Qed.
  Lemma k_u_baro_u x : k_u_baro C' (kin_units c l kt x) = scale2 (l * c) (k_u_baro C x).
  Proof. unfold k_u_baro, py_u_baro. rewrite dims_u. exact (column_average_u c l kt Hc Hl (dims C) (l * c) (p_height C) (fun i j k => i_uu x i (j + (jmax (dims C) - nd (dims C)))%nat k)). Qed.
  Lemma global2_u k (a b a' b' : arr2 R) : a' = scale2 k a -> b' = scale2 k b -> global2 C' a' b' = scale2 k (global2 C a b).
  Proof.
    intros -> ->. ex2. unfold global2, scale2. cbv zeta. change (set_nhem C') with (set_nhem C). pj. unfold set_nhem, set_shem. destruct (p_nh C); repeat (destruct (Nat.leb _ _)); toR; ring.
  Qed.
  Lemma global3_u k (a b a' b' : arr3 R) : a' = scale3 k a -> b' = scale3 k b -> global3 C' a' b' = scale3 k (global3 C a b).
  Proof.
    intros -> ->. extensionality i. extensionality j. extensionality m. unfold global3, scale3. cbv zeta. change (set_nhem C') with (set_nhem C). pj. unfold set_nhem, set_shem. destruct (p_nh C); repeat (destruct (Nat.leb _ _)); toR; ring.
  Qed.
  Lemma opp2 k (x x' : arr2 R) : x' = scale2 k x -> (fun i j => (- x' i j)%num) = scale2 k (fun i j => (- x i j)%num).
  Proof. intros ->. ex2. unfold scale2. toR. ring. Qed.
  Lemma opp3 k (x x' : arr3 R) : x' = scale3 k x -> (fun i j m => (- x' i j m)%num) = scale3 k (fun i j m => (- x i j m)%num).
  Proof. intros ->. extensionality i. extensionality j. extensionality m. unfold scale3. toR. ring. Qed.
  Lemma abs_u (a b a' b' : arr3 R) : a' = scale3 (l * c) a -> b' = scale3 (l * c) b -> (fun i j k => nabs (a' i j k + b' i j k)%num) = scale3 (l * c) (fun i j k => nabs (a i j k + b i j k)%num).
  Proof. intros -> ->. ex3. unfold scale3. toR. rewrite <- Rmult_plus_distr_l. apply Rabs_scal, lc. Qed.

  Definition baro_units (b : baro R) : baro R :=
    {| b_lwa := scale2 (l * c) (b_lwa b); b_u := scale2 (l * c) (b_u b); b_ua1 := scale2 (l * l * c * c) (b_ua1 b); b_ua2 := scale2 (l * l * c * c) (b_ua2 b);
       b_ep1 := scale2 (l * l * c * c) (b_ep1 b); b_ep2 := scale2 (l * l * c * c) (b_ep2 b); b_ep3 := scale2 (l * l * c * c) (b_ep3 b); b_ep4 := scale2 (l * c * c) (b_ep4 b);
       b_astar1 := scale2 (l * c) (b_astar1 b); b_astar2 := scale2 (l * c) (b_astar2 b); b_nc := scale2 (l * c * c) (b_nc b); b_lwa3 := scale3 (l * c) (b_lwa3 b) |}.
  Lemma barotropic_u : barotropic_terms C' n' s' = baro_units (barotropic_terms C n s).
  Proof.
    unfold barotropic_terms, baro_units. cbv zeta. cbn [b_lwa b_u b_ua1 b_ua2 b_ep1 b_ep2 b_ep3 b_ep4 b_astar1 b_astar2 b_nc b_lwa3].
    f_equal; first [apply global2_u|apply global3_u]; try apply opp2; try apply abs_u;
      rewrite ?k_lwa_baro_u, ?k_u_baro_u, ?k_ua1_u, ?k_ua2_u, ?k_ep1_u, ?k_ep2_u, ?k_ep3_u, ?k_ep4_u, ?k_astar1_u, ?k_astar2_u, ?k_ncforce_u, ?avg_u; reflexivity.
  Qed.
  Definition layer_units (b : layerwise R) : layerwise R :=
    {| l_lwa := scale3 (l * c) (l_lwa b); l_astar1 := scale3 (l * c) (l_astar1 b); l_astar2 := scale3 (l * c) (l_astar2 b); l_nc := scale3 (l * c * c) (l_nc b);
       l_ua1 := scale3 (l * l * c * c) (l_ua1 b); l_ua2 := scale3 (l * l * c * c) (l_ua2 b); l_ep1 := scale3 (l * l * c * c) (l_ep1 b);
       l_ep2 := scale3 (l * l * c * c) (l_ep2 b); l_ep3 := scale3 (l * l * c * c) (l_ep3 b); l_ep4 := scale2 (l * c * c) (l_ep4 b) |}.
  Lemma layerwise_u : layerwise_terms C' n' s' = layer_units (layerwise_terms C n s).
  Proof.
    unfold layerwise_terms, layer_units. cbv zeta. cbn [l_lwa l_astar1 l_astar2 l_nc l_ua1 l_ua2 l_ep1 l_ep2 l_ep3 l_ep4].
    rewrite !k_astar1_u, !k_astar2_u, !k_ncforce_u, !k_ua1_u, !k_ua2_u, !k_ep1_u, !k_ep2_u, !k_ep3_u, !k_ep4_u.
    rewrite !(global3_u (l * c) _ _ _ _ eq_refl eq_refl), !(global3_u (l * l * c * c) _ _ _ _ eq_refl eq_refl), (global2_u (l * c * c) _ _ _ _ eq_refl eq_refl).
    f_equal; first [apply global3_u; [reflexivity|apply opp3; reflexivity]|reflexivity|idtac].
    ex3. unfold scale3. toR. ring.
  Qed.

  Variable b : baro R.
  Lemma div_u : div_momentum_flux C' (baro_units b) = scale2 (l * c * c) (div_momentum_flux C b).
  Proof. ex2. unfold div_momentum_flux. change (out_clat C' (j - 1)) with (out_clat C (j - 1)). cbn [baro_units b_ep2 b_ep3]. unfold scale2. pj. toR. un c l kt. Qed.
  Lemma lambda_u : zonal_flux (baro_units b) = scale2 (l * l * c * c) (zonal_flux b).
  Proof. ex2. unfold zonal_flux. cbn [baro_units b_ua1 b_ua2 b_ep1]. unfold scale2. toR. ring. Qed.
  Lemma phi_u : flux_vector_phi C' f' r' = scale2 (l * l * c * c) (flux_vector_phi C f r).
  Proof.
    ex2. unfold flux_vector_phi. cbv zeta. pj. cbn [fields_units refs_units u_ v_ uref_]. set (off := if p_nh C then (p_eq C - 1)%nat else 0%nat).
    match goal with |- avg C' ?x i j = _ => replace x with (scale3 (l * l * c * c) (fun i' j' k' => (- ((u_ f i' (off + j')%nat k' - uref_ r j' k') * v_ f i' (off + j')%nat k' * p_clat C (off + j' - 1)%nat))%num)); [rewrite avg_u; reflexivity|] end.
    extensionality a. extensionality d. extensionality e. unfold scale3, scale2. toR. ring.
  Qed.
  Lemma stretch_term_u : stretch_term C' f' av' r' = match stretch_term C f av r with Some d => Some (scale3 (l * c * c) d) | None => None end.
  Proof.
    unfold stretch_term. cbv zeta. unfold z_derivative_of_prod. pj. destruct (_ && _); cbn [option_map]; [|reflexivity]. apply (f_equal (@Some (arr3 R))). ex3. unfold scale3 at 1.
    cbn [fields_units av_units refs_units v_ theta_ stat_n stat_s ptref_].
    set (pt := fun j k => if p_nh C then (if Nat.leb j (p_nlat C - p_eq C) then nzero else ptref_ r (j - (p_nlat C - p_eq C))%nat k) else ptref_ r j k).
    match goal with |- (- z_der _ _ _ ?x _ _ _)%num = _ * (- z_der _ _ _ ?y _ _ _)%num => assert (E : forall a d e, x a d e = l * l * c * y a d e) end.
    { intros a d e. unfold to_be_diff. assert (St : stability_temp (p_eq C) (scale1 (/ l * kt) (stat_n av)) (scale1 (/ l * kt) (stat_s av)) a d = / l * kt * stability_temp (p_eq C) (stat_n av) (stat_s av) a d).
      { unfold stability_temp, scale1. destruct (Nat.ltb _ _); [toR; ring|]. destruct (Nat.eqb _ _); toR; unfold Rdiv; ring. }
      rewrite St. unfold pt, scale1, scale2, scale3. toR. rewrite ratio_neg by assumption. destruct (p_nh C); [destruct (Nat.leb _ _)|]; un c l kt. }
    match goal with |- (- z_der _ _ _ ?x _ _ _)%num = _ * (- z_der _ _ _ ?y _ _ _)%num => set (X := x) in *; set (Y := y) in *; clearbody X Y end.
    unfold z_der. rewrite !E. unfold scale1. toR. rewrite !ratio by assumption. destruct (Nat.eqb _ _); [un c l kt|]. destruct (Nat.eqb _ _); un c l kt.
  Qed.
  (** rows at the poles are not divided by the radius, utilities.py:226-231 *)
  Definition conv_factor (j : nat) : R := if Rltb (p_tol C) (Rabs (out_clat C (j - 1))) then l * c * c else l * l * c * c.
  Lemma conv_u : conv_zonal_flux C' (baro_units b) = fun i j => conv_factor j * conv_zonal_flux C b i j.
  Proof.
    ex2. unfold conv_zonal_flux, zonal_convergence, conv_factor. change (out_clat C' (j - 1)) with (out_clat C (j - 1)). pj. rewrite lambda_u.
    assert (E : zonal_diff (p_nlon C) (fun j' i' => scale2 (l * l * c * c) (zonal_flux b) (i' + 1)%nat (j' + 1)%nat) (j - 1) (i - 1)
      = l * l * c * c * zonal_diff (p_nlon C) (fun j' i' => zonal_flux b (i' + 1)%nat (j' + 1)%nat) (j - 1) (i - 1)).
    { unfold zonal_diff, scale2. destruct (Nat.eqb _ _); [toR; ring|]. destruct (Nat.eqb _ _); toR; ring. }
    rewrite E. toR. destruct (Rltb _ _); [un c l kt|reflexivity].
  Qed.
End PipelineUnits.
