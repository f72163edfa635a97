(** Proofs: averages and reference states do not change under a relabelling of the longitudes. *)
From Verif Require Import Base BaseFacts Spec SpecFacts Flux FluxSpec FluxProofs Utilities UtilitiesProofs Qgpv QgpvSpec QgpvProofs
  Pipeline PipelineSpec PipelineProofs RefStates RefStatesSpec RefStatesProofs RefStatesProofs5 DirInv RotateSpec RotateProofs.
From Coq Require Import FunctionalExtensionality Permutation.
Open Scope R_scope.

Section States.
  Variable c : pconf R.
  Variable s : nat.
  Hypothesis G : centred c.
  Local Notation n := (p_nlat c).
  Local Notation e := (p_eq c).
  Local Notation nl := (p_nlon c).
  Local Notation tn := (turn c s).

  Lemma t0_turned th th' : (forall j i, (j < n)%nat -> (i < nl)%nat -> th' j i = th j ((i + s) mod nl)%nat) ->
    t0_south c th' = t0_south c th /\ t0_north c th' = t0_north c th.
  Proof.
    intros H. destruct (gsz c G) as (A1 & A2 & A3 & A4 & A5 & A6).
    assert (X : forall j, (j < n)%nat -> rsum nl (fun i => th' j i * p_clat c j) = rsum nl (fun i => th j i * p_clat c j)).
    { intros j Hj. rewrite <- (rsum_turn c s G (fun i => th j i * p_clat c j)). apply rsum_ext. intros i Hi. rewrite H by assumption. reflexivity. }
    unfold t0_south, t0_north. cbn [nmul RNum]. split; f_equal; apply rsum_ext; intros r Hr; cbv zeta; rewrite X by lia; reflexivity.
  Qed.
  Lemma domain_turned spline dspline th th' : turned_raw c s th th' ->
    domain_nh18 c spline dspline th' = domain_nh18 c spline dspline th /\ domain_nhn22 c spline dspline th' = domain_nhn22 c spline dspline th.
  Proof.
    intros H. assert (E1 : (fun l => t0_south c (th' l)) = (fun l => t0_south c (th l))) by (extensionality l; apply t0_turned; auto).
    assert (E2 : (fun l => t0_north c (th' l)) = (fun l => t0_north c (th l))) by (extensionality l; apply t0_turned; auto).
    unfold domain_nh18, domain_nhn22. rewrite E1, E2. split; reflexivity.
  Qed.

  Lemma rows_clip x x' : turned c s x x' -> forall j k, Permutation (map (fun i => clip3 c x i j k) (seq 1 nl)) (map (fun i => clip3 c x' i j k) (seq 1 nl)).
  Proof. intros H j k. apply (circle_perm c s G). intros i Hi. rewrite (clip_cols c s G x x' H i Hi). reflexivity. Qed.

  (** ** NH18 *)
  Lemma nh18_pole npart maxit tol rjac : (2 <= npart)%nat -> pole_to_pole (nh18_dims c npart maxit tol rjac).
  Proof. intros N. destruct G as (A1 & A2 & A3 & A4 & A5 & A6 & A7 & A8). unfold pole_to_pole, nh18_dims. cbn. repeat split; try assumption; lia. Qed.
  Lemma solver_turned npart maxit tol rjac stat g1 g2 x y z x' y' z' : (2 <= npart)%nat -> turned c s x x' -> turned c s y y' -> turned c s z z' ->
    let S := nh18_solver c npart maxit tol rjac stat g1 g2 in
    let r := S (clip3 c x) (clip3 c y) (clip3 c z) in let r' := S (clip3 c x') (clip3 c y') (clip3 c z') in
    forall j k, (1 <= j <= e)%nat -> lev_ok c k -> qref_ r' j k = qref_ r j k /\ uref_ r' j k = uref_ r j k /\ ptref_ r' j k = ptref_ r j k.
  Proof.
    intros N Hx Hy Hz S r r' j k Hj Hk.
    destruct (rows_only (nh18_dims c npart maxit tol rjac) (clip3 c x) (clip3 c y) (clip3 c z) (clip3 c x') (clip3 c y') (clip3 c z') (one_based stat) g1 g2
      (nh18_pole npart maxit tol rjac N)) as (_ & Q & U); try (intros j' k' _; apply rows_clip; assumption).
    destruct (U j k Hj Hk) as [U1 U2]. unfold r, r', S, nh18_solver. cbn [qref_ uref_ ptref_]. split; [symmetry; apply Q|]. split; symmetry; assumption.
  Qed.
  Lemma set_nhem_same m (o v v' : nat -> R) j : (m <= rows c)%nat -> row_ok c j -> (forall r, (1 <= r <= m)%nat -> v' r = v r) -> set_nhem c m o v' j = set_nhem c m o v j.
  Proof. intros Hm Hj H. unfold set_nhem, row_ok in *. destruct (Nat.leb_spec j (rows c - m)); [reflexivity|]. apply H. lia. Qed.
  Lemma set_shem_same m (o o' v v' : nat -> R) j : (1 <= j)%nat -> o' j = o j -> (forall r, (1 <= r <= m)%nat -> v' r = v r) -> set_shem m o' v' j = set_shem m o v j.
  Proof. intros Hj Ho H. unfold set_shem. destruct (Nat.leb_spec j m); [apply H; lia|exact Ho]. Qed.
  Lemma rows_eq : (e <= rows c)%nat.
  Proof. destruct (gsz c G) as (A1 & A2 & _). unfold rows. destruct (p_nh c); lia. Qed.
  Lemma store_same mq m old vn vn' vs vs' : (mq <= rows c)%nat -> (m <= rows c)%nat ->
    (forall j k, lev_ok c k -> ((1 <= j <= mq)%nat -> qref_ vn' j k = qref_ vn j k /\ qref_ vs' j k = qref_ vs j k) /\
      ((1 <= j <= m)%nat -> uref_ vn' j k = uref_ vn j k /\ uref_ vs' j k = uref_ vs j k /\ ptref_ vn' j k = ptref_ vn j k /\ ptref_ vs' j k = ptref_ vs j k)) ->
    same_refs c (store_north c mq m old vn) (store_north c mq m old vn') /\
    same_refs c (store_south mq m (store_north c mq m old vn) vs) (store_south mq m (store_north c mq m old vn') vs').
  Proof.
    intros Hq Hm H. unfold row_ok in *.
    assert (N : same_refs c (store_north c mq m old vn) (store_north c mq m old vn')).
    { split; [|split]; intros j k Hj Hk; cbn [store_north qref_ uref_ ptref_]; apply set_nhem_same; try assumption; intros r Hr; destruct (H r k Hk) as [H1 H2]; try apply (H1 Hr); apply (H2 Hr). }
    split; [exact N|]. destruct N as (N1 & N2 & N3).
    split; [|split]; intros j k Hj Hk; cbn [store_south qref_ uref_ ptref_]; apply set_shem_same; try (unfold row_ok in Hj; lia);
      try (apply N1; assumption); try (apply N2; assumption); try (apply N3; assumption); intros r Hr; destruct (H r k Hk) as [H1 H2]; try apply (H1 Hr); apply (H2 Hr).
  Qed.

  Variables f f' : fields R.
  Hypothesis Ff : turned_state c s f f'.
  Lemma refs_nh18_turned npart maxit tol rjac stat g1 g2 q q' old : (2 <= npart)%nat -> turned c s q q' ->
    let S := nh18_solver c npart maxit tol rjac stat g1 g2 in
    same_refs c (refs_nh18 c S q f old) (refs_nh18 c S q' f' old).
  Proof.
    intros N Hq S. destruct Ff as (Hu & Hv & Ht). unfold refs_nh18.
    set (vn := S (clip3 c q) _ _). set (vn' := S (clip3 c q') _ _). set (vs := S (clip3 c (neg3 (flip3 c q))) _ _). set (vs' := S (clip3 c (neg3 (flip3 c q'))) _ _).
    assert (R0 := rows_eq).
    destruct (store_same e e old vn vn' vs vs' R0 R0) as [K1 K2]; [|destruct (p_nh c); assumption].
    intros j k Hk.
    assert (A : (1 <= j <= e)%nat -> qref_ vn' j k = qref_ vn j k /\ uref_ vn' j k = uref_ vn j k /\ ptref_ vn' j k = ptref_ vn j k).
    { intros Hj. unfold vn, vn', S. apply solver_turned; assumption. }
    assert (B : (1 <= j <= e)%nat -> qref_ vs' j k = qref_ vs j k /\ uref_ vs' j k = uref_ vs j k /\ ptref_ vs' j k = ptref_ vs j k).
    { intros Hj. unfold vs, vs', S. apply solver_turned; try assumption; try apply neg_turned; apply flip_turned; assumption. }
    clearbody vn vn' vs vs'.
    split; intros Hj; destruct (A Hj) as (A1 & A2 & A3); destruct (B Hj) as (B1 & B2 & B3); auto.
  Qed.

  (** ** NHN22: everything depends on the latitude circles only *)
  Lemma zonal_mean_turned x x' r k : turned c s x x' -> RefStates.zonal_mean (nhn22_dims c) (clip3 c x') r k = RefStates.zonal_mean (nhn22_dims c) (clip3 c x) r k.
  Proof.
    intros H. unfold RefStates.zonal_mean. cbn [nhn22_dims s_nlon s_jd].
    set (row := (r + (n / 2 + n mod 2) - 1)%nat).
    rewrite (loop_sum nl _ (fun i => clip3 c x' i row k / INR nl)) by (intros; rewrite nofnat_INR; reflexivity).
    rewrite (loop_sum nl _ (fun i => clip3 c x i row k / INR nl)) by (intros; rewrite nofnat_INR; reflexivity).
    rewrite <- (Sum_turn c s G (fun i => clip3 c x i row k / INR nl)). apply Sum_ext. intros i Hi. rewrite (clip_cols c s G x x' H i) by (unfold lon_ok; lia). reflexivity.
  Qed.
  Section Circles.
    Let P := nhn22_dims c.
    Lemma P_sizes : (1 <= s_nlon P)%nat /\ (1 <= s_jd P)%nat /\ s_nlat P = (2 * s_jd P - 1)%nat.
    Proof.
      destruct (gsz c G) as (A1 & A2 & _ & _ & A5 & _). unfold P. cbn [nhn22_dims s_nlon s_jd s_nlat]. rewrite A2.
      replace (2 * e - 1)%nat with (1 + (e - 1) * 2)%nat by lia. rewrite Nat.div_add, Nat.mod_add by lia. cbn [Nat.div Nat.modulo Nat.divmod fst snd Nat.sub]. lia.
    Qed.
    Lemma qref0_turned x x' : turned c s x x' -> @qref0 R RNum RTrunc P (clip3 c x') = @qref0 R RNum RTrunc P (clip3 c x).
    Proof.
      intros H. destruct P_sizes as (B1 & B2 & B3).
      assert (E : same_rows P (clip3 c x') (clip3 c x)) by (intros j k _; apply Permutation_sym; apply rows_clip; exact H).
      unfold qref0, at_row, bracketed, aan, qn.
      rewrite (an_same P B1 B2 B3 _ _ E), (dq_same P B1 B2 B3 _ _ E), (qmax_same P B1 B2 B3 _ _ E). reflexivity.
    Qed.
    Lemma ckref_turned x x' : turned c s x x' -> @ckref R RNum RTrunc P (clip3 c x') = @ckref R RNum RTrunc P (clip3 c x).
    Proof.
      intros H. destruct P_sizes as (B1 & B2 & B3).
      assert (E : same_rows P (clip3 c x') (clip3 c x)) by (intros j k _; apply Permutation_sym; apply rows_clip; exact H).
      unfold ckref, at_row, bracketed, aan, ccn. rewrite (an_same P B1 B2 B3 _ _ E), (cn_same P B1 B2 B3 _ _ E). reflexivity.
    Qed.
    Lemma inversion_turned inverse tn0 x u v t x' u' v' t' t0 stat : turned c s x x' -> turned c s v v' -> turned c s t t' ->
      nhn22_inversion c inverse tn0 (clip3 c x') (clip3 c u') (clip3 c v') (clip3 c t') t0 stat = nhn22_inversion c inverse tn0 (clip3 c x) (clip3 c u) (clip3 c v) (clip3 c t) t0 stat.
    Proof.
      intros Hx Hv Ht. unfold nhn22_inversion. fold P.
      assert (Q : @d_qref R RNum RTrunc P (clip3 c x') = @d_qref R RNum RTrunc P (clip3 c x)) by (unfold d_qref, d_qref1; rewrite (qref0_turned x x' Hx); reflexivity).
      assert (T : @t_top R RNum P (p_jb c) (clip3 c t') = @t_top R RNum P (p_jb c) (clip3 c t)).
      { extensionality i. unfold t_top. rewrite !(zonal_mean_turned t t') by exact Ht. reflexivity. }
      assert (C := ckref_turned v v' Hv).
      assert (B : @u_bound R RNum RTrunc P (p_jb c) (clip3 c v') = @u_bound R RNum RTrunc P (p_jb c) (clip3 c v)) by (unfold u_bound; rewrite C; reflexivity).
      assert (Fj : @d_fjk R RNum RTrunc P (p_jb c) (clip3 c x') = @d_fjk R RNum RTrunc P (p_jb c) (clip3 c x)) by (unfold d_fjk; rewrite Q; reflexivity).
      assert (D : @down R RNum RTrunc P (p_jb c) (clip3 c x') (clip3 c v') (clip3 c t') (one_based stat) inverse = @down R RNum RTrunc P (p_jb c) (clip3 c x) (clip3 c v) (clip3 c t) (one_based stat) inverse).
      { extensionality m. induction m as [|m IH]; cbn [down]; [rewrite T; reflexivity|]. rewrite IH. destruct (down _ _ _ _ _ _ _ m) as [sj tj]. f_equal.
        unfold t_next, rj. rewrite Fj, B. reflexivity. }
      assert (Pj : @pjk R RNum RTrunc P (p_jb c) (clip3 c x') (clip3 c v') (clip3 c t') (one_based stat) inverse = @pjk R RNum RTrunc P (p_jb c) (clip3 c x) (clip3 c v) (clip3 c t) (one_based stat) inverse).
      { extensionality k. induction k as [|k IH]; [reflexivity|]. extensionality i. destruct k as [|k]; [reflexivity|].
        change (mat_vec (d_n P (p_jb c)) (sjk P (p_jb c) (clip3 c x') (clip3 c v') (clip3 c t') (one_based stat) inverse (S k)) (pjk P (p_jb c) (clip3 c x') (clip3 c v') (clip3 c t') (one_based stat) inverse (S k)) i
                + tjk P (p_jb c) (clip3 c x') (clip3 c v') (clip3 c t') (one_based stat) inverse (S k) i =
                mat_vec (d_n P (p_jb c)) (sjk P (p_jb c) (clip3 c x) (clip3 c v) (clip3 c t) (one_based stat) inverse (S k)) (pjk P (p_jb c) (clip3 c x) (clip3 c v) (clip3 c t) (one_based stat) inverse (S k)) i
                + tjk P (p_jb c) (clip3 c x) (clip3 c v) (clip3 c t) (one_based stat) inverse (S k) i).
        rewrite IH. unfold sjk, tjk. rewrite D. reflexivity. }
      assert (U : @d_uref R RNum RTrunc P (p_jb c) (clip3 c x') (clip3 c v') (clip3 c t') (one_based stat) inverse = @d_uref R RNum RTrunc P (p_jb c) (clip3 c x) (clip3 c v) (clip3 c t) (one_based stat) inverse).
      { unfold d_uref, d_u1, d_u0. rewrite Pj, C. reflexivity. }
      assert (T0 : forall k, @d_tref0 R RNum RTrunc P (p_jb c) (clip3 c x') (clip3 c v') (clip3 c t') (one_based stat) inverse k = @d_tref0 R RNum RTrunc P (p_jb c) (clip3 c x) (clip3 c v) (clip3 c t) (one_based stat) inverse k).
      { intros k. extensionality j. assert (Y : forall m, @d_tref0 R RNum RTrunc P (p_jb c) (clip3 c x') (clip3 c v') (clip3 c t') (one_based stat) inverse k m = @d_tref0 R RNum RTrunc P (p_jb c) (clip3 c x) (clip3 c v) (clip3 c t) (one_based stat) inverse k m /\
            @d_tref0 R RNum RTrunc P (p_jb c) (clip3 c x') (clip3 c v') (clip3 c t') (one_based stat) inverse k (S m) = @d_tref0 R RNum RTrunc P (p_jb c) (clip3 c x) (clip3 c v) (clip3 c t) (one_based stat) inverse k (S m)).
        { induction m as [|m [I1 I2]]; [split; reflexivity|]. split; [exact I2|]. destruct m as [|m]; [reflexivity|].
          change (d_tref0 P (p_jb c) (clip3 c x') (clip3 c v') (clip3 c t') (one_based stat) inverse k (S m) + 2 * d_ty P (p_jb c) (clip3 c x') (clip3 c v') (clip3 c t') (one_based stat) inverse k (S (S m)) * DirInv.dp P =
                  d_tref0 P (p_jb c) (clip3 c x) (clip3 c v) (clip3 c t) (one_based stat) inverse k (S m) + 2 * d_ty P (p_jb c) (clip3 c x) (clip3 c v) (clip3 c t) (one_based stat) inverse k (S (S m)) * DirInv.dp P).
          rewrite I1. unfold d_ty. rewrite U. reflexivity. }
        apply Y. }
      f_equal.
      - rewrite Q. reflexivity.
      - exact U.
      - unfold d_tref, d_tref1, d_tg. extensionality j. extensionality k. rewrite !T0. reflexivity.
    Qed.
  End Circles.
  Lemma refs_nhn22_turned inverse tn0 q q' a a' av old : turned c s q q' -> turned c s a a' ->
    same_refs c (refs_nhn22 c (nhn22_inversion c inverse tn0) q a f av old) (refs_nhn22 c (nhn22_inversion c inverse tn0) q' a' f' av old).
  Proof.
    intros Hq Ha. destruct Ff as (Hu & Hv & Ht). unfold refs_nhn22.
    rewrite (inversion_turned inverse tn0 q (u_ f) a (theta_ f) q' (u_ f') a' (theta_ f')) by assumption.
    rewrite (inversion_turned inverse tn0 (neg3 (flip3 c q)) (flip3 c (u_ f)) (flip3 c a) (flip3 c (theta_ f)) (neg3 (flip3 c q')) (flip3 c (u_ f')) (flip3 c a') (flip3 c (theta_ f')))
      by (try apply neg_turned; apply flip_turned; assumption).
    destruct (p_nh c); split; [|split| |split]; intros j k Hj Hk; reflexivity.
  Qed.
End States.
