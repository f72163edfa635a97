(** Proofs about the reference state solver: what the results depend on. *)
From Verif Require Import Base BaseFacts Spec SpecFacts Flux FluxSpec FluxProofs RefStates RefStatesSpec RefStatesProofs RefStatesProofs2 RefStatesProofs3 RefStatesProofs4.
From Verif Require QGState PipelineSpec.
From Coq Require Import FunctionalExtensionality Permutation ZifyNat.
Ltac Zify.zify_post_hook ::= Z.to_euclidean_division_equations.
Open Scope R_scope.

Section Rows.
  Variable P : rsdims R.
  Hypothesis Hlon : (1 <= s_nlon P)%nat.
  Hypothesis Hjd : (1 <= s_jd P)%nat.
  Hypothesis Hlat : s_nlat P = (2 * s_jd P - 1)%nat.
  Definition row (x : arr3 R) (j k : nat) : list R := map (fun i => x i j k) (seq 1 (s_nlon P)).
  Definition same_rows (x y : arr3 R) : Prop := forall j k, (1 <= j <= s_nlat P)%nat -> Permutation (row x j k) (row y j k).
  Definition same_north_rows (x y : arr3 R) : Prop := forall j k, (s_jd P <= j <= s_nlat P)%nat -> Permutation (row x j k) (row y j k).

  Lemma Sum_row x j k f : Sum 1 (s_nlon P + 1) (fun i => f (x i j k)) = SumL (row x j k) f.
  Proof. unfold row. rewrite SumL_map. rewrite <- SumL_range. unfold range. replace (s_nlon P + 1 - 1)%nat with (s_nlon P) by lia. reflexivity. Qed.
  Lemma Sum_same x y j k f : Permutation (row x j k) (row y j k) ->
    Sum 1 (s_nlon P + 1) (fun i => f (x i j k)) = Sum 1 (s_nlon P + 1) (fun i => f (y i j k)).
  Proof. intros E. rewrite !Sum_row. apply SumL_perm. exact E. Qed.
  Lemma in_row x j k v : In v (row x j k) <-> exists i, (1 <= i <= s_nlon P)%nat /\ x i j k = v.
  Proof.
    unfold row. rewrite in_map_iff. split.
    - intros (i & E & Hi). apply in_seq in Hi. exists i. split; [lia|exact E].
    - intros (i & Hi & E). exists i. split; [exact E|]. apply in_seq. lia.
  Qed.

  Variables x y : arr3 R.
  Hypothesis E : same_rows x y.
  Lemma zonal_same k r : (1 <= r <= s_jd P)%nat -> @zonal_mean R RNum P x r k = @zonal_mean R RNum P y r k.
  Proof. intros Hr. rewrite !zonal_mean_R. unfold zonal. f_equal. apply (Sum_same x y (r + s_jd P - 1) k (fun v => v)). apply E. lia. Qed.
  Lemma extremes_same k : @qmax R RNum P x k = @qmax R RNum P y k /\ @qmin R RNum P x k = @qmin R RNum P y k.
  Proof.
    destruct (level_extremes P y k Hlon ltac:(lia)) as (M & m & HM & Hm).
    assert (T : forall i j, grid_point P i j -> exists i', grid_point P i' j /\ x i j k = y i' j k).
    { intros i j [Hi Hj]. assert (I : In (x i j k) (row x j k)) by (apply in_row; exists i; auto).
      apply (Permutation_in _ (E j k Hj)) in I. apply in_row in I. destruct I as (i' & Hi' & Ei). exists i'. split; [split; assumption|symmetry; exact Ei]. }
    assert (T' : forall i j, grid_point P i j -> exists i', grid_point P i' j /\ y i j k = x i' j k).
    { intros i j [Hi Hj]. assert (I : In (y i j k) (row y j k)) by (apply in_row; exists i; auto).
      apply (Permutation_in _ (Permutation_sym (E j k Hj))) in I. apply in_row in I. destruct I as (i' & Hi' & Ei). exists i'. split; [split; assumption|symmetry; exact Ei]. }
    rewrite (qmax_level P y k M HM), (qmin_level P y k m Hm). split.
    - apply qmax_level. destruct HM as [H1 (i & j & Hg & H2)]. split.
      + intros i' j' Hg'. destruct (T i' j' Hg') as (i2 & Hg2 & ->). apply H1. exact Hg2.
      + destruct (T' i j Hg) as (i2 & Hg2 & E2). exists i2, j. split; [exact Hg2|]. rewrite <- E2. exact H2.
    - apply qmin_level. destruct Hm as [H1 (i & j & Hg & H2)]. split.
      + intros i' j' Hg'. destruct (T i' j' Hg') as (i2 & Hg2 & ->). apply H1. exact Hg2.
      + destruct (T' i j Hg) as (i2 & Hg2 & E2). exists i2, j. split; [exact Hg2|]. rewrite <- E2. exact H2.
  Qed.
  Lemma qmax_same : @qmax R RNum P x = @qmax R RNum P y. Proof. apply functional_extensionality. intros k. apply extremes_same. Qed.
  Lemma qmin_same : @qmin R RNum P x = @qmin R RNum P y. Proof. apply functional_extensionality. intros k. apply extremes_same. Qed.
  Lemma dq_same : @dq R RNum P x = @dq R RNum P y. Proof. unfold dq. rewrite qmax_same, qmin_same. reflexivity. Qed.
  Lemma an_same : @an R RNum RTrunc P x = @an R RNum RTrunc P y.
  Proof.
    apply functional_extensionality. intros k. apply functional_extensionality. intros nn. unfold an. cbn [nadd nzero RNum].
    rewrite !fold_cond_sum, !Rplus_0_l, !SumL_cells. apply Sum_ext. intros j Hj. unfold bin. cbn [fst snd]. rewrite dq_same, qmax_same.
    apply (Sum_same x y j k (fun v => if Z.eqb (Z.succ (ntrunc ((qmax P y k - v) / dq P y k))) (Z.of_nat nn) then da P j else 0)). apply E. lia.
  Qed.
  Lemma cn_same : @cn R RNum RTrunc P x = @cn R RNum RTrunc P y.
  Proof.
    apply functional_extensionality. intros k. apply functional_extensionality. intros nn. unfold cn. cbn [nadd nzero RNum].
    rewrite !fold_cond_sum, !Rplus_0_l, !SumL_cells. apply Sum_ext. intros j Hj. unfold bin. cbn [fst snd]. rewrite dq_same, qmax_same.
    apply (Sum_same x y j k (fun v => if Z.eqb (Z.succ (ntrunc ((qmax P y k - v) / dq P y k))) (Z.of_nat nn) then da P j * v else 0)). apply E. lia.
  Qed.
  Lemma qref_same : @rs_qref R RNum RTrunc P x = @rs_qref R RNum RTrunc P y.
  Proof.
    unfold rs_qref, qref1, qref0, at_row, bracketed, aan, qn. rewrite an_same, dq_same, qmax_same. reflexivity.
  Qed.
  Lemma cref_same g : @cref R RNum RTrunc P x g = @cref R RNum RTrunc P y g.
  Proof. unfold cref, at_row, bracketed, aan, ccn. rewrite an_same, cn_same. reflexivity. Qed.
  Lemma cbar_from_same k m : (m <= s_jd P - 1)%nat -> @cbar_from R RNum P x k m = @cbar_from R RNum P y k m.
  Proof.
    induction m as [|m IH]; intros Hm; [reflexivity|]. cbn [cbar_from]. unfold qbar. rewrite IH by lia.
    rewrite !zonal_same by lia. reflexivity.
  Qed.
  Lemma cbar_same g k : @cbar R RNum P x g 1 k = @cbar R RNum P y g 1 k.
  Proof. unfold cbar. rewrite cbar_from_same by lia. reflexivity. Qed.
End Rows.

(** congruence: the solver uses its inputs only through qref, u at the equator and three zonal means *)
Section Congruence.
  Variable P : rsdims R.
  Variables pv uu pt pv' uu' pt' : arr3 R.
  Variable stat : nat -> R.
  Variables g1 g2 g1' g2' : arr2 R.
  Hypothesis G : pole_to_pole P.
  Let J3 : (3 <= s_jd P)%nat := proj1 G.
  Let K3 : (3 <= s_kmax P)%nat. Proof. exact (proj1 (proj2 (proj2 (proj2 G)))). Qed.
  Hypothesis Eq : @rs_qref R RNum RTrunc P pv = @rs_qref R RNum RTrunc P pv'.
  Hypothesis Ee : forall k, (2 <= k <= s_kmax P - 1)%nat -> @u_equator R RNum RTrunc P pv uu g1 g2 k = @u_equator R RNum RTrunc P pv' uu' g1' g2' k.
  Hypothesis Et : forall j k, (1 <= j <= s_jd P)%nat -> @tbar R RNum P pt j k = @tbar R RNum P pt' j k.
  Hypothesis Eu : forall k, @ubar R RNum P uu 1 k = @ubar R RNum P uu' 1 k.

  (** the two runs agree except possibly at the two corners of the equatorial row, which nothing uses *)
  Definition alike (u v : arr2 R) : Prop := forall j k, (1 <= j <= s_jd P)%nat -> (1 <= k <= s_kmax P)%nat -> (j = 1 -> k <> 1 /\ k <> s_kmax P)%nat -> u j k = v j k.

  Lemma resid_alike u v j k : alike u v -> inside P j k -> @resid R RNum RTrunc P pv stat u j k = @resid R RNum RTrunc P pv' stat v j k.
  Proof.
    intros A [Hj Hk]. unfold resid, fjk. rewrite Eq. rewrite !(A _ _) by lia. reflexivity.
  Qed.
  Lemma uz_top_same j : (2 <= j <= s_jd P - 1)%nat -> @uz_top R RNum P pt j = @uz_top R RNum P pt' j.
  Proof. intros Hj. unfold uz_top. rewrite !Et by lia. reflexivity. Qed.
  Lemma swept_alike n om u v : alike u v -> alike (swept P pv uu pt stat g1 g2 n om u) (swept P pv' uu' pt' stat g1' g2' n om v).
  Proof.
    intros A. assert (I : forall j k, inside P j k -> swept P pv uu pt stat g1 g2 n om u j k = swept P pv' uu' pt' stat g1' g2' n om v j k).
    { intros j k I. rewrite !swept_inside by (auto; lia). unfold relaxed. rewrite (resid_alike u v j k A I). destruct I as [Hj Hk].
      rewrite (A j k) by lia. reflexivity. }
    intros j k Hj Hk Hc. destruct (Nat.eq_dec j 1) as [->|N1].
    { rewrite !swept_equator by lia. apply Ee. lia. }
    destruct (Nat.eq_dec j (s_jd P)) as [->|N2]; [rewrite !swept_pole by lia; reflexivity|].
    destruct (Nat.eq_dec k 1) as [->|N3]; [rewrite !swept_ground by lia; reflexivity|].
    destruct (Nat.eq_dec k (s_kmax P)) as [->|N4]; [|apply I; split; lia].
    rewrite !swept_top by lia. rewrite uz_top_same by lia. f_equal.
    destruct (Nat.eq_dec (s_kmax P - 2) 1) as [X|X]; [rewrite X, !swept_ground by lia; reflexivity|apply I; split; lia].
  Qed.
  Lemma anormf_same : @anormf R RNum RTrunc P pv = @anormf R RNum RTrunc P pv'.
  Proof. unfold anormf, fjk. rewrite Eq. reflexivity. Qed.
  Lemma norm_alike n u v : alike u v -> norm_colour P n (@resid R RNum RTrunc P pv stat u) = norm_colour P n (@resid R RNum RTrunc P pv' stat v).
  Proof.
    intros A. unfold norm_colour. apply Sum_ext. intros j Hj. apply Sum_ext. intros k Hk. destruct (colour n j k); [|reflexivity].
    rewrite (resid_alike u v j k A); [reflexivity|split; lia].
  Qed.
  Lemma iterate_alike fuel : forall n om u v, alike u v ->
    alike (fst (@iterate R RNum RTrunc P pv uu pt stat g1 g2 fuel n om u)) (fst (@iterate R RNum RTrunc P pv' uu' pt' stat g1' g2' fuel n om v)) /\
    snd (@iterate R RNum RTrunc P pv uu pt stat g1 g2 fuel n om u) = snd (@iterate R RNum RTrunc P pv' uu' pt' stat g1' g2' fuel n om v).
  Proof.
    induction fuel as [|fuel IH]; intros n om u v A.
    - cbn [iterate fst snd]. split; [intros j k _ _ _; reflexivity|reflexivity].
    - cbn [iterate]. rewrite !sweep_eq by lia. rewrite anormf_same, (norm_alike n u v A).
      destruct (Nat.ltb 1 n && _); [split; [apply swept_alike; exact A|reflexivity]|]. apply IH. apply swept_alike. exact A.
  Qed.
  Lemma solution_alike : alike (fst (@solution R RNum RTrunc P pv uu pt stat g1 g2)) (fst (@solution R RNum RTrunc P pv' uu' pt' stat g1' g2')) /\
    snd (@solution R RNum RTrunc P pv uu pt stat g1 g2) = snd (@solution R RNum RTrunc P pv' uu' pt' stat g1' g2').
  Proof. apply iterate_alike. intros j k _ _ _. reflexivity. Qed.
  Lemma uref_same j k : (1 <= j <= s_jd P)%nat -> (1 <= k <= s_kmax P)%nat ->
    @rs_uref R RNum RTrunc P pv uu pt stat g1 g2 j k = @rs_uref R RNum RTrunc P pv' uu' pt' stat g1' g2' j k.
  Proof.
    intros Hj Hk. assert (U : forall j, (1 <= j <= s_jd P)%nat -> @uref1 R RNum RTrunc P pv uu pt stat g1 g2 j k = @uref1 R RNum RTrunc P pv' uu' pt' stat g1' g2' j k).
    { intros j' Hj'. unfold uref1. destruct (Nat.eqb_spec j' 1); [apply Eu|]. destruct solution_alike as [A _]. rewrite (A j' k) by lia. reflexivity. }
    unfold rs_uref. rewrite !U by lia. reflexivity.
  Qed.
  Lemma tref_same j k : (1 <= j <= s_jd P)%nat -> (1 <= k <= s_kmax P)%nat ->
    @rs_tref R RNum RTrunc P pv uu pt stat g1 g2 j k = @rs_tref R RNum RTrunc P pv' uu' pt' stat g1' g2' j k.
  Proof.
    intros Hj Hk. assert (T0 : forall k j, (2 <= k <= s_kmax P - 1)%nat -> (j <= s_jd P)%nat ->
      @tref0 R RNum RTrunc P pv uu pt stat g1 g2 k j = @tref0 R RNum RTrunc P pv' uu' pt' stat g1' g2' k j).
    { intros k' j' Hk'. assert (X : forall n, (forall j, (j <= n)%nat -> (j <= s_jd P)%nat -> @tref0 R RNum RTrunc P pv uu pt stat g1 g2 k' j = @tref0 R RNum RTrunc P pv' uu' pt' stat g1' g2' k' j)).
      { induction n as [|n IH]; intros jj Hn Hjj; [assert (jj = 0)%nat by lia; subst jj; reflexivity|].
        destruct (Nat.le_gt_cases jj 2) as [Y|Y]; [assert (Z : (jj = 0 \/ jj = 1 \/ jj = 2)%nat) by lia; destruct Z as [-> | [-> | ->]]; cbn [tref0]; reflexivity|].
        replace jj with (jj - 1 + 1)%nat by lia. rewrite !tref0_S by lia. rewrite (IH (jj - 1 - 1)%nat) by lia. unfold ty. rewrite !uref_same by lia. reflexivity. }
      apply (X j'). lia. }
    assert (Tb : forall k, @tb R RNum P pt k = @tb R RNum P pt' k).
    { intros k'. rewrite !tb_R by exact G. apply mean_ext. intros j' Hj'. rewrite <- !zonal_mean_R. apply Et. exact Hj'. }
    assert (T1 : forall k, (2 <= k <= s_kmax P - 1)%nat -> @tref1 R RNum RTrunc P pv uu pt stat g1 g2 j k = @tref1 R RNum RTrunc P pv' uu' pt' stat g1' g2' j k).
    { intros k' Hk'. unfold tref1. rewrite T0, Tb by lia.
      assert (Tg : @tg R RNum RTrunc P pv uu pt stat g1 g2 k' = @tg R RNum RTrunc P pv' uu' pt' stat g1' g2' k').
      { rewrite !tg_R. apply mean_ext. intros j' Hj'. apply T0; lia. }
      rewrite Tg. reflexivity. }
    unfold rs_tref. rewrite !Tb. destruct (Nat.eqb_spec k (s_kmax P)); [rewrite T1 by lia; reflexivity|]. destruct (Nat.eqb_spec k 1); rewrite T1 by lia; reflexivity.
  Qed.
End Congruence.

Section Dependence.
  Variable P : rsdims R.
  Variables pv uu pt pv' uu' pt' : arr3 R.
  Variable stat : nat -> R.
  Variables g1 g2 g1' g2' : arr2 R.
  Hypothesis G : pole_to_pole P.
  Let J3 : (3 <= s_jd P)%nat := proj1 G.

  Lemma rows_only : same_rows P pv pv' -> same_rows P uu uu' -> same_rows P pt pt' ->
    @rs_num_of_iter R RNum RTrunc P pv uu pt stat g1 g2 = @rs_num_of_iter R RNum RTrunc P pv' uu' pt' stat g1 g2 /\
    (forall j k, @rs_qref R RNum RTrunc P pv j k = @rs_qref R RNum RTrunc P pv' j k) /\
    (forall j k, (1 <= j <= s_jd P)%nat -> (1 <= k <= s_kmax P)%nat ->
       @rs_uref R RNum RTrunc P pv uu pt stat g1 g2 j k = @rs_uref R RNum RTrunc P pv' uu' pt' stat g1 g2 j k /\
       @rs_tref R RNum RTrunc P pv uu pt stat g1 g2 j k = @rs_tref R RNum RTrunc P pv' uu' pt' stat g1 g2 j k).
  Proof.
    intros E1 E2 E3. assert (G' := G). destruct G' as (_ & N & L & _).
    assert (Q := qref_same P L ltac:(lia) N pv pv' E1).
    assert (Eu : forall k, @ubar R RNum P uu 1 k = @ubar R RNum P uu' 1 k) by (intros k; apply zonal_same; auto; lia).
    assert (Ee : forall k, (2 <= k <= s_kmax P - 1)%nat -> @u_equator R RNum RTrunc P pv uu g1 g2 k = @u_equator R RNum RTrunc P pv' uu' g1 g2 k).
    { intros k _. unfold u_equator. rewrite Eu, (cref_same P L ltac:(lia) N pv pv' E1), (cbar_same P L ltac:(lia) N pv pv' E1). reflexivity. }
    assert (Et : forall j k, (1 <= j <= s_jd P)%nat -> @tbar R RNum P pt j k = @tbar R RNum P pt' j k) by (intros j k Hj; apply zonal_same; auto; lia).
    split; [|split].
    - unfold rs_num_of_iter. apply solution_alike; assumption.
    - intros j k. rewrite Q. reflexivity.
    - intros j k Hj Hk. split; [apply uref_same|apply tref_same]; assumption.
  Qed.
  (** the uninitialised local arrays *)
  Lemma cref_found k : (2 <= k <= s_kmax P - 1)%nat -> 0 < s_a P -> (exists M m, level_max P pv k M /\ level_min P pv k m /\ m < M) ->
    cap_area P 1 < @aan R RNum RTrunc P pv k (s_npart P) -> @cref R RNum RTrunc P pv g1 1 k = @cref R RNum RTrunc P pv g1' 1 k.
  Proof.
    intros Hk Ha (M & m & HM & Hm & Hmm) B. assert (G' := G). destruct G' as (_ & _ & _ & _ & Np & _). unfold cref. rewrite interior_true by exact Hk. destruct (Nat.ltb_spec 1 (s_jd P)); [|lia]. cbn [andb].
    destruct (bracket_exists P pv k Np 1) as (nn & Hn & Hb); [split; [apply cap_area_pos; auto; lia|exact B]|].
    rewrite !(at_row_bracketed P pv k M m HM Hm Hmm Np (cell_area_nonneg P G Ha) 1 nn) by assumption. reflexivity.
  Qed.
  Lemma garbage_free : 0 < s_a P ->
    (forall k, (2 <= k <= s_kmax P - 1)%nat -> (exists M m, level_max P pv k M /\ level_min P pv k m /\ m < M) /\ cap_area P 1 < @aan R RNum RTrunc P pv k (s_npart P)) ->
    @rs_num_of_iter R RNum RTrunc P pv uu pt stat g1 g2 = @rs_num_of_iter R RNum RTrunc P pv uu pt stat g1' g2' /\
    (forall j k, (1 <= j <= s_jd P)%nat -> (1 <= k <= s_kmax P)%nat ->
       @rs_uref R RNum RTrunc P pv uu pt stat g1 g2 j k = @rs_uref R RNum RTrunc P pv uu pt stat g1' g2' j k /\
       @rs_tref R RNum RTrunc P pv uu pt stat g1 g2 j k = @rs_tref R RNum RTrunc P pv uu pt stat g1' g2' j k).
  Proof.
    intros Ha B.
    assert (Ee : forall k, (2 <= k <= s_kmax P - 1)%nat -> @u_equator R RNum RTrunc P pv uu g1 g2 k = @u_equator R RNum RTrunc P pv uu g1' g2' k).
    { intros k Hk. unfold u_equator. destruct (B k Hk) as [X1 X2]. rewrite (cref_found k Hk Ha X1 X2). unfold cbar. rewrite interior_true by exact Hk. reflexivity. }
    split.
    - unfold rs_num_of_iter. apply solution_alike; auto.
    - intros j k Hj Hk. split; [apply uref_same|apply tref_same]; auto.
  Qed.
End Dependence.

(** the iteration count is the one of the abstract loop in QGState.v *)
Section Count.
  Variable P : rsdims R.
  Variables pv uu pt : arr3 R.
  Variable stat : nat -> R.
  Variables g1 g2 : arr2 R.
  (** relaxation factor and wind before sweep n + 1 *)
  Fixpoint trajectory (n : nat) : R * arr2 R :=
    match n with
    | O => (1, fun _ _ => 0)
    | S m => let (om, u) := trajectory m in (@next_omega R RNum P (S m) om, fst (@sweep R RNum RTrunc P pv uu pt stat g1 g2 (S m) om u))
    end.
  Definition met (n : nat) : bool :=
    let (om, u) := trajectory (n - 1) in Rltb (snd (@sweep R RNum RTrunc P pv uu pt stat g1 g2 n om u)) (s_eps P * @anormf R RNum RTrunc P pv).
  Lemma count_loop fuel : forall n, (1 <= n)%nat ->
    snd (@iterate R RNum RTrunc P pv uu pt stat g1 g2 fuel n (fst (trajectory (n - 1))) (snd (trajectory (n - 1)))) = QGState.sor_loop fuel n met.
  Proof.
    induction fuel as [|fuel IH]; intros n Hn; [reflexivity|]. cbn [iterate QGState.sor_loop]. unfold met at 1.
    destruct (trajectory (n - 1)) as [om u] eqn:T. cbn [fst snd]. destruct (@sweep R RNum RTrunc P pv uu pt stat g1 g2 n om u) as [u' an] eqn:Sw. cbn [snd].
    change (nltb an (nmul (s_eps P) (anormf P pv))) with (Rltb an (s_eps P * anormf P pv)). destruct (Nat.ltb 1 n && Rltb an (s_eps P * anormf P pv))%bool; [reflexivity|].
    replace (n + 1)%nat with (S n) by lia. rewrite <- IH by lia. replace (S n - 1)%nat with (S (n - 1)) by lia. cbn [trajectory]. rewrite T.
    replace (S (n - 1)) with n by lia. rewrite Sw. reflexivity.
  Qed.
  Lemma count_is_loop : exists met, @rs_num_of_iter R RNum RTrunc P pv uu pt stat g1 g2 = QGState.num_of_iter (s_maxits P) met.
  Proof. exists met. exact (count_loop (s_maxits P) 1 (le_n 1)). Qed.
End Count.

Lemma zonal_mean_ext P x y r k : (forall i, (1 <= i <= s_nlon P)%nat -> x i (r + s_jd P - 1)%nat k = y i (r + s_jd P - 1)%nat k) ->
  @zonal_mean R RNum P x r k = @zonal_mean R RNum P y r k.
Proof. intros E. rewrite !zonal_mean_R. unfold zonal. f_equal. apply Sum_ext. intros i Hi. apply E. lia. Qed.
Lemma nh18_equator (c : pconf R) npart maxit tol rjac stat g1 g2 q (f : fields R) k :
  PipelineSpec.symmetric_grid c -> (3 <= p_eq c)%nat -> PipelineSpec.lev_ok c k ->
  uref_ (nh18_solver c npart maxit tol rjac stat g1 g2 (clip3 c q) (clip3 c (u_ f)) (clip3 c (theta_ f))) 1%nat k =
  uref_ (nh18_solver c npart maxit tol rjac stat g1 g2 (clip3 c (neg3 (flip3 c q))) (clip3 c (flip3 c (u_ f))) (clip3 c (flip3 c (theta_ f)))) 1%nat k.
Proof.
  intros G E Hk. assert (N := proj1 (proj2 G)). cbn [nh18_solver uref_]. unfold rs_uref. cbn [s_jd nh18_dims]. destruct (Nat.eqb_spec 1 (p_eq c)); [lia|].
  unfold uref1. cbn [Nat.eqb]. unfold ubar. apply zonal_mean_ext. intros i Hi. cbn [s_jd nh18_dims]. replace (1 + p_eq c - 1)%nat with (p_eq c) by lia.
  unfold clip3, flip3. replace (p_nlat c + 1 - p_eq c)%nat with (p_eq c) by lia. reflexivity.
Qed.

(** ** the arrays of the object *)
Section Object.
  Variable c : pconf R.
  Hypothesis G : PipelineSpec.symmetric_grid c.
  Variable solver : arr3 R -> arr3 R -> arr3 R -> refstate R.
  Variables (q : arr3 R) (f : fields R) (old : refstate R).
  Let north := solver (clip3 c q) (clip3 c (u_ f)) (clip3 c (theta_ f)).
  Let south := solver (clip3 c (neg3 (flip3 c q))) (clip3 c (flip3 c (u_ f))) (clip3 c (flip3 c (theta_ f))).
  Let r := refs_nh18 c solver q f old.
  Lemma reported_north_only : p_nh c = true -> forall j k, (1 <= j)%nat ->
    qref_ r j k = qref_ north j k /\ uref_ r j k = uref_ north j k /\ ptref_ r j k = ptref_ north j k.
  Proof.
    intros Hn j k Hj. unfold r, refs_nh18. rewrite Hn. cbn [store_north qref_ uref_ ptref_]. unfold set_nhem, rows. rewrite Hn.
    replace (p_eq c - p_eq c)%nat with 0%nat by lia. destruct (Nat.leb_spec j 0); [lia|]. rewrite Nat.sub_0_r. repeat split; reflexivity.
  Qed.
  Lemma reported_north : p_nh c = false -> forall j k, (2 <= j)%nat ->
    let J := (p_eq c - 1 + j)%nat in qref_ r J k = qref_ north j k /\ uref_ r J k = uref_ north j k /\ ptref_ r J k = ptref_ north j k.
  Proof.
    destruct G as (G1 & G2 & _). intros Hn j k Hj J. unfold r, refs_nh18. rewrite Hn. cbn [store_north store_south qref_ uref_ ptref_]. unfold set_nhem, set_shem, rows. rewrite Hn.
    unfold J. destruct (Nat.leb_spec (p_eq c - 1 + j) (p_eq c)); [lia|]. destruct (Nat.leb_spec (p_eq c - 1 + j) (p_nlat c - p_eq c)); [lia|].
    replace (p_eq c - 1 + j - (p_nlat c - p_eq c))%nat with j by lia. repeat split; reflexivity.
  Qed.
  Lemma reported_south : p_nh c = false -> forall j k, (1 <= j <= p_eq c)%nat ->
    let J := (p_eq c + 1 - j)%nat in qref_ r J k = qref_ south j k /\ uref_ r J k = uref_ south j k /\ ptref_ r J k = ptref_ south j k.
  Proof.
    intros Hn j k Hj J. unfold r, refs_nh18. rewrite Hn. cbn [store_north store_south qref_ uref_ ptref_]. unfold set_shem.
    unfold J. destruct (Nat.leb_spec (p_eq c + 1 - j) (p_eq c)); [|lia].
    replace (p_eq c + 1 - (p_eq c + 1 - j))%nat with j by lia. repeat split; reflexivity.
  Qed.
End Object.
