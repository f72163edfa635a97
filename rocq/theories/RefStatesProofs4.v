(** Proofs about the reference state solver: uniqueness, what reported convergence means, dependence on the inputs. *)
From Verif Require Import Base BaseFacts Spec SpecFacts Flux FluxSpec FluxProofs RefStates RefStatesSpec RefStatesProofs RefStatesProofs2 RefStatesProofs3.
From Coq Require Import FunctionalExtensionality ZifyNat.
Ltac Zify.zify_post_hook ::= Z.to_euclidean_division_equations.
Open Scope R_scope.

(** ** uniqueness, by the discrete maximum principle *)
Section Unique.
  Variable P : rsdims R.
  Variable stat : nat -> R.
  Hypothesis G : pole_to_pole P.
  Hypothesis H : physical P stat.
  Let J3 : (3 <= s_jd P)%nat := proj1 G.
  Let K3 : (3 <= s_kmax P)%nat. Proof. assert (G1 := G). clear J3. destruct G1 as (_ & _ & _ & K & _). exact K. Qed.

  Lemma residual_difference q w1 w2 j k :
    residual P stat q w1 j k - residual P stat q w2 j k = residual P stat (fun _ _ => 0) (fun j k => w1 j k - w2 j k) j k.
  Proof. unfold residual. cbv zeta. unfold Rdiv. ring. Qed.
  Lemma residual_homogeneous w j k : inside P j k ->
    residual P stat (fun _ _ => 0) w j k =
    @ajk R RNum P j * (w (j + 1)%nat k - w j k) + @bjk R RNum P j * (w (j - 1)%nat k - w j k)
    + @cjk R RNum P stat j k * (w j (k + 1)%nat - w j k) + @djk R RNum P stat j k * (w j (k - 1)%nat - w j k).
  Proof.
    intros [Hj Hk]. rewrite ajk_R, bjk_R, (cjk_R P stat G H j k Hj), (djk_R P stat G H j k Hj). unfold residual. cbv zeta.
    fold (vertical P j k). set (X := sin (lat P j + _) * _). set (Y := sin (lat P j - _) * _). unfold Rdiv. ring.
  Qed.

  Lemma no_positive_maximum (w : arr2 R) :
    (forall j k, inside P j k -> residual P stat (fun _ _ => 0) w j k = 0) ->
    (forall j, (2 <= j <= s_jd P - 1)%nat -> w j 1%nat = 0) ->
    (forall k, (2 <= k <= s_kmax P - 1)%nat -> w (s_jd P) k = 0 /\ w 1%nat k = 0) ->
    (forall j, (2 <= j <= s_jd P - 1)%nat -> w j (s_kmax P) = w j (s_kmax P - 2)%nat) ->
    forall j k, inside P j k -> w j k <= 0.
  Proof.
    intros E B1 B2 B3. set (l := map (fun p => w (fst p) (snd p)) (@interior_points R P)).
    assert (InP : forall j k, In (j, k) (@interior_points R P) <-> inside P j k).
    { intros j k. unfold interior_points. rewrite in_do. unfold inside. split.
      - intros (y & Hy & Hi). apply in_map_iff in Hi. destruct Hi as (z & Ez & Hz). apply in_range in Hz. injection Ez as -> ->. lia.
      - intros [Hj Hk]. exists j. split; [exact Hj|]. apply in_map_iff. exists k. split; [reflexivity|]. apply in_range. exact Hk. }
    assert (NE : l <> []). { intros X. apply map_eq_nil in X. assert (Y : In (2, 2)%nat (@interior_points R P)) by (apply InP; unfold inside; lia). rewrite X in Y. destruct Y. }
    set (M := lmax l). assert (Max : forall j k, inside P j k -> w j k <= M).
    { intros j k I. apply (lmax_ge l). apply in_map_iff. exists (j, k). split; [reflexivity|]. apply InP. exact I. }
    destruct (Rle_dec M 0) as [L|L]; [intros j k I; specialize (Max j k I); lra|]. exfalso.
    assert (Att : exists j k, inside P j k /\ w j k = M).
    { assert (X := lmax_in l NE). apply in_map_iff in X. destruct X as ([j k] & X1 & X2). exists j, k. split; [apply InP; exact X2|exact X1]. }
    assert (Step : forall j k, inside P j k -> w j k = M -> w (j + 1)%nat k = M).
    { intros j k I HM. destruct I as [Hj Hk]. assert (I : inside P j k) by (split; assumption).
      assert (X := E j k I). rewrite residual_homogeneous in X by exact I. rewrite HM in X. destruct (coefficients_pos P stat K3 J3 G H j k I) as (A1 & A2 & A3 & A4).
      assert (N1 : w (j + 1)%nat k <= M).
      { destruct (Nat.eq_dec (j + 1) (s_jd P)) as [Y|Y]; [rewrite Y, (proj1 (B2 k Hk)); lra|apply Max; split; lia]. }
      assert (N2 : w (j - 1)%nat k <= M).
      { destruct (Nat.eq_dec (j - 1) 1) as [Y|Y]; [rewrite Y, (proj2 (B2 k Hk)); lra|apply Max; split; lia]. }
      assert (N4 : forall k', (1 <= k' <= s_kmax P - 1)%nat -> w j k' <= M).
      { intros k' Hk'. destruct (Nat.eq_dec k' 1) as [->|Y]; [rewrite B1 by exact Hj; lra|apply Max; split; lia]. }
      assert (N3 : w j (k + 1)%nat <= M).
      { destruct (Nat.eq_dec (k + 1) (s_kmax P)) as [Y|Y]; [rewrite Y, B3 by exact Hj; apply N4; lia|apply N4; lia]. }
      specialize (N4 (k - 1)%nat ltac:(lia)).
      assert (Z1 : 0 <= @ajk R RNum P j * (M - w (j + 1)%nat k)) by (apply Rmult_le_pos; lra).
      assert (Z2 : 0 <= @bjk R RNum P j * (M - w (j - 1)%nat k)) by (apply Rmult_le_pos; lra).
      assert (Z3 : 0 <= @cjk R RNum P stat j k * (M - w j (k + 1)%nat)) by (apply Rmult_le_pos; lra).
      assert (Z4 : 0 <= @djk R RNum P stat j k * (M - w j (k - 1)%nat)) by (apply Rmult_le_pos; lra).
      assert (Z : @ajk R RNum P j * (M - w (j + 1)%nat k) = 0) by lra. apply Rmult_integral in Z. lra. }
    destruct Att as (j & k & I & HM).
    assert (Up : forall t, (j + t <= s_jd P)%nat -> w (j + t)%nat k = M).
    { induction t as [|t IH]; intros Ht; [rewrite Nat.add_0_r; exact HM|].
      replace (j + S t)%nat with (j + t + 1)%nat by lia. apply Step; [destruct I; split; lia|]. apply IH. lia. }
    destruct I as [Hj Hk]. assert (X := Up (s_jd P - j)%nat ltac:(lia)). replace (j + (s_jd P - j))%nat with (s_jd P) in X by lia.
    rewrite (proj1 (B2 k Hk)) in X. lra.
  Qed.

  Lemma unique w0 t q w1 w2 : solves P stat q w1 -> solves P stat q w2 -> boundary P w0 t w1 -> boundary P w0 t w2 ->
    forall j k, (2 <= j <= s_jd P - 1)%nat -> (1 <= k <= s_kmax P)%nat -> w1 j k = w2 j k.
  Proof.
    intros S1 S2 (B1 & B2 & B3) (C1 & C2 & C3).
    assert (Top : forall j, (2 <= j <= s_jd P - 1)%nat -> w1 j (s_kmax P) - w2 j (s_kmax P) = w1 j (s_kmax P - 2)%nat - w2 j (s_kmax P - 2)%nat).
    { intros j Hj. specialize (B3 j Hj). specialize (C3 j Hj). rewrite <- C3 in B3. destruct H as (_ & Ho & Hz & _). assert (S := sin_inside P G j Hj).
      apply Rmult_eq_reg_r in B3; [|assert (0 < 2 * s_om P * sin (lat P j)) by (repeat apply Rmult_lt_0_compat; lra); lra].
      unfold Rdiv in B3. apply Rmult_eq_reg_r in B3; [|apply Rinv_neq_0_compat; lra]. lra. }
    assert (Z : forall j k, inside P j k -> w1 j k = w2 j k).
    { intros j k I. apply Rle_antisym.
      - assert (X : w1 j k - w2 j k <= 0); [|lra]. apply (no_positive_maximum (fun j k => w1 j k - w2 j k)); auto.
        + intros j' k' I'. rewrite <- (residual_difference q), (S1 j' k' I'), (S2 j' k' I'). ring.
        + intros j' Hj'. rewrite B1, C1 by exact Hj'. ring.
        + intros k' Hk'. destruct (B2 k' Hk'), (C2 k' Hk'). lra.
      - assert (X : w2 j k - w1 j k <= 0); [|lra]. apply (no_positive_maximum (fun j k => w2 j k - w1 j k)); auto.
        + intros j' k' I'. rewrite <- (residual_difference q), (S1 j' k' I'), (S2 j' k' I'). ring.
        + intros j' Hj'. rewrite B1, C1 by exact Hj'. ring.
        + intros k' Hk'. destruct (B2 k' Hk'), (C2 k' Hk'). lra.
        + intros j' Hj'. specialize (Top j' Hj'). lra. }
    intros j k Hj Hk. destruct (Nat.eq_dec k 1) as [->|K1]; [rewrite B1, C1 by exact Hj; reflexivity|].
    destruct (Nat.eq_dec k (s_kmax P)) as [->|Kx]; [|apply Z; split; lia].
    specialize (Top j Hj). assert (X : w1 j (s_kmax P - 2)%nat = w2 j (s_kmax P - 2)%nat); [|lra].
    destruct (Nat.eq_dec (s_kmax P - 2) 1) as [E|E]; [rewrite E, B1, C1 by exact Hj; reflexivity|apply Z; split; lia].
  Qed.
End Unique.

(** ** reported convergence *)
Section Converged.
  Variable P : rsdims R.
  Variables pv uu pt : arr3 R.
  Variable stat : nat -> R.
  Variables g1 g2 : arr2 R.
  Hypothesis G : pole_to_pole P.
  Hypothesis H : physical P stat.
  Let J3 : (3 <= s_jd P)%nat := proj1 G.
  Let K3 : (3 <= s_kmax P)%nat. Proof. assert (G1 := G). clear J3. destruct G1 as (_ & _ & _ & K & _). exact K. Qed.
  Notation q := (@rs_qref R RNum RTrunc P pv).
  Notation resid := (@resid R RNum RTrunc P pv stat).
  Notation swept := (swept P pv uu pt stat g1 g2).
  Notation iterate := (@iterate R RNum RTrunc P pv uu pt stat g1 g2).
  Notation anormf := (@anormf R RNum RTrunc P pv).

  Lemma anormf_R : anormf = norm_all P (forcing P q).
  Proof.
    unfold RefStates.anormf. assert (X : forall l s, fold_left (fun s p => s + Rabs (fjk P pv (fst p) (snd p))) l s = s + SumL l (fun p => Rabs (forcing P q (fst p) (snd p)))).
    { induction l as [|p l IH]; intros s; cbn [fold_left]; [rewrite SumL_nil; ring|]. rewrite IH, SumL_cons.
      replace (Rabs (fjk P pv (fst p) (snd p))) with (Rabs (forcing P q (fst p) (snd p))); [ring|].
      unfold fjk, forcing. cbn [nmul nsub nopp RNum]. rewrite <- Rabs_Ropp. f_equal. ring. }
    cbn [nadd nabs nzero RNum]. rewrite X, Rplus_0_l. unfold interior_points. rewrite SumL_do. unfold norm_all.
    replace (s_jd P - 1 + 1)%nat with (s_jd P) by lia. apply Sum_ext. intros j _. rewrite SumL_map, SumL_range. cbn [fst snd].
    replace (s_kmax P - 1 + 1)%nat with (s_kmax P) by lia. reflexivity.
  Qed.

  (** over-relaxing a point multiplies its residual *)
  Lemma resid_after n om v0 n0 om0 j k : inside P j k -> colour n j k = true ->
    let v := swept n0 om0 v0 in resid (swept n om v) j k = (1 - om) * resid v j k.
  Proof.
    intros I C v. destruct I as [Hj Hk]. assert (I : inside P j k) by (split; assumption).
    destruct (colour_step P stat K3 J3 n j k C ltac:(lia) ltac:(lia)) as (C1 & C2 & C3 & C4). assert (E := ejk_neg P stat K3 J3 G H j k I).
    assert (Z : forall j' k', inside P j' k' -> colour n j' k' = false -> swept n om v j' k' = v j' k').
    { intros j' k' I' C'. rewrite swept_inside by (auto; lia). unfold relaxed. rewrite C'. reflexivity. }
    assert (N1 : swept n om v (j + 1)%nat k = v (j + 1)%nat k).
    { destruct (Nat.eq_dec (j + 1) (s_jd P)) as [Y|Y]; [rewrite Y; unfold v; rewrite !swept_pole by lia; reflexivity|apply Z; [split; lia|exact C1]]. }
    assert (N2 : swept n om v (j - 1)%nat k = v (j - 1)%nat k).
    { destruct (Nat.eq_dec (j - 1) 1) as [Y|Y]; [rewrite Y; reflexivity|apply Z; [split; lia|exact C2]]. }
    assert (N4 : swept n om v j (k - 1)%nat = v j (k - 1)%nat).
    { destruct (Nat.eq_dec (k - 1) 1) as [Y|Y]; [rewrite Y; unfold v; rewrite !swept_ground by lia; reflexivity|apply Z; [split; lia|exact C4]]. }
    assert (N3 : swept n om v j (k + 1)%nat = v j (k + 1)%nat).
    { destruct (Nat.eq_dec (k + 1) (s_kmax P)) as [Y|Y]; [|apply Z; [split; lia|exact C3]]. rewrite Y. rewrite swept_top by lia.
      unfold v at 2. rewrite swept_top by lia. fold v. replace (s_kmax P - 2)%nat with (k - 1)%nat by lia. rewrite N4. reflexivity. }
    assert (N5 : swept n om v j k = v j k - om * resid v j k / ejk P stat j k).
    { rewrite swept_inside by (auto; lia). unfold relaxed. rewrite C. destruct (Reqb_spec (@ejk R RNum P stat j k) 0); [lra|reflexivity]. }
    unfold RefStates.resid at 1. rewrite N1, N2, N3, N4, N5. set (r := resid v j k).
    assert (D : r = ajk P j * v (j + 1)%nat k + bjk P j * v (j - 1)%nat k + cjk P stat j k * v j (k + 1)%nat + djk P stat j k * v j (k - 1)%nat
                    + ejk P stat j k * v j k - fjk P pv j k) by reflexivity.
    cbn [nadd nsub nmul RNum]. replace (ejk P stat j k * (v j k - om * r / ejk P stat j k)) with (ejk P stat j k * v j k - om * r) by (field; lra).
    clearbody r. rewrite Rmult_minus_distr_r, Rmult_1_l. lra.
  Qed.

  Hypothesis Hr : 0 <= s_rjac P < 1.
  Lemma next_omega_range n om : 1 <= om < 2 -> 1 <= @next_omega R RNum P n om < 2.
  Proof.
    intros Ho. unfold next_omega. assert (Q : 0 <= s_rjac P * s_rjac P < 1) by nra.
    assert (X : forall y, 0 <= y < 1 / 2 -> 1 <= 1 / (1 - y) < 2).
    { intros y Hy. split.
      - apply Rmult_le_reg_r with (1 - y); [lra|]. unfold Rdiv. rewrite Rmult_assoc, Rinv_l by lra. lra.
      - apply Rmult_lt_reg_r with (1 - y); [lra|]. unfold Rdiv. rewrite Rmult_assoc, Rinv_l by lra. lra. }
    unfold nsq. rewrite nhalf_half. cbn [none ndiv nsub nmul nofZ RNum]. destruct (Nat.eqb n 1); apply X; [lra|].
    set (y := s_rjac P * s_rjac P) in *. split; [apply Rmult_le_pos; lra|]. nra.
  Qed.

  Definition state_ok (n : nat) (om : R) (u : arr2 R) : Prop :=
    1 <= om < 2 /\ (n = 1%nat \/ exists n0 om0 v0, u = swept n0 om0 v0).
  Lemma iterate_converged fuel : forall n om u, state_ok n om u -> (1 <= n)%nat -> (snd (iterate fuel n om u) < n + fuel)%nat ->
    exists om' v n0 om0 v0, 1 <= om' < 2 /\ v = swept n0 om0 v0 /\
      fst (iterate fuel n om u) = swept (snd (iterate fuel n om u)) om' v /\
      norm_colour P (snd (iterate fuel n om u)) (resid v) < s_eps P * anormf.
  Proof.
    induction fuel as [|fuel IH]; intros n om u [Ho Hu] Hn Hs.
    - cbn [RefStates.iterate snd] in Hs. lia.
    - cbn [RefStates.iterate] in Hs |- *. rewrite sweep_eq in Hs |- * by lia. cbn [nltb nmul RNum] in Hs |- *.
      destruct (Nat.ltb_spec 1 n) as [L|L]; cbn [andb] in Hs |- *.
      + destruct (Rltb_spec (norm_colour P n (resid u)) (s_eps P * anormf)) as [Q|Q].
        * cbn [fst snd] in *. destruct Hu as [Hu|(n0 & om0 & v0 & Eu)]; [lia|]. exists om, u, n0, om0, v0. auto.
        * apply IH; [|lia|lia]. split; [apply next_omega_range; exact Ho|]. right. exists n, om, u. reflexivity.
      + apply IH; [|lia|lia]. split; [apply next_omega_range; exact Ho|]. right. exists n, om, u. reflexivity.
  Qed.
  Lemma iterate_not_converged fuel : forall n om u, (n + fuel <= snd (iterate fuel n om u))%nat ->
    fst (iterate fuel n om u) = (fun _ _ => 0) /\ snd (iterate fuel n om u) = (n + fuel)%nat.
  Proof.
    induction fuel as [|fuel IH]; intros n om u Hs; [split; [reflexivity|cbn; lia]|].
    cbn [RefStates.iterate] in *. rewrite sweep_eq in * by lia. destruct (Nat.ltb 1 n && _).
    - cbn [snd] in Hs. lia.
    - replace (n + S fuel)%nat with (S n + fuel)%nat in * by lia. apply IH. exact Hs.
  Qed.

  Notation num := (@rs_num_of_iter R RNum RTrunc P pv uu pt stat g1 g2).
  Notation uref := (@rs_uref R RNum RTrunc P pv uu pt stat g1 g2).
  Lemma num_of_iter_cases : (num <= s_maxits P \/ num = s_maxits P + 1)%nat.
  Proof.
    unfold rs_num_of_iter, solution. destruct (Nat.le_gt_cases (1 + s_maxits P) (snd (iterate (s_maxits P) 1 1 (fun _ _ => 0)))) as [L|L].
    - right. destruct (iterate_not_converged _ _ _ _ L) as [_ E]. cbn [none nzero RNum]. rewrite E. lia.
    - left. cbn [none nzero RNum]. lia.
  Qed.
  Lemma uref_row j k : (2 <= j <= s_jd P - 1)%nat -> uref j k = fst (@solution R RNum RTrunc P pv uu pt stat g1 g2) j k / cos (lat P j).
  Proof.
    intros Hj. unfold rs_uref. destruct (Nat.eqb_spec j (s_jd P)); [lia|]. unfold uref1. destruct (Nat.eqb_spec j 1); [lia|]. rewrite phi_lat. reflexivity.
  Qed.
  Lemma uref_equator k : uref 1 k = zonal P uu 1 k.
  Proof. unfold rs_uref. destruct (Nat.eqb_spec 1 (s_jd P)); [lia|]. unfold uref1. cbn [Nat.eqb]. unfold ubar. apply zonal_mean_R. Qed.
  Lemma uref_pole k : uref (s_jd P) k = 2 * uref (s_jd P - 1) k - uref (s_jd P - 2) k.
  Proof.
    unfold rs_uref. rewrite Nat.eqb_refl. destruct (Nat.eqb_spec (s_jd P - 1) (s_jd P)); [lia|]. destruct (Nat.eqb_spec (s_jd P - 2) (s_jd P)); [lia|]. reflexivity.
  Qed.

  Lemma converged : (num <= s_maxits P)%nat ->
    exists w, boundary P (@u_equator R RNum RTrunc P pv uu g1 g2) (zonal P pt) w /\
      (forall j k, (2 <= j <= s_jd P - 1)%nat -> uref j k = w j k / cos (lat P j)) /\
      norm_colour P num (residual P stat q w) < s_eps P * norm_all P (forcing P q).
  Proof.
    intros Hs. unfold rs_num_of_iter, solution in Hs. cbn [none nzero RNum] in Hs.
    assert (S0 : state_ok 1 1 (fun _ _ => 0)) by (split; [lra|left; reflexivity]).
    destruct (iterate_converged (s_maxits P) 1 1 (fun _ _ => 0) S0 ltac:(lia) ltac:(lia)) as (om & v & n0 & om0 & v0 & Ho & Ev & Ef & Q).
    fold (@rs_num_of_iter R RNum RTrunc P pv uu pt stat g1 g2) in *.
    assert (En : snd (iterate (s_maxits P) 1 1 (fun _ _ => 0)) = num) by reflexivity. rewrite En in *.
    exists (swept num om v). split; [apply swept_boundary; auto|]. split.
    - intros j k Hj. rewrite uref_row by exact Hj. unfold solution. cbn [none nzero RNum]. rewrite Ef. reflexivity.
    - rewrite <- anormf_R. apply Rle_lt_trans with (norm_colour P num (resid v)); [|exact Q].
      unfold norm_colour. apply Sum_le. intros j Hj. apply Sum_le. intros k Hk. assert (I : inside P j k) by (split; lia).
      destruct (colour num j k) eqn:C; [|lra]. rewrite <- resid_R by auto. subst v. rewrite resid_after by auto. rewrite Rabs_mult.
      rewrite <- Rmult_1_l. apply Rmult_le_compat_r; [apply Rabs_pos|]. unfold Rabs. destruct (Rcase_abs _); lra.
  Qed.
  Lemma not_converged j k : (s_maxits P < num)%nat -> (2 <= j <= s_jd P - 1)%nat -> uref j k = 0.
  Proof.
    intros Hs Hj. rewrite uref_row by exact Hj. unfold rs_num_of_iter, solution in *. cbn [none nzero RNum] in *.
    destruct (iterate_not_converged (s_maxits P) 1 1 (fun _ _ => 0) ltac:(lia)) as [E _]. rewrite E. unfold Rdiv. ring.
  Qed.
  (** the ground and the top level *)
  Lemma uref_ground j : (2 <= j <= s_jd P - 1)%nat -> uref j 1 = 0.
  Proof.
    intros Hj. destruct num_of_iter_cases as [L|L]; [|apply not_converged; [lia|exact Hj]].
    destruct (converged L) as (w & (B1 & _) & E & _). rewrite E, B1 by exact Hj. unfold Rdiv. ring.
  Qed.
  Lemma tref_top j : (num <= s_maxits P)%nat -> (2 <= j <= s_jd P - 1)%nat ->
    rs_tref P pv uu pt stat g1 g2 (j + 1) (s_kmax P - 1) - rs_tref P pv uu pt stat g1 g2 (j - 1) (s_kmax P - 1)
    = zonal P pt (j + 1) (s_kmax P - 1) - zonal P pt (j - 1) (s_kmax P - 1).
  Proof.
    intros L Hj. destruct (converged L) as (w & (_ & _ & B3) & E & _). specialize (B3 j Hj). assert (C := cos_inside P G j Hj). assert (D := dphi_pos P G).
    destruct H as (Ha & Ho & Hz & Hh & Hrr & Hc & _).
    assert (T := thermal_wind P pv uu pt stat g1 g2 G j (s_kmax P - 1) ltac:(split; lia) ltac:(lra)).
    replace (s_kmax P - 1 + 1)%nat with (s_kmax P) in T by lia. replace (s_kmax P - 1 - 1)%nat with (s_kmax P - 2)%nat in T by lia. rewrite !E in T by exact Hj.
    set (ex := exp (s_r P / s_cp P * height P (s_kmax P - 1) / s_h P)) in *.
    assert (Ex : exp (- (s_r P / s_cp P) * height P (s_kmax P - 1) / s_h P) = / ex).
    { unfold ex. rewrite <- exp_Ropp. f_equal. unfold Rdiv. ring. }
    rewrite Ex in B3. assert (Px : 0 < ex) by apply exp_pos.
    set (dT := zonal P pt (j + 1) (s_kmax P - 1) - _) in *. set (dR := rs_tref _ _ _ _ _ _ _ _ _ - _) in *. set (W := w j (s_kmax P) - w j (s_kmax P - 2)%nat) in *.
    replace (w j (s_kmax P) / cos (lat P j) - w j (s_kmax P - 2)%nat / cos (lat P j)) with (W / cos (lat P j)) in T by (unfold W; field; lra).
    set (c := cos (lat P j)) in *. set (s := sin (lat P j)) in *.
    apply Rmult_eq_reg_r with (/ (2 * s_dphi P * s_a P)); [|apply Rinv_neq_0_compat; assert (0 < 2 * s_dphi P * s_a P) by (repeat apply Rmult_lt_0_compat; lra); lra].
    change (dR / (2 * s_dphi P * s_a P) = dT / (2 * s_dphi P * s_a P)). rewrite T.
    replace (- (2 * s_om P * s) * (s_h P / s_r P) * ex * (W / c / (2 * s_dz P))) with (- (s_h P / s_r P) * ex / c * (W / (2 * s_dz P) * (2 * s_om P * s))) by (field; repeat split; lra).
    rewrite B3. field. repeat split; lra.
  Qed.
End Converged.
