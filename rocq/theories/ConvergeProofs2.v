(** Convergence of the relaxation in a session of QGFieldNH18. *)
From Verif Require Import Base BaseFacts Spec SpecFacts RefStates RefStatesSpec RefStatesProofs4 Pipeline Object ObjectSpec ObjectProofs ObjectProofs4 FormulaSpec FormulaProofs FormulaProofs2 Session SessionProofs
  StateSpec StateProofs StateProofs3 StateProofs4 StateProofs5 InfluenceSpec InfluenceProofs ConvergeSpec ConvergeProofs.
Open Scope R_scope.

(** ** a sum of absolute differences over two rows vanishes only for constant profiles *)
Lemma total_zero w y : total w y = 0 <-> forall d l, (1 <= d < half w)%nat -> inner_level w l -> y d l = 0.
Proof.
  unfold total. split.
  - intros E d l Hd [Hl1 Hl2]. assert (A := Sum_eq0 _ _ _ (fun i _ => Sum_nonneg _ _ _ (fun j _ => Rabs_pos (y i j))) E d Hd). cbv beta in A.
    assert (B := Sum_eq0 _ _ _ (fun j _ => Rabs_pos (y d j)) A l ltac:(lia)). cbv beta in B. destruct (Req_dec (y d l) 0) as [Z|Z]; [exact Z|]. exfalso. exact (Rabs_no_R0 _ Z B).
  - intros A. apply Sum_zero. intros d Hd. apply Sum_zero. intros l Hl. rewrite A by (unfold inner_level; lia). apply Rabs_R0.
Qed.
Lemma constant_rows (Q : nat -> R) h : (2 <= h)%nat -> Q 0%nat = 2 * Q 1%nat - Q 2%nat -> (forall d, (1 <= d < h)%nat -> Q (d + 1)%nat = Q (d - 1)%nat) -> forall d, (1 <= d <= h)%nat -> Q d = Q 1%nat.
Proof.
  intros H E A. assert (E2 : Q 2%nat = Q 1%nat). { assert (X := A 1%nat ltac:(lia)). cbn in X. lra. }
  assert (P : forall n, (1 <= n < h)%nat -> Q n = Q 1%nat /\ Q (S n) = Q 1%nat).
  { induction n as [|n IH]; [lia|]. intros Hn. destruct (Nat.eq_dec n 0) as [->|N]; [split; [reflexivity|exact E2]|]. destruct (IH ltac:(lia)) as [I1 I2]. split; [exact I2|].
    assert (X := A (S n) ltac:(lia)). replace (S n + 1)%nat with (S (S n)) in X by lia. replace (S n - 1)%nat with n in X by lia. rewrite X. exact I1. }
  intros d Hd. destruct (Nat.eq_dec d h) as [->|N]; [|apply P; lia]. destruct (P (h - 1)%nat ltac:(lia)) as [_ X]. replace (S (h - 1)) with h in X by lia. exact X.
Qed.

Section Session.
  Variables (lib : library) (w : qgargs) (nc : field3) (g : grid) (t : tables).
  Hypothesis U : usable NH18 w.
  Hypothesis Hg : grid_of w = Done g.
  Hypothesis Od : Nat.even (w_nlat w) = false.
  Local Notation o := (object_of NH18 w g).
  Local Notation c := (ob_conf o).
  Local Notation x := (analyse lib NH18 w o nc).
  Local Notation h := (half w).
  Hypothesis T : are_stored x c t.
  Hypothesis Lat : pole_to_pole_latitudes w.
  Hypothesis C : physical_constants w.
  Hypothesis Hs : forall l, (l < result_levels w)%nat -> 0 < t_slope NH18 w lib true l.
  Hypothesis Hj : 0 <= w_rjac w < 1.
  Local Notation P := (StateProofs.P NH18 w g).
  Local Notation hemi := (StateProofs.hemi NH18 w g).
  Local Notation hemi_pv := (StateProofs.hemi_pv lib NH18 w nc g).
  Local Notation uu north := (hemi north (u_ (s_f x))).
  Local Notation pt north := (hemi north (theta_ (s_f x))).
  Local Notation s := (one_based (t_slope NH18 w lib true)).
  Local Notation run north m := (iterate P (hemi_pv north) (uu north) (pt north) s (lb_mem1 lib) (lb_mem2 lib) m 1%nat 1%R (fun _ _ => 0%R)).

  Lemma rhs_at north : reported w north 1 -> anormf P (hemi_pv north) = total w (forced w (scaled_ref w t north)).
  Proof.
    intros R1. rewrite anormf_R by exact (StateProofs.pole_P lib NH18 w nc g t U Hg T). assert (Ho : w_om w <> 0) by (destruct C as (_ & C2 & _); lra).
    destruct (StateProofs.dims_common lib NH18 w nc g t U Hg Od T) as (_ & _ & D3 & D4 & D5 & D6 & D7 & D8 & D9 & _).
    apply (norm_all_at lib w nc g t U Hg Od T Hs). intros d l Hd Hl. unfold forcing, forced. rewrite D5, D6, D9. rewrite !(scaled_at lib NH18 w nc g t U Hg Od T Lat) by (assumption || lia).
    unfold StateProofs4.Q. replace (d + 1 - 1)%nat with (d - 1 + 1)%nat by lia. reflexivity.
  Qed.
  Lemma varies_rhs north : reported w north 1 -> scaled_pv_varies w t north <-> 0 < anormf P (hemi_pv north).
  Proof.
    intros R1. rewrite rhs_at by exact R1. set (Q := scaled_ref w t north). destruct (StateProofs3.n_facts NH18 w U Od) as [_ H2]. destruct C as (Ca & Co & _). assert (Sp := StateProofs4.step_pos NH18 w U Od).
    assert (N0 : 0 <= total w (forced w Q)) by (unfold total; apply Sum_nonneg; intros i _; apply Sum_nonneg; intros j _; apply Rabs_pos).
    assert (Qd : forall d l, (1 <= d)%nat -> Q d l = pole_ref w t north l d / (2 * w_om w * sin (angle w d))) by (intros d l Hd; unfold Q, scaled_ref; destruct (Nat.eqb_spec d 0); [lia|reflexivity]).
    split.
    - intros (l & d & d' & Hl & Hd & Hd' & Ne). destruct N0 as [N0|N0]; [exact N0|]. exfalso. apply Ne. rewrite <- !Qd by lia. symmetry in N0. rewrite total_zero in N0.
      assert (A : forall e, (1 <= e <= h)%nat -> Q e l = Q 1%nat l).
      { apply (constant_rows (fun e => Q e l) h H2); [unfold Q, scaled_ref; reflexivity|]. intros e He. assert (X := N0 e l He Hl). unfold forced in X.
        assert (K : 0 < w_om w * w_a w * step w) by (apply Rmult_lt_0_compat; [apply Rmult_lt_0_compat; assumption|exact Sp]). apply Rmult_integral in X. destruct X; lra. }
      rewrite (A d Hd), (A d' Hd'). reflexivity.
    - intros Pos. destruct (Classical_Prop.classic (scaled_pv_varies w t north)) as [V|V]; [exact V|]. exfalso. assert (Z : total w (forced w Q) = 0); [|lra].
      apply total_zero. intros d l Hd Hl. assert (A : forall e, (1 <= e <= h)%nat -> Q e l = Q 1%nat l).
      { intros e He. destruct (Req_dec (Q e l) (Q 1%nat l)) as [E|E]; [exact E|]. exfalso. apply V. exists l, e, 1%nat. repeat split; try lia; try apply Hl. rewrite <- !Qd by lia. exact E. }
      assert (B : forall e, (e <= h)%nat -> Q e l = Q 1%nat l).
      { intros e He. destruct (Nat.eq_dec e 0) as [->|N]; [|apply A; lia]. assert (X : Q 0%nat l = 2 * Q 1%nat l - Q 2%nat l) by reflexivity. rewrite X, (A 2%nat) by lia. ring. }
      unfold forced. rewrite (B (d + 1)%nat), (B (d - 1)%nat) by lia. ring.
  Qed.

  (** ** other numbers of iterations *)
  Lemma other_count m n north : n = g_npart g ->
    let w' := with_solver w m (w_tol w) (w_rjac w) in
    let g' := {| g_kmax := g_kmax g; g_height := g_height g; g_dz := g_dz g; g_nlev := g_nlev g; g_nlat := g_nlat g; g_nlon := g_nlon g;
      g_input_ylat := g_input_ylat g; g_lat := g_lat g; g_jd := g_jd g; g_dphi := g_dphi g; g_dlambda := g_dlambda g; g_npart := n; g_nh := g_nh g; g_prefactor := g_prefactor g; g_H := g_H g |} in
    iterations lib w' (object_of NH18 w' g') (analyse lib NH18 w' (object_of NH18 w' g') nc) north = snd (run north m).
  Proof.
    intros En w' g'. assert (A := slope_at lib w nc g t U Hg Od T). unfold w', with_solver, g'. rewrite !analyse_assemble. rewrite settings_conf, settings_interpolated, settings_domain, settings_pv. unfold iterations. cbv zeta. cbn [assemble s_q s_f s_av].
    rewrite analyse_assemble in A. cbn [assemble s_av] in A. rewrite A. rewrite settings_conf. cbn [object_of ob_grid g_npart w_maxit w_tol w_rjac with_settings]. rewrite En. unfold StateProofs.hemi_pv, StateProofs.hemi. rewrite analyse_assemble. cbn [assemble s_q s_f].
    reflexivity.
  Qed.
  Lemma runs_alike north m m' : (m <= m')%nat -> (snd (run north m) < 1 + m)%nat -> snd (run north m') = snd (run north m).
  Proof.
    intros L H. exact (f_equal snd (iterate_more c (g_npart g) (w_maxit w) (w_maxit w) (w_tol w) (w_rjac w) (hemi_pv north) (uu north) (pt north) s (lb_mem1 lib) (lb_mem2 lib) m m' 1 1 (fun _ _ => 0) L H)).
  Qed.
  Lemma enough_runs north : 0 < w_tol w -> 0 < anormf P (hemi_pv north) -> exists M, forall m, (M <= m)%nat -> (snd (run north m) < m)%nat.
  Proof.
    intros Ht Ha. destruct (enough P (hemi_pv north) (uu north) (pt north) s (lb_mem1 lib) (lb_mem2 lib) (StateProofs.pole_P lib NH18 w nc g t U Hg T) (phys lib w nc g t U Hg Od T C Hs) Hj) as [N HN].
    { apply Rmult_lt_0_compat; [exact Ht|exact Ha]. }
    exists (S N). intros m L. rewrite (runs_alike north N m ltac:(lia) HN). lia.
  Qed.
  Lemma never_runs north : w_tol w <= 0 \/ ~ 0 < anormf P (hemi_pv north) -> forall m, (m <= snd (run north m))%nat.
  Proof.
    intros Ht m. assert (G := StateProofs.pole_P lib NH18 w nc g t U Hg T). assert (N0 : 0 <= anormf P (hemi_pv north)).
    { rewrite anormf_R by exact G. unfold norm_all. apply Sum_nonneg; intros i _; apply Sum_nonneg; intros j _; apply Rabs_pos. }
    rewrite (never P (hemi_pv north) (uu north) (pt north) s (lb_mem1 lib) (lb_mem2 lib) G m); [lia|]. change (s_eps P) with (w_tol w). destruct Ht as [Ht|Ht]; [nra|].
    assert (E : anormf P (hemi_pv north) = 0) by lra. rewrite E. lra.
  Qed.

  Lemma session_at m named raising :
    let w' := with_solver w m (w_tol w) (w_rjac w) in
    (exists y, session_with_fluxes lib NH18 w' named raising nc = Returned y) <-> forall north, (w_nh w = true -> north = true) -> (snd (run north m) < m)%nat.
  Proof.
    intros w'. assert (U' : usable NH18 w') by exact U. assert (F := with_fluxes_cases lib NH18 w' named raising nc U').
    assert (S' := settings_grid w (w_kmax w) m (w_dz w) (w_npart w) (w_tol w) (w_rjac w) (or_intror (conj eq_refl eq_refl))). fold (with_solver w m (w_tol w) (w_rjac w)) in S'. fold w' in S'. rewrite Hg in S'.
    destruct (grid_of w') as [g'|e] eqn:Hg'; [|contradiction]. destruct S' as (n & Eg & En). specialize (En eq_refl).
    assert (Q : forall north, iterations lib w' (object_of NH18 w' g') (analyse lib NH18 w' (object_of NH18 w' g') nc) north = snd (run north m)).
    { intros north. subst g'. exact (other_count m n north En). }
    destruct (session lib NH18 w' nc) as [y|e] eqn:E.
    - destruct F as (g2 & E2 & _ & F). injection E2 as <-. rewrite F. destruct (nonconvergent lib NH18 w' (object_of NH18 w' g') (analyse lib NH18 w' (object_of NH18 w' g') nc)) eqn:N.
      + split; [intros [z Hz]; discriminate|]. intros A. exfalso. apply nonconvergent_nh18 in N. destruct N as (north & Hn & L). rewrite Q in L. change (w_maxit w') with m in L. assert (X := A north Hn). lia.
      + split; [|intros _; exists y; reflexivity]. intros _ north Hn. rewrite <- Q. apply Nat.nle_gt. intros L. rewrite <- Bool.not_true_iff_false in N. apply N. apply nonconvergent_nh18. exists north. split; [exact Hn|exact L].
    - exfalso. destruct (w_nh w) eqn:N.
      + rewrite (proj1 (session_north lib NH18 w' nc g' U' Hg' N Od)) in E. discriminate.
      + rewrite (proj1 (session_global lib NH18 w' nc g' U' Hg' N)) in E. discriminate.
  Qed.
End Session.
