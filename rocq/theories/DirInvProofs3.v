(** Proofs about the direct inversion: temperature, the effect of flipping the vorticity, the rows an object reports,
    and an exact matrix inverse (Gaussian elimination with row exchanges). *)
From Verif Require Import Base BaseFacts Spec SpecFacts Flux FluxSpec FluxProofs Qgpv QgpvSpec QgpvProofs Pipeline PipelineSpec PipelineProofs RefStates RefStatesSpec RefStatesProofs RefStatesProofs2 RefStatesProofs3 RefStatesProofs4 RefStatesProofs5 RefStatesProofs6 DirInv DirInvSpec DirInvProofs DirInvProofs2.
From Coq Require Import FunctionalExtensionality.
Open Scope R_scope.

(** ** temperature *)
Section Temperature.
  Variable P : rsdims R.
  Variable jb : nat.
  Variables pv vort pt : arr3 R.
  Variable stat : nat -> R.
  Variable tbar0 : nat -> R.
  Variable inverse : nat -> arr2 R -> arr2 R.
  Hypothesis G : pole_to_pole P.
  Hypothesis Hj : (jb + 4 <= s_jd P)%nat.
  Notation uref := (@d_uref R RNum RTrunc P jb pv vort pt stat inverse).
  Notation tref := (@d_tref R RNum RTrunc P jb pv vort pt stat tbar0 inverse).
  Notation tref0 k j := (@d_tref0 R RNum RTrunc P jb pv vort pt stat inverse k j).
  Notation tref1 := (@d_tref1 R RNum RTrunc P jb pv vort pt stat tbar0 inverse).
  Notation W := (Sum 1 (s_jd P - jb + 1) (fun j => cos (lat P (j + jb)))).
  Lemma weights_pos_from : 0 < W.
  Proof.
    rewrite Sum_S_l by lia. assert (X : 0 <= Sum 2 (s_jd P - jb + 1) (fun j => cos (lat P (j + jb)))) by (apply Sum_nonneg; intros j Hr; apply (cos_row P G); lia).
    assert (Y : 0 < cos (lat P (1 + jb))); [|lra]. destruct (Nat.eq_dec jb 0) as [->|].
    - unfold lat. cbn [Nat.add INR]. rewrite Rminus_diag_eq, Rmult_0_r, cos_0 by reflexivity. lra.
    - apply (cos_inside P G). lia.
  Qed.
  Lemma mean_from_ext x y : (forall j, (1 <= j <= s_jd P - jb)%nat -> x j = y j) -> mean_from P jb x = mean_from P jb y.
  Proof. intros E. unfold mean_from. f_equal. apply Sum_ext. intros j Hr. rewrite E by lia. reflexivity. Qed.
  Lemma mean_from_shift x d : mean_from P jb (fun j => x j + d) = mean_from P jb x + d.
  Proof.
    unfold mean_from. assert (X := weights_pos_from).
    replace (Sum 1 (s_jd P - jb + 1) (fun j => cos (lat P (j + jb)) * (x j + d))) with (Sum 1 (s_jd P - jb + 1) (fun j => cos (lat P (j + jb)) * x j) + d * W).
    - field. lra.
    - rewrite <- Sum_scal, <- Sum_plus. apply Sum_ext. intros; ring.
  Qed.
  Lemma d_tg_R k : @d_tg R RNum RTrunc P jb pv vort pt stat inverse k = mean_from P jb (fun j => tref0 k j).
  Proof.
    unfold d_tg, mean_from, d_jd. rewrite (D_P P jb G Hj). cbn [ndiv RNum]. f_equal; [|f_equal]; apply loop_sum; intros j s _; rewrite phi_lat; reflexivity.
  Qed.
  Lemma tref1_mean_from k : mean_from P jb (fun j => tref1 j k) = tbar0 k.
  Proof. unfold d_tref1. cbn [nadd nsub RNum]. rewrite (mean_from_shift (fun j => tref0 k j)), d_tg_R. ring. Qed.
  Lemma tref_mean_from k : (1 <= k <= s_kmax P)%nat -> mean_from P jb (fun j => tref j k) = tbar0 k.
  Proof.
    intros Hk. assert (K3 : (3 <= s_kmax P)%nat) by exact (proj1 (proj2 (proj2 (proj2 G)))). unfold d_tref. destruct (Nat.eqb_spec k (s_kmax P)) as [->|]; [|destruct (Nat.eqb_spec k 1) as [->|]].
    - rewrite (mean_from_ext _ (fun j => tref1 j (s_kmax P - 1)%nat + (tbar0 (s_kmax P) - tbar0 (s_kmax P - 1)%nat))) by (intros; cbn [nadd nsub RNum]; ring).
      rewrite mean_from_shift, tref1_mean_from. ring.
    - rewrite (mean_from_ext _ (fun j => tref1 j 2%nat + (tbar0 1%nat - tbar0 2%nat))) by (intros; cbn [nadd nsub RNum]; ring).
      rewrite mean_from_shift, tref1_mean_from. ring.
    - apply tref1_mean_from.
  Qed.
  Lemma d_tref0_S j k : (2 <= j)%nat -> tref0 k (j + 1)%nat = tref0 k (j - 1)%nat + 2 * @d_ty R RNum RTrunc P jb pv vort pt stat inverse k j * s_dphi P.
  Proof.
    intros Hr. rewrite <- (dp_R P jb G Hj). destruct j as [|[|j]]; try lia. replace (S (S j) + 1)%nat with (S (S (S j))) by lia. replace (S (S j) - 1)%nat with (S j) by lia. reflexivity.
  Qed.
  Lemma thermal_wind_from j k : (jb + 2 <= j <= s_jd P - 1)%nat -> (2 <= k <= s_kmax P - 1)%nat -> s_a P <> 0 ->
    (tref (j - jb + 1)%nat k - tref (j - jb - 1)%nat k) / (2 * s_dphi P * s_a P)
    = - (2 * s_om P * sin (lat P j)) * (s_h P / s_r P) * exp (s_r P / s_cp P * height P k / s_h P)
      * ((uref (j - jb)%nat (k + 1)%nat - uref (j - jb)%nat (k - 1)%nat) / (2 * s_dz P)).
  Proof.
    intros Hr Hk Ha. unfold d_tref. destruct (Nat.eqb_spec k (s_kmax P)); [lia|]. destruct (Nat.eqb_spec k 1); [lia|].
    unfold d_tref1. rewrite d_tref0_S by lia. unfold d_ty. rewrite (D_P P jb G Hj), phi_lat. replace (j - jb + jb)%nat with j by lia. unfold zlev, rkappa. rewrite nfloat_R. cbn [nadd nsub nmul ndiv nopp nsin nexp nofZ RNum INR].
    unfold height. set (E := exp _). set (S := sin _). set (D := uref _ (k + 1)%nat - uref _ (k - 1)%nat). assert (Dp := dphi_pos P G).
    set (x1 := tref0 k (j - jb - 1)%nat). set (y := tbar0 k - _).
    replace (x1 + 2 * (- (2 * s_om P * S) * (D / (2 * s_dz P)) * s_a P * s_h P * E / s_r P) * s_dphi P + y - (x1 + y))
      with (2 * (- (2 * s_om P * S) * (D / (2 * s_dz P)) * s_a P * s_h P * E / s_r P) * s_dphi P) by ring.
    unfold Rdiv.
    replace (/ (2 * s_dphi P * s_a P)) with (/ 2 * / s_dphi P * / s_a P) by (field; lra).
    replace (2 * (- (2 * s_om P * S) * (D * / (2 * s_dz P)) * s_a P * s_h P * E * / s_r P) * s_dphi P * (/ 2 * / s_dphi P * / s_a P))
      with ((2 * / 2) * (s_dphi P * / s_dphi P) * (s_a P * / s_a P) * (- (2 * s_om P * S) * (D * / (2 * s_dz P)) * s_h P * E * / s_r P)) by ring.
    rewrite !Rinv_r by lra. ring.
  Qed.
End Temperature.

(** ** a field and its flipped copy have the same circulations *)
Section Flip.
  Variable P : rsdims R.
  Hypothesis G : pole_to_pole P.
  Variables x y : arr3 R.
  Hypothesis E : forall i j k, (1 <= i <= s_nlon P)%nat -> (1 <= j <= s_nlat P)%nat -> y i j k = x i (s_nlat P + 1 - j)%nat k.
  Let N1 : (1 <= s_nlat P)%nat. Proof. destruct G as (A & B & _). lia. Qed.
  Let L1 : (1 <= s_nlon P)%nat. Proof. exact (proj1 (proj2 (proj2 G))). Qed.
  Lemma da_flip j : (1 <= j <= s_nlat P)%nat -> @da R RNum P (s_nlat P + 1 - j) = @da R RNum P j.
  Proof.
    intros Hr. destruct G as (A & B & _ & _ & _ & D & _). unfold da. rewrite !nfloat_R, nhalf_half. cbn [nmul nadd nopp ncos npi RNum]. f_equal.
    rewrite <- cos_neg. f_equal. rewrite minus_INR in D by lia. rewrite minus_INR, plus_INR by lia. rewrite B, minus_INR, mult_INR by lia. cbn [INR] in *. lra.
  Qed.
  Lemma extremes_flip k : @qmax R RNum P y k = @qmax R RNum P x k /\ @qmin R RNum P y k = @qmin R RNum P x k.
  Proof.
    destruct (level_extremes P x k L1 ltac:(lia)) as (M & m & HM & Hm).
    rewrite (qmax_level P x k M HM), (qmin_level P x k m Hm). split.
    - apply qmax_level. destruct HM as [H1 (i & j & [Hi Hr] & H2)]. split.
      + intros i' j' [Hi' Hr']. rewrite E by assumption. apply H1. split; [assumption|lia].
      + exists i, (s_nlat P + 1 - j)%nat. split; [split; [assumption|lia]|]. rewrite E by lia. replace (s_nlat P + 1 - (s_nlat P + 1 - j))%nat with j by lia. exact H2.
    - apply qmin_level. destruct Hm as [H1 (i & j & [Hi Hr] & H2)]. split.
      + intros i' j' [Hi' Hr']. rewrite E by assumption. apply H1. split; [assumption|lia].
      + exists i, (s_nlat P + 1 - j)%nat. split; [split; [assumption|lia]|]. rewrite E by lia. replace (s_nlat P + 1 - (s_nlat P + 1 - j))%nat with j by lia. exact H2.
  Qed.
  Lemma qmax_flip : @qmax R RNum P y = @qmax R RNum P x. Proof. apply functional_extensionality. intros k. apply extremes_flip. Qed.
  Lemma qmin_flip : @qmin R RNum P y = @qmin R RNum P x. Proof. apply functional_extensionality. intros k. apply extremes_flip. Qed.
  Lemma dq_flip : @dq R RNum P y = @dq R RNum P x. Proof. unfold dq. rewrite qmax_flip, qmin_flip. reflexivity. Qed.
  Lemma flip_sum (f : nat -> nat -> R) (g : nat -> nat -> R) :
    (forall i j, (1 <= i <= s_nlon P)%nat -> (1 <= j <= s_nlat P)%nat -> f i j = g i (s_nlat P + 1 - j)%nat) ->
    Sum 1 (s_nlat P + 1) (fun j => Sum 1 (s_nlon P + 1) (fun i => f i j)) = Sum 1 (s_nlat P + 1) (fun j => Sum 1 (s_nlon P + 1) (fun i => g i j)).
  Proof.
    intros F. rewrite (Sum_reflect (s_nlat P + 1) 1 (s_nlat P + 1) (fun j => Sum 1 (s_nlon P + 1) (fun i => g i j))) by lia.
    replace (S (s_nlat P + 1) - (s_nlat P + 1))%nat with 1%nat by lia. replace (S (s_nlat P + 1) - 1)%nat with (s_nlat P + 1)%nat by lia. apply Sum_ext. intros j Hr. apply Sum_ext. intros i Hi.
    apply F; lia.
  Qed.
  Lemma an_flip : @an R RNum RTrunc P y = @an R RNum RTrunc P x.
  Proof.
    apply functional_extensionality. intros k. apply functional_extensionality. intros nn. unfold an. cbn [nadd nzero RNum].
    rewrite !fold_cond_sum, !Rplus_0_l, !SumL_cells. unfold bin. cbn [fst snd]. rewrite dq_flip, qmax_flip.
    apply (flip_sum (fun i j => if Z.eqb (Z.succ (ntrunc ((qmax P x k - y i j k) / dq P x k))) (Z.of_nat nn) then da P j else 0)
                    (fun i j => if Z.eqb (Z.succ (ntrunc ((qmax P x k - x i j k) / dq P x k))) (Z.of_nat nn) then da P j else 0)).
    intros i j Hi Hr. rewrite E, da_flip by assumption. reflexivity.
  Qed.
  Lemma cn_flip : @cn R RNum RTrunc P y = @cn R RNum RTrunc P x.
  Proof.
    apply functional_extensionality. intros k. apply functional_extensionality. intros nn. unfold cn. cbn [nadd nzero RNum].
    rewrite !fold_cond_sum, !Rplus_0_l, !SumL_cells. unfold bin. cbn [fst snd]. rewrite dq_flip, qmax_flip.
    apply (flip_sum (fun i j => if Z.eqb (Z.succ (ntrunc ((qmax P x k - y i j k) / dq P x k))) (Z.of_nat nn) then da P j * y i j k else 0)
                    (fun i j => if Z.eqb (Z.succ (ntrunc ((qmax P x k - x i j k) / dq P x k))) (Z.of_nat nn) then da P j * x i j k else 0)).
    intros i j Hi Hr. rewrite E, da_flip by assumption. reflexivity.
  Qed.
  Lemma ckref_flip : @ckref R RNum RTrunc P y = @ckref R RNum RTrunc P x.
  Proof. unfold ckref, at_row, bracketed, aan, ccn. rewrite an_flip, cn_flip. reflexivity. Qed.
End Flip.

(** the inversion uses the vorticity only through ckref *)
Lemma inversion_vort (c : pconf R) inverse tn pv uu v1 v2 pt t0 stat :
  @ckref R RNum RTrunc (nhn22_dims c) v1 = @ckref R RNum RTrunc (nhn22_dims c) v2 ->
  nhn22_inversion c inverse tn pv uu v1 pt t0 stat = nhn22_inversion c inverse tn pv uu v2 pt t0 stat.
Proof.
  intros E. unfold nhn22_inversion.
  assert (B : @u_bound R RNum RTrunc (nhn22_dims c) (p_jb c) v1 = u_bound (nhn22_dims c) (p_jb c) v2) by (unfold u_bound; rewrite E; reflexivity).
  assert (J : @rj R RNum RTrunc (nhn22_dims c) (p_jb c) pv v1 = rj (nhn22_dims c) (p_jb c) pv v2) by (unfold rj; rewrite B; reflexivity).
  assert (T : @t_next R RNum RTrunc (nhn22_dims c) (p_jb c) pv v1 = t_next (nhn22_dims c) (p_jb c) pv v2) by (unfold t_next; rewrite J; reflexivity).
  assert (D : @down R RNum RTrunc (nhn22_dims c) (p_jb c) pv v1 = down (nhn22_dims c) (p_jb c) pv v2) by (unfold down; rewrite T; reflexivity).
  assert (S : @sjk R RNum RTrunc (nhn22_dims c) (p_jb c) pv v1 = sjk (nhn22_dims c) (p_jb c) pv v2) by (unfold sjk; rewrite D; reflexivity).
  assert (T2 : @tjk R RNum RTrunc (nhn22_dims c) (p_jb c) pv v1 = tjk (nhn22_dims c) (p_jb c) pv v2) by (unfold tjk; rewrite D; reflexivity).
  assert (Q : @pjk R RNum RTrunc (nhn22_dims c) (p_jb c) pv v1 = pjk (nhn22_dims c) (p_jb c) pv v2) by (unfold pjk; rewrite S, T2; reflexivity).
  assert (U0 : @d_u0 R RNum RTrunc (nhn22_dims c) (p_jb c) pv v1 = d_u0 (nhn22_dims c) (p_jb c) pv v2) by (unfold d_u0; rewrite E, Q; reflexivity).
  assert (U1 : @d_u1 R RNum RTrunc (nhn22_dims c) (p_jb c) pv v1 = d_u1 (nhn22_dims c) (p_jb c) pv v2) by (unfold d_u1; rewrite U0; reflexivity).
  assert (U : @d_uref R RNum RTrunc (nhn22_dims c) (p_jb c) pv v1 = d_uref (nhn22_dims c) (p_jb c) pv v2) by (unfold d_uref; rewrite U1; reflexivity).
  assert (Y : @d_ty R RNum RTrunc (nhn22_dims c) (p_jb c) pv v1 = d_ty (nhn22_dims c) (p_jb c) pv v2) by (unfold d_ty; rewrite U; reflexivity).
  assert (R0 : @d_tref0 R RNum RTrunc (nhn22_dims c) (p_jb c) pv v1 = d_tref0 (nhn22_dims c) (p_jb c) pv v2) by (unfold d_tref0; rewrite Y; reflexivity).
  assert (TG : @d_tg R RNum RTrunc (nhn22_dims c) (p_jb c) pv v1 = d_tg (nhn22_dims c) (p_jb c) pv v2) by (unfold d_tg; rewrite R0; reflexivity).
  assert (R1 : @d_tref1 R RNum RTrunc (nhn22_dims c) (p_jb c) pv v1 = d_tref1 (nhn22_dims c) (p_jb c) pv v2) by (unfold d_tref1; rewrite R0, TG; reflexivity).
  assert (R2 : @d_tref R RNum RTrunc (nhn22_dims c) (p_jb c) pv v1 = d_tref (nhn22_dims c) (p_jb c) pv v2) by (unfold d_tref; rewrite R1; reflexivity).
  rewrite U, R2. reflexivity.
Qed.

(** ** an exact inverse: Gaussian elimination with row exchanges *)
Fixpoint find_pivot (X : arr2 R) (n : nat) : nat :=
  match n with O => 1%nat | S m => if Req_EM_T (X (S m) 1%nat) 0 then find_pivot X m else S m end.
Definition exchange (p i : nat) : nat := if Nat.eqb i 1 then p else if Nat.eqb i p then 1%nat else i.
Fixpoint gauss (n : nat) (X : arr2 R) (g : nat -> R) : nat -> R :=
  match n with
  | O => fun _ => 0
  | S m =>
      let p := find_pivot X n in
      let Y i j := X (exchange p i) j in
      let h i := g (exchange p i) in
      let Z i j := Y (i + 1)%nat (j + 1)%nat - Y (i + 1)%nat 1%nat * Y 1%nat (j + 1)%nat / Y 1%nat 1%nat in
      let v := gauss m Z (fun i => h (i + 1)%nat - Y (i + 1)%nat 1%nat * h 1%nat / Y 1%nat 1%nat) in
      fun i => if Nat.eqb i 1 then (h 1%nat - Sum 1 (m + 1) (fun j => Y 1%nat (j + 1)%nat * v j)) / Y 1%nat 1%nat else v (i - 1)%nat
  end.
Definition gauss_inverse (n : nat) (X : arr2 R) : arr2 R := fun l m => gauss n X (fun i => if Nat.eqb i m then 1 else 0) l.

Lemma find_pivot_spec X n : (exists i, (1 <= i <= n)%nat /\ X i 1%nat <> 0) -> (1 <= find_pivot X n <= n)%nat /\ X (find_pivot X n) 1%nat <> 0.
Proof.
  induction n as [|n IH]; intros (i & Hi & Hx); [lia|]. cbn [find_pivot]. destruct (Req_EM_T (X (S n) 1%nat) 0) as [E|E]; [|split; [lia|exact E]].
  destruct (Nat.eq_dec i (S n)) as [->|]; [contradiction|]. destruct IH as [I1 I2]; [exists i; split; [lia|exact Hx]|]. split; [lia|exact I2].
Qed.
Lemma apply_first n X v i : apply (S n) X v i = X i 1%nat * v 1%nat + Sum 1 (n + 1) (fun j => X i (j + 1)%nat * v (j + 1)%nat).
Proof.
  unfold apply. rewrite Sum_S_l by lia. f_equal. replace (S n + 1)%nat with (n + 1 + 1)%nat by lia. exact (Sum_shift 1 1 (n + 1) (fun j => X i j * v j)).
Qed.
Lemma gauss_solves n : forall X g, nonsingular n X -> forall i, (1 <= i <= n)%nat -> apply n X (gauss n X g) i = g i.
Proof.
  induction n as [|n IH]; intros X g NS i Hi; [lia|].
  assert (Piv : exists i, (1 <= i <= S n)%nat /\ X i 1%nat <> 0).
  { destruct (Classical_Prop.classic (exists i, (1 <= i <= S n)%nat /\ X i 1%nat <> 0)) as [P|P]; [exact P|]. exfalso.
    assert (Z : forall i, (1 <= i <= S n)%nat -> X i 1%nat = 0) by (intros j Hr; destruct (Req_EM_T (X j 1%nat) 0); [assumption|exfalso; apply P; exists j; auto]).
    assert (A : (fun i => if Nat.eqb i 1 then 1 else 0) 1%nat = 0).
    { apply (NS (fun i => if Nat.eqb i 1 then 1 else 0)); [|lia]. intros j Hr. rewrite apply_first. rewrite Z by exact Hr. rewrite Sum_zero; [ring|].
      intros l Hl. destruct (Nat.eqb_spec (l + 1) 1); [lia|ring]. }
    cbn in A. lra. }
  destruct (find_pivot_spec X (S n) Piv) as [P1 P2]. cbn [gauss]. set (p := find_pivot X (S n)) in *. clearbody p.
  set (Y := fun i j => X (exchange p i) j). set (h := fun i => g (exchange p i)).
  assert (ExR : forall i, (1 <= i <= S n)%nat -> (1 <= exchange p i <= S n)%nat).
  { intros j Hr. unfold exchange. destruct (Nat.eqb_spec j 1); [lia|]. destruct (Nat.eqb_spec j p); lia. }
  assert (ExI : forall i, exchange p (exchange p i) = i).
  { intros j. unfold exchange. destruct (Nat.eqb_spec j 1) as [->|]; [destruct (Nat.eqb_spec p 1) as [->|]; [reflexivity|rewrite Nat.eqb_refl; reflexivity]|].
    destruct (Nat.eqb_spec j p) as [->|]; [reflexivity|]. destruct (Nat.eqb_spec j 1); [lia|]. destruct (Nat.eqb_spec j p); [lia|reflexivity]. }
  assert (Y11 : Y 1%nat 1%nat <> 0) by exact P2.
  set (Z := fun i j => Y (i + 1)%nat (j + 1)%nat - Y (i + 1)%nat 1%nat * Y 1%nat (j + 1)%nat / Y 1%nat 1%nat).
  assert (NZ : nonsingular n Z).
  { intros v Hv j Hr. set (u := fun l => if Nat.eqb l 1 then - Sum 1 (n + 1) (fun m => Y 1%nat (m + 1)%nat * v m) / Y 1%nat 1%nat else v (l - 1)%nat).
    assert (U : forall l, (1 <= l <= n)%nat -> u (l + 1)%nat = v l) by (intros l Hl; unfold u; destruct (Nat.eqb_spec (l + 1) 1); [lia|f_equal; lia]).
    assert (YU : forall l, (1 <= l <= S n)%nat -> apply (S n) Y u l = 0).
    { intros l Hl. rewrite apply_first. rewrite (Sum_ext 1 (n + 1) _ (fun m => Y l (m + 1)%nat * v m)) by (intros m Hm; rewrite U by lia; reflexivity).
      unfold u at 1. cbn [Nat.eqb]. destruct (Nat.eq_dec l 1) as [->|Nl]; [field; exact Y11|].
      assert (V := Hv (l - 1)%nat ltac:(lia)). unfold apply, Z in V. replace (l - 1 + 1)%nat with l in V by lia.
      rewrite (Sum_ext 1 (n + 1) _ (fun m => Y l (m + 1)%nat * v m - (Y l 1%nat / Y 1%nat 1%nat) * (Y 1%nat (m + 1)%nat * v m))) in V by (intros; field; exact Y11).
      rewrite Sum_minus, Sum_scal in V. rewrite <- V. field. exact Y11. }
    rewrite <- (U j Hr). apply (NS u); [|lia]. intros l Hl. rewrite <- (ExI l). exact (YU (exchange p l) (ExR l Hl)). }
  set (v := gauss n Z (fun i => h (i + 1)%nat - Y (i + 1)%nat 1%nat * h 1%nat / Y 1%nat 1%nat)).
  assert (Hv := IH Z (fun i => h (i + 1)%nat - Y (i + 1)%nat 1%nat * h 1%nat / Y 1%nat 1%nat) NZ). fold v in Hv.
  set (u := fun i => if Nat.eqb i 1 then (h 1%nat - Sum 1 (n + 1) (fun j => Y 1%nat (j + 1)%nat * v j)) / Y 1%nat 1%nat else v (i - 1)%nat).
  assert (U : forall l, (1 <= l <= n)%nat -> u (l + 1)%nat = v l) by (intros l Hl; unfold u; destruct (Nat.eqb_spec (l + 1) 1); [lia|f_equal; lia]).
  assert (YU : forall l, (1 <= l <= S n)%nat -> apply (S n) Y u l = h l).
  { intros l Hl. rewrite apply_first. rewrite (Sum_ext 1 (n + 1) _ (fun m => Y l (m + 1)%nat * v m)) by (intros m Hm; rewrite U by lia; reflexivity).
    unfold u at 1. cbn [Nat.eqb]. destruct (Nat.eq_dec l 1) as [->|Nl]; [field; exact Y11|].
    assert (V := Hv (l - 1)%nat ltac:(lia)). unfold apply, Z in V. replace (l - 1 + 1)%nat with l in V by lia.
    rewrite (Sum_ext 1 (n + 1) _ (fun m => Y l (m + 1)%nat * v m - (Y l 1%nat / Y 1%nat 1%nat) * (Y 1%nat (m + 1)%nat * v m))) in V by (intros; field; exact Y11).
    rewrite Sum_minus, Sum_scal in V. replace (h l) with (h l - Y l 1%nat * h 1%nat / Y 1%nat 1%nat + Y l 1%nat * h 1%nat / Y 1%nat 1%nat) by ring. rewrite <- V. field. exact Y11. }
  assert (F := YU (exchange p i) (ExR i Hi)). unfold Y, h in F. unfold apply in F. rewrite ExI in F. exact F.
Qed.
Lemma gauss_inverse_exact : exact_inverse gauss_inverse.
Proof.
  intros n X NS i m Hi Hm. unfold gauss_inverse.
  exact (gauss_solves n X (fun i => if Nat.eqb i m then 1 else 0) NS i Hi).
Qed.
