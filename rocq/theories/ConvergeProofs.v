(** The relaxation of compute_reference_states.f90 converges: every sweep lowers the energy of the elliptic problem. *)
From Verif Require Import Base BaseFacts Spec SpecFacts FluxProofs RefStates RefStatesSpec RefStatesProofs RefStatesProofs2 RefStatesProofs3 RefStatesProofs4 EnergyProofs.
From Coq Require Import ZifyNat.
Open Scope R_scope.

Lemma some_nat x : exists n, x < INR n.
Proof.
  exists (Z.to_nat (up x)). destruct (archimed x) as [A _]. rewrite INR_IZR_INZ. destruct (Z_le_gt_dec 0 (up x)) as [L|L].
  - rewrite Z2Nat.id by exact L. lra.
  - assert (IZR (up x) <= 0) by (apply IZR_le; lia). assert (0 <= IZR (Z.of_nat (Z.to_nat (up x)))) by (apply IZR_le; lia). lra.
Qed.
Section Converge.
  Variable P : rsdims R.
  Variables pv uu pt : arr3 R.
  Variable stat : nat -> R.
  Variables g1 g2 : arr2 R.
  Hypothesis G : pole_to_pole P.
  Hypothesis H : physical P stat.
  Hypothesis Hr : 0 <= s_rjac P < 1.
  Let J3 : (3 <= s_jd P)%nat := proj1 G.
  Let K3 : (3 <= s_kmax P)%nat. Proof. assert (G1 := G). clear J3. destruct G1 as (_ & _ & _ & K & _). exact K. Qed.
  Notation J := (s_jd P).
  Notation K := (s_kmax P).
  Notation resid := (@resid R RNum RTrunc P pv stat).
  Notation swept := (swept P pv uu pt stat g1 g2).
  Notation iterate := (@iterate R RNum RTrunc P pv uu pt stat g1 g2).
  Notation anormf := (@anormf R RNum RTrunc P pv).
  Notation uz := (@uz_top R RNum P pt).
  Notation ajk := (@ajk R RNum P).
  Notation bjk := (@bjk R RNum P).
  Notation cjk := (@cjk R RNum P stat).
  Notation djk := (@djk R RNum P stat).
  Notation ejk := (@ejk R RNum P stat).
  Notation fjk := (@fjk R RNum RTrunc P pv).

  (** ** weights that make the matrix symmetric *)
  Definition up (k : nat) : R := density P stat (k + 1) k.
  Definition down (k : nat) : R := density P stat (k - 1) k.
  Definition wt (k : nat) : R := exp (- (height P k / s_h P)) * (if Nat.eqb k (K - 1) then down k / (up k + down k) else 1).
  Definition Fv (j : nat) : R := 4 * (s_om P)² * s_h P * (s_a P)² * sin (lat P j) * (s_dphi P)² / (s_r P * cos (lat P j) * (s_dz P)²).
  Definition gv (k : nat) : R := if Nat.eqb k (K - 1) then 0 else up k.
  Definition bv (j k : nat) : R := wt k * (fjk j k + (if Nat.eqb k (K - 1) then cjk j k * uz j else 0)).

  Lemma density_pos k k' : (1 <= k <= K)%nat -> (1 <= k' <= K)%nat -> 0 < density P stat k k'.
  Proof.
    intros A B. destruct H as (_ & _ & _ & _ & _ & _ & Hs). unfold density. apply Rdiv_lt_0_compat; [apply exp_pos|].
    assert (X1 := Hs k A). assert (X2 := Hs k' B). lra.
  Qed.
  Lemma density_sym k k' : density P stat k k' = density P stat k' k.
  Proof. unfold density. rewrite (Rplus_comm (height P k)), (Rplus_comm (stat k)). reflexivity. Qed.
  Lemma al_pos j : (1 <= j < J)%nat -> 0 < ajk j.
  Proof.
    intros Hj. rewrite ajk_R by lia. destruct (Nat.eq_dec j 1) as [->|N].
    - assert (D := dphi_pos P G). assert (L : lat P 1 = 0) by (unfold lat; cbn; ring). rewrite L. assert (X := lat_inside P G 2 ltac:(lia)). unfold lat in X. cbn [INR] in X. assert (HP := PI_RGT_0).
      apply Rinv_0_lt_compat, Rmult_lt_0_compat; [apply sin_gt_0|apply cos_gt_0]; lra.
    - apply Rinv_0_lt_compat. destruct (lat_inside P G j ltac:(lia)) as [L1 L2]. assert (D := dphi_pos P G). assert (HP := PI_RGT_0).
      apply Rmult_lt_0_compat; [apply sin_gt_0|apply cos_gt_0]; lra.
  Qed.
  Lemma bjk_ajk j : (1 <= j)%nat -> bjk j = ajk (j - 1).
  Proof.
    intros Hj. rewrite ajk_R, bjk_R by lia. replace (lat P (j - 1) + s_dphi P / 2) with (lat P j - s_dphi P / 2); [reflexivity|].
    unfold lat. rewrite minus_INR by lia. cbn [INR]. field.
  Qed.
  Lemma share_pos k : (2 <= k < K)%nat -> 0 < down k / (up k + down k) /\ 0 < up k /\ 0 < down k.
  Proof.
    intros Hk. assert (A : 0 < up k) by (apply density_pos; lia). assert (B : 0 < down k) by (apply density_pos; lia).
    split; [apply Rdiv_lt_0_compat; lra|split; assumption].
  Qed.
  Lemma wt_pos k : (2 <= k < K)%nat -> 0 < wt k.
  Proof.
    intros Hk. unfold wt. apply Rmult_lt_0_compat; [apply exp_pos|]. destruct (Nat.eqb k (K - 1)); [apply share_pos; exact Hk|lra].
  Qed.
  Lemma F_pos j : (2 <= j < J)%nat -> 0 < Fv j.
  Proof.
    intros Hj. destruct H as (Ha & Ho & Hz & Hh & Hrr & Hc & Hs). assert (C := cos_inside P G j ltac:(lia)). assert (Sj := sin_inside P G j ltac:(lia)). assert (D := dphi_pos P G). unfold Fv, Rsqr.
    apply Rdiv_lt_0_compat; repeat apply Rmult_lt_0_compat; lra.
  Qed.
  Lemma g_pos k : (1 <= k < K - 1)%nat -> 0 < gv k.
  Proof. intros Hk. unfold gv. destruct (Nat.eqb_spec k (K - 1)); [lia|]. apply density_pos; lia. Qed.
  Lemma g_top : gv (K - 1) = 0. Proof. unfold gv. rewrite Nat.eqb_refl. reflexivity. Qed.
  Lemma up_down k : (1 <= k)%nat -> down k = up (k - 1).
  Proof. intros Hk. unfold up, down. replace (k - 1 + 1)%nat with k by lia. apply density_sym. Qed.

  Lemma vertical_R j k : vertical P j k = Fv j * exp (height P k / s_h P). Proof. reflexivity. Qed.
  Lemma wt_exp k : wt k * exp (height P k / s_h P) = if Nat.eqb k (K - 1) then down k / (up k + down k) else 1.
  Proof.
    unfold wt. set (x := height P k / s_h P). assert (E : exp (- x) * exp x = 1) by (rewrite <- exp_plus, Rplus_opp_l; apply exp_0).
    set (i := if Nat.eqb k (K - 1) then _ else _). replace (exp (- x) * i * exp x) with (exp (- x) * exp x * i) by ring. rewrite E. ring.
  Qed.
  (** coefficients times weights *)
  Lemma wt_c j k : (2 <= j < J)%nat -> (2 <= k < K)%nat -> wt k * cjk j k = if Nat.eqb k (K - 1) then down k / (up k + down k) * (up k * Fv j) else Fv j * gv k.
  Proof.
    intros Hj Hk. assert (E : cjk j k = up k * vertical P j k) by (apply cjk_R; try assumption; lia). rewrite E, vertical_R.
    replace (wt k * (up k * (Fv j * exp (height P k / s_h P)))) with (wt k * exp (height P k / s_h P) * (up k * Fv j)) by ring. rewrite wt_exp.
    unfold gv. destruct (Nat.eqb k (K - 1)); ring.
  Qed.
  Lemma wt_d j k : (2 <= j < J)%nat -> (2 <= k < K)%nat -> wt k * djk j k = if Nat.eqb k (K - 1) then down k / (up k + down k) * (down k * Fv j) else Fv j * gv (k - 1).
  Proof.
    intros Hj Hk. assert (E : djk j k = down k * vertical P j k) by (apply djk_R; try assumption; lia). rewrite E, vertical_R.
    replace (wt k * (down k * (Fv j * exp (height P k / s_h P)))) with (wt k * exp (height P k / s_h P) * (down k * Fv j)) by ring. rewrite wt_exp.
    unfold gv. destruct (Nat.eqb_spec k (K - 1)); [reflexivity|]. destruct (Nat.eqb_spec (k - 1) (K - 1)); [lia|]. rewrite up_down by lia. ring.
  Qed.
  Lemma wt_cd j k : (2 <= j < J)%nat -> (2 <= k < K)%nat -> wt k * (cjk j k + djk j k) = Fv j * (gv k + gv (k - 1)).
  Proof.
    intros Hj Hk. rewrite Rmult_plus_distr_l, wt_c, wt_d by assumption. destruct (Nat.eqb_spec k (K - 1)) as [E|E]; [|ring].
    destruct (share_pos k Hk) as (_ & A & B). unfold gv. destruct (Nat.eqb_spec k (K - 1)); [|lia]. destruct (Nat.eqb_spec (k - 1) (K - 1)); [lia|].
    rewrite <- up_down by lia. field. lra.
  Qed.
  Lemma diag_e j k : (2 <= j < J)%nat -> (2 <= k < K)%nat -> diag ajk wt Fv gv j k = - (wt k * ejk j k).
  Proof.
    intros Hj Hk. unfold diag. rewrite <- wt_cd by assumption. unfold RefStates.ejk. cbn [nsub nopp RNum]. rewrite (bjk_ajk j) by lia. ring.
  Qed.
  Lemma rho_r n om u j k : (2 <= j < J)%nat -> (2 <= k < K)%nat -> let v := swept n om u in rho ajk wt Fv gv bv v j k = wt k * resid v j k.
  Proof.
    intros Hj Hk v. unfold rho, lap, bv, RefStates.resid, RefStates.ejk. cbn [nadd nsub nmul nopp RNum]. rewrite (bjk_ajk j) by lia.
    assert (C := wt_c j k Hj Hk). assert (D := wt_d j k Hj Hk). assert (CD := wt_cd j k Hj Hk). destruct (Nat.eqb_spec k (K - 1)) as [E|E].
    - assert (T : v j (k + 1)%nat = v j (k - 1)%nat - uz j).
      { replace (k + 1)%nat with K by lia. replace (k - 1)%nat with (K - 2)%nat by lia. apply swept_top; lia. }
      rewrite T. assert (G0 : gv k = 0) by (rewrite E; apply g_top). rewrite G0 in *. rewrite Rplus_0_l in CD.
      replace (Fv j * (0 * (v j (k - 1)%nat - uz j - v j k) - gv (k - 1) * (v j k - v j (k - 1)%nat))) with (- (Fv j * gv (k - 1)) * (v j k - v j (k - 1)%nat)) by ring.
      rewrite <- CD. ring.
    - replace (Fv j * (gv k * (v j (k + 1)%nat - v j k) - gv (k - 1) * (v j k - v j (k - 1)%nat)))
        with (Fv j * gv k * (v j (k + 1)%nat - v j k) - Fv j * gv (k - 1) * (v j k - v j (k - 1)%nat)) by ring.
      rewrite <- C, <- D. ring.
  Qed.

  (** ** one sweep *)
  Notation energy := (energy J K ajk wt Fv gv bv).
  Notation floor := (floor J K ajk wt bv).
  Definition cc (j k : nat) : R := wt k * wt k / diag ajk wt Fv gv j k.
  Lemma cc_pos j k : (2 <= j < J)%nat -> (2 <= k < K)%nat -> 0 < cc j k.
  Proof.
    intros Hj Hk. unfold cc. assert (W := wt_pos k Hk). apply Rdiv_lt_0_compat; [apply Rmult_lt_0_compat; exact W|].
    apply (diag_pos J K J3 K3 ajk wt Fv gv bv al_pos wt_pos F_pos g_pos g_top); assumption.
  Qed.
  Lemma sweep_energy n om n0 om0 v0 : let v := swept n0 om0 v0 in
    energy (swept n om v) = energy v - / 2 * (om * (2 - om)) * total J K (fun j k => if colour n j k then cc j k * (resid v j k)² else 0).
  Proof.
    intros v. assert (E := relax_energy J K J3 K3 ajk wt Fv gv bv al_pos wt_pos F_pos g_pos g_top v (colour n) om).
    cbv zeta in E. rewrite (energy_ext J K J3 K3 ajk wt Fv gv bv al_pos wt_pos F_pos g_pos g_top (swept n om v)
      (fun j k => v j k + (if Nat.leb 2 j && Nat.ltb j J && (Nat.leb 2 k && Nat.ltb k K) && colour n j k then om * rho ajk wt Fv gv bv v j k / diag ajk wt Fv gv j k else 0))).
    - rewrite E. 2: { intros j k Hj Hk C. apply (colour_step P stat K3 J3); assumption. }
      f_equal. f_equal. apply total_ext. intros j k Hj Hk. destruct (colour n j k); [|reflexivity]. assert (Rr := rho_r n0 om0 v0 j k Hj Hk). cbv zeta in Rr. fold v in Rr. rewrite Rr. unfold cc, Rsqr, Rdiv. ring.
    - intros j k Hj Hk Hc. destruct (Nat.eq_dec j 1) as [->|J1].
      { cbn [Nat.leb andb]. rewrite Rplus_0_r. reflexivity. }
      destruct (Nat.eq_dec j J) as [->|JJ].
      { rewrite Nat.ltb_irrefl, andb_false_r. cbn [andb]. unfold v. rewrite !swept_pole by lia. ring. }
      destruct (Nat.eq_dec k 1) as [->|K1].
      { cbn [Nat.leb]. rewrite andb_false_r. cbn [andb]. unfold v. rewrite !swept_ground by lia. ring. }
      assert (I : inside P j k) by (split; lia). rewrite swept_inside by (auto; lia). unfold relaxed.
      destruct (Nat.leb_spec 2 j), (Nat.ltb_spec j J), (Nat.leb_spec 2 k), (Nat.ltb_spec k K); try lia. cbn [andb].
      assert (En := ejk_neg P stat K3 J3 G H j k I). destruct (colour n j k); [|ring]. destruct (Reqb_spec (ejk j k) 0); [lra|].
      assert (Rr := rho_r n0 om0 v0 j k ltac:(lia) ltac:(lia)). cbv zeta in Rr. fold v in Rr. rewrite Rr, diag_e by lia. assert (W := wt_pos k ltac:(lia)). field. lra.
  Qed.

  (** ** the over-relaxation parameter stays away from 2 *)
  Definition Wmax : R := 1 / (1 - (s_rjac P)² / 2).
  Lemma rj : 0 <= (s_rjac P)² < 1. Proof. unfold Rsqr. nra. Qed.
  Lemma W_range : 1 <= Wmax < 2.
  Proof.
    assert (Q := rj). unfold Wmax. split.
    - apply Rmult_le_reg_r with (1 - (s_rjac P)² / 2); [lra|]. unfold Rdiv at 2. rewrite Rmult_assoc, Rinv_l by lra. lra.
    - apply Rmult_lt_reg_r with (1 - (s_rjac P)² / 2); [lra|]. unfold Rdiv at 1. rewrite Rmult_assoc, Rinv_l by lra. lra.
  Qed.
  Lemma next_le n om : 1 <= om <= Wmax -> 1 <= @next_omega R RNum P n om <= Wmax.
  Proof.
    intros Ho. assert (W := W_range). assert (R1 := next_omega_range P Hr n om ltac:(lra)). split; [lra|].
    unfold next_omega, nsq, Wmax. rewrite nhalf_half. cbn [none ndiv nsub nmul nofZ RNum]. assert (Q := rj). unfold Rsqr in *. set (y := s_rjac P * s_rjac P) in *.
    destruct (Nat.eqb n 1); [right; f_equal; field|]. unfold Rdiv. rewrite !Rmult_1_l. apply Rinv_le_contravar; [lra|]. nra.
  Qed.

  (** ** enough sweeps *)
  Definition loss : R :=
    let tau := s_eps P * anormf in / 2 * (2 - Wmax) * (tau * tau / (4 * total J K (fun j k => / (4 * cc j k)))).
  Lemma never_stuck fuel : 0 < s_eps P * anormf -> forall n om n0 om0 v0, (2 <= n)%nat -> 1 <= om <= Wmax -> let v := swept n0 om0 v0 in
    energy v + floor < loss * INR fuel -> (snd (iterate fuel n om v) < n + fuel)%nat.
  Proof.
    intros T. induction fuel as [|fuel IH]; intros n om n0 om0 v0 Hn Ho v L.
    - exfalso. cbn [INR] in L. rewrite Rmult_0_r in L.
      assert (B := energy_floor J K J3 K3 ajk wt Fv gv bv al_pos wt_pos F_pos g_pos g_top v ltac:(intros k Hk; unfold v; apply swept_pole; lia)). lra.
    - cbn [RefStates.iterate]. rewrite sweep_eq by lia. cbn [nltb nmul RNum]. destruct (Nat.ltb_spec 1 n); [|lia]. cbn [andb].
      destruct (Rltb_spec (norm_colour P n (resid v)) (s_eps P * anormf)) as [C|C]; [cbn [snd]; lia|].
      assert (X := IH (S n) (@next_omega R RNum P n om) n om v ltac:(lia) (next_le n om Ho)). cbv zeta in X. enough (Y1 : energy (swept n om v) + floor < loss * INR fuel) by (specialize (X Y1); lia).
      assert (E := sweep_energy n om n0 om0 v0). cbv zeta in E. fold v in E. rewrite E.
      assert (B := large_loss J K J3 K3 ajk wt Fv gv bv al_pos wt_pos F_pos g_pos (resid v) cc (colour n) (s_eps P * anormf) cc_pos T C).
      set (Z := total J K (fun j k => if colour n j k then cc j k * (resid v j k)² else 0)) in *.
      assert (W := W_range). unfold loss in L |- *. cbv zeta in L |- *. set (Y := s_eps P * anormf * (s_eps P * anormf) / _) in *. rewrite S_INR in L.
      assert (Y0 : 0 <= Y).
      { unfold Y. apply Rlt_le, Rdiv_lt_0_compat; [apply Rmult_lt_0_compat; exact T|]. apply Rmult_lt_0_compat; [lra|]. apply (total_pos J K J3 K3 ajk wt Fv gv bv al_pos wt_pos F_pos g_pos).
        intros j k Hj Hk. apply Rinv_0_lt_compat. assert (Cp := cc_pos j k Hj Hk). lra. }
      assert (Q : (2 - Wmax) * Y <= om * (2 - om) * Z).
      { apply Rmult_le_compat; [lra|exact Y0| |exact B]. nra. }
      lra.
  Qed.
  Lemma loss_pos : 0 < s_eps P * anormf -> 0 < loss.
  Proof.
    intros T. unfold loss. cbv zeta. assert (W := W_range). apply Rmult_lt_0_compat; [lra|]. apply Rdiv_lt_0_compat; [apply Rmult_lt_0_compat; exact T|]. apply Rmult_lt_0_compat; [lra|].
    apply (total_pos J K J3 K3 ajk wt Fv gv bv al_pos wt_pos F_pos g_pos). intros j k Hj Hk. apply Rinv_0_lt_compat. assert (Cp := cc_pos j k Hj Hk). lra.
  Qed.
  Lemma enough : 0 < s_eps P * anormf -> exists N, (snd (iterate N 1%nat 1%R (fun _ _ => 0%R)) < 1 + N)%nat.
  Proof.
    intros T. set (v := swept 1 1 (fun _ _ => 0)). assert (Lp := loss_pos T).
    destruct (some_nat ((energy v + floor) / loss)) as [f Hf]. exists (S f). cbn [RefStates.iterate]. rewrite sweep_eq by lia. cbn [nltb nmul RNum]. cbn [Nat.ltb Nat.leb andb].
    assert (X := never_stuck f T 2 (@next_omega R RNum P 1 1) 1 1 (fun _ _ => 0) ltac:(lia) (next_le 1 1 ltac:(assert (W := W_range); lra))). cbv zeta in X. fold v in X |- *.
    assert (Y : energy v + floor < loss * INR f).
    { apply (Rmult_lt_compat_l loss) in Hf; [|exact Lp]. replace (loss * ((energy v + floor) / loss)) with (energy v + floor) in Hf by (field; lra). exact Hf. }
    specialize (X Y). lia.
  Qed.
  (** and without a right hand side the test is never met *)
  Lemma never fuel : s_eps P * anormf <= 0 -> forall n om u, snd (iterate fuel n om u) = (n + fuel)%nat.
  Proof.
    intros T. induction fuel as [|fuel IH]; intros n om u; cbn [RefStates.iterate]; [cbn [snd]; lia|]. rewrite sweep_eq by lia. cbn [nltb nmul RNum].
    destruct (Rltb_spec (norm_colour P n (resid u)) (s_eps P * anormf)) as [C|C].
    - exfalso. assert (0 <= norm_colour P n (resid u)); [|lra]. unfold norm_colour. apply Sum_nonneg. intros j _. apply Sum_nonneg. intros k _. destruct (colour n j k); [apply Rabs_pos|lra].
    - rewrite andb_false_r. rewrite IH. lia.
  Qed.
End Converge.
