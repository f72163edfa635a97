(** Energy of a five-point difference problem, and how point relaxation lowers it. *)
From Verif Require Import Base BaseFacts Spec SpecFacts.
From Verif Require UtilitiesProofs.
Open Scope R_scope.

(** ** sums *)
Lemma by_parts (c x z : nat -> R) lo hi : (lo < hi)%nat ->
  Sum lo hi (fun i => c i * (x (i + 1)%nat - x i) * (z (i + 1)%nat - z i))
  = c (hi - 1)%nat * (x hi - x (hi - 1)%nat) * z hi - c lo * (x (lo + 1)%nat - x lo) * z lo
    - Sum (lo + 1) hi (fun i => z i * (c i * (x (i + 1)%nat - x i) - c (i - 1)%nat * (x i - x (i - 1)%nat))).
Proof.
  intros L. induction hi as [|hi IH]; [lia|]. destruct (Nat.eq_dec lo hi) as [->|N].
  - rewrite Sum_S_r by lia. rewrite !Sum_empty by lia. replace (S hi - 1)%nat with hi by lia. replace (hi + 1)%nat with (S hi) by lia. ring.
  - rewrite !Sum_S_r by lia. rewrite IH by lia. replace (S hi - 1)%nat with hi by lia. replace (hi + 1)%nat with (S hi) by lia. ring.
Qed.
Lemma schwarz (al d : nat -> R) lo hi : (forall i, (lo <= i < hi)%nat -> 0 < al i) ->
  (Sum lo hi d)² <= Sum lo hi (fun i => / al i) * Sum lo hi (fun i => al i * (d i)²).
Proof.
  intros P. destruct (Nat.le_gt_cases hi lo) as [L|L]; [rewrite !Sum_empty by lia; unfold Rsqr; lra|].
  induction hi as [|hi IH]; [lia|]. destruct (Nat.eq_dec lo hi) as [->|N].
  - rewrite !Sum_S_r by lia. rewrite !Sum_empty by lia. assert (X := P hi ltac:(lia)). right. unfold Rsqr. field. lra.
  - rewrite !Sum_S_r by lia. assert (A := P hi ltac:(lia)). specialize (IH (fun i Hi => P i ltac:(lia)) ltac:(lia)).
    assert (X0 : 0 <= Sum lo hi (fun i => / al i)) by (apply Sum_nonneg; intros i Hi; apply Rlt_le, Rinv_0_lt_compat, P; lia).
    assert (Y0 : 0 <= Sum lo hi (fun i => al i * (d i)²)) by (apply Sum_nonneg; intros i Hi; apply Rmult_le_pos; [apply Rlt_le, P; lia|apply Rle_0_sqr]).
    set (X := Sum lo hi (fun i => / al i)) in *. set (Y := Sum lo hi (fun i => al i * (d i)²)) in *. set (T := Sum lo hi d) in *. set (a := al hi) in *. set (e := d hi).
    unfold Rsqr in *. replace ((X + / a) * (Y + a * (e * e))) with (X * Y + (X * (a * (e * e)) + Y * / a) + e * e) by (field; lra).
    assert (U : 0 <= X * (a * (e * e))) by (apply Rmult_le_pos; [exact X0|apply Rmult_le_pos; [lra|apply Rle_0_sqr]]).
    assert (V : 0 <= Y * / a) by (apply Rmult_le_pos; [exact Y0|apply Rlt_le, Rinv_0_lt_compat; exact A]).
    assert (W : (X * (a * (e * e))) * (Y * / a) = X * Y * (e * e)) by (field; lra).
    set (u := X * (a * (e * e))) in *. set (v := Y * / a) in *.
    assert (E2 : 0 <= e * e) by apply Rle_0_sqr.
    assert (Z : T * T * (e * e) <= u * v) by (rewrite W; apply Rmult_le_compat_r; assumption).
    assert (Q : 2 * (T * e) <= u + v).
    { destruct (Rle_or_lt (T * e) 0) as [N0|N0]; [lra|]. apply Rsqr_incr_0; [|lra|lra]. unfold Rsqr.
      assert (0 <= (u - v) * (u - v)) by apply Rle_0_sqr. nra. }
    lra.
Qed.
Lemma telescope (x : nat -> R) lo hi : (lo <= hi)%nat -> Sum lo hi (fun i => x (i + 1)%nat - x i) = x hi - x lo.
Proof.
  intros L. induction hi as [|hi IH]; [rewrite Sum_empty by lia; replace lo with O by lia; ring|].
  destruct (Nat.eq_dec lo (S hi)) as [->|N]; [rewrite Sum_empty by lia; ring|].
  rewrite Sum_S_r by lia. rewrite IH by lia. replace (hi + 1)%nat with (S hi) by lia. ring.
Qed.
Lemma Sum_term lo hi f i : (forall i, (lo <= i < hi)%nat -> 0 <= f i) -> (lo <= i < hi)%nat -> f i <= Sum lo hi f.
Proof.
  intros P Hi. rewrite (Sum_split lo i hi) by lia. rewrite (Sum_S_l i hi) by lia.
  assert (A := Sum_nonneg lo i f (fun i' H' => P i' ltac:(lia))). assert (B := Sum_nonneg (S i) hi f (fun i' H' => P i' ltac:(lia))). lra.
Qed.
(** half of a sum of squares is smaller than the sum itself when one end is fixed at zero *)
Lemma poincare (al x : nat -> R) j J : (forall i, (1 <= i < J)%nat -> 0 < al i) -> x J = 0 -> (1 <= j <= J)%nat ->
  (x j)² <= Sum 1 J (fun i => / al i) * Sum 1 J (fun i => al i * (x (i + 1)%nat - x i)²).
Proof.
  intros P E Hj. assert (S := schwarz al (fun i => x (i + 1)%nat - x i) j J (fun i H => P i ltac:(lia))). cbv beta in S.
  rewrite telescope in S by lia. rewrite E in S. replace ((0 - x j)²) with ((x j)²) in S by (unfold Rsqr; ring). eapply Rle_trans; [exact S|].
  assert (I : forall i, (1 <= i < J)%nat -> 0 <= / al i) by (intros i Hi; apply Rlt_le, Rinv_0_lt_compat, P; exact Hi).
  assert (K : forall i, (1 <= i < J)%nat -> 0 <= al i * (x (i + 1)%nat - x i)²) by (intros i Hi; apply Rmult_le_pos; [apply Rlt_le, P; exact Hi|apply Rle_0_sqr]).
  apply Rmult_le_compat.
  - apply Sum_nonneg. intros i Hi. apply I. lia.
  - apply Sum_nonneg. intros i Hi. apply K. lia.
  - rewrite (Sum_split 1 j J) by lia. assert (A := Sum_nonneg 1 j (fun i => / al i) (fun i' H' => I i' ltac:(lia))). lra.
  - rewrite (Sum_split 1 j J) by lia. assert (A := Sum_nonneg 1 j (fun i => al i * (x (i + 1)%nat - x i)²) (fun i' H' => K i' ltac:(lia))). lra.
Qed.

(** ** the energy: rows 1..J, levels 1..K, values fixed at rows 1 and J and at level 1, no flux through level K - 1/2 *)
Section Energy.
  Variables J K : nat.
  Hypothesis J3 : (3 <= J)%nat.
  Hypothesis K3 : (3 <= K)%nat.
  Variables al wt F g : nat -> R.
  Variable b : nat -> nat -> R.
  Hypothesis al_pos : forall j, (1 <= j < J)%nat -> 0 < al j.
  Hypothesis wt_pos : forall k, (2 <= k < K)%nat -> 0 < wt k.
  Hypothesis F_pos : forall j, (2 <= j < J)%nat -> 0 < F j.
  Hypothesis g_pos : forall k, (1 <= k < K - 1)%nat -> 0 < g k.
  Hypothesis g_top : g (K - 1)%nat = 0.

  Definition total (f : nat -> nat -> R) : R := Sum 2 J (fun j => Sum 2 K (fun k => f j k)).
  Definition quad (u z : nat -> nat -> R) : R :=
    Sum 2 K (fun k => wt k * Sum 1 J (fun j => al j * (u (j + 1)%nat k - u j k) * (z (j + 1)%nat k - z j k)))
    + Sum 2 J (fun j => F j * Sum 1 K (fun k => g k * (u j (k + 1)%nat - u j k) * (z j (k + 1)%nat - z j k))).
  Definition energy (u : nat -> nat -> R) : R := / 2 * quad u u + total (fun j k => b j k * u j k).
  Definition lap (u : nat -> nat -> R) (j k : nat) : R :=
    wt k * (al j * (u (j + 1)%nat k - u j k) - al (j - 1)%nat * (u j k - u (j - 1)%nat k))
    + F j * (g k * (u j (k + 1)%nat - u j k) - g (k - 1)%nat * (u j k - u j (k - 1)%nat)).
  Definition rho (u : nat -> nat -> R) (j k : nat) : R := lap u j k - b j k.
  Definition diag (j k : nat) : R := wt k * (al j + al (j - 1)%nat) + F j * (g k + g (k - 1)%nat).

  Definition fixed (z : nat -> nat -> R) : Prop :=
    (forall k, (2 <= k < K)%nat -> z 1%nat k = 0 /\ z J k = 0) /\ (forall j, (2 <= j < J)%nat -> z j 1%nat = 0).

  Lemma total_ext f f' : (forall j k, (2 <= j < J)%nat -> (2 <= k < K)%nat -> f j k = f' j k) -> total f = total f'.
  Proof. intros E. unfold total. apply Sum_ext. intros j Hj. apply Sum_ext. intros k Hk. apply E; assumption. Qed.
  Lemma total_plus f f' : total (fun j k => f j k + f' j k) = total f + total f'.
  Proof. unfold total. rewrite <- Sum_plus. apply Sum_ext. intros j _. apply Sum_plus. Qed.
  Lemma total_scal c f : total (fun j k => c * f j k) = c * total f.
  Proof. unfold total. rewrite <- Sum_scal. apply Sum_ext. intros j _. apply Sum_scal. Qed.
  Lemma total_le f f' : (forall j k, (2 <= j < J)%nat -> (2 <= k < K)%nat -> f j k <= f' j k) -> total f <= total f'.
  Proof. intros E. unfold total. apply Sum_le. intros j Hj. apply Sum_le. intros k Hk. apply E; assumption. Qed.
  Lemma total_nonneg f : (forall j k, (2 <= j < J)%nat -> (2 <= k < K)%nat -> 0 <= f j k) -> 0 <= total f.
  Proof. intros E. unfold total. apply Sum_nonneg. intros j Hj. apply Sum_nonneg. intros k Hk. apply E; assumption. Qed.
  Lemma total_pos f : (forall j k, (2 <= j < J)%nat -> (2 <= k < K)%nat -> 0 < f j k) -> 0 < total f.
  Proof.
    intros E. unfold total. apply UtilitiesProofs.Sum_pos; [lia|]. intros j Hj. apply UtilitiesProofs.Sum_pos; [lia|]. intros k Hk. apply E; assumption.
  Qed.

  Lemma green u z : fixed z -> quad u z = - total (fun j k => z j k * lap u j k).
  Proof.
    intros [Z1 Z2]. unfold quad.
    rewrite (Sum_ext 2 K _ (fun k => - Sum 2 J (fun j => z j k * (wt k * (al j * (u (j + 1)%nat k - u j k) - al (j - 1)%nat * (u j k - u (j - 1)%nat k)))))).
    2: { intros k Hk. rewrite (by_parts al (fun j => u j k) (fun j => z j k)) by lia. destruct (Z1 k Hk) as [-> ->]. rewrite !Rmult_0_r. change (1 + 1)%nat with 2%nat.
         rewrite Rminus_0_r, Rminus_0_l, <- Ropp_mult_distr_r, <- Sum_scal. f_equal. apply Sum_ext. intros j Hj. ring. }
    rewrite (Sum_ext 2 J _ (fun j => - Sum 2 K (fun k => z j k * (F j * (g k * (u j (k + 1)%nat - u j k) - g (k - 1)%nat * (u j k - u j (k - 1)%nat)))))).
    2: { intros j Hj. rewrite (by_parts g (u j) (z j)) by lia. rewrite (Z2 j Hj), g_top. rewrite !Rmult_0_l, !Rmult_0_r. change (1 + 1)%nat with 2%nat.
         rewrite Rminus_0_r, Rminus_0_l, <- Ropp_mult_distr_r, <- Sum_scal. f_equal. apply Sum_ext. intros k Hk. ring. }
    assert (O : forall lo hi f, Sum lo hi (fun i => - f i) = - Sum lo hi f).
    { intros lo hi f. rewrite (Sum_ext _ _ _ (fun i => -1 * f i)) by (intros; ring). rewrite Sum_scal. ring. }
    rewrite !O, Sum_swap. unfold total. rewrite <- Ropp_plus_distr, <- Sum_plus. f_equal. apply Sum_ext. intros j Hj. rewrite <- Sum_plus. apply Sum_ext. intros k Hk. unfold lap. ring.
  Qed.
  Lemma quad_add u z : quad (fun j k => u j k + z j k) (fun j k => u j k + z j k) = quad u u + 2 * quad u z + quad z z.
  Proof.
    unfold quad.
    assert (X : Sum 2 K (fun k => wt k * Sum 1 J (fun j => al j * ((u (j + 1)%nat k + z (j + 1)%nat k) - (u j k + z j k)) * ((u (j + 1)%nat k + z (j + 1)%nat k) - (u j k + z j k))))
      = Sum 2 K (fun k => wt k * Sum 1 J (fun j => al j * (u (j + 1)%nat k - u j k) * (u (j + 1)%nat k - u j k)))
        + 2 * Sum 2 K (fun k => wt k * Sum 1 J (fun j => al j * (u (j + 1)%nat k - u j k) * (z (j + 1)%nat k - z j k)))
        + Sum 2 K (fun k => wt k * Sum 1 J (fun j => al j * (z (j + 1)%nat k - z j k) * (z (j + 1)%nat k - z j k)))).
    { rewrite <- (Sum_scal 2 K 2), <- !Sum_plus. apply Sum_ext. intros k _.
      rewrite (Sum_ext 1 J _ (fun j => (al j * (u (j + 1)%nat k - u j k) * (u (j + 1)%nat k - u j k) + 2 * (al j * (u (j + 1)%nat k - u j k) * (z (j + 1)%nat k - z j k)))
                 + al j * (z (j + 1)%nat k - z j k) * (z (j + 1)%nat k - z j k))) by (intros; ring).
      rewrite !Sum_plus, Sum_scal. ring. }
    assert (Y : Sum 2 J (fun j => F j * Sum 1 K (fun k => g k * ((u j (k + 1)%nat + z j (k + 1)%nat) - (u j k + z j k)) * ((u j (k + 1)%nat + z j (k + 1)%nat) - (u j k + z j k))))
      = Sum 2 J (fun j => F j * Sum 1 K (fun k => g k * (u j (k + 1)%nat - u j k) * (u j (k + 1)%nat - u j k)))
        + 2 * Sum 2 J (fun j => F j * Sum 1 K (fun k => g k * (u j (k + 1)%nat - u j k) * (z j (k + 1)%nat - z j k)))
        + Sum 2 J (fun j => F j * Sum 1 K (fun k => g k * (z j (k + 1)%nat - z j k) * (z j (k + 1)%nat - z j k)))).
    { rewrite <- (Sum_scal 2 J 2), <- !Sum_plus. apply Sum_ext. intros j _.
      rewrite (Sum_ext 1 K _ (fun k => (g k * (u j (k + 1)%nat - u j k) * (u j (k + 1)%nat - u j k) + 2 * (g k * (u j (k + 1)%nat - u j k) * (z j (k + 1)%nat - z j k)))
                 + g k * (z j (k + 1)%nat - z j k) * (z j (k + 1)%nat - z j k))) by (intros; ring).
      rewrite !Sum_plus, Sum_scal. ring. }
    rewrite X, Y. ring.
  Qed.
  Lemma quad_spread z : fixed z ->
    (forall j k, (2 <= j < J)%nat -> (2 <= k < K)%nat -> z j k = 0 \/ z (j + 1)%nat k = 0 /\ z (j - 1)%nat k = 0 /\ z j (k + 1)%nat = 0 /\ z j (k - 1)%nat = 0) ->
    quad z z = total (fun j k => diag j k * (z j k)²).
  Proof.
    intros Fz Sp. rewrite green by exact Fz.
    replace (total (fun j k => diag j k * (z j k)²)) with (- (-1 * total (fun j k => diag j k * (z j k)²))) by ring. f_equal.
    rewrite <- total_scal. apply total_ext. intros j k Hj Hk. unfold lap, diag, Rsqr. destruct (Sp j k Hj Hk) as [->|(-> & -> & -> & ->)]; ring.
  Qed.
  Lemma energy_add u z : fixed z -> energy (fun j k => u j k + z j k) = energy u - total (fun j k => z j k * rho u j k) + / 2 * quad z z.
  Proof.
    intros Fz. unfold energy. rewrite quad_add, (green u z Fz).
    rewrite (total_ext (fun j k => b j k * (u j k + z j k)) (fun j k => b j k * u j k + b j k * z j k)) by (intros; ring). rewrite total_plus.
    rewrite (total_ext (fun j k => z j k * rho u j k) (fun j k => z j k * lap u j k + -1 * (b j k * z j k))) by (intros; unfold rho; ring).
    rewrite total_plus, total_scal. lra.
  Qed.
  Lemma diag_pos j k : (2 <= j < J)%nat -> (2 <= k < K)%nat -> 0 < diag j k.
  Proof.
    intros Hj Hk. unfold diag. assert (A := al_pos j ltac:(lia)). assert (B := al_pos (j - 1) ltac:(lia)). assert (W := wt_pos k Hk). assert (Fp := F_pos j Hj).
    assert (G0 : 0 < g (k - 1)%nat) by (apply g_pos; lia).
    assert (G1 : 0 <= g k) by (destruct (Nat.eq_dec k (K - 1)) as [->|N]; [rewrite g_top; lra|apply Rlt_le, g_pos; lia]).
    assert (0 < wt k * (al j + al (j - 1)%nat)) by (apply Rmult_lt_0_compat; lra). assert (0 < F j * (g k + g (k - 1)%nat)) by (apply Rmult_lt_0_compat; lra). lra.
  Qed.

  (** one sweep of over-relaxation over points no two of which are neighbours *)
  Lemma relax_energy u col om : (forall j k, (1 <= j)%nat -> (1 <= k)%nat -> col j k = true -> col (j + 1)%nat k = false /\ col (j - 1)%nat k = false /\ col j (k + 1)%nat = false /\ col j (k - 1)%nat = false) ->
    let z j k := if Nat.leb 2 j && Nat.ltb j J && (Nat.leb 2 k && Nat.ltb k K) && col j k then om * rho u j k / diag j k else 0 in
    energy (fun j k => u j k + z j k) = energy u - / 2 * (om * (2 - om)) * total (fun j k => if col j k then (rho u j k)² / diag j k else 0).
  Proof.
    intros Hc z.
    assert (Zi : forall j k, (2 <= j < J)%nat -> (2 <= k < K)%nat -> z j k = if col j k then om * rho u j k / diag j k else 0).
    { intros j k Hj Hk. unfold z. destruct (Nat.leb_spec 2 j), (Nat.ltb_spec j J), (Nat.leb_spec 2 k), (Nat.ltb_spec k K); try lia. reflexivity. }
    assert (Zc : forall j k, col j k = false -> z j k = 0) by (intros j k E; unfold z; rewrite E, andb_false_r; reflexivity).
    assert (Fz : fixed z).
    { split; [intros k Hk; split|intros j Hj]; unfold z.
      - reflexivity.
      - rewrite Nat.ltb_irrefl, andb_false_r. reflexivity.
      - cbn [Nat.leb]. rewrite !andb_false_r. reflexivity. }
    rewrite energy_add by exact Fz. rewrite quad_spread; [|exact Fz|].
    2: { intros j k Hj Hk. destruct (col j k) eqn:C; [right|left; apply Zc; exact C]. destruct (Hc j k ltac:(lia) ltac:(lia) C) as (C1 & C2 & C3 & C4).
         repeat split; intros; apply Zc; assumption. }
    assert (E : -1 * total (fun j k => z j k * rho u j k) + / 2 * total (fun j k => diag j k * (z j k)²)
               = - (/ 2 * (om * (2 - om)) * total (fun j k => if col j k then (rho u j k)² / diag j k else 0))).
    { rewrite <- !total_scal, <- total_plus. rewrite (total_ext _ (fun j k => -1 * (/ 2 * (om * (2 - om)) * (if col j k then (rho u j k)² / diag j k else 0)))); [rewrite !total_scal; ring|].
      intros j k Hj Hk. rewrite Zi by assumption. assert (D := diag_pos j k Hj Hk). destruct (col j k); [|unfold Rsqr; ring]. unfold Rsqr. field. lra. }
    lra.
  Qed.

  (** the energy is bounded below when the last row is zero *)
  Definition small (k : nat) : R := wt k / (2 * (INR J * Sum 1 J (fun i => / al i))).
  Definition floor : R := total (fun j k => (b j k)² / (4 * small k)).
  Lemma inv_pos : 0 < Sum 1 J (fun i => / al i).
  Proof. apply UtilitiesProofs.Sum_pos; [lia|]. intros i Hi. apply Rinv_0_lt_compat, al_pos. exact Hi. Qed.
  Lemma small_pos k : (2 <= k < K)%nat -> 0 < small k.
  Proof.
    intros Hk. unfold small. assert (I := inv_pos). assert (0 < INR J) by (apply lt_0_INR; lia). assert (W := wt_pos k Hk). apply Rdiv_lt_0_compat; [exact W|].
    apply Rmult_lt_0_compat; [lra|]. apply Rmult_lt_0_compat; assumption.
  Qed.
  Lemma Sum_const lo hi c : Sum lo hi (fun _ => c) = INR (hi - lo) * c.
  Proof.
    induction hi as [|hi IH]; [rewrite Sum_empty by lia; cbn; ring|]. destruct (Nat.le_gt_cases lo hi).
    - rewrite Sum_S_r by lia. rewrite IH. replace (S hi - lo)%nat with (S (hi - lo)) by lia. rewrite S_INR. ring.
    - rewrite Sum_empty by lia. replace (S hi - lo)%nat with O by lia. cbn. ring.
  Qed.
  Lemma energy_floor u : (forall k, (2 <= k < K)%nat -> u J k = 0) -> - floor <= energy u.
  Proof.
    intros U. unfold energy, quad.
    set (Q k := Sum 1 J (fun j => al j * (u (j + 1)%nat k - u j k) * (u (j + 1)%nat k - u j k))).
    set (V := Sum 2 J _).
    assert (V0 : 0 <= V).
    { unfold V. apply Sum_nonneg. intros j Hj. apply Rmult_le_pos; [apply Rlt_le, F_pos; exact Hj|]. apply Sum_nonneg. intros k Hk.
      rewrite Rmult_assoc. apply Rmult_le_pos; [|apply Rle_0_sqr]. destruct (Nat.eq_dec k (K - 1)) as [->|N]; [rewrite g_top; lra|apply Rlt_le, g_pos; lia]. }
    assert (B : - floor - total (fun j k => small k * (u j k)²) <= total (fun j k => b j k * u j k)).
    { unfold floor. replace (- total (fun j k => (b j k)² / (4 * small k)) - total (fun j k => small k * (u j k)²))
        with (-1 * total (fun j k => (b j k)² / (4 * small k)) + -1 * total (fun j k => small k * (u j k)²)) by ring.
      rewrite <- !total_scal, <- total_plus. apply total_le. intros j k Hj Hk. assert (S0 := small_pos k Hk). set (s := small k) in *.
      assert (E : s * (u j k + b j k / (2 * s))² = s * (u j k)² + b j k * u j k + (b j k)² / (4 * s)) by (unfold Rsqr; field; lra).
      assert (0 <= s * (u j k + b j k / (2 * s))²) by (apply Rmult_le_pos; [lra|apply Rle_0_sqr]). lra. }
    assert (C : total (fun j k => small k * (u j k)²) <= / 2 * Sum 2 K (fun k => wt k * Q k)).
    { unfold total. rewrite Sum_swap, <- Sum_scal. apply Sum_le. intros k Hk.
      assert (I := inv_pos). assert (NJ : 0 < INR J) by (apply lt_0_INR; lia). assert (W := wt_pos k Hk). assert (S0 := small_pos k Hk).
      eapply Rle_trans with (Sum 2 J (fun _ => small k * (Sum 1 J (fun i => / al i) * Q k))).
      - apply Sum_le. intros j Hj. apply Rmult_le_compat_l; [lra|].
        assert (X := poincare al (fun j => u j k) j J al_pos (U k Hk) ltac:(lia)). cbv beta in X. eapply Rle_trans; [exact X|]. right. f_equal.
        unfold Q. apply Sum_ext. intros i _. unfold Rsqr. ring.
      - rewrite Sum_const. assert (Q0 : 0 <= Q k).
        { unfold Q. apply Sum_nonneg. intros j Hj. rewrite Rmult_assoc. apply Rmult_le_pos; [apply Rlt_le, al_pos; exact Hj|apply Rle_0_sqr]. }
        set (S1 := Sum 1 J (fun i => / al i)) in *. eapply Rle_trans with (INR J * (small k * (S1 * Q k))).
        + apply Rmult_le_compat_r; [apply Rmult_le_pos; [lra|]; apply Rmult_le_pos; lra|]. apply le_INR. lia.
        + right. unfold small. fold S1. field. lra. }
    assert (HV : 0 <= / 2 * V) by lra. unfold Q in C. rewrite Rmult_plus_distr_l. lra.
  Qed.

  (** a large residual means a large loss of energy *)
  Lemma large_loss (r c : nat -> nat -> R) (col : nat -> nat -> bool) tau :
    (forall j k, (2 <= j < J)%nat -> (2 <= k < K)%nat -> 0 < c j k) -> 0 < tau ->
    tau <= total (fun j k => if col j k then Rabs (r j k) else 0) ->
    tau * tau / (4 * total (fun j k => / (4 * c j k))) <= total (fun j k => if col j k then c j k * (r j k)² else 0).
  Proof.
    intros C T L. set (X := total (fun j k => if col j k then c j k * (r j k)² else 0)).
    assert (D0 : 0 < total (fun j k => / (4 * c j k))).
    { apply total_pos. intros j k Hj Hk. apply Rinv_0_lt_compat. assert (Cp := C j k Hj Hk). lra. }
    set (D := total (fun j k => / (4 * c j k))) in *. set (la := 2 * D / tau). assert (La : 0 < la) by (unfold la; apply Rdiv_lt_0_compat; lra).
    assert (B : total (fun j k => if col j k then Rabs (r j k) else 0) <= la * X + / la * D).
    { unfold X, D. rewrite <- !total_scal, <- total_plus. apply total_le. intros j k Hj Hk. assert (Cp := C j k Hj Hk). set (cc := c j k) in *. set (x := r j k).
      assert (P1 : 0 < / (4 * cc)) by (apply Rinv_0_lt_compat; lra). assert (P2 : 0 < / la) by (apply Rinv_0_lt_compat; exact La).
      assert (P3 : 0 < / la * / (4 * cc)) by (apply Rmult_lt_0_compat; assumption). destruct (col j k); [|lra].
      assert (E : la * cc * (Rabs x - / (2 * la * cc))² = la * (cc * (Rabs x)²) - Rabs x + / la * / (4 * cc)) by (unfold Rsqr; field; lra).
      assert (0 <= la * cc * (Rabs x - / (2 * la * cc))²) by (apply Rmult_le_pos; [apply Rmult_le_pos; lra|apply Rle_0_sqr]).
      rewrite <- Rsqr_abs in E. lra. }
    assert (E1 : / la * D = tau / 2) by (unfold la; field; lra). rewrite E1 in B.
    assert (B2 : tau / 2 <= la * X) by lra. unfold la in B2.
    apply Rmult_le_reg_r with (2 * D / tau); [exact La|]. rewrite (Rmult_comm X). replace (tau * tau / (4 * D) * (2 * D / tau)) with (tau / 2) by (field; lra). exact B2.
  Qed.
  Lemma energy_ext u v : (forall j k, (1 <= j <= J)%nat -> (1 <= k < K)%nat -> (j = 1 \/ j = J -> 2 <= k)%nat -> u j k = v j k) -> energy u = energy v.
  Proof.
    intros E. unfold energy. f_equal; [f_equal; unfold quad; f_equal|].
    - apply Sum_ext. intros k Hk. f_equal. apply Sum_ext. intros j Hj. rewrite !E by lia. reflexivity.
    - apply Sum_ext. intros j Hj. f_equal. apply Sum_ext. intros k Hk. destruct (Nat.eq_dec k (K - 1)) as [->|N]; [rewrite g_top; ring|]. rewrite !E by lia. reflexivity.
    - apply total_ext. intros j k Hj Hk. rewrite E by lia. reflexivity.
  Qed.
End Energy.
