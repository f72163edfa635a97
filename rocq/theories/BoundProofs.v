(** Bounds of the wave activity of a session, and the states without any. *)
From Verif Require Import Base BaseFacts Spec SpecFacts Grid Pipeline Object ObjectSpec ObjectProofs ObjectProofs4 FormulaSpec FormulaProofs FormulaProofs2 FormulaProofs3 FormulaProofs5 StateSpec StateProofs StateProofs3 StateProofs4 BudgetProofs PropertiesFormula.
Open Scope R_scope.

(** a step of the cosine is below the increment of the sine before it *)
Lemma sin_increment x s : 0 < s -> 0 <= x - s -> x <= PI / 2 -> s * cos x <= sin x - sin (x - s).
Proof.
  intros Hs H0 H1. destruct (MVT_cor2 sin cos (x - s) x ltac:(lra)) as (c & E & Hc). { intros c Hc. apply derivable_pt_lim_sin. }
  rewrite E. replace (x - (x - s)) with s by ring. rewrite (Rmult_comm (cos c)). apply Rmult_le_compat_l; [lra|]. assert (P := PI_RGT_0). apply cos_decr_1; lra.
Qed.

Section Bounds.
  Variables (k : class) (w : qgargs).
  Hypothesis U : usable k w.
  Hypothesis Od : Nat.even (w_nlat w) = false.
  Hypothesis Ha : 0 < w_a w.
  Local Notation h := (half w).

  Lemma pole_angle : angle w h = PI / 2.
  Proof.
    destruct (n_facts k w U Od) as [N N2]. unfold angle, step. replace (w_nlat w - 1)%nat with (2 * h)%nat by lia. rewrite mult_INR. cbn [INR]. assert (0 < INR h) by (apply lt_0_INR; lia). field. lra.
  Qed.
  Lemma arc_nonneg d : (d <= h)%nat -> 0 <= arc w d.
  Proof.
    intros Hd. assert (A := angle_range k w U Od d Hd). assert (Sp := step_pos k w U Od). unfold arc. apply Rmult_le_pos; [apply Rmult_le_pos; lra|]. apply cos_ge_0; lra.
  Qed.
  Lemma arc_pos d : (d < h)%nat -> 0 < arc w d.
  Proof.
    intros Hd. assert (A := angle_range k w U Od d ltac:(lia)). assert (Sp := step_pos k w U Od). assert (L : angle w d < PI / 2).
    { rewrite <- pole_angle. unfold angle. apply Rmult_lt_compat_r; [exact Sp|]. apply lt_INR. exact Hd. }
    unfold arc. apply Rmult_lt_0_compat; [apply Rmult_lt_0_compat; lra|]. apply cos_gt_0; lra.
  Qed.
  Lemma arc_pole : arc w h = 0.
  Proof. unfold arc. rewrite pole_angle, cos_PI2. ring. Qed.
  Lemma arcs_below n : (n <= h)%nat -> Sum 1 (n + 1) (arc w) <= w_a w * sin (angle w n).
  Proof.
    induction n as [|n IH]; intros Hn.
    - rewrite Sum_empty by lia. unfold angle. cbn [INR]. rewrite Rmult_0_l, sin_0. lra.
    - replace (S n + 1)%nat with (S (n + 1)) by lia. rewrite Sum_S_r by lia. specialize (IH ltac:(lia)). assert (Sp := step_pos k w U Od). assert (A := angle_range k w U Od n ltac:(lia)). assert (B := angle_range k w U Od (S n) Hn).
      assert (E : angle w n = angle w (S n) - step w) by (unfold angle; rewrite S_INR; ring). assert (I := sin_increment (angle w (S n)) (step w) Sp ltac:(lra) ltac:(lra)). rewrite <- E in I.
      replace (n + 1)%nat with (S n) by lia. replace (n + 1)%nat with (S n) in IH by lia. unfold arc at 2. assert (Q : w_a w * (step w * cos (angle w (S n))) <= w_a w * (sin (angle w (S n)) - sin (angle w n))) by (apply Rmult_le_compat_l; lra). lra.
  Qed.
  (** the rows from the equator to the pole are barely longer than the projection of the meridian *)
  Lemma arcs_total : Sum 0 (h + 1) (arc w) <= w_a w * (1 + step w).
  Proof.
    rewrite (Sum_split 0 1 (h + 1)) by lia. assert (A := arcs_below h ltac:(lia)). rewrite pole_angle, sin_PI2 in A. rewrite Sum_S_r, Sum_empty by lia. unfold arc at 1, angle. cbn [INR]. rewrite Rmult_0_l, cos_0. lra.
  Qed.

  Lemma contour_nonneg q Q d : (d <= h)%nat -> 0 <= contour w q Q d.
  Proof.
    intros Hd. unfold contour. apply Rplus_le_le_0_compat; apply Sum_nonneg; intros j Hj; apply Rmult_le_pos; try apply ppart_nonneg; apply arc_nonneg; lia.
  Qed.
  Lemma contour_bound q Q d lo hi : (d <= h)%nat -> (forall j, (j <= h)%nat -> lo <= q j <= hi) -> lo <= Q <= hi -> contour w q Q d <= (hi - lo) * (w_a w * (1 + step w)).
  Proof.
    intros Hd Hq HQ. assert (P : forall x, x <= hi - lo -> ppart x <= hi - lo). { intros x Hx. unfold ppart. apply Rmax_lub; lra. }
    assert (A : contour w q Q d <= (hi - lo) * Sum 0 (h + 1) (arc w)).
    { unfold contour. rewrite (Sum_split 0 d (h + 1)) by lia. rewrite Rmult_plus_distr_l, <- !Sum_scal. apply Rplus_le_compat; apply Sum_le; intros j Hj; (apply Rmult_le_compat_r; [apply arc_nonneg; lia|]); apply P; assert (B := Hq j ltac:(lia)); lra. }
    eapply Rle_trans; [exact A|]. apply Rmult_le_compat_l; [lra|]. exact arcs_total.
  Qed.
  Lemma contour_zero q Q d : (d <= h)%nat ->
    (contour w q Q d = 0 <-> (forall j, (j < d)%nat -> q j <= Q) /\ (forall j, (d <= j < h)%nat -> Q <= q j)).
  Proof.
    intros Hd. unfold contour.
    assert (N1 : forall j, (0 <= j < d)%nat -> 0 <= ppart (q j - Q) * arc w j) by (intros j Hj; apply Rmult_le_pos; [apply ppart_nonneg|apply arc_nonneg; lia]).
    assert (N2 : forall j, (d <= j < h + 1)%nat -> 0 <= ppart (Q - q j) * arc w j) by (intros j Hj; apply Rmult_le_pos; [apply ppart_nonneg|apply arc_nonneg; lia]).
    assert (S1 := Sum_nonneg 0 d _ N1). assert (S2 := Sum_nonneg d (h + 1) _ N2). split.
    - intros E. split; intros j Hj.
      + assert (Z := Sum_eq0 0 d _ N1 ltac:(lra) j ltac:(lia)). cbv beta in Z. apply Rmult_integral in Z. assert (A := arc_pos j ltac:(lia)). destruct Z as [Z|Z]; [|lra]. apply ppart_eq0 in Z. lra.
      + assert (Z := Sum_eq0 d (h + 1) _ N2 ltac:(lra) j ltac:(lia)). cbv beta in Z. apply Rmult_integral in Z. assert (A := arc_pos j ltac:(lia)). destruct Z as [Z|Z]; [|lra]. apply ppart_eq0 in Z. lra.
    - intros [A B]. rewrite !Sum_zero; [ring| |].
      + intros j Hj. destruct (Nat.eq_dec j h) as [->|D]; [rewrite arc_pole; ring|]. rewrite ppart_0; [ring|]. assert (X := B j ltac:(lia)). lra.
      + intros j Hj. rewrite ppart_0; [ring|]. assert (X := A j ltac:(lia)). lra.
  Qed.

  (** means over the column of what is bounded and vanishes at the top *)
  Lemma mean_bound y b : 0 < thickness w -> (forall l, (1 <= l)%nat -> (l < result_levels w)%nat -> result_height w l = INR l * thickness w) -> (3 <= result_levels w)%nat ->
    (forall l, inner_level w l -> 0 <= y l <= b) -> y (result_levels w - 1)%nat = 0 -> 0 <= vertical_mean w y <= b.
  Proof.
    intros Ht Hz H3 Hy Y0. unfold vertical_mean. set (W l := exp (- (INR l * thickness w) / w_H w)). set (n := (result_levels w - 1)%nat). assert (En : result_levels w = S n) by (unfold n; lia).
    assert (E : Sum 1 (result_levels w) (fun l => y l * exp (- result_height w l / w_H w) * thickness w) = thickness w * Sum 1 n (fun l => y l * W l)).
    { rewrite En, Sum_S_r by lia. rewrite <- Sum_scal. fold n in Y0. rewrite Y0. rewrite Rmult_0_l, Rmult_0_l, Rplus_0_r. apply Sum_ext. intros l Hl. rewrite Hz by lia. fold (W l). ring. }
    assert (Pw : forall l, 0 < W l) by (intros; apply exp_pos). assert (Pd : 0 < Sum 1 n W).
    { replace n with (S (n - 1)) by lia. rewrite Sum_S_r by lia. assert (0 <= Sum 1 (n - 1) W) by (apply Sum_nonneg; intros; left; apply Pw). assert (X := Pw (n - 1)%nat). lra. }
    rewrite E. change (fun l : nat => exp (- (INR l * thickness w) / w_H w)) with W. replace (thickness w * Sum 1 n (fun l => y l * W l) / (thickness w * Sum 1 n W)) with (Sum 1 n (fun l => y l * W l) / Sum 1 n W) by (field; lra).
    assert (In : forall l, (1 <= l < n)%nat -> inner_level w l) by (intros l Hl; unfold inner_level; lia). split.
    - apply Rmult_le_pos; [|left; apply Rinv_0_lt_compat; exact Pd]. apply Sum_nonneg. intros l Hl. apply Rmult_le_pos; [apply Hy, In; lia|left; apply Pw].
    - apply (Rmult_le_reg_r (Sum 1 n W)); [exact Pd|]. unfold Rdiv. rewrite Rmult_assoc, Rinv_l, Rmult_1_r by lra. rewrite <- Sum_scal. apply Sum_le. intros l Hl. apply Rmult_le_compat_r; [left; apply Pw|]. apply Hy, In. lia.
  Qed.
End Bounds.

Section Session.
  Variables (lib : library) (k : class) (w : qgargs) (nc : field3) (g : grid) (t : tables).
  Hypothesis U : usable k w.
  Hypothesis Hg : grid_of w = Done g.
  Hypothesis Od : Nat.even (w_nlat w) = false.
  Hypothesis T : are_stored (analyse lib k w (object_of k w g) nc) (ob_conf (object_of k w g)) t.
  Hypothesis Lat : pole_to_pole_latitudes w.
  Hypothesis Ha : 0 < w_a w.
  Hypothesis Ho : 0 < w_om w.
  (** the reference PV is a value between the extremes of the PV, or 0 *)
  Lemma reference_range north l M m : inner_level w l -> greatest w (towards_pole t north l) M -> least w (towards_pole t north l) m -> m < M ->
    forall d, reported w north d -> Rmin m 0 <= pole_ref w t north l d <= Rmax M 0.
  Proof.
    intros Hl HM Hm Hmm d Hd. assert (A1 := Rmin_l m 0). assert (A2 := Rmin_r m 0). assert (B1 := Rmax_l M 0). assert (B2 := Rmax_r M 0). assert (Hd' := proj1 Hd).
    destruct (Nat.eq_dec d 0) as [->|D].
    { rewrite (pole_ref_at lib k w nc g t U Hg Od T Lat north l 0 Hd). unfold angle. cbn [INR]. rewrite Rmult_0_l, sin_0, !Rmult_0_r. lra. }
    destruct (Nat.eq_dec d (half w)) as [E|E].
    { rewrite E in *. rewrite (pv_pole lib k w nc g t U Hg Od T Lat north l M m Ha Ho Hl HM Hm Hmm Hd). lra. }
    destruct (Rlt_dec (cap w d) (area_where w (towards_pole t north l) (up_to (M - (M - m) / (INR (contours k w) - 1))))) as [C|C].
    - destruct (pv_range lib k w nc g t U Hg Od T Lat north l M m Ha Ho Hl HM Hm Hmm d d Hd Hd ltac:(lia) (or_introl C)) as ((X & _) & (_ & Y) & _). lra.
    - rewrite (pv_none lib k w nc g t U Hg Od T Lat north l M m Ha Ho Hl HM Hm Hmm d Hd ltac:(lia)); lra.
  Qed.
End Session.
