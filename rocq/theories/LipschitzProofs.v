(** How far the wave activities of two sessions can lie apart. *)
From Verif Require Import Base BaseFacts Spec SpecFacts Grid Pipeline Object ObjectSpec LwaProofs FormulaSpec FormulaProofs StateSpec StateProofs3 StateProofs4 BudgetProofs BoundProofs.
Open Scope R_scope.

Section Lipschitz.
  Variables (k : class) (w : qgargs).
  Hypothesis U : usable k w.
  Hypothesis Od : Nat.even (w_nlat w) = false.
  Hypothesis Ha : 0 < w_a w.
  Local Notation h := (half w).

  Lemma contour_difference q Q q' Q' d e : (d <= h)%nat -> (forall j, (j <= h)%nat -> Rabs ((q j - Q) - (q' j - Q')) <= e) ->
    Rabs (contour w q Q d - contour w q' Q' d) <= e * (w_a w * (1 + step w)).
  Proof.
    intros Hd Hq. assert (E0 : 0 <= e) by (eapply Rle_trans; [apply Rabs_pos|apply (Hq 0%nat); lia]).
    assert (A : Rabs (contour w q Q d - contour w q' Q' d) <= e * Sum 0 (h + 1) (arc w)).
    { unfold contour. rewrite (Sum_split 0 d (h + 1)) by lia. rewrite Rmult_plus_distr_l, <- !Sum_scal.
      match goal with |- Rabs (?x1 + ?x2 - (?y1 + ?y2)) <= _ => replace (x1 + x2 - (y1 + y2)) with ((x1 - y1) + (x2 - y2)) by ring end. rewrite <- !Sum_minus.
      eapply Rle_trans; [apply Rabs_triang|]. apply Rplus_le_compat; (eapply Rle_trans; [apply Sum_abs|]); apply Sum_le; intros j Hj; assert (P := arc_nonneg k w U Od Ha j ltac:(lia));
        rewrite <- Rmult_minus_distr_r, Rabs_mult, (Rabs_right (arc w j)) by lra; (apply Rmult_le_compat_r; [exact P|]); (eapply Rle_trans; [apply ppart_lip|]).
      - apply Hq. lia.
      - rewrite <- Rabs_Ropp. replace (- (Q - q j - (Q' - q' j))) with (q j - Q - (q' j - Q')) by ring. apply Hq. lia. }
    eapply Rle_trans; [exact A|]. apply Rmult_le_compat_l; [exact E0|]. exact (arcs_total k w U Od Ha).
  Qed.

  Lemma mean_difference y y' b : 0 < thickness w -> (forall l, (1 <= l)%nat -> (l < result_levels w)%nat -> result_height w l = INR l * thickness w) -> (3 <= result_levels w)%nat ->
    (forall l, inner_level w l -> Rabs (y l - y' l) <= b) -> y (result_levels w - 1)%nat = y' (result_levels w - 1)%nat -> Rabs (vertical_mean w y - vertical_mean w y') <= b.
  Proof.
    intros Ht Hz H3 Hy Y0. assert (B0 : 0 <= b). { eapply Rle_trans; [apply Rabs_pos|apply (Hy 1%nat)]. unfold inner_level. lia. }
    assert (Lin : forall x x', vertical_mean w (fun l => x l + x' l) = vertical_mean w x + vertical_mean w x').
    { intros x x'. unfold vertical_mean, Rdiv. rewrite <- Rmult_plus_distr_r. f_equal. rewrite <- Sum_plus. apply Sum_ext. intros. ring. }
    assert (Neg : forall x, vertical_mean w (fun l => - x l) = - vertical_mean w x).
    { intros x. unfold vertical_mean, Rdiv. rewrite Ropp_mult_distr_l. f_equal. replace (- Sum 1 (result_levels w) (fun l => x l * exp (- result_height w l * / w_H w) * thickness w)) with (-1 * Sum 1 (result_levels w) (fun l => x l * exp (- result_height w l * / w_H w) * thickness w)) by ring. rewrite <- Sum_scal. apply Sum_ext. intros. ring. }
    set (p l := Rmax (y l - y' l) 0). set (n l := Rmax (y' l - y l) 0).
    assert (Pn : forall l, y l - y' l = p l + - n l) by (intros l; unfold p, n, Rmax; repeat destruct Rle_dec; lra).
    assert (D : vertical_mean w y - vertical_mean w y' = vertical_mean w p - vertical_mean w n).
    { unfold Rminus. rewrite <- !Neg, <- !Lin. unfold vertical_mean, Rdiv. f_equal. apply Sum_ext. intros l _. rewrite <- Pn. ring. }
    assert (Pb : 0 <= vertical_mean w p <= b). { apply mean_bound; try assumption; unfold p. - intros l Hl. assert (X := Hy l Hl). assert (X1 := Rle_abs (y l - y' l)). assert (X2 := Rle_abs (- (y l - y' l))). rewrite Rabs_Ropp in X2. split; [apply Rmax_r|apply Rmax_lub; lra]. - rewrite Y0. unfold Rmax. destruct Rle_dec; lra. }
    assert (Nb : 0 <= vertical_mean w n <= b). { apply mean_bound; try assumption; unfold n. - intros l Hl. assert (X := Hy l Hl). assert (X1 := Rle_abs (y l - y' l)). assert (X2 := Rle_abs (- (y l - y' l))). rewrite Rabs_Ropp in X2. split; [apply Rmax_r|apply Rmax_lub; lra]. - rewrite Y0. unfold Rmax. destruct Rle_dec; lra. }
    rewrite D. apply Rabs_le. lra.
  Qed.
End Lipschitz.
