(** Proofs for C196, continued: the reference wind *)
From Coq Require Import Reals Lra Lia List FunctionalExtensionality.
From Verif Require Import Base BaseFacts Spec SpecFacts Grid GridProofs Flux FluxProofs Utilities Qgpv Pipeline PipelineSpec PipelineProofs RotateSpec RefStates RefStatesSpec RefStatesProofs RefStatesProofs2 DirInv Object ObjectSpec ObjectProofs ObjectProofs2 ObjectProofs4
  Session SessionProofs InfluenceSpec InfluenceProofs OffsetSpec OffsetProofs.
Import ListNotations.
Open Scope R_scope.

Lemma fold_left_eq {A B} (h h' : A -> B -> A) l : (forall y, In y l -> forall x, h' x y = h x y) -> forall x, fold_left h' l x = fold_left h l x.
Proof.
  induction l as [|y l IH]; intros H x; [reflexivity|]. cbn [fold_left]. rewrite (H y (or_introl eq_refl) x). apply IH. intros z Hz. apply H. right. exact Hz.
Qed.

Section Solver.
  Variables (b : R) (P : rsdims R) (pv uu pt pt' : arr3 R) (stat : nat -> R) (g1 g2 : arr2 R).
  Hypothesis HL : (1 <= s_nlon P)%nat.
  Hypothesis HK : (3 <= s_kmax P)%nat.
  (** the hemisphere of the temperature *)
  Hypothesis E : forall i r l, (1 <= i <= s_nlon P)%nat -> (1 <= r <= s_jd P)%nat -> (1 <= l <= s_kmax P)%nat -> pt' i (r + s_jd P - 1)%nat l = pt i (r + s_jd P - 1)%nat l + b.
  Lemma zonal_b r l : (1 <= r <= s_jd P)%nat -> (1 <= l <= s_kmax P)%nat -> @zonal_mean R RNum P pt' r l = @zonal_mean R RNum P pt r l + b.
  Proof.
    intros Hr Hl. rewrite !zonal_mean_R. unfold zonal.
    rewrite (Sum_ext _ _ _ (fun i => pt i (r + s_jd P - 1)%nat l + b)) by (intros i Hi; apply E; lia || assumption). rewrite Sum_plus.
    rewrite (Sum_rsum _ _ (fun _ => b)), rsum_const. replace (s_nlon P + 1 - 1)%nat with (s_nlon P) by lia. field. apply not_0_INR. lia.
  Qed.
  Lemma uz_top_b j : (2 <= j <= s_jd P - 1)%nat -> uz_top P pt' j = uz_top P pt j.
  Proof.
    intros Hj. unfold uz_top, tbar. cbv zeta. rewrite !zonal_b by lia. toR. unfold Rdiv. do 2 f_equal. ring.
  Qed.
  Lemma sweep_b n om u : sweep P pv uu pt' stat g1 g2 n om u = sweep P pv uu pt stat g1 g2 n om u.
  Proof.
    unfold sweep. rewrite (fold_left_eq (sor_row P pv pt stat n om) (sor_row P pv pt' stat n om)); [reflexivity|].
    intros j Hj x. unfold range in Hj. apply in_seq in Hj. unfold sor_row. rewrite uz_top_b by lia. reflexivity.
  Qed.
  Lemma iterate_b fuel : forall n om u, iterate P pv uu pt' stat g1 g2 fuel n om u = iterate P pv uu pt stat g1 g2 fuel n om u.
  Proof.
    induction fuel as [|fuel IH]; intros n om u; [reflexivity|]. cbn [iterate]. rewrite sweep_b. destruct (sweep P pv uu pt stat g1 g2 n om u) as [u1 an].
    match goal with |- (if ?x then _ else _) = _ => destruct x end; [reflexivity|apply IH].
  Qed.
  Lemma uref_b : rs_uref P pv uu pt' stat g1 g2 = rs_uref P pv uu pt stat g1 g2.
  Proof. extensionality j. extensionality l. unfold rs_uref, uref1, solution. rewrite iterate_b. reflexivity. Qed.

  Lemma ty_b l j : ty P pv uu pt' stat g1 g2 l j = ty P pv uu pt stat g1 g2 l j.
  Proof. unfold ty. rewrite uref_b. reflexivity. Qed.
  Lemma tref0_b l j : tref0 P pv uu pt' stat g1 g2 l j = tref0 P pv uu pt stat g1 g2 l j.
  Proof.
    assert (A : tref0 P pv uu pt' stat g1 g2 l j = tref0 P pv uu pt stat g1 g2 l j /\ tref0 P pv uu pt' stat g1 g2 l (S j) = tref0 P pv uu pt stat g1 g2 l (S j)); [|apply A].
    induction j as [|j [I1 I2]]; [split; reflexivity|]. split; [exact I2|]. destruct j as [|j]; [reflexivity|]. cbn [tref0] in *. rewrite I1, ty_b. reflexivity.
  Qed.
  Lemma tref_b : pole_to_pole P -> forall j l, (1 <= l <= s_kmax P)%nat -> rs_tref P pv uu pt' stat g1 g2 j l = rs_tref P pv uu pt stat g1 g2 j l + b.
  Proof.
    intros G. assert (T : forall l, (1 <= l <= s_kmax P)%nat -> @tb R RNum P pt' l = @tb R RNum P pt l + b).
    { intros l Hl. rewrite !(tb_R P _ G), <- (mean_shift P G). apply (mean_ext P). intros j Hj. rewrite <- !zonal_mean_R. apply zonal_b; assumption. }
    assert (M : forall j l, (1 <= l <= s_kmax P)%nat -> tref1 P pv uu pt' stat g1 g2 j l = tref1 P pv uu pt stat g1 g2 j l + b).
    { intros j l Hl. unfold tref1, tg. rewrite tref0_b, (T l Hl).
      assert (F : (fun j0 s => (s + ncos (phi P j0) * tref0 P pv uu pt' stat g1 g2 l j0)%num) = (fun j0 s => (s + ncos (phi P j0) * tref0 P pv uu pt stat g1 g2 l j0)%num)) by (extensionality j0; extensionality s; rewrite tref0_b; reflexivity).
      rewrite F. toR. ring. }
    intros j l Hl. unfold rs_tref. destruct (Nat.eqb l (s_kmax P)); [|destruct (Nat.eqb l 1)].
    - rewrite !M, !T by lia. toR. ring.
    - rewrite !M, !T by lia. toR. ring.
    - apply M, Hl.
  Qed.

  (** the direct solver *)
  Variables (jb : nat) (vort : arr3 R) (inverse : nat -> arr2 R -> arr2 R).
  Notation m := (d_n P jb).
  Lemma t_top_b i : (1 <= i <= m)%nat -> t_top P jb pt' i = t_top P jb pt i.
  Proof. intros Hi. unfold d_n, d_jd in Hi. unfold t_top. cbv zeta. rewrite !zonal_b by lia. toR. unfold Rdiv. do 2 f_equal. ring. Qed.
  Lemma mat_vec_b n (x : arr2 R) y y' i : (forall q, (1 <= q <= n)%nat -> y' q = y q) -> mat_vec n x y' i = mat_vec n x y i.
  Proof. intros H. unfold mat_vec. induction n as [|n IH]; [reflexivity|]. cbn [loop]. rewrite IH by (intros; apply H; lia). rewrite H by lia. reflexivity. Qed.
  Lemma down_b q : fst (down P jb pv vort pt' stat inverse q) = fst (down P jb pv vort pt stat inverse q) /\
    (forall i, (1 <= i <= m)%nat -> snd (down P jb pv vort pt' stat inverse q) i = snd (down P jb pv vort pt stat inverse q) i).
  Proof.
    induction q as [|q [I1 I2]]; [split; [reflexivity|apply t_top_b]|]. cbn [down]. destruct (down P jb pv vort pt' stat inverse q) as [s1 t1], (down P jb pv vort pt stat inverse q) as [s0 t0]. cbn [fst snd] in *. subst s1.
    split; [reflexivity|]. intros i Hi. unfold t_next. apply mat_vec_b. intros kk Hk. f_equal. apply mat_vec_b. exact I2.
  Qed.
  Lemma pjk_b l : forall i, (1 <= i <= m)%nat -> pjk P jb pv vort pt' stat inverse l i = pjk P jb pv vort pt stat inverse l i.
  Proof.
    induction l as [|l IH]; intros i Hi; [reflexivity|]. destruct l as [|l]; [reflexivity|]. cbn [pjk]. unfold sjk, tjk. destruct (down_b (s_kmax P - 1 - S l)) as [D1 D2]. rewrite D1, (D2 i Hi). f_equal.
    apply mat_vec_b. exact IH.
  Qed.
  Lemma d_uref_b : d_uref P jb pv vort pt' stat inverse = d_uref P jb pv vort pt stat inverse.
  Proof.
    extensionality j. extensionality l.
    assert (Z : forall j, d_u1 P jb pv vort pt' stat inverse j l = d_u1 P jb pv vort pt stat inverse j l).
    { intros j0. unfold d_u1, d_u0. destruct (Nat.leb_spec 2 j0), (Nat.leb_spec j0 (d_jd P jb - 1)); cbn [andb]; try reflexivity. rewrite pjk_b by (unfold d_n; lia). reflexivity. }
    unfold d_uref. rewrite !Z. reflexivity.
  Qed.
  Variables tn tn' : nat -> R.
  Hypothesis ET : forall l, tn' l = tn l + b.
  Lemma d_tref0_b l j : d_tref0 P jb pv vort pt' stat inverse l j = d_tref0 P jb pv vort pt stat inverse l j.
  Proof.
    assert (A : d_tref0 P jb pv vort pt' stat inverse l j = d_tref0 P jb pv vort pt stat inverse l j /\ d_tref0 P jb pv vort pt' stat inverse l (S j) = d_tref0 P jb pv vort pt stat inverse l (S j)); [|apply A].
    induction j as [|j [I1 I2]]; [split; reflexivity|]. split; [exact I2|]. destruct j as [|j]; [reflexivity|]. cbn [d_tref0] in *. rewrite I1. unfold d_ty. rewrite d_uref_b. reflexivity.
  Qed.
  Lemma d_tref_b j l : d_tref P jb pv vort pt' stat tn' inverse j l = d_tref P jb pv vort pt stat tn inverse j l + b.
  Proof.
    assert (M : forall j l, d_tref1 P jb pv vort pt' stat tn' inverse j l = d_tref1 P jb pv vort pt stat tn inverse j l + b).
    { intros j0 l0. unfold d_tref1, d_tg. rewrite d_tref0_b, ET.
      assert (F : (fun j1 s => (s + ncos (phi (D P) (j1 + jb)) * d_tref0 P jb pv vort pt' stat inverse l0 j1)%num) = (fun j1 s => (s + ncos (phi (D P) (j1 + jb)) * d_tref0 P jb pv vort pt stat inverse l0 j1)%num))
        by (extensionality j1; extensionality s; rewrite d_tref0_b; reflexivity).
      rewrite F. toR. ring. }
    unfold d_tref. rewrite !M, !ET. destruct (Nat.eqb l (s_kmax P)); [|destruct (Nat.eqb l 1)]; toR; ring.
  Qed.
End Solver.
