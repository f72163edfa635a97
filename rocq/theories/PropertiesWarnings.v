(** C194: the report of NaN in the array fawa.  QGFieldNHN22.compute_reference_states prints a message when an array of its solver contains NaN; IEEE
    arithmetic of any format, [T] the conversion to integers. *)
From Verif Require Import Base Fortran Ieee Warnings.
From Coq Require Import List Lia.
Import ListNotations.

Definition sf_nan (x : spec_float) : bool := match x with S754_nan => true | _ => false end.
Definition is_finite_nonzero (x : spec_float) : Prop := exists s m e, x = S754_finite s m e.

Lemma reported_iff {A} (isnan : A -> bool) nd kmax (x : arr2 A) :
  reported isnan nd kmax x <-> exists j k, (1 <= j <= nd)%nat /\ (1 <= k <= kmax)%nat /\ isnan (x j k) = true.
Proof.
  unfold reported, nan_elements. split.
  - intros H. destruct (filter _ _) as [|[j k] l] eqn:E in H; [cbn in H; lia|].
    assert (I : In (j, k) (filter (fun p => isnan (x (fst p) (snd p))) (list_prod (seq 1 nd) (seq 1 kmax)))) by (rewrite E; left; reflexivity).
    apply filter_In in I. destruct I as (I & V). apply in_prod_iff in I. destruct I as (I1 & I2). apply in_seq in I1. apply in_seq in I2.
    exists j, k. cbn in V. repeat split; lia || exact V.
  - intros (j & k & Hj & Hk & V). destruct (filter _ _) as [|p l] eqn:E; [|cbn; lia].
    assert (I : In (j, k) (filter (fun p => isnan (x (fst p) (snd p))) (list_prod (seq 1 nd) (seq 1 kmax)))).
    { apply filter_In. split; [apply in_prod_iff; split; apply in_seq; lia|exact V]. }
    rewrite E in I. destruct I.
Qed.

(** expected: without missing values in the data no NaN is reported.  Whatever the object, the data and the format, there are contents of the memory
    with which one is *)
Theorem C194_no_report_for_sound_data_refuted :
  forall (prec emax : Z) (e : elementary) (T : Trunc spec_float) (P : rsdims spec_float) (pv : arr3 spec_float),
    (1 <= s_jd P)%nat -> (1 <= s_kmax P)%nat ->
    exists g_cref g_cbar : arr2 spec_float,
      reported sf_nan (s_jd P) (s_kmax P) (@d_fawa spec_float (IeeeNum prec emax e) T P pv g_cref g_cbar).
Proof.
  intros prec emax e T P pv Hj Hk. exists (fun _ _ => S754_nan), (fun _ _ => S754_nan). apply reported_iff.
  exists 1%nat, 1%nat. split; [lia|]. split; [lia|]. unfold d_fawa, cref, interior. cbn [Nat.leb andb]. reflexivity.
Qed.
Print Assumptions C194_no_report_for_sound_data_refuted.

(** The elements that are whatever the memory held are those of the lowest and the highest level and of the row of the pole ... *)
Theorem C194_elements_taken_from_memory :
  forall (prec emax : Z) (e : elementary) (T : Trunc spec_float) (P : rsdims spec_float) (pv : arr3 spec_float) (g_cref g_cbar : arr2 spec_float) (j k : nat),
    (1 <= j <= s_jd P)%nat -> (1 <= k <= s_kmax P)%nat -> k = 1%nat \/ k = s_kmax P \/ j = s_jd P ->
    let x := @d_fawa spec_float (IeeeNum prec emax e) T P pv g_cref g_cbar j k in
    (g_cref j k = S754_nan -> x = S754_nan) /\
    (is_finite_nonzero (SFmul prec emax (SFmul prec emax (binary_normalize prec emax 2 0 false) (e_pi e)) (s_a P)) ->
     g_cref j k = S754_zero false -> g_cbar j k = S754_zero false -> sf_nan x = false).
Proof.
  intros prec emax e T P pv g1 g2 j k Hj Hk C x.
  assert (E1 : @cref spec_float (IeeeNum prec emax e) T P pv g1 j k = g1 j k).
  { unfold cref, interior. destruct C as [->|[->| ->]]; [reflexivity| |].
    - replace (Nat.leb (s_kmax P) (s_kmax P - 1)) with false by (symmetry; apply Nat.leb_gt; lia). rewrite andb_false_r. reflexivity.
    - rewrite Nat.ltb_irrefl, andb_false_r. reflexivity. }
  assert (E2 : g2 j k = S754_zero false -> @cbar spec_float (IeeeNum prec emax e) P pv g2 j k = S754_zero false).
  { intros Z. unfold cbar. destruct (interior P k) eqn:I; [|exact Z]. destruct C as [->|[->| ->]].
    - discriminate I.
    - unfold interior in I. apply andb_prop in I. destruct I as (_ & I). apply Nat.leb_le in I. lia.
    - rewrite Nat.sub_diag. reflexivity. }
  unfold x, d_fawa. rewrite E1. split.
  - intros ->. reflexivity.
  - intros (s & m & ex & F) Z1 Z2. rewrite Z1, (E2 Z2). cbn [nsub ndiv nmul nofZ npi IeeeNum]. rewrite F. reflexivity.
Qed.
Print Assumptions C194_elements_taken_from_memory.

(** ... together with those of rows whose area no contour encloses; no other element depends on the memory.  In any arithmetic *)
Theorem C194_other_elements_do_not_depend_on_memory :
  forall (A : Type) (N : Num A) (T : Trunc A) (P : rsdims A) (pv : arr3 A) (g_cref g_cbar g_cref' g_cbar' : arr2 A) (j k : nat),
    (1 <= j < s_jd P)%nat -> (2 <= k <= s_kmax P - 1)%nat ->
    (exists nn, (1 <= nn <= s_npart P - 1)%nat /\ nleb (aan P pv k nn) (alat P j) = true /\ nltb (alat P j) (aan P pv k (nn + 1)) = true) ->
    d_fawa P pv g_cref g_cbar j k = d_fawa P pv g_cref' g_cbar' j k.
Proof.
  intros A N T P pv g1 g2 g1' g2' j k Hj Hk (nn & Hn & B1 & B2). unfold d_fawa, cref, cbar.
  replace (interior P k) with true by (symmetry; unfold interior; apply andb_true_intro; split; apply Nat.leb_le; lia).
  replace (Nat.ltb j (s_jd P)) with true by (symmetry; apply Nat.ltb_lt; lia). cbn [andb]. do 2 f_equal. unfold at_row.
  assert (I : In nn (range 1 (s_npart P - 1))) by (apply in_seq; lia).
  assert (B : bracketed P pv k j nn = true) by (unfold bracketed; rewrite B1, B2; reflexivity). clear B1 B2.
  revert I. generalize (g1 j k) (g1' j k). induction (range 1 (s_npart P - 1)) as [|y l IH]; intros o o' I; [destruct I|].
  cbn [fold_left]. destruct I as [->|I]; [rewrite B; reflexivity|apply IH; exact I].
Qed.
Print Assumptions C194_other_elements_do_not_depend_on_memory.

From Coq Require Import Reals Lra.
From Verif Require Import RefStatesProofs6.
(** a PV that is 1 at the pole: both inner rows are bracketed; and twice pi times the radius of the earth in single precision *)
Example C194_case :
  (forall (g1 g2 g1' g2' : arr2 R) (j : nat), (1 <= j < 3)%nat ->
     @d_fawa R RNum RTrunc (tiny 1 3) pv_pole g1 g2 j 2 = @d_fawa R RNum RTrunc (tiny 1 3) pv_pole g1' g2' j 2) /\
  is_finite_nonzero (SFmul 24 128 (SFmul 24 128 (binary_normalize 24 128 2 0 false) (S754_finite false 13176795 (-22))) (binary_normalize 24 128 6371000 0 false)).
Proof.
  split.
  - intros g1 g2 g1' g2' j Hj. apply (C194_other_elements_do_not_depend_on_memory R RNum RTrunc); [cbn; lia|cbn; lia|].
    exists 1%nat. split; [cbn; lia|]. apply andb_prop. apply (pole_bracket 1 3 j). lia.
  - do 3 eexists. vm_compute. reflexivity.
Qed.
