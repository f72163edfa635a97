(** Legacy solver: the systems have exactly one solution; the reported reference states. *)
From Coq Require Import ZifyNat.
From Verif Require Import BaseFacts SpecFacts EqvlatProofs LinAlg LegacySpec Legacy GridProofs LegacyProofs LegacyProofs2.
Ltac Zify.zify_post_hook ::= Z.to_euclidean_division_equations.
Open Scope R_scope.

Section Regular.
  Variables (jm kmax : nat) (cc cd : nat -> nat -> R).
  Hypothesis Pc : forall j k, (j < jm)%nat -> (1 <= k)%nat -> (S k < kmax)%nat -> 0 <= cc j k /\ 0 <= cd j k.
  Let ones := fun _ _ : nat => 1.
  Let ce := fun j k => - (1 + 1 + cc j k + cd j k).
  Let zero2 := fun _ _ : nat => 0.
  Let zero1 := fun _ : nat => 0.
  Lemma right_zero i : (2 <= kmax)%nat -> (i < jm * kmax)%nat -> right_bottom jm kmax zero2 zero1 zero1 i = 0.
  Proof.
    intros K2 Hi. destruct (index_onto i jm kmax Hi) as (j & k & Hj & Hk & ->). rewrite right_value by assumption. destruct (Nat.eqb k 0); [reflexivity|]. destruct (Nat.eqb k (kmax - 1)); reflexivity.
  Qed.
  Lemma up_pos r k : (1 <= r <= jm)%nat -> (1 <= k)%nat -> (S k < kmax)%nat -> 0 <= up cc r k /\ 0 <= up cd r k.
  Proof. intros. apply Pc; lia. Qed.
  Lemma back_zero x : same jm kmax (rback jm kmax x) zero2 -> forall i, (i < jm * kmax)%nat -> x i = 0.
  Proof.
    intros H i Hi. destruct (index_onto i jm kmax Hi) as (j & k & Hj & Hk & ->). specialize (H (S j) k ltac:(lia) Hk). rewrite back_inside in H by lia. replace (S j - 1)%nat with j in H by lia. exact H.
  Qed.
  Lemma zero_general : general jm kmax (up cc) (up cd) (up zero2) zero2.
  Proof. intros r k _ _ _. unfold up, zero2. ring. Qed.
  Lemma regular_noslip : (3 <= kmax)%nat -> regular (jm * kmax) (matrix_noslip jm kmax ones ones cc cd ce).
  Proof.
    intros K3 x Hx. apply back_zero.
    destruct (proj1 (system_noslip jm kmax cc cd zero2 zero1 zero1 K3 x)) as (G & T & B).
    { intros i Hi. rewrite right_zero by (assumption || lia). apply Hx. exact Hi. }
    apply (unique_noslip jm kmax (up cc) (up cd) (up zero2) zero1 zero1 up_pos); try assumption; try (intros r Hr; unfold zero2, zero1; ring).
    - apply back_edges.
    - intros k _. split; reflexivity.
    - exact zero_general.
  Qed.
  Lemma regular_adiab : (4 <= kmax)%nat -> regular (jm * kmax) (matrix_adiab jm kmax ones ones cc cd ce).
  Proof.
    intros K4 x Hx. apply back_zero.
    destruct (proj1 (system_adiab jm kmax cc cd zero2 zero1 zero1 ltac:(lia) x)) as (G & T & B).
    { intros i Hi. rewrite right_zero by (assumption || lia). apply Hx. exact Hi. }
    apply (unique_adiab jm kmax (up cc) (up cd) (up zero2) zero1 zero1 up_pos); try assumption; try (intros r Hr; unfold zero2, zero1; ring).
    - apply back_edges.
    - intros k _. split; reflexivity.
    - exact zero_general.
  Qed.
End Regular.

(** ** interpolation *)
Lemma interp1d_extended n (x y : nat -> R) v : (2 <= n)%nat -> ascending n x -> on_extended_line n x y v (interp1d n x y v).
Proof.
  intros Hn Asc. destruct (searchsorted_split n x v Asc) as [L H]. unfold interp1d. toR.
  set (s := searchsorted n x v) in *. set (hi := Nat.min (Nat.max s 1) (n - 1)).
  assert (Hi : (1 <= hi < n)%nat) by (unfold hi; lia). exists (hi - 1)%nat. replace (S (hi - 1)) with hi by lia.
  split; [lia|]. split; [|split].
  - destruct (Nat.le_gt_cases s 1); [right; lia|left]. left. apply H; lia.
  - destruct (Nat.le_gt_cases s (n - 1)); [left|right; lia]. assert (~ (hi < s)%nat) by lia. rewrite H in * by lia. lra.
  - pose proof (Asc (hi - 1)%nat hi ltac:(lia)) as P. field. lra.
Qed.
Lemma interp1d_broken n (x y : nat -> R) v : (2 <= n)%nat -> ascending n x -> x 0%nat <= v <= x (n - 1)%nat -> on_broken_line n x y v (interp1d n x y v).
Proof.
  intros Hn Asc Hv. destruct (interp1d_extended n x y v Hn Asc) as (i & Hi & [H1| ->] & [H2|H2] & E).
  - exists i. repeat split; try assumption.
  - exists i. repeat split; try assumption. rewrite H2. lra.
  - exists 0%nat. repeat split; try assumption. lra.
  - exists 0%nat. repeat split; try assumption; [lra|rewrite H2; lra].
Qed.
Lemma in_bounds_iff n (x : nat -> R) m v : in_bounds n x m v = true <-> (forall k, (k < m)%nat -> x 0%nat <= v k <= x (n - 1)%nat).
Proof.
  unfold in_bounds. rewrite forallb_forall. split.
  - intros H k Hk. specialize (H k ltac:(apply in_seq; lia)). toR. cbn [nltb RNum] in H. apply andb_true_iff in H. destruct H as (H1 & H2). apply negb_true_iff in H1, H2.
    destruct (Rltb_spec (v k) (x 0%nat)); destruct (Rltb_spec (x (n - 1)%nat) (v k)); try discriminate. lra.
  - intros H k Hk. apply in_seq in Hk. specialize (H k ltac:(lia)). cbn [nltb RNum]. apply andb_true_iff. split; apply negb_true_iff; match goal with |- ?e = _ => destruct e eqn:E end; try reflexivity; exfalso;
      [destruct (Rltb_spec (v k) (x 0%nat)) in E|destruct (Rltb_spec (x (n - 1)%nat) (v k)) in E]; lra || discriminate.
Qed.

(** ** the numbers of the grid *)
Lemma gl_sine jm j : @lg_gl R RNum jm j = sine jm (S j).
Proof. unfold lg_gl, lg_dm, sine. rewrite !nofnat_INR. cbn [nmul ndiv none RNum]. replace (j + 1)%nat with (S j) by lia. unfold Rdiv. rewrite Rmult_1_l. reflexivity. Qed.
Lemma gl_2_sine jm r : @lg_gl_2 R RNum jm r = sine jm r.
Proof. unfold lg_gl_2, lg_dm, sine. rewrite !nofnat_INR. cbn [nmul ndiv none RNum]. unfold Rdiv. rewrite Rmult_1_l. reflexivity. Qed.
Lemma cosl_cosine jm j : @lg_cosl R RNum sqrt jm j = cosine jm (S j).
Proof. unfold lg_cosl, cosine, nsq. rewrite gl_sine. reflexivity. Qed.
Lemma alat_degrees jm j : @lg_alat R RNum jm j = degrees jm (S j).
Proof. unfold lg_alat, degrees. rewrite gl_sine. reflexivity. Qed.
Lemma alat_2_degrees jm r : @lg_alat_2 R RNum jm r = degrees jm r.
Proof. unfold lg_alat_2, degrees. rewrite gl_2_sine. reflexivity. Qed.
Lemma om_value : @lg_om R RNum = 729 / 10000000.
Proof. reflexivity. Qed.
Lemma cor_coriolis jm j : @lg_cor R RNum jm j = coriolis jm (S j).
Proof. unfold lg_cor, coriolis. rewrite gl_sine, om_value. reflexivity. Qed.
Lemma sine_bounds jm r : (r <= S jm)%nat -> 0 <= sine jm r <= 1.
Proof.
  intros H. unfold sine. assert (P : 0 < INR (jm + 1)) by (apply lt_0_INR; lia). assert (Q := pos_INR r). assert (L : INR r <= INR (jm + 1)) by (apply le_INR; lia).
  split; [apply Rmult_le_pos; [exact Q|left; apply Rinv_0_lt_compat; exact P]|]. apply (Rmult_le_reg_r (INR (jm + 1))); [exact P|]. unfold Rdiv. rewrite Rmult_assoc, Rinv_l by lra. lra.
Qed.
Lemma sine_strict jm a b : (a < b)%nat -> sine jm a < sine jm b.
Proof. intros H. unfold sine. apply Rmult_lt_compat_r; [apply Rinv_0_lt_compat, lt_0_INR; lia|apply lt_INR; exact H]. Qed.
Lemma degrees_ascending jm : ascending (jm + 2) (degrees jm).
Proof.
  intros a b H. unfold degrees. assert (P := PI_RGT_0). assert (A := sine_bounds jm a ltac:(lia)). assert (B := sine_bounds jm b ltac:(lia)). assert (S0 := sine_strict jm a b ltac:(lia)).
  assert (X := asin_strict (sine jm a) (sine jm b) ltac:(lra) S0 ltac:(lra)). unfold Rdiv. apply Rmult_lt_compat_r; [apply Rinv_0_lt_compat; exact P|]. lra.
Qed.
Lemma degrees_ends jm : degrees jm 0 = 0 /\ degrees jm (S jm) = 90.
Proof.
  assert (P := PI_RGT_0). unfold degrees, sine. split.
  - unfold Rdiv at 2. cbn [INR]. rewrite Rmult_0_l, asin_0. field. lra.
  - replace (INR (S jm) / INR (jm + 1)) with 1; [rewrite asin_1; field; lra|]. replace (jm + 1)%nat with (S jm) by lia. field. apply not_0_INR. lia.
Qed.
