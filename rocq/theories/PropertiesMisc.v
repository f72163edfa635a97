(** Property theorems for stat_utils.calculate_covariance and preprocessing.gridfill_each_level. *)
From Verif Require Import BaseFacts SpecFacts MiscSpec Misc.
Open Scope R_scope.

Notation cov_map := (@calculate_covariance R RNum).

Lemma cov_value nt nlat nlon a b j i : (2 <= nt)%nat -> (j < nlat)%nat -> (i < nlon)%nat ->
  cov_map nt nlat nlon a b j i = sample_covariance nt (fun t => a t j i) (fun t => b t j i).
Proof.
  intros Hn Hj Hi. unfold calculate_covariance.
  rewrite (proj2 (Nat.ltb_lt _ _) Hj), (proj2 (Nat.ltb_lt _ _) Hi). cbn [andb]. unfold np_diagonal, np_cov, observations_mean, sample_covariance, average.
  rewrite (proj2 (Nat.ltb_lt _ _) Hi). replace (Nat.ltb (i + nlon) nlon) with false by (symmetry; apply Nat.ltb_ge; lia).
  replace (i + nlon - nlon)%nat with i by lia. rewrite !Sum0_rsum. cbn [nmul ndiv none nsub RNum]. rewrite !nofnat_INR. unfold Rdiv. rewrite Rmult_1_l. reflexivity.
Qed.
Lemma Sum_sq n x : 0 <= Sum 0 n (fun t => x t * x t).
Proof. apply Sum_nonneg. intros. nra. Qed.
Lemma cauchy_schwarz n x y : (Sum 0 n (fun t => x t * y t))² <= Sum 0 n (fun t => x t * x t) * Sum 0 n (fun t => y t * y t).
Proof.
  set (p := Sum 0 n (fun t => x t * y t)). set (q := Sum 0 n (fun t => x t * x t)). set (r := Sum 0 n (fun t => y t * y t)).
  assert (K : forall l m, 0 <= l * l * q + 2 * l * m * p + m * m * r).
  { intros l m. assert (N := Sum_sq n (fun t => l * x t + m * y t)).
    rewrite (Sum_ext 0 n _ (fun t => (l * l) * (x t * x t) + ((2 * l * m) * (x t * y t) + (m * m) * (y t * y t)))) in N by (intros; ring).
    rewrite !Sum_plus, !Sum_scal in N. fold p q r in N. lra. }
  assert (Q := Sum_sq n x). assert (R0 := Sum_sq n y). fold q in Q. fold r in R0. unfold Rsqr.
  destruct (Req_dec r 0) as [Z|Z].
  - destruct (Req_dec p 0) as [->|P]; [nra|]. exfalso. assert (K1 := K 1 (- (q + 1) / (2 * p))). rewrite Z in K1.
    replace (2 * 1 * (- (q + 1) / (2 * p)) * p) with (- (q + 1)) in K1 by (field; exact P). lra.
  - assert (K1 := K r (- p)). assert (0 < r) by lra. assert (0 <= r * (q * r - p * p)) by lra.
    destruct (Rle_lt_dec 0 (q * r - p * p)); [lra|]. exfalso. assert (r * (q * r - p * p) < 0) by nra. lra.
Qed.
Lemma average_lin n x c d : (0 < n)%nat -> average n (fun t => c * x t + d) = c * average n x + d.
Proof.
  intros Hn. unfold average. rewrite Sum_plus, Sum_scal. replace (Sum 0 n (fun _ => d)) with (INR n * d).
  - field. apply not_0_INR. lia.
  - rewrite Sum0_rsum. clear Hn. induction n as [|n IH]; [cbn; lra|]. rewrite rsum_S, <- IH, S_INR. ring.
Qed.
Lemma cov_lin n x y c d : (0 < n)%nat -> sample_covariance n (fun t => c * x t + d) y = c * sample_covariance n x y.
Proof.
  intros Hn. unfold sample_covariance. rewrite average_lin by exact Hn. unfold Rdiv. rewrite <- Rmult_assoc. f_equal. rewrite <- Sum_scal. apply Sum_ext. intros; ring.
Qed.
Lemma cov_sym n x y : sample_covariance n x y = sample_covariance n y x.
Proof. unfold sample_covariance. f_equal. apply Sum_ext. intros; ring. Qed.

(** ** C64: covariance *)
Theorem C64_sample_covariance_per_cell nt nlat nlon a b j i : (2 <= nt)%nat -> (j < nlat)%nat -> (i < nlon)%nat ->
  cov_map nt nlat nlon a b j i = sample_covariance nt (fun t => a t j i) (fun t => b t j i).
Proof. exact (cov_value nt nlat nlon a b j i). Qed.
Print Assumptions C64_sample_covariance_per_cell.
Theorem C64_symmetric nt nlat nlon a b j i : (2 <= nt)%nat ->
  cov_map nt nlat nlon a b j i = cov_map nt nlat nlon b a j i.
Proof.
  intros Hn. destruct (Nat.lt_ge_cases j nlat) as [Hj|Hj]; [destruct (Nat.lt_ge_cases i nlon) as [Hi|Hi]|].
  - rewrite !cov_value by assumption. apply cov_sym.
  - unfold calculate_covariance. rewrite (proj2 (Nat.ltb_ge _ _) Hi), andb_false_r. reflexivity.
  - unfold calculate_covariance. rewrite (proj2 (Nat.ltb_ge _ _) Hj). reflexivity.
Qed.
Print Assumptions C64_symmetric.
(** ** C122: what a covariance has to satisfy *)
Theorem C122_covariance_laws nt nlat nlon a b j i : (2 <= nt)%nat -> (j < nlat)%nat -> (i < nlon)%nat ->
  (* the variance is nonnegative, and zero exactly for a constant series *)
  0 <= cov_map nt nlat nlon a a j i /\
  (cov_map nt nlat nlon a a j i = 0 <-> forall s t, (s < nt)%nat -> (t < nt)%nat -> a s j i = a t j i) /\
  (* scaling and shifting one field scales the covariance *)
  (forall c d, cov_map nt nlat nlon (fun t j i => c * a t j i + d) b j i = c * cov_map nt nlat nlon a b j i) /\
  (* the correlation does not exceed one *)
  (cov_map nt nlat nlon a b j i)² <= cov_map nt nlat nlon a a j i * cov_map nt nlat nlon b b j i.
Proof.
  intros Hn Hj Hi. assert (P : 0 < INR (nt - 1)) by (apply lt_0_INR; lia). assert (Pi : 0 < / INR (nt - 1)) by (apply Rinv_0_lt_compat; exact P).
  split; [|split; [|split]].
  - rewrite cov_value by assumption. unfold sample_covariance. apply Rmult_le_pos; [apply Sum_sq|lra].
  - rewrite cov_value by assumption. unfold sample_covariance. split.
    + intros E s t Hs Ht. apply Rmult_integral in E. destruct E as [E|E]; [|lra].
      assert (Z : forall r, (r < nt)%nat -> a r j i = average nt (fun t => a t j i)).
      { intros r Hr. assert (X : (a r j i - average nt (fun t => a t j i)) * (a r j i - average nt (fun t => a t j i)) = 0).
        { apply (Sum_eq0 0 nt (fun t => (a t j i - average nt (fun t => a t j i)) * (a t j i - average nt (fun t => a t j i)))); [intros; apply Rle_0_sqr|exact E|lia]. }
        apply Rmult_integral in X. lra. }
      rewrite (Z s Hs), (Z t Ht). reflexivity.
    + intros E. assert (Av : average nt (fun t => a t j i) = a 0%nat j i).
      { unfold average. rewrite (Sum_ext 0 nt _ (fun t => a 0%nat j i)) by (intros; apply E; lia).
        assert (G := average_lin nt (fun _ => 0) 0 (a 0%nat j i) ltac:(lia)). unfold average in G at 1. rewrite (Sum_ext 0 nt _ (fun _ => 0 * 0 + a 0%nat j i)) by (intros; ring). rewrite G. ring. }
      rewrite (Sum_zero 0 nt); [unfold Rdiv; ring|]. intros t Ht. rewrite Av, (E t 0%nat) by lia. ring.
  - intros c d. rewrite !cov_value by assumption. apply cov_lin. lia.
  - rewrite !cov_value by assumption. unfold sample_covariance. assert (C := cauchy_schwarz nt (fun t => a t j i - average nt (fun t => a t j i)) (fun t => b t j i - average nt (fun t => b t j i))).
    unfold Rsqr in *. cbv beta in C. unfold Rdiv. set (u := / INR (nt - 1)) in *. set (p := Sum 0 nt _) in *.
    match type of C with _ <= ?x * ?y => set (q := x) in *; set (r := y) in * end.
    replace (p * u * (p * u)) with (u * u * (p * p)) by ring. replace (q * u * (r * u)) with (u * u * (q * r)) by ring.
    apply Rmult_le_compat_l; [nra|exact C].
Qed.
Print Assumptions C122_covariance_laws.
(** perfectly correlated series reach the bound; their variance is not zero *)
Example C122_case : let a := fun t (j i : nat) => INR t in
  cov_map 3 2 2 a a 1%nat 1%nat <> 0 /\ (cov_map 3 2 2 (fun t j i => 2 * a t j i + 1) a 1%nat 1%nat)² = cov_map 3 2 2 (fun t j i => 2 * a t j i + 1) (fun t j i => 2 * a t j i + 1) 1%nat 1%nat * cov_map 3 2 2 a a 1%nat 1%nat.
Proof.
  intros a. destruct (C122_covariance_laws 3 2 2 a a 1%nat 1%nat ltac:(lia) ltac:(lia) ltac:(lia)) as (_ & Z & L & _). split.
  - intros E. apply Z with (s := 0%nat) (t := 1%nat) in E; [|lia|lia]. unfold a in E. cbn in E. lra.
  - destruct (C122_covariance_laws 3 2 2 a (fun t j i => 2 * a t j i + 1) 1%nat 1%nat ltac:(lia) ltac:(lia) ltac:(lia)) as (_ & _ & L2 & _).
    rewrite L, L2. rewrite (C64_symmetric 3 2 2 a (fun t j i => 2 * a t j i + 1) 1%nat 1%nat) by lia. rewrite L. unfold Rsqr. ring.
Qed.
Example C64_case : cov_map 3 2 2 (fun t j i => INR (t * (i + 1))) (fun t j i => INR (t * t)) 1 1 = 4.
Proof. rewrite cov_value by lia. unfold sample_covariance, average. rewrite !Sum0_rsum. cbn. field. Qed.

(** ** C65: gridfill *)
(** gridfill.fill: values that are not masked are kept, masked ones are replaced by numbers *)
Definition keeps_unmasked (fill : (nat -> nat -> option R) -> nat -> nat -> entry) : Prop := forall m j i x, m j i = Some x -> fill m j i = Number x.
Definition fills_masked (fill : (nat -> nat -> option R) -> nat -> nat -> entry) : Prop := forall m j i, m j i = None -> exists x, fill m j i = Number x.
Lemma count_zero_iff nlat nlon a : count_nan nlat nlon a = 0%nat <-> (forall j i, (j < nlat)%nat -> (i < nlon)%nat -> a j i <> NaN).
Proof.
  unfold count_nan. assert (H0 : forall l : list (nat * nat), fold_right Nat.add 0%nat (map (fun p => if is_nan (a (fst p) (snd p)) then 1%nat else 0%nat) l) = 0%nat <-> forall p, In p l -> a (fst p) (snd p) <> NaN).
  { induction l as [|p l IH]; cbn; [split; [intros _ ? []|reflexivity]|]. destruct (a (fst p) (snd p)) eqn:E; cbn.
    - rewrite IH. split; [intros X r [<-|Hr]; [congruence|auto]|auto].
    - rewrite IH. split; [intros X r [<-|Hr]; [congruence|auto]|auto].
    - split; [discriminate|]. intros X. exfalso. apply (X p); auto. }
  rewrite H0. split.
  - intros X j i Hj Hi. apply (X (j, i)). apply in_prod; apply in_seq; lia.
  - intros X (j, i) Hp. apply in_prod_iff in Hp. destruct Hp as (H1 & H2). apply in_seq in H1. apply in_seq in H2. apply X; cbn; lia.
Qed.
Theorem C65_complete_level_unchanged fill nlat nlon a : (forall j i, (j < nlat)%nat -> (i < nlon)%nat -> a j i <> NaN) ->
  forall j i, gridfill_each_level fill nlat nlon a j i = a j i.
Proof. intros H j i. assert (H0 := proj2 (count_zero_iff nlat nlon a) H). unfold gridfill_each_level. rewrite H0. reflexivity. Qed.
Print Assumptions C65_complete_level_unchanged.
(** numbers are never altered and no NaN is left *)
Theorem C65_numbers_kept_partial fill nlat nlon a : keeps_unmasked fill -> fills_masked fill ->
  (forall j i x, a j i = Number x -> gridfill_each_level fill nlat nlon a j i = Number x) /\
  (forall j i, (j < nlat)%nat -> (i < nlon)%nat -> gridfill_each_level fill nlat nlon a j i <> NaN) /\
  (forall j i, (j < nlat)%nat -> (i < nlon)%nat -> a j i = NaN -> exists x, gridfill_each_level fill nlat nlon a j i = Number x).
Proof.
  intros K F. unfold gridfill_each_level. destruct (Nat.eqb_spec (count_nan nlat nlon a) 0) as [E|E].
  - assert (E0 := proj1 (count_zero_iff nlat nlon a) E). clear E. rename E0 into E. split; [auto|]. split; [exact E|]. intros j i Hj Hi X. exfalso. exact (E j i Hj Hi X).
  - split; [intros j i x H; apply K; unfold masked_invalid; rewrite H; reflexivity|].
    assert (G : forall j i, exists x, fill (masked_invalid a) j i = Number x).
    { intros j i. destruct (masked_invalid a j i) as [x|] eqn:M; [exists x; apply K; exact M|apply F; exact M]. }
    split; [intros j i _ _ X; destruct (G j i); congruence|intros; apply G].
Qed.
Print Assumptions C65_numbers_kept_partial.
(** expected: entries that are not NaN are never altered; in a level with a NaN, infinities always are *)
Theorem C65_infinities_replaced_refuted fill nlat nlon a j i s : fills_masked fill ->
  (exists y x, (y < nlat)%nat /\ (x < nlon)%nat /\ a y x = NaN) -> a j i = Infinity s ->
  gridfill_each_level fill nlat nlon a j i <> a j i.
Proof.
  intros F (y & x & Hy & Hx & HN) HI. unfold gridfill_each_level. destruct (Nat.eqb_spec (count_nan nlat nlon a) 0) as [E|E].
  - exfalso. apply (proj1 (count_zero_iff nlat nlon a) E y x Hy Hx HN).
  - destruct (F (masked_invalid a) j i) as (z & Z); [unfold masked_invalid; rewrite HI; reflexivity|]. congruence.
Qed.
Print Assumptions C65_infinities_replaced_refuted.
Example C65_case : exists fill, keeps_unmasked fill /\ fills_masked fill /\
  gridfill_each_level fill 2 2 (fun j i => if Nat.eqb j i then (if Nat.eqb j 0 then NaN else Infinity true) else Number 7) 1 1 = Number 0.
Proof.
  exists (fun m j i => match m j i with Some x => Number x | None => Number 0 end). repeat split.
  - intros m j i x H. rewrite H. reflexivity.
  - intros m j i H. rewrite H. eauto.
Qed.
