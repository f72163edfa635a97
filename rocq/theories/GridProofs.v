From Coq Require Import ZifyNat.
From Verif Require Import Spec SpecFacts BaseFacts Grid GridSpec.
From Flocq Require Import Core.
Open Scope R_scope.
Ltac Zify.zify_post_hook ::= Z.to_euclidean_division_equations.

(** ** zeros *)
Section Zeros.
  Context {A : Type} {N : Num A}.
  Lemma first_zero_some n f i : first_zero n f = Some i ->
    (i < n)%nat /\ neqb (f i) nzero = true /\ forall k, (k < i)%nat -> neqb (f k) nzero = false.
  Proof.
    revert i; induction n as [|n IH]; intros i; cbn; [discriminate|].
    destruct (first_zero n f) as [x|] eqn:E.
    - intros Q; injection Q as <-. destruct (IH x eq_refl) as (H1 & H2 & H3). split; [lia|split; assumption].
    - destruct (neqb (f n) nzero) eqn:Z; [|discriminate]. intros Q; injection Q as <-. split; [lia|split; [assumption|]].
      clear IH. intros k Hk. clear Z. revert k Hk. induction n as [|n IH]; intros k Hk; [lia|].
      cbn in E. destruct (first_zero n f); [discriminate|]. destruct (neqb (f n) nzero) eqn:Z; [discriminate|].
      destruct (Nat.eq_dec k n) as [->|]; [assumption|]. apply IH; [reflexivity|lia].
  Qed.
  Lemma first_zero_none n f : first_zero n f = None <-> forall k, (k < n)%nat -> neqb (f k) nzero = false.
  Proof.
    induction n as [|n IH]; cbn; [split; [intros; lia|reflexivity]|].
    destruct (first_zero n f) as [x|] eqn:E.
    - split; [discriminate|]. intros H. destruct (first_zero_some _ _ _ E) as (H1 & H2 & _). rewrite H in H2 by lia. discriminate.
    - pose proof (proj1 IH eq_refl) as P. destruct (neqb (f n) nzero) eqn:Z.
      + split; [discriminate|]. intros H. rewrite H in Z by lia. discriminate.
      + split; [|reflexivity]. intros _ k Hk. destruct (Nat.eq_dec k n) as [->|]; [assumption|apply P; lia].
  Qed.
  Lemma count_zero_0 n f : count_zero n f = 0%nat <-> forall k, (k < n)%nat -> neqb (f k) nzero = false.
  Proof.
    induction n as [|n IH]; cbn; [split; [intros; lia|reflexivity]|]. destruct (neqb (f n) nzero) eqn:Z; split; intros H.
    - lia.
    - rewrite H in Z by lia. discriminate.
    - intros k Hk. destruct (Nat.eq_dec k n) as [->|]; [assumption|]. apply (proj1 IH); lia.
    - assert (count_zero n f = 0)%nat by (apply IH; intros; apply H; lia). lia.
  Qed.
  Lemma count_zero_1 n f : count_zero n f = 1%nat <->
    exists i, (i < n)%nat /\ neqb (f i) nzero = true /\ forall k, (k < n)%nat -> k <> i -> neqb (f k) nzero = false.
  Proof.
    induction n as [|n IH]; cbn; [split; [discriminate|intros (i & H & _); lia]|].
    destruct (neqb (f n) nzero) eqn:Z; split; intros H.
    - assert (C : count_zero n f = 0%nat) by lia. rewrite count_zero_0 in C. exists n. repeat split; auto. intros k Hk Nk. apply C; lia.
    - destruct H as (i & Hi & Zi & U). destruct (Nat.eq_dec i n) as [->|Ne].
      + assert (count_zero n f = 0)%nat by (apply count_zero_0; intros; apply U; lia). lia.
      + rewrite U in Z by lia. discriminate.
    - rewrite Nat.add_0_r in H. apply IH in H. destruct H as (i & Hi & Zi & U). exists i. repeat split; auto.
      intros k Hk Nk. destruct (Nat.eq_dec k n) as [->|]; [assumption|apply U; lia].
    - rewrite Nat.add_0_r. apply IH. destruct H as (i & Hi & Zi & U). exists i.
      assert (i <> n) by (intros ->; congruence). repeat split; [lia|assumption|]. intros; apply U; lia.
  Qed.
End Zeros.

Lemma linspace_R n k : (0 < n)%nat -> (k <= n)%nat -> @linspace_lat R RNum n k = -90 + INR k * (180 / INR n).
Proof.
  intros Hn Hk. unfold linspace_lat. rewrite !nofnat_INR. toR. assert (INR n <> 0) by (apply not_0_INR; lia).
  destruct (Nat.eqb_spec k n) as [->|]; [field; assumption|]. replace (90 - -90) with 180 by lra. lra.
Qed.
Lemma linspace_zero n k : (0 < n)%nat -> (k <= n)%nat -> (@linspace_lat R RNum n k = 0 <-> n = (2 * k)%nat).
Proof.
  intros Hn Hk. rewrite linspace_R by assumption. assert (P : 0 < INR n) by (apply lt_0_INR; lia). split.
  - intros E. apply INR_eq. rewrite mult_INR. cbn [INR]. apply (Rmult_eq_reg_r (90 / INR n)).
    + replace ((1 + 1) * INR k * (90 / INR n)) with (INR k * (180 / INR n)) by (field; lra).
      replace (INR n * (90 / INR n)) with 90 by (field; lra). lra.
    + unfold Rdiv. apply Rmult_integral_contrapositive. split; [lra|]. apply Rinv_neq_0_compat; lra.
  - intros ->. rewrite mult_INR in *. cbn [INR] in *. field. lra.
Qed.

Lemma accepted_grid nlat (ylat : nat -> R) g : check_and_flip_ylat nlat ylat = Done g ->
  (1 <= lg_eq g <= lg_n g)%nat /\ (forall k, (k < lg_n g)%nat -> (lg_ylat g k = 0 <-> (k + 1)%nat = lg_eq g)).
Proof.
  unfold check_and_flip_ylat. toR. destruct (Nat.ltb_spec nlat 2); [discriminate|].
  destruct Rltb; [discriminate|]. destruct (Nat.even nlat && Nat.eqb (count_zero nlat ylat) 0).
  - destruct (first_zero (nlat + 1) (linspace_lat nlat)) as [i|] eqn:E; [|discriminate].
    intros Q; injection Q as <-. cbn [lg_n lg_eq lg_ylat]. destruct (first_zero_some _ _ _ E) as (H1 & H2 & _).
    toR. apply Reqb_true in H2. rewrite linspace_zero in H2 by lia. split; [lia|].
    intros k Hk. rewrite linspace_zero by lia. lia.
  - destruct (Nat.eqb_spec (count_zero nlat ylat) 1) as [C|]; [|discriminate].
    destruct (first_zero nlat ylat) as [i|] eqn:E; [|discriminate].
    intros Q; injection Q as <-. cbn [lg_n lg_eq lg_ylat]. destruct (first_zero_some _ _ _ E) as (H1 & H2 & _).
    apply count_zero_1 in C. destruct C as (z & Hz & Zz & U). toR.
    assert (i = z) as -> by (destruct (Nat.eq_dec i z); [assumption|]; rewrite U in H2 by assumption; discriminate).
    split; [lia|]. intros k Hk. split; intros Q.
    + destruct (Nat.eq_dec k z) as [->|Ne]; [reflexivity|]. specialize (U k Hk Ne). apply Reqb_false in U. contradiction.
    + assert (k = z) as -> by lia. apply Reqb_true; assumption.
Qed.

Lemma accepted_iff nlat (ylat : nat -> R) :
  (exists g, check_and_flip_ylat nlat ylat = Done g) <->
  (2 <= nlat)%nat /\ ylat 0%nat <= ylat 1%nat /\
  ((Nat.Even nlat /\ forall k, (k < nlat)%nat -> ylat k <> 0) \/
   exists i, (i < nlat)%nat /\ ylat i = 0 /\ forall k, (k < nlat)%nat -> ylat k = 0 -> k = i).
Proof.
  unfold check_and_flip_ylat. toR. split.
  - intros [g E]. destruct (Nat.ltb_spec nlat 2); [discriminate|]. split; [assumption|].
    destruct (Rltb_spec (ylat 1%nat - ylat 0%nat) 0); [discriminate|]. split; [lra|].
    destruct (Nat.even nlat) eqn:Ev; cbn [andb] in E.
    + destruct (Nat.eqb_spec (count_zero nlat ylat) 0) as [C|C]; cbn in E.
      * left. split; [apply Nat.even_spec; assumption|]. rewrite count_zero_0 in C. intros k Hk. specialize (C k Hk). toR. apply Reqb_false; assumption.
      * right. destruct (Nat.eqb_spec (count_zero nlat ylat) 1) as [D|]; [|discriminate]. apply count_zero_1 in D.
        destruct D as (i & Hi & Zi & U). toR. exists i. repeat split; [assumption|apply Reqb_true; assumption|].
        intros k Hk Zk. destruct (Nat.eq_dec k i); [assumption|]. specialize (U k Hk ltac:(assumption)). apply Reqb_false in U. contradiction.
    + right. destruct (Nat.eqb_spec (count_zero nlat ylat) 1) as [D|]; [|discriminate]. apply count_zero_1 in D.
      destruct D as (i & Hi & Zi & U). toR. exists i. repeat split; [assumption|apply Reqb_true; assumption|].
      intros k Hk Zk. destruct (Nat.eq_dec k i); [assumption|]. specialize (U k Hk ltac:(assumption)). apply Reqb_false in U. contradiction.
  - intros (H2 & H0 & D). destruct (Nat.ltb_spec nlat 2); [lia|].
    destruct (Rltb_spec (ylat 1%nat - ylat 0%nat) 0); [lra|].
    destruct D as [[Ev Z]|(i & Hi & Zi & U)].
    + assert (C : count_zero nlat ylat = 0%nat) by (apply count_zero_0; intros k Hk; toR; apply Reqb_false, Z; assumption).
      rewrite C. rewrite (proj2 (Nat.even_spec nlat) Ev). cbn [andb Nat.eqb].
      destruct (first_zero (nlat + 1) (linspace_lat nlat)) eqn:E; [eexists; reflexivity|].
      rewrite first_zero_none in E. specialize (E (nlat / 2)%nat ltac:(lia)). toR. apply Reqb_false in E. exfalso. apply E.
      apply linspace_zero; try lia. destruct Ev as [m ->]. lia.
    + assert (C : count_zero nlat ylat = 1%nat).
      { apply count_zero_1. exists i. toR. repeat split; [assumption|apply Reqb_true; assumption|]. intros k Hk Nk. apply Reqb_false. intros Q. apply Nk, U; assumption. }
      rewrite C. cbn [Nat.eqb]. rewrite andb_false_r.
      destruct (first_zero nlat ylat) eqn:E; [eexists; reflexivity|].
      rewrite first_zero_none in E. specialize (E i Hi). toR. apply Reqb_false in E. contradiction.
Qed.
Lemma descending_rejected nlat (ylat : nat -> R) : (2 <= nlat)%nat -> ylat 1%nat < ylat 0%nat ->
  check_and_flip_ylat nlat ylat = Raise TypeError.
Proof.
  intros H Hy. unfold check_and_flip_ylat. toR. destruct (Nat.ltb_spec nlat 2); [lia|].
  destruct (Rltb_spec (ylat 1%nat - ylat 0%nat) 0); [reflexivity|lra].
Qed.

Lemma symmetric_accepted nlat (ylat : nat -> R) : (2 <= nlat)%nat -> ascending nlat ylat ->
  (forall k, (k < nlat)%nat -> ylat (nlat - 1 - k)%nat = - ylat k) ->
  exists g, check_and_flip_ylat nlat ylat = Done g /\ (2 * lg_eq g)%nat = (lg_n g + 1)%nat /\
    (forall k, (k < lg_n g)%nat -> lg_ylat g (lg_n g - 1 - k)%nat = - lg_ylat g k).
Proof.
  intros Hn Asc Sym.
  assert (Acc : exists g, check_and_flip_ylat nlat ylat = Done g).
  { apply accepted_iff. split; [assumption|]. split; [left; apply Asc; lia|].
    destruct (Nat.Even_or_Odd nlat) as [Ev|Od].
    - left. split; [assumption|]. intros k Hk E. pose proof (Sym k Hk) as S. rewrite E, Ropp_0 in S.
      destruct Ev as [m Em]. assert (k <> (nlat - 1 - k)%nat) by lia.
      destruct (Nat.lt_total k (nlat - 1 - k)) as [L|[L|L]]; [|lia|];
        [pose proof (Asc k (nlat - 1 - k)%nat ltac:(lia))|pose proof (Asc (nlat - 1 - k)%nat k ltac:(lia))]; lra.
    - right. destruct Od as [m Em]. exists m. pose proof (Sym m ltac:(lia)) as S. replace (nlat - 1 - m)%nat with m in S by lia.
      repeat split; [lia|lra|]. intros k Hk Ek. destruct (Nat.lt_total k m) as [L|[L|L]]; [|assumption|];
        [pose proof (Asc k m ltac:(lia))|pose proof (Asc m k ltac:(lia))]; lra. }
  destruct Acc as [g E]. exists g. split; [assumption|]. pose proof (accepted_grid _ _ _ E) as [R Z].
  unfold check_and_flip_ylat in E. destruct (Nat.ltb_spec nlat 2); [discriminate|].
  destruct nltb; [discriminate|]. destruct (Nat.even nlat && Nat.eqb (count_zero nlat ylat) 0) eqn:B.
  - destruct first_zero as [i|]; [|discriminate]. injection E as <-. cbn [lg_n lg_eq lg_ylat] in *.
    apply andb_prop in B. destruct B as [Ev _]. apply Nat.even_spec in Ev. destruct Ev as [m Em].
    pose proof (proj1 (Z m ltac:(lia)) (proj2 (linspace_zero nlat m ltac:(lia) ltac:(lia)) ltac:(lia))). split; [lia|].
    intros k Hk. rewrite !linspace_R by lia. replace (nlat + 1 - 1 - k)%nat with (nlat - k)%nat by lia. rewrite minus_INR by lia.
    assert (INR nlat <> 0) by (apply not_0_INR; lia). field; assumption.
  - destruct (Nat.eqb (count_zero nlat ylat) 1); [|discriminate]. destruct first_zero as [i|]; [|discriminate]. injection E as <-.
    cbn [lg_n lg_eq lg_ylat] in *. assert (Zi : ylat i = 0) by (apply Z; lia). pose proof (Sym i ltac:(lia)) as S. rewrite Zi, Ropp_0 in S.
    apply Z in S; [|lia]. split; [lia|exact Sym].
Qed.

Lemma offcentre_accepted n p : (2 <= n)%nat -> (p < n)%nat ->
  exists g, check_and_flip_ylat n (fun k => INR k - INR p) = Done g /\ lg_n g = n /\ lg_eq g = (p + 1)%nat.
Proof.
  intros Hn Hp. assert (Acc : exists g, check_and_flip_ylat n (fun k => INR k - INR p) = Done g).
  { apply accepted_iff. split; [assumption|]. split; [cbn [INR]; lra|]. right. exists p. repeat split; [assumption|lra|].
    intros k Hk E. apply INR_eq. lra. }
  destruct Acc as [g E]. exists g. split; [assumption|]. pose proof (accepted_grid _ _ _ E) as [R Z].
  unfold check_and_flip_ylat in E. destruct (Nat.ltb_spec n 2); [discriminate|].
  toR. destruct (Rltb_spec (INR 1 - INR p - (INR 0 - INR p)) 0); [discriminate|]. assert (C : count_zero n (fun k => INR k - INR p) = 1%nat).
  { apply count_zero_1. exists p. toR. repeat split; [assumption|apply Reqb_true; lra|]. intros k Hk Nk. apply Reqb_false. intros Q. apply Nk, INR_eq. lra. }
  rewrite C in E. cbn [Nat.eqb] in E. rewrite andb_false_r in E.
  destruct first_zero as [i|]; [|discriminate]. injection E as <-. cbn [lg_n lg_eq lg_ylat] in *. split; [reflexivity|].
  symmetry. apply Z; [assumption|lra].
Qed.

(** ** binary64 *)
Lemma rnd64_exact z s : (Z.abs z < 2 ^ 53)%Z -> (s <= 1000)%nat -> rnd64 (IZR z / 2 ^ s) = IZR z / 2 ^ s.
Proof.
  intros Hz Hs. apply round_generic; [apply valid_rnd_N|]. apply generic_format_FLT.
  exists (Float radix2 z (- Z.of_nat s)); cbn [Fnum Fexp]; [|exact Hz|lia].
  unfold F2R; cbn [Fnum Fexp]. rewrite bpow_opp. unfold Rdiv. f_equal. f_equal.
  rewrite <- IZR_Zpower by lia. change (radix_val radix2) with 2%Z. rewrite <- pow_IZR. reflexivity.
Qed.

Lemma rnd64_int z : (Z.abs z < 2 ^ 53)%Z -> rnd64 (IZR z) = IZR z.
Proof. intros H. pose proof (rnd64_exact z 0 H ltac:(lia)) as E. cbn [pow] in E. unfold Rdiv in E. rewrite Rinv_1, Rmult_1_r in E. exact E. Qed.
Lemma pow2_pos s : 0 < 2 ^ s. Proof. apply pow_lt; lra. Qed.
Lemma linspace64 n c s k : (0 < n)%nat -> (Z.of_nat n * c = 180 * 2 ^ Z.of_nat s)%Z -> (s <= 45)%nat -> (k <= n)%nat ->
  @linspace_lat R (RndNum rnd64) n k = IZR (Z.of_nat k * c - 90 * 2 ^ Z.of_nat s) / 2 ^ s.
Proof.
  intros Hn E Hs Hk. pose proof (pow2_pos s) as P2.
  assert (B : (2 ^ Z.of_nat s <= 2 ^ 45)%Z) by (apply Z.pow_le_mono_r; lia).
  assert (B0 : (0 < 2 ^ Z.of_nat s)%Z) by (apply Z.pow_pos_nonneg; lia).
  assert (P45 : (2 ^ 45 = 35184372088832)%Z) by reflexivity. assert (P53 : (2 ^ 53 = 9007199254740992)%Z) by reflexivity.
  assert (Hc : (0 < c)%Z) by nia. assert (Hcb : (c <= 180 * 2 ^ Z.of_nat s)%Z) by nia.
  assert (Hnb : (Z.of_nat n <= 180 * 2 ^ Z.of_nat s)%Z) by nia.
  assert (Hkc : (0 <= Z.of_nat k * c <= 180 * 2 ^ Z.of_nat s)%Z) by nia.
  assert (Q : IZR (2 ^ Z.of_nat s) = 2 ^ s) by (rewrite <- pow_IZR; reflexivity).
  assert (EN : IZR (Z.of_nat n) * IZR c = 180 * 2 ^ s) by (rewrite <- mult_IZR, E, mult_IZR, Q; reflexivity).
  assert (Nz : IZR (Z.of_nat n) <> 0) by (apply not_0_IZR; lia).
  assert (ST : IZR 180 / IZR (Z.of_nat n) = IZR c / 2 ^ s).
  { apply (Rmult_eq_reg_r (IZR (Z.of_nat n) * 2 ^ s)); [|apply Rmult_integral_contrapositive; split; lra].
    field_simplify; lra. }
  unfold linspace_lat, nofnat. cbn [nofZ nsub nadd nmul ndiv RndNum].
  rewrite (rnd64_int 90), (rnd64_int (-90)) by (rewrite P53; lia).
  destruct (Nat.eqb_spec k n) as [->|Nk].
  - rewrite E. replace (180 * 2 ^ Z.of_nat s - 90 * 2 ^ Z.of_nat s)%Z with (90 * 2 ^ Z.of_nat s)%Z by lia.
    rewrite mult_IZR, Q. field. lra.
  - replace (IZR 90 - IZR (-90)) with (IZR 180) by (cbn; lra). rewrite (rnd64_int 180) by (rewrite P53; lia).
    rewrite (rnd64_int (Z.of_nat n)) by (rewrite P53; lia). rewrite ST.
    rewrite (rnd64_exact c s) by (rewrite ?P53; lia). rewrite (rnd64_int (Z.of_nat k)) by (rewrite P53; nia).
    replace (IZR (Z.of_nat k) * (IZR c / 2 ^ s)) with (IZR (Z.of_nat k * c) / 2 ^ s) by (rewrite mult_IZR; unfold Rdiv; ring).
    rewrite (rnd64_exact (Z.of_nat k * c) s) by (rewrite ?P53; lia).
    replace (IZR (Z.of_nat k * c) / 2 ^ s + IZR (-90)) with (IZR (Z.of_nat k * c - 90 * 2 ^ Z.of_nat s) / 2 ^ s).
    2:{ rewrite minus_IZR, (mult_IZR 90), Q. replace (IZR (-90)) with (- IZR 90) by (cbn; lra). field. lra. }
    apply rnd64_exact; [rewrite P53; lia|lia].
Qed.
Lemma rnd64_nonneg x : 0 <= x -> 0 <= rnd64 x.
Proof.
  intros H. rewrite <- (round_0 radix2 (FLT_exp (-1074) 53) ZnearestE). apply round_le; auto using valid_rnd_N. apply FLT_exp_valid. reflexivity.
Qed.
Lemma accepted64 n c s (ylat : nat -> R) : (0 < n)%nat -> Nat.Even n ->
  (Z.of_nat n * c = 180 * 2 ^ Z.of_nat s)%Z -> (s <= 45)%nat ->
  ylat 0%nat <= ylat 1%nat -> (forall k, (k < n)%nat -> ylat k <> 0) ->
  exists g, @check_and_flip_ylat R (RndNum rnd64) n ylat = Done g /\ lg_eq g = (n / 2 + 1)%nat /\ lg_n g = (n + 1)%nat.
Proof.
  intros Hn Ev E Hs H01 Z. unfold check_and_flip_ylat. cbn [nltb nsub nzero RndNum].
  destruct (Nat.ltb_spec n 2) as [L|_]; [destruct Ev; lia|].
  destruct (Rltb_spec (rnd64 (ylat 1%nat - ylat 0%nat)) 0) as [L|_].
  { pose proof (rnd64_nonneg (ylat 1%nat - ylat 0%nat)). lra. }
  assert (C : @count_zero R (RndNum rnd64) n ylat = 0%nat) by (apply count_zero_0; intros k Hk; apply Reqb_false, Z; assumption).
  rewrite C, (proj2 (Nat.even_spec n) Ev). cbn [andb Nat.eqb].
  assert (V : forall k, (k <= n)%nat -> @linspace_lat R (RndNum rnd64) n k = 0 <-> (2 * k = n)%nat).
  { intros k Hk. rewrite (linspace64 n c s k) by assumption. pose proof (pow2_pos s).
    assert (B0 : (0 < 2 ^ Z.of_nat s)%Z) by (apply Z.pow_pos_nonneg; lia). split.
    - intros Q. assert (Q' : IZR (Z.of_nat k * c - 90 * 2 ^ Z.of_nat s) = 0).
      { replace (IZR (Z.of_nat k * c - 90 * 2 ^ Z.of_nat s)) with (IZR (Z.of_nat k * c - 90 * 2 ^ Z.of_nat s) / 2 ^ s * 2 ^ s) by (field; lra). rewrite Q. ring. }
      apply eq_IZR in Q'. nia.
    - intros Q. replace (Z.of_nat k * c - 90 * 2 ^ Z.of_nat s)%Z with 0%Z by nia. unfold Rdiv. ring. }
  destruct (@first_zero R (RndNum rnd64) (n + 1) (linspace_lat n)) as [i|] eqn:F.
  - eexists. split; [reflexivity|]. cbn [lg_eq lg_n]. destruct (first_zero_some _ _ _ F) as (Hi & Zi & _).
    apply Reqb_true in Zi. apply V in Zi; [|lia]. lia.
  - exfalso. rewrite first_zero_none in F. destruct Ev as [m Em]. specialize (F m ltac:(lia)). apply Reqb_false in F. apply F, V; lia.
Qed.

Lemma rejected64 (ylat : nat -> B64) :
  SpecFloat.SFltb (SpecFloat.SFsub 53 1024 (ylat 1%nat) (ylat 0%nat)) (SpecFloat.S754_zero false) = false ->
  (forall k, (k < 78)%nat -> SpecFloat.SFeqb (ylat k) (SpecFloat.S754_zero false) = false) ->
  @check_and_flip_ylat B64 B64Num 78 ylat = Raise IndexError.
Proof.
  intros H1 H2. unfold check_and_flip_ylat. change (Nat.ltb 78 2) with false. cbv iota.
  change (@nltb B64 B64Num) with SpecFloat.SFltb. change (@nsub B64 B64Num) with (SpecFloat.SFsub 53 1024).
  change (@nzero B64 B64Num) with (SpecFloat.S754_zero false). rewrite H1.
  assert (C : @count_zero B64 B64Num 78 ylat = 0%nat) by (apply count_zero_0; exact H2). rewrite C.
  change (Nat.even 78 && (0 =? 0)%nat) with true. cbv iota.
  assert (F : @first_zero B64 B64Num (78 + 1) (@linspace_lat B64 B64Num 78) = None) by (vm_compute; reflexivity). rewrite F. reflexivity.
Qed.

(** ** interpolation *)
Lemma searchsorted_split n (x : nat -> R) v : ascending n x ->
  (searchsorted n x v <= n)%nat /\ (forall i, (i < n)%nat -> ((i < searchsorted n x v)%nat <-> x i < v)).
Proof.
  induction n as [|n IH]; intros Asc; [split; [auto|intros; lia]|]. cbn [searchsorted]. toR.
  assert (A' : ascending n x) by (intros a b H; apply Asc; lia). destruct (IH A') as [L H].
  destruct (Rltb_spec (x n) v) as [Lt|Ge].
  - assert (searchsorted n x v = n).
    { destruct n as [|n']; [reflexivity|]. assert (n' < searchsorted (S n') x v)%nat; [|lia]. apply H; [lia|].
      pose proof (Asc n' (S n') ltac:(lia)). lra. }
    split; [lia|]. intros i Hi. split; [|intros; lia]. intros _. destruct (Nat.eq_dec i n) as [->|]; [assumption|].
    pose proof (Asc i n ltac:(lia)). lra.
  - split; [lia|]. intros i Hi. rewrite Nat.add_0_r. destruct (Nat.eq_dec i n) as [->|]; [split; intros; [lia|lra]|apply H; lia].
Qed.
Lemma interp1d_line n (x y : nat -> R) a b v : (2 <= n)%nat -> ascending n x ->
  (forall k, (k < n)%nat -> y k = a + b * x k) -> interp1d n x y v = a + b * v.
Proof.
  intros Hn Asc Hy. unfold interp1d. toR. set (hi := Nat.min (Nat.max (searchsorted n x v) 1) (n - 1)).
  assert (H : (1 <= hi < n)%nat) by (unfold hi; lia). rewrite !Hy by lia.
  pose proof (Asc (hi - 1)%nat hi ltac:(lia)). field. lra.
Qed.
Lemma interp1d_between n (x y : nat -> R) v : (2 <= n)%nat -> ascending n x -> x 0%nat <= v <= x (n - 1)%nat ->
  exists lo, (S lo < n)%nat /\ x lo <= v <= x (S lo) /\ Rmin (y lo) (y (S lo)) <= interp1d n x y v <= Rmax (y lo) (y (S lo)).
Proof.
  intros Hn Asc Hv. destruct (searchsorted_split n x v Asc) as [L H]. unfold interp1d. toR.
  set (s := searchsorted n x v) in *. set (hi := Nat.min (Nat.max s 1) (n - 1)).
  assert (Hi : (1 <= hi < n)%nat) by (unfold hi; lia). exists (hi - 1)%nat. replace (S (hi - 1)) with hi by lia.
  split; [lia|]. assert (B : x (hi - 1)%nat <= v <= x hi).
  { split.
    - destruct (Nat.le_gt_cases s 1).
      + replace (hi - 1)%nat with 0%nat by lia. lra.
      + left. apply H; lia.
    - destruct (Nat.le_gt_cases s (n - 1)).
      + assert (~ (hi < s)%nat) by lia. rewrite H in * by lia. lra.
      + replace hi with (n - 1)%nat by lia. lra. }
  split; [assumption|]. pose proof (Asc (hi - 1)%nat hi ltac:(lia)) as P.
  set (t := (v - x (hi - 1)%nat) / (x hi - x (hi - 1)%nat)).
  assert (T : 0 <= t <= 1).
  { unfold t. split; [apply Rmult_le_pos; [lra|left; apply Rinv_0_lt_compat; lra]|].
    apply (Rmult_le_reg_r (x hi - x (hi - 1)%nat)); [lra|]. unfold Rdiv. rewrite Rmult_assoc, Rinv_l by lra. lra. }
  replace ((y hi - y (hi - 1)%nat) / (x hi - x (hi - 1)%nat) * (v - x (hi - 1)%nat) + y (hi - 1)%nat)
    with (y (hi - 1)%nat + t * (y hi - y (hi - 1)%nat)) by (unfold t; field; lra).
  unfold Rmin, Rmax. destruct Rle_dec; nra.
Qed.
Lemma interp1d_node n (x y : nat -> R) k : (2 <= n)%nat -> ascending n x -> (k < n)%nat -> interp1d n x y (x k) = y k.
Proof.
  intros Hn Asc Hk. destruct (searchsorted_split n x (x k) Asc) as [L H]. unfold interp1d. toR.
  assert (E : searchsorted n x (x k) = k).
  { destruct (Nat.lt_total (searchsorted n x (x k)) k) as [Q|[Q|Q]]; [|assumption|].
    - pose proof (Asc _ _ (conj Q Hk)) as Y. apply H in Y; lia.
    - apply H in Q; [lra|assumption]. }
  rewrite E. destruct k as [|k].
  - replace (Nat.min (Nat.max 0 1) (n - 1)) with 1%nat by lia. replace (1 - 1)%nat with 0%nat by lia. ring.
  - replace (Nat.min (Nat.max (S k) 1) (n - 1)) with (S k) by lia. replace (S k - 1)%nat with k by lia.
    pose proof (Asc k (S k) ltac:(lia)). field. lra.
Qed.
Lemma interp1d_range n (x y : nat -> R) v m M : (2 <= n)%nat -> ascending n x -> x 0%nat <= v <= x (n - 1)%nat ->
  (forall k, (k < n)%nat -> m <= y k <= M) -> m <= interp1d n x y v <= M.
Proof.
  intros Hn Asc Hv Hy. destruct (interp1d_between n x y v Hn Asc Hv) as (lo & Hlo & _ & B).
  pose proof (Hy lo ltac:(lia)). pose proof (Hy (S lo) Hlo). unfold Rmin, Rmax in B. destruct Rle_dec; lra.
Qed.

(** ** vertical grid *)
Lemma height_ascending n (plev : nat -> R) H : 0 < H -> (forall k, (k < n)%nat -> 0 < plev k) ->
  (forall a b, (a < b < n)%nat -> plev b < plev a) -> ascending n (fun k => plev_to_height H (plev k)).
Proof.
  intros HH Pos Desc a b Hab. unfold plev_to_height. pose proof (Pos a ltac:(lia)). pose proof (Pos b ltac:(lia)).
  pose proof (Desc a b Hab). assert (ln (plev b / 1000) < ln (plev a / 1000)) by (apply ln_increasing; lra). nra.
Qed.
Lemma uniform_height_R dz k : uniform_height dz k = INR k * dz.
Proof. unfold uniform_height. rewrite nofnat_INR. reflexivity. Qed.
Lemma accepted_plev nlev plev H kmax dz k : check_valid_plev nlev plev H kmax dz = None -> 0 <= dz -> (k < kmax)%nat ->
  uniform_height dz k <= plev_to_height H (plev (nlev - 1)%nat).
Proof.
  unfold check_valid_plev. destruct Nat.ltb; [discriminate|]. destruct Rltb; [discriminate|].
  destruct (Rltb_spec (plev_to_height H (plev (nlev - 1)%nat)) (IZR (Z.of_nat kmax - 1) * dz)) as [|G]; [discriminate|].
  intros _ Hdz Hk. rewrite uniform_height_R. rewrite INR_IZR_INZ.
  assert (IZR (Z.of_nat k) <= IZR (Z.of_nat kmax - 1)) by (apply IZR_le; lia). nra.
Qed.
Lemma vertical_no_extrapolation nlev plev H kmax dz (y : nat -> R) k :
  check_valid_plev nlev plev H kmax dz = None -> 0 < H -> 0 <= dz ->
  (forall l, (l < nlev)%nat -> 0 < plev l) -> (forall a b, (a < b < nlev)%nat -> plev b < plev a) ->
  (k < kmax)%nat -> plev_to_height H (plev 0%nat) <= uniform_height dz k ->
  exists lo, (S lo < nlev)%nat /\
    plev_to_height H (plev lo) <= uniform_height dz k <= plev_to_height H (plev (S lo)) /\
    Rmin (y lo) (y (S lo)) <= interp1d nlev (fun l => plev_to_height H (plev l)) y (uniform_height dz k) <= Rmax (y lo) (y (S lo)).
Proof.
  intros C HH Hdz Pos Desc Hk Hlow. pose proof (accepted_plev _ _ _ _ _ k C Hdz Hk) as Top.
  assert (2 <= nlev)%nat by (unfold check_valid_plev in C; destruct (Nat.ltb_spec nlev 2); [discriminate|assumption]).
  apply (interp1d_between nlev (fun l => plev_to_height H (plev l)) y); [assumption|apply height_ascending; assumption|].
  split; assumption.
Qed.

(** ** vertical average *)
Lemma prefactor_R kmax dz H : prefactor kmax dz H = dz * Sum 1 (kmax - 1) (fun k => exp (- (INR k * dz) / H)).
Proof.
  unfold prefactor. toR. rewrite Sum_rsum. rewrite <- rsum_scal. apply rsum_ext. intros k Hk.
  rewrite nofnat_INR. replace (1 + k)%nat with (k + 1)%nat by lia. rewrite Rmult_comm. f_equal. f_equal. unfold Rdiv. ring.
Qed.
Lemma average_R kmax dz H P low v : vertical_average kmax (uniform_height dz) dz H P low v =
  Sum low kmax (fun k => v k * exp (- (INR k * dz) / H)) * (dz / P).
Proof.
  unfold vertical_average. toR. rewrite Sum_rsum, <- rsum_scal_r. apply rsum_ext. intros k Hk.
  rewrite uniform_height_R. reflexivity.
Qed.
Lemma weights_pos kmax dz H : (3 <= kmax)%nat -> 0 < Sum 1 (kmax - 1) (fun k => exp (- (INR k * dz) / H)).
Proof.
  intros Hk. rewrite Sum_S_l by lia. pose proof (exp_pos (- (INR 1 * dz) / H)).
  assert (0 <= Sum 2 (kmax - 1) (fun k => exp (- (INR k * dz) / H))) by (apply Sum_nonneg; intros; left; apply exp_pos). lra.
Qed.
Lemma average_const kmax dz H c : (3 <= kmax)%nat -> dz <> 0 ->
  vertical_average kmax (uniform_height dz) dz H (prefactor kmax dz H) 1 (fun _ => c) =
  c * (1 + exp (- (INR (kmax - 1) * dz) / H) / Sum 1 (kmax - 1) (fun k => exp (- (INR k * dz) / H))).
Proof.
  intros Hk Hd. rewrite average_R, prefactor_R. pose proof (weights_pos kmax dz H Hk) as P.
  rewrite (Sum_scal 1 kmax c (fun k => exp (- (INR k * dz) / H))). rewrite (Sum_split 1 (kmax - 1) kmax) by lia.
  rewrite (Sum_S_l (kmax - 1) kmax) by lia. rewrite (Sum_empty (S (kmax - 1)) kmax) by lia.
  field. split; [lra|assumption].
Qed.
Lemma average_const_wrong kmax dz H c : (3 <= kmax)%nat -> dz <> 0 -> c <> 0 ->
  vertical_average kmax (uniform_height dz) dz H (prefactor kmax dz H) 1 (fun _ => c) <> c.
Proof.
  intros Hk Hd Hc E. rewrite average_const in E by assumption. pose proof (weights_pos kmax dz H Hk) as P.
  pose proof (exp_pos (- (INR (kmax - 1) * dz) / H)) as P2. set (S := Sum _ _ _) in *. set (x := exp _) in *.
  assert (0 < x / S) by (apply Rmult_lt_0_compat; [assumption|apply Rinv_0_lt_compat; assumption]).
  assert (c * (x / S) = 0) by lra. apply Rmult_integral in H1. lra.
Qed.
Lemma average_linear kmax dz H P low a b v w :
  vertical_average kmax (uniform_height dz) dz H P low (fun k => a * v k + b * w k) =
  a * vertical_average kmax (uniform_height dz) dz H P low v + b * vertical_average kmax (uniform_height dz) dz H P low w.
Proof.
  rewrite !average_R. rewrite <- !Rmult_assoc, <- !Sum_scal, <- Rmult_plus_distr_r, <- Sum_plus. f_equal.
  apply Sum_ext. intros; ring.
Qed.
Lemma average_bounds kmax dz H v m M : (3 <= kmax)%nat -> dz <> 0 -> v (kmax - 1)%nat = 0 ->
  (forall k, (1 <= k < kmax - 1)%nat -> m <= v k <= M) ->
  m <= vertical_average kmax (uniform_height dz) dz H (prefactor kmax dz H) 1 v <= M.
Proof.
  intros Hk Hd Hv B. rewrite average_R, prefactor_R. pose proof (weights_pos kmax dz H Hk) as P.
  rewrite (Sum_split 1 (kmax - 1) kmax) by lia. rewrite (Sum_S_l (kmax - 1) kmax) by lia. rewrite (Sum_empty (S (kmax - 1)) kmax) by lia.
  rewrite Hv. rewrite Rmult_0_l, !Rplus_0_r. set (W := Sum 1 (kmax - 1) (fun k => exp (- (INR k * dz) / H))) in *.
  set (N := Sum 1 (kmax - 1) (fun k => v k * exp (- (INR k * dz) / H))).
  assert (m * W <= N) by (unfold W, N; rewrite <- Sum_scal; apply Sum_le; intros k Hk'; pose proof (B k Hk'); pose proof (exp_pos (- (INR k * dz) / H)); nra).
  assert (N <= M * W) by (unfold W, N; rewrite <- Sum_scal; apply Sum_le; intros k Hk'; pose proof (B k Hk'); pose proof (exp_pos (- (INR k * dz) / H)); nra).
  replace (N * (dz / (dz * W))) with (N / W) by (field; split; [lra|assumption]).
  split; apply (Rmult_le_reg_r W); try assumption; unfold Rdiv; rewrite Rmult_assoc, Rinv_l by lra; lra.
Qed.

(** ** constructor *)
Lemma list_eqb_eq a b : list_eqb a b = true <-> a = b.
Proof.
  revert b; induction a as [|x a IH]; intros [|y b]; cbn; split; intros H; try discriminate; try reflexivity.
  - apply andb_prop in H. destruct H as [H1 H2]. apply Nat.eqb_eq in H1. apply IH in H2. congruence.
  - injection H as -> ->. rewrite Nat.eqb_refl. apply IH; reflexivity.
Qed.
Lemma init_shapes nlon nlat ylat nlev plev us vs ts kmax dz np H nh ev g :
  qg_init nlon nlat ylat nlev plev us vs ts kmax dz np H nh ev = Done g ->
  us = [nlev; nlat; nlon] /\ vs = [nlev; nlat; nlon] /\ broadcast_shapes ts [nlev; 1; 1]%nat = Some [nlev; nlat; nlon] /\
  check_and_flip_ylat nlat ylat = Done (g_lat g) /\ g_nlat g = nlat /\ g_nlon g = nlon /\
  g_dphi g = 180 / INR (lg_n (g_lat g) - 1) * (PI / 180) /\ g_dlambda g = 360 / INR nlon * (PI / 180) /\
  g_jd g = (lg_n (g_lat g) / 2 + lg_n (g_lat g) mod 2)%nat.
Proof.
  unfold qg_init. destruct (if ev then _ else _) as [[[k' h] d]|]; [|discriminate].
  destruct (broadcast_shapes ts [nlev; 1; 1]%nat) as [th|]; [|discriminate].
  destruct (check_and_flip_ylat nlat ylat) as [lat|]; [|discriminate].
  destruct (list_eqb us _) eqn:E1; [|discriminate]. destruct (list_eqb vs _) eqn:E2; [|discriminate].
  destruct (list_eqb th _) eqn:E3; [|discriminate]. cbn [negb]. intros Q; injection Q as <-. cbn [g_lat g_nlat g_nlon g_dphi g_dlambda g_jd].
  apply list_eqb_eq in E1, E2, E3. subst. repeat split.
Qed.
Lemma init_t_shape nlon nlat ylat nlev plev us vs ts kmax dz np H nh ev :
  broadcast_shapes ts [nlev; 1; 1]%nat = Some [nlev; nlat; nlon] ->
  qg_init nlon nlat ylat nlev plev us vs ts kmax dz np H nh ev =
  qg_init nlon nlat ylat nlev plev us vs [nlev; nlat; nlon] kmax dz np H nh ev.
Proof.
  intros B. unfold qg_init. rewrite B.
  assert (E : broadcast_shapes [nlev; nlat; nlon] [nlev; 1; 1]%nat = Some [nlev; nlat; nlon]).
  { unfold broadcast_shapes. cbn. rewrite Nat.eqb_refl. destruct (Nat.eqb_spec nlat 1) as [->|], (Nat.eqb_spec nlon 1) as [->|]; reflexivity. }
  rewrite E. reflexivity.
Qed.
Lemma t_shapes_accepted nlev nlat nlon :
  broadcast_shapes [nlat; nlon] [nlev; 1; 1]%nat = Some [nlev; nlat; nlon] /\
  broadcast_shapes [1%nat; nlat; nlon] [nlev; 1; 1]%nat = Some [nlev; nlat; nlon].
Proof.
  unfold broadcast_shapes. cbn [rev app bcast].
  destruct (Nat.eqb_spec nlat 1) as [->|], (Nat.eqb_spec nlon 1) as [->|], (Nat.eqb_spec 1 nlev) as [<-|]; cbn; split; reflexivity.
Qed.

(** ** results back on the user's grid *)
Lemma return_needs_even nlat (ylat : nat -> R) g : check_and_flip_ylat nlat ylat = Done g -> lg_need g = true ->
  Nat.Even nlat /\ (2 <= nlat)%nat /\ lg_n g = (nlat + 1)%nat /\ lg_ylat g = linspace_lat nlat /\ lg_eq g = (nlat / 2 + 1)%nat.
Proof.
  intros E Hn. pose proof (accepted_grid _ _ _ E) as [R Z]. unfold check_and_flip_ylat in E.
  destruct (Nat.ltb_spec nlat 2); [discriminate|]. destruct nltb; [discriminate|].
  destruct (Nat.even nlat && Nat.eqb (count_zero nlat ylat) 0) eqn:B.
  - destruct first_zero as [i|]; [|discriminate]. injection E as <-. cbn [lg_n lg_eq lg_ylat lg_need] in *.
    apply andb_prop in B. destruct B as [Ev _]. apply Nat.even_spec in Ev. repeat split; try assumption.
    destruct Ev as [m Em]. pose proof (proj1 (Z m ltac:(lia)) (proj2 (linspace_zero nlat m ltac:(lia) ltac:(lia)) ltac:(lia))). lia.
  - destruct (Nat.eqb (count_zero nlat ylat) 1); [|discriminate]. destruct first_zero; [|discriminate]. injection E as <-. discriminate.
Qed.
Lemma return_full_rejected nlat (ylat : nat -> R) g var : check_and_flip_ylat nlat ylat = Done g -> lg_need g = true ->
  return_interp true nlat ylat g (lg_n g) var = Raise ValueError.
Proof.
  intros E Hn. destruct (return_needs_even _ _ _ E Hn) as (Ev & H2 & Ln & _ & _). unfold return_interp. rewrite Hn. unfold interp1d_checked.
  destruct (Nat.eqb_spec (lg_n g / 2 + 1) (lg_n g)); [|reflexivity]. lia.
Qed.
Lemma linspace_ascending n : (0 < n)%nat -> ascending (n + 1) (@linspace_lat R RNum n).
Proof.
  intros Hn a b H. rewrite !linspace_R by lia. assert (P : 0 < INR n) by (apply lt_0_INR; lia).
  assert (INR a < INR b) by (apply lt_INR; lia). assert (0 < 180 / INR n) by (apply Rmult_lt_0_compat; [lra|apply Rinv_0_lt_compat; assumption]). nra.
Qed.
Lemma return_range (nh : bool) nlat (ylat : nat -> R) g var m M :
  check_and_flip_ylat nlat ylat = Done g ->
  (forall k, (k < nlat)%nat -> -90 <= ylat k <= 90) -> (forall k, (nlat / 2 <= k < nlat)%nat -> 0 <= ylat k) ->
  let rows := if nh then lg_eq g else lg_n g in
  let out := if nh then if lg_need g then (nlat / 2)%nat else lg_eq g else nlat in
  (forall k, (k < rows)%nat -> m <= var k <= M) ->
  exists r, return_interp nh nlat ylat g rows var = Done r /\ forall k, (k < out)%nat -> m <= r k <= M.
Proof.
  intros E Hy Hpos rows out B. unfold return_interp. destruct (lg_need g) eqn:Hn.
  - destruct (return_needs_even _ _ _ E Hn) as (Ev & H2 & Ln & Ly & Le). destruct nh; unfold interp1d_checked.
    + destruct (Nat.eqb_spec (lg_n g / 2 + 1) rows) as [_|Ne]; [|unfold rows in Ne; cbv iota in Ne; rewrite Ln, Le in Ne; destruct Ev; lia]. eexists. split; [reflexivity|].
      intros k Hk. unfold out in Hk. cbv iota in Hk. apply interp1d_range; [lia| | |].
      * intros a b Hab. rewrite Ly. apply (linspace_ascending nlat ltac:(lia)). lia.
      * rewrite Ly, Ln. rewrite !linspace_R by lia.
        assert (INR nlat <> 0) by (apply not_0_INR; lia).
        replace (nlat + 1 - ((nlat + 1) / 2 + 1) + 0)%nat with (nlat / 2)%nat by (destruct Ev; lia).
        replace (nlat + 1 - ((nlat + 1) / 2 + 1) + ((nlat + 1) / 2 + 1 - 1))%nat with nlat by (destruct Ev; lia).
        replace (-90 + INR nlat * (180 / INR nlat)) with 90 by (field; assumption).
        replace (-90 + INR (nlat / 2) * (180 / INR nlat)) with 0.
        2:{ destruct Ev as [q Eq]. replace (nlat / 2)%nat with q by lia. rewrite Eq, mult_INR in *. cbn [INR] in *. field. intros Q; apply H; rewrite Q; ring. }
        split; [apply Hpos; destruct Ev; lia|apply Hy; destruct Ev; lia].
      * intros q Hq. apply B. unfold rows. cbv iota. rewrite Ln in Hq. rewrite Le. destruct Ev; lia.
    + rewrite Nat.eqb_refl. eexists. split; [reflexivity|]. intros k Hk. unfold out in Hk. cbv iota in Hk. apply interp1d_range; [lia| | |exact B].
      * rewrite Ln, Ly. apply linspace_ascending; lia.
      * rewrite Ly, Ln. rewrite !linspace_R by lia. replace (nlat + 1 - 1)%nat with nlat by lia.
        assert (INR nlat <> 0) by (apply not_0_INR; lia). replace (-90 + INR nlat * (180 / INR nlat)) with 90 by (field; assumption).
        cbn [INR]. pose proof (Hy k ltac:(lia)). lra.
  - eexists. split; [reflexivity|]. intros k Hk. apply B. unfold rows, out in *. destruct nh; [assumption|].
    assert (lg_n g = nlat); [|lia]. clear - E Hn. unfold check_and_flip_ylat in E. destruct Nat.ltb; [discriminate|].
    destruct nltb; [discriminate|]. destruct (Nat.even nlat && Nat.eqb (count_zero nlat ylat) 0).
    + destruct first_zero; [|discriminate]. injection E as <-. discriminate.
    + destruct (Nat.eqb (count_zero nlat ylat) 1); [|discriminate]. destruct first_zero; [|discriminate]. injection E as <-. reflexivity.
Qed.
