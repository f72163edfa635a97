(** Proofs about the flux and LWA kernels. *)
From Verif Require Import Base BaseFacts Spec SpecFacts Flux FluxSpec.
From Coq Require Import String.
Open Scope R_scope.
Open Scope list_scope.

(** ** memory *)
Section Put.
  Context {A : Type}.
  Lemma put_app (l1 l2 : list (nat * A)) m : put (l1 ++ l2) m = put l2 (put l1 m).
  Proof. unfold put. apply fold_left_app. Qed.
  Lemma put_miss (ws : list (nat * A)) m p : (forall w, In w ws -> fst w <> p) -> put ws m p = m p.
  Proof.
    revert m. induction ws as [|w ws IH]; intros m H; [reflexivity|].
    cbn [put fold_left]. change (put ws (fun q => if Nat.eqb q (fst w) then snd w else m q) p = m p).
    rewrite IH. 2: intros; apply H; right; assumption.
    destruct (Nat.eqb_spec p (fst w)); [|reflexivity]. exfalso. apply (H w). left; reflexivity. congruence.
  Qed.
  Lemma put_hit (ws : list (nat * A)) m p v :
    (exists w, In w ws /\ fst w = p) -> (forall w, In w ws -> fst w = p -> snd w = v) -> put ws m p = v.
  Proof.
    revert m. induction ws as [|w ws IH]; intros m [w0 [Hin Hp]] Hv; [destruct Hin|].
    cbn [put fold_left]. change (put ws (fun q => if Nat.eqb q (fst w) then snd w else m q) p = v).
    assert (D : (exists w1, In w1 ws /\ fst w1 = p) \/ (forall w1, In w1 ws -> fst w1 <> p)).
    { clear. induction ws as [|x ws IH]; [right; intros ? []|].
      destruct IH as [[y [Hy E]]|Hn]; [left; exists y; split; [right|]; assumption|].
      destruct (Nat.eq_dec (fst x) p); [left; exists x; split; [left; reflexivity|assumption]|].
      right. intros w1 [->|Hi]; auto. }
    destruct D as [Hex|Hno].
    - apply IH; [exact Hex|]. intros; apply Hv; [right|]; assumption.
    - rewrite put_miss by exact Hno. destruct Hin as [->|Hin]; [|exfalso; exact (Hno w0 Hin Hp)].
      destruct (Nat.eqb_spec p (fst w0)); [|congruence]. apply Hv; [left; reflexivity|assumption].
  Qed.
End Put.

Lemma in_range x lo hi : In x (range lo hi) <-> (lo <= x <= hi)%nat.
Proof. unfold range. rewrite in_seq. lia. Qed.
Lemma in_do {T} (x : T) lo hi body : In x (do_ lo hi body) <-> exists y, (lo <= y <= hi)%nat /\ In x (body y).
Proof.
  unfold do_. rewrite in_flat_map. split; intros [y [H1 H2]]; exists y; (split; [|exact H2]); apply in_range; exact H1.
Qed.

Lemma rd2_in {A} d1 (x : nat -> nat -> A) j k : (1 <= j <= d1)%nat -> (1 <= k)%nat -> rd2 d1 x j k = x j k.
Proof.
  intros Hj Hk. unfold rd2, addr2. cbv zeta.
  replace ((k - 1) * d1 + j - 1)%nat with (j - 1 + (k - 1) * d1)%nat
    by (generalize ((k - 1) * d1)%nat; intros; lia).
  rewrite Nat.mod_add, Nat.div_add by lia. rewrite Nat.mod_small, Nat.div_small by lia. f_equal; lia.
Qed.
(** index 0 is the last element of the previous column *)
Lemma rd2_zero {A} d1 (x : nat -> nat -> A) k : (1 <= d1)%nat -> (2 <= k)%nat -> rd2 d1 x 0 k = x d1 (k - 1)%nat.
Proof.
  intros Hd Hk. unfold rd2, addr2. cbv zeta.
  replace ((k - 1) * d1 + 0 - 1)%nat with (d1 - 1 + (k - 2) * d1)%nat
    by (replace (k - 1)%nat with (S (k - 2)) by lia; cbn [Nat.mul]; generalize ((k - 2) * d1)%nat; intros; lia).
  rewrite Nat.mod_add, Nat.div_add by lia. rewrite Nat.mod_small, Nat.div_small by lia. f_equal; lia.
Qed.

Lemma addr3_in d1 d2 i j k : (1 <= i)%nat -> (1 <= j)%nat ->
  addr3 d1 d2 i j k = (((k - 1) * d2 + (j - 1)) * d1 + (i - 1))%nat.
Proof. intros. unfold addr3. nia. Qed.
Lemma addr3_zero d1 d2 i k : (1 <= d2)%nat -> (1 <= i)%nat -> (2 <= k)%nat -> addr3 d1 d2 i 0 k = addr3 d1 d2 i d2 (k - 1).
Proof. intros. unfold addr3. replace (k - 1 - 1)%nat with (k - 2)%nat by lia. replace (k - 1)%nat with (S (k - 2)) by lia. nia. Qed.
Lemma addr3_inj d1 d2 i j k i' j' k' : (1 <= i <= d1)%nat -> (1 <= j <= d2)%nat -> (1 <= k)%nat ->
  (1 <= i' <= d1)%nat -> (1 <= j' <= d2)%nat -> (1 <= k')%nat ->
  addr3 d1 d2 i j k = addr3 d1 d2 i' j' k' -> i = i' /\ j = j' /\ k = k'.
Proof.
  intros Hi Hj Hk Hi' Hj' Hk' E. rewrite !addr3_in in E by lia.
  assert (E1 : ((k - 1) * d2 + (j - 1) = (k' - 1) * d2 + (j' - 1) /\ i - 1 = i' - 1)%nat).
  { apply (Nat.div_mod_unique d1); try lia. }
  destruct E1 as [E1 Ei].
  assert (E2 : (k - 1 = k' - 1 /\ j - 1 = j' - 1)%nat) by (apply (Nat.div_mod_unique d2); lia).
  lia.
Qed.

(** ** loops over the reals *)
Lemma loop_sum n pass f : (forall jj s, (1 <= jj <= n)%nat -> pass jj s = s + f jj) ->
  @loop R RNum n pass = Sum 1 (n + 1) f.
Proof.
  intros H. assert (G : forall m, (m <= n)%nat -> @loop R RNum m pass = Sum 1 (m + 1) f).
  { induction m as [|m IH]; intros Hm.
    - rewrite Sum_empty by lia. reflexivity.
    - cbn [loop]. rewrite H by lia. rewrite IH by lia. replace (S m + 1)%nat with (S (m + 1)) by lia.
      rewrite Sum_S_r by lia. replace (m + 1)%nat with (S m) by lia. reflexivity. }
  apply G. lia.
Qed.

Lemma nfloat_R j d : @nfloat R RNum j d = INR j - INR d.
Proof. unfold nfloat. cbn [nofZ RNum]. rewrite minus_IZR, <- !INR_IZR_INZ. reflexivity. Qed.
Lemma nhalf_R : @nhalf R RNum = / 2.
Proof. unfold nhalf. cbn. unfold Rdiv. ring. Qed.

Section FluxProofs.
  Variable D : fluxdims R.

  Lemma dp_R : @dp R RNum D = row_spacing D.
  Proof. unfold dp, row_spacing. rewrite nofnat_INR. reflexivity. Qed.
  Lemma lat_of_R j d : @lat_of R RNum D j d = latitude D (j + 1) - INR d * row_spacing D.
  Proof.
    unfold lat_of, latitude. rewrite dp_R, nfloat_R, nhalf_R, plus_INR. cbn [nmul nsub npi RNum INR].
    destruct (is_nhem D); lra.
  Qed.
  Lemma lat_of_1 j : @lat_of R RNum D j 1 = latitude D j.
  Proof. rewrite lat_of_R. unfold latitude. rewrite plus_INR. cbn [INR]. destruct (is_nhem D); lra. Qed.
  Lemma aa_R jj : @aa R RNum D jj = element D jj.
  Proof. unfold aa, element. rewrite lat_of_1, dp_R. reflexivity. Qed.

  Lemma analysed_true j k : analysed D j k = true <-> analysed_row D j /\ interior_level D k.
  Proof.
    unfold analysed, analysed_row, interior_level, jstart, jend.
    rewrite !Bool.andb_true_iff, !Nat.leb_le. destruct (is_nhem D); lia.
  Qed.
  Lemma analysed_false j k : analysed D j k = false <-> ~ (analysed_row D j /\ interior_level D k).
  Proof. rewrite <- analysed_true. destruct (analysed D j k); split; congruence || (intros H; exfalso; apply H; reflexivity) || auto. Qed.

  Lemma fill_in f i j k : analysed_row D j -> interior_level D k -> @fill R RNum D f i j k = f i j k.
  Proof. intros. unfold fill. rewrite (proj2 (analysed_true j k)) by auto. reflexivity. Qed.
  Lemma fill_out f i j k : ~ (analysed_row D j /\ interior_level D k) -> @fill R RNum D f i j k = 0.
  Proof. intros. unfold fill. rewrite (proj2 (analysed_false j k)) by auto. reflexivity. Qed.

  Lemma analysed_row_nd j : analysed_row D j -> (1 <= j <= nd D)%nat.
  Proof. unfold analysed_row. destruct (is_nhem D); lia. Qed.

  Variables (pv : arr3 R) (qref : arr2 R).

  Lemma qe_R i j k jj : @qe R RNum D pv qref i j k jj = pv i (field_row D jj) k - qref j k.
  Proof. reflexivity. Qed.
  Lemma below_R i j k jj : @below R RNum D pv qref i j k jj = true <-> pv i (field_row D jj) k <= qref j k /\ (j <= jj)%nat.
  Proof.
    unfold below. rewrite Bool.andb_true_iff, Nat.leb_le. rewrite qe_R. cbn [nleb nzero RNum]. rewrite Rleb_true. intuition lra.
  Qed.
  Lemma above_R i j k jj : @above R RNum D pv qref i j k jj = true <-> qref j k < pv i (field_row D jj) k /\ (jj < j)%nat.
  Proof.
    unfold above. rewrite Bool.andb_true_iff, Nat.ltb_lt. rewrite qe_R. cbn [nltb nzero RNum]. rewrite Rltb_true. intuition lra.
  Qed.

  Lemma sum_below_R i j k : (1 <= j <= nd D)%nat -> @sum_below R RNum D pv qref i j k = low_pv_north D pv qref i j k.
  Proof.
    intros Hj. unfold sum_below.
    rewrite (loop_sum _ _ (fun r => if Nat.leb j r then ppart (qref j k - pv i (field_row D r) k) * element D r else 0)).
    - rewrite (Sum_split 1 j) by lia. rewrite Sum_zero.
      + unfold low_pv_north. rewrite Rplus_0_l. apply Sum_ext. intros r Hr.
        destruct (Nat.leb_spec j r); [reflexivity|lia].
      + intros r Hr. destruct (Nat.leb_spec j r); [lia|reflexivity].
    - intros jj s Hjj. destruct (below D pv qref i j k jj) eqn:E.
      + apply below_R in E. destruct E as [E1 E2]. destruct (Nat.leb_spec j jj); [|lia].
        rewrite qe_R, aa_R. cbn [nsub nmul RNum]. rewrite ppart_id by lra. ring.
      + destruct (Nat.leb_spec j jj); [|cbn; lra].
        assert (~ pv i (field_row D jj) k <= qref j k).
        { intros C. assert (below D pv qref i j k jj = true) by (apply below_R; auto). congruence. }
        rewrite ppart_0 by lra. lra.
  Qed.
  Lemma sum_above_R i j k : (1 <= j <= nd D)%nat -> @sum_above R RNum D pv qref i j k = high_pv_south D pv qref i j k.
  Proof.
    intros Hj. unfold sum_above.
    rewrite (loop_sum _ _ (fun r => if Nat.ltb r j then ppart (pv i (field_row D r) k - qref j k) * element D r else 0)).
    - rewrite (Sum_split 1 j) by lia. rewrite (Sum_zero j).
      + unfold high_pv_south. rewrite Rplus_0_r. apply Sum_ext. intros r Hr.
        destruct (Nat.ltb_spec r j); [reflexivity|lia].
      + intros r Hr. destruct (Nat.ltb_spec r j); [lia|reflexivity].
    - intros jj s Hjj. destruct (above D pv qref i j k jj) eqn:E.
      + apply above_R in E. destruct E as [E1 E2]. destruct (Nat.ltb_spec jj j); [|lia].
        rewrite qe_R, aa_R. cbn [nsub nadd nmul RNum]. rewrite ppart_id by lra. ring.
      + destruct (Nat.ltb_spec jj j); [|cbn; lra].
        assert (~ qref j k < pv i (field_row D jj) k).
        { intros C. assert (above D pv qref i j k jj = true) by (apply above_R; auto). congruence. }
        rewrite ppart_0 by lra. lra.
  Qed.

  (** the pattern shared by the forcing and the F2 accumulators *)
  Lemma displaced_loop i j k g pass : (1 <= j <= nd D)%nat ->
    (forall jj s, pass jj s =
       let s := if below D pv qref i j k jj then s - g jj else s in
       if above D pv qref i j k jj then s + g jj else s) ->
    @loop R RNum (nd D) pass = displaced D pv qref i j k g.
  Proof.
    intros Hj Hpass.
    rewrite (loop_sum _ _ (fun r => if Nat.ltb r j then (if Rlt_dec (qref j k) (pv i (field_row D r) k) then g r else 0)
                                    else - (if Rle_dec (pv i (field_row D r) k) (qref j k) then g r else 0))).
    - rewrite (Sum_split 1 j) by lia. unfold displaced, Rminus.
      assert (Eopp : forall lo hi f, - Sum lo hi f = Sum lo hi (fun r => - f r)).
      { intros. replace (- Sum lo hi f) with ((-1) * Sum lo hi f) by ring. rewrite <- Sum_scal. apply Sum_ext. intros; ring. }
      rewrite Eopp. f_equal; apply Sum_ext; intros r Hr; destruct (Nat.ltb_spec r j); try lia; reflexivity.
    - intros jj s Hjj. rewrite Hpass. cbv zeta.
      destruct (below D pv qref i j k jj) eqn:E1; destruct (above D pv qref i j k jj) eqn:E2.
      + apply below_R in E1. apply above_R in E2. lia.
      + apply below_R in E1. destruct (Nat.ltb_spec jj j); [lia|]. destruct (Rle_dec _ _); [lra|tauto].
      + apply above_R in E2. destruct (Nat.ltb_spec jj j); [|lia]. destruct (Rlt_dec _ _); [lra|tauto].
      + destruct (Nat.ltb_spec jj j).
        * destruct (Rlt_dec _ _) as [C|C]; [|lra].
          assert (above D pv qref i j k jj = true) by (apply above_R; auto). congruence.
        * destruct (Rle_dec _ _) as [C|C]; [|lra].
          assert (below D pv qref i j k jj = true) by (apply below_R; auto). congruence.
  Qed.

  Lemma sum_ncforce_R ncforce i j k : (1 <= j <= nd D)%nat ->
    @sum_ncforce R RNum D pv ncforce qref i j k = displaced D pv qref i j k (fun r => ncforce i (field_row D r) k * element D r).
  Proof. intros Hj. apply displaced_loop; [exact Hj|]. intros. rewrite aa_R. reflexivity. Qed.

  Lemma cos_lat_nonneg r : jmax D = (2 * nd D - 1)%nat -> (2 <= nd D)%nat -> (1 <= r <= nd D)%nat -> 0 <= cos (latitude D r).
  Proof.
    intros Hm Hn Hr. assert (P := PI_RGT_0).
    assert (H1 : INR (jmax D - 1) = 2 * INR (nd D - 1)).
    { rewrite Hm. replace (2 * nd D - 1 - 1)%nat with (2 * (nd D - 1))%nat by lia. rewrite mult_INR. reflexivity. }
    assert (H2 : 0 < INR (nd D - 1)) by (apply lt_0_INR; lia).
    assert (H3 : row_spacing D * INR (nd D - 1) = PI / 2).
    { unfold row_spacing. rewrite H1. field. lra. }
    assert (H4 : 0 < row_spacing D).
    { unfold row_spacing. rewrite H1. apply Rdiv_lt_0_compat; lra. }
    assert (H5 : 0 <= (INR r - 1) * row_spacing D <= PI / 2).
    { assert (INR r - 1 = INR (r - 1)) by (rewrite minus_INR by lia; reflexivity).
      rewrite H. split.
      - apply Rmult_le_pos; [apply pos_INR|lra].
      - rewrite <- H3, Rmult_comm. apply Rmult_le_compat_l; [lra|]. apply le_INR. lia. }
    unfold latitude. destruct (is_nhem D); apply cos_ge_0; lra.
  Qed.
  Lemma element_nonneg r : jmax D = (2 * nd D - 1)%nat -> (2 <= nd D)%nat -> 0 <= f_a D -> (1 <= r <= nd D)%nat -> 0 <= element D r.
  Proof.
    intros. unfold element. apply Rmult_le_pos; [|apply cos_lat_nonneg; assumption].
    apply Rmult_le_pos; [assumption|]. unfold row_spacing. apply Rmult_le_pos; [left; apply PI_RGT_0|].
    apply Rlt_le, Rinv_0_lt_compat, lt_0_INR. lia.
  Qed.

  Lemma low_pv_north_nonneg i j k : jmax D = (2 * nd D - 1)%nat -> (2 <= nd D)%nat -> 0 <= f_a D -> (1 <= j)%nat ->
    0 <= low_pv_north D pv qref i j k.
  Proof.
    intros. apply Sum_nonneg. intros r Hr. apply Rmult_le_pos; [apply ppart_nonneg|apply element_nonneg; auto; lia].
  Qed.
  Lemma high_pv_south_nonneg i j k : jmax D = (2 * nd D - 1)%nat -> (2 <= nd D)%nat -> 0 <= f_a D -> (j <= nd D)%nat ->
    0 <= high_pv_south D pv qref i j k.
  Proof.
    intros. apply Sum_nonneg. intros r Hr. apply Rmult_le_pos; [apply ppart_nonneg|apply element_nonneg; auto; lia].
  Qed.

  Lemma astar_in i j k : analysed_row D j -> interior_level D k ->
    @astar1 R RNum D pv qref i j k = (if is_nhem D then high_pv_south D pv qref i j k else low_pv_north D pv qref i j k) /\
    @astar2 R RNum D pv qref i j k = (if is_nhem D then low_pv_north D pv qref i j k else high_pv_south D pv qref i j k).
  Proof.
    intros Hj Hk. assert (Hn := analysed_row_nd j Hj). unfold astar1, astar2. rewrite !fill_in by assumption.
    destruct (is_nhem D); rewrite sum_below_R, sum_above_R by lia; split; reflexivity.
  Qed.
  Lemma astar_out i j k : ~ (analysed_row D j /\ interior_level D k) ->
    @astar1 R RNum D pv qref i j k = 0 /\ @astar2 R RNum D pv qref i j k = 0.
  Proof. intros H. unfold astar1, astar2. rewrite !fill_out by assumption. auto. Qed.
End FluxProofs.

(** ** the two kernels *)
Lemma loop_ext {A} {N : Num A} n p q : (forall jj s, p jj s = q jj s) -> loop n p = loop n q.
Proof. intros H. induction n as [|n IH]; [reflexivity|]. cbn [loop]. rewrite IH, H. reflexivity. Qed.

Lemma lo_astar1_eq {A} {N : Num A} (D : fluxdims A) pv qref i j k : lo_astar1 D pv qref i j k = astar1 D pv qref i j k.
Proof.
  unfold lo_astar1, astar1, fill. destruct (analysed D j k); [|reflexivity].
  destruct (is_nhem D) eqn:E.
  - unfold sum_above. apply loop_ext. intros jj s. reflexivity.
  - unfold sum_below. apply loop_ext. intros jj s. reflexivity.
Qed.
Lemma lo_astar2_eq {A} {N : Num A} (D : fluxdims A) pv qref i j k : lo_astar2 D pv qref i j k = astar2 D pv qref i j k.
Proof.
  unfold lo_astar2, astar2, fill. destruct (analysed D j k); [|reflexivity].
  destruct (is_nhem D) eqn:E.
  - unfold sum_below. apply loop_ext. intros jj s. reflexivity.
  - unfold sum_above. apply loop_ext. intros jj s. reflexivity.
Qed.

(** ** vertical averages *)
Section Averages.
  Variable D : fluxdims R.
  Lemma column_average_Sum height x i j :
    @column_average R RNum D height x i j =
    Sum 2 (kmax D + 1) (fun k => x i j k * exp (- height (k - 1)%nat / f_h D) * (f_dz D / f_prefac D)).
  Proof.
    unfold column_average, vertical_average. rewrite Sum_rsum.
    replace (kmax D + 1 - 2)%nat with (kmax D - 1)%nat by lia.
    apply rsum_ext. intros k Hk. cbn [nmul ndiv nopp nexp RNum].
    replace (1 + k + 1)%nat with (2 + k)%nat by lia. replace (2 + k - 1)%nat with (1 + k)%nat by lia. reflexivity.
  Qed.
  Lemma lo_loop f : @loop R RNum (kmax D - 2) (fun p s => s + f (p + 1)%nat) = Sum 2 (kmax D) f.
  Proof.
    rewrite (loop_sum _ _ (fun p => f (p + 1)%nat)) by reflexivity.
    rewrite <- Sum_shift. destruct (Nat.le_gt_cases 2 (kmax D)).
    - replace (kmax D - 2 + 1 + 1)%nat with (kmax D) by lia. reflexivity.
    - rewrite !Sum_empty by lia. reflexivity.
  Qed.
  Lemma lo_weight_R k : (1 <= k)%nat -> @lo_weight R RNum D k = exp (- @uniform_height R RNum (f_dz D) (k - 1) / f_h D).
  Proof.
    intros Hk. unfold lo_weight, uniform_height. rewrite nfloat_R, nofnat_INR, minus_INR by lia. cbn [nmul nopp ndiv nexp RNum INR].
    rewrite (Rmult_comm (f_dz D)). reflexivity.
  Qed.
  Lemma lo_astarbaro_Sum pv qref i j :
    @lo_astarbaro R RNum D pv qref i j =
    Sum 2 (kmax D) (fun k => (@astar1 R RNum D pv qref i j k + @astar2 R RNum D pv qref i j k)
      * exp (- (INR k - 1) * f_dz D / f_h D) * (f_dz D / f_prefac D)).
  Proof.
    unfold lo_astarbaro.
    transitivity (Sum 2 (kmax D) (fun k => (@lo_astar1 R RNum D pv qref i j k + @lo_astar2 R RNum D pv qref i j k) * lo_weight D k * lo_dc D)).
    - rewrite <- lo_loop. apply loop_ext. intros; reflexivity.
    - apply Sum_ext. intros k Hk. cbv beta. rewrite lo_astar1_eq, lo_astar2_eq, lo_weight_R by lia.
      unfold uniform_height. rewrite nofnat_INR, minus_INR by lia. cbn [nmul RNum INR].
      replace (- ((INR k - 1) * f_dz D) / f_h D) with (- (INR k - 1) * f_dz D / f_h D) by (unfold Rdiv; ring). reflexivity.
  Qed.
  Lemma py_astar_baro_Sum h0 pv qref i j :
    @py_astar_baro R RNum D (fun k => h0 + INR k * f_dz D) pv qref i j =
    exp (- h0 / f_h D) * @lo_astarbaro R RNum D pv qref i j.
  Proof.
    unfold py_astar_baro. rewrite !column_average_Sum. cbn [nadd RNum]. rewrite <- Sum_plus, lo_astarbaro_Sum, <- Sum_scal.
    destruct (Nat.le_gt_cases 2 (kmax D)) as [Hk|Hk].
    2: { rewrite !Sum_empty by lia. reflexivity. }
    replace (kmax D + 1)%nat with (S (kmax D)) by lia. rewrite Sum_S_r by lia.
    destruct (astar_out D pv qref i j (kmax D)) as [-> ->]. { intros [_ H]. unfold interior_level in H. lia. }
    rewrite !Rmult_0_l, !Rplus_0_r. apply Sum_ext. intros k Hk'. rewrite minus_INR by lia. cbn [INR].
    replace (- (h0 + (INR k - 1) * f_dz D) / f_h D) with (- h0 / f_h D + - (INR k - 1) * f_dz D / f_h D) by (unfold Rdiv; ring).
    rewrite exp_plus. ring.
  Qed.
  Lemma lo_ubaro_Sum uu i j : analysed_row D j ->
    @lo_ubaro R RNum D uu i j =
    Sum 2 (kmax D) (fun k => uu i (field_row D j) k * exp (- (INR k - 1) * f_dz D / f_h D) * (f_dz D / f_prefac D)).
  Proof.
    intros Hj. unfold lo_ubaro.
    assert (E : Nat.leb (jstart D) j && Nat.leb j (jend D) = true).
    { rewrite Bool.andb_true_iff, !Nat.leb_le. unfold analysed_row, jstart, jend in *. destruct (is_nhem D); lia. }
    rewrite E. transitivity (Sum 2 (kmax D) (fun k => uu i (grow D j) k * @lo_weight R RNum D k * lo_dc D)).
    - rewrite <- lo_loop. apply loop_ext. intros; reflexivity.
    - apply Sum_ext. intros k Hk. cbv beta. rewrite lo_weight_R by lia.
      unfold uniform_height. rewrite nofnat_INR, minus_INR by lia. cbn [nmul RNum INR].
      replace (- ((INR k - 1) * f_dz D) / f_h D) with (- (INR k - 1) * f_dz D / f_h D) by (unfold Rdiv; ring). reflexivity.
  Qed.
  Lemma lo_ubaro_out uu i j : ~ analysed_row D j -> @lo_ubaro R RNum D uu i j = 0.
  Proof.
    intros Hj. unfold lo_ubaro. destruct (Nat.leb (jstart D) j && Nat.leb j (jend D)) eqn:E; [|reflexivity].
    exfalso. apply Hj. rewrite Bool.andb_true_iff, !Nat.leb_le in E. unfold analysed_row, jstart, jend in *. destruct (is_nhem D); lia.
  Qed.
  Lemma py_u_baro_Sum uu i j :
    @py_u_baro R RNum D (uniform_height (f_dz D)) uu i j =
    Sum 2 (kmax D + 1) (fun k => uu i (j + (jmax D - nd D))%nat k * exp (- (INR k - 1) * f_dz D / f_h D) * (f_dz D / f_prefac D)).
  Proof.
    unfold py_u_baro. rewrite column_average_Sum. apply Sum_ext. intros k Hk. unfold uniform_height.
    rewrite nofnat_INR, minus_INR by lia. cbn [nmul RNum INR].
    replace (- ((INR k - 1) * f_dz D) / f_h D) with (- (INR k - 1) * f_dz D / f_h D) by (unfold Rdiv; ring). reflexivity.
  Qed.
End Averages.

(** ** momentum flux arrays *)
Section Momentum.
  Variable D : fluxdims R.
  Hypothesis North : is_nhem D = true.
  Hypothesis Sizes : hemisphere_sizes D.
  Variables (uu vv : arr3 R) (uref : arr2 R).

  Definition main2 (i j k : nat) : R :=
    @mflux R RNum uu vv i (grow D j + 1) k (rd2 (jd D) uref (uref_row D j + 1) k) (cos (@lat_of R RNum D j 0)).
  Definition edge2 (i k : nat) : R :=
    @mflux R RNum uu vv i (nd D + jb D + 1) k (rd2 (jd D) uref 2 k) (cos (@dp R RNum D * @nfloat R RNum (jb D) 0)).
  Definition main3 (i j k : nat) : R :=
    @mflux R RNum uu vv i (grow D j - 1) k (rd2 (jd D) uref (uref_row D j - 1) k) (cos (@lat_of R RNum D j 2)).
  Definition edge3 (i k : nat) : R :=
    @mflux R RNum uu vv i (nd D + jb D) k (rd2 (jd D) uref 1 k) (cos (@dp R RNum D * @nfloat R RNum (jb D) 1)).

  Definition writes (main : nat -> nat -> nat -> R) (edge : nat -> nat -> R) : list (nat * R) :=
    do_ 2 (kmax D - 1) (fun k => do_ 1 (imax D) (fun i =>
      do_ (jstart D) (jend D) (fun j => [(addr3 (imax D) (nd D) i j k, main i j k)])
      ++ [(addr3 (imax D) (nd D) i (jb D) k, edge i k)])).
  Lemma ep2_writes_eq : ep2_writes D uu vv uref = writes main2 edge2. Proof. reflexivity. Qed.
  Lemma ep3_writes_eq : ep3_writes D uu vv uref = writes main3 edge3. Proof. reflexivity. Qed.

  Lemma in_writes main edge w : In w (writes main edge) <->
    exists k i, interior_level D k /\ (1 <= i <= imax D)%nat /\
      ((exists j, analysed_row D j /\ w = (addr3 (imax D) (nd D) i j k, main i j k)) \/
       w = (addr3 (imax D) (nd D) i (jb D) k, edge i k)).
  Proof.
    unfold writes, interior_level, analysed_row, jstart, jend. rewrite North. rewrite in_do. split.
    - intros [k [Hk H]]. rewrite in_do in H. destruct H as [i [Hi H]]. exists k, i. split; [exact Hk|]. split; [exact Hi|].
      apply in_app_or in H. destruct H as [H|[H|[]]]; [left|right; symmetry; exact H].
      rewrite in_do in H. destruct H as [j [Hj [H|[]]]]. exists j. split; [exact Hj|symmetry; exact H].
    - intros [k [i [Hk [Hi H]]]]. exists k. split; [exact Hk|]. rewrite in_do. exists i. split; [exact Hi|].
      apply in_or_app. destruct H as [[j [Hj ->]]| ->]; [left|right; left; reflexivity].
      rewrite in_do. exists j. split; [exact Hj|left; reflexivity].
  Qed.

  (** the row and level an edge write lands in *)
  Definition edge_row : nat := if Nat.eqb (jb D) 0 then nd D else jb D.
  Definition edge_level (k : nat) : nat := if Nat.eqb (jb D) 0 then (k - 1)%nat else k.
  Lemma edge_addr i k : (1 <= i <= imax D)%nat -> interior_level D k ->
    addr3 (imax D) (nd D) i (jb D) k = addr3 (imax D) (nd D) i edge_row (edge_level k).
  Proof.
    intros Hi Hk. unfold interior_level in Hk. unfold edge_row, edge_level. destruct (Nat.eqb_spec (jb D) 0) as [E|E]; [|reflexivity].
    rewrite E. apply addr3_zero; try lia. destruct Sizes as (? & _). lia.
  Qed.
  Lemma edge_row_range : (1 <= edge_row <= nd D)%nat.
  Proof. destruct Sizes as (H1 & H2 & H3 & H4 & H5). unfold edge_row. destruct (Nat.eqb_spec (jb D) 0); lia. Qed.
  Lemma edge_row_not_analysed : ~ analysed_row D edge_row.
  Proof.
    destruct Sizes as (H1 & H2 & H3 & H4 & H5). unfold analysed_row, edge_row. rewrite North.
    destruct (Nat.eqb_spec (jb D) 0); lia.
  Qed.

  Lemma put_writes_main main edge i j k : (1 <= i <= imax D)%nat -> analysed_row D j -> interior_level D k ->
    put (writes main edge) (fun _ => 0) (addr3 (imax D) (nd D) i j k) = main i j k.
  Proof.
    intros Hi Hj Hk. assert (Hjn := analysed_row_nd D j Hj). assert (Her := edge_row_range). assert (Hna := edge_row_not_analysed).
    apply put_hit.
    - exists (addr3 (imax D) (nd D) i j k, main i j k). split; [|reflexivity].
      apply in_writes. exists k, i. split; [exact Hk|]. split; [exact Hi|]. left. exists j. auto.
    - intros w Hw Ew. apply in_writes in Hw. destruct Hw as [k' [i' [Hk' [Hi' [[j' [Hj' ->]]| ->]]]]]; cbn [fst snd] in *.
      + assert (Hjn' := analysed_row_nd D j' Hj'). unfold interior_level in *.
        apply addr3_inj in Ew; try lia. destruct Ew as [-> [-> ->]]. reflexivity.
      + exfalso. rewrite edge_addr in Ew by assumption.
        assert (1 <= edge_level k')%nat. { unfold interior_level in Hk'. unfold edge_level. destruct (Nat.eqb (jb D) 0); lia. }
        unfold interior_level in Hk. apply addr3_inj in Ew; try lia. destruct Ew as [_ [E _]]. apply Hna. rewrite E. exact Hj.
  Qed.
  Lemma put_writes_edge main edge i k : (1 <= i <= imax D)%nat -> interior_level D k ->
    put (writes main edge) (fun _ => 0) (addr3 (imax D) (nd D) i edge_row (edge_level k)) = edge i k.
  Proof.
    intros Hi Hk. assert (Her := edge_row_range). assert (Hna := edge_row_not_analysed).
    assert (Hl : (1 <= edge_level k)%nat). { unfold interior_level in Hk. unfold edge_level. destruct (Nat.eqb (jb D) 0); lia. }
    apply put_hit.
    - exists (addr3 (imax D) (nd D) i (jb D) k, edge i k). split; [|cbn [fst]; apply edge_addr; assumption].
      apply in_writes. exists k, i. split; [exact Hk|]. split; [exact Hi|]. right. reflexivity.
    - intros w Hw Ew. apply in_writes in Hw. destruct Hw as [k' [i' [Hk' [Hi' [[j' [Hj' ->]]| ->]]]]]; cbn [fst snd] in *.
      + exfalso. assert (Hjn' := analysed_row_nd D j' Hj'). unfold interior_level in Hk'. apply addr3_inj in Ew; try lia.
        destruct Ew as [_ [E _]]. apply Hna. rewrite <- E. exact Hj'.
      + rewrite edge_addr in Ew by assumption.
        assert (1 <= edge_level k')%nat. { unfold interior_level in Hk'. unfold edge_level. destruct (Nat.eqb (jb D) 0); lia. }
        apply addr3_inj in Ew; try lia. destruct Ew as [-> [_ E]].
        unfold edge_level, interior_level in *. replace k' with k; [reflexivity|]. destruct (Nat.eqb (jb D) 0); lia.
  Qed.
  Lemma put_writes_none main edge i j k : (1 <= i <= imax D)%nat -> (1 <= j <= nd D)%nat -> (1 <= k)%nat ->
    ~ (analysed_row D j /\ interior_level D k) ->
    (j = edge_row -> forall k', interior_level D k' -> k <> edge_level k') ->
    put (writes main edge) (fun _ => 0) (addr3 (imax D) (nd D) i j k) = 0.
  Proof.
    intros Hi Hj Hk Hna Hne. assert (Her := edge_row_range). rewrite put_miss; [reflexivity|].
    intros w Hw Ew. apply in_writes in Hw. destruct Hw as [k' [i' [Hk' [Hi' [[j' [Hj' ->]]| ->]]]]]; cbn [fst snd] in *.
    - assert (Hjn' := analysed_row_nd D j' Hj'). assert (1 <= k')%nat by (unfold interior_level in Hk'; lia).
      apply addr3_inj in Ew; try lia. destruct Ew as [_ [-> ->]]. apply Hna. auto.
    - rewrite edge_addr in Ew by assumption.
      assert (1 <= edge_level k')%nat. { unfold interior_level in Hk'. unfold edge_level. destruct (Nat.eqb (jb D) 0); lia. }
      apply addr3_inj in Ew; try lia. destruct Ew as [_ [E1 E2]]. apply (Hne (eq_sym E1) k' Hk'). symmetry. exact E2.
  Qed.

  Lemma mflux_R i row k u c : @mflux R RNum uu vv i row k u c = (uu i row k - u) * vv i row k * (c * c).
  Proof. unfold mflux. cbn [nsub nmul RNum]. ring. Qed.

  Lemma ep2_main i j k : (1 <= i <= imax D)%nat -> analysed_row D j -> interior_level D k ->
    @ep2 R RNum D uu vv uref i j k = momentum_flux D uu vv (uref (j + 1 - jb D)%nat k) i (j + 1) k.
  Proof.
    intros Hi Hj Hk. unfold ep2. rewrite ep2_writes_eq. etransitivity; [apply put_writes_main; assumption|].
    unfold main2. rewrite mflux_R. unfold momentum_flux, grow, uref_row, field_row. rewrite North.
    destruct Sizes as (S1 & S2 & S3 & S4 & S5). unfold analysed_row, interior_level in *. rewrite North in Hj.
    rewrite rd2_in by lia. rewrite lat_of_R. cbn [INR]. rewrite Rmult_0_l, Rminus_0_r. unfold Rsqr.
    replace (j + nd D - 1 + 1)%nat with (j + 1 + nd D - 1)%nat by lia.
    replace (j - jb D + 1)%nat with (j + 1 - jb D)%nat by lia. reflexivity.
  Qed.
  Lemma lat_two j : @lat_of R RNum D j 2 = latitude D (j + 1) - 2 * row_spacing D.
  Proof. rewrite lat_of_R. cbn [INR]. replace (1 + 1) with 2 by ring. reflexivity. Qed.
  Lemma lat_pred j : (1 <= j)%nat -> @lat_of R RNum D j 2 = latitude D (j - 1).
  Proof. intros. rewrite lat_two. unfold latitude. rewrite plus_INR, minus_INR by lia. cbn [INR]. destruct (is_nhem D); lra. Qed.
  Lemma ep3_main i j k : (1 <= i <= imax D)%nat -> analysed_row D j -> interior_level D k -> (jb D + 2 <= j)%nat ->
    @ep3 R RNum D uu vv uref i j k = momentum_flux D uu vv (uref (j - 1 - jb D)%nat k) i (j - 1) k.
  Proof.
    intros Hi Hj Hk Hj2. unfold ep3. rewrite ep3_writes_eq. etransitivity; [apply put_writes_main; assumption|].
    unfold main3. rewrite mflux_R. unfold momentum_flux, grow, uref_row, field_row. rewrite North.
    destruct Sizes as (S1 & S2 & S3 & S4 & S5). unfold analysed_row, interior_level in *. rewrite North in Hj.
    rewrite rd2_in by lia. rewrite lat_pred by lia. unfold Rsqr.
    replace (j + nd D - 1 - 1)%nat with (j - 1 + nd D - 1)%nat by lia.
    replace (j - jb D - 1)%nat with (j - 1 - jb D)%nat by lia. reflexivity.
  Qed.
  Lemma ep3_first i k : (1 <= i <= imax D)%nat -> interior_level D k -> (jb D + 2 <= nd D)%nat ->
    @ep3 R RNum D uu vv uref i (jb D + 1)%nat k = momentum_flux D uu vv (uref (jd D) (k - 1)%nat) i (jb D) k.
  Proof.
    intros Hi Hk Hb. unfold ep3. rewrite ep3_writes_eq. etransitivity; [apply put_writes_main; auto|].
    { unfold analysed_row. rewrite North. lia. }
    unfold main3. rewrite mflux_R. unfold momentum_flux, grow, uref_row, field_row. rewrite North.
    destruct Sizes as (S1 & S2 & S3 & S4 & S5). unfold interior_level in *.
    replace (jb D + 1 - jb D - 1)%nat with 0%nat by lia. rewrite rd2_zero by lia. rewrite lat_pred by lia. unfold Rsqr.
    replace (jb D + 1 + nd D - 1 - 1)%nat with (jb D + nd D - 1)%nat by lia.
    replace (jb D + 1 - 1)%nat with (jb D) by lia. reflexivity.
  Qed.

  (** the writes after the j loop *)
  Lemma ep2_edge i k : (1 <= i <= imax D)%nat -> interior_level D k -> (2 <= jd D)%nat ->
    @ep2 R RNum D uu vv uref i edge_row (edge_level k) =
    (uu i (field_row D (jb D + 2)) k - uref 2%nat k) * vv i (field_row D (jb D + 2)) k * (cos (latitude D (jb D + 1)))².
  Proof.
    intros Hi Hk Hjd. unfold ep2. rewrite ep2_writes_eq. etransitivity; [apply put_writes_edge; assumption|].
    unfold edge2. rewrite mflux_R. unfold interior_level in Hk. rewrite rd2_in by lia. rewrite dp_R, nfloat_R. unfold field_row, latitude. rewrite North.
    replace (jb D + 2 + nd D - 1)%nat with (nd D + jb D + 1)%nat by lia. rewrite plus_INR. cbn [INR]. unfold Rsqr.
    replace ((INR (jb D) + 1 - 1) * row_spacing D) with (row_spacing D * (INR (jb D) - 0)) by ring. reflexivity.
  Qed.
  Lemma ep3_edge i k : (1 <= i <= imax D)%nat -> interior_level D k -> (1 <= jd D)%nat ->
    @ep3 R RNum D uu vv uref i edge_row (edge_level k) =
    (uu i (field_row D (jb D + 1)) k - uref 1%nat k) * vv i (field_row D (jb D + 1)) k * (cos (latitude D (jb D)))².
  Proof.
    intros Hi Hk Hjd. unfold ep3. rewrite ep3_writes_eq. etransitivity; [apply put_writes_edge; assumption|].
    unfold edge3. rewrite mflux_R. unfold interior_level in Hk. rewrite rd2_in by lia. rewrite dp_R, nfloat_R. unfold field_row, latitude. rewrite North.
    replace (jb D + 1 + nd D - 1)%nat with (nd D + jb D)%nat by lia. cbn [INR]. unfold Rsqr.
    replace ((INR (jb D) - 1) * row_spacing D) with (row_spacing D * (INR (jb D) - 1)) by ring. reflexivity.
  Qed.
  Lemma ep_none i j k : (1 <= i <= imax D)%nat -> (1 <= j <= nd D)%nat -> (1 <= k <= kmax D)%nat ->
    ~ (analysed_row D j /\ interior_level D k) -> j <> edge_row ->
    @ep2 R RNum D uu vv uref i j k = 0 /\ @ep3 R RNum D uu vv uref i j k = 0.
  Proof.
    intros Hi Hj Hk Hna Hne. unfold ep2, ep3. rewrite ep2_writes_eq, ep3_writes_eq.
    split; apply put_writes_none; auto; try lia; intros E; congruence.
  Qed.
  Lemma ep_top i j : (1 <= i <= imax D)%nat -> (1 <= j <= nd D)%nat -> (1 <= kmax D)%nat ->
    @ep2 R RNum D uu vv uref i j (kmax D) = 0 /\ @ep3 R RNum D uu vv uref i j (kmax D) = 0.
  Proof.
    intros Hi Hj Hk. unfold ep2, ep3. rewrite ep2_writes_eq, ep3_writes_eq.
    split; (apply put_writes_none; auto; [intros [_ H]; unfold interior_level in H; lia|];
      intros _ k' Hk' E; unfold edge_level, interior_level in *; destruct (Nat.eqb (jb D) 0); lia).
  Qed.
End Momentum.

(** ** other flux terms *)
Section Others.
  Variable D : fluxdims R.
  Variables (pv uu vv pt ncforce : arr3 R) (tn0 : nat -> R) (qref uref tref : arr2 R).

  (** reference row used for row j *)
  Definition ref_row (j : nat) : nat := if is_nhem D then (j - jb D)%nat else j.

  Lemma uref_read (u : arr2 R) j k : hemisphere_sizes D -> analysed_row D j -> (1 <= k)%nat ->
    rd2 (jd D) u (uref_row D j) k = u (ref_row j) k.
  Proof.
    intros (S1 & S2 & S3 & S4 & S5) Hj Hk. unfold uref_row, ref_row, analysed_row in *.
    destruct (is_nhem D); apply rd2_in; lia.
  Qed.
  Lemma ua1_in i j k : hemisphere_sizes D -> analysed_row D j -> interior_level D k ->
    @ua1 R RNum D pv qref uref i j k = uref (ref_row j) k * (@astar1 R RNum D pv qref i j k + @astar2 R RNum D pv qref i j k).
  Proof. intros S Hj Hk. unfold ua1. rewrite fill_in by assumption. rewrite uref_read; auto. unfold interior_level in Hk. lia. Qed.
  Lemma ua2_in i j k : hemisphere_sizes D -> analysed_row D j -> interior_level D k ->
    @ua2 R RNum D pv uu qref uref i j k =
    displaced D pv qref i j k (fun r =>
      (pv i (field_row D r) k - qref j k)
      * (uu i (field_row D r) k * cos (latitude D j) - uref (ref_row j) k * cos (latitude D r))
      * (f_a D * row_spacing D)).
  Proof.
    intros S Hj Hk. unfold ua2. rewrite fill_in by assumption. unfold sum_ua2. apply displaced_loop; [apply analysed_row_nd; assumption|].
    intros jj s. unfold ab. rewrite dp_R, qe_R. unfold ue. rewrite !lat_of_1. rewrite uref_read; auto. unfold interior_level in Hk. lia.
  Qed.
  Lemma ep1_in i j k : hemisphere_sizes D -> analysed_row D j -> interior_level D k ->
    @ep1 R RNum D uu vv pt tn0 uref tref i j k =
    (/ 2 * ((vv i (field_row D j) k)² - (uu i (field_row D j) k - uref (ref_row j) k)²
            - (pt i (field_row D j) k - tref (ref_row j) k)² * (f_rr D / f_h D)
              * exp (- (f_rr D / f_cp D) * ((INR k - 1) * f_dz D) / f_h D)
              * (2 * f_dz D / (tn0 (k + 1)%nat - tn0 (k - 1)%nat)))) * cos (latitude D j).
  Proof.
    intros S Hj Hk. unfold ep1. rewrite fill_in by assumption. cbv zeta. rewrite !uref_read; auto; try (unfold interior_level in Hk; lia).
    rewrite lat_of_1, nfloat_R, nhalf_R. unfold nsq. cbn [nmul nsub nadd nopp ndiv nexp ncos nofZ RNum INR]. unfold Rsqr.
    change (grow D j) with (field_row D j).
    replace (f_dz D * (INR k - 1)) with ((INR k - 1) * f_dz D) by ring. unfold Rdiv. ring.
  Qed.
  Lemma ep4_in i j : hemisphere_sizes D -> analysed_row D j -> (3 <= kmax D)%nat ->
    @ep4 R RNum D vv pt tn0 tref i j =
    2 * f_om D * sin (latitude D j) * cos (latitude D j) * f_dz D / f_prefac D
    * (exp (- f_dz D / f_h D) * vv i (field_row D j) 2%nat * (pt i (field_row D j) 2%nat - tref (ref_row j) 2%nat) / (tn0 3%nat - tn0 1%nat)
       + / 2 * (vv i (field_row D j) 1%nat * (pt i (field_row D j) 1%nat - tref (ref_row j) 1%nat)) / (tn0 2%nat - tn0 1%nat)).
  Proof.
    intros S Hj Hk. unfold ep4. rewrite (proj2 (analysed_true D j 2)) by (split; [assumption|unfold interior_level; lia]).
    cbv zeta. rewrite !uref_read by (auto; lia). rewrite lat_of_1, nhalf_R. reflexivity.
  Qed.
  Lemma ep4_out i j : ~ (analysed_row D j /\ (3 <= kmax D)%nat) -> @ep4 R RNum D vv pt tn0 tref i j = 0.
  Proof.
    intros H. unfold ep4. rewrite (proj2 (analysed_false D j 2)); [reflexivity|].
    unfold interior_level. intros [H1 H2]. apply H. split; [exact H1|lia].
  Qed.
  Lemma displaced_zero i j k g : (forall r, (1 <= r <= nd D)%nat -> g r = 0) -> (1 <= j <= nd D)%nat -> displaced D pv qref i j k g = 0.
  Proof.
    intros H Hj. unfold displaced. rewrite !Sum_zero; [lra| |]; intros r Hr.
    - destruct (Rle_dec _ _); [apply H; lia|reflexivity].
    - destruct (Rlt_dec _ _); [apply H; lia|reflexivity].
  Qed.
  (** if the integrand is qe * something and PV is the reference profile, nothing is displaced *)
  Lemma displaced_undisturbed i j k g :
    (forall r, (1 <= r <= nd D)%nat -> pv i (field_row D r) k = qref r k) ->
    (forall r s, (1 <= r <= s)%nat -> (s <= nd D)%nat -> qref r k <= qref s k) -> (1 <= j <= nd D)%nat ->
    displaced D pv qref i j k (fun r => (pv i (field_row D r) k - qref j k) * g r) = 0.
  Proof.
    intros H Hm Hj. unfold displaced. rewrite !Sum_zero; [lra| |]; intros r Hr.
    - destruct (Rle_dec _ _) as [C|C]; [|reflexivity]. rewrite H in * by lia.
      assert (qref j k <= qref r k) by (apply Hm; lia). replace (qref r k - qref j k) with 0 by lra. ring.
    - destruct (Rlt_dec _ _) as [C|C]; [|reflexivity]. rewrite H in * by lia.
      assert (qref r k <= qref j k) by (apply Hm; lia). lra.
  Qed.
  Lemma lwa_undisturbed i j k :
    (forall r, (1 <= r <= nd D)%nat -> pv i (field_row D r) k = qref r k) ->
    (forall r s, (1 <= r <= s)%nat -> (s <= nd D)%nat -> qref r k <= qref s k) -> (1 <= j <= nd D)%nat ->
    low_pv_north D pv qref i j k = 0 /\ high_pv_south D pv qref i j k = 0.
  Proof.
    intros H Hm Hj. unfold low_pv_north, high_pv_south. split; apply Sum_zero; intros r Hr; rewrite H by lia.
    - rewrite ppart_0; [ring|]. assert (qref j k <= qref r k) by (apply Hm; lia). lra.
    - rewrite ppart_0; [ring|]. assert (qref r k <= qref j k) by (apply Hm; lia). lra.
  Qed.
End Others.

(** ** array references *)
Section Refs.
  Variable D : fluxdims R.
  Hypothesis Sizes : hemisphere_sizes D.
  Hypothesis Room : (jb D + 2 <= nd D)%nat.

  Definition stray_read (x : string * list nat * list Z) : Prop :=
    exists k, interior_level D k /\ x = ("uref"%string, [jd D; kmax D], [0%Z; Z.of_nat k]).
  Definition stray_write (x : string * list nat * list Z) : Prop :=
    jb D = 0%nat /\ exists i k o, (1 <= i <= imax D)%nat /\ interior_level D k /\ (o = "ep2"%string \/ o = "ep3"%string) /\
      x = (o, [imax D; nd D; kmax D], [Z.of_nat i; 0%Z; Z.of_nat k]).

  Ltac inb := left; unfold in_bounds, ref3, ref2, ref1; cbn [fst snd]; repeat constructor; lia.

  Lemma flux_refs_classified x : In x (flux_refs D) -> in_bounds x \/ stray_read x \/ stray_write x.
  Proof.
    destruct Sizes as (S1 & S2 & S3 & S4 & S5).
    unfold flux_refs. rewrite in_do. intros [k [Hk H]]. rewrite in_do in H. destruct H as [i [Hi H]].
    apply in_app_or in H. destruct H as [H|H].
    - rewrite in_do in H. destruct H as [j [Hj H]]. apply in_app_or in H. destruct H as [H|H].
      + rewrite in_do in H. destruct H as [jj [Hjj H]]. unfold refs_jj in H. cbn [In] in H.
        repeat (destruct H as [<-|H]; [inb|]). destruct H.
      + unfold refs_j in H. apply in_app_or in H. destruct H as [H|H].
        { apply in_map_iff in H. destruct H as [o [<- _]]. inb. }
        apply in_app_or in H. destruct H as [H|H].
        * cbn [In] in H. do 12 (destruct H as [<-|H]; [inb|]). destruct H as [<-|[]].
          destruct (Nat.eq_dec j (jb D + 1)) as [E|E]; [|inb].
          right; left. exists k. split; [exact Hk|]. unfold ref2. repeat f_equal. lia.
        * destruct (Z.eqb_spec (Z.of_nat k) 2); [|destruct H]. cbn [In] in H.
          repeat (destruct H as [<-|H]; [inb|]). destruct H.
    - unfold refs_i in H. cbn [In] in H. do 3 (destruct H as [<-|H]; [inb|]).
      destruct H as [<-|H].
      { destruct (Nat.eq_dec (jb D) 0) as [E|E]; [|inb]. right; right. split; [exact E|]. exists i, k, "ep2"%string.
        split; [exact Hi|]. split; [exact Hk|]. split; [left; reflexivity|]. unfold ref3. rewrite E. reflexivity. }
      do 3 (destruct H as [<-|H]; [inb|]). destruct H as [<-|[]].
      destruct (Nat.eq_dec (jb D) 0) as [E|E]; [|inb]. right; right. split; [exact E|]. exists i, k, "ep3"%string.
      split; [exact Hi|]. split; [exact Hk|]. split; [right; reflexivity|]. unfold ref3. rewrite E. reflexivity.
  Qed.
  Lemma stray_read_occurs x : stray_read x -> In x (flux_refs D) /\ ~ in_bounds x.
  Proof.
    destruct Sizes as (S1 & S2 & S3 & S4 & S5). intros [k [Hk ->]]. split.
    - unfold flux_refs. rewrite in_do. exists k. split; [exact Hk|]. rewrite in_do. exists 1%nat. split; [lia|].
      apply in_or_app. left. rewrite in_do. exists (jb D + 1)%nat. split; [lia|]. apply in_or_app. right.
      unfold refs_j. apply in_or_app. right. apply in_or_app. left. cbn [In]. do 12 right. left.
      unfold ref2. repeat f_equal. lia.
    - unfold in_bounds. cbn [fst snd]. intros H. inversion H; subst. lia.
  Qed.
  Lemma stray_write_occurs x : stray_write x -> In x (flux_refs D) /\ ~ in_bounds x.
  Proof.
    destruct Sizes as (S1 & S2 & S3 & S4 & S5). intros [E [i [k [o [Hi [Hk [Ho ->]]]]]]]. split.
    - unfold flux_refs. rewrite in_do. exists k. split; [exact Hk|]. rewrite in_do. exists i. split; [exact Hi|].
      apply in_or_app. right. unfold refs_i, ref3. rewrite E. cbn [In]. destruct Ho as [->| ->].
      + do 3 right. left. reflexivity.
      + do 7 right. left. reflexivity.
    - unfold in_bounds. cbn [fst snd]. intros H. inversion H as [|? ? ? ? _ H1]; subst. inversion H1; subst. lia.
  Qed.
End Refs.

Lemma put_all_zero (ws : list (nat * R)) p : (forall w, In w ws -> snd w = 0) -> put ws (fun _ => 0) p = 0.
Proof.
  intros H. assert (G : forall m, (forall q, m q = 0) -> put ws m p = 0).
  { induction ws as [|w ws IH]; intros m Hm; [apply Hm|]. cbn [put fold_left].
    change (put ws (fun q => if Nat.eqb q (fst w) then snd w else m q) p = 0). apply IH.
    - intros; apply H; right; assumption.
    - intros q. destruct (Nat.eqb q (fst w)); [apply H; left; reflexivity|apply Hm]. }
  apply G. reflexivity.
Qed.
Lemma ep23_no_v (D : fluxdims R) uu vv uref i j k : is_nhem D = true -> (forall i j k, vv i j k = 0) ->
  ep2 D uu vv uref i j k = 0 /\ ep3 D uu vv uref i j k = 0.
Proof.
  intros North Hv. unfold ep2, ep3. rewrite ep2_writes_eq, ep3_writes_eq. split; apply put_all_zero; intros w Hw;
    apply in_writes in Hw; auto; destruct Hw as [k' [i' [_ [_ [[j' [_ ->]]| ->]]]]]; cbn [snd];
    unfold main2, edge2, main3, edge3; rewrite mflux_R, Hv; ring.
Qed.

Lemma cos_first_row (D : fluxdims R) : hemisphere_sizes D -> is_nhem D = true -> (jb D + 2 <= nd D)%nat -> (3 <= nd D)%nat -> 0 < cos (latitude D (jb D)).
Proof.
  intros (S1 & S2 & S3 & S4 & S5) North Hb H3. unfold latitude, row_spacing. rewrite North, S2. assert (P := PI_RGT_0).
  replace (2 * nd D - 1 - 1)%nat with (2 * (nd D - 1))%nat by lia. rewrite mult_INR. cbn [INR].
  assert (H1 : 1 <= INR (nd D - 1)) by (apply (le_INR 1); lia).
  assert (H2 : INR (jb D) - 1 < INR (nd D - 1)). { assert (INR (jb D) <= INR (nd D - 1)) by (apply le_INR; lia). lra. }
  assert (H0 := pos_INR (jb D)).
  assert (E : (INR (jb D) - 1) * (PI / ((1 + 1) * INR (nd D - 1))) = (PI / 2) * ((INR (jb D) - 1) * / INR (nd D - 1))) by (field; lra).
  rewrite E.
  assert (I : 0 < / INR (nd D - 1)) by (apply Rinv_0_lt_compat; lra).
  assert (HI : INR (nd D - 1) * / INR (nd D - 1) = 1) by (apply Rinv_r; lra).
  assert (L1 : (INR (jb D) - 1) * / INR (nd D - 1) < 1) by nra.
  destruct (Rle_or_lt 1 (INR (jb D))) as [C|C].
  - assert (0 <= (INR (jb D) - 1) * / INR (nd D - 1)) by (apply Rmult_le_pos; lra). apply cos_gt_0; nra.
  - (* jb = 0 *)
    assert (Ej : jb D = 0%nat). { destruct (jb D) as [|m]; [reflexivity|]. exfalso. rewrite S_INR in C. assert (Hm := pos_INR m). lra. }
    rewrite Ej in *. cbn [INR] in *.
    destruct (Nat.eq_dec (nd D) 2) as [E2|E2].
    + exfalso. lia.
    + assert (/ INR (nd D - 1) <= / 2). { apply Rinv_le_contravar; [lra|]. replace 2 with (INR 2) by reflexivity. apply le_INR. lia. }
      apply cos_gt_0; nra.
Qed.

Lemma ncforce3d_linear (D : fluxdims R) (pv f g : arr3 R) (qref : arr2 R) (a b : R) (i j k : nat) :
  ncforce3d D pv (fun i j k => a * f i j k + b * g i j k) qref i j k =
  a * ncforce3d D pv f qref i j k + b * ncforce3d D pv g qref i j k.
Proof.
  unfold ncforce3d. destruct (analysed D j k) eqn:E.
  - apply analysed_true in E. destruct E as [Hj Hk]. rewrite !fill_in by assumption.
    assert (H := analysed_row_nd D j Hj). rewrite !sum_ncforce_R by assumption. unfold displaced.
    rewrite !Rmult_minus_distr_l, <- !Sum_scal.
    assert (R4 : forall a b c d : R, a - b + (c - d) = (a + c) - (b + d)) by (intros; ring). rewrite R4, <- !Sum_plus.
    f_equal; apply Sum_ext; intros r Hr.
    + destruct (Rlt_dec _ _); ring.
    + destruct (Rle_dec _ _); ring.
  - apply analysed_false in E. rewrite !fill_out by assumption. ring.
Qed.

Lemma undisturbed_zero (D : fluxdims R) (pv uu vv pt : arr3 R) (tn0 : nat -> R) (qref uref tref : arr2 R) :
    hemisphere_sizes D -> is_nhem D = true ->
    (forall i r k, (1 <= r <= nd D)%nat -> pv i (field_row D r) k = qref r k) ->
    (forall r s k, (1 <= r <= s)%nat -> (s <= nd D)%nat -> qref r k <= qref s k) ->
    (forall i r k, (jb D + 1 <= r <= nd D)%nat -> uu i (field_row D r) k = uref (r - jb D)%nat k) ->
    (forall i r k, (jb D + 1 <= r <= nd D)%nat -> pt i (field_row D r) k = tref (r - jb D)%nat k) ->
    (forall i j k, vv i j k = 0) ->
    forall i j k,
      astar1 D pv qref i j k = 0 /\ astar2 D pv qref i j k = 0 /\ ua1 D pv qref uref i j k = 0 /\
      ua2 D pv uu qref uref i j k = 0 /\ ep1 D uu vv pt tn0 uref tref i j k = 0 /\
      ep2 D uu vv uref i j k = 0 /\ ep3 D uu vv uref i j k = 0 /\ ep4 D vv pt tn0 tref i j = 0.
Proof.
  intros S North Hp Hm Hu Ht Hv i j k.
  destruct (ep23_no_v D uu vv uref i j k North Hv) as [-> ->].
  assert (A : astar1 D pv qref i j k = 0 /\ astar2 D pv qref i j k = 0).
  { destruct (analysed D j k) eqn:E.
    - apply analysed_true in E. destruct E as [Hj Hk]. destruct (astar_in D pv qref i j k Hj Hk) as [-> ->].
      destruct (lwa_undisturbed D pv qref i j k) as [-> ->]; auto; [apply analysed_row_nd; assumption|]. destruct (is_nhem D); auto.
    - apply analysed_false in E. apply astar_out. exact E. }
  destruct A as [A1 A2].
  split; [exact A1|]. split; [exact A2|].
  split.
  { destruct (analysed D j k) eqn:E.
    - apply analysed_true in E. destruct E as [Hj Hk]. rewrite ua1_in by assumption. rewrite A1, A2. ring.
    - apply analysed_false in E. apply fill_out. exact E. }
  split.
  { destruct (analysed D j k) eqn:E.
    - apply analysed_true in E. destruct E as [Hj Hk]. rewrite ua2_in by assumption.
      rewrite <- (displaced_undisturbed D pv qref i j k (fun r => (uu i (field_row D r) k * cos (latitude D j) - uref (ref_row D j) k * cos (latitude D r)) * (f_a D * row_spacing D))); auto.
      + unfold displaced. f_equal; apply Sum_ext; intros r Hr; rewrite Rmult_assoc; reflexivity.
      + apply analysed_row_nd; assumption.
    - apply analysed_false in E. apply fill_out. exact E. }
  split.
  { destruct (analysed D j k) eqn:E.
    - apply analysed_true in E. destruct E as [Hj Hk]. rewrite ep1_in by assumption.
      assert (Hj' := Hj). unfold analysed_row in Hj'. rewrite North in Hj'. unfold ref_row. rewrite North.
      rewrite Hu, Ht, Hv by lia. unfold Rsqr, Rdiv. ring.
    - apply analysed_false in E. apply fill_out. exact E. }
  split; [reflexivity|]. split; [reflexivity|].
  destruct (analysed D j 2) eqn:E.
  - apply analysed_true in E. destruct E as [Hj Hk]. unfold interior_level in Hk. rewrite ep4_in by (auto; lia). rewrite !Hv. unfold Rdiv. ring.
  - apply analysed_false in E. apply ep4_out. unfold interior_level in E. intros [H1 H2]. apply E. split; [exact H1|lia].
Qed.
