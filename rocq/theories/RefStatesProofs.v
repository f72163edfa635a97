(** Proofs about the reference state solver: contour areas, Qref, means, thermal wind. *)
From Verif Require Import Base BaseFacts Spec SpecFacts Flux FluxSpec FluxProofs RefStates RefStatesSpec.
From Coq Require Import FunctionalExtensionality.
Open Scope R_scope.

Notation rphi := (@phi R RNum).

Lemma nhalf_half : @nhalf R RNum = 1 / 2. Proof. reflexivity. Qed.

(** ** truncation *)
Lemma trunc_spec x : 0 <= x -> IZR (ntrunc x) <= x < IZR (ntrunc x) + 1 /\ (0 <= ntrunc x)%Z.
Proof.
  intros Hx. unfold ntrunc, RTrunc. destruct (Rle_dec 0 x); [|lra]. destruct (archimed x) as [H1 H2].
  rewrite minus_IZR. split; [lra|]. assert (IZR 0 < IZR (up x)) by lra. apply lt_IZR in H. lia.
Qed.
Lemma trunc_iff x z : 0 <= x -> (ntrunc x = z <-> IZR z <= x < IZR z + 1).
Proof.
  intros Hx. destruct (trunc_spec x Hx) as [H1 _]. split; [intros <-; exact H1|]. intros H2.
  assert (A1 : IZR (ntrunc x) < IZR (z + 1)) by (rewrite plus_IZR; lra). assert (A2 : IZR z < IZR (ntrunc x + 1)) by (rewrite plus_IZR; lra).
  apply lt_IZR in A1, A2. lia.
Qed.

(** ** sums over lists in program order *)
Lemma fold_cond_sum {T} (l : list T) (p : T -> bool) (f : T -> R) s :
  fold_left (fun s x => if p x then s + f x else s) l s = s + SumL l (fun x => if p x then f x else 0).
Proof.
  revert s. induction l as [|x l IH]; intros s; cbn [fold_left]; [rewrite SumL_nil; ring|].
  rewrite IH, SumL_cons. destruct (p x); ring.
Qed.
Lemma SumL_range lo hi f : SumL (range lo hi) f = Sum lo (hi + 1) f.
Proof. reflexivity. Qed.
Lemma SumL_do {T} lo hi (body : nat -> list T) f : SumL (do_ lo hi body) f = Sum lo (hi + 1) (fun j => SumL (body j) f).
Proof.
  unfold do_. rewrite <- SumL_range. induction (range lo hi) as [|x l IH]; [reflexivity|]. cbn [flat_map]. rewrite SumL_app, SumL_cons, IH. reflexivity.
Qed.

Ltac decs := repeat match goal with |- context [Rlt_dec ?a ?b] => destruct (Rlt_dec a b) | |- context [Rle_dec ?a ?b] => destruct (Rle_dec a b) end.

Section Areas.
  Variable P : rsdims R.
  Notation cells := (@cells R P).
  Lemma in_cells p : In p cells <-> grid_point P (fst p) (snd p).
  Proof.
    unfold RefStates.cells. rewrite in_do. unfold grid_point. split.
    - intros (j & Hj & Hp). apply in_map_iff in Hp. destruct Hp as (i & <- & Hi). apply in_range in Hi. cbn. lia.
    - destruct p as [i j]. cbn. intros [Hi Hj]. exists j. split; [lia|]. apply in_map_iff. exists i. split; [reflexivity|]. apply in_range. lia.
  Qed.
  Lemma SumL_cells f : SumL cells f = Sum 1 (s_nlat P + 1) (fun j => Sum 1 (s_nlon P + 1) (fun i => f (i, j))).
  Proof. unfold RefStates.cells. rewrite SumL_do. apply Sum_ext. intros j _. rewrite SumL_map. reflexivity. Qed.

  Lemma phi_lat j : @phi R RNum P j = lat P j.
  Proof. unfold phi, lat. rewrite nfloat_R. reflexivity. Qed.
  Lemma da_cell j : @da R RNum P j = cell_area P j.
  Proof.
    unfold da, cell_area, global_lat, lat. rewrite nfloat_R, nhalf_half. cbn [nmul nadd nopp ncos npi RNum INR]. unfold Rsqr. f_equal. f_equal. lra.
  Qed.
  Lemma alat_cap j : @alat R RNum P j = cap_area P j.
  Proof. unfold alat, cap_area. rewrite phi_lat. cbn [nmul nsub nofZ npi nsin none RNum]. unfold Rsqr. ring. Qed.

  Variable pv : arr3 R.
  Variable k : nat.
  Lemma qmax_level M : level_max P pv k M -> @qmax R RNum P pv k = M.
  Proof.
    intros [H1 (i & j & Hp & HM)]. apply (lmax_unique (map (fun p => pv (fst p) (snd p) k) cells)).
    - apply in_map_iff. exists (i, j). split; [exact HM|]. apply in_cells. exact Hp.
    - intros x Hx. apply in_map_iff in Hx. destruct Hx as (p & <- & Hp'). apply H1. apply in_cells. exact Hp'.
  Qed.
  Lemma qmin_level m : level_min P pv k m -> @qmin R RNum P pv k = m.
  Proof.
    intros [H1 (i & j & Hp & HM)]. apply (lmin_unique (map (fun p => pv (fst p) (snd p) k) cells)).
    - apply in_map_iff. exists (i, j). split; [exact HM|]. apply in_cells. exact Hp.
    - intros x Hx. apply in_map_iff in Hx. destruct Hx as (p & <- & Hp'). apply H1. apply in_cells. exact Hp'.
  Qed.
  Lemma level_extremes : (1 <= s_nlon P)%nat -> (1 <= s_nlat P)%nat -> exists M m, level_max P pv k M /\ level_min P pv k m.
  Proof.
    intros Hl Hn. assert (NE : map (fun p => pv (fst p) (snd p) k) cells <> []).
    { intros E. apply map_eq_nil in E. assert (H : In (1, 1)%nat cells) by (apply in_cells; unfold grid_point; cbn; lia). rewrite E in H. destruct H. }
    exists (@qmax R RNum P pv k), (@qmin R RNum P pv k). split; split.
    - intros i j Hp. apply (lmax_ge (map (fun p => pv (fst p) (snd p) k) cells)). apply in_map_iff. exists (i, j). split; [reflexivity|]. apply in_cells. exact Hp.
    - assert (H := lmax_in _ NE). apply in_map_iff in H. destruct H as ([i j] & E & Hp). exists i, j. apply in_cells in Hp. split; [exact Hp|exact E].
    - intros i j Hp. apply (lmin_le (map (fun p => pv (fst p) (snd p) k) cells)). apply in_map_iff. exists (i, j). split; [reflexivity|]. apply in_cells. exact Hp.
    - assert (H := lmin_in _ NE). apply in_map_iff in H. destruct H as ([i j] & E & Hp). exists i, j. apply in_cells in Hp. split; [exact Hp|exact E].
  Qed.

  Variables M m : R.
  Hypothesis HM : level_max P pv k M.
  Hypothesis Hm : level_min P pv k m.
  Hypothesis Hmm : m < M.
  Hypothesis Hp : (2 <= s_npart P)%nat.

  Let step := (M - m) / (INR (s_npart P) - 1).
  Lemma npart1 : 1 <= INR (s_npart P) - 1.
  Proof. apply le_INR in Hp. cbn [INR] in Hp. lra. Qed.
  Lemma step_pos : 0 < step.
  Proof. unfold step. assert (H := npart1). apply Rdiv_lt_0_compat; lra. Qed.
  Lemma dq_step : @dq R RNum P pv k = step.
  Proof. unfold dq. rewrite (qmax_level M HM), (qmin_level m Hm), nfloat_R. reflexivity. Qed.
  Lemma qn_contour nn : @qn R RNum P pv k nn = contour P M m nn.
  Proof. unfold qn, contour. rewrite (qmax_level M HM), dq_step, nfloat_R. cbn [nsub nmul RNum INR]. fold step. ring. Qed.
  Lemma contour_1 : contour P M m 1 = M. Proof. unfold contour. cbn [INR]. ring. Qed.
  Lemma contour_last : contour P M m (s_npart P) = m.
  Proof. unfold contour. assert (H := npart1). field. lra. Qed.
  Lemma contour_S nn : contour P M m (S nn) = contour P M m nn - step.
  Proof. unfold contour. rewrite S_INR. fold step. ring. Qed.

  Lemma scaled i j : grid_point P i j -> 0 <= (M - pv i j k) / step <= INR (s_npart P) - 1.
  Proof.
    intros Hij. assert (H1 := proj1 HM i j Hij). assert (H2 := proj1 Hm i j Hij). assert (Hs := step_pos). split.
    - apply Rmult_le_pos; [lra|]. left. apply Rinv_0_lt_compat. exact Hs.
    - apply Rmult_le_reg_r with step; [exact Hs|]. replace ((M - pv i j k) / step * step) with (M - pv i j k) by (field; lra).
      replace ((INR (s_npart P) - 1) * step) with (M - m). lra. unfold step. assert (H := npart1). field. lra.
  Qed.
  (** a cell is in bin nn if its value lies in (contour (nn+1), contour nn] *)
  Lemma bin_iff i j nn : grid_point P i j -> (1 <= nn)%nat ->
    Z.eqb (@bin R RNum RTrunc P pv k (i, j)) (Z.of_nat nn) = between (contour P M m (nn + 1)) (contour P M m nn) (pv i j k).
  Proof.
    intros Hij Hn. unfold bin. rewrite (qmax_level M HM), dq_step. cbn [nsub ndiv RNum fst snd].
    assert (S := scaled i j Hij). assert (Hs := step_pos).
    assert (E : Z.succ (ntrunc ((M - pv i j k) / step)) = Z.of_nat nn <-> INR nn - 1 <= (M - pv i j k) / step < INR nn).
    { rewrite <- (Z.succ_pred (Z.of_nat nn)). rewrite Z.succ_inj_wd. rewrite trunc_iff by tauto.
      replace (IZR (Z.pred (Z.of_nat nn))) with (INR nn - 1). 2: { rewrite <- Z.sub_1_r, minus_IZR, <- INR_IZR_INZ. reflexivity. }
      split; lra. }
    assert (F : INR nn - 1 <= (M - pv i j k) / step < INR nn <-> contour P M m (nn + 1) < pv i j k <= contour P M m nn).
    { unfold contour. fold step. rewrite plus_INR. cbn [INR]. set (x := (M - pv i j k) / step) in *. assert (Ex : pv i j k = M - x * step) by (unfold x; field; lra).
      rewrite Ex. split; intros [A1 A2]; split.
      - apply Rplus_lt_compat_l, Ropp_lt_contravar. apply Rmult_lt_compat_r; [exact Hs|lra].
      - apply Rplus_le_compat_l, Ropp_le_contravar. apply Rmult_le_compat_r; lra.
      - apply Rmult_le_reg_r with step; lra.
      - apply Rmult_lt_reg_r with step; lra. }
    unfold between. destruct (Z.eqb_spec (Z.succ (ntrunc ((M - pv i j k) / step))) (Z.of_nat nn)) as [G|G].
    - apply E, F in G. destruct (Rlt_dec _ _); [|lra]. destruct (Rle_dec _ _); [reflexivity|lra].
    - destruct (Rlt_dec _ _); [|reflexivity]. destruct (Rle_dec _ _); [|reflexivity]. exfalso. apply G. apply E, F. split; assumption.
  Qed.
  (** every cell has a bin inside the arrays *)
  Lemma bin_range i j : grid_point P i j -> (1 <= @bin R RNum RTrunc P pv k (i, j) <= Z.of_nat (s_npart P))%Z.
  Proof.
    intros Hij. unfold bin. rewrite (qmax_level M HM), dq_step. cbn [nsub ndiv RNum fst snd]. assert (S := scaled i j Hij).
    destruct (trunc_spec _ (proj1 S)) as [H1 H2]. split; [lia|].
    assert (H3 : IZR (ntrunc ((M - pv i j k) / step)) <= IZR (Z.of_nat (s_npart P) - 1)) by (rewrite minus_IZR, <- INR_IZR_INZ; lra).
    apply le_IZR in H3. lia.
  Qed.

  Lemma an_area nn : (1 <= nn)%nat -> @an R RNum RTrunc P pv k nn = area_of P pv k (between (contour P M m (nn + 1)) (contour P M m nn)).
  Proof.
    intros Hn. unfold an. rewrite fold_cond_sum, SumL_cells. cbn [nzero RNum]. rewrite Rplus_0_l. unfold area_of.
    apply Sum_ext. intros j Hj. apply Sum_ext. intros i Hi. rewrite bin_iff by (unfold grid_point; lia). cbn [snd]. rewrite da_cell. reflexivity.
  Qed.
  Lemma cn_circulation nn : (1 <= nn)%nat -> @cn R RNum RTrunc P pv k nn = circulation_of P pv k (between (contour P M m (nn + 1)) (contour P M m nn)).
  Proof.
    intros Hn. unfold cn. rewrite fold_cond_sum, SumL_cells. cbn [nzero RNum]. rewrite Rplus_0_l. unfold circulation_of.
    apply Sum_ext. intros j Hj. apply Sum_ext. intros i Hi. rewrite bin_iff by (unfold grid_point; lia). cbn [snd fst]. rewrite da_cell. reflexivity.
  Qed.
  Lemma area_split q1 q2 q3 : q1 <= q2 <= q3 ->
    area_of P pv k (between q1 q3) = area_of P pv k (between q1 q2) + area_of P pv k (between q2 q3).
  Proof.
    intros H. unfold area_of. rewrite <- Sum_plus. apply Sum_ext. intros j _. rewrite <- Sum_plus. apply Sum_ext. intros i _.
    unfold between. decs; lra.
  Qed.
  Lemma area_empty q : area_of P pv k (between q q) = 0.
  Proof.
    unfold area_of. apply Sum_zero. intros j _. apply Sum_zero. intros i _. unfold between.
    decs; lra.
  Qed.
  (** what the solver accumulates: the cells between contour nn+1 and contour 2 *)
  Lemma aan_area nn : (1 <= nn)%nat -> @aan R RNum RTrunc P pv k nn = area_of P pv k (between (contour P M m (nn + 1)) (contour P M m 2)).
  Proof.
    intros Hn. unfold aan. destruct nn as [|nn]; [lia|]. clear Hn. induction nn as [|nn IH].
    - cbn [cumulate Nat.add]. rewrite area_empty. reflexivity.
    - change (cumulate (an P pv k) (S (S nn))) with (cumulate (an P pv k) (S nn) + an P pv k (S (S nn))). rewrite IH, an_area by lia.
      rewrite (area_split (contour P M m (S (S nn) + 1)) (contour P M m (S (S nn))) (contour P M m 2)).
      + replace (S nn + 1)%nat with (S (S nn)) by lia. cbn [nadd RNum]. ring.
      + assert (Hs := step_pos). replace (S (S nn) + 1)%nat with (S (S (S nn))) by lia. rewrite (contour_S (S (S nn))). split; [lra|].
        unfold contour. fold step. apply Rplus_le_compat_l, Ropp_le_contravar, Rmult_le_compat_r; [lra|].
        apply Rplus_le_compat_r, le_INR. lia.
  Qed.
  Lemma area_above_between q : area_of P pv k (above q) = area_of P pv k (between q M).
  Proof.
    unfold area_of. apply Sum_ext. intros j Hj. apply Sum_ext. intros i Hi. assert (H := proj1 HM i j ltac:(unfold grid_point; lia)).
    unfold above, between. decs; lra.
  Qed.
  (** the error against the area enclosed by the contour *)
  Lemma aan_error nn : (2 <= nn)%nat ->
    @aan R RNum RTrunc P pv k nn - area_of P pv k (above (contour P M m nn))
    = area_of P pv k (between (contour P M m (nn + 1)) (contour P M m nn)) - area_of P pv k (between (contour P M m 2) (contour P M m 1)).
  Proof.
    intros Hn. rewrite aan_area by lia. rewrite area_above_between, contour_1. assert (Hs := step_pos).
    assert (C : contour P M m nn <= contour P M m 2).
    { unfold contour. fold step. apply Rplus_le_compat_l, Ropp_le_contravar, Rmult_le_compat_r; [lra|]. apply le_INR in Hn. lra. }
    assert (C2 : contour P M m 2 <= M). { rewrite <- contour_1 at 2. rewrite (contour_S 1). lra. }
    rewrite (area_split (contour P M m (nn + 1)) (contour P M m nn) (contour P M m 2)).
    2: { split; [|exact C]. replace (nn + 1)%nat with (S nn) by lia. rewrite contour_S. lra. }
    rewrite (area_split (contour P M m nn) (contour P M m 2) M) by lra. ring.
  Qed.

  Hypothesis Hcos : forall j, (1 <= j <= s_nlat P)%nat -> 0 <= cell_area P j.
  Lemma area_nonneg S : 0 <= area_of P pv k S.
  Proof. apply Sum_nonneg. intros j Hj. apply Sum_nonneg. intros i Hi. destruct (S (pv i j k)); [apply Hcos; lia|lra]. Qed.
  Lemma aan_S nn : (1 <= nn)%nat -> @aan R RNum RTrunc P pv k (S nn) = @aan R RNum RTrunc P pv k nn + @an R RNum RTrunc P pv k (S nn).
  Proof. intros H. destruct nn as [|nn]; [lia|]. reflexivity. Qed.
  Lemma aan_mono a b : (1 <= a <= b)%nat -> @aan R RNum RTrunc P pv k a <= @aan R RNum RTrunc P pv k b.
  Proof.
    intros [Ha Hb]. induction Hb as [|b Hb IH]; [lra|]. rewrite aan_S by lia. rewrite an_area by lia.
    assert (H := area_nonneg (between (contour P M m (S b + 1)) (contour P M m (S b)))). lra.
  Qed.

  (** ** the bracketing contour *)
  Lemma bracket_true j nn : @bracketed R RNum RTrunc P pv k j nn = true <-> @aan R RNum RTrunc P pv k nn <= cap_area P j < @aan R RNum RTrunc P pv k (nn + 1).
  Proof. unfold bracketed. rewrite andb_true_iff. rewrite alat_cap. cbn [nleb nltb RNum]. rewrite Rleb_true, Rltb_true. tauto. Qed.
  Lemma bracket_unique j a b : (1 <= a)%nat -> (1 <= b)%nat ->
    @bracketed R RNum RTrunc P pv k j a = true -> @bracketed R RNum RTrunc P pv k j b = true -> a = b.
  Proof.
    intros Ha Hb H1 H2. apply bracket_true in H1, H2. destruct (Nat.lt_trichotomy a b) as [H|[H|H]]; [|exact H|]; exfalso.
    - assert (X := aan_mono (a + 1) b ltac:(lia)). lra.
    - assert (X := aan_mono (b + 1) a ltac:(lia)). lra.
  Qed.
  Lemma bracket_exists j : 0 <= cap_area P j < @aan R RNum RTrunc P pv k (s_npart P) ->
    exists nn, (1 <= nn <= s_npart P - 1)%nat /\ @bracketed R RNum RTrunc P pv k j nn = true.
  Proof.
    intros [H0 H1].
    assert (G : forall n, (1 <= n)%nat -> cap_area P j < @aan R RNum RTrunc P pv k n -> exists nn, (1 <= nn <= n - 1)%nat /\ @bracketed R RNum RTrunc P pv k j nn = true).
    { induction n as [|n IH]; [lia|]. intros _ Hn. destruct n as [|n]; [unfold aan, cumulate in Hn; cbn [nzero RNum] in Hn; lra|].
      destruct (Rlt_dec (cap_area P j) (@aan R RNum RTrunc P pv k (S n))) as [L|L].
      - destruct (IH ltac:(lia) L) as (nn & A1 & A2). exists nn. split; [lia|exact A2].
      - exists (S n). split; [lia|]. apply bracket_true. replace (S n + 1)%nat with (S (S n)) by lia. lra. }
    apply G; [lia|exact H1].
  Qed.

  Definition weight (j nn : nat) : R := (cap_area P j - @aan R RNum RTrunc P pv k nn) / (@aan R RNum RTrunc P pv k (nn + 1) - @aan R RNum RTrunc P pv k nn).
  Lemma weight_range j nn : @bracketed R RNum RTrunc P pv k j nn = true -> 0 <= weight j nn < 1.
  Proof.
    intros H. apply bracket_true in H. unfold weight. split.
    - apply Rmult_le_pos; [lra|]. left. apply Rinv_0_lt_compat. lra.
    - apply Rmult_lt_reg_r with (@aan R RNum RTrunc P pv k (nn + 1) - @aan R RNum RTrunc P pv k nn); [lra|]. unfold Rdiv. rewrite Rmult_assoc, Rinv_l by lra. lra.
  Qed.
  Lemma at_row_bracketed j nn value old : (1 <= nn <= s_npart P - 1)%nat -> @bracketed R RNum RTrunc P pv k j nn = true ->
    @at_row R RNum RTrunc P pv k j value old = value nn * (1 - weight j nn) + value (nn + 1)%nat * weight j nn.
  Proof.
    intros Hn Hb. unfold at_row. set (f := fun q nn' => _).
    assert (Split : range 1 (s_npart P - 1) = range 1 (nn - 1) ++ nn :: range (nn + 1) (s_npart P - 1)).
    { unfold range. replace (s_npart P - 1 + 1 - 1)%nat with ((nn - 1 + 1 - 1) + S (s_npart P - 1 + 1 - (nn + 1)))%nat by lia.
      rewrite seq_app. f_equal. cbn [seq]. replace (1 + (nn - 1 + 1 - 1))%nat with nn by lia. replace (nn + 1)%nat with (S nn) by lia. reflexivity. }
    rewrite Split, fold_left_app. cbn [fold_left]. set (q0 := fold_left f _ old).
    assert (E : f q0 nn = value nn * (1 - weight j nn) + value (nn + 1)%nat * weight j nn).
    { unfold f. rewrite Hb. rewrite alat_cap. reflexivity. }
    rewrite E. assert (Rest : forall l q, (forall x, In x l -> (1 <= x)%nat /\ x <> nn) -> fold_left f l q = q).
    { induction l as [|x l IH]; intros q Hx; [reflexivity|]. cbn [fold_left]. rewrite IH by (intros; apply Hx; right; assumption).
      unfold f. destruct (@bracketed R RNum RTrunc P pv k j x) eqn:B; [|reflexivity]. exfalso. destruct (Hx x (or_introl eq_refl)) as [X1 X2].
      apply X2. apply (bracket_unique j); auto; lia. }
    apply Rest. intros x Hx. apply in_range in Hx. lia.
  Qed.
  Lemma at_row_none j value old : @aan R RNum RTrunc P pv k (s_npart P) <= cap_area P j -> @at_row R RNum RTrunc P pv k j value old = old.
  Proof.
    intros H. unfold at_row. set (f := fun q nn' => _). assert (G : forall l q, (forall x, In x l -> (1 <= x <= s_npart P - 1)%nat) -> fold_left f l q = q).
    { induction l as [|x l IH]; intros q Hx; [reflexivity|]. cbn [fold_left]. rewrite IH by (intros; apply Hx; right; assumption).
      unfold f. destruct (@bracketed R RNum RTrunc P pv k j x) eqn:B; [|reflexivity]. exfalso. apply bracket_true in B.
      assert (X := Hx x (or_introl eq_refl)). assert (Y := aan_mono (x + 1) (s_npart P) ltac:(lia)). lra. }
    apply G. intros x Hx. apply in_range in Hx. lia.
  Qed.

  (** the interpolated contour value decreases with the area *)
  Lemma at_row_range j : (exists nn, (1 <= nn <= s_npart P - 1)%nat /\ @bracketed R RNum RTrunc P pv k j nn = true) ->
    forall old, m <= @at_row R RNum RTrunc P pv k j (@qn R RNum P pv k) old <= M.
  Proof.
    intros (nn & Hn & Hb) old. rewrite (at_row_bracketed j nn) by assumption. rewrite !qn_contour. assert (W := weight_range j nn Hb).
    replace (nn + 1)%nat with (S nn) by lia. rewrite contour_S. assert (Hs := step_pos).
    replace (contour P M m nn * (1 - weight j nn) + (contour P M m nn - step) * weight j nn) with (contour P M m nn - weight j nn * step) by ring.
    assert (W1 : 0 <= weight j nn * step) by (apply Rmult_le_pos; lra). assert (W2 : weight j nn * step <= 1 * step) by (apply Rmult_le_compat_r; lra).
    assert (C1 : contour P M m nn <= M).
    { unfold contour. fold step. assert (0 <= (INR nn - 1) * step); [|lra]. apply Rmult_le_pos; [|lra]. assert (X : (1 <= nn)%nat) by lia. apply le_INR in X. cbn [INR] in X. lra. }
    assert (C2 : m + step <= contour P M m nn).
    { rewrite <- contour_last at 1. unfold contour. fold step. assert ((INR nn - 1) * step + step <= (INR (s_npart P) - 1) * step); [|lra].
      replace ((INR nn - 1) * step + step) with (INR nn * step) by ring. apply Rmult_le_compat_r; [lra|].
      assert (X : (nn + 1 <= s_npart P)%nat) by lia. apply le_INR in X. rewrite plus_INR in X. cbn [INR] in X. lra. }
    lra.
  Qed.
  Lemma at_row_antitone j1 j2 n1 n2 old1 old2 : cap_area P j2 <= cap_area P j1 ->
    (1 <= n1 <= s_npart P - 1)%nat -> @bracketed R RNum RTrunc P pv k j1 n1 = true ->
    (1 <= n2 <= s_npart P - 1)%nat -> @bracketed R RNum RTrunc P pv k j2 n2 = true ->
    @at_row R RNum RTrunc P pv k j1 (@qn R RNum P pv k) old1 <= @at_row R RNum RTrunc P pv k j2 (@qn R RNum P pv k) old2.
  Proof.
    intros Ha H1 B1 H2 B2. rewrite (at_row_bracketed j1 n1), (at_row_bracketed j2 n2) by assumption. rewrite !qn_contour. assert (Hs := step_pos).
    assert (W1 := weight_range j1 n1 B1). assert (W2 := weight_range j2 n2 B2).
    replace (n1 + 1)%nat with (S n1) by lia. replace (n2 + 1)%nat with (S n2) by lia. rewrite !contour_S.
    replace (contour P M m n1 * (1 - weight j1 n1) + (contour P M m n1 - step) * weight j1 n1) with (contour P M m n1 - weight j1 n1 * step) by ring.
    replace (contour P M m n2 * (1 - weight j2 n2) + (contour P M m n2 - step) * weight j2 n2) with (contour P M m n2 - weight j2 n2 * step) by ring.
    assert (L : (n2 <= n1)%nat).
    { apply bracket_true in B1, B2. destruct (Nat.le_gt_cases n2 n1) as [H|H]; [exact H|]. exfalso. assert (X := aan_mono (n1 + 1) n2 ltac:(lia)). lra. }
    destruct (Nat.eq_dec n1 n2) as [->|Hne].
    - assert (weight j2 n2 <= weight j1 n2); [|apply Rplus_le_compat_l, Ropp_le_contravar, Rmult_le_compat_r; lra].
      unfold weight. apply bracket_true in B2. apply Rmult_le_compat_r; [left; apply Rinv_0_lt_compat; lra|lra].
    - assert (C : contour P M m n1 <= contour P M m n2 - step).
      { rewrite <- contour_S. unfold contour. fold step. apply Rplus_le_compat_l, Ropp_le_contravar, Rmult_le_compat_r; [lra|].
        assert (X : (S n2 <= n1)%nat) by lia. apply le_INR in X. lra. }
      assert (X1 : 0 <= weight j1 n1 * step) by (apply Rmult_le_pos; lra). assert (X2 : weight j2 n2 * step <= 1 * step) by (apply Rmult_le_compat_r; lra). lra.
  Qed.
End Areas.
