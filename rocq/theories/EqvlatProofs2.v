(** Lifting the cell-list lemmas to [eqvlat_fawa], [eqvlat_vgrad] and [BarotropicField]. *)
From Verif Require Import EqvlatSpec Basis Barotropic SpecFacts LwaProofs EqvlatProofs.
Open Scope R_scope.

(** ** cells of a 2-d field *)
Lemma SumL_flat_map {S T} (g : S -> list T) l (f : T -> R) :
  SumL (flat_map g l) f = SumL l (fun x => SumL (g x) f).
Proof. induction l as [|x l IH]; [reflexivity|]. cbn [flat_map]. rewrite SumL_app, SumL_cons, IH. reflexivity. Qed.
Lemma SumL_seq n f : SumL (seq 0 n) f = Sum 0 n f.
Proof. unfold SumL, Sum. rewrite Nat.sub_0_r. reflexivity. Qed.
Lemma cells_sum nlat nlon vort area (f : R * R -> R) :
  SumL (cells_of nlat nlon vort area) f = Sum 0 nlat (fun j => Sum 0 nlon (fun i => f (vort j i, area j i))).
Proof.
  unfold cells_of. rewrite SumL_flat_map, SumL_seq. apply Sum_ext; intros j Hj.
  rewrite SumL_map, SumL_seq. reflexivity.
Qed.
Lemma cells_in nlat nlon (vort area : nat -> nat -> R) c :
  In c (cells_of nlat nlon vort area) <-> exists j i, (j < nlat)%nat /\ (i < nlon)%nat /\ c = (vort j i, area j i).
Proof.
  unfold cells_of. rewrite in_flat_map. split.
  - intros (j & Hj & H). apply in_map_iff in H. destruct H as (i & <- & Hi).
    apply in_seq in Hj, Hi. exists j, i. repeat split; lia.
  - intros (j & i & Hj & Hi & ->). exists j. split; [apply in_seq; lia|].
    apply in_map_iff. exists i. split; [reflexivity|apply in_seq; lia].
Qed.
Lemma cells_ne nlat nlon (vort area : nat -> nat -> R) : (0 < nlat)%nat -> (0 < nlon)%nat -> cells_of nlat nlon vort area <> [].
Proof.
  intros Hj Hi E. assert (H : In (vort 0%nat 0%nat, area 0%nat 0%nat) (cells_of nlat nlon vort area)).
  { apply cells_in. exists 0%nat, 0%nat. auto. }
  rewrite E in H. destruct H.
Qed.
Lemma cells_ext nlat nlon (vort area vort' area' : nat -> nat -> R) :
  (forall j i, (j < nlat)%nat -> (i < nlon)%nat -> vort j i = vort' j i /\ area j i = area' j i) ->
  cells_of nlat nlon vort area = cells_of nlat nlon vort' area'.
Proof.
  intros H. unfold cells_of. rewrite !flat_map_concat_map. f_equal. apply map_ext_in; intros j Hj. apply in_seq in Hj.
  apply map_ext_in; intros i Hi. apply in_seq in Hi. destruct (H j i) as [-> ->]; [lia|lia|reflexivity].
Qed.
Lemma fst_eqvlat_fawa nlat nlon ylat (vort area : nat -> nat -> R) n a flag :
  fst (eqvlat_fawa nlat nlon ylat vort area n a flag) = qref_of_cells ylat (cells_of nlat nlon vort area) n a.
Proof. destruct flag; reflexivity. Qed.

(** extremes of the field *)
Lemma lmin_cells nlat nlon vort area m : is_min nlat nlon vort m -> rlmin (map fst (cells_of nlat nlon vort area)) = m.
Proof.
  intros [(j & i & Hj & Hi & E) H]. apply lmin_unique.
  - apply in_map_iff. exists (vort j i, area j i). split; [exact E|]. apply cells_in. eauto.
  - intros x Hx. apply in_map_iff in Hx. destruct Hx as (c & <- & Hc). apply cells_in in Hc.
    destruct Hc as (j' & i' & Hj' & Hi' & ->). apply H; assumption.
Qed.
Lemma lmax_cells nlat nlon vort area m : is_max nlat nlon vort m -> rlmax (map fst (cells_of nlat nlon vort area)) = m.
Proof.
  intros [(j & i & Hj & Hi & E) H]. apply lmax_unique.
  - apply in_map_iff. exists (vort j i, area j i). split; [exact E|]. apply cells_in. eauto.
  - intros x Hx. apply in_map_iff in Hx. destruct Hx as (c & <- & Hc). apply cells_in in Hc.
    destruct Hc as (j' & i' & Hj' & Hi' & ->). apply H; assumption.
Qed.

(** ** vgrad variant computes the same profile *)
Lemma lmin_pair (x : R) : rlmin [x; x] = x.
Proof. apply lmin_unique; [left; reflexivity|]. intros y [<-|[<-|[]]]; lra. Qed.
Lemma lmax_pair (x : R) : rlmax [x; x] = x.
Proof. apply lmax_unique; [left; reflexivity|]. intros y [<-|[<-|[]]]; lra. Qed.
Lemma q_part_u_bins (cells : list (R * R)) n : q_part_u cells n = vort_bins cells n.
Proof. unfold q_part_u, vort_bins. rewrite lmin_pair, lmax_pair. reflexivity. Qed.
Lemma bin0_empty (cells : list (R * R)) n : (1 <= n)%nat -> bin_area cells (vort_bins cells n) n 0 = 0.
Proof.
  intros Hn. unfold bin_area. rewrite <- SumL_rlsum, SumL_filter. apply SumL_zero; intros c Hc.
  pose proof (digitize_pos cells c n Hn Hc). destruct (Nat.eqb_spec (digitize (vort_bins cells n) n (fst c)) 0); [lia|reflexivity].
Qed.
Lemma vgrad_aq (cells : list (R * R)) n k : (1 <= n)%nat -> ncumsum (vgrad_aa cells n) k = fawa_aq cells n k.
Proof.
  intros Hn. unfold ncumsum, fawa_aq, vgrad_aa, ncumsum. apply rsum_ext; intros [|i] Hi.
  - rewrite q_part_u_bins. apply bin0_empty, Hn.
  - rewrite q_part_u_bins. reflexivity.
Qed.
Lemma vgrad_same_qref nlat nlon ylat (vort area : nat -> nat -> R) n a flag vg l : (1 <= n)%nat ->
  fst (eqvlat_vgrad nlat nlon ylat vort area n a vg) l = fst (eqvlat_fawa nlat nlon ylat vort area n a flag) l.
Proof.
  intros Hn. rewrite fst_eqvlat_fawa.
  assert (E : fst (eqvlat_vgrad nlat nlon ylat vort area n a vg) l =
    interp1 n (vgrad_lat_part (cells_of nlat nlon vort area) n a) (q_part_u (cells_of nlat nlon vort area) n) (ylat l))
    by (destruct vg; reflexivity).
  rewrite E. apply interp1_ext; [assumption| |].
  - intros k Hk. unfold vgrad_lat_part, eqv_latitude. rewrite vgrad_aq by assumption. reflexivity.
  - intros k Hk. rewrite q_part_u_bins. reflexivity.
Qed.

(** bin average *)
Lemma dp_range (cells3 : list ((R * R) * R)) n i lo hi :
  (forall c, In c cells3 -> 0 <= snd (fst c) /\ lo <= snd c <= hi) ->
  vgrad_dp cells3 n i = 0 \/ lo <= vgrad_dp cells3 n i <= hi.
Proof.
  intros H. set (p := fun c : (R * R) * R => Nat.eqb (digitize (q_part_u (map fst cells3) n) n (fst (fst c))) i).
  set (w := SumL cells3 (fun x => if p x then snd (fst x) else 0)).
  assert (EA : vgrad_aa (map fst cells3) n i = w).
  { unfold vgrad_aa, bin_area. rewrite <- (SumL_rlsum _ snd), SumL_filter, SumL_map. reflexivity. }
  assert (ED : vgrad_dp cells3 n i = if Reqb w 0 then 0 else SumL cells3 (fun x => if p x then snd (fst x) * snd x else 0) / w).
  { unfold vgrad_dp. rewrite EA. toR. destruct (Reqb w 0); [reflexivity|].
    rewrite <- (SumL_rlsum _ (fun c => snd (fst c) * snd c)), SumL_filter. reflexivity. }
  rewrite ED. destruct (Reqb_spec w 0) as [E|E]; [left; reflexivity|right].
  assert (W0 : 0 <= w).
  { apply SumL_nonneg; intros c Hc. destruct (H c Hc). destruct (p c); lra. }
  assert (W : 0 < w) by lra.
  assert (L : lo * w <= SumL cells3 (fun x => if p x then snd (fst x) * snd x else 0) <= hi * w).
  { unfold w. rewrite <- !SumL_scal. split; apply SumL_le; intros c Hc; destruct (H c Hc) as [? [? ?]]; destruct (p c); nra. }
  split.
  - apply Rmult_le_reg_r with w; [assumption|]. unfold Rdiv; rewrite Rmult_assoc, Rinv_l by lra. lra.
  - apply Rmult_le_reg_r with w; [assumption|]. unfold Rdiv; rewrite Rmult_assoc, Rinv_l by lra. lra.
Qed.
Lemma interp1_hull n xp fp (x : R) lo hi : (1 <= n)%nat -> nondecreasing n xp ->
  (forall k, (k < n)%nat -> lo <= fp k <= hi) -> lo <= interp1 n xp fp x <= hi.
Proof.
  intros Hn Mx Hf. destruct (interp_cases n xp fp Hn x) as [H|H H'|H|j Hj H]; try (apply Hf; lia).
  pose proof (Hf j ltac:(lia)) as F0. pose proof (Hf (S j) Hj) as F1.
  set (d := xp (S j) - xp j). assert (D : 0 < d) by (unfold d; lra).
  set (t := (x - xp j) / d).
  assert (T : 0 <= t <= 1).
  { unfold t. split.
    - apply Rmult_le_pos; [lra|left; apply Rinv_0_lt_compat; assumption].
    - apply Rmult_le_reg_r with d; [assumption|]. unfold Rdiv; rewrite Rmult_assoc, Rinv_l by lra. unfold d; lra. }
  replace ((fp (S j) - fp j) / d * (x - xp j) + fp j) with (fp j * (1 - t) + fp (S j) * t) by (unfold t; field; lra).
  split; nra.
Qed.
Lemma cells3_fst nlat nlon (vort area vg : nat -> nat -> R) : map fst (cells3_of nlat nlon vort area vg) = cells_of nlat nlon vort area.
Proof.
  unfold cells3_of, cells_of. rewrite flat_map_concat_map, concat_map, map_map, flat_map_concat_map. f_equal.
  apply map_ext; intros j. rewrite map_map. reflexivity.
Qed.
Lemma brac_range nlat nlon ylat (vort area vg : nat -> nat -> R) n a lo hi l : (1 <= n)%nat -> 0 < a -> lo <= 0 <= hi ->
  (forall j i, (j < nlat)%nat -> (i < nlon)%nat -> 0 <= area j i /\ lo <= vg j i <= hi) ->
  Sum 0 nlat (fun j => Sum 0 nlon (fun i => area j i)) <= sphere a ->
  exists b, snd (eqvlat_vgrad nlat nlon ylat vort area n a (Some vg)) = Some b /\ lo <= b l <= hi.
Proof.
  intros Hn Ha H0 H Htot. eexists; split; [reflexivity|]. unfold interp.
  set (cells := cells_of nlat nlon vort area).
  assert (An : forall c, In c cells -> 0 <= snd c).
  { intros c Hc. apply cells_in in Hc. destruct Hc as (j & i & Hj & Hi & ->). apply H; assumption. }
  assert (At : SumL cells snd <= sphere a) by (unfold cells; rewrite cells_sum; exact Htot).
  apply interp1_hull; [assumption| |].
  - intros i k Hk. pose proof (lat_mono cells n a Hn Ha An At i k Hk) as M.
    unfold vgrad_lat_part, eqv_latitude in *. rewrite !vgrad_aq by assumption. exact M.
  - intros k Hk. unfold vgrad_brac. toR.
    assert (D : forall i, lo <= vgrad_dp (cells3_of nlat nlon vort area vg) n i <= hi).
    { intros i. destruct (dp_range (cells3_of nlat nlon vort area vg) n i lo hi) as [E|E]; [|lra|lra].
      intros c Hc. unfold cells3_of in Hc. apply in_flat_map in Hc. destruct Hc as (j & Hj & Hc).
      apply in_map_iff in Hc. destruct Hc as (i' & <- & Hi'). apply in_seq in Hj, Hi'. apply H; lia. }
    pose proof (D (k - 1)%nat). pose proof (D (S k)).
    destruct (_ && _); lra.
Qed.

(** ** default areas *)
Lemma sin_ge_xcos x : 0 <= x <= PI -> x * cos x <= sin x.
Proof.
  intros [H0 H1]. destruct H0 as [H0|<-]; [|rewrite sin_0; lra].
  pose (f := fun x => sin x - x * cos x).
  assert (D : forall c, 0 <= c <= x -> derivable_pt_lim f c (c * sin c)).
  { intros c Hc. unfold f. replace (c * sin c) with (cos c - (1 * cos c + c * - sin c)) by lra.
    apply (derivable_pt_lim_minus sin (fun x => x * cos x)).
    - apply derivable_pt_lim_sin.
    - apply (derivable_pt_lim_mult (fun x => x) cos); [apply derivable_pt_lim_id|apply derivable_pt_lim_cos]. }
  destruct (MVT_cor2 f (fun c => c * sin c) 0 x H0 D) as (c & E & Hc).
  unfold f in E. rewrite sin_0 in E.
  assert (0 <= sin c) by (apply sin_ge_0; lra).
  assert (0 <= c * sin c * (x - 0)) by (apply Rmult_le_pos; [apply Rmult_le_pos|]; lra). lra.
Qed.

Lemma sum_sines d N : Sum 0 (S N) (fun j => 2 * sin (INR j * d) * sin (d / 2)) = cos (d / 2) - cos (INR N * d + d / 2).
Proof.
  induction N as [|N IH].
  - unfold Sum; cbn. rewrite Rmult_0_l, sin_0, Rplus_0_l. lra.
  - rewrite Sum_S_r, IH by lia. rewrite S_INR.
    assert (E : 2 * sin ((INR N + 1) * d) * sin (d / 2) = cos (INR N * d + d / 2) - cos ((INR N + 1) * d + d / 2)).
    { replace (INR N * d + d / 2) with ((INR N + 1) * d - d / 2) by lra.
      rewrite cos_minus, cos_plus. lra. }
    lra.
Qed.

Lemma cos_grid_sum nlat : (2 <= nlat)%nat ->
  PI / INR (nlat - 1) * Sum 0 nlat (fun j => cos (- (PI / 2) + INR j * (PI / INR (nlat - 1)))) <= 2 /\
  (forall j, (j < nlat)%nat -> 0 <= cos (- (PI / 2) + INR j * (PI / INR (nlat - 1)))).
Proof.
  intros Hn. set (N := (nlat - 1)%nat). assert (HN : (1 <= N)%nat) by (unfold N; lia).
  pose proof PI_RGT_0 as P. assert (IN : 1 <= INR N) by (apply (le_INR 1); lia).
  set (d := PI / INR N).
  assert (Hd : INR N * d = PI) by (unfold d; field; lra).
  assert (D0 : 0 < d) by (apply Rmult_lt_0_compat; [lra|apply Rinv_0_lt_compat; lra]).
  assert (D1 : d <= PI) by (rewrite <- Hd; nra).
  assert (C : forall x, cos (- (PI / 2) + x) = sin x).
  { intros x. rewrite cos_plus, cos_neg, sin_neg, cos_PI2, sin_PI2. lra. }
  split.
  - rewrite (Sum_ext 0 nlat _ (fun j => sin (INR j * d))) by (intros; apply C).
    assert (E := sum_sines d N). rewrite Hd, Rplus_comm, neg_cos in E.
    replace (S N) with nlat in E by (unfold N; lia).
    rewrite (Sum_ext 0 nlat _ (fun j => (2 * sin (d / 2)) * sin (INR j * d))) in E by (intros; lra).
    rewrite Sum_scal in E. set (s := Sum 0 nlat (fun j => sin (INR j * d))) in *.
    pose proof (sin_ge_xcos (d / 2) ltac:(lra)) as X.
    assert (0 < sin (d / 2)) by (apply sin_gt_0; lra).
    assert (s * sin (d / 2) = cos (d / 2)) by lra.
    apply Rmult_le_reg_r with (sin (d / 2)); [assumption|]. rewrite Rmult_assoc, H0. lra.
  - intros j Hj. rewrite C. apply sin_ge_0.
    + apply Rmult_le_pos; [apply pos_INR|]. lra.
    + rewrite <- Hd. apply Rmult_le_compat_r; [lra|]. apply le_INR; unfold N; lia.
Qed.

Lemma default_area_total nlat nlon a : (2 <= nlat)%nat -> (1 <= nlon)%nat -> 0 < a ->
  let ylat := fun j => -90 + INR j * (180 / INR (nlat - 1)) in
  let area := default_area nlon ylat (default_dphi nlat) a in
  Sum 0 nlat (fun j => Sum 0 nlon (fun i => area j i)) <= sphere a /\
  forall j i, (j < nlat)%nat -> 0 <= area j i.
Proof.
  intros Hn Hl Ha ylat area. destruct (cos_grid_sum nlat Hn) as [HS HC].
  pose proof PI_RGT_0 as P.
  assert (IN : 1 <= INR (nlat - 1)) by (apply (le_INR 1); lia).
  assert (IL : 1 <= INR nlon) by (apply (le_INR 1); lia).
  assert (E : forall j i, area j i = (2 * PI * (a * a)) * (PI / INR (nlat - 1)) / INR nlon * cos (- (PI / 2) + INR j * (PI / INR (nlat - 1)))).
  { intros j i. unfold area, default_area, default_dphi, nsq. rewrite !nofnat_INR. toR. unfold ylat.
    replace ((-90 + INR j * (180 / INR (nlat - 1))) * PI / 180) with (- (PI / 2) + INR j * (PI / INR (nlat - 1))) by (field; lra).
    field. lra. }
  pose proof (two_pi_a2 a Ha) as W.
  assert (W2 : 0 <= (2 * PI * (a * a)) * (PI / INR (nlat - 1)) / INR nlon).
  { apply Rmult_le_pos; [|left; apply Rinv_0_lt_compat; lra]. apply Rmult_le_pos; [lra|].
    apply Rmult_le_pos; [lra|left; apply Rinv_0_lt_compat; lra]. }
  split.
  - rewrite (Sum_ext 0 nlat _ (fun j => (2 * PI * (a * a)) * (PI / INR (nlat - 1)) * cos (- (PI / 2) + INR j * (PI / INR (nlat - 1))))).
    + rewrite Sum_scal, Rmult_assoc. unfold sphere.
      replace (4 * PI * a ^ 2) with ((2 * PI * (a * a)) * 2) by ring.
      apply Rmult_le_compat_l; [lra|exact HS].
    + intros j Hj. rewrite Sum0_rsum, (rsum_ext _ _ _ (fun i _ => E j i)), rsum_const. field. lra.
  - intros j i Hj. rewrite E. apply Rmult_le_pos; [assumption|]. apply HC; assumption.
Qed.

(** ** FAWA closed form *)
Lemma cbar_at_sum (qbar S : nat -> R) nlat m : (m < nlat)%nat ->
  cbar_at qbar S nlat m = Sum (nlat - 1 - m) (nlat - 1) (fun r => (1 / 2) * (qbar (r + 1)%nat * S (r + 1)%nat + qbar r * S r)).
Proof.
  induction m as [|m IH]; intros H.
  - cbn [cbar_at]. rewrite Sum_empty by lia. reflexivity.
  - cbn [cbar_at]. rewrite IH by lia. toR. rewrite (Sum_S_l (nlat - 1 - Datatypes.S m)) by lia.
    replace (Datatypes.S (nlat - 1 - Datatypes.S m)) with (nlat - 1 - m)%nat by lia.
    replace (nlat - 1 - Datatypes.S m + 1)%nat with (nlat - 1 - m)%nat by lia. lra.
Qed.

(** ** statements over grids *)
Lemma pairs_cells nlat nlon v w : grid_pairs nlat nlon v w = cells_of nlat nlon v w.
Proof.
  unfold grid_pairs, cells_of. generalize (seq 0 nlat) as l. intros l. induction l as [|j l IH]; [reflexivity|].
  cbn [list_prod flat_map]. rewrite map_app, IH, map_map. reflexivity.
Qed.
Lemma total_below_cells nlat nlon v w q :
  SumL (cells_of nlat nlon v w) (fun c => if Rlt_dec (fst c) q then snd c else 0) = total_below nlat nlon v w q.
Proof. rewrite cells_sum. reflexivity. Qed.
Lemma contour_bins nlat nlon v w lo hi n k : is_min nlat nlon v lo -> is_max nlat nlon v hi -> (2 <= n)%nat -> (k < n)%nat ->
  vort_bins (cells_of nlat nlon v w) n k = contour lo hi n k.
Proof.
  intros Hlo Hhi Hn Hk. unfold vort_bins. rewrite (lmin_cells _ _ _ _ _ Hlo), (lmax_cells _ _ _ _ _ Hhi).
  rewrite linspace_lin by lia. unfold contour. lra.
Qed.
Lemma min_pos nlat nlon v lo : is_min nlat nlon v lo -> (0 < nlat)%nat /\ (0 < nlon)%nat.
Proof. intros [(j & i & Hj & Hi & _) _]. lia. Qed.
Lemma aq_grid nlat nlon v w lo hi n k : is_min nlat nlon v lo -> is_max nlat nlon v hi -> (2 <= n)%nat -> (k < n)%nat ->
  fawa_aq (cells_of nlat nlon v w) n k = total_below nlat nlon v w (contour lo hi n k).
Proof.
  intros Hlo Hhi Hn Hk. rewrite aq_spec by lia. rewrite (contour_bins _ _ _ _ _ _ _ _ Hlo Hhi Hn Hk).
  apply total_below_cells.
Qed.
Lemma cq_grid nlat nlon v w lo hi n k : is_min nlat nlon v lo -> is_max nlat nlon v hi -> (2 <= n)%nat -> (k < n)%nat ->
  fawa_cq (cells_of nlat nlon v w) n k = total_below nlat nlon v (fun j i => w j i * v j i) (contour lo hi n k).
Proof.
  intros Hlo Hhi Hn Hk. rewrite cq_spec by lia. rewrite (contour_bins _ _ _ _ _ _ _ _ Hlo Hhi Hn Hk).
  rewrite cells_sum. reflexivity.
Qed.
Lemma eqv_latitude_eq aq a k : eqv_latitude aq a k = latitude_of_area a (aq k).
Proof. unfold eqv_latitude, latitude_of_area, rad2deg, nsq. toR. replace (a ^ 2) with (a * a) by ring. reflexivity. Qed.

Lemma interp_on_curve n xp fp x : (1 <= n)%nat -> nondecreasing n xp -> on_curve n xp fp x (interp1 n xp fp x).
Proof.
  intros Hn M. pose proof (interp_cases n xp fp Hn x) as C. split; [|split].
  - intros Hx. assert (H00 : xp 0%nat <= xp (n - 1)%nat) by (apply M; lia).
    destruct C as [H|H H'|H|j Hj H]; try reflexivity; try lra.
    assert (xp 0%nat <= xp j) by (apply M; lia). lra.
  - intros Hx. destruct C as [H|H H'|H|j Hj H]; try reflexivity.
    + assert (xp 0%nat <= xp (n - 1)%nat) by (apply M; lia). lra.
    + assert (xp (S j) <= xp (n - 1)%nat) by (apply M; lia). lra.
  - intros k Hk Hx. destruct C as [H|H H'|H|j Hj H].
    + assert (xp (S k) <= xp (n - 1)%nat) by (apply M; lia). lra.
    + assert (xp 0%nat <= xp k) by (apply M; lia). lra.
    + assert (xp (S k) <= xp (n - 1)%nat) by (apply M; lia). lra.
    + assert (j = k).
      { destruct (Nat.lt_trichotomy j k) as [L|[L|L]]; [|assumption|].
        - assert (xp (S j) <= xp k) by (apply M; lia). lra.
        - assert (xp (S k) <= xp j) by (apply M; lia). lra. }
      subst j. field. lra.
Qed.

Section Grid.
  Variables (nlat nlon : nat) (ylat : nat -> R) (vort area : nat -> nat -> R) (n : nat) (a lo hi : R).
  Hypothesis Hn : (2 <= n)%nat.
  Hypothesis Ha : 0 < a.
  Hypothesis Hlo : is_min nlat nlon vort lo.
  Hypothesis Hhi : is_max nlat nlon vort hi.
  Hypothesis Hnn : forall j i, (j < nlat)%nat -> (i < nlon)%nat -> 0 <= area j i.
  Hypothesis Htot : total nlat nlon area <= sphere a.
  Let cells := cells_of nlat nlon vort area.
  Lemma n1 : (1 <= n)%nat. Proof. lia. Qed.

  Lemma grid_ne : cells <> [].
  Proof. destruct (min_pos _ _ _ _ Hlo). apply cells_ne; assumption. Qed.
  Lemma grid_nn c : In c cells -> 0 <= snd c.
  Proof. intros Hc. apply cells_in in Hc. destruct Hc as (j & i & Hj & Hi & ->). apply Hnn; assumption. Qed.
  Lemma grid_total : SumL cells snd <= sphere a.
  Proof. unfold cells. rewrite cells_sum. exact Htot. Qed.

  Lemma grid_lat_mono : nondecreasing n (fun k => latitude_of_area a (total_below nlat nlon vort area (contour lo hi n k))).
  Proof.
    intros i k Hk. pose proof (lat_mono cells n a n1 Ha grid_nn grid_total i k Hk) as M.
    rewrite !eqv_latitude_eq in M. unfold cells in M. rewrite !(aq_grid nlat nlon vort area lo hi) in M by (assumption || lia). exact M.
  Qed.

  Lemma grid_below_start : total_below nlat nlon vort area (contour lo hi n 0) = 0.
  Proof. rewrite <- (aq_grid nlat nlon vort area lo hi n 0) by (assumption || lia). apply aq_0. lia. Qed.

  Lemma grid_below_mono i k : (i <= k < n)%nat ->
    0 <= total_below nlat nlon vort area (contour lo hi n i) <= total_below nlat nlon vort area (contour lo hi n k) /\
    total_below nlat nlon vort area (contour lo hi n k) <= total nlat nlon area.
  Proof.
    intros Hk. rewrite <- !(aq_grid nlat nlon vort area lo hi n) by (assumption || lia).
    fold cells. pose proof (aq_range cells grid_nn n i n1 ltac:(lia)). pose proof (aq_range cells grid_nn n k n1 ltac:(lia)).
    pose proof (aq_mono cells grid_nn n n1 i k Hk).
    assert (SumL cells snd = total nlat nlon area) by (unfold cells; rewrite cells_sum; reflexivity). lra.
  Qed.

  Lemma grid_curve flag l :
    on_curve n (fun k => latitude_of_area a (total_below nlat nlon vort area (contour lo hi n k))) (contour lo hi n)
             (ylat l) (fst (eqvlat_fawa nlat nlon ylat vort area n a flag) l).
  Proof.
    rewrite fst_eqvlat_fawa. unfold qref_of_cells, interp.
    rewrite (interp1_ext n _ (fun k => latitude_of_area a (total_below nlat nlon vort area (contour lo hi n k))) _ (contour lo hi n)).
    - apply interp_on_curve; [lia|apply grid_lat_mono].
    - lia.
    - intros k Hk. rewrite eqv_latitude_eq, (aq_grid nlat nlon vort area lo hi) by (assumption || lia). reflexivity.
    - intros k Hk. apply contour_bins; assumption.
  Qed.

  Lemma grid_qref_mono flag l m : ylat l <= ylat m ->
    fst (eqvlat_fawa nlat nlon ylat vort area n a flag) l <= fst (eqvlat_fawa nlat nlon ylat vort area n a flag) m.
  Proof. intros H. rewrite fst_eqvlat_fawa. apply qref_mono; auto using grid_nn, grid_total, n1. Qed.

  Lemma grid_qref_range flag l : lo <= fst (eqvlat_fawa nlat nlon ylat vort area n a flag) l <= hi.
  Proof.
    rewrite fst_eqvlat_fawa. pose proof (qref_range cells n a ylat n1 l) as H.
    unfold cells in H. rewrite (lmin_cells _ _ _ _ _ Hlo), (lmax_cells _ _ _ _ _ Hhi) in H. exact H.
  Qed.

  Lemma grid_area_matching flag l k : (k < n)%nat -> -90 <= ylat l <= 90 ->
    cap_area a (ylat l) = total_below nlat nlon vort area (contour lo hi n k) ->
    ((S k < n)%nat -> total_below nlat nlon vort area (contour lo hi n k) < total_below nlat nlon vort area (contour lo hi n (S k))) ->
    fst (eqvlat_fawa nlat nlon ylat vort area n a flag) l = contour lo hi n k.
  Proof.
    intros Hk Hy He Hs. rewrite fst_eqvlat_fawa. fold cells.
    rewrite (qref_area_matching cells n a ylat n1 Ha grid_nn grid_total l k Hk Hy).
    - apply contour_bins; assumption.
    - unfold cells. rewrite (aq_grid nlat nlon vort area lo hi) by assumption. exact He.
    - intros HS. unfold cells. rewrite !(aq_grid nlat nlon vort area lo hi) by assumption. apply Hs; assumption.
  Qed.
End Grid.

Lemma grid_perm nlat nlon nlat' nlon' ylat v w v' w' n a l : (1 <= n)%nat ->
  (0 < nlat)%nat -> (0 < nlon)%nat ->
  Permutation (grid_pairs nlat nlon v w) (grid_pairs nlat' nlon' v' w') ->
  fst (eqvlat_fawa nlat nlon ylat v w n a false) l = fst (eqvlat_fawa nlat' nlon' ylat v' w' n a false) l.
Proof.
  intros Hn H0 H1 H. rewrite !pairs_cells in H. rewrite !fst_eqvlat_fawa. apply qref_perm; [apply cells_ne; assumption|assumption|exact H].
Qed.

Lemma grid_affine nlat nlon ylat v w n a c d l flag : (1 <= n)%nat -> (0 < nlat)%nat -> (0 < nlon)%nat -> 0 < c ->
  fst (eqvlat_fawa nlat nlon ylat (fun j i => c * v j i + d) w n a flag) l = c * fst (eqvlat_fawa nlat nlon ylat v w n a flag) l + d.
Proof.
  intros Hn H0 H1 Hc. rewrite !fst_eqvlat_fawa. rewrite <- (qref_affine ylat c d) by (try assumption; apply cells_ne; assumption).
  f_equal. unfold cells_of, scale_cells. rewrite !flat_map_concat_map, concat_map, map_map. f_equal. apply map_ext; intros j.
  rewrite map_map. reflexivity.
Qed.

(** ** FAWA *)
Lemma grid_fawa_formula nlat nlon ylat vort area n a lo hi l k :
  (2 <= n)%nat -> 0 < a -> is_min nlat nlon vort lo -> is_max nlat nlon vort hi ->
  (forall j i, (j < nlat)%nat -> (i < nlon)%nat -> 0 <= area j i) -> total nlat nlon area <= sphere a ->
  (S l < nlat)%nat -> (k < n)%nat -> -90 <= ylat (S l) <= 90 ->
  cap_area a (ylat (S l)) = total_below nlat nlon vort area (contour lo hi n k) ->
  ((S k < n)%nat -> total_below nlat nlon vort area (contour lo hi n k) < total_below nlat nlon vort area (contour lo hi n (S k))) ->
  exists fawa, snd (eqvlat_fawa nlat nlon ylat vort area n a true) = Some fawa /\
    2 * PI * a * fawa l =
      - total_below nlat nlon vort (fun j i => area j i * vort j i) (contour lo hi n k)
      - Sum (S l) (nlat - 1) (fun r =>
          (1 / 2) * (Sum 0 nlon (fun i => vort r i) / INR nlon * Sum 0 nlon (fun i => area r i)
                   + Sum 0 nlon (fun i => vort (r + 1)%nat i) / INR nlon * Sum 0 nlon (fun i => area (r + 1)%nat i))).
Proof.
  intros Hn Ha Hlo Hhi Hnn Htot Hl Hk Hy He Hs. eexists; split; [reflexivity|]. cbv beta.
  set (cells := cells_of nlat nlon vort area).
  assert (n1 : (1 <= n)%nat) by lia.
  pose proof PI_RGT_0 as P.
  assert (E : ylat (S l) = eqv_latitude (fawa_aq cells n) a k).
  { rewrite eqv_latitude_eq. unfold cells. rewrite (aq_grid nlat nlon vort area lo hi) by assumption. rewrite <- He.
    unfold latitude_of_area, cap_area.
    replace (2 * PI * a ^ 2 * (1 + sin (ylat (S l) * PI / 180)) / (2 * PI * a ^ 2) - 1)
      with (sin (ylat (S l) * PI / 180)) by (field; lra).
    assert (-90 * PI <= ylat (S l) * PI) by (apply Rmult_le_compat_r; lra).
    assert (ylat (S l) * PI <= 90 * PI) by (apply Rmult_le_compat_r; lra).
    rewrite asin_sin by lra. field. lra. }
  assert (C : cref_of_cells ylat cells n a (S l) = fawa_cq cells n k).
  { unfold cref_of_cells, interp. rewrite E. apply interp1_node.
    - assumption.
    - apply (lat_mono cells n a n1 Ha (grid_nn nlat nlon vort area Hnn) (grid_total nlat nlon vort area a Htot)).
    - assumption.
    - intros HS. rewrite !eqv_latitude_eq. unfold cells. rewrite !(aq_grid nlat nlon vort area lo hi) by (assumption || lia).
      pose proof (grid_below_mono nlat nlon vort area n lo hi Hn Hlo Hhi Hnn k (S k) ltac:(lia)) as [B1 B2].
      specialize (Hs HS). unfold latitude_of_area. apply Rmult_lt_compat_r.
      { apply Rmult_lt_0_compat; [lra|apply Rinv_0_lt_compat; lra]. }
      assert (R1 : 0 <= total_below nlat nlon vort area (contour lo hi n k) <= sphere a) by lra.
      assert (R2 : 0 <= total_below nlat nlon vort area (contour lo hi n (S k)) <= sphere a) by lra.
      pose proof (eqv_arg_range a _ Ha R1). pose proof (eqv_arg_range a _ Ha R2). pose proof (eqv_arg_strict a _ _ Ha Hs).
      replace (a ^ 2) with (a * a) by ring. apply asin_strict; lra. }
  rewrite C. unfold cells. rewrite (cq_grid nlat nlon vort area lo hi) by assumption.
  unfold cbar. rewrite cbar_at_sum by lia. replace (nlat - 1 - (nlat - 1 - S l))%nat with (S l) by lia.
  unfold row_mean, row_sum. rewrite nofnat_INR. toR.
  rewrite (Sum_ext (S l) (nlat - 1) _ (fun r =>
          (1 / 2) * (Sum 0 nlon (fun i => vort r i) / INR nlon * Sum 0 nlon (fun i => area r i)
                   + Sum 0 nlon (fun i => vort (r + 1)%nat i) / INR nlon * Sum 0 nlon (fun i => area (r + 1)%nat i)))).
  - field. lra.
  - intros r Hr. rewrite !Sum0_rsum. apply (f_equal (Rmult (1 / 2))), Rplus_comm.
Qed.

(** constant field: FAWA is not zero *)
Lemma fawa_constant_nonzero :
  exists nlat nlon ylat vort area n a fawa,
    (forall j i, vort j i = 1) /\ (forall j i, 0 <= area j i) /\ total nlat nlon area <= sphere a /\
    snd (eqvlat_fawa nlat nlon ylat vort area n a true) = Some fawa /\ fawa 0%nat <> 0.
Proof.
  exists 3%nat, 1%nat, (fun j => -90 + 90 * INR j), (fun _ _ => 1), (fun _ _ => 1), 2%nat, 1.
  eexists. split; [reflexivity|]. split; [intros; lra|]. split.
  { unfold total, sphere, Sum; cbn. pose proof PI_RGT_0. pose proof PI2_3_2. lra. }
  split; [reflexivity|]. cbv beta.
  set (cells := cells_of 3 1 (fun _ _ => 1) (fun _ _ => 1)).
  assert (M : is_min 3 1 (fun _ _ : nat => 1) 1) by (split; [exists 0%nat, 0%nat; repeat split; lia|intros; lra]).
  assert (X : is_max 3 1 (fun _ _ : nat => 1) 1) by (split; [exists 0%nat, 0%nat; repeat split; lia|intros; lra]).
  assert (Z : forall k, (k < 2)%nat -> fawa_cq cells 2 k = 0).
  { intros k Hk. unfold cells. rewrite (cq_grid 3 1 _ _ 1 1) by (assumption || lia). unfold total_below, contour, Sum; cbn.
    replace (1 + INR k * ((1 - 1) / 1)) with 1 by field.
    destruct (Rlt_dec 1 1); lra. }
  assert (C : cref_of_cells (fun j => -90 + 90 * INR j) cells 2 1 1 = 0).
  { unfold cref_of_cells, interp.
    rewrite (interp1_ext 2 _ (eqv_latitude (fawa_aq cells 2) 1) _ (fun k => 0 * 0 + 0)); [|lia|reflexivity|intros k Hk; rewrite Z by assumption; lra].
    rewrite (interp1_affine 2 _ (fun _ => 0) 0 0). lra. }
  rewrite C. unfold cbar. rewrite cbar_at_sum by lia. unfold Sum; cbn [seq map fold_right Nat.sub Nat.add].
  unfold row_mean, row_sum. rewrite !rsum_S, !rsum_0, nofnat_INR. toR. cbn [INR].
  pose proof PI_RGT_0 as P. assert (0 < / (2 * PI * 1)) by (apply Rinv_0_lt_compat; lra).
  unfold Rdiv. nra.
Qed.

Lemma grid_cumulative nlat nlon vort area n lo hi i k :
  (2 <= n)%nat -> is_min nlat nlon vort lo -> is_max nlat nlon vort hi ->
  (forall j i, (j < nlat)%nat -> (i < nlon)%nat -> 0 <= area j i) -> (i <= k < n)%nat ->
  fawa_aq (cells_of nlat nlon vort area) n 0 = 0 /\
  fawa_aq (cells_of nlat nlon vort area) n k = total_below nlat nlon vort area (contour lo hi n k) /\
  0 <= fawa_aq (cells_of nlat nlon vort area) n i <= fawa_aq (cells_of nlat nlon vort area) n k /\
  fawa_aq (cells_of nlat nlon vort area) n k <= total nlat nlon area.
Proof.
  intros Hn Hlo Hhi Hnn Hk. split; [apply aq_0; lia|].
  rewrite !(aq_grid nlat nlon vort area lo hi) by (assumption || lia). split; [reflexivity|].
  apply (grid_below_mono nlat nlon vort area n lo hi Hn Hlo Hhi Hnn i k Hk).
Qed.

Lemma grid_mono_range nlat nlon ylat vort area n a lo hi flag :
  (2 <= n)%nat -> 0 < a -> is_min nlat nlon vort lo -> is_max nlat nlon vort hi ->
  (forall j i, (j < nlat)%nat -> (i < nlon)%nat -> 0 <= area j i) -> total nlat nlon area <= sphere a ->
  nondecreasing nlat ylat ->
  nondecreasing nlat (fst (eqvlat_fawa nlat nlon ylat vort area n a flag)) /\
  forall l, lo <= fst (eqvlat_fawa nlat nlon ylat vort area n a flag) l <= hi.
Proof.
  intros Hn Ha Hlo Hhi Hnn Ht Hy. split.
  - intros l m Hlm. apply grid_qref_mono; try assumption. apply Hy, Hlm.
  - intros l. apply grid_qref_range; assumption.
Qed.

Lemma dp_range_nonempty (cells3 : list ((R * R) * R)) n i lo hi :
  (forall c, In c cells3 -> 0 <= snd (fst c) /\ lo <= snd c <= hi) ->
  vgrad_aa (map fst cells3) n i <> 0 -> lo <= vgrad_dp cells3 n i <= hi.
Proof.
  intros H Hne.
  set (p := fun c : (R * R) * R => Nat.eqb (digitize (q_part_u (map fst cells3) n) n (fst (fst c))) i).
  set (w := SumL cells3 (fun x => if p x then snd (fst x) else 0)).
  assert (EA : vgrad_aa (map fst cells3) n i = w).
  { unfold vgrad_aa, bin_area. rewrite <- (SumL_rlsum _ snd), SumL_filter, SumL_map. reflexivity. }
  assert (ED : vgrad_dp cells3 n i = if Reqb w 0 then 0 else SumL cells3 (fun x => if p x then snd (fst x) * snd x else 0) / w).
  { unfold vgrad_dp. rewrite EA. toR. destruct (Reqb w 0); [reflexivity|].
    rewrite <- (SumL_rlsum _ (fun c => snd (fst c) * snd c)), SumL_filter. reflexivity. }
  rewrite EA in Hne.
  assert (W0 : 0 <= w).
  { apply SumL_nonneg; intros c Hc. destruct (H c Hc). destruct (p c); lra. }
  rewrite ED. destruct (Reqb_spec w 0) as [E|E]; [contradiction|].
  assert (W : 0 < w) by lra.
  assert (L : lo * w <= SumL cells3 (fun x => if p x then snd (fst x) * snd x else 0) <= hi * w).
  { unfold w. rewrite <- !SumL_scal. split; apply SumL_le; intros c Hc; destruct (H c Hc) as [? [? ?]]; destruct (p c); nra. }
  split; (apply Rmult_le_reg_r with w; [assumption|]; unfold Rdiv; rewrite Rmult_assoc, Rinv_l by lra; lra).
Qed.

Lemma total_split nlat nlon v w q :
  total nlat nlon w = total_below nlat nlon v w q +
    Sum 0 nlat (fun j => Sum 0 nlon (fun i => if Rlt_dec (v j i) q then 0 else w j i)).
Proof.
  unfold total, total_below. rewrite <- Sum_plus. apply Sum_ext; intros j Hj. rewrite <- Sum_plus. apply Sum_ext; intros i Hi.
  destruct Rlt_dec; lra.
Qed.

Lemma grid_fawa_difference nlat nlon ylat vort area n a lo hi l k :
  (2 <= n)%nat -> 0 < a -> is_min nlat nlon vort lo -> is_max nlat nlon vort hi ->
  (forall j i, (j < nlat)%nat -> (i < nlon)%nat -> 0 <= area j i) -> total nlat nlon area <= sphere a ->
  (S l < nlat)%nat -> (k < n)%nat -> -90 <= ylat (S l) <= 90 ->
  cap_area a (ylat (S l)) = total_below nlat nlon vort area (contour lo hi n k) ->
  ((S k < n)%nat -> total_below nlat nlon vort area (contour lo hi n k) < total_below nlat nlon vort area (contour lo hi n (S k))) ->
  exists fawa, snd (eqvlat_fawa nlat nlon ylat vort area n a true) = Some fawa /\
    2 * PI * a * fawa l =
      Sum 0 nlat (fun j => Sum 0 nlon (fun i => if Rlt_dec (vort j i) (contour lo hi n k) then 0 else area j i * vort j i))
      - Sum (S l) (nlat - 1) (fun r =>
          (1 / 2) * (Sum 0 nlon (fun i => vort r i) / INR nlon * Sum 0 nlon (fun i => area r i)
                   + Sum 0 nlon (fun i => vort (r + 1)%nat i) / INR nlon * Sum 0 nlon (fun i => area (r + 1)%nat i)))
      - total nlat nlon (fun j i => area j i * vort j i).
Proof.
  intros Hn Ha Hlo Hhi Hnn Ht Hl Hk Hy He Hs.
  destruct (grid_fawa_formula nlat nlon ylat vort area n a lo hi l k Hn Ha Hlo Hhi Hnn Ht Hl Hk Hy He Hs) as (f & E1 & E2).
  exists f. split; [exact E1|]. rewrite E2. rewrite (total_split nlat nlon vort _ (contour lo hi n k)). ring.
Qed.

Lemma dp_example : let cells3 := [((0, 1), 5); ((1, 2), -1)] in
  (forall c, In c cells3 -> 0 <= snd (fst c) /\ -1 <= snd c <= 5) /\ vgrad_aa (map fst cells3) 2 1 <> 0.
Proof.
  cbn zeta. split.
  - intros c [<-|[<-|[]]]; cbn; lra.
  - unfold vgrad_aa, bin_area. rewrite <- (SumL_rlsum _ snd), SumL_filter. cbn [map fst snd].
    rewrite q_part_u_bins. set (b := vort_bins [(0, 1); (1, 2)] 2).
    assert (M : nondecreasing 2 b) by (apply bins_mono; lia).
    assert (B0 : b 0%nat = 0 /\ b 1%nat = 1).
    { unfold b, vort_bins. cbn [map fst].
      assert (rlmin [0; 1] = 0) as -> by (apply lmin_unique; [left; reflexivity|intros x [<-|[<-|[]]]; lra]).
      assert (rlmax [0; 1] = 1) as -> by (apply lmax_unique; [right; left; reflexivity|intros x [<-|[<-|[]]]; lra]).
      rewrite !linspace_lin by lia. cbn. split; lra. }
    destruct B0 as [B0 B1].
    assert (D0 : digitize b 2 0 = 1%nat).
    { assert (H1 : (digitize b 2 0%R <= 1)%nat) by (apply digitize_le; [assumption|lia|lra]).
      assert (H2 : ~ (digitize b 2 0%R <= 0)%nat) by (rewrite digitize_le by (assumption || lia); lra). lia. }
    assert (D1 : digitize b 2 1 <> 1%nat).
    { intros E. assert (H2 : (digitize b 2 1%R <= 1)%nat) by lia. apply digitize_le in H2; [lra|assumption|lia]. }
    unfold SumL; cbn [map fold_right fst snd]. rewrite D0. cbn [Nat.eqb].
    destruct (Nat.eqb_spec (digitize b 2 1) 1); [contradiction|]. lra.
Qed.

Lemma grid_example :
  let ex_vort := fun (j i : nat) => match j with O => INR i | S _ => 2 + INR i end in
  is_min 2 2 ex_vort 0 /\ is_max 2 2 ex_vort 3 /\ total 2 2 (fun _ _ => PI) <= sphere 1 /\
  total_below 2 2 ex_vort (fun _ _ => PI) (contour 0 3 4 2) = cap_area 1 0 /\
  total_below 2 2 ex_vort (fun _ _ => PI) (contour 0 3 4 2) < total_below 2 2 ex_vort (fun _ _ => PI) (contour 0 3 4 3).
Proof.
  cbn zeta. pose proof PI_RGT_0.
  assert (I : forall i, (i < 2)%nat -> i = 0%nat \/ i = 1%nat) by (intros; lia).
  split; [|split; [|split; [|split]]].
  - split; [exists 0%nat, 0%nat; repeat split; lia|]. intros j i Hj Hi.
    destruct (I j Hj) as [->| ->], (I i Hi) as [->| ->]; cbn; lra.
  - split; [exists 1%nat, 1%nat; repeat split; cbn; (lia || lra)|]. intros j i Hj Hi.
    destruct (I j Hj) as [->| ->], (I i Hi) as [->| ->]; cbn; lra.
  - unfold total, sphere, Sum; cbn. lra.
  - unfold total_below, cap_area, contour, Sum; cbn. replace (0 * PI / 180) with 0 by field. rewrite sin_0.
    repeat destruct Rlt_dec; lra.
  - unfold total_below, contour, Sum; cbn. repeat destruct Rlt_dec; lra.
Qed.
