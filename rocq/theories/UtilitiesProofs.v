(** Proofs about the finite-difference operators of utilities.py. *)
From Verif Require Import Spec SpecFacts BaseFacts Utilities UtilSpec.
From Coq Require Import ZifyNat.
Ltac Zify.zify_post_hook ::= Z.to_euclidean_division_equations.
Open Scope R_scope.

Lemma east_in n i : (i < n)%nat -> east n i = if Nat.eqb i (n - 1) then 0%nat else S i.
Proof.
  intros H. unfold east. destruct (Nat.eqb_spec i (n - 1)) as [->|N].
  - replace (n - 1 + 1)%nat with n by lia. apply Nat.mod_same. lia.
  - rewrite Nat.mod_small by lia. lia.
Qed.
Lemma west_in n i : (i < n)%nat -> west n i = if Nat.eqb i 0 then (n - 1)%nat else (i - 1)%nat.
Proof.
  intros H. unfold west. destruct (Nat.eqb_spec i 0) as [->|N].
  - apply Nat.mod_small. lia.
  - replace (i + n - 1)%nat with (i - 1 + 1 * n)%nat by lia. rewrite Nat.mod_add by lia. apply Nat.mod_small. lia.
Qed.

Lemma NoDup_map_in {S T} (f : S -> T) l : (forall x y, In x l -> In y l -> f x = f y -> x = y) -> NoDup l -> NoDup (map f l).
Proof.
  induction l as [|x l IH]; intros Hf Hl; [constructor|]. inversion Hl as [|? ? N D]; subst. cbn. constructor.
  - intros H. apply in_map_iff in H. destruct H as (y & E & Hy). apply N.
    rewrite (Hf x y); [exact Hy|left; reflexivity|right; exact Hy|symmetry; exact E].
  - apply IH; [|exact D]. intros a b Ha Hb. apply Hf; right; assumption.
Qed.
Lemma rot_perm n s : (0 < n)%nat -> Permutation (map (fun i => ((i + s) mod n)%nat) (seq 0 n)) (seq 0 n).
Proof.
  intros Hn. apply NoDup_Permutation_bis.
  - apply NoDup_map_in; [|apply seq_NoDup]. intros x y Hx Hy E. apply in_seq in Hx, Hy.
    assert (x mod n = y mod n)%nat.
    { assert (E' : ((x + s + (n - s mod n)) mod n = (y + s + (n - s mod n)) mod n)%nat).
      { rewrite (Nat.add_mod (x + s)), (Nat.add_mod (y + s)), E by lia. reflexivity. }
      pose proof (Nat.mod_upper_bound s n ltac:(lia)). pose proof (Nat.div_mod s n ltac:(lia)).
      replace (x + s + (n - s mod n))%nat with (x + (s / n + 1) * n)%nat in E' by nia.
      replace (y + s + (n - s mod n))%nat with (y + (s / n + 1) * n)%nat in E' by nia.
      rewrite !Nat.mod_add in E' by lia. exact E'. }
    rewrite !Nat.mod_small in H by lia. exact H.
  - rewrite map_length. lia.
  - intros x Hx. apply in_map_iff in Hx. destruct Hx as (i & <- & Hi). apply in_seq.
    pose proof (Nat.mod_upper_bound (i + s) n ltac:(lia)). lia.
Qed.
Lemma Sum_perm n (s : nat -> nat) g : Permutation (map s (seq 0 n)) (seq 0 n) -> Sum 0 n (fun i => g (s i)) = Sum 0 n g.
Proof.
  intros H. unfold Sum. rewrite Nat.sub_0_r.
  assert (E : SumL (map s (seq 0 n)) g = SumL (seq 0 n) g) by (apply SumL_perm; exact H).
  rewrite SumL_map in E. exact E.
Qed.
Lemma Sum_rot n s g : (0 < n)%nat -> Sum 0 n (fun i => g ((i + s) mod n)%nat) = Sum 0 n g.
Proof. intros Hn. apply (Sum_perm n (fun i => ((i + s) mod n)%nat)). apply rot_perm, Hn. Qed.
Lemma Sum_east n g : (0 < n)%nat -> Sum 0 n (fun i => g (east n i)) = Sum 0 n g.
Proof. apply (Sum_rot n 1). Qed.
Lemma Sum_west n g : (0 < n)%nat -> Sum 0 n (fun i => g (west n i)) = Sum 0 n g.
Proof.
  intros Hn. rewrite <- (Sum_rot n (n - 1) g Hn). apply Sum_ext; intros i Hi. unfold west.
  replace (i + n - 1)%nat with (i + (n - 1))%nat by lia. reflexivity.
Qed.

Lemma zonal_diff_periodic nlon (f : nat -> nat -> R) j i : (2 <= nlon)%nat -> (i < nlon)%nat ->
  zonal_diff nlon f j i = f j (east nlon i) - f j (west nlon i).
Proof.
  intros Hn Hi. unfold zonal_diff. rewrite east_in, west_in by assumption. toR.
  destruct (Nat.eqb_spec i (nlon - 1)) as [->|N1].
  - destruct (Nat.eqb_spec (nlon - 1) 0) as [E|E]; [lia|]. replace (nlon - 1 - 1)%nat with (nlon - 2)%nat by lia. reflexivity.
  - destruct (Nat.eqb_spec i 0) as [->|N0]; [reflexivity|]. rewrite Nat.add_1_r. reflexivity.
Qed.

Lemma zc_value nlon f clat dl a tol j i : (2 <= nlon)%nat -> (i < nlon)%nat ->
  zonal_convergence nlon f clat dl a tol j i =
  (if Rlt_dec tol (Rabs (clat j)) then -1 / (a * clat j * 2 * dl) else 1) * (f j (east nlon i) - f j (west nlon i)).
Proof.
  intros Hn Hi. unfold zonal_convergence. rewrite zonal_diff_periodic by assumption. toR. unfold Rltb.
  destruct Rlt_dec; lra.
Qed.

Lemma zc_sum nlon f clat dl a tol j : (2 <= nlon)%nat ->
  Sum 0 nlon (zonal_convergence nlon f clat dl a tol j) = 0.
Proof.
  intros Hn. rewrite (Sum_ext 0 nlon _ _ (fun i Hi => zc_value nlon f clat dl a tol j i Hn (proj2 Hi))).
  rewrite Sum_scal, Sum_minus, (Sum_east nlon (f j)), (Sum_west nlon (f j)) by lia. lra.
Qed.
Lemma zc_linear nlon f g x y clat dl a tol j i : (2 <= nlon)%nat -> (i < nlon)%nat ->
  zonal_convergence nlon (fun j i => x * f j i + y * g j i) clat dl a tol j i =
  x * zonal_convergence nlon f clat dl a tol j i + y * zonal_convergence nlon g clat dl a tol j i.
Proof. intros Hn Hi. rewrite !zc_value by assumption. ring. Qed.
Lemma zc_uniform nlon f clat dl a tol j i : (2 <= nlon)%nat -> (i < nlon)%nat ->
  (forall i', (i' < nlon)%nat -> f j i' = f j 0%nat) -> zonal_convergence nlon f clat dl a tol j i = 0.
Proof.
  intros Hn Hi H. rewrite zc_value by assumption.
  rewrite (H (east nlon i)) by (apply Nat.mod_upper_bound; lia). rewrite (H (west nlon i)) by (apply Nat.mod_upper_bound; lia). ring.
Qed.
Lemma east_rot n s i : (0 < n)%nat -> ((east n i + s) mod n = east n ((i + s) mod n))%nat.
Proof.
  intros Hn. unfold east. rewrite !Nat.add_mod_idemp_l by lia. f_equal. lia.
Qed.
Lemma west_rot n s i : (0 < n)%nat -> ((west n i + s) mod n = west n ((i + s) mod n))%nat.
Proof.
  intros Hn. unfold west. rewrite Nat.add_mod_idemp_l by lia.
  replace ((i + s) mod n + n - 1)%nat with ((i + s) mod n + (n - 1))%nat by lia.
  rewrite Nat.add_mod_idemp_l by lia. f_equal. lia.
Qed.
Lemma zc_rotation nlon f s clat dl a tol j i : (2 <= nlon)%nat -> (i < nlon)%nat ->
  zonal_convergence nlon (fun j i => f j ((i + s) mod nlon)%nat) clat dl a tol j i =
  zonal_convergence nlon f clat dl a tol j ((i + s) mod nlon)%nat.
Proof.
  intros Hn Hi. rewrite !zc_value by (assumption || (apply Nat.mod_upper_bound; lia)).
  rewrite east_rot, west_rot by lia. reflexivity.
Qed.

(** meridional *)
Lemma md_interior nlat f clat dphi a tol j i : (S j < nlat)%nat -> (0 < j)%nat -> tol < Rabs (clat j) ->
  meridional_divergence nlat f clat dphi a tol j i =
  (f (j + 1)%nat i * clat (j + 1)%nat - f (j - 1)%nat i * clat (j - 1)%nat) / (2 * a * clat j * dphi).
Proof.
  intros H1 H0 Ht. unfold meridional_divergence, meridional_diff. toR. unfold Rltb. destruct Rlt_dec; [|contradiction].
  destruct (Nat.eqb_spec j (nlat - 1)); [lia|]. destruct (Nat.eqb_spec j 0); [lia|].
  unfold Rdiv. apply Rmult_eq_compat_l. apply (f_equal Rinv). ring.
Qed.
Lemma md_edges nlat f clat dphi a tol i : (2 <= nlat)%nat -> tol < Rabs (clat 0%nat) -> tol < Rabs (clat (nlat - 1)%nat) ->
  meridional_divergence nlat f clat dphi a tol 0 i =
    (f 1%nat i * clat 1%nat - f 0%nat i * clat 0%nat) / (2 * a * clat 0%nat * dphi) /\
  meridional_divergence nlat f clat dphi a tol (nlat - 1) i =
    (f (nlat - 1)%nat i * clat (nlat - 1)%nat - f (nlat - 2)%nat i * clat (nlat - 2)%nat) / (2 * a * clat (nlat - 1)%nat * dphi).
Proof.
  intros Hn T0 T1. unfold meridional_divergence, meridional_diff. toR. unfold Rltb.
  do 2 (destruct Rlt_dec; [|contradiction]). rewrite !Nat.eqb_refl.
  destruct (Nat.eqb_spec 0 (nlat - 1)); [lia|]. unfold Rdiv. split; apply Rmult_eq_compat_l; apply (f_equal Rinv); ring.
Qed.
Lemma pole_rows nlat nlon f clat dl dphi a tol j i : Rabs (clat j) <= tol ->
  zonal_convergence nlon f clat dl a tol j i = zonal_diff nlon f j i /\
  meridional_divergence nlat f clat dphi a tol j i = meridional_diff nlat f clat j i.
Proof.
  intros H. unfold zonal_convergence, meridional_divergence. toR. unfold Rltb. destruct Rlt_dec; [lra|]. split; reflexivity.
Qed.
Lemma md_linear nlat f g x y clat dphi a tol j i :
  meridional_divergence nlat (fun j i => x * f j i + y * g j i) clat dphi a tol j i =
  x * meridional_divergence nlat f clat dphi a tol j i + y * meridional_divergence nlat g clat dphi a tol j i.
Proof.
  unfold meridional_divergence, meridional_diff. toR. unfold Rdiv.
  destruct (Rltb _ _), (Nat.eqb j (nlat - 1)), (Nat.eqb j 0); ring.
Qed.

(** curl *)
Lemma curl_value nlat nlon u v clat dl dphi a j i : (2 <= nlon)%nat -> (i < nlon)%nat -> (0 < j)%nat -> (S j < nlat)%nat ->
  curl_2d nlat nlon u v clat dl dphi a j i =
  ((v j (east nlon i) - v j (west nlon i)) / (2 * dl)
   - (u (j + 1)%nat i * clat (j + 1)%nat - u (j - 1)%nat i * clat (j - 1)%nat) / (2 * dphi)) / a / clat j.
Proof.
  intros Hn Hi H0 H1. unfold curl_2d. destruct (Nat.eqb_spec j 0); [lia|]. destruct (Nat.eqb_spec j (nlat - 1)); [lia|]. cbn [orb].
  toR. rewrite <- (zonal_diff_periodic nlon v j i Hn Hi). unfold zonal_diff. toR.
  destruct (i =? nlon - 1)%nat; [reflexivity|]. destruct (i =? 0)%nat; reflexivity.
Qed.
Lemma curl_poles nlat nlon u v clat dl dphi (a : R) i :
  curl_2d nlat nlon u v clat dl dphi a 0 i = 0 /\ curl_2d nlat nlon u v clat dl dphi a (nlat - 1) i = 0.
Proof. unfold curl_2d. rewrite !Nat.eqb_refl, orb_true_r. split; reflexivity. Qed.
Lemma curl_pole0 nlat nlon u v clat dl dphi (a : R) i : curl_2d nlat nlon u v clat dl dphi a 0 i = 0.
Proof. apply curl_poles. Qed.
Lemma curl_poleN nlat nlon u v clat dl dphi (a : R) i : curl_2d nlat nlon u v clat dl dphi a (nlat - 1) i = 0.
Proof. apply curl_poles. Qed.
Lemma curl_linear nlat nlon u v u' v' x y clat dl dphi a j i : (2 <= nlon)%nat -> (i < nlon)%nat -> (j < nlat)%nat ->
  curl_2d nlat nlon (fun j i => x * u j i + y * u' j i) (fun j i => x * v j i + y * v' j i) clat dl dphi a j i =
  x * curl_2d nlat nlon u v clat dl dphi a j i + y * curl_2d nlat nlon u' v' clat dl dphi a j i.
Proof.
  intros Hn Hi Hj. destruct (Nat.eq_dec j 0) as [->|N0].
  - rewrite !curl_pole0. ring.
  - destruct (Nat.eq_dec j (nlat - 1)) as [->|N1].
    + rewrite !curl_poleN. ring.
    + rewrite !curl_value by lia. unfold Rdiv. ring.
Qed.
Lemma curl_row_sum nlat nlon u v clat dl dphi a j : (2 <= nlon)%nat -> (0 < j)%nat -> (S j < nlat)%nat -> clat j <> 0 ->
  Sum 0 nlon (fun i => curl_2d nlat nlon u v clat dl dphi a j i * clat j) =
  - (Sum 0 nlon (fun i => u (j + 1)%nat i * clat (j + 1)%nat) - Sum 0 nlon (fun i => u (j - 1)%nat i * clat (j - 1)%nat)) / (2 * dphi) / a.
Proof.
  intros Hn H0 H1 Hc.
  rewrite (Sum_ext 0 nlon _ (fun i =>
    (/ (2 * dl) / a) * (v j (east nlon i) - v j (west nlon i))
    + (- / (2 * dphi) / a) * (u (j + 1)%nat i * clat (j + 1)%nat - u (j - 1)%nat i * clat (j - 1)%nat))).
  - rewrite Sum_plus, !Sum_scal, !Sum_minus, (Sum_east nlon (v j)), (Sum_west nlon (v j)) by lia. unfold Rdiv. ring.
  - intros i Hi. rewrite curl_value by lia. unfold Rdiv. rewrite (Rmult_assoc _ (/ clat j)), Rinv_l by assumption. ring.
Qed.
Lemma Sum_telescope2 (C : nat -> R) n : (1 <= n)%nat ->
  Sum 1 n (fun j => C (j + 1)%nat - C (j - 1)%nat) = C n + C (n - 1)%nat - C 1%nat - C 0%nat.
Proof.
  induction n as [|n IH]; intros H; [lia|].
  destruct (Nat.eq_dec n 0) as [->|].
  - rewrite Sum_empty by lia. cbn. lra.
  - rewrite Sum_S_r, IH by lia. rewrite Nat.add_1_r. replace (S n - 1)%nat with n by lia. lra.
Qed.
Lemma curl_stokes nlat nlon u v clat dl dphi a : (2 <= nlon)%nat -> (3 <= nlat)%nat ->
  (forall j, (0 < j)%nat -> (S j < nlat)%nat -> clat j <> 0) ->
  let C := fun j => Sum 0 nlon (fun i => u j i * clat j) in
  Sum 0 nlat (fun j => Sum 0 nlon (fun i => curl_2d nlat nlon u v clat dl dphi a j i * clat j)) =
  - (C (nlat - 1)%nat + C (nlat - 2)%nat - C 1%nat - C 0%nat) / (2 * dphi) / a.
Proof.
  intros Hn Hl Hc C.
  replace nlat with (S (nlat - 1)) at 1 by lia. rewrite Sum_S_r, Sum_S_l by lia.
  assert (Z0 : Sum 0 nlon (fun i => curl_2d nlat nlon u v clat dl dphi a 0 i * clat 0%nat) = 0).
  { apply Sum_zero; intros i Hi. rewrite curl_pole0. ring. }
  assert (Z1 : Sum 0 nlon (fun i => curl_2d nlat nlon u v clat dl dphi a (nlat - 1) i * clat (nlat - 1)%nat) = 0).
  { apply Sum_zero; intros i Hi. rewrite curl_poleN. ring. }
  rewrite Z0, Z1.
  rewrite (Sum_ext 1 (nlat - 1) _ (fun j => (- / (2 * dphi) / a) * (C (j + 1)%nat - C (j - 1)%nat))).
  - rewrite Sum_scal, Sum_telescope2 by lia. replace (nlat - 1 - 1)%nat with (nlat - 2)%nat by lia. unfold Rdiv. ring.
  - intros j Hj. rewrite curl_row_sum by (try lia; apply Hc; lia). unfold C, Rdiv. ring.
Qed.
(** curl of a discrete gradient *)
Lemma curl_gradient nlat nlon psi u v clat dl dphi a j i :
  (2 <= nlon)%nat -> (i < nlon)%nat -> (2 <= j)%nat -> (j + 2 < nlat)%nat ->
  (forall r, (0 < r)%nat -> (S r < nlat)%nat -> clat r <> 0) -> dl <> 0 -> dphi <> 0 -> a <> 0 ->
  (forall r s, (r < nlat)%nat -> (s < nlon)%nat -> u r s * clat r = (psi r (east nlon s) - psi r (west nlon s)) / (2 * dl) / a) ->
  (forall r s, (0 < r)%nat -> (S r < nlat)%nat -> (s < nlon)%nat -> v r s = (psi (r + 1)%nat s - psi (r - 1)%nat s) / (2 * dphi) / a) ->
  curl_2d nlat nlon u v clat dl dphi a j i = 0.
Proof.
  intros Hn Hi Hj2 Hj1 Hc Hdl Hdp Ha Hu Hv. rewrite curl_value by lia.
  rewrite !Hu by lia. rewrite !Hv by (try lia; apply Nat.mod_upper_bound; lia). 
  specialize (Hc j ltac:(lia) ltac:(lia)). field. repeat split; assumption.
Qed.

(** static stability *)
Lemma slice_sum_Sum lo hi f : slice_sum lo hi f = Sum lo hi f.
Proof. unfold slice_sum. symmetry. apply Sum_rsum. Qed.

Lemma weighted_mean_bounds lo hi (w t : nat -> R) m M : (forall j, (lo <= j < hi)%nat -> 0 <= w j) ->
  0 < Sum lo hi w -> (forall j, (lo <= j < hi)%nat -> m <= t j <= M) ->
  m <= Sum lo hi (fun j => t j * w j) / Sum lo hi w <= M.
Proof.
  intros Hw Hs Ht.
  assert (L : m * Sum lo hi w <= Sum lo hi (fun j => t j * w j) <= M * Sum lo hi w).
  { rewrite <- !Sum_scal. split; apply Sum_le; intros j Hj; specialize (Hw j Hj); specialize (Ht j Hj); nra. }
  split; (apply Rmult_le_reg_r with (Sum lo hi w); [assumption|]; unfold Rdiv; rewrite Rmult_assoc, Rinv_l by lra; lra).
Qed.

Lemma stat_linear kmax height c s k : (2 <= kmax)%nat -> (k < kmax)%nat -> ascending kmax height ->
  stat_of kmax height (fun k => c + s * height k) k = s.
Proof.
  intros Hk Hkk Hh. unfold stat_of. toR. destruct (Nat.eqb_spec k (kmax - 1)).
  - assert (height (kmax - 2)%nat < height (kmax - 1)%nat) by (apply Hh; lia). field. lra.
  - destruct (Nat.eqb_spec k 0).
    + assert (height 0%nat < height 1%nat) by (apply Hh; lia). field. lra.
    + assert (height (k - 1)%nat < height (k + 1)%nat) by (apply Hh; lia). field. lra.
Qed.
Lemma stat_ext kmax height t t' k : (2 <= kmax)%nat -> (k < kmax)%nat -> (forall k, (k < kmax)%nat -> t k = t' k) ->
  stat_of kmax height t k = stat_of kmax height t' k.
Proof.
  intros Hk Hkk H. unfold stat_of. destruct (Nat.eqb_spec k (kmax - 1)); [rewrite !H by lia; reflexivity|].
  destruct (Nat.eqb_spec k 0); rewrite !H by lia; reflexivity.
Qed.

Lemma mean_bounds n (f : nat -> R) m M : (0 < n)%nat -> (forall i, (i < n)%nat -> m <= f i <= M) ->
  m <= rsum n f / INR n <= M.
Proof.
  intros Hn H. assert (P : 0 < INR n) by (apply (lt_INR 0); lia).
  assert (L : m * INR n <= rsum n f <= M * INR n).
  { rewrite !(Rmult_comm _ (INR n)). rewrite <- !(rsum_const n). split; apply rsum_le; intros i Hi; specialize (H i Hi); lra. }
  split; (apply Rmult_le_reg_r with (INR n); [assumption|]; unfold Rdiv; rewrite Rmult_assoc, Rinv_l by lra; lra).
Qed.
Lemma zm_bounds nlon t k j m M : (0 < nlon)%nat -> theta_in nlon t k j m M -> m <= zonal_mean_theta nlon t k j <= M.
Proof.
  intros Hn H. destruct t as [t|t]; cbn [zonal_mean_theta theta_in] in *; [|exact H]. rewrite nofnat_INR. toR. apply mean_bounds; assumption.
Qed.
Lemma az_pos nlon a j : (0 < nlon)%nat -> area_pos nlon a j -> 0 < area_zonal_mean nlon a j.
Proof.
  intros Hn H. destruct a as [a|a]; cbn [area_zonal_mean area_pos] in *; [|exact H]. rewrite nofnat_INR. toR.
  apply Rmult_lt_0_compat; [|apply Rinv_0_lt_compat, (lt_INR 0); lia]. apply rsum_pos; assumption.
Qed.
Lemma Sum_pos lo hi f : (lo < hi)%nat -> (forall j, (lo <= j < hi)%nat -> 0 < f j) -> 0 < Sum lo hi f.
Proof.
  intros H Hf. rewrite Sum_S_l by assumption. assert (0 < f lo) by (apply Hf; lia).
  assert (0 <= Sum (S lo) hi f) by (apply Sum_nonneg; intros j Hj; left; apply Hf; lia). lra.
Qed.
Lemma tail_start_lt n len : (0 < len)%nat -> (tail_start n len < len)%nat.
Proof. intros H. destruct n; cbn; lia. Qed.

Lemma hemi_bounds lo hi nlon t a k m M : (lo < hi)%nat -> (0 < nlon)%nat ->
  (forall j, (lo <= j < hi)%nat -> area_pos nlon a j /\ theta_in nlon t k j m M) ->
  m <= hemi_mean lo hi (zonal_mean_theta nlon t) (area_zonal_mean nlon a) k <= M.
Proof.
  intros Hl Hn H. unfold hemi_mean. rewrite !slice_sum_Sum. toR.
  apply weighted_mean_bounds.
  - intros j Hj. left. apply az_pos; [assumption|]. apply H, Hj.
  - apply Sum_pos; [assumption|]. intros j Hj. apply az_pos; [assumption|]. apply H, Hj.
  - intros j Hj. apply zm_bounds; [assumption|]. apply H, Hj.
Qed.

Lemma static_means kmax nlat nlon height area theta s n t0n t0s sn ss k m M :
  static_stability kmax nlat nlon height area theta s n = Some (t0n, t0s, sn, ss) ->
  (0 < nlon)%nat -> (2 <= nlat)%nat ->
  (forall j, (j < nlat)%nat -> area_pos nlon area j) ->
  let ns := match s with None => (nlat / 2)%nat | Some s => s end in
  let nn := match n with None => (nlat / 2)%nat | Some n => n end in
  (1 <= ns <= nlat)%nat -> (1 <= nn <= nlat)%nat ->
  ((forall j, (nlat - nn <= j < nlat)%nat -> theta_in nlon theta k j m M) -> m <= t0n k <= M) /\
  ((forall j, (j < ns)%nat -> theta_in nlon theta k j m M) -> m <= t0s k <= M).
Proof.
  intros E Hn Hl Ha ns nn Hs Hnn. unfold static_stability in E. fold ns nn in E. cbv zeta in E.
  destruct (Nat.ltb kmax 2); [discriminate|]. clearbody ns nn. injection E as <- <- <- <-.
  assert (T : tail_start nn nlat = (nlat - nn)%nat) by (destruct nn; [lia|reflexivity]).
  assert (Hd : head_end ns nlat = ns) by (apply Nat.min_l; lia).
  rewrite T, Hd. split; intros H; apply hemi_bounds; [lia|assumption| |lia|assumption|]; intros j Hj; (split; [apply Ha; lia|apply H; lia]).
Qed.

Lemma zm_linear nlon t height s c k j : (0 < nlon)%nat ->
  (match t with
   | Theta3 t => forall i, (i < nlon)%nat -> t k j i = c j i + s * height k
   | Theta2 t => t k j = c j 0%nat + s * height k end) ->
  zonal_mean_theta nlon t k j = (match t with Theta3 _ => rsum nlon (c j) / INR nlon | Theta2 _ => c j 0%nat end) + s * height k.
Proof.
  intros Hn H. destruct t as [t|t]; cbn [zonal_mean_theta]; [|exact H]. rewrite nofnat_INR. toR.
  rewrite (rsum_ext nlon _ (fun i => c j i + s * height k)) by exact H.
  rewrite rsum_plus, rsum_const. field. apply not_0_INR. lia.
Qed.

Lemma hemi_linear lo hi (zm : nat -> nat -> R) az z0 s height k :
  Sum lo hi az <> 0 -> (forall j, (lo <= j < hi)%nat -> zm k j = z0 j + s * height k) ->
  hemi_mean lo hi zm az k = Sum lo hi (fun j => z0 j * az j) / Sum lo hi az + s * height k.
Proof.
  intros Hz H. unfold hemi_mean. rewrite !slice_sum_Sum. toR.
  rewrite (Sum_ext lo hi (fun j => zm k j * az j) (fun j => z0 j * az j + (s * height k) * az j)).
  - rewrite Sum_plus, Sum_scal. field. exact Hz.
  - intros j Hj. rewrite H by assumption. ring.
Qed.

Lemma static_slope kmax nlat nlon height area theta s n t0n t0s sn ss c slope k :
  static_stability kmax nlat nlon height area theta s n = Some (t0n, t0s, sn, ss) ->
  (0 < nlon)%nat -> (2 <= nlat)%nat ->
  (forall j, (j < nlat)%nat -> area_pos nlon area j) ->
  let ns := match s with None => (nlat / 2)%nat | Some s => s end in
  let nn := match n with None => (nlat / 2)%nat | Some n => n end in
  (1 <= ns <= nlat)%nat -> (1 <= nn <= nlat)%nat -> ascending kmax height ->
  (forall k j i, (k < kmax)%nat -> (j < nlat)%nat -> (i < nlon)%nat -> theta_at nlon theta k j i = c j i + slope * height k) ->
  (k < kmax)%nat -> sn k = slope /\ ss k = slope.
Proof.
  intros E Hn Hl Ha ns nn Hs Hnn Hh Ht Hk. unfold static_stability in E. fold ns nn in E. cbv zeta in E.
  destruct (Nat.ltb_spec kmax 2) as [|Hk2]; [discriminate|]. clearbody ns nn.
  injection E as <- <- <- <-.
  assert (T : tail_start nn nlat = (nlat - nn)%nat) by (destruct nn; [lia|reflexivity]).
  assert (Hd : head_end ns nlat = ns) by (apply Nat.min_l; lia).
  rewrite T, Hd.
  set (z0 := fun j => match theta with Theta3 _ => rsum nlon (c j) / INR nlon | Theta2 _ => c j 0%nat end).
  assert (Z : forall k j, (k < kmax)%nat -> (j < nlat)%nat -> zonal_mean_theta nlon theta k j = z0 j + slope * height k).
  { intros k' j Hk' Hj. unfold z0. apply zm_linear; [assumption|]. destruct theta as [t|t].
    - intros i Hi. apply (Ht k' j i Hk' Hj Hi).
    - apply (Ht k' j 0%nat Hk' Hj Hn). }
  assert (G : forall lo hi, (lo < hi <= nlat)%nat ->
    stat_of kmax height (hemi_mean lo hi (zonal_mean_theta nlon theta) (area_zonal_mean nlon area)) k = slope).
  { intros lo hi Hlh.
    assert (Sum lo hi (area_zonal_mean nlon area) <> 0).
    { apply Rgt_not_eq. apply Sum_pos; [lia|]. intros j Hj. apply az_pos; [assumption|]. apply Ha; lia. }
    rewrite (stat_ext kmax height _ (fun k => Sum lo hi (fun j => z0 j * area_zonal_mean nlon area j) / Sum lo hi (area_zonal_mean nlon area) + slope * height k)).
    - apply stat_linear; assumption.
    - assumption.
    - assumption.
    - intros k' Hk'. apply hemi_linear; [assumption|]. intros j Hj. apply Z; [assumption|lia]. }
  split; apply G; lia.
Qed.

(** zonally uniform areas: the mean is the plain area-weighted mean over the hemisphere's cells *)
Lemma hemi_mean_cells lo hi nlon (theta : nat -> nat -> nat -> R) (w : nat -> R) k : (0 < nlon)%nat -> Sum lo hi w <> 0 ->
  hemi_mean lo hi (zonal_mean_theta nlon (Theta3 theta)) (area_zonal_mean nlon (Area2 (fun j _ => w j))) k =
  Sum lo hi (fun j => Sum 0 nlon (fun i => theta k j i * w j)) / Sum lo hi (fun j => Sum 0 nlon (fun i => w j)).
Proof.
  intros Hn Hw. unfold hemi_mean. rewrite !slice_sum_Sum. cbn [zonal_mean_theta area_zonal_mean]. rewrite nofnat_INR. toR.
  assert (P : INR nlon <> 0) by (apply not_0_INR; lia).
  rewrite (Sum_ext lo hi (fun j => Sum 0 nlon (fun _ => w j)) (fun j => INR nlon * w j)).
  2:{ intros j Hj. rewrite Sum0_rsum, rsum_const. reflexivity. }
  rewrite (Sum_ext lo hi (fun j => rsum nlon (fun _ => w j) / INR nlon) w).
  2:{ intros j Hj. rewrite rsum_const. field. assumption. }
  rewrite (Sum_ext lo hi _ (fun j => / INR nlon * Sum 0 nlon (fun i => theta k j i * w j))).
  2:{ intros j Hj. rewrite rsum_const. rewrite Sum0_rsum, rsum_scal_r. field. assumption. }
  rewrite !Sum_scal. field. split; assumption.
Qed.

(** compute_qgpv_givenvort *)
Lemma dzdiv_stretch kmax z H zd anom k (j i : nat) : (2 <= kmax)%nat -> (k < kmax)%nat ->
  (forall k, (k < kmax)%nat -> zd k j i = exp (- z k / H) * anom k) ->
  givenvort_dzdiv kmax z H zd k j i = stretching kmax z H anom k.
Proof.
  intros Hk Hkk E. unfold givenvort_dzdiv, stretching. toR.
  destruct (Nat.eqb_spec k (kmax - 1)) as [->|N1].
  - rewrite (Nat.min_r (kmax - 1 + 1)) by lia. rewrite !E by lia. replace (kmax - 1 - 1)%nat with (kmax - 2)%nat by lia. reflexivity.
  - rewrite (Nat.min_l (k + 1)) by lia. destruct (Nat.eqb_spec k 0) as [->|N0].
    + rewrite !E by lia. reflexivity.
    + rewrite !E by lia. reflexivity.
Qed.

Lemma zdiv_covered nlat ns z H pt tn ts sn ss (g g' : nat -> nat -> nat -> R) k j i : (j < nlat)%nat -> covered nlat ns j ->
  givenvort_zdiv nlat ns z H pt tn ts sn ss g k j i = givenvort_zdiv nlat ns z H pt tn ts sn ss g' k j i.
Proof.
  intros Hj C. unfold givenvort_zdiv, covered, tail_start, head_end in *.
  destruct ns as [|ns]; [reflexivity|]. destruct (Nat.leb_spec (nlat - S ns) j); [reflexivity|].
  destruct (Nat.ltb_spec j (Nat.min (S ns) nlat)); [reflexivity|]. exfalso. lia.
Qed.

Lemma givenvort_determined omega nlat kmax z ylat avort pt tn ts sn ss nlat_s H (g g' : nat -> nat -> nat -> R) k j i :
  (j < nlat)%nat -> covered nlat (match nlat_s with None => (nlat / 2)%nat | Some n => n end) j ->
  let r := compute_qgpv_givenvort omega nlat kmax z ylat avort pt tn ts sn ss nlat_s H g in
  let r' := compute_qgpv_givenvort omega nlat kmax z ylat avort pt tn ts sn ss nlat_s H g' in
  fst r k j i = fst r' k j i /\ snd r k j i = snd r' k j i.
Proof.
  intros Hj C. cbn zeta. unfold compute_qgpv_givenvort. cbn [fst snd].
  set (ns := match nlat_s with None => (nlat / 2)%nat | Some n => n end) in *.
  assert (D : givenvort_dzdiv kmax z H (givenvort_zdiv nlat ns z H pt tn ts sn ss g) k j i =
              givenvort_dzdiv kmax z H (givenvort_zdiv nlat ns z H pt tn ts sn ss g') k j i).
  { unfold givenvort_dzdiv. rewrite !(zdiv_covered nlat ns z H pt tn ts sn ss g g') by assumption. reflexivity. }
  rewrite D. split; reflexivity.
Qed.

Lemma givenvort_value omega nlat kmax z ylat avort pt tn ts sn ss H (g : nat -> nat -> nat -> R) k j i :
  (2 <= kmax)%nat -> (k < kmax)%nat -> (j < nlat)%nat -> Nat.even nlat = true ->
  let anom := if (j <? nlat / 2)%nat then fun k => (pt k j i - ts k) / ss k else fun k => (pt k j i - tn k) / sn k in
  fst (compute_qgpv_givenvort omega nlat kmax z ylat avort pt tn ts sn ss None H g) k j i =
  avort k j i + 2 * omega * sin (ylat j * (PI / 180)) * stretching kmax z H anom k.
Proof.
  intros Hk Hkk Hj He anom. unfold compute_qgpv_givenvort. cbn [fst].
  assert (ZD : forall k, givenvort_zdiv nlat (nlat / 2) z H pt tn ts sn ss g k j i = exp (- z k / H) * anom k).
  { intros k'. unfold givenvort_zdiv, tail_start, head_end, anom.
    apply Nat.even_spec in He. destruct He as [h Eh].
    assert (E2 : (nlat / 2 = h)%nat) by lia. rewrite E2.
    destruct (Nat.ltb_spec j h) as [L|L].
    - destruct h as [|h]; [lia|]. destruct (Nat.leb_spec (nlat - S h) j); [lia|].
      destruct (Nat.ltb_spec j (Nat.min (S h) nlat)); [|lia]. toR. unfold Rdiv. ring.
    - destruct h as [|h]; [lia|]. destruct (Nat.leb_spec (nlat - S h) j); [|lia]. toR. unfold Rdiv. ring. }
  rewrite (dzdiv_stretch kmax z H _ anom) by (try assumption; intros; apply ZD).
  unfold deg2rad. toR. ring.
Qed.

Lemma givenvort_garbage : forall m kmax, (2 <= kmax)%nat ->
  exists omega z ylat avort pt tn ts sn ss H (g g' : nat -> nat -> nat -> R),
    let r := compute_qgpv_givenvort omega (2 * S m + 1) kmax z ylat avort pt tn ts sn ss None H g in
    let r' := compute_qgpv_givenvort omega (2 * S m + 1) kmax z ylat avort pt tn ts sn ss None H g' in
    fst r 0%nat (S m) 0%nat <> fst r' 0%nat (S m) 0%nat /\ snd r 0%nat (S m) 0%nat <> snd r' 0%nat (S m) 0%nat.
Proof.
  intros m kmax Hk.
  exists 1, INR, (fun _ => 90), (fun _ _ _ => 0), (fun _ _ _ => 0), (fun _ => 0), (fun _ => 0), (fun _ => 1), (fun _ => 1), 1,
    (fun _ _ _ => 0), (fun k _ _ => INR k). cbn zeta.
  assert (D : forall g : nat -> nat -> nat -> R, g 0%nat (S m) 0%nat = 0 ->
    snd (compute_qgpv_givenvort 1 (2 * S m + 1) kmax INR (fun _ => 90) (fun _ _ _ => 0) (fun _ _ _ => 0) (fun _ => 0) (fun _ => 0) (fun _ => 1) (fun _ => 1) None 1 g) 0%nat (S m) 0%nat
     = g 1%nat (S m) 0%nat /\
    fst (compute_qgpv_givenvort 1 (2 * S m + 1) kmax INR (fun _ => 90) (fun _ _ _ => 0) (fun _ _ _ => 0) (fun _ => 0) (fun _ => 0) (fun _ => 1) (fun _ => 1) None 1 g) 0%nat (S m) 0%nat
     = 2 * g 1%nat (S m) 0%nat).
  { intros g G.
    assert (Q : ((2 * S m + 1) / 2 = S m)%nat).
    { rewrite Nat.mul_comm, Nat.div_add_l by lia. cbn. lia. }
    assert (ZD : forall k, givenvort_zdiv (2 * S m + 1) (S m) INR 1 (fun _ _ _ => 0) (fun _ => 0) (fun _ => 0) (fun _ => 1) (fun _ => 1) g k (S m) 0%nat = g k (S m) 0%nat).
    { intros k. unfold givenvort_zdiv, tail_start, head_end.
      destruct (Nat.leb_spec (2 * S m + 1 - S m) (S m)); [lia|].
      destruct (Nat.ltb_spec (S m) (Nat.min (S m) (2 * S m + 1))); [lia|reflexivity]. }
    assert (S1 : sin (90 * (PI / 180)) = 1) by (replace (90 * (PI / 180)) with (PI / 2) by field; apply sin_PI2).
    unfold compute_qgpv_givenvort. cbn [fst snd]. rewrite Q.
    assert (DZ : givenvort_dzdiv kmax INR 1 (givenvort_zdiv (2 * S m + 1) (S m) INR 1 (fun _ _ _ => 0) (fun _ => 0) (fun _ => 0) (fun _ => 1) (fun _ => 1) g) 0 (S m) 0 = g 1%nat (S m) 0%nat).
    { unfold givenvort_dzdiv. destruct (Nat.eqb_spec 0 (kmax - 1)); [lia|]. cbn [Nat.eqb]. rewrite !ZD, G. cbn [INR].
      toR. replace (0 / 1) with 0 by field. rewrite exp_0. field. }
    rewrite DZ. split; [reflexivity|]. unfold deg2rad. toR. rewrite S1. ring. }
  destruct (D (fun _ _ _ => 0) eq_refl) as [D1 D2]. destruct (D (fun k _ _ => INR k) eq_refl) as [D3 D4].
  rewrite D1, D2, D3, D4. cbn [INR]. split; lra.
Qed.

(** z_derivative_of_prod *)
Lemma zder_linear kmax dz mult (t t' : nat -> nat -> nat -> R) x y k j i :
  z_der kmax dz mult (fun k j i => x * t k j i + y * t' k j i) k j i =
  x * z_der kmax dz mult t k j i + y * z_der kmax dz mult t' k j i.
Proof. unfold z_der. toR. unfold Rdiv. destruct (Nat.eqb k (kmax - 1)), (Nat.eqb k 0); ring. Qed.
Lemma zder_ext kmax dz mult (t t' : nat -> nat -> nat -> R) k j i : (2 <= kmax)%nat -> (k < kmax)%nat ->
  (forall k, (k < kmax)%nat -> t k j i = t' k j i) ->
  z_der kmax dz mult t k j i = z_der kmax dz mult t' k j i.
Proof.
  intros Hk Hkk H. unfold z_der. destruct (Nat.eqb_spec k (kmax - 1)); [rewrite !H by lia; reflexivity|].
  destruct (Nat.eqb_spec k 0); rewrite !H by lia; reflexivity.
Qed.
Lemma zder_exact kmax dz mult (t : nat -> nat -> nat -> R) c s k j i : (2 <= kmax)%nat -> (k < kmax)%nat -> dz <> 0 ->
  (forall k, (k < kmax)%nat -> t k j i = c + s * (INR k * dz)) ->
  z_der kmax dz mult t k j i = mult k j * s.
Proof.
  intros Hk Hkk Hd H. unfold z_der. toR. destruct (Nat.eqb_spec k (kmax - 1)) as [->|].
  - rewrite !H by lia. replace (kmax - 1)%nat with (S (kmax - 2)) by lia. rewrite S_INR. field. assumption.
  - destruct (Nat.eqb_spec k 0) as [->|].
    + rewrite !H by lia. cbn [INR]. field. assumption.
    + rewrite !H by lia. rewrite plus_INR. rewrite minus_INR by lia. cbn [INR]. field. assumption.
Qed.
Lemma zprod_total (stat_n stat_s : nat -> R) kmax nlat eq dz dd g mult : (1 <= eq)%nat -> (2 <= kmax)%nat -> nlat = (2 * eq - 1)%nat ->
  z_derivative_of_prod stat_n stat_s kmax nlat eq dz dd g mult =
  Some (z_der kmax dz mult (to_be_diff (stability_temp eq stat_n stat_s) dd g)).
Proof.
  intros H1 H2 H3. unfold z_derivative_of_prod.
  destruct (Nat.eqb_spec nlat (eq - 1 + 1 + (eq - 1))); [|lia]. destruct (Nat.leb_spec 2 kmax); [reflexivity|lia].
Qed.
Lemma stab_cases eq stat_n stat_s k j :
  stability_temp eq stat_n stat_s k j =
  if (j <? eq - 1)%nat then stat_s k else if (j =? eq - 1)%nat then (stat_s k + stat_n k) / 2 else stat_n k.
Proof. unfold stability_temp. toR. destruct (_ <? _)%nat; [lra|]. destruct (_ =? _)%nat; lra. Qed.

Lemma zprod_linear stat_n stat_s kmax eq dz dd g g' x y mult k j i : (1 <= eq)%nat -> (2 <= kmax)%nat -> (k < kmax)%nat ->
  exists r1 r2 r3,
    z_derivative_of_prod stat_n stat_s kmax (2 * eq - 1) eq dz dd g mult = Some r1 /\
    z_derivative_of_prod stat_n stat_s kmax (2 * eq - 1) eq dz dd g' mult = Some r2 /\
    z_derivative_of_prod stat_n stat_s kmax (2 * eq - 1) eq dz dd (fun k j i => x * g k j i + y * g' k j i) mult = Some r3 /\
    r3 k j i = x * r1 k j i + y * r2 k j i.
Proof.
  intros H1 H2 H3. rewrite !zprod_total by (assumption || reflexivity). do 3 eexists. do 3 (split; [reflexivity|]).
  rewrite <- zder_linear. apply zder_ext; try assumption. intros k' Hk'. unfold to_be_diff. toR. unfold Rdiv. ring.
Qed.
Lemma zprod_exact stat_n stat_s kmax eq dz dd g mult c s k j i : (1 <= eq)%nat -> (2 <= kmax)%nat -> (k < kmax)%nat -> dz <> 0 ->
  let stab := fun k => if (j <? eq - 1)%nat then stat_s k else if (j =? eq - 1)%nat then (stat_s k + stat_n k) / 2 else stat_n k in
  (forall k, (k < kmax)%nat -> dd k * g k j i / stab k = c + s * (INR k * dz)) ->
  exists r, z_derivative_of_prod stat_n stat_s kmax (2 * eq - 1) eq dz dd g mult = Some r /\ r k j i = mult k j * s.
Proof.
  intros H1 H2 H3 Hd stab H. rewrite zprod_total by (assumption || reflexivity). eexists; split; [reflexivity|].
  apply zder_exact with c; try assumption. intros k' Hk'. unfold to_be_diff. rewrite stab_cases. apply H, Hk'.
Qed.

(** solid body rotation *)
Lemma curl_solid nlat nlon U phi0 d dl a j i : (2 <= nlon)%nat -> (i < nlon)%nat -> (0 < j)%nat -> (S j < nlat)%nat ->
  let phi := fun j => phi0 + INR j * d in
  cos (phi j) <> 0 -> d <> 0 -> a <> 0 ->
  curl_2d nlat nlon (fun j _ => U * cos (phi j)) (fun _ _ => 0) (fun j => cos (phi j)) dl d a j i =
  2 * U / a * sin (phi j) * (sin (2 * d) / (2 * d)).
Proof.
  intros Hn Hi H0 H1 phi Hc Hd Ha. rewrite curl_value by assumption.
  assert (E1 : phi (j + 1)%nat = phi j + d) by (unfold phi; rewrite plus_INR; cbn [INR]; ring).
  assert (E2 : phi (j - 1)%nat = phi j - d) by (unfold phi; rewrite minus_INR by lia; cbn [INR]; ring).
  rewrite E1, E2, cos_plus, cos_minus, sin_2a. pose proof (sin2_cos2 d) as P. unfold Rsqr in P.
  unfold Rdiv. rewrite Rminus_0_r, Rmult_0_l, Rminus_0_l.
  field. repeat split; assumption.
Qed.

(** flux form of the meridional divergence *)
Lemma md_flux_form nlat (f : nat -> nat -> R) clat dphi a tol i : (3 <= nlat)%nat ->
  (forall j, (0 < j)%nat -> (S j < nlat)%nat -> tol < Rabs (clat j) /\ clat j <> 0) -> a <> 0 -> dphi <> 0 ->
  let F := fun j => f j i * clat j in
  Sum 1 (nlat - 1) (fun j => meridional_divergence nlat f clat dphi a tol j i * clat j) =
  (F (nlat - 1)%nat + F (nlat - 2)%nat - F 1%nat - F 0%nat) / (2 * a * dphi).
Proof.
  intros Hn Hc Ha Hd F.
  rewrite (Sum_ext 1 (nlat - 1) _ (fun j => / (2 * a * dphi) * (F (j + 1)%nat - F (j - 1)%nat))).
  - rewrite Sum_scal, Sum_telescope2 by lia. replace (nlat - 1 - 1)%nat with (nlat - 2)%nat by lia. unfold Rdiv. ring.
  - intros j Hj. destruct (Hc j ltac:(lia) ltac:(lia)) as [T N]. rewrite md_interior by (assumption || lia).
    unfold F. field. repeat split; assumption.
Qed.

Lemma zc_centred nlon f clat dl a tol j i : (2 <= nlon)%nat -> (i < nlon)%nat -> tol < Rabs (clat j) ->
  zonal_convergence nlon f clat dl a tol j i =
  - (f j ((i + 1) mod nlon)%nat - f j ((i + nlon - 1) mod nlon)%nat) / (2 * a * clat j * dl).
Proof.
  intros Hn Hi Ht. rewrite zc_value by assumption. destruct Rlt_dec; [|contradiction]. unfold east, west.
  replace (a * clat j * 2 * dl) with (2 * a * clat j * dl) by ring. unfold Rdiv. ring.
Qed.
Lemma pole_value nlon f clat dl a tol j i : (2 <= nlon)%nat -> (i < nlon)%nat -> Rabs (clat j) <= tol ->
  zonal_convergence nlon f clat dl a tol j i = f j ((i + 1) mod nlon)%nat - f j ((i + nlon - 1) mod nlon)%nat.
Proof. intros Hn Hi H. rewrite zc_value by assumption. destruct Rlt_dec; [lra|]. unfold east, west. ring. Qed.
Lemma pole_refuted tol : 0 <= tol -> exists nlat nlon f clat dlambda dphi a j i,
    Rabs (clat j) <= tol /\ (i < nlon)%nat /\ (j < nlat)%nat /\
    zonal_convergence nlon f clat dlambda a tol j i <> 0 /\
    meridional_divergence nlat f clat dphi a tol j i <> 0.
Proof.
  intros Ht. exists 3%nat, 4%nat, (fun _ i => INR i), (fun j => match j with O => 0 | S _ => 1 end), 1, 1, 1, 0%nat, 1%nat.
  split; [rewrite Rabs_R0; exact Ht|]. split; [lia|]. split; [lia|]. split.
  - rewrite pole_value; [cbn; lra|lia|lia|rewrite Rabs_R0; exact Ht].
  - set (c := fun j : nat => match j with O => 0 | S _ => 1 end).
    assert (Hc : Rabs (c 0%nat) <= tol) by (cbn; rewrite Rabs_R0; exact Ht).
    destruct (pole_rows 3 4 (fun _ i => INR i) c 1 1 1 tol 0 1 Hc) as [_ E]. rewrite E.
    unfold meridional_diff, c. cbn. toR. lra.
Qed.
Lemma md_edges_refuted nlat f clat dphi a tol i alpha beta : (3 <= nlat)%nat ->
  (forall j, (j < nlat)%nat -> tol < Rabs (clat j) /\ clat j <> 0) -> a <> 0 -> dphi <> 0 -> beta <> 0 ->
  (forall j, (j < nlat)%nat -> f j i * clat j = alpha + beta * (INR j * dphi)) ->
  (forall j, (0 < j)%nat -> (S j < nlat)%nat -> meridional_divergence nlat f clat dphi a tol j i = beta / (a * clat j)) /\
  meridional_divergence nlat f clat dphi a tol 0 i = beta / (a * clat 0%nat) / 2 /\
  meridional_divergence nlat f clat dphi a tol 0 i <> beta / (a * clat 0%nat) /\
  meridional_divergence nlat f clat dphi a tol (nlat - 1) i = beta / (a * clat (nlat - 1)%nat) / 2 /\
  meridional_divergence nlat f clat dphi a tol (nlat - 1) i <> beta / (a * clat (nlat - 1)%nat).
Proof.
  intros Hn Hc Ha Hd Hb Hf.
  destruct (Hc 0%nat ltac:(lia)) as [T0 N0]. destruct (Hc (nlat - 1)%nat ltac:(lia)) as [T1 N1].
  destruct (md_edges nlat f clat dphi a tol i ltac:(lia) T0 T1) as [E0 E1].
  assert (V0 : meridional_divergence nlat f clat dphi a tol 0 i = beta / (a * clat 0%nat) / 2).
  { rewrite E0, !Hf by lia. cbn [INR]. field. auto. }
  assert (V1 : meridional_divergence nlat f clat dphi a tol (nlat - 1) i = beta / (a * clat (nlat - 1)%nat) / 2).
  { rewrite E1, !Hf by lia. replace (INR (nlat - 1)) with (INR (nlat - 2) + 1) by (rewrite <- S_INR; f_equal; lia). field. auto. }
  assert (NZ : forall c, c <> 0 -> beta / (a * c) <> 0).
  { intros c Nc. unfold Rdiv. apply Rmult_integral_contrapositive. split; [assumption|]. apply Rinv_neq_0_compat.
    apply Rmult_integral_contrapositive. split; assumption. }
  split; [|split; [exact V0|split; [|split; [exact V1|]]]].
  - intros j H0 H1. destruct (Hc j ltac:(lia)) as [T N]. rewrite md_interior by assumption.
    rewrite !Hf by lia. rewrite plus_INR, minus_INR by lia. cbn [INR]. field. auto.
  - rewrite V0. specialize (NZ _ N0). lra.
  - rewrite V1. specialize (NZ _ N1). lra.
Qed.
Lemma static_mean_value kmax nlat nlon height (w : nat -> R) (theta : nat -> nat -> nat -> R) s n t0n t0s sn ss k :
  static_stability kmax nlat nlon height (Area2 (fun j _ => w j)) (Theta3 theta) (Some s) (Some n) = Some (t0n, t0s, sn, ss) ->
  (0 < nlon)%nat -> (1 <= s <= nlat)%nat -> (1 <= n <= nlat)%nat -> (forall j, (j < nlat)%nat -> 0 < w j) ->
  t0n k = Sum (nlat - n) nlat (fun j => Sum 0 nlon (fun i => theta k j i * w j)) / Sum (nlat - n) nlat (fun j => Sum 0 nlon (fun i => w j)) /\
  t0s k = Sum 0 s (fun j => Sum 0 nlon (fun i => theta k j i * w j)) / Sum 0 s (fun j => Sum 0 nlon (fun i => w j)).
Proof.
  intros E Hn Hs Hnn Hw. unfold static_stability in E. cbv zeta in E. destruct (Nat.ltb kmax 2); [discriminate|].
  injection E as <- <- <- <-.
  assert (T : tail_start n nlat = (nlat - n)%nat) by (destruct n; [lia|reflexivity]).
  assert (Hd : head_end s nlat = s) by (apply Nat.min_l; lia). rewrite T, Hd.
  split; apply hemi_mean_cells; try assumption; apply Rgt_not_eq, Sum_pos; try lia; intros j Hj; apply Hw; lia.
Qed.
Lemma static_total kmax nlat nlon height area (theta : thetaarr R) s n :
  (2 <= kmax)%nat <-> static_stability kmax nlat nlon height area theta s n <> None.
Proof.
  unfold static_stability. cbv zeta. destruct (Nat.ltb_spec kmax 2); split; intros; try lia; congruence.
Qed.
