(** Properties C17-C24 and C70-C72: finite-difference helpers of utilities.py. *)
From Verif Require Import Spec Utilities UtilSpec UtilitiesProofs.
Open Scope R_scope.

(** C17. *)
Theorem C17_zonal_convergence_sums_to_zero :
  forall nlon f clat dlambda a tol j, (2 <= nlon)%nat ->
    Sum 0 nlon (zonal_convergence nlon f clat dlambda a tol j) = 0.
Proof. exact zc_sum. Qed.
Print Assumptions C17_zonal_convergence_sums_to_zero.

Theorem C17_zonal_convergence_linear :
  forall nlon f g x y clat dlambda a tol j i, (2 <= nlon)%nat -> (i < nlon)%nat ->
    zonal_convergence nlon (fun j i => x * f j i + y * g j i) clat dlambda a tol j i =
    x * zonal_convergence nlon f clat dlambda a tol j i + y * zonal_convergence nlon g clat dlambda a tol j i.
Proof. exact zc_linear. Qed.
Print Assumptions C17_zonal_convergence_linear.

Theorem C17_zonal_convergence_kills_uniform_rows :
  forall nlon f clat dlambda a tol j i, (2 <= nlon)%nat -> (i < nlon)%nat ->
    (forall i', (i' < nlon)%nat -> f j i' = f j 0%nat) -> zonal_convergence nlon f clat dlambda a tol j i = 0.
Proof. exact zc_uniform. Qed.
Print Assumptions C17_zonal_convergence_kills_uniform_rows.

Theorem C17_zonal_convergence_commutes_with_rotation :
  forall nlon f s clat dlambda a tol j i, (2 <= nlon)%nat -> (i < nlon)%nat ->
    zonal_convergence nlon (fun j i => f j ((i + s) mod nlon)%nat) clat dlambda a tol j i =
    zonal_convergence nlon f clat dlambda a tol j ((i + s) mod nlon)%nat.
Proof. exact zc_rotation. Qed.
Print Assumptions C17_zonal_convergence_commutes_with_rotation.
(** a field that is 1 at one longitude: convergence -1/2, 1/2 to its west and east and 0 elsewhere *)
Example C17_case :
  let f := fun j i : nat => if Nat.eqb i 2 then 1 else 0 in let c := zonal_convergence 5 f (fun _ => 1) 1 1 (1 / 10) 0 in
  c 1%nat = - (1 / 2) /\ c 3%nat = 1 / 2 /\ c 0%nat = 0.
Proof.
  intros f c. unfold c. assert (T : 1 / 10 < Rabs ((fun _ : nat => 1) 0%nat)) by (rewrite Rabs_right; lra).
  rewrite !zc_centred by (lia || exact T). cbn. lra.
Qed.

(** C18. *)
Theorem C18_zonal_convergence_is_centred_periodic_difference :
  forall nlon f clat dlambda a tol j i, (2 <= nlon)%nat -> (i < nlon)%nat -> tol < Rabs (clat j) ->
    zonal_convergence nlon f clat dlambda a tol j i =
    - (f j ((i + 1) mod nlon)%nat - f j ((i + nlon - 1) mod nlon)%nat) / (2 * a * clat j * dlambda).
Proof. exact zc_centred. Qed.
Print Assumptions C18_zonal_convergence_is_centred_periodic_difference.
Example C18_hypotheses_met : 1 / 100000 < Rabs ((fun _ : nat => 1 / 2) 3%nat).
Proof. rewrite Rabs_right; lra. Qed.

(** C19.  Documented: 0 where |clat| <= tol.  The code returns the undivided difference there. *)
Theorem C19_pole_rows_zero_refuted :
  forall tol, 0 <= tol -> exists nlat nlon f clat dlambda dphi a j i,
    Rabs (clat j) <= tol /\ (i < nlon)%nat /\ (j < nlat)%nat /\
    zonal_convergence nlon f clat dlambda a tol j i <> 0 /\
    meridional_divergence nlat f clat dphi a tol j i <> 0.
Proof. exact pole_refuted. Qed.
Print Assumptions C19_pole_rows_zero_refuted.

(** what is returned instead, and the only case in which it is zero *)
Theorem C19_pole_rows_value_partial :
  forall nlon f clat dlambda a tol j i, (2 <= nlon)%nat -> (i < nlon)%nat -> Rabs (clat j) <= tol ->
    zonal_convergence nlon f clat dlambda a tol j i = f j ((i + 1) mod nlon)%nat - f j ((i + nlon - 1) mod nlon)%nat.
Proof. exact pole_value. Qed.
Print Assumptions C19_pole_rows_value_partial.
Example C19_case : zonal_convergence 5 (fun j i : nat => INR i) (fun _ => 0) 1 1 (1 / 10) 0 1 = 2.
Proof. rewrite C19_pole_rows_value_partial by (lia || rewrite Rabs_R0; lra). cbn. lra. Qed.

(** C20. *)
Theorem C20_meridional_divergence_interior :
  forall nlat f clat dphi a tol j i, (S j < nlat)%nat -> (0 < j)%nat -> tol < Rabs (clat j) ->
    meridional_divergence nlat f clat dphi a tol j i =
    (f (j + 1)%nat i * clat (j + 1)%nat - f (j - 1)%nat i * clat (j - 1)%nat) / (2 * a * clat j * dphi).
Proof. exact md_interior. Qed.
Print Assumptions C20_meridional_divergence_interior.

(** the edge rows are not consistent: on every f with f*clat linear in latitude they return half the
    derivative that the interior rows return *)
Theorem C20_meridional_divergence_edges_refuted :
  forall nlat f clat dphi a tol i alpha beta, (3 <= nlat)%nat ->
    (forall j, (j < nlat)%nat -> tol < Rabs (clat j) /\ clat j <> 0) -> a <> 0 -> dphi <> 0 -> beta <> 0 ->
    (forall j, (j < nlat)%nat -> f j i * clat j = alpha + beta * (INR j * dphi)) ->
    (forall j, (0 < j)%nat -> (S j < nlat)%nat -> meridional_divergence nlat f clat dphi a tol j i = beta / (a * clat j)) /\
    meridional_divergence nlat f clat dphi a tol 0 i = beta / (a * clat 0%nat) / 2 /\
    meridional_divergence nlat f clat dphi a tol 0 i <> beta / (a * clat 0%nat) /\
    meridional_divergence nlat f clat dphi a tol (nlat - 1) i = beta / (a * clat (nlat - 1)%nat) / 2 /\
    meridional_divergence nlat f clat dphi a tol (nlat - 1) i <> beta / (a * clat (nlat - 1)%nat).
Proof. exact md_edges_refuted. Qed.
Print Assumptions C20_meridional_divergence_edges_refuted.
Example C20_hypotheses_met :
  let clat := fun _ : nat => 1 in let f := fun (j i : nat) => 3 + 2 * (INR j * (1 / 10)) in
  (forall j, (j < 3)%nat -> 1 / 100000 < Rabs (clat j) /\ clat j <> 0) /\
  (forall j, (j < 3)%nat -> f j 0%nat * clat j = 3 + 2 * (INR j * (1 / 10))).
Proof. cbn zeta. split; intros j Hj; [rewrite Rabs_right; lra|lra]. Qed.

(** C21. *)
Theorem C21_curl_zero_on_first_and_last_row :
  forall nlat nlon u v clat dlambda dphi (a : R) i,
    curl_2d nlat nlon u v clat dlambda dphi a 0 i = 0 /\ curl_2d nlat nlon u v clat dlambda dphi a (nlat - 1) i = 0.
Proof. exact curl_poles. Qed.
Print Assumptions C21_curl_zero_on_first_and_last_row.

Theorem C21_curl_interior_value :
  forall nlat nlon u v clat dlambda dphi a j i, (2 <= nlon)%nat -> (i < nlon)%nat -> (0 < j)%nat -> (S j < nlat)%nat ->
    curl_2d nlat nlon u v clat dlambda dphi a j i =
    ((v j (east nlon i) - v j (west nlon i)) / (2 * dlambda)
     - (u (j + 1)%nat i * clat (j + 1)%nat - u (j - 1)%nat i * clat (j - 1)%nat) / (2 * dphi)) / a / clat j.
Proof. exact curl_value. Qed.
Print Assumptions C21_curl_interior_value.

Theorem C21_curl_row_sum_only_sees_neighbouring_u :
  forall nlat nlon u v clat dlambda dphi a j, (2 <= nlon)%nat -> (0 < j)%nat -> (S j < nlat)%nat -> clat j <> 0 ->
    Sum 0 nlon (fun i => curl_2d nlat nlon u v clat dlambda dphi a j i * clat j) =
    - (Sum 0 nlon (fun i => u (j + 1)%nat i * clat (j + 1)%nat) - Sum 0 nlon (fun i => u (j - 1)%nat i * clat (j - 1)%nat)) / (2 * dphi) / a.
Proof. exact curl_row_sum. Qed.
Print Assumptions C21_curl_row_sum_only_sees_neighbouring_u.

Theorem C21_curl_stokes :
  forall nlat nlon u v clat dlambda dphi a, (2 <= nlon)%nat -> (3 <= nlat)%nat ->
    (forall j, (0 < j)%nat -> (S j < nlat)%nat -> clat j <> 0) ->
    let C := fun j => Sum 0 nlon (fun i => u j i * clat j) in
    Sum 0 nlat (fun j => Sum 0 nlon (fun i => curl_2d nlat nlon u v clat dlambda dphi a j i * clat j)) =
    - (C (nlat - 1)%nat + C (nlat - 2)%nat - C 1%nat - C 0%nat) / (2 * dphi) / a.
Proof. exact curl_stokes. Qed.
Print Assumptions C21_curl_stokes.

Theorem C21_curl_linear :
  forall nlat nlon u v u' v' x y clat dlambda dphi a j i, (2 <= nlon)%nat -> (i < nlon)%nat -> (j < nlat)%nat ->
    curl_2d nlat nlon (fun j i => x * u j i + y * u' j i) (fun j i => x * v j i + y * v' j i) clat dlambda dphi a j i =
    x * curl_2d nlat nlon u v clat dlambda dphi a j i + y * curl_2d nlat nlon u' v' clat dlambda dphi a j i.
Proof. exact curl_linear. Qed.
Print Assumptions C21_curl_linear.
(** four rows, u = 1 on the last: its circulation is what the sum gives *)
Example C21_case :
  Sum 0 4 (fun j => Sum 0 3 (fun i => curl_2d 4 3 (fun j _ => if Nat.eqb j 3 then 1 else 0) (fun j i => INR (i * j)) (fun _ => 1) 1 1 1 j i * 1)) = - (3 / 2).
Proof.
  rewrite (C21_curl_stokes 4 3 (fun j _ => if Nat.eqb j 3 then 1 else 0) (fun j i => INR (i * j)) (fun _ => 1) 1 1 1); [|lia|lia|intros; lra].
  cbn. lra.
Qed.

(** C22. *)
Theorem C22_hemispheric_means_within_data_range :
  forall kmax nlat nlon height area theta s n t0n t0s sn ss k m M,
    static_stability kmax nlat nlon height area theta s n = Some (t0n, t0s, sn, ss) ->
    (0 < nlon)%nat -> (2 <= nlat)%nat ->
    (forall j, (j < nlat)%nat -> area_pos nlon area j) ->
    let ns := match s with None => (nlat / 2)%nat | Some s => s end in
    let nn := match n with None => (nlat / 2)%nat | Some n => n end in
    (1 <= ns <= nlat)%nat -> (1 <= nn <= nlat)%nat ->
    ((forall j, (nlat - nn <= j < nlat)%nat -> theta_in nlon theta k j m M) -> m <= t0n k <= M) /\
    ((forall j, (j < ns)%nat -> theta_in nlon theta k j m M) -> m <= t0s k <= M).
Proof. exact static_means. Qed.
Print Assumptions C22_hemispheric_means_within_data_range.

Theorem C22_hemispheric_mean_is_area_weighted :
  forall kmax nlat nlon height (w : nat -> R) (theta : nat -> nat -> nat -> R) s n t0n t0s sn ss k,
    static_stability kmax nlat nlon height (Area2 (fun j _ => w j)) (Theta3 theta) (Some s) (Some n) = Some (t0n, t0s, sn, ss) ->
    (0 < nlon)%nat -> (1 <= s <= nlat)%nat -> (1 <= n <= nlat)%nat -> (forall j, (j < nlat)%nat -> 0 < w j) ->
    t0n k = Sum (nlat - n) nlat (fun j => Sum 0 nlon (fun i => theta k j i * w j)) / Sum (nlat - n) nlat (fun j => Sum 0 nlon (fun i => w j)) /\
    t0s k = Sum 0 s (fun j => Sum 0 nlon (fun i => theta k j i * w j)) / Sum 0 s (fun j => Sum 0 nlon (fun i => w j)).
Proof. exact static_mean_value. Qed.
Print Assumptions C22_hemispheric_mean_is_area_weighted.

Theorem C22_static_stability_exact_on_linear_profiles :
  forall kmax nlat nlon height area theta s n t0n t0s sn ss c slope k,
    static_stability kmax nlat nlon height area theta s n = Some (t0n, t0s, sn, ss) ->
    (0 < nlon)%nat -> (2 <= nlat)%nat ->
    (forall j, (j < nlat)%nat -> area_pos nlon area j) ->
    let ns := match s with None => (nlat / 2)%nat | Some s => s end in
    let nn := match n with None => (nlat / 2)%nat | Some n => n end in
    (1 <= ns <= nlat)%nat -> (1 <= nn <= nlat)%nat -> ascending kmax height ->
    (forall k j i, (k < kmax)%nat -> (j < nlat)%nat -> (i < nlon)%nat -> theta_at nlon theta k j i = c j i + slope * height k) ->
    (k < kmax)%nat -> sn k = slope /\ ss k = slope.
Proof. exact static_slope. Qed.
Print Assumptions C22_static_stability_exact_on_linear_profiles.

Theorem C22_accepts_every_column_of_two_levels :
  forall kmax nlat nlon height area (theta : thetaarr R) s n,
    (2 <= kmax)%nat <-> static_stability kmax nlat nlon height area theta s n <> None.
Proof. exact static_total. Qed.
Print Assumptions C22_accepts_every_column_of_two_levels.
Example C22_hypotheses_met :
  (forall j, (j < 4)%nat -> area_pos 2 (Area2 (fun _ _ => 1)) j) /\ ascending 3 INR /\
  (forall k j i, (k < 3)%nat -> (j < 4)%nat -> (i < 2)%nat ->
     theta_at 2 (Theta3 (fun k j i => (INR j + INR i) + 2 * INR k)) k j i = (INR j + INR i) + 2 * INR k).
Proof. split; [|split]; [intros j Hj i Hi; lra|intros a b H; apply lt_INR; lia|reflexivity]. Qed.

(** C23.  The two garbage arguments stand for two possible contents of uninitialised memory. *)
Theorem C23_result_determined_on_covered_rows_partial :
  forall omega nlat kmax z ylat avort pt tn ts sn ss nlat_s H (garbage garbage' : nat -> nat -> nat -> R) k j i,
    (j < nlat)%nat -> covered nlat (match nlat_s with None => (nlat / 2)%nat | Some n => n end) j ->
    let r := compute_qgpv_givenvort omega nlat kmax z ylat avort pt tn ts sn ss nlat_s H garbage in
    let r' := compute_qgpv_givenvort omega nlat kmax z ylat avort pt tn ts sn ss nlat_s H garbage' in
    fst r k j i = fst r' k j i /\ snd r k j i = snd r' k j i.
Proof. exact givenvort_determined. Qed.
Print Assumptions C23_result_determined_on_covered_rows_partial.

Theorem C23_qgpv_value_for_even_nlat :
  forall omega nlat kmax z ylat avort pt tn ts sn ss H (garbage : nat -> nat -> nat -> R) k j i,
    (2 <= kmax)%nat -> (k < kmax)%nat -> (j < nlat)%nat -> Nat.even nlat = true ->
    let anom := if (j <? nlat / 2)%nat then fun k => (pt k j i - ts k) / ss k else fun k => (pt k j i - tn k) / sn k in
    fst (compute_qgpv_givenvort omega nlat kmax z ylat avort pt tn ts sn ss None H garbage) k j i =
    avort k j i + 2 * omega * sin (ylat j * (PI / 180)) * stretching kmax z H anom k.
Proof. exact givenvort_value. Qed.
Print Assumptions C23_qgpv_value_for_even_nlat.

(** for every odd nlat >= 3 the middle row reads uninitialised memory *)
Theorem C23_result_determined_refuted :
  forall m kmax, (2 <= kmax)%nat ->
    exists omega z ylat avort pt tn ts sn ss H (garbage garbage' : nat -> nat -> nat -> R),
      let r := compute_qgpv_givenvort omega (2 * S m + 1) kmax z ylat avort pt tn ts sn ss None H garbage in
      let r' := compute_qgpv_givenvort omega (2 * S m + 1) kmax z ylat avort pt tn ts sn ss None H garbage' in
      fst r 0%nat (S m) 0%nat <> fst r' 0%nat (S m) 0%nat /\ snd r 0%nat (S m) 0%nat <> snd r' 0%nat (S m) 0%nat.
Proof. exact givenvort_garbage. Qed.
Print Assumptions C23_result_determined_refuted.
Example C23_hypotheses_met : forall j, (j < 6)%nat -> covered 6 (6 / 2) j.
Proof. intros j Hj. unfold covered. cbn. lia. Qed.

(** C24. *)
Theorem C24_z_derivative_linear_in_g :
  forall stat_n stat_s kmax eq dz dd g g' x y mult k j i, (1 <= eq)%nat -> (2 <= kmax)%nat -> (k < kmax)%nat ->
    exists r1 r2 r3,
      z_derivative_of_prod stat_n stat_s kmax (2 * eq - 1) eq dz dd g mult = Some r1 /\
      z_derivative_of_prod stat_n stat_s kmax (2 * eq - 1) eq dz dd g' mult = Some r2 /\
      z_derivative_of_prod stat_n stat_s kmax (2 * eq - 1) eq dz dd (fun k j i => x * g k j i + y * g' k j i) mult = Some r3 /\
      r3 k j i = x * r1 k j i + y * r2 k j i.
Proof. exact zprod_linear. Qed.
Print Assumptions C24_z_derivative_linear_in_g.

(** exact on linear profiles of density*g/stability, with the stability of the row's hemisphere *)
Theorem C24_z_derivative_exact :
  forall stat_n stat_s kmax eq dz dd g mult c s k j i, (1 <= eq)%nat -> (2 <= kmax)%nat -> (k < kmax)%nat -> dz <> 0 ->
    let stab := fun k => if (j <? eq - 1)%nat then stat_s k
                         else if (j =? eq - 1)%nat then (stat_s k + stat_n k) / 2 else stat_n k in
    (forall k, (k < kmax)%nat -> dd k * g k j i / stab k = c + s * (INR k * dz)) ->
    exists r, z_derivative_of_prod stat_n stat_s kmax (2 * eq - 1) eq dz dd g mult = Some r /\ r k j i = mult k j * s.
Proof. exact zprod_exact. Qed.
Print Assumptions C24_z_derivative_exact.
Example C24_hypotheses_met :
  let g := fun k (_ _ : nat) => 3 + 5 * (INR k * 2) in
  forall k, (k < 4)%nat -> (fun _ => 1) k * g k 0%nat 0%nat / (fun _ => 1) k = 3 + 5 * (INR k * 2).
Proof. intros g k _; unfold g; cbv beta; field. Qed.

(** C70.  Away from the rows next to the poles a discrete gradient has zero curl. *)
Theorem C70_curl_of_gradient_is_zero :
  forall nlat nlon psi u v clat dlambda dphi a j i,
    (2 <= nlon)%nat -> (i < nlon)%nat -> (2 <= j)%nat -> (j + 2 < nlat)%nat ->
    (forall r, (0 < r)%nat -> (S r < nlat)%nat -> clat r <> 0) -> dlambda <> 0 -> dphi <> 0 -> a <> 0 ->
    (forall r s, (r < nlat)%nat -> (s < nlon)%nat -> u r s * clat r = (psi r (east nlon s) - psi r (west nlon s)) / (2 * dlambda) / a) ->
    (forall r s, (0 < r)%nat -> (S r < nlat)%nat -> (s < nlon)%nat -> v r s = (psi (r + 1)%nat s - psi (r - 1)%nat s) / (2 * dphi) / a) ->
    curl_2d nlat nlon u v clat dlambda dphi a j i = 0.
Proof. exact curl_gradient. Qed.
Print Assumptions C70_curl_of_gradient_is_zero.
Example C70_hypotheses_met :
  let psi := fun (j i : nat) => INR j * INR i in
  let u := fun (r s : nat) => (psi r (east 4 s) - psi r (west 4 s)) / (2 * 1) / 1 in
  forall r s, u r s * 1 = (psi r (east 4 s) - psi r (west 4 s)) / (2 * 1) / 1.
Proof. intros psi u r s. unfold u. apply Rmult_1_r. Qed.

(** C71.  Solid-body rotation: 2 (U/a) sin(lat) times the factor sin(2 dphi)/(2 dphi) of the centred
    difference. *)
Theorem C71_curl_of_solid_body_rotation :
  forall nlat nlon U phi0 dphi dlambda a j i, (2 <= nlon)%nat -> (i < nlon)%nat -> (0 < j)%nat -> (S j < nlat)%nat ->
    let phi := fun j => phi0 + INR j * dphi in
    cos (phi j) <> 0 -> dphi <> 0 -> a <> 0 ->
    curl_2d nlat nlon (fun j _ => U * cos (phi j)) (fun _ _ => 0) (fun j => cos (phi j)) dlambda dphi a j i =
    2 * U / a * sin (phi j) * (sin (2 * dphi) / (2 * dphi)).
Proof. exact curl_solid. Qed.
Print Assumptions C71_curl_of_solid_body_rotation.
Example C71_hypotheses_met : cos (0 + INR 0 * 1) <> 0 /\ cos (- PI / 4 + INR 1 * (PI / 4)) <> 0.
Proof. split; [cbn; rewrite Rmult_0_l, Rplus_0_r, cos_0; lra|]. cbn. replace (- PI / 4 + 1 * (PI / 4)) with 0 by field. rewrite cos_0; lra. Qed.

(** C72.  The cos-weighted sum of the meridional divergence over interior rows telescopes to the
    fluxes at the bounding rows. *)
Theorem C72_meridional_divergence_flux_form :
  forall nlat (f : nat -> nat -> R) clat dphi a tol i, (3 <= nlat)%nat ->
    (forall j, (0 < j)%nat -> (S j < nlat)%nat -> tol < Rabs (clat j) /\ clat j <> 0) -> a <> 0 -> dphi <> 0 ->
    let F := fun j => f j i * clat j in
    Sum 1 (nlat - 1) (fun j => meridional_divergence nlat f clat dphi a tol j i * clat j) =
    (F (nlat - 1)%nat + F (nlat - 2)%nat - F 1%nat - F 0%nat) / (2 * a * dphi).
Proof. exact md_flux_form. Qed.
Print Assumptions C72_meridional_divergence_flux_form.
(** five rows of weights 1, 2, 3, 2, 1; the field 1 in the middle row only: what leaves one side enters the other *)
Example C72_case :
  let clat := fun j => nth j [1; 2; 3; 2; 1] 0 in let f := fun j (_ : nat) => if Nat.eqb j 3 then 1 else 0 in
  (forall j, (0 < j)%nat -> (S j < 5)%nat -> 1 / 10 < Rabs (clat j) /\ clat j <> 0) /\
  Sum 1 4 (fun j => meridional_divergence 5 f clat 1 1 (1 / 10) j 0 * clat j) = 1.
Proof.
  intros clat f. assert (H : forall j, (0 < j)%nat -> (S j < 5)%nat -> 1 / 10 < Rabs (clat j) /\ clat j <> 0).
  { intros j H1 H2. assert (K : j = 1%nat \/ j = 2%nat \/ j = 3%nat) by lia. destruct K as [->|[->| ->]]; cbn; rewrite Rabs_pos_eq by lra; lra. }
  split; [exact H|]. change 4%nat with (5 - 1)%nat. rewrite C72_meridional_divergence_flux_form; [|lia|exact H|lra|lra]. cbn. field.
Qed.
