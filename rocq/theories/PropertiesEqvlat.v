(** Properties C08-C14, C68, C69: equivalent latitude and the reference profile
    (basis.eqvlat_fawa, basis.eqvlat_vgrad). *)
From Verif Require Import Spec EqvlatSpec Basis Barotropic EqvlatProofs2.
Open Scope R_scope.

(** C08.  The returned profile is the piecewise linear curve through
    (latitude south of which the sphere has the area below contour k, contour k). *)
Theorem C08_profile_is_area_map_of_contours :
  forall nlat nlon ylat vort area n a lo hi flag l,
    (2 <= n)%nat -> 0 < a -> is_min nlat nlon vort lo -> is_max nlat nlon vort hi ->
    (forall j i, (j < nlat)%nat -> (i < nlon)%nat -> 0 <= area j i) -> total nlat nlon area <= sphere a ->
    on_curve n (fun k => latitude_of_area a (total_below nlat nlon vort area (contour lo hi n k)))
             (contour lo hi n) (ylat l) (fst (eqvlat_fawa nlat nlon ylat vort area n a flag) l).
Proof. intros; apply grid_curve; assumption. Qed.
Print Assumptions C08_profile_is_area_map_of_contours.

Theorem C08_cumulative_area_monotone_and_bounded :
  forall nlat nlon vort area n lo hi i k,
    (2 <= n)%nat -> is_min nlat nlon vort lo -> is_max nlat nlon vort hi ->
    (forall j i, (j < nlat)%nat -> (i < nlon)%nat -> 0 <= area j i) -> (i <= k < n)%nat ->
    fawa_aq (cells_of nlat nlon vort area) n 0 = 0 /\
    fawa_aq (cells_of nlat nlon vort area) n k = total_below nlat nlon vort area (contour lo hi n k) /\
    0 <= fawa_aq (cells_of nlat nlon vort area) n i <= fawa_aq (cells_of nlat nlon vort area) n k /\
    fawa_aq (cells_of nlat nlon vort area) n k <= total nlat nlon area.
Proof. exact grid_cumulative. Qed.
Print Assumptions C08_cumulative_area_monotone_and_bounded.

(** a 2x2 grid meeting every hypothesis of C08, C09, C68 *)
Definition ex_vort (j i : nat) : R := match j with O => INR i | S _ => 2 + INR i end.
Example C08_hypotheses_met :
  is_min 2 2 ex_vort 0 /\ is_max 2 2 ex_vort 3 /\ total 2 2 (fun _ _ => PI) <= sphere 1 /\
  total_below 2 2 ex_vort (fun _ _ => PI) (contour 0 3 4 2) = cap_area 1 0 /\
  total_below 2 2 ex_vort (fun _ _ => PI) (contour 0 3 4 2) < total_below 2 2 ex_vort (fun _ _ => PI) (contour 0 3 4 3).
Proof. exact grid_example. Qed.

(** C09.  Monotone in latitude and inside the data range. *)
Theorem C09_profile_monotone_and_in_range :
  forall nlat nlon ylat vort area n a lo hi flag,
    (2 <= n)%nat -> 0 < a -> is_min nlat nlon vort lo -> is_max nlat nlon vort hi ->
    (forall j i, (j < nlat)%nat -> (i < nlon)%nat -> 0 <= area j i) -> total nlat nlon area <= sphere a ->
    nondecreasing nlat ylat ->
    nondecreasing nlat (fst (eqvlat_fawa nlat nlon ylat vort area n a flag)) /\
    forall l, lo <= fst (eqvlat_fawa nlat nlon ylat vort area n a flag) l <= hi.
Proof. exact grid_mono_range. Qed.
Print Assumptions C09_profile_monotone_and_in_range.
Example C09_case : forall l, 0 <= fst (eqvlat_fawa 2 2 INR ex_vort (fun _ _ => PI) 4 1 false) l <= 3.
Proof.
  destruct C08_hypotheses_met as (Mi & Ma & To & _). apply (C09_profile_monotone_and_in_range 2 2 INR ex_vort (fun _ _ => PI) 4 1 0 3 false); try assumption; try lia; try lra.
  - intros. assert (P := PI_RGT_0). lra.
  - intros a b Hab. apply le_INR. lia.
Qed.

(** C11.  Conservative rearrangement of cells (even onto another grid shape). *)
Theorem C11_rearrangement_invariant :
  forall nlat nlon nlat' nlon' ylat v w v' w' n a l, (1 <= n)%nat -> (0 < nlat)%nat -> (0 < nlon)%nat ->
    Permutation (grid_pairs nlat nlon v w) (grid_pairs nlat' nlon' v' w') ->
    fst (eqvlat_fawa nlat nlon ylat v w n a false) l = fst (eqvlat_fawa nlat' nlon' ylat v' w' n a false) l.
Proof. exact grid_perm. Qed.
Print Assumptions C11_rearrangement_invariant.
Example C11_hypotheses_met :
  Permutation (grid_pairs 2 2 ex_vort (fun j i => INR j)) (grid_pairs 2 2 (fun j i => ex_vort (1 - j) i) (fun j i => INR (1 - j))).
Proof. exact (Permutation_app_comm (grid_pairs 1 2 ex_vort (fun j i => INR j)) (grid_pairs 1 2 (fun j i => ex_vort 1 i) (fun j i => INR 1))). Qed.

(** C12.  Positive affine rescaling. *)
Theorem C12_profile_affine_equivariant :
  forall nlat nlon ylat v w n a c d l flag, (1 <= n)%nat -> (0 < nlat)%nat -> (0 < nlon)%nat -> 0 < c ->
    fst (eqvlat_fawa nlat nlon ylat (fun j i => c * v j i + d) w n a flag) l =
    c * fst (eqvlat_fawa nlat nlon ylat v w n a flag) l + d.
Proof. exact grid_affine. Qed.
Print Assumptions C12_profile_affine_equivariant.
Example C12_case : fst (eqvlat_fawa 2 2 INR (fun j i => 2 * ex_vort j i + 1) (fun _ _ => PI) 4 1 false) 1%nat = 2 * fst (eqvlat_fawa 2 2 INR ex_vort (fun _ _ => PI) 4 1 false) 1%nat + 1.
Proof. apply C12_profile_affine_equivariant; lia || lra. Qed.

(** C13.  The two functions return the same profile. *)
Theorem C13_vgrad_and_fawa_profiles_agree :
  forall nlat nlon ylat (vort area : nat -> nat -> R) n a flag vg l, (1 <= n)%nat ->
    fst (eqvlat_vgrad nlat nlon ylat vort area n a vg) l = fst (eqvlat_fawa nlat nlon ylat vort area n a flag) l.
Proof. exact vgrad_same_qref. Qed.
Print Assumptions C13_vgrad_and_fawa_profiles_agree.
Example C13_case : fst (eqvlat_vgrad 2 2 INR ex_vort (fun _ _ => PI) 4 1 (Some (fun j _ => INR j))) 1%nat = fst (eqvlat_fawa 2 2 INR ex_vort (fun _ _ => PI) 4 1 true) 1%nat.
Proof. apply C13_vgrad_and_fawa_profiles_agree. lia. Qed.

(** C14.  Bracket averages stay in the hull of the data and 0. *)
Theorem C14_bracket_in_data_hull :
  forall nlat nlon ylat (vort area vg : nat -> nat -> R) n a lo hi l, (1 <= n)%nat -> 0 < a -> lo <= 0 <= hi ->
    (forall j i, (j < nlat)%nat -> (i < nlon)%nat -> 0 <= area j i /\ lo <= vg j i <= hi) ->
    total nlat nlon area <= sphere a ->
    exists b, snd (eqvlat_vgrad nlat nlon ylat vort area n a (Some vg)) = Some b /\ lo <= b l <= hi.
Proof. exact brac_range. Qed.
Print Assumptions C14_bracket_in_data_hull.

Theorem C14_bin_average_in_range :
  forall (cells3 : list ((R * R) * R)) n i lo hi,
    (forall c, In c cells3 -> 0 <= snd (fst c) /\ lo <= snd c <= hi) ->
    vgrad_aa (map fst cells3) n i <> 0 -> lo <= vgrad_dp cells3 n i <= hi.
Proof. exact dp_range_nonempty. Qed.
Print Assumptions C14_bin_average_in_range.
Example C14_hypotheses_met :
  let cells3 := [((0, 1), 5); ((1, 2), -1)] in
  (forall c, In c cells3 -> 0 <= snd (fst c) /\ -1 <= snd c <= 5) /\ vgrad_aa (map fst cells3) 2 1 <> 0.
Proof. exact dp_example. Qed.

(** C68.  At a latitude whose southern cap has exactly the area below contour k the profile is
    contour k: the area below the reference contour is preserved. *)
Theorem C68_profile_matches_area :
  forall nlat nlon ylat vort area n a lo hi flag l k,
    (2 <= n)%nat -> 0 < a -> is_min nlat nlon vort lo -> is_max nlat nlon vort hi ->
    (forall j i, (j < nlat)%nat -> (i < nlon)%nat -> 0 <= area j i) -> total nlat nlon area <= sphere a ->
    (k < n)%nat -> -90 <= ylat l <= 90 ->
    cap_area a (ylat l) = total_below nlat nlon vort area (contour lo hi n k) ->
    ((S k < n)%nat -> total_below nlat nlon vort area (contour lo hi n k) < total_below nlat nlon vort area (contour lo hi n (S k))) ->
    fst (eqvlat_fawa nlat nlon ylat vort area n a flag) l = contour lo hi n k.
Proof. intros; apply grid_area_matching; assumption. Qed.
Print Assumptions C68_profile_matches_area.
(** in the 2x2 example half of the sphere lies below the value 2, so that the profile is 2 at the equator *)
Example C68_case : fst (eqvlat_fawa 2 2 (fun j => 45 * INR j) ex_vort (fun _ _ => PI) 4 1 false) 0%nat = 2.
Proof.
  destruct C08_hypotheses_met as (Mi & Ma & To & A & B). transitivity (contour 0 3 4 2); [|unfold contour; cbn; lra]. assert (P := PI_RGT_0).
  apply (C68_profile_matches_area 2 2 (fun j => 45 * INR j) ex_vort (fun _ _ => PI) 4 1 0 3 false 0 2 ltac:(lia) ltac:(lra) Mi Ma ltac:(intros; lra) To ltac:(lia)).
  - cbn; lra.
  - rewrite A. f_equal. cbn. lra.
  - intros _. exact B.
Qed.

(** C69.  Exact value of FAWA at an area-matched latitude: circulation of the region above the
    contour minus the (trapezoidal) circulation north of the latitude, minus the GLOBAL circulation.
    The last term is the defect: it vanishes only for fields of zero global circulation. *)
Theorem C69_fawa_is_circulation_difference_partial :
  forall nlat nlon ylat vort area n a lo hi l k,
    (2 <= n)%nat -> 0 < a -> is_min nlat nlon vort lo -> is_max nlat nlon vort hi ->
    (forall j i, (j < nlat)%nat -> (i < nlon)%nat -> 0 <= area j i) -> total nlat nlon area <= sphere a ->
    (S l < nlat)%nat -> (k < n)%nat -> -90 <= ylat (S l) <= 90 ->
    cap_area a (ylat (S l)) = total_below nlat nlon vort area (contour lo hi n k) ->
    ((S k < n)%nat -> total_below nlat nlon vort area (contour lo hi n k) < total_below nlat nlon vort area (contour lo hi n (S k))) ->
    exists fawa, snd (eqvlat_fawa nlat nlon ylat vort area n a true) = Some fawa /\
      2 * PI * a * fawa l =
        Sum 0 nlat (fun j => Sum 0 nlon (fun i => if Rlt_dec (vort j i) (contour lo hi n k) then 0 else area j i * vort j i))
        - Sum (S l) (nlat - 1) (fun r =>
            (1 / 2) * (Sum 0 nlon (fun i => vort r i) / INR nlon * Sum 0 nlon (fun i => area r i)
                     + Sum 0 nlon (fun i => vort (r + 1)%nat i) / INR nlon * Sum 0 nlon (fun i => area (r + 1)%nat i)))
        - total nlat nlon (fun j i => area j i * vort j i).
Proof. exact grid_fawa_difference. Qed.
Print Assumptions C69_fawa_is_circulation_difference_partial.
Example C69_case : exists fawa, snd (eqvlat_fawa 2 2 (fun j => 45 * (INR j - 1)) ex_vort (fun _ _ => PI) 4 1 true) = Some fawa /\ 2 * PI * 1 * fawa 0%nat = - PI.
Proof.
  destruct C08_hypotheses_met as (Mi & Ma & To & A & B). assert (P := PI_RGT_0).
  destruct (C69_fawa_is_circulation_difference_partial 2 2 (fun j => 45 * (INR j - 1)) ex_vort (fun _ _ => PI) 4 1 0 3 0 2 ltac:(lia) ltac:(lra) Mi Ma ltac:(intros; lra) To ltac:(lia) ltac:(lia)) as (w & Hw & E).
  - cbn; lra.
  - rewrite A. f_equal. cbn. lra.
  - intros _. exact B.
  - exists w. split; [exact Hw|]. rewrite E. unfold contour, total, Sum, ex_vort. cbn.
    destruct (Rlt_dec 0 _) as [_|N]; [|exfalso; apply N; lra]. destruct (Rlt_dec 1 _) as [_|N]; [|exfalso; apply N; lra].
    destruct (Rlt_dec (2 + 0) _) as [N|_]; [exfalso; lra|]. destruct (Rlt_dec (2 + 1) _) as [N|_]; [exfalso; lra|]. lra.
Qed.

(** the full claim "a flow without contours to displace has zero FAWA" is false *)
Theorem C69_fawa_zero_for_constant_field_refuted :
  exists nlat nlon ylat vort area n a fawa,
    (forall j i, vort j i = 1) /\ (forall j i, 0 <= area j i) /\ total nlat nlon area <= sphere a /\
    snd (eqvlat_fawa nlat nlon ylat vort area n a true) = Some fawa /\ fawa 0%nat <> 0.
Proof. exact fawa_constant_nonzero. Qed.
Print Assumptions C69_fawa_zero_for_constant_field_refuted.
