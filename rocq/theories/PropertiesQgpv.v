(** Properties of the QGPV computed by interpolate_fields (compute_qgpv.f90 for QGFieldNH18,
    compute_qgpv_direct_inv.f90 for QGFieldNHN22).  Vocabulary: QgpvSpec.v. *)
From Verif Require Import Base BaseFacts Spec SpecFacts Flux Qgpv QgpvSpec QgpvProofs.
Open Scope R_scope.

(** the absolute vorticity of either class *)
Definition vorticity (new : bool) (nlon nlat : nat) (a omega : R) (u v : arr3 R) : arr3 R :=
  avort nlon nlat a omega (if new then lat_nhn22 nlat else lat_nh18 nlat) u v.
Lemma vorticity_lat (new : bool) nlon nlat : (3 <= nlat)%nat -> (2 <= nlon)%nat -> forall j d,
  (if new then @lat_nhn22 R RNum nlat else lat_nh18 nlat) j d = glat nlat (j + 1) - INR d * (PI / INR (nlat - 1)).
Proof.
  intros H1 H2 j d. destruct new; [exact (lat_nhn22_ok nlon nlat H1 H2 j d)|exact (lat_nh18_ok nlon nlat H1 H2 j d)].
Qed.

(** C50.  The zonal derivative is divided by the latitude spacing; whenever that differs from the longitude
    spacing 2 pi / nlon there are winds for which the vorticity is wrong. *)
Theorem C50_vorticity_uses_longitude_spacing_refuted :
  forall (new : bool) (nlon nlat : nat) (a omega : R) (k : nat),
    (3 <= nlat)%nat -> (3 <= nlon)%nat -> nlon <> (2 * (nlat - 1))%nat -> a <> 0 ->
    exists u v : arr3 R,
      vorticity new nlon nlat a omega u v 1%nat 2%nat k <>
      abs_vorticity nlon nlat a omega (2 * PI / INR nlon) (PI / INR (nlat - 1)) u v 1%nat 2%nat k.
Proof.
  intros new nlon nlat a omega k Hlat Hlon Hne Ha.
  exact (wrong_spacing nlon nlat a omega Hlat ltac:(lia) _ (vorticity_lat new nlon nlat Hlat ltac:(lia)) k Hlon Hne Ha).
Qed.
Print Assumptions C50_vorticity_uses_longitude_spacing_refuted.
Example C50_some_grid : (3 <= 5)%nat /\ (3 <= 12)%nat /\ 12%nat <> (2 * (5 - 1))%nat.
Proof. lia. Qed.

Theorem C50_vorticity_partial :
  forall (new : bool) (nlon nlat : nat) (a omega : R) (u v : arr3 R) (i j k : nat),
    (3 <= nlat)%nat -> (2 <= nlon)%nat -> (1 <= i <= nlon)%nat -> (2 <= j <= nlat - 1)%nat ->
    vorticity new nlon nlat a omega u v i j k =
      abs_vorticity nlon nlat a omega (PI / INR (nlat - 1)) (PI / INR (nlat - 1)) u v i j k /\
    (nlon = (2 * (nlat - 1))%nat ->
     vorticity new nlon nlat a omega u v i j k =
       abs_vorticity nlon nlat a omega (2 * PI / INR nlon) (PI / INR (nlat - 1)) u v i j k).
Proof.
  intros new nlon nlat a omega u v i j k Hlat Hlon Hi Hj.
  assert (E := avort_inside nlon nlat a omega Hlat Hlon _ (vorticity_lat new nlon nlat Hlat Hlon) u v i j k Hi Hj).
  split; [exact E|]. intros Hn. unfold vorticity. rewrite E. apply right_spacing; assumption.
Qed.
Print Assumptions C50_vorticity_partial.
(** the 1.5 degree grid has the required aspect ratio *)
Example C50_usual_grid : 240%nat = (2 * (121 - 1))%nat. Proof. reflexivity. Qed.

(** C86 *)
Theorem C86_qgpv_is_vorticity_plus_stretching :
  forall (nlon nlat kmax jd : nat) (a omega H : R) (height : nat -> R) (u v theta : arr3 R)
         (t0 stat ts0 tn0 stats statn : nat -> R) (i j k : nat),
    (3 <= nlat)%nat -> (2 <= nlon)%nat -> (1 <= i <= nlon)%nat -> (1 <= j <= nlat)%nat -> (2 <= k <= kmax - 1)%nat ->
    qgpv_nh18 nlon nlat kmax a omega H height u v theta t0 stat i j k =
      vorticity false nlon nlat a omega u v i j k
      + zonal_mean nlon (vorticity false nlon nlat a omega u v) j k * stretching H height t0 stat theta i j k /\
    qgpv_nhn22 nlon nlat kmax a omega H height jd u v theta ts0 tn0 stats statn i j k =
      vorticity true nlon nlat a omega u v i j k
      + 2 * omega * sin (glat nlat j) *
        (if Nat.leb j jd then stretching H height ts0 stats theta i j k else stretching H height tn0 statn theta i j k).
Proof.
  intros nlon nlat kmax jd a omega H height u v theta t0 stat ts0 tn0 stats statn i j k Hlat Hlon Hi Hj Hk. split.
  - rewrite (qgpv_nh18_R nlon nlat kmax a omega H height) by exact Hk. rewrite (zmav_R nlon nlat a omega) by lia. reflexivity.
  - apply (qgpv_nhn22_R nlon nlat kmax a omega H height Hlat Hlon); [exact Hk|lia].
Qed.
Print Assumptions C86_qgpv_is_vorticity_plus_stretching.

Theorem C86_pole_rows_are_zonal_means :
  forall (new : bool) (nlon nlat : nat) (a omega : R) (u v : arr3 R) (i k : nat),
    (3 <= nlat)%nat -> (2 <= nlon)%nat -> (1 <= i <= nlon)%nat ->
    let w := vorticity new nlon nlat a omega u v in
    w i 1%nat k = zonal_mean nlon w 2 k /\ w i nlat k = zonal_mean nlon w (nlat - 1) k.
Proof.
  intros new nlon nlat a omega u v i k Hlat Hlon Hi w. unfold w, vorticity. assert (L := vorticity_lat new nlon nlat Hlat Hlon).
  split; rewrite (avort_pole nlon nlat a omega Hlat Hlon _ L) by auto; [reflexivity|].
  destruct (Nat.eqb_spec nlat 1); [lia|reflexivity].
Qed.
Print Assumptions C86_pole_rows_are_zonal_means.

Theorem C86_qgpv_zero_at_lowest_and_top_level :
  forall (nlon nlat kmax jd : nat) (a omega H : R) (height : nat -> R) (u v theta : arr3 R)
         (t0 stat ts0 tn0 stats statn : nat -> R) (i j k : nat),
    k = 1%nat \/ k = kmax ->
    qgpv_nh18 nlon nlat kmax a omega H height u v theta t0 stat i j k = 0 /\
    qgpv_nhn22 nlon nlat kmax a omega H height jd u v theta ts0 tn0 stats statn i j k = 0.
Proof.
  intros nlon nlat kmax jd a omega H height u v theta t0 stat ts0 tn0 stats statn i j k Hk.
  assert (NI : ~ interior kmax k) by (unfold interior; lia).
  split; [apply qgpv_outside_nh18; exact NI|apply qgpv_outside_nhn22; exact NI].
Qed.
Print Assumptions C86_qgpv_zero_at_lowest_and_top_level.

(** C87 *)
Theorem C87_qgpv_of_mirrored_state :
  forall (nlon nlat kmax jd : nat) (a omega H : R) (height : nat -> R) (u v theta : arr3 R)
         (t0 stat ts0 tn0 stats statn : nat -> R) (i j k : nat),
    (3 <= nlat)%nat -> (2 <= nlon)%nat -> (1 <= i <= nlon)%nat -> (1 <= j <= nlat)%nat -> nlat = (2 * jd - 1)%nat ->
    let u' := mirror nlat u in let v' := negated (mirror nlat v) in let theta' := mirror nlat theta in
    qgpv_nh18 nlon nlat kmax a omega H height u' v' theta' t0 stat i j k =
      - qgpv_nh18 nlon nlat kmax a omega H height u v theta t0 stat i (nlat + 1 - j)%nat k /\
    qgpv_nhn22 nlon nlat kmax a omega H height jd u' v' theta' tn0 ts0 statn stats i j k =
      - qgpv_nhn22 nlon nlat kmax a omega H height jd u v theta ts0 tn0 stats statn i (nlat + 1 - j)%nat k.
Proof.
  intros nlon nlat kmax jd a omega H height u v theta t0 stat ts0 tn0 stats statn i j k Hlat Hlon Hi Hj Hd u' v' theta'. split.
  - apply qgpv_nh18_mirror; assumption.
  - apply qgpv_nhn22_mirror; assumption.
Qed.
Print Assumptions C87_qgpv_of_mirrored_state.
(** five rows, warmer towards one pole *)
Example C87_case : let theta := fun i j k => INR k + INR j in
  qgpv_nh18 8 5 4 1 3 1 (fun k => INR k) (mirror 5 (fun _ j _ => INR j)) (negated (mirror 5 (fun i _ _ => INR i))) (mirror 5 theta) (fun k => INR k) (fun _ => 1) 1%nat 2%nat 2%nat =
  - qgpv_nh18 8 5 4 1 3 1 (fun k => INR k) (fun _ j _ => INR j) (fun i _ _ => INR i) theta (fun k => INR k) (fun _ => 1) 1%nat 4%nat 2%nat.
Proof.
  intros theta. apply (C87_qgpv_of_mirrored_state 8 5 4 3 1 3 1 (fun k => INR k) (fun _ j _ => INR j) (fun i _ _ => INR i) theta (fun k => INR k) (fun _ => 1)
    (fun _ => 0) (fun _ => 0) (fun _ => 1) (fun _ => 1) 1 2 2); lia.
Qed.

(** C88 *)
Theorem C88_solid_body_rotation :
  forall (nlon nlat kmax jd : nat) (a omega H U : R) (height t0 stat stats statn : nat -> R) (u v theta : arr3 R) (i j k : nat),
    (3 <= nlat)%nat -> (2 <= nlon)%nat -> (1 <= i <= nlon)%nat -> (1 <= j <= nlat)%nat -> (2 <= k <= kmax - 1)%nat -> a <> 0 ->
    (forall i j k, u i j k = U * cos (glat nlat j)) -> (forall i j k, v i j k = 0) -> (forall i j k, theta i j k = t0 k) ->
    let dphi := PI / INR (nlat - 1) in
    let q := (2 * omega + U / a * (sin (2 * dphi) / dphi)) * sin (glat nlat (Nat.min (Nat.max j 2) (nlat - 1))) in
    qgpv_nh18 nlon nlat kmax a omega H height u v theta t0 stat i j k = q /\
    qgpv_nhn22 nlon nlat kmax a omega H height jd u v theta t0 t0 stats statn i j k = q.
Proof.
  intros nlon nlat kmax jd a omega H U height t0 stat stats statn u v theta i j k Hlat Hlon Hi Hj Hk Ha Hu Hv Ht dphi q.
  assert (S0 : forall st, stretching H height t0 st theta i j k = 0) by (intros; apply stretching_rest; exact Ht).
  split.
  - rewrite (qgpv_nh18_R nlon nlat kmax a omega H height) by exact Hk. rewrite S0, Rmult_0_r, Rplus_0_r.
    apply solid_body_avort; try assumption. exact (lat_nh18_ok nlon nlat Hlat Hlon).
  - rewrite (qgpv_nhn22_R nlon nlat kmax a omega H height Hlat Hlon) by (exact Hk || lia).
    rewrite !S0. destruct (Nat.leb j jd); rewrite Rmult_0_r, Rplus_0_r; apply solid_body_avort; try assumption;
      exact (lat_nhn22_ok nlon nlat Hlat Hlon).
Qed.
Print Assumptions C88_solid_body_rotation.
(** such a state exists for every U; a state at rest gives the discrete planetary vorticity *)
Example C88_at_rest : forall j, (2 <= j <= 4)%nat ->
  qgpv_nh18 8 5 4 1 3 1 (fun k => INR k) (fun _ _ _ => 0) (fun _ _ _ => 0) (fun _ _ k => INR k) (fun k => INR k) (fun _ => 1) 1%nat j 2%nat
  = 2 * 3 * sin (glat 5 j).
Proof.
  intros j Hj. destruct (C88_solid_body_rotation 8 5 4 3 1 3 1 0 (fun k => INR k) (fun k => INR k) (fun _ => 1) (fun _ => 1) (fun _ => 1)
    (fun _ _ _ => 0) (fun _ _ _ => 0) (fun _ _ k => INR k) 1 j 2) as [E _]; try lia; try lra; try (intros; ring).
  rewrite E. replace (Nat.min (Nat.max j 2) (5 - 1)) with j by lia. unfold Rdiv. ring.
Qed.

(** C89 *)
Theorem C89_qgpv_zonal_relabelling :
  forall (nlon nlat kmax jd : nat) (a omega H : R) (height : nat -> R) (u v theta : arr3 R)
         (t0 stat ts0 tn0 stats statn : nat -> R) (i j k : nat),
    (3 <= nlat)%nat -> (2 <= nlon)%nat -> (1 <= i <= nlon)%nat -> (1 <= j <= nlat)%nat ->
    let u' := rotated nlon u in let v' := rotated nlon v in let theta' := rotated nlon theta in
    qgpv_nh18 nlon nlat kmax a omega H height u' v' theta' t0 stat i j k =
      rotated nlon (qgpv_nh18 nlon nlat kmax a omega H height u v theta t0 stat) i j k /\
    qgpv_nhn22 nlon nlat kmax a omega H height jd u' v' theta' ts0 tn0 stats statn i j k =
      rotated nlon (qgpv_nhn22 nlon nlat kmax a omega H height jd u v theta ts0 tn0 stats statn) i j k.
Proof.
  intros nlon nlat kmax jd a omega H height u v theta t0 stat ts0 tn0 stats statn i j k Hlat Hlon Hi Hj u' v' theta'.
  assert (L18 := lat_nh18_ok nlon nlat Hlat Hlon). assert (L22 := lat_nhn22_ok nlon nlat Hlat Hlon).
  assert (D : interior kmax k \/ ~ interior kmax k) by (unfold interior; lia).
  change (rotated nlon (qgpv_nh18 nlon nlat kmax a omega H height u v theta t0 stat) i j k) with (qgpv_nh18 nlon nlat kmax a omega H height u v theta t0 stat (next_lon nlon i) j k).
  change (rotated nlon (qgpv_nhn22 nlon nlat kmax a omega H height jd u v theta ts0 tn0 stats statn) i j k) with (qgpv_nhn22 nlon nlat kmax a omega H height jd u v theta ts0 tn0 stats statn (next_lon nlon i) j k).
  destruct D as [Hk|Hk].
  - split.
    + rewrite !(qgpv_nh18_R nlon nlat kmax a omega H height) by exact Hk. unfold u', v'.
      rewrite (avort_rotated nlon nlat a omega Hlat Hlon _ L18) by assumption.
      rewrite (zmav_rotated nlon nlat a omega Hlat Hlon _ L18) by assumption. reflexivity.
    + rewrite !(qgpv_nhn22_R nlon nlat kmax a omega H height Hlat Hlon) by (exact Hk || lia). unfold u', v'.
      rewrite (avort_rotated nlon nlat a omega Hlat Hlon _ L22) by assumption. reflexivity.
  - split; [rewrite !(qgpv_outside_nh18 nlon nlat kmax) by exact Hk|rewrite !(qgpv_outside_nhn22 nlon nlat kmax) by exact Hk]; reflexivity.
Qed.
Print Assumptions C89_qgpv_zonal_relabelling.
(** relabelling is not the identity and does visit every longitude *)
Example C89_rotation : next_lon 3 1 = 2%nat /\ next_lon 3 2 = 3%nat /\ next_lon 3 3 = 1%nat. Proof. repeat split. Qed.
