(** Circulations are determined by the area they enclose; the resting atmosphere on a 9-row grid as an example *)
From Verif Require Import Base BaseFacts Spec SpecFacts Flux FluxSpec FluxProofs Qgpv QgpvProofs Pipeline PipelineSpec PipelineProofs
  RefStates RefStatesSpec RefStatesProofs RefStatesProofs2 RefStatesProofs3 RefStatesProofs4 RefStatesProofs5
  DirInv DirInvSpec DirInvProofs DirInvProofs2 DirInvProofs3 DirInvProofs4.
From Coq Require Import FunctionalExtensionality ZifyNat.
Ltac Zify.zify_post_hook ::= Z.to_euclidean_division_equations.
Open Scope R_scope.

Lemma Sum_nonneg_zero lo hi f : (forall i, (lo <= i < hi)%nat -> 0 <= f i) -> Sum lo hi f = 0 -> forall i, (lo <= i < hi)%nat -> f i = 0.
Proof.
  intros Hf E i Hi. rewrite (Sum_split lo i hi), (Sum_S_l i) in E by lia.
  assert (A : forall a b, (lo <= a)%nat -> (b <= hi)%nat -> 0 <= Sum a b f).
  { intros a b Ha Hb. rewrite <- (Sum_zero a b (fun _ => 0)) by reflexivity. apply Sum_le. intros; apply Hf; lia. }
  assert (A1 := A lo i ltac:(lia) ltac:(lia)). assert (A2 := A (S i) hi ltac:(lia) ltac:(lia)). assert (A3 := Hf i Hi). lra.
Qed.

Section Unique.
  Variable P : rsdims R.
  Hypothesis G : pole_to_pole P.
  Hypothesis Ha : 0 < s_a P.
  Variables (x : arr3 R) (k : nat) (M m : R).
  Hypothesis Hmm : m < M.
  Let Np : (2 <= s_npart P)%nat. Proof. exact (proj1 (proj2 (proj2 (proj2 (proj2 G))))). Qed.
  Notation S n := (RefStatesSpec.between (contour P M m (n + 1)) (contour P M m 2)).
  Notation area n := (area_of P x k (S n)).
  Notation circ n := (circulation_of P x k (S n)).
  Lemma contour_antitone n1 n2 : (n1 <= n2)%nat -> contour P M m n2 <= contour P M m n1.
  Proof.
    intros Hn. unfold contour. apply le_INR in Hn. assert (N := le_INR _ _ Np). cbn [INR] in N.
    assert (0 <= (M - m) / (INR (s_npart P) - 1)) by (apply Rmult_le_pos; [lra|]; left; apply Rinv_0_lt_compat; lra). nra.
  Qed.
  Lemma nested n1 n2 v : (n1 <= n2)%nat -> S n1 v = true -> S n2 v = true.
  Proof.
    intros Hn. assert (C := contour_antitone (n1 + 1) (n2 + 1) ltac:(lia)). unfold RefStatesSpec.between.
    destruct (Rlt_dec (contour P M m (n1 + 1)) v), (Rlt_dec (contour P M m (n2 + 1)) v), (Rle_dec v (contour P M m 2)); try discriminate; auto; lra.
  Qed.
  Lemma term_order n1 n2 i j : (n1 <= n2)%nat -> (1 <= j <= s_nlat P)%nat ->
    0 <= (if S n2 (x i j k) then cell_area P j else 0) - (if S n1 (x i j k) then cell_area P j else 0).
  Proof.
    intros Hn Hr. assert (C := cell_area_nonneg P G Ha j ltac:(lia)). assert (N := nested n1 n2 (x i j k) Hn).
    destruct (S n1 (x i j k)); [rewrite N by reflexivity; lra|]. destruct (S n2 (x i j k)); lra.
  Qed.
  Lemma area_difference n1 n2 : area n2 - area n1
    = Sum 1 (s_nlat P + 1) (fun j => Sum 1 (s_nlon P + 1) (fun i => (if S n2 (x i j k) then cell_area P j else 0) - (if S n1 (x i j k) then cell_area P j else 0))).
  Proof. unfold area_of. rewrite <- Sum_minus. apply Sum_ext. intros j _. rewrite <- Sum_minus. reflexivity. Qed.
  Lemma Sum_nonneg lo hi f : (forall i, (lo <= i < hi)%nat -> 0 <= f i) -> 0 <= Sum lo hi f.
  Proof. intros Hf. rewrite <- (Sum_zero lo hi (fun _ => 0)) by reflexivity. apply Sum_le. exact Hf. Qed.
  Lemma area_order n1 n2 : (n1 <= n2)%nat -> area n1 <= area n2.
  Proof.
    intros Hn. assert (D := area_difference n1 n2). assert (0 <= area n2 - area n1); [|lra]. rewrite D. apply Sum_nonneg. intros j Hr. apply Sum_nonneg. intros i Hi. apply term_order; lia.
  Qed.
  Lemma same_area_same_circulation n1 n2 : (n1 <= n2)%nat -> area n1 = area n2 -> circ n1 = circ n2.
  Proof.
    intros Hn E. assert (D := area_difference n1 n2). rewrite E, Rminus_diag_eq in D by reflexivity. symmetry in D.
    unfold circulation_of. apply Sum_ext. intros j Hr. apply Sum_ext. intros i Hi.
    assert (T : forall jj ii, (1 <= jj < s_nlat P + 1)%nat -> 0 <= (if S n2 (x ii jj k) then cell_area P jj else 0) - (if S n1 (x ii jj k) then cell_area P jj else 0)) by (intros; apply term_order; lia).
    assert (D1 := Sum_nonneg_zero _ _ _ (fun jj Hjj => Sum_nonneg _ _ _ (fun ii _ => T jj ii Hjj)) D j ltac:(lia)). cbv beta in D1.
    assert (D2 := Sum_nonneg_zero _ _ _ (fun ii _ => T j ii ltac:(lia)) D1 i ltac:(lia)). cbv beta in D2.
    destruct (S n2 (x i j k)), (S n1 (x i j k)); try reflexivity.
    - replace (cell_area P j) with 0 by lra. ring.
    - replace (cell_area P j) with 0 by lra. ring.
  Qed.
  Lemma cap_circulation_ordered j C C' nn t nn' t' : (nn < nn')%nat -> 0 <= t < 1 -> 0 <= t' < 1 ->
    area nn * (1 - t) + area (nn + 1)%nat * t = cap_area P j -> C = circ nn * (1 - t) + circ (nn + 1)%nat * t ->
    area nn' * (1 - t') + area (nn' + 1)%nat * t' = cap_area P j -> C' = circ nn' * (1 - t') + circ (nn' + 1)%nat * t' -> C = C'.
  Proof.
    intros Hlt Ht Ht' HA HC HA' HC'.
    assert (O1 := area_order nn (nn + 1) ltac:(lia)). assert (O2 := area_order (nn + 1) nn' ltac:(lia)). assert (O3 := area_order nn' (nn' + 1) ltac:(lia)).
    assert (X1 : area nn * (1 - t) + area (nn + 1)%nat * t <= area (nn + 1)%nat) by nra.
    assert (X2 : area nn' <= area nn' * (1 - t') + area (nn' + 1)%nat * t') by nra.
    assert (Y : area nn = area (nn + 1)%nat).
    { assert ((1 - t) * (area (nn + 1)%nat - area nn) = 0) by nra. apply Rmult_integral in H. destruct H; lra. }
    assert (Z : area (nn + 1)%nat = area nn') by nra.
    assert (C1 := same_area_same_circulation nn (nn + 1) ltac:(lia) Y). assert (C2 := same_area_same_circulation (nn + 1) nn' ltac:(lia) Z).
    assert (W : t' * (area (nn' + 1)%nat - area nn') = 0) by nra. apply Rmult_integral in W. rewrite HC, HC', C1, <- C2. destruct W as [W|W].
    - rewrite W. ring.
    - assert (C3 := same_area_same_circulation nn' (nn' + 1) ltac:(lia) ltac:(lra)). rewrite <- C3, <- C2. ring.
  Qed.
  Lemma cap_circulation_unique j C C' : cap_circulation P x k M m j C -> cap_circulation P x k M m j C' -> C = C'.
  Proof.
    intros (nn & t & Hn & Ht & HA & HC) (nn' & t' & Hn' & Ht' & HA' & HC'). cbv zeta beta in *.
    destruct (lt_eq_lt_dec nn nn') as [[L|E]|L].
    - exact (cap_circulation_ordered j C C' nn t nn' t' L Ht Ht' HA HC HA' HC').
    - subst nn'. assert (O := area_order nn (nn + 1) ltac:(lia)).
      destruct (Req_dec (area nn) (area (nn + 1)%nat)) as [E|N].
      + assert (X := same_area_same_circulation nn (nn + 1) ltac:(lia) E). rewrite HC, HC', X. ring.
      + assert (t = t') by nra. subst t'. lra.
    - symmetry. exact (cap_circulation_ordered j C' C nn' t' nn t L Ht' Ht HA' HC' HA HC).
  Qed.
End Unique.

(** ** example: the resting atmosphere on a grid of 9 latitudes, one row left out at the equator *)
Definition wide (nh : bool) : pconf R :=
  {| p_nlon := 4; p_nlat := 9; p_kmax := 4; p_eq := 5; p_jb := 1; p_jd := 4; p_nh := nh; p_a := 6378000; p_om := 7 / 100000; p_dz := 1000; p_h := 7000;
     p_rr := 287; p_cp := 1004; p_prefac := 1; p_dphi := PI / 8; p_dlambda := PI / 2; p_tol := 0;
     p_height := fun k => 1000 * INR k; p_ylat := fun j => 45 / 2 * (INR j - 4); p_clat := fun j => cos (PI / 8 * (INR j - 4)) |}.
Lemma wide_grid nh : symmetric_grid (wide nh).
Proof.
  (split; [cbn; lia|]); (split; [cbn; lia|]); (split; [cbn; lia|]); (split; [cbn; lia|]);
      intros j Hj; cbn [wide p_nlat p_ylat p_clat] in *; do 9 (destruct j as [|j]; [cbn [INR Nat.sub]; split; [lra|rewrite <- cos_neg; f_equal; lra]|]); lia.
Qed.
Lemma wide_regular nh : regular (wide nh) (p_nlat (wide nh)).
Proof. repeat split; cbn; try lia; try lra; field. Qed.
Definition rest (t : nat -> nat -> R) : fields R := {| u_ := fun _ _ _ => 0; v_ := fun _ _ _ => 0; theta_ := fun i j k => t j k |}.
Definition even_av : averages R := {| tn0 := fun k => 300; ts0 := fun k => 300; stat_n := fun k => 1; stat_s := fun k => 1 |}.

Lemma eighth : 7 / 10 < cos (PI / 4) < 72 / 100 /\ 1 / 3 < sin (PI / 8) < 1 / 2 /\ 9 / 10 < cos (PI / 8) < 1 /\ sin (PI / 4) = cos (PI / 4)
  /\ sin (3 * (PI / 8)) = cos (PI / 8) /\ 3 < PI /\ cos (3 * (PI / 8)) = sin (PI / 8) /\ (sin (PI / 8))² + (cos (PI / 8))² = 1.
Proof.
  assert (P0 := PI2_3_2). assert (P1 := PI_4). assert (E : sin (PI / 4) = cos (PI / 4)) by (rewrite sin_cos_PI4; reflexivity).
  assert (Q := sin2_cos2 (PI / 4)). rewrite E in Q. unfold Rsqr in Q.
  assert (C0 : 0 < cos (PI / 4)) by (apply cos_gt_0; lra).
  assert (S8 : 0 < sin (PI / 8)) by (apply sin_gt_0; lra). assert (C8 : 0 < cos (PI / 8)) by (apply cos_gt_0; lra).
  assert (D := cos_2a (PI / 8)). replace (2 * (PI / 8)) with (PI / 4) in D by field. assert (W := sin2_cos2 (PI / 8)). unfold Rsqr in *.
  assert (B : 7 / 10 < cos (PI / 4) < 72 / 100) by (split; nra).
  split; [exact B|]. split; [split; nra|]. split; [split; nra|]. split; [exact E|]. split; [|split; [lra|split; [|exact W]]].
  - rewrite <- (cos_shift (3 * (PI / 8))). f_equal. field.
  - rewrite <- (sin_shift (3 * (PI / 8))). f_equal. field.
Qed.
Definition rest_row (j : nat) : R := 2 * (7 / 100000) * sin (PI / 8 * (INR j - 5)).
Lemma clip_zero c i j k : clip3 c (fun _ _ _ => 0) i j k = 0.
Proof. unfold clip3. destruct (_ && _)%bool; reflexivity. Qed.
Lemma rest_interior nh t i j k : (2 <= j <= 8)%nat ->
  @avort_interior R RNum 4 9 6378000 (7 / 100000) (@lat_nhn22 R RNum 9) (clip3 (wide nh) (u_ (rest t))) (clip3 (wide nh) (v_ (rest t))) i j k = rest_row j.
Proof.
  intros Hj. unfold avort_interior. cbn [rest u_ v_]. rewrite !clip_zero. unfold lat_nhn22. rewrite nfloat_R, nofnat_INR, nhalf_half. unfold rest_row.
  cbn [nadd nsub nmul ndiv nopp nsin ncos nofZ npi RNum]. replace (sin (- (1 / 2) * PI + PI * (INR j - INR 1) / INR (9 - 1))) with (sin (PI / 8 * (INR j - 5))).
  - unfold Rdiv. ring.
  - f_equal. cbn [INR Nat.sub]. field.
Qed.
Lemma rest_avort nh t i j k : (1 <= j <= 9)%nat -> avort_nhn22 (wide nh) (rest t) i j k = rest_row (if Nat.eqb j 9 then 8 else if Nat.eqb j 1 then 2 else j)%nat.
Proof.
  intros Hj. unfold avort_nhn22, avort. cbn [wide p_nlon p_nlat p_a p_om]. fold (wide nh).
  assert (M : forall j, (2 <= j <= 8)%nat -> loop 4 (fun i' s => s + @avort_interior R RNum 4 9 6378000 (7 / 100000) (@lat_nhn22 R RNum 9) (clip3 (wide nh) (u_ (rest t))) (clip3 (wide nh) (v_ (rest t))) i' j k / @nofnat R RNum 4) = rest_row j).
  { intros jj Hjj. rewrite (loop_sum _ _ (fun _ => rest_row jj / 4)).
    - unfold Sum. cbn. field.
    - intros i' s _. rewrite rest_interior by exact Hjj. rewrite nofnat_INR. cbn [INR]. f_equal. f_equal. lra. }
  destruct (Nat.eqb_spec j 9); [apply M; lia|]. destruct (Nat.eqb_spec j 1); [apply M; lia|]. apply rest_interior. lia.
Qed.

Notation WP nh := (nhn22_dims (wide nh)).
Definition rest_max : R := 2 * (7 / 100000) * cos (PI / 8).
Lemma rest_rows : rest_row 2 = - rest_max /\ rest_row 3 = - (2 * (7 / 100000) * cos (PI / 4)) /\ rest_row 4 = - (2 * (7 / 100000) * sin (PI / 8)) /\ rest_row 5 = 0
  /\ rest_row 6 = 2 * (7 / 100000) * sin (PI / 8) /\ rest_row 7 = 2 * (7 / 100000) * cos (PI / 4) /\ rest_row 8 = rest_max.
Proof.
  destruct eighth as (_ & _ & _ & E & E3 & _). unfold rest_max. rewrite <- E3, <- E. unfold rest_row. cbn [INR].
  replace (PI / 8 * (1 + 1 - 5)) with (- (3 * (PI / 8))) by field. replace (PI / 8 * (1 + 1 + 1 - 5)) with (- (PI / 4)) by field.
  replace (PI / 8 * (1 + 1 + 1 + 1 - 5)) with (- (PI / 8)) by field. replace (PI / 8 * (1 + 1 + 1 + 1 + 1 - 5)) with 0 by field.
  replace (PI / 8 * (1 + 1 + 1 + 1 + 1 + 1 - 5)) with (PI / 8) by field. replace (PI / 8 * (1 + 1 + 1 + 1 + 1 + 1 + 1 - 5)) with (PI / 4) by field.
  replace (PI / 8 * (1 + 1 + 1 + 1 + 1 + 1 + 1 + 1 - 5)) with (3 * (PI / 8)) by field.
  rewrite !sin_neg, sin_0. repeat split; ring.
Qed.
Lemma rest_bounds j : (2 <= j <= 8)%nat -> - rest_max <= rest_row j <= rest_max.
Proof.
  intros Hj. destruct rest_rows as (R2 & R3 & R4 & R5 & R6 & R7 & R8). destruct eighth as (Q & S & C & _). unfold rest_max in *.
  assert (X : (j = 2 \/ j = 3 \/ j = 4 \/ j = 5 \/ j = 6 \/ j = 7 \/ j = 8)%nat) by lia.
  destruct X as [->|[->|[->|[->|[->|[->| ->]]]]]]; rewrite ?R2, ?R3, ?R4, ?R5, ?R6, ?R7, ?R8; lra.
Qed.
Lemma rest_level_max nh t k : level_max (WP nh) (avort_nhn22 (wide nh) (rest t)) k rest_max.
Proof.
  split.
  - intros i j [_ Hj]. cbn [nhn22_dims wide p_nlat s_nlat] in Hj. rewrite rest_avort by exact Hj. apply rest_bounds. destruct (Nat.eqb_spec j 9), (Nat.eqb_spec j 1); lia.
  - exists 1%nat, 9%nat. split; [split; cbn; lia|]. rewrite rest_avort by lia. cbn [Nat.eqb]. apply rest_rows.
Qed.
Lemma rest_level_min nh t k : level_min (WP nh) (avort_nhn22 (wide nh) (rest t)) k (- rest_max).
Proof.
  split.
  - intros i j [_ Hj]. cbn [nhn22_dims wide p_nlat s_nlat] in Hj. rewrite rest_avort by exact Hj. apply rest_bounds. destruct (Nat.eqb_spec j 9), (Nat.eqb_spec j 1); lia.
  - exists 1%nat, 1%nat. split; [split; cbn; lia|]. rewrite rest_avort by lia. cbn [Nat.eqb]. apply rest_rows.
Qed.
Lemma rest_max_pos : 0 < rest_max. Proof. destruct eighth as (_ & _ & C & _). unfold rest_max. lra. Qed.
Lemma rest_contour nh : contour (WP nh) rest_max (- rest_max) 2 = 3 / 4 * rest_max.
Proof. unfold contour. cbn [nhn22_dims wide p_nlat s_npart INR]. field. Qed.
Lemma wide_cap nh : cap_area (WP nh) 2 = 2 * PI * (6378000 * 6378000) * (1 - sin (PI / 8)).
Proof. unfold cap_area, lat. cbn [nhn22_dims wide p_dphi p_a s_dphi s_a INR]. unfold Rsqr. replace (PI / 8 * (1 + 1 - 1)) with (PI / 8) by field. reflexivity. Qed.
Lemma rest_room nh t k : cap_area (WP nh) 2 < area_of (WP nh) (avort_nhn22 (wide nh) (rest t)) k (at_most (contour (WP nh) rest_max (- rest_max) 2)).
Proof.
  rewrite rest_contour, wide_cap. destruct eighth as (Q & S & C & _ & _ & P3 & _). destruct rest_rows as (R2 & R3 & R4 & R5 & R6 & R7 & R8).
  set (x := avort_nhn22 (wide nh) (rest t)). set (T := at_most (3 / 4 * rest_max)). set (A := 6378000 * 6378000).
  assert (GP := nhn22_grid _ (wide_grid nh) (wide_regular nh)).
  assert (N : forall j, (1 <= j <= 9)%nat -> 0 <= Sum 1 5 (fun i => if T (x i j k) then cell_area (WP nh) j else 0)).
  { intros j Hj. apply Sum_nonneg. intros i Hi. destruct (T _); [|lra]. apply (cell_area_nonneg (WP nh) GP). - cbn; lra. - cbn [nhn22_dims wide p_nlat s_nlat]; lia. }
  assert (V : forall j y, (2 <= j <= 8)%nat -> rest_row j <= 0 -> cell_area (WP nh) j = y -> Sum 1 5 (fun i => if T (x i j k) then cell_area (WP nh) j else 0) = 4 * y).
  { intros j y Hj Hr Hy. rewrite (Sum_ext _ _ _ (fun _ => y)).
    - unfold Sum. cbn. ring.
    - intros i Hi. unfold x. rewrite rest_avort by lia. destruct (Nat.eqb_spec j 9); [lia|]. destruct (Nat.eqb_spec j 1); [lia|].
      unfold T, at_most. assert (P := rest_max_pos). destruct (Rle_dec (rest_row j) (3 / 4 * rest_max)); [exact Hy|lra]. }
  unfold area_of. cbn [nhn22_dims wide p_nlat p_nlon s_nlat s_nlon]. fold (wide nh). change (9 + 1)%nat with 10%nat. change (4 + 1)%nat with 5%nat.
  rewrite (Sum_S_l 1 10), (Sum_S_l 2 10), (Sum_S_l 3 10), (Sum_S_l 4 10), (Sum_S_l 5 10) by lia.
  assert (Y4 : cell_area (WP nh) 4 = A * (PI / 8) * (PI / 2) * cos (PI / 8)).
  { unfold cell_area, global_lat, lat, Rsqr. cbn [nhn22_dims wide p_a p_dphi p_dlambda s_a s_dphi s_dlambda INR]. fold A. f_equal. rewrite <- cos_neg. f_equal. field. }
  assert (Y5 : cell_area (WP nh) 5 = A * (PI / 8) * (PI / 2) * 1).
  { unfold cell_area, global_lat, lat, Rsqr. cbn [nhn22_dims wide p_a p_dphi p_dlambda s_a s_dphi s_dlambda INR]. fold A. f_equal. transitivity (cos 0); [f_equal; field|apply cos_0]. }
  assert (V4 := V 4%nat _ ltac:(lia) ltac:(rewrite R4; lra) Y4). assert (V5 := V 5%nat _ ltac:(lia) ltac:(rewrite R5; lra) Y5).
  assert (N1 := N 1%nat ltac:(lia)). assert (N2 := N 2%nat ltac:(lia)). assert (N3 := N 3%nat ltac:(lia)).
  assert (N6 : 0 <= Sum 6 10 (fun j => Sum 1 5 (fun i => if T (x i j k) then cell_area (WP nh) j else 0))) by (apply Sum_nonneg; intros; apply N; lia).
  rewrite V4, V5. assert (A0 : 0 < A * PI) by (unfold A; nra).
  apply Rlt_le_trans with (A * PI * (PI / 4) * (1 + cos (PI / 8))); [|lra].
  replace (2 * PI * A * (1 - sin (PI / 8))) with (A * PI * (2 * (1 - sin (PI / 8)))) by ring. rewrite (Rmult_assoc (A * PI)). apply Rmult_lt_compat_l; [exact A0|]. nra.
Qed.
