(** Proofs about the direct inversion: the elliptic problem in the vocabulary of the specification, its boundary values,
    uniqueness, and the reference temperature. *)
From Verif Require Import Base BaseFacts Spec SpecFacts Flux FluxSpec FluxProofs RefStates RefStatesSpec RefStatesProofs RefStatesProofs2 RefStatesProofs3 RefStatesProofs4 RefStatesProofs5 RefStatesProofs6 DirInv DirInvSpec DirInvProofs.
From Coq Require Import FunctionalExtensionality.
Open Scope R_scope.

(** Qref is that of the other class *)
Lemma d_qref_R (P : rsdims R) pv j k : (1 <= j)%nat -> @d_qref R RNum RTrunc P pv j k / (2 * s_om P) = @rs_qref R RNum RTrunc P pv j k.
Proof.
  intros Hj1.
  assert (E : forall j k, (2 <= j)%nat -> @d_qref1 R RNum RTrunc P pv j k / (2 * s_om P) = @qref1 R RNum RTrunc P pv j k).
  { intros j' k' Hj'. unfold d_qref1, qref1. destruct (Nat.leb_spec 2 j'); [|lia]. cbn [ndiv nmul nofZ nsin RNum]. set (S := sin _).
    unfold Rdiv. rewrite !Rinv_mult. ring. }
  unfold d_qref, rs_qref. destruct (Nat.eqb_spec j 1) as [->|Hj]; [destruct (interior P k) eqn:I; cbn [andb]|cbn [andb]].
  - rewrite <- !E by lia. cbn [nsub nmul nofZ RNum]. unfold Rdiv. ring.
  - unfold d_qref1, qref1, qref0. cbn [Nat.leb]. rewrite I. cbn [nzero RNum]. unfold Rdiv. ring.
  - apply E; lia.
Qed.

Section Solved.
  Variable P : rsdims R.
  Variable jb : nat.
  Variables pv vort pt : arr3 R.
  Variable stat : nat -> R.
  Variable inverse : nat -> arr2 R -> arr2 R.
  Hypothesis G : pole_to_pole P.
  Hypothesis H : physical P stat.
  Hypothesis Hj : (jb + 4 <= s_jd P)%nat.
  Notation nu := (@d_n R P jb).
  Notation p k := (@pjk R RNum RTrunc P jb pv vort pt stat inverse k).
  Notation ub k := (@u_bound R RNum RTrunc P jb vort k).
  Notation uref := (@d_uref R RNum RTrunc P jb pv vort pt stat inverse).
  Notation q := (@rs_qref R RNum RTrunc P pv).

  (** the wind times cos(lat), with its boundary values *)
  Definition wind (j k : nat) : R :=
    if Nat.eqb j (jb + 1) then ub k else if Nat.eqb j (s_jd P) then 0 else p k (j - jb - 1)%nat.
  Lemma wind_row i k : (1 <= i <= nu)%nat -> wind (i + 1 + jb) k = p k i.
  Proof.
    intros Hi. destruct (n_rows P jb G Hj) as [N1 N2]. unfold wind. destruct (Nat.eqb_spec (i + 1 + jb) (jb + 1)); [lia|].
    destruct (Nat.eqb_spec (i + 1 + jb) (s_jd P)); [lia|]. replace (i + 1 + jb - jb - 1)%nat with i by lia. reflexivity.
  Qed.
  Lemma forcing_term i k : (1 <= i <= nu)%nat -> @d_fjk R RNum RTrunc P jb pv i k = - forcing P q (row jb i) k.
  Proof.
    intros Hi. destruct H as (_ & Ho & _). unfold d_fjk, forcing. rewrite (dp_R P jb G Hj), nhalf_half. rewrite <- !d_qref_R by (unfold row; lia). cbn [nmul nopp nsub RNum]. field. lra.
  Qed.
  Hypothesis Inv : exact_inverse inverse.
  Lemma wind_solves : solves_from P jb stat q wind.
  Proof.
    intros j k [H1 H2]. destruct (n_rows P jb G Hj) as [N1 N2].
    assert (exists i, (1 <= i <= nu)%nat /\ j = row jb i) as (i & Hi & ->) by (exists (j - jb - 1)%nat; unfold row; lia).
    assert (L := level P jb pv vort pt stat inverse G H Hj Inv k i H2 Hi).
    assert (E : residual P stat q wind (row jb i) k = residual P stat (fun _ _ => 0) wind (row jb i) k + forcing P q (row jb i) k).
    { unfold residual, forcing. cbv zeta. unfold Rdiv. ring. }
    rewrite E, (residual_homogeneous P stat G H wind _ _ (row_inside P jb G Hj i k Hi H2)). clear E.
    assert (W0 : wind (row jb i) k = p k i) by (apply wind_row; exact Hi).
    assert (W1 : wind (row jb i) (k + 1) = p (k + 1)%nat i) by (apply wind_row; exact Hi).
    assert (W2 : wind (row jb i) (k - 1) = p (k - 1)%nat i) by (apply wind_row; exact Hi).
    rewrite W0, W1, W2.
    assert (F := forcing_term i k Hi).
    assert (W3 : wind (row jb i + 1) k = at_side P jb (p k) (i + 1)).
    { unfold at_side. destruct (Nat.leb_spec 1 (i + 1)); [|lia]. destruct (Nat.leb_spec (i + 1) nu); cbn [andb].
      - replace (row jb i + 1)%nat with (i + 1 + 1 + jb)%nat by (unfold row; lia). apply wind_row. lia.
      - unfold wind. destruct (Nat.eqb_spec (row jb i + 1) (jb + 1)); [unfold row in *; lia|]. destruct (Nat.eqb_spec (row jb i + 1) (s_jd P)); [reflexivity|unfold row in *; lia]. }
    assert (R0 : @rj R RNum RTrunc P jb pv vort k i = @d_fjk R RNum RTrunc P jb pv i k - (if Nat.eqb i 1 then @bjk R RNum P (row jb i) * ub k else 0)).
    { unfold rj. rewrite (D_P P jb G Hj). cbn [nsub nmul nzero RNum]. destruct (Nat.eqb_spec (i + 1) (d_jd P jb - 1)) as [E|E].
      - destruct (Nat.eqb_spec i 1); [unfold d_n in *; lia|ring].
      - destruct (Nat.eqb_spec (i + 1) 2), (Nat.eqb_spec i 1); try lia; ring. }
    assert (W4 : wind (row jb i - 1) k = if Nat.eqb i 1 then ub k else at_side P jb (p k) (i - 1)).
    { destruct (Nat.eqb_spec i 1) as [->|].
      - unfold wind. destruct (Nat.eqb_spec (row jb 1 - 1) (jb + 1)); [reflexivity|unfold row in *; lia].
      - replace (row jb i - 1)%nat with (i - 1 + 1 + jb)%nat by (unfold row; lia). rewrite wind_row by lia. unfold at_side.
        destruct (Nat.leb_spec 1 (i - 1)); [|lia]. destruct (Nat.leb_spec (i - 1) nu); [|lia]. reflexivity. }
    rewrite W3, W4. rewrite R0, F in L. destruct (Nat.eqb_spec i 1) as [->|].
    - assert (Z : at_side P jb (p k) (1 - 1) = 0) by (unfold at_side; reflexivity). rewrite Z in L. lra.
    - lra.
  Qed.
  Lemma t_top_R j : (jb + 2 <= j <= s_jd P - 1)%nat -> @t_top R RNum P jb pt (j - jb - 1) = s_dz P * thermal_shear P (zonal P pt) j (j - jb).
  Proof.
    intros Hr. destruct H as (Ha & Ho & Hz & Hh & Hrr & Hc & _). assert (S := sin_inside P G j ltac:(lia)). assert (D := dphi_pos P G).
    unfold t_top, thermal_shear. cbv zeta. replace (j - jb - 1 + 1 + jb)%nat with j by lia. replace (j - jb - 1 + 1)%nat with (j - jb)%nat by lia.
    rewrite !zonal_mean_R, phi_lat, zlev_height. unfold rkappa. cbn [nmul nsub ndiv nopp nexp ncos nsin nofZ RNum].
    replace (- height P (s_kmax P - 1) * (s_r P / s_cp P) / s_h P) with (- (s_r P / s_cp P) * height P (s_kmax P - 1) / s_h P) by (unfold Rdiv; ring).
    set (E := exp _). set (dT := _ - _). set (c := cos _). set (s := sin _) in *. field. repeat split; lra.
  Qed.
  Lemma wind_boundary : boundary_from P jb (fun k => ub k) (fun j => thermal_shear P (zonal P pt) j (j - jb)) wind.
  Proof.
    destruct (n_rows P jb G Hj) as [N1 N2]. assert (K3 : (3 <= s_kmax P)%nat) by exact (proj1 (proj2 (proj2 (proj2 G)))). split; [|split].
    - intros j Hr. replace j with (j - jb - 1 + 1 + jb)%nat by lia. rewrite wind_row by lia. reflexivity.
    - intros k Hk. unfold wind. rewrite !Nat.eqb_refl. destruct (Nat.eqb_spec (s_jd P) (jb + 1)); [lia|]. split; reflexivity.
    - intros j Hr. assert (W : forall k, wind j k = p k (j - jb - 1)%nat).
      { intros k. replace j with (j - jb - 1 + 1 + jb)%nat at 1 by lia. apply wind_row. lia. }
      rewrite !W. replace (p (s_kmax P)) with (p (s_kmax P - 1 + 1)%nat) by (f_equal; lia).
      rewrite (p_next P jb pv vort pt stat inverse G Hj) by lia. destruct (S_top P jb pv vort pt stat inverse) as [-> ->].
      rewrite t_top_R by exact Hr. replace (apply nu (@s_top R RNum) (p (s_kmax P - 1)%nat) (j - jb - 1)) with (p (s_kmax P - 1)%nat (j - jb - 1)%nat) by (symmetry; exact (apply_identity nu (p (s_kmax P - 1)%nat) (j - jb - 1) ltac:(lia))).
      destruct H as (_ & _ & Hz & _). field. lra.
  Qed.
  Lemma unique_from w0 sh w1 w2 : solves_from P jb stat q w1 -> solves_from P jb stat q w2 -> boundary_from P jb w0 sh w1 -> boundary_from P jb w0 sh w2 ->
    forall j k, (jb + 2 <= j <= s_jd P - 1)%nat -> (1 <= k <= s_kmax P)%nat -> w1 j k = w2 j k.
  Proof.
    intros S1 S2 (B1 & B2 & B3) (C1 & C2 & C3) j k Hr Hk. destruct (n_rows P jb G Hj) as [N1 N2]. assert (K3 : (3 <= s_kmax P)%nat) by exact (proj1 (proj2 (proj2 (proj2 G)))).
    assert (Hz : 0 < s_dz P) by exact (proj1 (proj2 (proj2 H))).
    assert (Tops : forall j, (jb + 2 <= j <= s_jd P - 1)%nat -> w1 j (s_kmax P) - w2 j (s_kmax P) = w1 j (s_kmax P - 1)%nat - w2 j (s_kmax P - 1)%nat).
    { intros j' Hr'. assert (X := B3 j' Hr'). rewrite <- (C3 j' Hr') in X. apply (Rmult_eq_compat_r (s_dz P)) in X. unfold Rdiv in X. rewrite !Rmult_assoc, Rinv_l in X by lra. lra. }
    assert (M : forall s, (s = 1 \/ s = -1) -> forall i k, (1 <= i <= nu)%nat -> (1 < k < s_kmax P)%nat -> s * (w1 (row jb i) k - w2 (row jb i) k) <= 0).
    { intros s Hs i k' Hi Hk'.
      set (v := fun k i => s * (w1 (i + 1 + jb)%nat k - w2 (i + 1 + jb)%nat k)).
      change (v k' i <= 0).
      apply (maximum nu 1 (s_kmax P) (fun i => @ajk R RNum P (row jb i)) (fun i => @bjk R RNum P (row jb i)) (fun i k => @cjk R RNum P stat (row jb i) k) (fun i k => @djk R RNum P stat (row jb i) k) v); try assumption.
      - intros i' l Hi' Hl. apply (coefs P jb stat G H Hj i' l Hi'). lia.
      - intros i' Hi'. unfold v. rewrite B1, C1 by lia. ring.
      - intros l Hl. unfold v. destruct (B2 l ltac:(lia)) as [X1 X2]. destruct (C2 l ltac:(lia)) as [Y1 Y2]. replace (nu + 1 + 1 + jb)%nat with (s_jd P) by lia. replace (0 + 1 + jb)%nat with (jb + 1)%nat by lia.
        rewrite X1, X2, Y1, Y2. split; ring.
      - intros i' Hi'. unfold v. rewrite (Tops (i' + 1 + jb)%nat) by lia. reflexivity.
      - intros i' l Hi' Hl.
        assert (X1 := S1 (row jb i') l ltac:(unfold inside_from, row; lia)). assert (X2 := S2 (row jb i') l ltac:(unfold inside_from, row; lia)).
        assert (X := residual_difference P stat q w1 w2 (row jb i') l). rewrite X1, X2 in X.
        rewrite (residual_homogeneous P stat G H _ _ _ (row_inside P jb G Hj i' l Hi' ltac:(lia))) in X. unfold v. unfold row in *.
        replace (i' + 1 + 1 + jb)%nat with (i' + 1 + jb + 1)%nat by lia. replace (i' - 1 + 1 + jb)%nat with (i' + 1 + jb - 1)%nat by lia.
        apply (Rmult_eq_compat_l s) in X. lra. }
    assert (Mid : forall l, (1 < l < s_kmax P)%nat -> w1 j l = w2 j l).
    { intros l Hl. assert (X := M 1 (or_introl eq_refl) (j - jb - 1)%nat l ltac:(lia) Hl). assert (Y := M (-1) (or_intror eq_refl) (j - jb - 1)%nat l ltac:(lia) Hl).
      unfold row in X, Y. replace (j - jb - 1 + 1 + jb)%nat with j in X, Y by lia. lra. }
    destruct (Nat.eq_dec k 1) as [->|]; [rewrite B1, C1 by lia; reflexivity|]. destruct (Nat.eq_dec k (s_kmax P)) as [->|]; [|apply Mid; lia].
    assert (X := Tops j Hr). rewrite (Mid (s_kmax P - 1)%nat) in X by lia. lra.
  Qed.

  (** ** what is reported *)
  Lemma uref_inner j k : (jb + 2 <= j <= s_jd P - 1)%nat -> uref (j - jb)%nat k = wind j k / cos (lat P j).
  Proof.
    clear H Inv. intros Hr. unfold d_uref, d_u1, d_u0, d_jd. destruct (Nat.eqb_spec (j - jb) (s_jd P - jb)); [lia|]. destruct (Nat.leb_spec (j - jb) (s_jd P - jb - 1)); [|lia].
    destruct (Nat.leb_spec 2 (j - jb)); [|lia]. cbn [andb]. rewrite (D_P P jb G Hj), phi_lat. replace (j - jb + jb)%nat with j by lia.
    unfold wind. destruct (Nat.eqb_spec j (jb + 1)); [lia|]. destruct (Nat.eqb_spec j (s_jd P)); [lia|]. reflexivity.
  Qed.
  Lemma uref_edge k : uref 1%nat k = if Nat.eqb k (s_kmax P) then - s_om P * s_a P else 0.
  Proof.
    clear H Inv. assert (C : cos (lat P (jb + 1)) <> 0).
    { destruct (Nat.eq_dec jb 0) as [->|]; [unfold lat; cbn [Nat.add INR]; rewrite Rminus_diag_eq, Rmult_0_r, cos_0 by reflexivity; lra|]. assert (X := cos_inside P G (jb + 1) ltac:(lia)). lra. }
    unfold d_uref, d_u1, d_u0, d_jd. destruct (Nat.eqb_spec 1 (s_jd P - jb)); [lia|]. destruct (Nat.leb_spec 1 (s_jd P - jb - 1)); [|lia]. cbn [Nat.leb andb Nat.eqb].
    rewrite (D_P P jb G Hj), (dp_R P jb G Hj), phi_lat, nofnat_INR. replace (1 + jb)%nat with (jb + 1)%nat by lia. destruct (Nat.eqb_spec k (s_kmax P)) as [->|].
    - assert (Z : @ckref R RNum RTrunc P vort (jb + 1) (s_kmax P) = 0).
      { unfold ckref, interior. destruct (Nat.leb_spec (s_kmax P) (s_kmax P - 1)); [assert (K3 : (3 <= s_kmax P)%nat) by exact (proj1 (proj2 (proj2 (proj2 G)))); lia|]. rewrite andb_false_r. reflexivity. }
      rewrite Z. cbn [nsub nmul ndiv nofZ npi ncos RNum]. replace (s_dphi P * INR jb) with (lat P (jb + 1)) by (unfold lat; rewrite plus_INR; cbn [INR]; ring).
      unfold Rdiv. rewrite Rmult_0_l. field. exact C.
    - cbn [nzero ndiv RNum]. unfold Rdiv. ring.
  Qed.
  Lemma uref_polar k : uref (s_jd P - jb)%nat k = 2 * uref (s_jd P - 1 - jb)%nat k - uref (s_jd P - 2 - jb)%nat k.
  Proof.
    clear H Inv. unfold d_uref, d_jd. rewrite Nat.eqb_refl. destruct (Nat.eqb_spec (s_jd P - 1 - jb) (s_jd P - jb)); [lia|]. destruct (Nat.eqb_spec (s_jd P - 2 - jb) (s_jd P - jb)); [lia|].
    replace (s_jd P - jb - 1)%nat with (s_jd P - 1 - jb)%nat by lia. replace (s_jd P - jb - 2)%nat with (s_jd P - 2 - jb)%nat by lia. reflexivity.
  Qed.

  (** ** the boundary wind *)
  Lemma u_bound_R k : ub k = @ckref R RNum RTrunc P vort (jb + 1) k / (2 * PI * s_a P) - s_om P * s_a P * cos (lat P (jb + 1)).
  Proof.
    clear H Inv. unfold u_bound. rewrite (dp_R P jb G Hj), nofnat_INR. cbn [nsub nmul ndiv nofZ npi ncos RNum]. f_equal. f_equal. f_equal. unfold lat. rewrite plus_INR. cbn [INR]. ring.
  Qed.
End Solved.

Section Circulation.
  Variable P : rsdims R.
  Hypothesis G : pole_to_pole P.
  Hypothesis Ha : 0 < s_a P.
  Variable vort : arr3 R.
  Variables (k : nat) (M m : R).
  Hypothesis Hk : (2 <= k <= s_kmax P - 1)%nat.
  Hypothesis HM : level_max P vort k M.
  Hypothesis Hm : level_min P vort k m.
  Hypothesis Hmm : m < M.
  Let Np : (2 <= s_npart P)%nat. Proof. exact (proj1 (proj2 (proj2 (proj2 (proj2 G))))). Qed.
  Let Cp := cell_area_nonneg P G Ha.
  Lemma ckref_value j : (1 <= j <= s_jd P - 1)%nat -> cap_area P j < area_of P vort k (at_most (contour P M m 2)) ->
    cap_circulation P vort k M m j (@ckref R RNum RTrunc P vort j k).
  Proof.
    intros Hj Hf. rewrite <- (aan_last P G vort k M m HM Hm Hmm) in Hf.
    destruct (bracket_exists P vort k Np j) as (nn & Hn & Hb); [split; [apply cap_area_pos; auto; lia|exact Hf]|].
    assert (W := weight_range P vort k j nn Hb). exists nn, (weight P vort k j nn). split; [exact Hn|]. split; [exact W|]. cbv zeta beta. rewrite <- !(aan_area P vort k M m HM Hm Hmm Np) by lia.
    apply bracket_true in Hb as Hb'. split.
    - unfold weight. field. lra.
    - rewrite <- !(ccn_circulation P G Ha vort k M m Hk HM Hm Hmm) by lia. unfold ckref. rewrite interior_true by exact Hk. destruct (Nat.ltb_spec j (s_jd P)); [|lia]. cbn [andb].
      rewrite (at_row_bracketed P vort k M m HM Hm Hmm Np Cp j nn) by assumption. reflexivity.
  Qed.
End Circulation.
