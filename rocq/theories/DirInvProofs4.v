(** Facts for the theorems on QGFieldNHN22's reference states: rows of the reported arrays, and what the reported wind determines *)
From Verif Require Import Base BaseFacts Spec SpecFacts Flux FluxSpec FluxProofs Qgpv QgpvProofs Pipeline PipelineSpec PipelineProofs
  RefStates RefStatesSpec RefStatesProofs RefStatesProofs2 RefStatesProofs3 RefStatesProofs4 RefStatesProofs5
  DirInv DirInvSpec DirInvProofs DirInvProofs2 DirInvProofs3.
From Coq Require Import FunctionalExtensionality ZifyNat.
Ltac Zify.zify_post_hook ::= Z.to_euclidean_division_equations.
Open Scope R_scope.

Lemma nhn22_jd c : symmetric_grid c -> s_jd (nhn22_dims c) = p_eq c.
Proof. intros (_ & E & _). cbn [nhn22_dims s_jd]. lia. Qed.
Lemma nhn22_grid c : symmetric_grid c -> regular c (p_nlat c) -> pole_to_pole (nhn22_dims c).
Proof.
  intros G (R1 & R2 & R3 & R4 & R5 & R6 & _). assert (J := nhn22_jd c G). destruct G as (_ & E & _). unfold pole_to_pole. rewrite J.
  cbn [nhn22_dims s_nlat s_nlon s_kmax s_npart s_dphi s_dlambda]. repeat split; try assumption; lia.
Qed.
Lemma nhn22_physical c npart stat : regular c npart -> (forall k, (k < p_kmax c)%nat -> 0 < stat k) -> physical (nhn22_dims c) (one_based stat).
Proof.
  intros (R1 & R2 & R3 & R4 & R5 & R6 & R7 & R8 & R9 & R10 & R11 & R12) H. unfold physical. cbn [nhn22_dims s_a s_om s_dz s_h s_r s_cp s_kmax].
  repeat split; try assumption. intros k Hk. apply H. lia.
Qed.

Section Solution.
  Variable P : rsdims R.
  Variable jb : nat.
  Variable stat : nat -> R.
  Hypothesis G : pole_to_pole P.
  Hypothesis H : physical P stat.
  Hypothesis Hj : (jb + 4 <= s_jd P)%nat.

  Lemma residual_ext q q' w w' j k : (forall i, q i k = q' i k \/ (i <> (j + 1)%nat /\ i <> (j - 1)%nat)) ->
    w (j + 1)%nat k = w' (j + 1)%nat k -> w (j - 1)%nat k = w' (j - 1)%nat k -> w j k = w' j k -> w j (k + 1)%nat = w' j (k + 1)%nat -> w j (k - 1)%nat = w' j (k - 1)%nat ->
    residual P stat q w j k = residual P stat q' w' j k.
  Proof.
    intros Q E1 E2 E3 E4 E5. unfold residual. cbv zeta. rewrite E1, E2, E3, E4, E5.
    destruct (Q (j + 1)%nat) as [->|X]; [|lia]. destruct (Q (j - 1)%nat) as [->|X]; [|lia]. reflexivity.
  Qed.
  Lemma solves_from_q q q' w : (forall j k, (jb + 1 <= j <= s_jd P)%nat -> (2 <= k <= s_kmax P - 1)%nat -> q j k = q' j k) ->
    solves_from P jb stat q w -> solves_from P jb stat q' w.
  Proof.
    intros E S j k [I1 I2]. rewrite <- (S j k (conj I1 I2)). apply residual_ext; try reflexivity. intros i.
    destruct (Nat.eq_dec i (j + 1)) as [->|N1]; [left; symmetry; apply E; lia|]. destruct (Nat.eq_dec i (j - 1)) as [->|N2]; [left; symmetry; apply E; lia|]. right. lia.
  Qed.
  (** two solutions with the same inner values have the same boundary values *)
  Lemma boundary_determined q w w' w0 w0' sh sh' :
    solves_from P jb stat q w -> solves_from P jb stat q w' -> boundary_from P jb w0 sh w -> boundary_from P jb w0' sh' w' ->
    (forall j k, (jb + 2 <= j <= s_jd P - 1)%nat -> (1 <= k <= s_kmax P)%nat -> w j k = w' j k) ->
    forall k, (2 <= k <= s_kmax P - 1)%nat -> w0 k = w0' k.
  Proof.
    intros S S' (_ & B & _) (_ & B' & _) E k Hk. set (j := (jb + 2)%nat).
    assert (I : inside_from P jb j k) by (unfold inside_from, j; lia).
    assert (X := S j k I). assert (X' := S' j k I).
    set (v := fun i l => if (Nat.eqb i (jb + 1)) then w i l else w' i l).
    assert (Xv : residual P stat q v j k = 0).
    { rewrite <- X. apply residual_ext; [intros; left; reflexivity| | | | |]; unfold v, j;
        repeat (match goal with |- context [Nat.eqb ?a ?b] => destruct (Nat.eqb_spec a b) end; try lia); try (symmetry; apply E; lia); reflexivity. }
    assert (D : residual P stat q v j k - residual P stat q w' j k = (w (jb + 1)%nat k - w' (jb + 1)%nat k) / (sin (lat P j - s_dphi P / 2) * cos (lat P j - s_dphi P / 2))).
    { unfold residual, v, j. cbv zeta. repeat (match goal with |- context [Nat.eqb ?a ?b] => destruct (Nat.eqb_spec a b) end; try lia).
      replace (jb + 2 - 1)%nat with (jb + 1)%nat by lia. unfold Rdiv. ring. }
    rewrite Xv, X' in D.
    destruct (n_rows P jb G Hj) as [N1 N2].
    assert (Cb := proj1 (proj2 (coefs P jb stat G H Hj 1 k ltac:(lia) Hk))). rewrite (bjk_R P) in Cb. replace (row jb 1) with j in Cb by (unfold row, j; lia).
    unfold Rdiv in D. set (b := / (sin (lat P j - s_dphi P * / 2) * cos (lat P j - s_dphi P * / 2))) in *.
    change (/ (sin (lat P j - s_dphi P / 2) * cos (lat P j - s_dphi P / 2))) with b in Cb.
    rewrite <- (proj2 (B k Hk)), <- (proj2 (B' k Hk)). apply Rminus_diag_uniq. symmetry in D. replace (0 - 0) with 0 in D by ring.
    apply Rmult_integral in D. destruct D; [assumption|lra].
  Qed.
  Lemma shear_determined w w' w0 w0' sh sh' : boundary_from P jb w0 sh w -> boundary_from P jb w0' sh' w' ->
    (forall j k, (jb + 2 <= j <= s_jd P - 1)%nat -> (1 <= k <= s_kmax P)%nat -> w j k = w' j k) ->
    forall j, (jb + 2 <= j <= s_jd P - 1)%nat -> sh j = sh' j.
  Proof.
    intros (_ & _ & B) (_ & _ & B') E j Hr. assert (K3 : (3 <= s_kmax P)%nat) by exact (proj1 (proj2 (proj2 (proj2 G)))).
    rewrite <- B, <- B' by exact Hr. rewrite !E by lia. reflexivity.
  Qed.
  Lemma cos_row j : (jb + 2 <= j <= s_jd P - 1)%nat -> 0 < cos (lat P j).
  Proof. intros Hr. apply (cos_inside P G). lia. Qed.
  (** the reported wind determines the boundary values and the shear *)
  Lemma inverts_determines q u w0 w0' sh sh' : inverts P jb stat q u w0 sh -> inverts P jb stat q u w0' sh' ->
    (forall k, (2 <= k <= s_kmax P - 1)%nat -> w0 k = w0' k) /\ (forall j, (jb + 2 <= j <= s_jd P - 1)%nat -> sh j = sh' j).
  Proof.
    intros (w & S & B & U) (w' & S' & B' & U').
    assert (E : forall j k, (jb + 2 <= j <= s_jd P - 1)%nat -> (1 <= k <= s_kmax P)%nat -> w j k = w' j k).
    { intros j k Hr Hk. assert (C := cos_row j Hr). assert (X := U j k Hr Hk). rewrite (U' j k Hr Hk) in X. apply (Rmult_eq_reg_r (/ cos (lat P j))); [symmetry; exact X|]. apply Rinv_neq_0_compat. lra. }
    split; [apply (boundary_determined q w w' w0 w0' sh sh'); assumption|apply (shear_determined w w' w0 w0'); assumption].
  Qed.
  Lemma inverts_ext q q' u u' w0 sh :
    (forall j k, (jb + 1 <= j <= s_jd P)%nat -> (2 <= k <= s_kmax P - 1)%nat -> q j k = q' j k) ->
    (forall j k, (jb + 2 <= j <= s_jd P - 1)%nat -> (1 <= k <= s_kmax P)%nat -> u j k = u' j k) ->
    inverts P jb stat q u w0 sh -> inverts P jb stat q' u' w0 sh.
  Proof.
    intros Eq Eu (w & S & B & U). exists w. split; [apply (solves_from_q q); assumption|]. split; [exact B|]. intros j k Hr Hk. rewrite <- Eu by assumption. apply U; assumption.
  Qed.
  Lemma inverts_shear q u w0 sh sh' : (forall j, (jb + 2 <= j <= s_jd P - 1)%nat -> sh j = sh' j) -> inverts P jb stat q u w0 sh -> inverts P jb stat q u w0 sh'.
  Proof.
    intros E (w & S & (B1 & B2 & B3) & U). exists w. split; [exact S|]. split; [|exact U]. split; [exact B1|]. split; [exact B2|]. intros j Hr. rewrite <- E by exact Hr. apply B3. exact Hr.
  Qed.
End Solution.

(** ** the wrapper *)
Section Wrapper.
  Variable c : pconf R.
  Hypothesis G : symmetric_grid c.
  Hypothesis Rg : regular c (p_nlat c).
  Hypothesis Hj : (p_jb c + 4 <= p_eq c)%nat.
  Variable inverse : nat -> arr2 R -> arr2 R.
  Hypothesis Inv : exact_inverse inverse.
  Notation P := (nhn22_dims c).
  Notation jb := (p_jb c).
  Let Hj' : (jb + 4 <= s_jd P)%nat. Proof. rewrite (nhn22_jd c G). exact Hj. Qed.
  Let GP := nhn22_grid c G Rg.
  Variables (tn : nat -> R) (pv uu vort pt : arr3 R) (t0 stat : nat -> R).
  Hypothesis Hs : forall k, (k < p_kmax c)%nat -> 0 < stat k.
  Let HP := nhn22_physical c (p_nlat c) stat Rg Hs.
  Let r := nhn22_inversion c inverse tn pv uu vort pt t0 stat.
  Lemma wrapper_qref j k : (1 <= j)%nat -> qref_ r j k = rs_qref P pv j k.
  Proof. intros H. unfold r, nhn22_inversion. cbn [qref_]. rewrite <- d_qref_R by exact H. reflexivity. Qed.
  Lemma wrapper_circulation : wind_of_circulation P jb (p_om c * p_a c * cos (lat P (jb + 1))) vort (fun k => u_bound P jb vort k).
  Proof.
    intros k M m Hk HM Hm Hmm Hf. exists (ckref P vort (jb + 1) k). split.
    - apply ckref_value; try assumption. + exact (proj1 HP). + rewrite (nhn22_jd c G). lia.
    - rewrite (u_bound_R P jb vort GP Hj'). reflexivity.
  Qed.
  Lemma wrapper_inverts : inverts P jb (one_based stat) (qref_ r) (fun j k => uref_ r (j - jb)%nat k)
    (fun k => u_bound P jb vort k) (fun j => thermal_shear P (zonal P pt) j (j - jb)).
  Proof.
    exists (wind P jb pv vort pt (one_based stat) inverse). split; [|split].
    - apply (solves_from_q P jb (one_based stat) Hj' (rs_qref P pv)); [intros j k Hr _; symmetry; apply wrapper_qref; lia|]. apply wind_solves; assumption.
    - apply wind_boundary; assumption.
    - intros j k Hr Hk. apply (uref_inner P jb pv vort pt (one_based stat) inverse GP Hj'). exact Hr.
  Qed.
End Wrapper.

(** ** the reported arrays *)
Section Object.
  Variable c : pconf R.
  Hypothesis G : symmetric_grid c.
  Hypothesis Hb : (1 <= p_jb c)%nat.
  Variable inversion : arr3 R -> arr3 R -> arr3 R -> arr3 R -> (nat -> R) -> (nat -> R) -> refstate R.
  Variables (q avort : arr3 R) (f : fields R) (av : averages R) (old : refstate R).
  Let north := inversion (clip3 c q) (clip3 c (u_ f)) (clip3 c avort) (clip3 c (theta_ f)) (tn0 av) (stat_n av).
  Let south := inversion (clip3 c (neg3 (flip3 c q))) (clip3 c (flip3 c (u_ f))) (clip3 c (flip3 c avort)) (clip3 c (flip3 c (theta_ f))) (ts0 av) (stat_s av).
  Let r := refs_nhn22 c inversion q avort f av old.
  Lemma nhn22_north_q j k : (2 <= j <= p_eq c)%nat -> qref_ r (north_row c j) k = qref_ north j k.
  Proof.
    destruct G as (G1 & G2 & G3 & G4 & _). intros Hr. unfold r, refs_nhn22, north_row. destruct (p_nh c) eqn:Hn; cbn [store_north store_south qref_]; unfold set_shem, set_nhem, rows; rewrite Hn;
      repeat (match goal with |- context [Nat.leb ?a ?b] => destruct (Nat.leb_spec a b) end; try lia); fold north; f_equal; lia.
  Qed.
  Lemma nhn22_north j k : (p_jb c + 1 <= j <= p_eq c)%nat ->
    uref_ r (north_row c j) k = uref_ north (j - p_jb c)%nat k /\ ptref_ r (north_row c j) k = ptref_ north (j - p_jb c)%nat k.
  Proof.
    destruct G as (G1 & G2 & G3 & G4 & _). intros Hr. unfold r, refs_nhn22, north_row. destruct (p_nh c) eqn:Hn; cbn [store_north store_south uref_ ptref_]; unfold set_shem, set_nhem, rows; rewrite Hn;
      repeat (match goal with |- context [Nat.leb ?a ?b] => destruct (Nat.leb_spec a b) end; try lia); fold north; split; f_equal; lia.
  Qed.
  Lemma nhn22_south_q j k : p_nh c = false -> (1 <= j <= p_eq c)%nat -> qref_ r (south_row c j) k = qref_ south j k.
  Proof.
    destruct G as (G1 & G2 & G3 & G4 & _). intros Hn Hr. unfold r, refs_nhn22, south_row. rewrite Hn; cbn [store_north store_south qref_]; unfold set_shem, set_nhem, rows; rewrite Hn;
      repeat (match goal with |- context [Nat.leb ?a ?b] => destruct (Nat.leb_spec a b) end; try lia); fold south; f_equal; lia.
  Qed.
  Lemma nhn22_south j k : p_nh c = false -> (p_jb c + 1 <= j <= p_eq c)%nat ->
    uref_ r (south_row c j) k = uref_ south (j - p_jb c)%nat k /\ ptref_ r (south_row c j) k = ptref_ south (j - p_jb c)%nat k.
  Proof.
    destruct G as (G1 & G2 & G3 & G4 & _). intros Hn Hr. unfold r, refs_nhn22, south_row. rewrite Hn; cbn [store_north store_south uref_ ptref_]; unfold set_shem, set_nhem, rows; rewrite Hn;
      repeat (match goal with |- context [Nat.leb ?a ?b] => destruct (Nat.leb_spec a b) end; try lia); fold south; split; f_equal; lia.
  Qed.
End Object.

(** only the elements inside the grid matter to the specification, too *)
Section Clipped.
  Variable c : pconf R.
  Hypothesis G : symmetric_grid c.
  Notation P := (nhn22_dims c).
  Lemma clip_in x i j k : (1 <= i <= p_nlon c)%nat -> (1 <= j <= p_nlat c)%nat -> (1 <= k <= p_kmax c)%nat -> clip3 c x i j k = x i j k.
  Proof.
    intros Hi Hj Hk. unfold clip3.
    repeat (match goal with |- context [Nat.leb ?a ?b] => destruct (Nat.leb_spec a b) end; try lia). reflexivity.
  Qed.
  Lemma area_of_ext x y k S : (forall i j, grid_point P i j -> x i j k = y i j k) -> area_of P x k S = area_of P y k S.
  Proof. intros E. unfold area_of. apply Sum_ext. intros j Hr. apply Sum_ext. intros i Hi. rewrite E by (unfold grid_point; lia). reflexivity. Qed.
  Lemma circulation_of_ext x y k S : (forall i j, grid_point P i j -> x i j k = y i j k) -> circulation_of P x k S = circulation_of P y k S.
  Proof. intros E. unfold circulation_of. apply Sum_ext. intros j Hr. apply Sum_ext. intros i Hi. rewrite E by (unfold grid_point; lia). reflexivity. Qed.
  Lemma wind_of_circulation_ext jb rot x y w0 : (forall i j k, grid_point P i j -> (2 <= k <= s_kmax P - 1)%nat -> x i j k = y i j k) ->
    wind_of_circulation P jb rot x w0 -> wind_of_circulation P jb rot y w0.
  Proof.
    intros E W k M m Hk HM Hm Hmm Hf. assert (Ek : forall i j, grid_point P i j -> x i j k = y i j k) by (intros; apply E; assumption).
    rewrite <- (area_of_ext x y k) in Hf by exact Ek.
    destruct (W k M m Hk) as (C & (nn & t & Hn & Ht & HA & HC) & Hw); try assumption.
    - destruct HM as [H1 (i & j & H2 & H3)]. split; [intros; rewrite Ek by assumption; auto|]. exists i, j. rewrite Ek by assumption. auto.
    - destruct Hm as [H1 (i & j & H2 & H3)]. split; [intros; rewrite Ek by assumption; auto|]. exists i, j. rewrite Ek by assumption. auto.
    - exists C. split; [|exact Hw]. exists nn, t. split; [exact Hn|]. split; [exact Ht|]. cbv zeta beta in *. rewrite <- !(area_of_ext x y k), <- !(circulation_of_ext x y k) by exact Ek. split; assumption.
  Qed.
  Lemma zonal_clip22 x j k : (1 <= j <= p_eq c)%nat -> (1 <= k <= p_kmax c)%nat -> zonal P (clip3 c x) j k = zonal P x j k.
  Proof.
    intros Hr Hk. unfold zonal. f_equal. apply Sum_ext. intros i Hi. apply clip_in; cbn [nhn22_dims s_nlon] in Hi; try lia. rewrite (nhn22_jd c G). destruct G as (_ & E & _). lia.
  Qed.
  Lemma ckref_flipped x : pole_to_pole P -> ckref P (clip3 c (flip3 c x)) = ckref P (clip3 c x).
  Proof.
    intros GP. apply ckref_flip; [exact GP|]. intros i j k Hi Hr. cbn [nhn22_dims s_nlon s_nlat] in *. unfold clip3, flip3.
    repeat (match goal with |- context [Nat.leb ?a ?b] => destruct (Nat.leb_spec a b) end; try lia); cbn [andb]; reflexivity.
  Qed.
  Lemma u_bound_flipped x k : pole_to_pole P -> u_bound P (p_jb c) (clip3 c (flip3 c x)) k = u_bound P (p_jb c) (clip3 c x) k.
  Proof. intros GP. unfold u_bound. rewrite (ckref_flipped x GP). reflexivity. Qed.
End Clipped.

(** the circulation used is at most that of a field constant at the second contour *)
Lemma cap_circulation_bound P x k M m j C : pole_to_pole P -> 0 < s_a P -> cap_circulation P x k M m j C -> C <= contour P M m 2 * cap_area P j.
Proof.
  intros G Ha (nn & t & Hn & Ht & HA & ->). cbv zeta in HA. rewrite <- HA.
  assert (B : forall a, circulation_of P x k (RefStatesSpec.between a (contour P M m 2)) <= contour P M m 2 * area_of P x k (RefStatesSpec.between a (contour P M m 2))).
  { intros a. unfold circulation_of, area_of. rewrite <- Sum_scal. apply Sum_le. intros jj Hr. rewrite <- Sum_scal. apply Sum_le. intros i Hi.
    unfold RefStatesSpec.between. destruct (Rlt_dec a (x i jj k)); [|lra]. destruct (Rle_dec (x i jj k) (contour P M m 2)); [|lra].
    assert (Cp := cell_area_nonneg P G Ha jj ltac:(lia)). nra. }
  assert (B1 := B (contour P M m (nn + 1))). assert (B2 := B (contour P M m (nn + 1 + 1))). cbv zeta. nra.
Qed.
