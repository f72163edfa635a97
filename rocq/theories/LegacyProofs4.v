(** Legacy solver: end to end. *)
From Coq Require Import ZifyNat.
From Verif Require Import BaseFacts SpecFacts LinAlg LegacySpec Legacy GridProofs LegacyProofs LegacyProofs2 LegacyProofs3.
Ltac Zify.zify_post_hook ::= Z.to_euclidean_division_equations.
Open Scope R_scope.

Notation solve_legacy := (@solve_uref_both_bc R RNum sqrt).
Notation rgauss nlat ylat v := (fun j k : nat => interp1d nlat ylat (v k) (@lg_alat R RNum (nlat / 4) j)).

Lemma spacing_dm jm : @lg_dm R RNum jm = spacing jm.
Proof. unfold lg_dm, spacing. rewrite nofnat_INR. reflexivity. Qed.
Lemma c_f_source jm cx j k : (2 <= jm)%nat -> (j < jm)%nat -> @lg_c_f R RNum jm cx j k = source jm (up cx) (S j) k.
Proof.
  intros H2 Hj. unfold lg_c_f, source. assert (Q : forall i, (i < jm)%nat -> @lg_qxx0 R RNum jm cx i k = - over_f jm (up cx) (S i) k).
  { intros i Hi. unfold lg_qxx0, over_f, up. rewrite cor_coriolis. destruct (Nat.leb_spec 1 (S i)); destruct (Nat.leb_spec (S i) jm); cbn [andb]; try lia. replace (S i - 1)%nat with i by lia. toR. unfold Rdiv. ring. }
  assert (Z0 : over_f jm (up cx) 0 k = 0) by reflexivity.
  assert (Z1 : over_f jm (up cx) (S jm) k = 0) by (unfold over_f; destruct (Nat.leb_spec 1 (S jm)); destruct (Nat.leb_spec (S jm) jm); cbn [andb]; lia || reflexivity).
  destruct (Nat.eqb_spec j 0) as [->|J0].
  - rewrite !Q by lia. replace (1 + 1)%nat with 2%nat by lia. replace (1 - 1)%nat with 0%nat by lia. rewrite Z0. toR. ring.
  - destruct (Nat.eqb_spec j (jm - 1)) as [->|J1].
    + rewrite !Q by lia. replace (S (jm - 1) + 1)%nat with (S jm) by lia. replace (S (jm - 1) - 1)%nat with (S (jm - 2)) by lia. rewrite Z1. toR. ring.
    + rewrite !Q by lia. replace (S j + 1)%nat with (S (j + 1)) by lia. replace (S j - 1)%nat with (S (j - 1)) by lia. toR. ring.
Qed.
Lemma uz2_top jm kmax D j : @lg_uz2 R RNum sqrt jm kmax D j = top_value jm kmax D (S j).
Proof.
  unfold lg_uz2, top_value, lg_dmdz, lg_rkappa, kappa, nsq. rewrite cosl_cosine, cor_coriolis, spacing_dm, nofnat_INR.
  replace (S j + 1)%nat with (j + 2)%nat by lia. replace (S j - 1)%nat with j by lia. unfold lg_r0, lg_aa, lg_hh, lg_dz, lg_cp. cbn [nadd nsub nmul ndiv nopp nexp nofZ RNum].
  rewrite <- !Rmult_assoc. reflexivity.
Qed.
Lemma uz1_bottom jm B0 B1 j : @lg_uz1 R RNum sqrt jm B0 B1 j = adiabatic_value jm B0 B1 (S j).
Proof.
  unfold lg_uz1, adiabatic_value, lg_second, lg_rkappa, kappa, nsq. rewrite cosl_cosine, cor_coriolis, spacing_dm.
  replace (S j + 1)%nat with (j + 2)%nat by lia. replace (S j - 1)%nat with j by lia. replace (S j) with (j + 1)%nat by lia. unfold lg_r0, lg_aa, lg_hh, lg_dz, lg_cp. cbn [nadd nsub nmul ndiv nopp nexp nofZ none nzero RNum].
  replace (- (287 / 1004) * 0 / 7) with 0 by field. rewrite exp_0. replace (- (287 / 1004) * 1 / 7) with (- (287 / 1004) / 7) by field. unfold Rdiv. ring.
Qed.
Lemma exp_14 : exp (- (1000) / (2 * 7000)) = exp (- (1 / 14)) /\ exp (1000 / (2 * 7000)) = exp (1 / 14).
Proof. split; f_equal; field. Qed.
Lemma c_c_value jm eph j k : @lg_c_c R RNum jm eph j k = spacing jm / 1000 * (spacing jm / 1000) * (exp (- (1 / 14)) * eph j k).
Proof. unfold lg_c_c, lg_dmdz, nsq. rewrite spacing_dm. unfold lg_hh, lg_dz. cbn [nmul ndiv nopp nexp nofZ RNum]. rewrite (proj1 exp_14). ring. Qed.
Lemma c_d_value jm eph j k : @lg_c_d R RNum jm eph j k = spacing jm / 1000 * (spacing jm / 1000) * (exp (1 / 14) * eph j (k - 1)%nat).
Proof. unfold lg_c_d, lg_dmdz, nsq. rewrite spacing_dm. unfold lg_hh, lg_dz. cbn [nmul ndiv nopp nexp nofZ RNum]. rewrite (proj2 exp_14). ring. Qed.
Lemma general_elliptic jm kmax eph f U :
  general jm kmax (up (@lg_c_c R RNum jm eph)) (up (@lg_c_d R RNum jm eph)) f U <-> elliptic jm kmax (spacing jm / 1000 * (spacing jm / 1000)) (up eph) f U.
Proof.
  unfold general, elliptic. split; intros H r k Hr H1 H2; specialize (H r k Hr H1 H2); unfold up in *; rewrite c_c_value, c_d_value in *; lra.
Qed.
Lemma general_ext jm kmax cc cd f g U : (forall r k, (1 <= r <= jm)%nat -> (1 <= k)%nat -> (S k < kmax)%nat -> f r k = g r k) -> general jm kmax cc cd f U <-> general jm kmax cc cd g U.
Proof. intros E. split; intros H r k Hr H1 H2; specialize (H r k Hr H1 H2); rewrite E in * by assumption; exact H. Qed.

Section EndToEnd.
  Variable spsolve : nat -> (nat -> nat -> R) -> (nat -> R) -> nat -> R.
  Hypothesis Ex : exact_solver spsolve.
  Variables (jm kmax : nat) (eph cx : nat -> nat -> R) (D bottom : nat -> R).
  Hypothesis Pe : forall j k, (j < jm)%nat -> (k < kmax)%nat -> 0 <= eph j k.
  Hypothesis J2 : (2 <= jm)%nat.
  Let ones := fun _ _ : nat => 1.
  Let cc := @lg_c_c R RNum jm eph.
  Let cd := @lg_c_d R RNum jm eph.
  Let ce := @lg_c_e R RNum jm eph.
  Let b := right_bottom jm kmax (@lg_c_f R RNum jm cx) (@lg_uz2 R RNum sqrt jm kmax D) bottom.

  Lemma weight_pos : 0 <= spacing jm / 1000 * (spacing jm / 1000).
  Proof. apply Rle_0_sqr. Qed.
  Lemma coeff_pos j k : (j < jm)%nat -> (1 <= k)%nat -> (S k < kmax)%nat -> 0 <= cc j k /\ 0 <= cd j k.
  Proof.
    intros Hj H1 H2. unfold cc, cd. rewrite c_c_value, c_d_value. assert (W := weight_pos). assert (E1 := exp_pos (- (1 / 14))). assert (E2 := exp_pos (1 / 14)).
    assert (P1 := Pe j k Hj ltac:(lia)). assert (P2 := Pe j (k - 1)%nat Hj ltac:(lia)).
    split; apply Rmult_le_pos; try exact W; apply Rmult_le_pos; lra.
  Qed.
  Lemma solves_iff U : zero_edges jm kmax U ->
    (general jm kmax (up cc) (up cd) (up (@lg_c_f R RNum jm cx)) U /\ top_condition jm kmax (fun r => @lg_uz2 R RNum sqrt jm kmax D (r - 1)%nat) U <-> solves jm kmax (up eph) (up cx) D U).
  Proof.
    intros Ze. unfold solves. rewrite <- general_elliptic. fold cc cd.
    rewrite (general_ext jm kmax (up cc) (up cd) (up (@lg_c_f R RNum jm cx)) (source jm (up cx)) U).
    2:{ intros r k Hr _ _. unfold up at 1. rewrite c_f_source by lia. replace (S (r - 1)) with r by lia. reflexivity. }
    assert (T : top_condition jm kmax (fun r => @lg_uz2 R RNum sqrt jm kmax D (r - 1)%nat) U <-> top_condition jm kmax (top_value jm kmax D) U).
    { assert (Q : forall r, (1 <= r)%nat -> @lg_uz2 R RNum sqrt jm kmax D (r - 1)%nat = top_value jm kmax D r) by (intros r Hr; rewrite uz2_top; replace (S (r - 1)) with r by lia; reflexivity).
      split; intros H r Hr; specialize (H r Hr); cbv beta in *; [rewrite <- Q by lia|rewrite Q by lia]; exact H. }
    rewrite T. tauto.
  Qed.
  Lemma noslip_solution : (3 <= kmax)%nat -> let U := rback jm kmax (spsolve (jm * kmax)%nat (matrix_noslip jm kmax ones ones cc cd ce) b) in
    solves jm kmax (up eph) (up cx) D U /\ no_slip jm (fun r => bottom (r - 1)%nat) U /\
    forall V, solves jm kmax (up eph) (up cx) D V -> no_slip jm (fun r => bottom (r - 1)%nat) V -> same jm kmax U V.
  Proof.
    intros K3 U. assert (X := Ex (jm * kmax)%nat (matrix_noslip jm kmax ones ones cc cd ce) b (regular_noslip jm kmax cc cd coeff_pos K3)).
    apply (proj1 (system_noslip jm kmax cc cd (@lg_c_f R RNum jm cx) (@lg_uz2 R RNum sqrt jm kmax D) bottom K3 _)) in X. fold U in X. destruct X as (G & T & B).
    assert (ZU := back_edges jm kmax (spsolve (jm * kmax)%nat (matrix_noslip jm kmax ones ones cc cd ce) b)). fold U in ZU.
    split; [apply solves_iff; [exact ZU|split; assumption]|]. split; [exact B|]. intros V SV BV. assert (ZV := proj1 SV). apply solves_iff in SV; [|exact ZV]. destruct SV as (GV & TV).
    apply (unique_noslip jm kmax (up cc) (up cd) (up (@lg_c_f R RNum jm cx)) (fun r => @lg_uz2 R RNum sqrt jm kmax D (r - 1)%nat) (fun r => bottom (r - 1)%nat)); try assumption.
    intros r k Hr H1 H2. apply coeff_pos; lia.
  Qed.
  Lemma adiab_solution : (4 <= kmax)%nat -> let U := rback jm kmax (spsolve (jm * kmax)%nat (matrix_adiab jm kmax ones ones cc cd ce) b) in
    solves jm kmax (up eph) (up cx) D U /\ adiabatic jm (fun r => bottom (r - 1)%nat) U /\
    forall V, solves jm kmax (up eph) (up cx) D V -> adiabatic jm (fun r => bottom (r - 1)%nat) V -> same jm kmax U V.
  Proof.
    intros K4 U. assert (X := Ex (jm * kmax)%nat (matrix_adiab jm kmax ones ones cc cd ce) b (regular_adiab jm kmax cc cd coeff_pos K4)).
    apply (proj1 (system_adiab jm kmax cc cd (@lg_c_f R RNum jm cx) (@lg_uz2 R RNum sqrt jm kmax D) bottom ltac:(lia) _)) in X. fold U in X. destruct X as (G & T & B).
    assert (ZU := back_edges jm kmax (spsolve (jm * kmax)%nat (matrix_adiab jm kmax ones ones cc cd ce) b)). fold U in ZU.
    split; [apply solves_iff; [exact ZU|split; assumption]|]. split; [exact B|]. intros V SV BV. assert (ZV := proj1 SV). apply solves_iff in SV; [|exact ZV]. destruct SV as (GV & TV).
    apply (unique_adiab jm kmax (up cc) (up cd) (up (@lg_c_f R RNum jm cx)) (fun r => @lg_uz2 R RNum sqrt jm kmax D (r - 1)%nat) (fun r => bottom (r - 1)%nat)); try assumption.
    intros r k Hr H1 H2. apply coeff_pos; lia.
  Qed.
End EndToEnd.

Lemma wind_value jm U r k : (if Nat.leb 1 r && Nat.leb r jm then U r k * @lg_cor R RNum jm (r - 1) / @lg_cosl R RNum sqrt jm (r - 1) else 0) = wind jm U r k.
Proof.
  unfold wind. destruct (Nat.leb_spec 1 r); destruct (Nat.leb_spec r jm); cbn [andb]; try reflexivity. rewrite cor_coriolis, cosl_cosine. replace (S (r - 1)) with r by lia. reflexivity.
Qed.
Lemma interp1d_ext2 n (x x' y y' : nat -> R) v : (1 <= n)%nat -> (forall k, (k < n)%nat -> x k = x' k) -> (forall k, (k < n)%nat -> y k = y' k) -> interp1d n x y v = interp1d n x' y' v.
Proof.
  intros Hn Hx Hy. unfold interp1d. assert (S0 : forall m, (m <= n)%nat -> searchsorted m x v = searchsorted m x' v).
  { induction m as [|m IH]; intros Hm; [reflexivity|]. cbn [searchsorted]. rewrite IH, Hx by lia. reflexivity. }
  rewrite S0 by lia. rewrite !Hx, !Hy by lia. reflexivity.
Qed.

(** ** the whole function *)
Lemma legacy_value spsolve nlat kmax zmum FAWA ylat eps dPT zmPT B0 B1 ns ad :
  solve_legacy spsolve nlat kmax zmum FAWA ylat eps dPT zmPT B0 B1 = Done (ns, ad) ->
  let jm := (nlat / 4)%nat in
  (2 <= jm)%nat /\ (3 <= kmax)%nat /\
  (forall j, (j < jm)%nat -> ylat 0%nat <= degrees jm (S j) <= ylat (nlat - 1)%nat) /\
  (forall l, (north nlat <= l < nlat)%nat -> 0 <= ylat l <= 90) /\
  exists U Ua,
    ns = finish sqrt nlat kmax ylat zmum zmPT U /\ ad = finish sqrt nlat kmax ylat zmum zmPT Ua /\
    (ascending nlat ylat -> (forall k l, (k < kmax)%nat -> (l < nlat)%nat -> 0 <= eps k l) -> exact_solver spsolve ->
     let D := fun r => interp1d nlat ylat dPT (degrees jm r) in
     let on_rows := fun v : nat -> nat -> R => fun r k => interp1d nlat ylat (v k) (degrees jm r) in
     (solves jm kmax (on_rows eps) (on_rows FAWA) D U /\ no_slip jm (noslip_value jm (on_rows zmum)) U /\
      forall V, solves jm kmax (on_rows eps) (on_rows FAWA) D V -> no_slip jm (noslip_value jm (on_rows zmum)) V -> same jm kmax U V) /\
     ((4 <= kmax)%nat ->
      let bot := adiabatic_value jm (fun r => interp1d nlat ylat B0 (degrees jm r)) (fun r => interp1d nlat ylat B1 (degrees jm r)) in
      solves jm kmax (on_rows eps) (on_rows FAWA) D Ua /\ adiabatic jm bot Ua /\
      forall V, solves jm kmax (on_rows eps) (on_rows FAWA) D V -> adiabatic jm bot V -> same jm kmax Ua V)).
Proof.
  intros H jm. unfold solve_uref_both_bc in H. fold jm in H.
  destruct (negb (in_bounds nlat ylat jm (lg_alat jm))) eqn:B1e in H; [discriminate|]. apply negb_false_iff in B1e. assert (Bd1 := proj1 (in_bounds_iff nlat ylat jm (lg_alat jm)) B1e).
  destruct (Nat.ltb_spec jm 2) as [|J2] in H; [discriminate|]. destruct (Nat.ltb_spec kmax 2) as [|K2] in H; [discriminate|]. destruct (Nat.eqb_spec kmax 2) as [|K2'] in H; [discriminate|].
  cbv zeta in H. destruct (negb (in_bounds (jm + 2) (lg_alat_2 jm) (nlat - north nlat) (fun l => ylat (north nlat + l)%nat))) eqn:B2e in H; [discriminate|].
  apply negb_false_iff in B2e. assert (Bd2 := proj1 (in_bounds_iff (jm + 2) (lg_alat_2 jm) _ _) B2e). 
  match type of H with Done (?x, ?y) = _ => assert (Ens : x = ns) by congruence; assert (Ead : y = ad) by congruence end. clear H.
  split; [exact J2|]. split; [lia|].
  assert (Rows : forall j, (j < jm)%nat -> ylat 0%nat <= degrees jm (S j) <= ylat (nlat - 1)%nat) by (intros j Hj; specialize (Bd1 j Hj); rewrite alat_degrees in Bd1; exact Bd1).
  split; [exact Rows|]. split.
  { intros l Hl. specialize (Bd2 (l - north nlat)%nat ltac:(lia)). rewrite !alat_2_degrees in Bd2. replace (jm + 2 - 1)%nat with (S jm) in Bd2 by lia.
    rewrite (proj1 (degrees_ends jm)), (proj2 (degrees_ends jm)) in Bd2. replace (north nlat + (l - north nlat))%nat with l in Bd2 by lia. exact Bd2. }
  eexists _, _. split; [symmetry; exact Ens|]. split; [symmetry; exact Ead|]. clear Ens Ead.
  intros Asc Pe Ex D on_rows. assert (N2 : (2 <= nlat)%nat) by (unfold jm in J2; lia).
  assert (Pe' : forall j k, (j < jm)%nat -> (k < kmax)%nat -> 0 <= interp1d nlat ylat (eps k) (@lg_alat R RNum jm j)).
  { intros j k Hj Hk. rewrite alat_degrees. destruct (interp1d_between nlat ylat (eps k) (degrees jm (S j)) N2 Asc (Rows j Hj)) as (lo & Hlo & _ & G & _).
    apply Rle_trans with (2 := G). apply Rmin_glb; apply Pe; lia. }
  assert (EqD : (fun r => interp1d nlat ylat dPT (@lg_alat_2 R RNum jm r)) = D).
  { unfold D. apply FunctionalExtensionality.functional_extensionality. intros r. rewrite alat_2_degrees. reflexivity. }
  assert (OR : forall v r k, (1 <= r <= jm)%nat -> up (fun j k => interp1d nlat ylat (v k) (@lg_alat R RNum jm j)) r k = on_rows v r k).
  { intros v r k Hr. unfold up, on_rows. rewrite alat_degrees. replace (S (r - 1)) with r by lia. reflexivity. }
  assert (SV : forall V, solves jm kmax (up (fun j k => interp1d nlat ylat (eps k) (@lg_alat R RNum jm j))) (up (fun j k => interp1d nlat ylat (FAWA k) (@lg_alat R RNum jm j))) D V <-> solves jm kmax (on_rows eps) (on_rows FAWA) D V).
  { intros V. unfold solves. assert (Q : forall r k, over_f jm (up (fun j k => interp1d nlat ylat (FAWA k) (@lg_alat R RNum jm j))) r k = over_f jm (on_rows FAWA) r k).
    { intros r k. unfold over_f. destruct (Nat.leb_spec 1 r); destruct (Nat.leb_spec r jm); cbn [andb]; try reflexivity. rewrite OR by lia. reflexivity. }
    split; intros (H1 & H2 & H3); (split; [exact H1|split; [|exact H3]]); intros r k Hr Hk1 Hk2; specialize (H2 r k Hr Hk1 Hk2); unfold source in *; rewrite !Q in *; rewrite !OR in * by lia; exact H2. }
  split.
  - assert (X := noslip_solution spsolve Ex jm kmax _ (fun j k => interp1d nlat ylat (FAWA k) (lg_alat jm j)) (fun r => interp1d nlat ylat dPT (lg_alat_2 jm r))
      (fun j => interp1d nlat ylat (zmum 0%nat) (@lg_alat R RNum jm j) * @lg_cosl R RNum sqrt jm j / @lg_cor R RNum jm j) Pe' J2 ltac:(lia)). cbv zeta in X. rewrite EqD in X.
    assert (NB : forall V, no_slip jm (fun r => interp1d nlat ylat (zmum 0%nat) (@lg_alat R RNum jm (r - 1)) * @lg_cosl R RNum sqrt jm (r - 1) / @lg_cor R RNum jm (r - 1)) V <-> no_slip jm (noslip_value jm (on_rows zmum)) V).
    { intros V. split; intros H r Hr; specialize (H r Hr); rewrite H; unfold noslip_value, on_rows; rewrite alat_degrees, cosl_cosine, cor_coriolis; replace (S (r - 1)) with r by lia; reflexivity. }
    destruct X as (X1 & X2 & X3). rewrite EqD. split; [apply SV; exact X1|]. split; [apply NB; exact X2|]. intros V V1 V2. apply X3; [apply SV; exact V1|apply NB; exact V2].
  - intros K4 bot. assert (X := adiab_solution spsolve Ex jm kmax _ (fun j k => interp1d nlat ylat (FAWA k) (lg_alat jm j)) (fun r => interp1d nlat ylat dPT (lg_alat_2 jm r))
      (@lg_uz1 R RNum sqrt jm (fun r => interp1d nlat ylat B0 (lg_alat_2 jm r)) (fun r => interp1d nlat ylat B1 (lg_alat_2 jm r))) Pe' J2 K4). cbv zeta in X. rewrite EqD in X.
    assert (NB : forall V, adiabatic jm (fun r => @lg_uz1 R RNum sqrt jm (fun r => interp1d nlat ylat B0 (lg_alat_2 jm r)) (fun r => interp1d nlat ylat B1 (lg_alat_2 jm r)) (r - 1)%nat) V <-> adiabatic jm bot V).
    { intros V. split; intros H r Hr; specialize (H r Hr); rewrite H; unfold bot; rewrite uz1_bottom; replace (S (r - 1)) with r by lia; unfold adiabatic_value; rewrite !alat_2_degrees; reflexivity. }
    destruct X as (X1 & X2 & X3). rewrite EqD. split; [apply SV; exact X1|]. split; [apply NB; exact X2|]. intros V V1 V2. apply X3; [apply SV; exact V1|apply NB; exact V2].
Qed.
