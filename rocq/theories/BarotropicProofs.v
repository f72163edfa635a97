(** Histories of reads and assignments on a [BarotropicField]. *)
From Verif Require Import Spec LwaSpec EqvlatSpec Basis Barotropic LwaProofs EqvlatProofs2.
Open Scope R_scope.

Definition is_read {A} (o : bop A) : bool := match o with ReadEqvlat | ReadLwa => true | AssignPv _ => false end.
Definition is_lwa_read {A} (o : bop A) : bool := match o with ReadLwa => true | _ => false end.

(** invariant of objects reached from s0 by reads *)
Definition same_reads (s0 s : bfield R) : Prop := s = s0 \/ s = set_lwa s0 (lwa_now s0 (eqvlat_now s0)).

Lemma read_step s0 s o : bf__eqvlat s0 = None -> bf__lwa s0 = None -> is_read o = true -> same_reads s0 s ->
  same_reads s0 (fst (bstep s o)) /\ [snd (bstep s o)] = snd (brun s0 [o]).
Proof.
  intros E L Ho [->| ->]; destruct o; try discriminate; cbn; unfold get_eqvlat, get_lwa, compute_lwa, compute_eqvlat, get_eqvlat; cbn; rewrite ?E, ?L; cbn; rewrite ?E, ?L; cbn; try rewrite E; cbn; try rewrite L; cbn; split; try (left; reflexivity); try (right; reflexivity); reflexivity.
Qed.

Lemma reads_gen s0 h : bf__eqvlat s0 = None -> bf__lwa s0 = None -> forallb is_read h = true ->
  forall s, same_reads s0 s -> snd (brun s h) = concat (map (fun o => snd (brun s0 [o])) h).
Proof.
  intros E L. induction h as [|o h IH]; intros Hr s Hs; [reflexivity|].
  cbn [forallb] in Hr. apply andb_true_iff in Hr. destruct Hr as [Ho Hr].
  destruct (read_step s0 s o E L Ho Hs) as [S1 O1].
  set (F := fun o0 => snd (brun s0 [o0])) in *. change (snd (brun s0 [o])) with (F o) in O1.
  cbn [brun map concat]. destruct (bstep s o) as [s1 out] eqn:B. cbn [fst snd] in *.
  specialize (IH Hr s1 S1). destruct (brun s1 h) as [s2 outs]. cbn [snd] in *. rewrite IH, <- O1. reflexivity.
Qed.

(** the configuration never changes except pv *)
Lemma brun_conf h : forall s : bfield R, bf__eqvlat s = None ->
  let s' := fst (brun s h) in
  bf_nlat s' = bf_nlat s /\ bf_nlon s' = bf_nlon s /\ bf_ylat s' = bf_ylat s /\ bf_clat s' = bf_clat s /\
  bf_radius s' = bf_radius s /\ bf_partitioned s' = bf_partitioned s /\ bf_dphi s' = bf_dphi s /\
  bf_area s' = bf_area s /\ bf_npart s' = bf_npart s /\ bf__eqvlat s' = None.
Proof.
  induction h as [|o h IH]; intros s E; [cbn; auto 20|].
  assert (H1 : let s1 := fst (bstep s o) in
    bf_nlat s1 = bf_nlat s /\ bf_nlon s1 = bf_nlon s /\ bf_ylat s1 = bf_ylat s /\ bf_clat s1 = bf_clat s /\
    bf_radius s1 = bf_radius s /\ bf_partitioned s1 = bf_partitioned s /\ bf_dphi s1 = bf_dphi s /\
    bf_area s1 = bf_area s /\ bf_npart s1 = bf_npart s /\ bf__eqvlat s1 = None).
  { destruct o; cbn; unfold get_eqvlat, get_lwa, compute_lwa, compute_eqvlat, get_eqvlat, compute_eqvlat; rewrite ?E; cbn; auto 20.
    destruct (bf__lwa s) eqn:L; cbn; rewrite ?L; cbn; auto 20. }
  cbn [brun]. destruct (bstep s o) as [s1 out]. cbn [fst] in H1.
  destruct (brun s1 h) as [s2 outs] eqn:B. cbn [fst].
  destruct H1 as (H1&H2&H3&H4&H5&H6&H7&H8&H9&H10).
  specialize (IH s1 H10). rewrite B in IH. cbn [fst] in IH. destruct IH as (I1&I2&I3&I4&I5&I6&I7&I8&I9&I10).
  repeat split; congruence.
Qed.

Lemma brun_no_lwa h : forall s : bfield R, bf__eqvlat s = None -> bf__lwa s = None ->
  existsb is_lwa_read h = false -> bf__lwa (fst (brun s h)) = None.
Proof.
  induction h as [|o h IH]; intros s E L H; [exact L|].
  cbn [existsb] in H. apply orb_false_iff in H. destruct H as [Ho H].
  cbn [brun]. destruct (bstep s o) as [s1 out] eqn:B1. destruct (brun s1 h) as [s2 outs] eqn:B2. cbn [fst].
  assert (E1 : bf__eqvlat s1 = None /\ bf__lwa s1 = None).
  { destruct o; try discriminate; cbn in B1; unfold get_eqvlat, compute_eqvlat in B1; rewrite ?E in B1; injection B1 as <- <-; auto. }
  destruct E1 as [E1 L1]. specialize (IH s1 E1 L1 H). rewrite B2 in IH. exact IH.
Qed.

(** once cached, lwa never changes *)
Lemma brun_lwa_frozen h : forall (s : bfield R) v, bf__eqvlat s = None -> bf__lwa s = Some v -> bf__lwa (fst (brun s h)) = Some v.
Proof.
  induction h as [|o h IH]; intros s v E L; [exact L|].
  cbn [brun]. destruct (bstep s o) as [s1 out] eqn:B1. destruct (brun s1 h) as [s2 outs] eqn:B2. cbn [fst].
  assert (E1 : bf__eqvlat s1 = None /\ bf__lwa s1 = Some v).
  { destruct o; cbn in B1; unfold get_eqvlat, get_lwa, compute_eqvlat in B1; rewrite ?E, ?L in B1; injection B1 as <- <-; auto. }
  destruct E1 as [E1 L1]. specialize (IH s1 v E1 L1). rewrite B2 in IH. exact IH.
Qed.

Section Init.
  Variables (nlat nlon : nat) (ylat : nat -> R) (area : option (nat -> nat -> R)) (dphi : option (nat -> R))
            (npart : option nat) (radius : R) (flag : bool).
  Notation mk pv := (bf_init nlat nlon ylat pv area dphi npart radius flag).

  Lemma reads_order pv h : forallb is_read h = true ->
    snd (brun (mk pv) h) = concat (map (fun o => snd (brun (mk pv) [o])) h).
  Proof. intros H. apply (reads_gen (mk pv) h eq_refl eq_refl H). left; reflexivity. Qed.

  Lemma conf_eq pv h pv' : let s := fst (brun (mk pv) h) in
    set_pv s pv' = match bf__lwa s with None => mk pv' | Some v => set_lwa (mk pv') v end.
  Proof.
    cbn zeta. destruct (brun_conf h (mk pv) eq_refl) as (H1&H2&H3&H4&H5&H6&H7&H8&H9&H10).
    unfold set_pv. rewrite H1, H2, H3, H4, H5, H6, H7, H8, H9, H10.
    destruct (bf__lwa (fst (brun (mk pv) h))); reflexivity.
  Qed.

  Lemma brun_app (s : bfield R) h1 h2 : brun s (h1 ++ h2) =
    let '(s1, o1) := brun s h1 in let '(s2, o2) := brun s1 h2 in (s2, o1 ++ o2).
  Proof.
    revert s. induction h1 as [|o h1 IH]; intros s; cbn [app brun].
    - destruct (brun s h2); reflexivity.
    - destruct (bstep s o) as [s1 out]. rewrite IH. destruct (brun s1 h1) as [s2 o2]. destruct (brun s2 h2). reflexivity.
  Qed.

  Lemma assign_state pv h pv' : fst (brun (mk pv) (h ++ [AssignPv pv'])) = set_pv (fst (brun (mk pv) h)) pv'.
  Proof. rewrite brun_app. destruct (brun (mk pv) h) as [s1 o1]. reflexivity. Qed.

  Lemma eqvlat_after_assign pv h pv' :
    snd (brun (fst (brun (mk pv) (h ++ [AssignPv pv']))) [ReadEqvlat]) = snd (brun (mk pv') [ReadEqvlat]).
  Proof.
    rewrite assign_state, conf_eq. destruct (bf__lwa (fst (brun (mk pv) h))); reflexivity.
  Qed.

  Lemma lwa_after_assign_unread pv h pv' : existsb is_lwa_read h = false ->
    snd (brun (fst (brun (mk pv) (h ++ [AssignPv pv']))) [ReadLwa]) = snd (brun (mk pv') [ReadLwa]).
  Proof.
    intros H. rewrite assign_state, conf_eq. rewrite (brun_no_lwa h (mk pv) eq_refl eq_refl H). reflexivity.
  Qed.

  Lemma lwa_frozen pv h : snd (brun (fst (brun (mk pv) (ReadLwa :: h))) [ReadLwa]) = snd (brun (mk pv) [ReadLwa]).
  Proof.
    cbn [brun]. change (bstep (mk pv) ReadLwa) with (set_lwa (mk pv) (lwa_now (mk pv) (eqvlat_now (mk pv))), OLwa (lwa_now (mk pv) (eqvlat_now (mk pv)))).
    cbv iota beta. set (s1 := set_lwa (mk pv) _).
    pose proof (brun_lwa_frozen h s1 _ eq_refl eq_refl) as F. pose proof (brun_conf h s1 eq_refl) as C.
    destruct (brun s1 h) as [s2 o2]. cbn [fst] in *.
    cbn [bstep]. unfold get_lwa. rewrite F. reflexivity.
  Qed.

  Lemma eqvlat_value pv : snd (brun (mk pv) [ReadEqvlat]) =
    [OEqv (fst (eqvlat_fawa nlat nlon ylat pv
       (match area with Some w => w | None => default_area nlon ylat (match dphi with Some d => d | None => default_dphi nlat end) radius end)
       (match npart with Some n => n | None => nlat end) radius false))].
  Proof. reflexivity. Qed.

  Lemma lwa_value pv : snd (brun (mk pv) [ReadEqvlat; ReadLwa]) =
    let q := fst (eqvlat_fawa nlat nlon ylat pv
       (match area with Some w => w | None => default_area nlon ylat (match dphi with Some d => d | None => default_dphi nlat end) radius end)
       (match npart with Some n => n | None => nlat end) radius false) in
    [OEqv q; OLwa (fst (lwa nlat pv q
       (fun j => radius * Rabs (cos (ylat j * (PI / 180))) * (match dphi with Some d => d | None => default_dphi nlat end) j) flag None))].
  Proof. reflexivity. Qed.
End Init.

(** the stale cache is visible *)
Lemma stale_lwa : exists nlat nlon ylat pv pv',
  let mk := fun f => bf_init nlat nlon ylat f None None None 1 false in
  snd (brun (mk pv) [ReadLwa; AssignPv pv'; ReadLwa]) <>
  snd (brun (mk pv) [ReadLwa]) ++ [ONone] ++ snd (brun (mk pv') [ReadLwa]).
Proof.
  exists 2%nat, 1%nat, (fun j => match j with O => 0 | S _ => 60 end), (fun j _ => match j with O => 0 | S _ => 1 end),
         (fun j _ => match j with O => 1 | S _ => 0 end). cbn zeta.
  set (y := fun j : nat => match j with O => 0 | S _ => 60 end).
  set (pv := fun (j : nat) (_ : nat) => match j with O => 0 | S _ => 1 end).
  set (pv' := fun (j : nat) (_ : nat) => match j with O => 1 | S _ => 0 end).
  intros H. cbn [brun] in H.
  change (bstep (bf_init 2 1 y pv None None None 1 false) ReadLwa) with
    (set_lwa (bf_init 2 1 y pv None None None 1 false) (lwa_now (bf_init 2 1 y pv None None None 1 false) (eqvlat_now (bf_init 2 1 y pv None None None 1 false))),
     OLwa (lwa_now (bf_init 2 1 y pv None None None 1 false) (eqvlat_now (bf_init 2 1 y pv None None None 1 false)))) in H.
  cbv iota beta in H. set (s0 := bf_init 2 1 y pv None None None 1 false) in *.
  set (s0' := bf_init 2 1 y pv' None None None 1 false) in *.
  cbn [app snd bstep get_lwa bf__lwa set_lwa set_pv] in H.
  change (get_lwa s0') with (set_lwa s0' (lwa_now s0' (eqvlat_now s0')), lwa_now s0' (eqvlat_now s0')) in H.
  cbn [app snd] in H.
  apply (f_equal (fun l => match l with [_; _; OLwa v] => out_total v 0 0 | _ => None end)) in H. cbv beta iota in H.
  (* the old value is zero or not, the new one satisfies the C03 characterisation *)
  assert (D : forall r, (r < 2)%nat -> 0 < (fun j => 1 * Rabs (cos (y j * (PI / 180))) * (PI / INR (2 - 1) * 1)) r).
  { intros r Hr. cbn [Nat.sub INR]. pose proof PI_RGT_0.
    apply Rmult_lt_0_compat; [|lra]. rewrite Rmult_1_l. apply Rabs_pos_lt.
    destruct r as [|r]; unfold y.
    - rewrite Rmult_0_l, cos_0. lra.
    - replace (60 * (PI / 180)) with (PI / 3) by field. rewrite cos_PI3. lra. }
  set (dmu := fun j => 1 * Rabs (cos (y j * (PI / 180))) * (PI / INR (2 - 1) * 1)) in *.
  assert (Eo : lwa_now s0 (eqvlat_now s0) = fst (lwa 2 pv (eqvlat_now s0) dmu false None)) by reflexivity.
  assert (En : lwa_now s0' (eqvlat_now s0') = fst (lwa 2 pv' (eqvlat_now s0') dmu false None)) by reflexivity.
  assert (Qo : 0 <= eqvlat_now s0 0%nat <= 1).
  { unfold eqvlat_now. apply (grid_qref_range 2 1 y pv _ 2 1 0 1); [lia| |].
    - split; [exists 0%nat, 0%nat; repeat split; lia|]. intros [|j] i Hj Hi; cbn; lra.
    - split; [exists 1%nat, 0%nat; repeat split; lia|]. intros [|j] i Hj Hi; cbn; lra. }
  assert (Zo : out_total (lwa_now s0 (eqvlat_now s0)) 0 0 = Some 0).
  { rewrite Eo. apply total_zero_iff; [lia|exact D|]. split.
    - intros r Hr. assert (r = 1%nat) by lia. subst r. change (pv 1%nat 0%nat) with 1. lra.
    - intros r Hr. assert (r = 0%nat) by lia. subst r. change (pv 0%nat 0%nat) with 0. lra. }
  rewrite Zo, En in H. symmetry in H. rename H into Zn. apply total_zero_iff in Zn; [|lia|exact D].
  destruct Zn as [Z1 Z2]. specialize (Z1 1%nat ltac:(lia)). specialize (Z2 0%nat ltac:(lia)). change (pv' 1%nat 0%nat) with 0 in Z1. change (pv' 0%nat 0%nat) with 1 in Z2. lra.
Qed.

(** C10: default object on an evenly spaced pole-to-pole grid *)
Lemma default_object_profile nlat nlon pv a n lo hi : (2 <= nlat)%nat -> (1 <= nlon)%nat -> 0 < a -> (2 <= n)%nat ->
  is_min nlat nlon pv lo -> is_max nlat nlon pv hi ->
  let ylat := fun j => -90 + INR j * (180 / INR (nlat - 1)) in
  exists q, snd (brun (bf_init nlat nlon ylat pv None None (Some n) a false) [ReadEqvlat]) = [OEqv q] /\
    nondecreasing nlat q /\ forall l, lo <= q l <= hi.
Proof.
  intros Hn Hl Ha Hnp Hlo Hhi ylat. eexists; split; [reflexivity|].
  destruct (default_area_total nlat nlon a Hn Hl Ha) as [T NN]. split.
  - intros l m Hlm. eapply grid_qref_mono; try eassumption; [intros; apply NN; assumption|].
    unfold ylat. cbn [bf_ylat bf_init].
    assert (0 <= 180 / INR (nlat - 1)).
    { apply Rmult_le_pos; [lra|]. left; apply Rinv_0_lt_compat. apply (lt_INR 0); lia. }
    assert (INR l <= INR m) by (apply le_INR; lia).
    apply Rplus_le_compat_l, Rmult_le_compat_r; assumption.
  - intros l. eapply grid_qref_range; eassumption.
Qed.

Lemma default_object_args nlat nlon pv a q : (2 <= nlat)%nat -> (1 <= nlon)%nat -> 0 < a ->
  let ylat := fun j => -90 + INR j * (180 / INR (nlat - 1)) in
  let area := default_area nlon ylat (default_dphi nlat) a in
  total nlat nlon area <= sphere a /\
  -1 <= total_below nlat nlon pv area q / (2 * PI * a ^ 2) - 1 <= 1.
Proof.
  intros Hn Hl Ha ylat area. destruct (default_area_total nlat nlon a Hn Hl Ha) as [T NN]. split; [exact T|].
  fold ylat in T, NN. fold area in T, NN. replace (a ^ 2) with (a * a) by ring.
  apply EqvlatProofs.eqv_arg_range; [assumption|]. unfold total_below. split.
  - apply SpecFacts.Sum_nonneg; intros j Hj. apply SpecFacts.Sum_nonneg; intros i Hi. specialize (NN j i). destruct Rlt_dec; lra || (apply NN; lia).
  - eapply Rle_trans; [|exact T]. apply SpecFacts.Sum_le; intros j Hj. apply SpecFacts.Sum_le; intros i Hi.
    assert (0 <= area j i) by (apply NN; lia). destruct Rlt_dec; lra.
Qed.
