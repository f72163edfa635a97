(** Proofs about the one-level wrapper functions. *)
From Coq Require Import ZifyNat.
From Verif Require Import BaseFacts SpecFacts WrapperSpec Wrapper LwaProofs EqvlatProofs EqvlatProofs2.
Ltac Zify.zify_post_hook ::= Z.to_euclidean_division_equations.
Open Scope R_scope.

Lemma sliced_ok {T : Type} nlat nlon s n (k : result T) x : sliced nlat nlon s n k = Returns x ->
  ((0 < s <= nlat)%nat /\ (0 < nlon)%nat /\ (0 < n)%nat) /\ k = Returns x.
Proof.
  unfold sliced. destruct (Nat.ltb_spec 0 s), (Nat.leb_spec s nlat), (Nat.ltb_spec 0 nlon), (Nat.ltb_spec 0 n); cbn [andb]; intros E; try discriminate.
  split; [lia|exact E].
Qed.
Lemma sliced_runs {T : Type} nlat nlon s n (k : result T) : (0 < s <= nlat)%nat -> (0 < nlon)%nat -> (0 < n)%nat -> sliced nlat nlon s n k = k.
Proof. unfold sliced. intros. destruct (Nat.ltb_spec 0 s), (Nat.leb_spec s nlat), (Nat.ltb_spec 0 nlon), (Nat.ltb_spec 0 n); cbn [andb]; try lia. reflexivity. Qed.
Lemma returns_inj {T : Type} (x y : T) : Returns x = Returns y -> x = y.
Proof. congruence. Qed.

Lemma field_total s v q dmu nc j i : (j < s)%nat -> field_of (fst (lwa s v q dmu false nc)) j i = wave_activity s v q dmu j i.
Proof.
  intros H. assert (T := total_spec s v q dmu nc j i H). cbn [lwa fst out_total field_of] in *. injection T as T. exact T.
Qed.
Lemma sigma_total s v q dmu f j i : (j < s)%nat -> sigma_of (snd (lwa s v q dmu false (Some f))) j i = forcing_integral s v q dmu f j i.
Proof.
  intros H. destruct (bigsigma_spec s v q dmu false f j i H) as (g & E & V). rewrite E. exact V.
Qed.
Lemma wave_activity_ext s v v' q q' dmu dmu' j i : (j < s)%nat -> (forall r, (r < s)%nat -> v r i = v' r i /\ dmu r = dmu' r) -> q j = q' j ->
  wave_activity s v q dmu j i = wave_activity s v' q' dmu' j i.
Proof.
  intros Hj H Hq. unfold wave_activity, lwa_anticyclonic, lwa_cyclonic. destruct (Nat.eqb_spec (S j) s); [reflexivity|].
  f_equal; apply Sum_ext; intros r Hr; destruct (H r ltac:(lia)) as (-> & ->); rewrite Hq; reflexivity.
Qed.
Lemma profile_ext s nlon ylat v v' area n a j : (forall r i, (r < s)%nat -> v r i = v' r i) ->
  profile s nlon ylat v area n a j = profile s nlon ylat v' area n a j.
Proof. intros H. unfold profile. rewrite !fst_eqvlat_fawa. rewrite (cells_ext s nlon v area v' area); [reflexivity|]. intros r i Hr _. split; [apply H; exact Hr|reflexivity]. Qed.

(** row by row content of the two arrays returned for a hemispheric calculation *)
Section Rows.
  Context {B : Type} (nlat s : nat) (zero : nat -> B) (south north : nat -> B).
  Hypothesis Hs : (0 < s <= nlat)%nat.
  Lemma row_south j : (j < s)%nat -> (j + s < nlat)%nat -> set_last nlat s (set_first s zero south) north j = south j.
  Proof. intros H1 H2. unfold set_last, set_first. destruct (Nat.leb_spec (nlat - s) j); [lia|]. destruct (Nat.ltb_spec j s); [reflexivity|lia]. Qed.
  Lemma row_south_full j : (j < s)%nat -> (2 * s <= nlat)%nat -> set_last nlat s (set_first s zero south) north j = south j.
  Proof. intros H1 H2. apply row_south; lia. Qed.
  Lemma row_north j : (j < s)%nat -> set_last nlat s (set_first s zero south) north (nlat - s + j) = north j.
  Proof. intros H1. unfold set_last. destruct (Nat.leb_spec (nlat - s) (nlat - s + j)); [|lia]. f_equal. lia. Qed.
  Lemma row_middle j : (s <= j)%nat -> (j + s < nlat)%nat -> set_last nlat s (set_first s zero south) north j = zero j.
  Proof. intros H1 H2. unfold set_last, set_first. destruct (Nat.leb_spec (nlat - s) j); [lia|]. destruct (Nat.ltb_spec j s); [lia|reflexivity]. Qed.
End Rows.

(** what qgpv_eqlat_lwa returns *)
Lemma qgpv_value nlat nlon ylat v area dmu os on a q l :
  qgpv_eqlat_lwa nlat nlon ylat v area dmu os on a = Returns (q, l) ->
  let s := or_default os (nlat / 2) in let n := or_default on s in
  (0 < s <= nlat)%nat /\ (0 < nlon)%nat /\ (0 < n)%nat /\
  (forall j, (j < s)%nat -> (j + s < nlat)%nat -> q j = profile s nlon ylat v area n a j) /\
  (forall j, (j < s)%nat -> q (nlat - 1 - j)%nat = - profile s nlon ylat (mirror_field nlat v) area n a j) /\
  (forall j, (s <= j)%nat -> (j + s < nlat)%nat -> q j = 0) /\
  (forall j i, (j < s)%nat -> (j + s < nlat)%nat -> l j i = wave_activity s v q dmu j i) /\
  (forall j i, (j < s)%nat -> l (nlat - s + j)%nat i = wave_activity s (from_row (nlat - s) v) (from_row (nlat - s) q) (from_row (nlat - s) dmu) j i) /\
  (forall j i, (s <= j)%nat -> (j + s < nlat)%nat -> l j i = 0).
Proof.
  intros H s n. unfold qgpv_eqlat_lwa in H. fold s in H. fold n in H. apply sliced_ok in H. destruct H as ((Hs & Hx & Hn) & H).
  apply returns_inj in H. assert (Eq := f_equal fst H). assert (El := f_equal snd H). cbn [fst snd] in Eq, El. clear H.
  split; [exact Hs|]. split; [exact Hx|]. split; [exact Hn|].
  assert (S1 : forall j, (j < s)%nat -> (j + s < nlat)%nat -> q j = profile s nlon ylat v area n a j) by (intros j H1 H2; rewrite <- Eq; apply row_south; assumption).
  split; [exact S1|]. split; [|split; [|split; [|split]]].
  - intros j Hj. rewrite <- Eq. replace (nlat - 1 - j)%nat with (nlat - s + (s - 1 - j))%nat by lia. rewrite row_north by lia.
    unfold neg1, reversed. cbn [nopp RNum]. replace (s - 1 - (s - 1 - j))%nat with j by lia. reflexivity.
  - intros j H1 H2. rewrite <- Eq. rewrite row_middle by assumption. reflexivity.
  - intros j i H1 H2. rewrite <- El. rewrite row_south by assumption. rewrite field_total by exact H1.
    apply wave_activity_ext; [exact H1|intros; split; reflexivity|]. symmetry. apply S1; assumption.
  - intros j i H1. rewrite <- El, row_north by assumption. rewrite field_total by exact H1. rewrite Eq. reflexivity.
  - intros j i H1 H2. rewrite <- El. rewrite row_middle by assumption. reflexivity.
Qed.
Lemma qgpv_returns nlat nlon ylat (v area : nat -> nat -> R) dmu os on a : let s := or_default os (nlat / 2) in let n := or_default on s in
  (0 < s <= nlat)%nat -> (0 < nlon)%nat -> (0 < n)%nat -> exists q l, qgpv_eqlat_lwa nlat nlon ylat v area dmu os on a = Returns (q, l).
Proof. intros s n Hs Hx Hn. unfold qgpv_eqlat_lwa. fold s. fold n. rewrite sliced_runs by assumption. do 2 eexists. reflexivity. Qed.

(** mirror image of the wave activity: the value of the row itself is counted in the other part *)
Lemma ppart_diff x : ppart x = ppart (- x) + x.
Proof. unfold ppart, Rmax. destruct (Rle_dec x 0), (Rle_dec (- x) 0); lra. Qed.
Lemma wave_activity_mirror s v q dmu j i : (0 < j)%nat -> (S j < s)%nat ->
  wave_activity s (mirror_field s v) (mirror_profile s q) (fun r => dmu (s - 1 - r)%nat) j i =
  wave_activity s v q dmu (s - 1 - j) i + (q (s - 1 - j)%nat - v (s - 1 - j)%nat i) * dmu (s - 1 - j)%nat.
Proof.
  intros H0 Hj. unfold wave_activity, lwa_anticyclonic, lwa_cyclonic, mirror_field, mirror_profile.
  destruct (Nat.eqb_spec (S j) s); [lia|]. destruct (Nat.eqb_spec (S (s - 1 - j)) s); [lia|].
  set (J := (s - 1 - j)%nat).
  assert (A1 : Sum (S j) s (fun r => ppart (- q J - - v (s - 1 - r)%nat i) * dmu (s - 1 - r)%nat) = Sum 0 J (fun r => ppart (v r i - q J) * dmu r)).
  { rewrite (Sum_reflect (s - 1) (S j) s) by lia. replace (S (s - 1) - s)%nat with 0%nat by lia. replace (S (s - 1) - S j)%nat with J by (unfold J; lia).
    apply Sum_ext. intros r Hr. unfold J in Hr. replace (s - 1 - (s - 1 - r))%nat with r by lia. f_equal. f_equal. lra. }
  assert (A2 : Sum 0 (S j) (fun r => ppart (- v (s - 1 - r)%nat i - - q J) * dmu (s - 1 - r)%nat) = Sum J s (fun r => ppart (q J - v r i) * dmu r)).
  { rewrite (Sum_reflect (s - 1) 0 (S j)) by lia. replace (S (s - 1) - S j)%nat with J by (unfold J; lia). replace (S (s - 1) - 0)%nat with s by lia.
    apply Sum_ext. intros r Hr. replace (s - 1 - (s - 1 - r))%nat with r by lia. f_equal. f_equal. lra. }
  rewrite A1, A2. rewrite (Sum_S_l J s) by (unfold J; lia). rewrite (Sum_S_r 0 J) by lia.
  rewrite (ppart_diff (q J - v J i)). replace (- (q J - v J i)) with (v J i - q J) by lra. ring.
Qed.

(** mirrored input *)
Lemma qgpv_mirror nlat nlon ylat v area dmu os on a q l q' l' :
  qgpv_eqlat_lwa nlat nlon ylat v area dmu os on a = Returns (q, l) ->
  qgpv_eqlat_lwa nlat nlon ylat (mirror_field nlat v) area dmu os on a = Returns (q', l') ->
  (2 * or_default os (nlat / 2) <= nlat)%nat ->
  forall j, (j < nlat)%nat -> q' j = - q (nlat - 1 - j)%nat.
Proof.
  intros H H' H2 j Hj. destruct (qgpv_value _ _ _ _ _ _ _ _ _ _ _ H) as (Hs & Hx & Hn & S1 & N1 & M1 & _).
  destruct (qgpv_value _ _ _ _ _ _ _ _ _ _ _ H') as (_ & _ & _ & S2 & N2 & M2 & _).
  set (s := or_default os (nlat / 2)) in *. set (n := or_default on s) in *.
  assert (X : forall k, profile s nlon ylat (mirror_field nlat (mirror_field nlat v)) area n a k = profile s nlon ylat v area n a k).
  { intros k. apply profile_ext. intros r i Hr. unfold mirror_field. replace (nlat - 1 - (nlat - 1 - r))%nat with r by lia. lra. }
  destruct (Nat.lt_ge_cases j s) as [L|L].
  - rewrite S2, N1 by lia. lra.
  - destruct (Nat.lt_ge_cases (j + s) nlat) as [L2|L2].
    + rewrite M2, M1 by lia. lra.
    + replace j with (nlat - 1 - (nlat - 1 - j))%nat at 1 by lia. rewrite N2, X, S1 by lia. reflexivity.
Qed.
Lemma qgpv_mirror_lwa nlat nlon ylat v area dmu os on a q l q' l' :
  qgpv_eqlat_lwa nlat nlon ylat v area dmu os on a = Returns (q, l) ->
  qgpv_eqlat_lwa nlat nlon ylat (mirror_field nlat v) area dmu os on a = Returns (q', l') ->
  let s := or_default os (nlat / 2) in (2 * s <= nlat)%nat -> (forall j, (j < nlat)%nat -> dmu (nlat - 1 - j)%nat = dmu j) ->
  forall j i, (0 < j)%nat -> (S j < s)%nat ->
    l' j i = l (nlat - 1 - j)%nat i + (q (nlat - 1 - j)%nat - v (nlat - 1 - j)%nat i) * dmu j.
Proof.
  intros H H' s H2 Hd j i H0 Hj. assert (M := qgpv_mirror _ _ _ _ _ _ _ _ _ _ _ _ _ H H' H2).
  destruct (qgpv_value _ _ _ _ _ _ _ _ _ _ _ H) as (Hs & _ & _ & _ & _ & _ & _ & LN & _).
  destruct (qgpv_value _ _ _ _ _ _ _ _ _ _ _ H') as (_ & _ & _ & _ & _ & _ & LS & _). fold s in Hs, LN, LS.
  rewrite LS by lia. replace (nlat - 1 - j)%nat with (nlat - s + (s - 1 - j))%nat by lia. rewrite LN by lia.
  rewrite (wave_activity_ext s (mirror_field nlat v) (mirror_field s (from_row (nlat - s) v)) q' (mirror_profile s (from_row (nlat - s) q)) dmu (fun r => from_row (nlat - s) dmu (s - 1 - r)%nat)).
  - rewrite wave_activity_mirror by lia. unfold from_row. replace (nlat - s + (s - 1 - j))%nat with (nlat - 1 - j)%nat by lia. rewrite Hd by lia. reflexivity.
  - lia.
  - intros r Hr. unfold mirror_field, from_row. replace (nlat - s + (s - 1 - r))%nat with (nlat - 1 - r)%nat by lia. split; [reflexivity|]. symmetry. apply Hd. lia.
  - rewrite M by lia. unfold mirror_profile, from_row. f_equal. f_equal. lia.
Qed.

(** theta_lwa *)
Lemma theta_value nlat nlon ylat th area dmu os on a q l :
  theta_lwa nlat nlon ylat th area dmu os on a = Returns (q, l) ->
  let s := or_default os (nlat / 2) in let n := or_default on s in
  (0 < s <= nlat)%nat /\ (0 < nlon)%nat /\ (0 < n)%nat /\
  (forall j, (j < s)%nat -> (j + s < nlat)%nat -> q j = profile s nlon ylat th area n a j) /\
  (forall j, (j < s)%nat -> q (nlat - 1 - j)%nat = profile s nlon ylat (fun r i => th (nlat - 1 - r)%nat i) area n a j) /\
  (forall j i, (j < s)%nat -> (j + s < nlat)%nat -> l j i = wave_activity s th q dmu j i) /\
  (forall j i, (j < s)%nat -> l (nlat - s + j)%nat i = wave_activity s (from_row (nlat - s) th) (from_row (nlat - s) q) (from_row (nlat - s) dmu) j i).
Proof.
  intros H s n. unfold theta_lwa in H. fold s in H. fold n in H. apply sliced_ok in H. destruct H as ((Hs & Hx & Hn) & H).
  apply returns_inj in H. assert (Eq := f_equal fst H). assert (El := f_equal snd H). cbn [fst snd] in Eq, El. clear H.
  split; [exact Hs|]. split; [exact Hx|]. split; [exact Hn|].
  assert (S1 : forall j, (j < s)%nat -> (j + s < nlat)%nat -> q j = profile s nlon ylat th area n a j) by (intros j H1 H2; rewrite <- Eq; apply row_south; assumption).
  split; [exact S1|]. split; [|split].
  - intros j Hj. rewrite <- Eq. replace (nlat - 1 - j)%nat with (nlat - s + (s - 1 - j))%nat by lia. rewrite row_north by lia.
    unfold reversed. replace (s - 1 - (s - 1 - j))%nat with j by lia. reflexivity.
  - intros j i H1 H2. rewrite <- El. rewrite row_south by assumption. rewrite field_total by exact H1.
    apply wave_activity_ext; [exact H1|intros; split; reflexivity|]. rewrite S1 by assumption. unfold set_first. destruct (Nat.ltb_spec j s); [reflexivity|lia].
  - intros j i H1. rewrite <- El, row_north by assumption. rewrite field_total by exact H1. rewrite Eq. reflexivity.
Qed.
Lemma theta_returns nlat nlon ylat (v area : nat -> nat -> R) dmu os on a : let s := or_default os (nlat / 2) in let n := or_default on s in
  (0 < s <= nlat)%nat -> (0 < nlon)%nat -> (0 < n)%nat -> exists q l, theta_lwa nlat nlon ylat v area dmu os on a = Returns (q, l).
Proof. intros s n Hs Hx Hn. unfold theta_lwa. fold s. fold n. rewrite sliced_runs by assumption. do 2 eexists. reflexivity. Qed.

(** eqvlat_hemispheric *)
Lemma hemispheric_value nlat nlon ylat v area os on a h :
  eqvlat_hemispheric nlat nlon ylat v area os on a = Returns h ->
  let s := or_default os (nlat / 2) in let n := or_default on s in
  (0 < s <= nlat)%nat /\ (0 < nlon)%nat /\ (0 < n)%nat /\
  (forall j, (j < s)%nat -> (j + s < nlat)%nat -> h j = profile s nlon ylat v area n a j) /\
  (forall j, (j < s)%nat -> h (nlat - 1 - j)%nat = profile s nlon ylat (mirror_field nlat v) area n a j).
Proof.
  intros H s n. unfold eqvlat_hemispheric in H. fold s in H. fold n in H. apply sliced_ok in H. destruct H as ((Hs & Hx & Hn) & H).
  apply returns_inj in H. split; [exact Hs|]. split; [exact Hx|]. split; [exact Hn|]. split.
  - intros j H1 H2. rewrite <- H. apply row_south; assumption.
  - intros j Hj. rewrite <- H. replace (nlat - 1 - j)%nat with (nlat - s + (s - 1 - j))%nat by lia. rewrite row_north by lia.
    unfold reversed. replace (s - 1 - (s - 1 - j))%nat with j by lia. reflexivity.
Qed.
Lemma hemispheric_returns nlat nlon ylat (v area : nat -> nat -> R) os on a : let s := or_default os (nlat / 2) in let n := or_default on s in
  (0 < s <= nlat)%nat -> (0 < nlon)%nat -> (0 < n)%nat -> exists h, eqvlat_hemispheric nlat nlon ylat v area os on a = Returns h.
Proof. intros s n Hs Hx Hn. unfold eqvlat_hemispheric. fold s. fold n. rewrite sliced_runs by assumption. eexists. reflexivity. Qed.

(** the variants of qgpv_eqlat_lwa *)
Lemma options_plain nlat nlon ylat (v area : nat -> nat -> R) dmu os on a :
  qgpv_eqlat_lwa_options nlat nlon ylat v area dmu os on None None a =
  match qgpv_eqlat_lwa nlat nlon ylat v area dmu os on a with
  | Returns (q, l) => Returns (OptionsResult q l None None) | RaisesValueError => RaisesValueError | RaisesTypeError => RaisesTypeError
  end.
Proof. unfold qgpv_eqlat_lwa_options, qgpv_eqlat_lwa, sliced. destruct (_ && _)%bool; reflexivity. Qed.
Lemma options_forced nlat nlon ylat (v f area : nat -> nat -> R) dmu os on a :
  qgpv_eqlat_lwa_options nlat nlon ylat v area dmu os on None (Some f) a =
  match qgpv_eqlat_lwa_ncforce nlat nlon ylat v f area dmu os on a with
  | Returns (q, l, c) => Returns (OptionsResult q l None (Some c)) | RaisesValueError => RaisesValueError | RaisesTypeError => RaisesTypeError
  end.
Proof. unfold qgpv_eqlat_lwa_options, qgpv_eqlat_lwa_ncforce, sliced. destruct (_ && _)%bool; reflexivity. Qed.
Lemma forced_plain nlat nlon ylat (v f area : nat -> nat -> R) dmu os on a :
  qgpv_eqlat_lwa nlat nlon ylat v area dmu os on a =
  match qgpv_eqlat_lwa_ncforce nlat nlon ylat v f area dmu os on a with
  | Returns (q, l, _) => Returns (q, l) | RaisesValueError => RaisesValueError | RaisesTypeError => RaisesTypeError
  end.
Proof. unfold qgpv_eqlat_lwa, qgpv_eqlat_lwa_ncforce, sliced. destruct (_ && _)%bool; reflexivity. Qed.
Lemma forced_value nlat nlon ylat v f area dmu os on a q l c :
  qgpv_eqlat_lwa_ncforce nlat nlon ylat v f area dmu os on a = Returns (q, l, c) ->
  let s := or_default os (nlat / 2) in
  (forall j i, (j < s)%nat -> (j + s < nlat)%nat -> c j i = forcing_integral s v q dmu f j i) /\
  (forall j i, (j < s)%nat -> c (nlat - s + j)%nat i =
     forcing_integral s (from_row (nlat - s) v) (from_row (nlat - s) q) (from_row (nlat - s) dmu) (from_row (nlat - s) f) j i).
Proof.
  intros H s. assert (P := forced_plain nlat nlon ylat v f area dmu os on a). rewrite H in P. destruct (qgpv_value _ _ _ _ _ _ _ _ _ _ _ P) as (Hs & _ & _ & S1 & _).
  fold s in Hs, S1. unfold qgpv_eqlat_lwa_ncforce in H. fold s in H. apply sliced_ok in H. destruct H as (_ & H).
  apply returns_inj in H. assert (Eq := f_equal (fun x => fst (fst x)) H). assert (El := f_equal snd H). cbn [fst snd] in Eq, El. clear H. split.
  - intros j i H1 H2. rewrite <- El. rewrite row_south by assumption. rewrite sigma_total by exact H1.
    unfold forcing_integral. destruct (Nat.eqb_spec (S j) s); [reflexivity|]. rewrite (S1 j H1 H2). reflexivity.
  - intros j i H1. rewrite <- El, row_north by assumption. rewrite sigma_total by exact H1. rewrite Eq. reflexivity.
Qed.
(** a prescribed reference *)
Lemma input_value nlat nlon q (v : nat -> nat -> R) dmu os l :
  qgpv_input_qref_to_compute_lwa nlat nlon q v dmu os = Returns l ->
  let s := or_default os (nlat / 2) in (0 < s <= nlat)%nat /\
  (forall j i, (j < s)%nat -> (j + s < nlat)%nat -> l j i = wave_activity s v q dmu j i) /\
  (forall j i, (j < s)%nat -> l (nlat - s + j)%nat i = wave_activity s (from_row (nlat - s) v) (from_row (nlat - s) q) (from_row (nlat - s) dmu) j i) /\
  (forall j i, (s <= j)%nat -> (j + s < nlat)%nat -> l j i = 0).
Proof.
  intros H s. unfold qgpv_input_qref_to_compute_lwa in H. fold s in H. apply sliced_ok in H. destruct H as ((Hs & _) & H).
  apply returns_inj in H. split; [exact Hs|]. split; [|split].
  - intros j i H1 H2. rewrite <- H. rewrite row_south by assumption. apply field_total. exact H1.
  - intros j i H1. rewrite <- H, row_north by assumption. apply field_total. exact H1.
  - intros j i H1 H2. rewrite <- H. rewrite row_middle by assumption. reflexivity.
Qed.

(** extremes of the mirrored field *)
Lemma mirror_max nlat s nlon v hi : (s <= nlat)%nat -> is_max s nlon (from_row (nlat - s) v) hi -> is_min s nlon (mirror_field nlat v) (- hi).
Proof.
  intros Hs ((j & i & Hj & Hi & E) & H). split.
  - exists (s - 1 - j)%nat, i. split; [lia|]. split; [exact Hi|]. unfold mirror_field, from_row in *. rewrite <- E. f_equal. f_equal. lia.
  - intros r k Hr Hk. unfold mirror_field. specialize (H (s - 1 - r)%nat k ltac:(lia) Hk). unfold from_row in H. replace (nlat - s + (s - 1 - r))%nat with (nlat - 1 - r)%nat in H by lia. lra.
Qed.
Lemma mirror_min nlat s nlon v lo : (s <= nlat)%nat -> is_min s nlon (from_row (nlat - s) v) lo -> is_max s nlon (mirror_field nlat v) (- lo).
Proof.
  intros Hs ((j & i & Hj & Hi & E) & H). split.
  - exists (s - 1 - j)%nat, i. split; [lia|]. split; [exact Hi|]. unfold mirror_field, from_row in *. rewrite <- E. f_equal. f_equal. lia.
  - intros r k Hr Hk. unfold mirror_field. specialize (H (s - 1 - r)%nat k ltac:(lia) Hk). unfold from_row in H. replace (nlat - s + (s - 1 - r))%nat with (nlat - 1 - r)%nat in H by lia. lra.
Qed.
