(** Further property theorems for the dataset interface: orientation, static stability, budget, mirror extension, forcing. *)
From Coq Require Import ZifyNat.
From Verif Require Import BaseFacts SpecFacts XarraySpec XarrayProofs XarrayProofs2 XarrayProofs3 PropertiesXarray.
Ltac Zify.zify_post_hook ::= Z.to_euclidean_division_equations.
Open Scope R_scope.

(** ** C111: orientation of the input *)
(** [a] and [b] hold the same field at every pressure and latitude, whatever the order of their rows and levels *)
Definition same_content (p1 y1 p2 y2 : list R) (sh : list nat) (nx : nat) (a b : dataarray R) : Prop :=
  forall idx k1 j1 k2 j2 i, in_shape sh idx -> (k1 < length p1)%nat -> (j1 < length y1)%nat -> (k2 < length p2)%nat -> (j2 < length y2)%nat -> (i < nx)%nat ->
    nth k1 p1 0 = nth k2 p2 0 -> nth j1 y1 0 = nth j2 y2 0 -> da_at a (idx ++ [k1; j1; i]) = da_at b (idx ++ [k2; j2; i]).
Lemma same_up y1 y2 : monotonic y1 -> y2 = y1 \/ y2 = rev y1 -> up y2 = up y1.
Proof.
  intros M [-> | ->]; [reflexivity|]. destruct (Nat.le_gt_cases (length y1) 1) as [L|L].
  { destruct y1 as [|a [|b y1]]; try reflexivity. cbn in L. lia. }
  unfold up. destruct M as [M|M].
  - rewrite (proj2 (ascending_iff y1) M). cbn [negb].
    destruct (is_ascending (rev y1)) eqn:E; cbn [negb]; [|apply rev_involutive].
    exfalso. apply ascending_iff in E. assert (D := rev_decreasing y1 M). specialize (E 0%nat 1%nat ltac:(rewrite rev_length; lia)). specialize (D 0%nat 1%nat ltac:(rewrite rev_length; lia)). lra.
  - assert (D := rev_increasing y1 M). rewrite (proj2 (ascending_iff _) D). cbn [negb].
    destruct (is_ascending y1) eqn:E; cbn [negb]; [|reflexivity].
    exfalso. apply ascending_iff in E. specialize (E 0%nat 1%nat ltac:(lia)). specialize (M 0%nat 1%nat ltac:(lia)). lra.
Qed.
Lemma same_down p1 p2 : monotonic p1 -> p2 = p1 \/ p2 = rev p1 -> down p2 = down p1.
Proof.
  intros M [-> | ->]; [reflexivity|]. destruct (Nat.le_gt_cases (length p1) 1) as [L|L].
  { destruct p1 as [|a [|b p1]]; try reflexivity. cbn in L. lia. }
  unfold down. destruct M as [M|M].
  - assert (D := rev_decreasing p1 M). rewrite (proj2 (descending_iff _) D). cbn [negb].
    destruct (is_descending p1) eqn:E; cbn [negb]; [|reflexivity].
    exfalso. apply descending_iff in E. specialize (E 0%nat 1%nat ltac:(lia)). specialize (M 0%nat 1%nat ltac:(lia)). lra.
  - rewrite (proj2 (descending_iff p1) M). cbn [negb].
    destruct (is_descending (rev p1)) eqn:E; cbn [negb]; [|apply rev_involutive].
    exfalso. apply descending_iff in E. assert (D := rev_increasing p1 M). specialize (E 0%nat 1%nat ltac:(rewrite rev_length; lia)). specialize (D 0%nat 1%nat ltac:(rewrite rev_length; lia)). lra.
Qed.
Lemma reversed_mono l l' : monotonic l -> l' = l \/ l' = rev l -> monotonic l'.
Proof. intros [M|M] [-> | ->]; [left|right|right|left]; auto using rev_increasing, rev_decreasing. Qed.
Lemma label_in (b : bool) (l : list R) k : (k < length l)%nat -> exists k0, (k0 < length l)%nat /\ nth k (if b then rev l else l) 0 = nth k0 l 0.
Proof. intros H. exists (if b then length l - 1 - k else k)%nat. split; [destruct b; lia|]. apply (rev_or). exact H. Qed.
Lemma content_agrees (a b : dataarray R) idx p1 y1 p2 y2 sh nx x y : monotonic p1 -> monotonic y1 -> p2 = p1 \/ p2 = rev p1 -> y2 = y1 \/ y2 = rev y1 ->
  in_shape sh idx -> same_content p1 y1 p2 y2 sh nx a b ->
  holds_field a idx p1 y1 (down p1) (up y1) nx x -> holds_field b idx p2 y2 (down p1) (up y1) nx y -> agrees x y.
Proof.
  intros Mp My Hp Hy Hi C (Sx & Hx) (Sy & Hb). split; [congruence|]. intros i3 H3. rewrite Sx in H3.
  inversion H3 as [|k ? i2 ? Hk H2 E1 E2]; subst. inversion H2 as [|j ? i1 ? Hj H1 E1 E2]; subst. inversion H1 as [|i ? i0 ? Hi0 H0 E1 E2]; subst. inversion H0; subst.
  assert (Lp : length p2 = length p1) by (destruct Hp as [-> | ->]; [reflexivity|apply rev_length]).
  assert (Ly : length y2 = length y1) by (destruct Hy as [-> | ->]; [reflexivity|apply rev_length]).
  assert (Hk' := Hk). assert (Hj' := Hj). rewrite down_length in Hk'. rewrite up_length in Hj'.
  destruct (label_in (negb (is_descending p1)) p1 k Hk') as (k1 & K1 & K2). destruct (label_in (negb (is_ascending y1)) y1 j Hj') as (j1 & J1 & J2).
  destruct (label_in (negb (is_descending p2)) p2 k ltac:(lia)) as (k2 & K3 & K4). destruct (label_in (negb (is_ascending y2)) y2 j ltac:(lia)) as (j2 & J3 & J4).
  fold (down p1) in K2. fold (down p2) in K4. fold (up y1) in J2. fold (up y2) in J4. rewrite (same_down _ _ Mp Hp) in K4. rewrite (same_up _ _ My Hy) in J4.
  rewrite (Hx k j i k1 j1) by assumption. rewrite (Hb k j i k2 j2) by assumption.
  apply C; try assumption; congruence.
Qed.
Theorem C111_orientation_is_immaterial {F : Type} (mk : list R -> list R -> list R -> nd R -> nd R -> nd R -> outcome F)
  user u v t u2 v2 t2 other pn p1 p2 yn y1 y2 xn xlon q q2 :
  NoDup (da_names u) -> da_dims u = other ++ [(pn, p1); (yn, y1); (xn, xlon)] -> da_dims u2 = other ++ [(pn, p2); (yn, y2); (xn, xlon)] ->
  monotonic p1 -> monotonic y1 -> p2 = p1 \/ p2 = rev p1 -> y2 = y1 \/ y2 = rev y1 ->
  same_content p1 y1 p2 y2 (sizes other) (length xlon) u u2 -> same_content p1 y1 p2 y2 (sizes other) (length xlon) v v2 ->
  same_content p1 y1 p2 y2 (sizes other) (length xlon) t t2 ->
  make_dataset mk user u v t = Ok q -> make_dataset mk user u2 v2 t2 = Ok q2 ->
  length (q_fields q2) = length (q_fields q) /\
  forall k f f2, nth_error (q_fields q) k = Some f -> nth_error (q_fields q2) k = Some f2 ->
    exists ylat plev a b c a2 b2 c2, mk xlon ylat plev a b c = Ok f /\ mk xlon ylat plev a2 b2 c2 = Ok f2 /\
      increasing ylat /\ decreasing plev /\ (ylat = y1 \/ ylat = rev y1) /\ (plev = p1 \/ plev = rev p1) /\ agrees a a2 /\ agrees b b2 /\ agrees c c2.
Proof.
  intros Hn Hd Hd2 Mp My Hp Hy Cu Cv Ct H1 H2.
  assert (Hn2 : NoDup (da_names u2)) by (unfold da_names in *; rewrite Hd2, map_app; rewrite Hd, map_app in Hn; exact Hn).
  destruct (make_fields mk user u v t q other pn p1 yn y1 xn xlon Hn Hd Mp My H1) as (O & L & P & Fs).
  destruct (make_fields mk user u2 v2 t2 q2 other pn p2 yn y2 xn xlon Hn2 Hd2 (reversed_mono _ _ Mp Hp) (reversed_mono _ _ My Hy) H2) as (O2 & L2 & P2 & Fs2).
  split; [congruence|]. intros k f f2 Hf Hf2.
  assert (Bk : (k < size_of (sizes other))%nat) by (rewrite <- L; apply nth_error_Some; congruence).
  destruct (unravel_in (sizes other) k Bk) as (Hi & Hk).
  destruct (Fs _ Hi) as (g & a & b & c & Eg & Hmk & Ha & Hb & Hc). destruct (Fs2 _ Hi) as (g2 & a2 & b2 & c2 & Eg2 & Hmk2 & Ha2 & Hb2 & Hc2).
  rewrite Hk in Eg, Eg2. assert (g = f) by congruence. assert (g2 = f2) by congruence. subst g g2.
  rewrite (same_up _ _ My Hy), (same_down _ _ Mp Hp) in *.
  exists (up y1), (down p1), a, b, c, a2, b2, c2. split; [exact Hmk|]. split; [exact Hmk2|].
  split; [apply up_increasing; exact My|]. split; [apply down_decreasing; exact Mp|].
  split; [unfold up; destruct (negb _); auto|]. split; [unfold down; destruct (negb _); auto|].
  split; [exact (content_agrees _ _ _ _ _ _ _ _ _ _ _ Mp My Hp Hy Hi Cu Ha Ha2)|]. split; [exact (content_agrees _ _ _ _ _ _ _ _ _ _ _ Mp My Hp Hy Hi Cv Hb Hb2)|exact (content_agrees _ _ _ _ _ _ _ _ _ _ _ Mp My Hp Hy Hi Ct Hc Hc2)].
Qed.
Print Assumptions C111_orientation_is_immaterial.
Definition case_turned : dataarray R :=
  DA [("time", [10; 20]); ("member", [1; 2; 3]); ("plev", [1000; 100]); ("lat", [-30; 0; 30]); ("lon", [0])]%string
     (fun idx => match idx with [a; b; k; j; i] => INR (ravel [2; 3; 2; 3; 1] [a; b; 1 - k; 2 - j; i])%nat | _ => 0 end).
Example C111_case : same_content [100; 1000] [30; 0; -30] [1000; 100] [-30; 0; 30] [2; 3]%nat 1 case_u case_turned /\
  exists q2, make_dataset case_mk [] case_turned case_turned case_turned = Ok q2.
Proof.
  split.
  - intros idx k1 j1 k2 j2 i Hi. inversion Hi as [|a ? i1 ? Ha H1 E1 E2]; subst. inversion H1 as [|b ? i2 ? Hb H2 E1 E2]; subst. inversion H2; subst. clear.
    cbn [length app case_u case_turned da_at]. intros H1 H2 H3 H4 H5 Ep Ey. f_equal. f_equal.
    assert (k1 = (1 - k2)%nat) by (destruct k1 as [|[|]], k2 as [|[|]]; cbn in Ep; lia || lra).
    assert (j1 = (2 - j2)%nat) by (destruct j1 as [|[|[|]]], j2 as [|[|[|]]]; cbn in Ey; lia || lra).
    congruence.
  - unfold make_dataset. cbn -[INR Rltb Reqb ravel unravel]. eexists. rdecide. cbn -[INR Rltb Reqb ravel unravel]. reflexivity.
Qed.

(** ** C57: static stability *)
Definition fields_complete {F : Type} (q : qgds R F) : Prop := (0 < length (q_fields q))%nat /\ length (q_fields q) = size_of (sizes (q_other q)).
Definition field_at {F : Type} (q : qgds R F) (idx : list nat) (f : F) : Prop :=
  in_shape (sizes (q_other q)) idx /\ nth_error (q_fields q) (ravel (sizes (q_other q)) idx) = Some f.
(** the variable called _n holds the southern profile and the one called _s the northern one *)
Theorem C57_labels_exchanged {F : Type} attr (q : qgds R F) kmax (st_s st_n : F -> nat -> R) vars : fields_complete q ->
  static_stability attr kmax (fun f => nhn22_stability false (st_s f) (st_n f)) q = Ok vars ->
  exists dn ds, lookup "static_stability_n" vars = Some dn /\ lookup "static_stability_s" vars = Some ds /\
    forall idx k f, field_at q idx f -> (k < kmax)%nat -> da_at dn (idx ++ [k]) = st_s f k /\ da_at ds (idx ++ [k]) = st_n f k.
Proof.
  intros (Hp & Hl) H. destruct (stability_pair attr q kmax st_s st_n vars Hp Hl H) as (dn & ds & -> & P).
  exists dn, ds. split; [reflexivity|]. split; [reflexivity|]. intros idx k f (Hi & Hf) Hk. exact (P idx k f Hi Hf Hk).
Qed.
Print Assumptions C57_labels_exchanged.
Definition right_label : Prop :=
  forall (F : Type) attr (q : qgds R F) kmax (st_s st_n : F -> nat -> R) vars, fields_complete q ->
  static_stability attr kmax (fun f => nhn22_stability false (st_s f) (st_n f)) q = Ok vars ->
  exists dn, lookup "static_stability_n" vars = Some dn /\
    forall idx k f, field_at q idx f -> (k < kmax)%nat -> da_at dn (idx ++ [k]) = st_n f k.
Definition two_profiles : qgds R ((nat -> R) * (nat -> R)) := QGDS [((fun _ => 1), (fun _ => 2))] [].
Lemma two_profiles_ok : exists vars, static_stability (fun _ _ => [0; 1]) 2 (fun f => nhn22_stability false (fst f) (snd f)) two_profiles = Ok vars.
Proof. eexists. vm_compute. reflexivity. Qed.
Theorem C57_labels_refuted : ~ right_label.
Proof.
  intros H. destruct two_profiles_ok as (vars & Hv).
  assert (Hc : fields_complete two_profiles) by (split; [cbn; lia|reflexivity]).
  destruct (H _ _ _ _ _ _ _ Hc Hv) as (dn & Ln & P).
  destruct (C57_labels_exchanged _ _ _ _ _ _ Hc Hv) as (dn' & ds & Ln' & _ & P'). assert (dn' = dn) by congruence. subst dn'.
  assert (Hf : field_at two_profiles [] ((fun _ => 1), (fun _ => 2))) by (split; [constructor|reflexivity]).
  specialize (P [] 0%nat _ Hf ltac:(lia)). destruct (P' [] 0%nat _ Hf ltac:(lia)) as (P1 & _). cbn [fst snd app] in *. lra.
Qed.
Print Assumptions C57_labels_refuted.
(** a single profile (QGFieldNH18, or QGFieldNHN22 for the northern hemisphere only) is stored under the name static_stability *)
Theorem C57_single_profile_partial {F : Type} attr (q : qgds R F) kmax (st_s st_n : F -> nat -> R) vars : fields_complete q ->
  (static_stability attr kmax (fun f => nhn22_stability true (st_s f) (st_n f)) q = Ok vars \/ static_stability attr kmax (fun f => nh18_stability (st_n f)) q = Ok vars) ->
  exists d, vars = [("static_stability"%string, d)] /\ forall idx k f, field_at q idx f -> (k < kmax)%nat -> da_at d (idx ++ [k]) = st_n f k.
Proof.
  intros (Hp & Hl) H. assert (H' : static_stability attr kmax (fun f => One (st_n f)) q = Ok vars) by (destruct H as [H|H]; exact H).
  destruct (stability_one attr q kmax st_n vars Hp Hl H') as (d & -> & P). exists d. split; [reflexivity|]. intros idx k f (Hi & Hf) Hk. exact (P idx k f Hi Hf Hk).
Qed.
Print Assumptions C57_single_profile_partial.
Example C57_case : fields_complete two_profiles /\ field_at two_profiles [] ((fun _ => 1), (fun _ => 2)) /\
  exists d, static_stability (fun _ _ => [0; 1]) 2 (fun f => nhn22_stability true (fst f) (snd f)) two_profiles = Ok [("static_stability"%string, d)].
Proof. split; [split; [cbn; lia|reflexivity]|]. split; [split; [constructor|reflexivity]|]. eexists. vm_compute. reflexivity. Qed.

(** ** C59: the integrated budget *)
Theorem C59_budget_closes n ticks rate (lwa czaf demf mhf : nat -> R) : (0 < n)%nat -> distinct_dates n ticks ->
  exists b, integrate_budget n ticks rate lwa czaf demf mhf = Ok b /\
    delta_lwa b = lwa (n - 1)%nat - lwa 0%nat /\ int_czaf b + int_demf b + int_mhf b + residual b = delta_lwa b.
Proof.
  intros Hn Hd. destruct (budget_value n ticks rate lwa czaf demf mhf Hd Hn) as (b & Hb & H1 & _ & _ & _ & H2 & _).
  exists b. split; [exact Hb|]. split; [exact H1|]. rewrite H2. ring.
Qed.
Print Assumptions C59_budget_closes.
(** adjacent windows sharing a time step: steps 0..a and a..a+b *)
Theorem C59_windows_add a b ticks rate (lwa czaf demf mhf : nat -> R) : distinct_dates (a + b + 1) ticks ->
  exists whole first second,
    integrate_budget (a + b + 1) ticks rate lwa czaf demf mhf = Ok whole /\
    integrate_budget (a + 1) ticks rate lwa czaf demf mhf = Ok first /\
    integrate_budget (b + 1) (fun i => ticks (a + i)%nat) rate (fun i => lwa (a + i)%nat) (fun i => czaf (a + i)%nat) (fun i => demf (a + i)%nat) (fun i => mhf (a + i)%nat) = Ok second /\
    delta_lwa whole = delta_lwa first + delta_lwa second /\ int_czaf whole = int_czaf first + int_czaf second /\
    int_demf whole = int_demf first + int_demf second /\ int_mhf whole = int_mhf first + int_mhf second /\
    residual whole = residual first + residual second /\ seconds whole = seconds first + seconds second.
Proof.
  intros Hd.
  destruct (budget_value (a + b + 1) ticks rate lwa czaf demf mhf Hd ltac:(lia)) as (w & Hw & W1 & W2 & W3 & W4 & W5 & W6).
  assert (D1 : distinct_dates (a + 1) ticks) by (intros i j Hi Hj; apply Hd; lia).
  destruct (budget_value (a + 1) ticks rate lwa czaf demf mhf D1 ltac:(lia)) as (f & Hf & F1 & F2 & F3 & F4 & F5 & F6).
  assert (D2 : distinct_dates (b + 1) (fun i => ticks (a + i)%nat)).
  { intros i j Hi Hj E. assert (K : (a + i)%nat = (a + j)%nat) by (apply Hd; [lia|lia|exact E]). lia. }
  destruct (budget_value (b + 1) (fun i => ticks (a + i)%nat) rate (fun i => lwa (a + i)%nat) (fun i => czaf (a + i)%nat) (fun i => demf (a + i)%nat) (fun i => mhf (a + i)%nat) D2 ltac:(lia))
    as (s & Hs & S1 & S2 & S3 & S4 & S5 & S6).
  exists w, f, s. split; [exact Hw|]. split; [exact Hf|]. split; [exact Hs|].
  replace (a + b + 1 - 1)%nat with (a + b)%nat in * by lia. replace (a + 1 - 1)%nat with a in * by lia. replace (b + 1 - 1)%nat with b in * by lia.
  rewrite Nat.add_0_r in *. rewrite trapezoid_split in W2, W3, W4. cbv beta in *.
  rewrite <- F2, <- S2 in W2. rewrite <- F3, <- S3 in W3. rewrite <- F4, <- S4 in W4.
  rewrite W5, F5, S5, W6, F6, S6, W1, W2, W3, W4, F1, S1, !minus_IZR. repeat split; lra.
Qed.
Print Assumptions C59_windows_add.
(** a tendency that is linear in time is integrated exactly, and a tendency between m and M integrates to between m and M per second *)
Theorem C59_linear_tendency_exact n ticks rate (lwa czaf demf mhf : nat -> R) c d : (0 < n)%nat -> distinct_dates n ticks ->
  (forall i, (i < n)%nat -> czaf i = c + d * (IZR (ticks i) / IZR rate)) ->
  exists b, integrate_budget n ticks rate lwa czaf demf mhf = Ok b /\
    (let t0 := IZR (ticks 0%nat) / IZR rate in let t1 := IZR (ticks (n - 1)%nat) / IZR rate in int_czaf b = c * (t1 - t0) + d * (t1 ^ 2 - t0 ^ 2) / 2).
Proof.
  intros Hn Hd Hf. destruct (budget_value n ticks rate lwa czaf demf mhf Hd Hn) as (b & Hb & _ & H2 & _).
  exists b. split; [exact Hb|]. cbv zeta. rewrite H2. apply (trapezoid_linear n (fun i => IZR (ticks i) / IZR rate)); assumption.
Qed.
Print Assumptions C59_linear_tendency_exact.
Theorem C59_integral_between n ticks rate (lwa czaf demf mhf : nat -> R) m M : (0 < n)%nat -> (0 < rate)%Z -> (forall i, (i + 1 < n)%nat -> (ticks i < ticks (i + 1)%nat)%Z) ->
  (forall i, (i < n)%nat -> m <= czaf i <= M) ->
  exists b, integrate_budget n ticks rate lwa czaf demf mhf = Ok b /\
    (let span := (IZR (ticks (n - 1)%nat) - IZR (ticks 0%nat)) / IZR rate in m * span <= int_czaf b <= M * span).
Proof.
  intros Hn Hrate Hinc Hf.
  assert (Hlt : forall i j, (i < j)%nat -> (j < n)%nat -> (ticks i < ticks j)%Z).
  { intros i j Hij. induction Hij as [|j Hij IH]; intros Hj.
    - specialize (Hinc i). replace (i + 1)%nat with (S i) in Hinc by lia. apply Hinc. lia.
    - specialize (Hinc j). replace (j + 1)%nat with (S j) in Hinc by lia. specialize (Hinc Hj). specialize (IH ltac:(lia)). lia. }
  assert (Hd : distinct_dates n ticks).
  { intros i j Hi Hj E. destruct (Nat.lt_trichotomy i j) as [L|[L|L]]; [specialize (Hlt i j L Hj); lia|exact L|specialize (Hlt j i L Hi); lia]. }
  destruct (budget_value n ticks rate lwa czaf demf mhf Hd Hn) as (b & Hb & _ & H2 & _). exists b. split; [exact Hb|]. cbv zeta. rewrite H2.
  assert (Hr : 0 < IZR rate) by (apply IZR_lt; exact Hrate).
  assert (T := trapezoid_between n (fun i => IZR (ticks i) / IZR rate) czaf m M). cbv beta in T.
  replace ((IZR (ticks (n - 1)%nat) - IZR (ticks 0%nat)) / IZR rate) with (IZR (ticks (n - 1)%nat) / IZR rate - IZR (ticks 0%nat) / IZR rate) by (field; lra).
  apply T; [|exact Hf|exact Hn]. intros i Hi. apply Rmult_le_compat_r; [apply Rlt_le, Rinv_0_lt_compat, Hr|]. apply IZR_le. specialize (Hinc i Hi). lia.
Qed.
Print Assumptions C59_integral_between.
Definition three_dates (i : nat) : Z := nth i [0; 21600000000000; 64800000000000]%Z 0%Z.
Example C59_case : distinct_dates 3 three_dates /\ (forall i, (i + 1 < 3)%nat -> (three_dates i < three_dates (i + 1)%nat)%Z) /\
  (forall i, (i < 3)%nat -> INR i + 1 <= INR i + 1 <= 3) /\
  exists b, integrate_budget 3 three_dates 1000000000 (fun i => INR i) (fun i => INR i + 1) (fun _ => 0) (fun _ => -1) = Ok b /\ int_czaf b = 1.5 * 21600 + 2.5 * 43200.
Proof.
  assert (D : distinct_dates 3 three_dates) by (intros [|[|[|i]]] [|[|[|j]]] Hi Hj E; cbn in E; lia).
  split; [exact D|]. split; [intros [|[|i]] Hi; cbn; lia|].
  split; [intros [|[|[|i]]] Hi; cbn; lia || lra|].
  destruct (budget_value 3 three_dates 1000000000 (fun i => INR i) (fun i => INR i + 1) (fun _ => 0) (fun _ => -1) D ltac:(lia)) as (b & Hb & _ & H2 & _).
  exists b. split; [exact Hb|]. rewrite H2. unfold trapezoid. cbn. lra.
Qed.

(** ** C112: the length of the window *)
(** correct when dates are counted in nanoseconds *)
Theorem C112_seconds_partial n ticks (lwa czaf demf mhf : nat -> R) b : (0 < n)%nat -> distinct_dates n ticks ->
  integrate_budget n ticks 1000000000 lwa czaf demf mhf = Ok b ->
  seconds b = IZR (ticks (n - 1)%nat) / 1000000000 - IZR (ticks 0%nat) / 1000000000.
Proof.
  intros Hn Hd Hb. destruct (budget_value n ticks 1000000000 lwa czaf demf mhf Hd Hn) as (b' & Hb' & _ & _ & _ & _ & _ & H). assert (b' = b) by congruence. subst b'.
  rewrite H, minus_IZR. field.
Qed.
Print Assumptions C112_seconds_partial.
Example C112_case : exists b, integrate_budget 3 three_dates 1000000000 (fun i => INR i) (fun i => INR i + 1) (fun _ => 0) (fun _ => -1) = Ok b /\ seconds b = 64800.
Proof.
  destruct C59_case as (D & _ & _ & b & Hb & _). exists b. split; [exact Hb|]. rewrite (C112_seconds_partial 3 three_dates _ _ _ _ b ltac:(lia) D Hb). cbn. lra.
Qed.
Definition seconds_right : Prop := forall n ticks rate (lwa czaf demf mhf : nat -> R) b, (0 < n)%nat -> (0 < rate)%Z -> distinct_dates n ticks ->
  integrate_budget n ticks rate lwa czaf demf mhf = Ok b -> seconds b = (IZR (ticks (n - 1)%nat) - IZR (ticks 0%nat)) / IZR rate.
(** dates counted in seconds: an hour is reported as 3.6e-6 seconds *)
Theorem C112_seconds_refuted : ~ seconds_right.
Proof.
  intros H. set (ticks := fun i => (3600 * Z.of_nat i)%Z).
  assert (D : distinct_dates 2 ticks) by (intros i j _ _ E; unfold ticks in E; lia).
  destruct (budget_value 2 ticks 1 (fun _ => 0) (fun _ => 0) (fun _ => 0) (fun _ => 0) D ltac:(lia)) as (b & Hb & _ & _ & _ & _ & _ & S0).
  specialize (H 2%nat ticks 1%Z _ _ _ _ b ltac:(lia) ltac:(lia) D Hb). rewrite S0 in H. unfold ticks in H. cbn in H. lra.
Qed.
Print Assumptions C112_seconds_refuted.

(** ** C60: both hemispheres from one *)
Theorem C60_mirror_extension {X : Type} (negate : X -> X) coord_name user (s g : latset R X) :
  hemisphere_to_globe negate coord_name user s = Ok g ->
  mirror_extension negate (resolves (in_dataset coord_name s) NAMES_V user) s g.
Proof. apply globe_extends. Qed.
Print Assumptions C60_mirror_extension.
Lemma not_empty {X : Type} (negate : X -> X) coord_name user (s g : latset R X) : hemisphere_to_globe negate coord_name user s = Ok g -> (0 < length (ls_lat s))%nat.
Proof.
  unfold hemisphere_to_globe. intros H. apply bind_ok in H. destruct H as (yn & _ & H). apply check_ok in H; [|discriminate]. destruct H as (_ & H).
  destruct (ls_lat s); [discriminate|cbn; lia].
Qed.
(** latitudes are symmetric, their order is kept, the equator occurs once *)
Theorem C60_latitudes {X : Type} (negate : X -> X) coord_name user (s g : latset R X) :
  hemisphere_to_globe negate coord_name user s = Ok g ->
  let n := length (ls_lat s) in
  (forall j, (j < 2 * n - 1)%nat -> j <> (n - 1)%nat -> nth (2 * (n - 1) - j) (ls_lat g) 0 = - nth j (ls_lat g) 0) /\
  ((forall j, (j < n)%nat -> near_equator (nth j (ls_lat s) 0) -> nth j (ls_lat s) 0 = 0) ->
     (increasing (ls_lat s) -> increasing (ls_lat g)) /\ (decreasing (ls_lat s) -> decreasing (ls_lat g))) /\
  ((forall i j, (i < n)%nat -> (j < n)%nat -> near_equator (nth i (ls_lat s) 0) -> near_equator (nth j (ls_lat s) 0) -> i = j) ->
     forall j, (j < 2 * n - 1)%nat -> (near_equator (nth j (ls_lat g) 0) <-> j = (n - 1)%nat)).
Proof.
  intros H n. assert (M := globe_extends negate coord_name user s g H). assert (Hn := not_empty _ _ _ _ _ H).
  split; [apply (extension_symmetric negate _ s g Hn M)|]. split; [apply (extension_increasing negate _ s g Hn M)|].
  intros Hu j Hj. destruct M as (o & Ho & Lg & _ & He & H1 & H2 & _). fold n in Ho, Lg, He, H1, H2, Hn. split; [|intros ->; exact He]. intros Hnear.
  destruct (Nat.eq_dec j (n - 1)) as [|Hj']; [assumption|exfalso].
  destruct Ho as [-> | ->].
  - assert (En := H1 (n - 1)%nat ltac:(lia)). cbn [Nat.add] in En. rewrite En in He.
    destruct (Nat.lt_ge_cases j n) as [L|L].
    + assert (Ej := H1 j L). cbn [Nat.add] in Ej. rewrite Ej in Hnear. apply Hj'. apply Hu; auto; lia.
    + specialize (H2 (2 * (n - 1) - j)%nat ltac:(lia) ltac:(lia)). cbn [Nat.add] in H2. replace (2 * (n - 1) - (2 * (n - 1) - j))%nat with j in H2 by lia.
      unfold near_equator in *. rewrite H2, Rabs_Ropp in Hnear. assert ((2 * (n - 1) - j)%nat = (n - 1)%nat) by (apply Hu; auto; lia). lia.
  - assert (En := H1 0%nat ltac:(lia)). rewrite Nat.add_0_r in En. rewrite En in He.
    destruct (Nat.lt_ge_cases j n) as [L|L].
    + specialize (H2 (n - 1 - j)%nat ltac:(lia) ltac:(lia)). replace (2 * (n - 1) - (n - 1 + (n - 1 - j)))%nat with j in H2 by lia.
      unfold near_equator in *. rewrite H2, Rabs_Ropp in Hnear. assert ((n - 1 - j)%nat = 0%nat) by (apply Hu; auto; lia). lia.
    + assert (Ej := H1 (j - (n - 1))%nat ltac:(lia)). replace (n - 1 + (j - (n - 1)))%nat with j in Ej by lia. rewrite Ej in Hnear.
      assert ((j - (n - 1))%nat = 0%nat) by (apply Hu; auto; lia). lia.
Qed.
Print Assumptions C60_latitudes.
(** every hemisphere with different latitudes that begins or ends at the equator is accepted, any other is refused *)
Theorem C60_accepts {X : Type} (negate : X -> X) coord_name user (s : latset R X) y0 l0 : ls_lat s = y0 :: l0 -> NoDup (ls_lat s) ->
  resolves (in_dataset coord_name s) NAMES_YLAT user coord_name ->
  (near_equator y0 \/ near_equator (last (ls_lat s) 0) -> exists g, hemisphere_to_globe negate coord_name user s = Ok g) /\
  (~ near_equator y0 -> ~ near_equator (last (ls_lat s) 0) -> hemisphere_to_globe negate coord_name user s = AssertErr).
Proof.
  intros El Hd Hr. apply get_name_ok in Hr; [|discriminate]. unfold hemisphere_to_globe.
  change (fun n : string => (n =? coord_name)%string || existsb (fun v : string * (nat -> X) => (n =? fst v)%string) (ls_vars s)) with (in_dataset coord_name s).
  rewrite Hr. cbn [bind]. rewrite String.eqb_refl. cbn [check].
  assert (Hrows : forall l, (forall x, In x l -> In x (ls_lat s)) -> exists rows, reindex s l = Ok rows).
  { intros l. induction l as [|x l IH]; intros Hin; [exists []; reflexivity|].
    destruct IH as (rows & Hrows); [intros z Hz; apply Hin; right; exact Hz|].
    destruct (positions_nodup x (ls_lat s) Hd) as [P|(p & P & _)].
    - exfalso. destruct (In_nth_error _ _ (Hin x (or_introl eq_refl))) as (p & Hp). apply positions_in in Hp. rewrite P in Hp. exact Hp.
    - exists (p :: rows). unfold reindex in *. cbn [traverse]. rewrite P. cbn [bind]. rewrite Hrows. reflexivity. }
  rewrite El. rewrite <- El. split.
  - intros He. assert (E : is_equator y0 || is_equator (last (ls_lat s) 0) = true).
    { apply orb_true_iff. rewrite !is_equator_iff. exact He. }
    cbn [nzero RNum]. rewrite E. cbn [check].
    destruct (Hrows (flipped_noeq (is_equator y0) (ls_lat s))) as (rows & Er).
    { intros x. unfold flipped_noeq. destruct (is_equator y0); rewrite <- in_rev.
      - rewrite El. cbn. auto.
      - clear. induction (ls_lat s) as [|a l IH]; [cbn; tauto|]. destruct l as [|b l]; [cbn; tauto|].
        change (removelast (a :: b :: l)) with (a :: removelast (b :: l)). intros [->|Hx]; [left; reflexivity|right; apply IH; exact Hx]. }
    rewrite Er. cbn [bind]. eexists. reflexivity.
  - intros H1 H2. assert (E : is_equator y0 || is_equator (last (ls_lat s) 0) = false).
    { apply orb_false_iff. split; apply not_true_iff_false; rewrite is_equator_iff; assumption. }
    cbn [nzero RNum]. rewrite E. reflexivity.
Qed.
Print Assumptions C60_accepts.
Definition case_hemi : latset R R := LS [60; 30; 0] [("u", fun j => INR j + 1); ("V", fun j => INR j + 5)]%string.
Example C60_case : NoDup (ls_lat case_hemi) /\ resolves (in_dataset "latitude" case_hemi) NAMES_YLAT None "latitude" /\
  exists g, hemisphere_to_globe Ropp "latitude" None case_hemi = Ok g /\ ls_lat g = [60; 30; 0; -30; -60] /\
    exists y, nth_error (ls_vars g) 1 = Some ("V"%string, y) /\ y 4%nat = - 5 /\ y 2%nat = 7.
Proof.
  split; [repeat (constructor; [cbn; intuition lra|]); constructor|]. split; [apply get_name_ok; [discriminate|reflexivity]|].
  unfold hemisphere_to_globe, is_equator, reindex, positions. cbn -[INR Rltb Reqb].
  replace (Rltb (Rabs 60) (1 / 10000)) with false by (symmetry; apply not_true_iff_false; rewrite Rltb_true, Rabs_right by lra; lra).
  replace (Rltb (Rabs 0) (1 / 10000)) with true by (symmetry; apply Rltb_true; rewrite Rabs_R0; lra).
  cbn -[INR Rltb Reqb]. rdecide. cbn -[INR Rltb Reqb]. eexists. split; [reflexivity|]. cbn -[INR]. split; [reflexivity|].
  eexists. split; [reflexivity|]. cbn -[INR]. cbn [INR]. split; lra.
Qed.

(** ** C113: kinds of arguments *)
(** with a dataset for u, the arrays for v and t come from their own argument if there is one, else from that dataset *)
Theorem C113_mixed_arguments_partial {F : Type} (mk : list R -> list R -> list R -> nd R -> nd R -> nd R -> outcome F) user ds v t q :
  new_dataset mk user (ADataset ds) v t = Ok q ->
  let chosen names (s : option (source R)) (a : dataarray R) :=
    match s with
    | Some (ADataArray x) => a = x
    | Some (ADataset vars) => exists n, resolves (fun n => match lookup n vars with Some _ => true | None => false end) names (Some (match user with Some d => d | None => [] end)) n /\ lookup n vars = Some a
    | None => exists n, resolves (fun n => match lookup n ds with Some _ => true | None => false end) names (Some (match user with Some d => d | None => [] end)) n /\ lookup n ds = Some a
    end in
  exists au av at_, chosen NAMES_U None au /\ chosen NAMES_V v av /\ chosen NAMES_T t at_ /\
    make_dataset mk (match user with Some d => d | None => [] end) au av at_ = Ok q.
Proof.
  assert (G : forall names (vars : list (string * dataarray R)) us a, names <> [] -> get_var vars names us = Ok a ->
    exists n, resolves (fun n => match lookup n vars with Some _ => true | None => false end) names (Some us) n /\ lookup n vars = Some a).
  { intros names vars us a Hn H. unfold get_var in H. apply bind_ok in H. destruct H as (n & Hg & H). apply get_name_ok in Hg; [|exact Hn].
    exists n. split; [exact Hg|]. destruct (lookup n vars); [congruence|discriminate]. }
  intros H chosen. unfold new_dataset in H. set (us := match user with Some d => d | None => [] end) in *.
  apply bind_ok in H; destruct H as (av & Hv & H). apply bind_ok in H; destruct H as (at_ & Ht & H). apply bind_ok in H; destruct H as (au & Hu & H).
  exists au, av, at_. split; [apply G; [discriminate|exact Hu]|]. split; [|split; [|exact H]].
  - destruct v as [[vars|x]|]; cbn in Hv |- *; [apply G; [discriminate|exact Hv]|congruence|apply G; [discriminate|exact Hv]].
  - destruct t as [[vars|x]|]; cbn in Ht |- *; [apply G; [discriminate|exact Ht]|congruence|apply G; [discriminate|exact Ht]].
Qed.
Print Assumptions C113_mixed_arguments_partial.
(** the same three arrays are refused when u is given as an array and v as a dataset *)
Definition mixed_accepted : Prop := forall (F : Type) (mk : list R -> list R -> list R -> nd R -> nd R -> nd R -> outcome F) au av at_ q,
  make_dataset mk [] au av at_ = Ok q -> new_dataset mk None (ADataArray au) (Some (ADataset [("v"%string, av)])) (Some (ADataArray at_)) = Ok q.
Theorem C113_mixed_arguments_refuted : ~ mixed_accepted.
Proof.
  intros H. destruct (proj2 C111_case) as (q & Hq). specialize (H _ _ _ _ _ _ Hq). discriminate.
Qed.
Print Assumptions C113_mixed_arguments_refuted.
Example C113_case : exists q, new_dataset case_mk None (ADataset [("u", case_turned); ("T", case_turned)]%string) (Some (ADataset [("V", case_turned)]%string)) None = Ok q.
Proof. destruct (proj2 C111_case) as (q & Hq). exists q. exact Hq. Qed.

(** ** C114: forcing from heating *)
(** In the northern-only mode the field returns all rows while the dataset expects those of the northern hemisphere *)
Theorem C114_forcing_shape_partial {F : Type} attr (q : qgds R F) (heat : F -> dataarray R -> outcome (nd R)) rate d f0 fs :
  q_fields q = f0 :: fs -> length (q_fields q) = size_of (sizes (q_other q)) -> NoDup (da_names rate) -> (forall e l, lookup e (da_dims rate) = Some l -> NoDup l) ->
  (forall f s x, heat f s = Ok x -> length (nd_shape x) = 3%nat) ->
  compute_ncforce attr heat q rate = Ok d ->
  da_dims d = q_other q ++ [("height", attr f0 "height"); ("ylat", attr f0 "ylat_ref_states"); ("xlon", attr f0 "xlon")]%string /\
  forall idx f c, field_at q idx f -> in_shape [length (attr f0 "height"); length (attr f0 "ylat_ref_states"); length (attr f0 "xlon")]%string c ->
    exists s x, part_of (coord_at (q_other q) idx) rate s /\ heat f s = Ok x /\ da_at d (idx ++ c) = nd_at x c /\
      nd_shape x = [length (attr f0 "height"); length (attr f0 "ylat_ref_states"); length (attr f0 "xlon")]%string.
Proof.
  intros Hf Hl Hn Hlab Hr H. unfold compute_ncforce in H. apply bind_ok in H; destruct H as (l & Hlist & H). apply bind_ok in H; destruct H as (a & Ha & H).
  apply traverse_ok in Hlist. assert (L := F2_length _ _ _ Hlist). rewrite combine_length, iter_length, <- Hl, Nat.min_id in L.
  assert (Hc : core_coords attr q "ncforce" = Ok [("height", attr f0 "height"); ("ylat", attr f0 "ylat_ref_states"); ("xlon", attr f0 "xlon")]%string).
  { unfold core_coords. rewrite Hf. reflexivity. }
  assert (Rk : forall x, In x l -> length (nd_shape x) = 3%nat).
  { intros x Hx. apply In_nth_error in Hx. destruct Hx as (k & Hk).
    destruct (nth_error (combine (q_fields q) (iter_other q)) k) as [fc|] eqn:E.
    - assert (K := Forall2_nth _ _ _ Hlist _ _ _ E Hk). cbv beta in K. apply bind_ok in K. destruct K as (s & _ & K). exact (Hr _ _ _ K).
    - apply nth_error_None in E. rewrite combine_length, iter_length, <- Hl, Nat.min_id in E. assert (k < length l)%nat by (apply nth_error_Some; congruence). lia. }
  destruct (as_dataarray_at attr q l a "ncforce" d _ ltac:(congruence) ltac:(rewrite <- L, Hf; cbn; lia) Hc Rk Ha H) as (D & P).
  split; [exact D|]. intros idx f c (Hi & Hfi) Hcc.
  destruct (nth_error l (ravel (sizes (q_other q)) idx)) as [x|] eqn:Ex.
  - assert (K := Forall2_nth _ _ _ Hlist _ _ _ (combine_nth_error _ _ _ _ _ Hfi (iter_at q idx Hi)) Ex). cbn [fst snd] in K.
    apply bind_ok in K. destruct K as (s & Hs & K). destruct (P idx c x Hi Hcc Ex) as (P1 & P2).
    exists s, x. split; [apply sel_part; assumption|]. auto.
  - apply nth_error_None in Ex. assert (ravel (sizes (q_other q)) idx < length (q_fields q))%nat by (apply nth_error_Some; congruence). lia.
Qed.
Print Assumptions C114_forcing_shape_partial.
Theorem C114_northern_only_refuted {F : Type} attr (q : qgds R F) (heat : F -> dataarray R -> outcome (nd R)) rate f0 fs kmax nlat nlon :
  q_fields q = f0 :: fs -> length (q_fields q) = size_of (sizes (q_other q)) ->
  (* the method returns the whole globe, the reference states and so the dataset have fewer rows *)
  (forall f s x, heat f s = Ok x -> nd_shape x = [kmax; nlat; nlon]) -> (length (attr f0 "ylat_ref_states"%string) < nlat)%nat ->
  forall d, compute_ncforce attr heat q rate <> Ok d.
Proof.
  intros Hf Hl Hh Hlt d H. unfold compute_ncforce in H. apply bind_ok in H; destruct H as (l & Hlist & H). apply bind_ok in H; destruct H as (a & Ha & H).
  apply traverse_ok in Hlist. assert (L := F2_length _ _ _ Hlist). rewrite combine_length, iter_length, <- Hl, Nat.min_id in L.
  assert (Sh : forall x, In x l -> nd_shape x = [kmax; nlat; nlon]).
  { intros x Hx. apply In_nth_error in Hx. destruct Hx as (k & Hk).
    destruct (nth_error (combine (q_fields q) (iter_other q)) k) as [fc|] eqn:E.
    - assert (K := Forall2_nth _ _ _ Hlist _ _ _ E Hk). cbv beta in K. apply bind_ok in K. destruct K as (s & _ & K). exact (Hh _ _ _ K).
    - apply nth_error_None in E. rewrite combine_length, iter_length, <- Hl, Nat.min_id in E. assert (k < length l)%nat by (apply nth_error_Some; congruence). lia. }
  assert (Hc : core_coords attr q "ncforce" = Ok [("height", attr f0 "height"); ("ylat", attr f0 "ylat_ref_states"); ("xlon", attr f0 "xlon")]%string).
  { unfold core_coords. rewrite Hf. reflexivity. }
  assert (Hpos : (0 < length l)%nat) by (rewrite <- L, Hf; cbn; lia).
  destruct (asarray_at l a Ha Hpos) as (x0 & Ix & Sa & _). rewrite (Sh x0 Ix) in Sa.
  unfold as_dataarray in H. rewrite Hc in H. cbn [bind] in H. apply bind_ok in H. destruct H as (b & Hb & H).
  apply check_ok in H; [|discriminate]. destruct H as (Hs & _). apply shape_eqb_true in Hs. rewrite map_app in Hs. fold (sizes (q_other q)) in Hs.
  assert (G : exists pre, nd_shape b = pre ++ [kmax; nlat; nlon] /\ length pre = length (sizes (q_other q))).
  { destruct (shape_eqb (nd_shape a) _) eqn:Es.
    - injection Hb as <-. exists [length l]. split; [exact Sa|]. rewrite Sa in Hs. apply (f_equal (@length nat)) in Hs. rewrite app_length in Hs. cbn in Hs |- *. lia.
    - unfold restore_other in Hb. apply check_ok in Hb; [|discriminate]. destruct Hb as (_ & Hb). rewrite Sa in Hb. cbn [tl] in Hb. apply reshape_shape in Hb.
      exists (sizes (q_other q)). split; [exact Hb|reflexivity]. }
  destruct G as (pre & G1 & G2). rewrite G1 in Hs. cbn [map snd] in Hs.
  assert (E : pre = sizes (q_other q) /\ [kmax; nlat; nlon] = [length (attr f0 "height"); length (attr f0 "ylat_ref_states"); length (attr f0 "xlon")]%string).
  { clear - Hs G2. revert Hs G2. generalize (sizes (q_other q)). induction pre as [|p pre IH]; intros [|n l] H1 H2; try discriminate; cbn [app] in H1; [split; [reflexivity|exact H1]|].
    injection H1 as -> H1. destruct (IH l H1 ltac:(cbn in H2; lia)) as (-> & E). split; [reflexivity|exact E]. }
  destruct E as (_ & E). injection E as _ E _. lia.
Qed.
Print Assumptions C114_northern_only_refuted.
Definition case_attr (rows : list R) (_ : unit) (n : string) : list R :=
  if (n =? "height")%string then [0; 1000] else if (n =? "ylat_ref_states")%string then rows else [0; 180].
Definition case_heat (_ : unit) (_ : dataarray R) : outcome (nd R) := Ok (ND [2; 3; 2]%nat (fun idx => INR (ravel [2; 3; 2] idx)%nat)).
Definition case_rate : dataarray R := DA [("time", [6; 7]); ("plev", [1000]); ("lat", [-90; 0; 90]); ("lon", [0; 180])]%string (fun _ => 1).
Definition case_two : qgds R unit := QGDS [tt; tt] [("time", [6; 7])]%string.
(** the whole globe: the forcing of both times comes back; northern hemisphere only: there is no result *)
Example C114_case : NoDup (da_names case_rate) /\ (forall e l, lookup e (da_dims case_rate) = Some l -> NoDup l) /\
  (forall f s x, case_heat f s = Ok x -> nd_shape x = [2; 3; 2]%nat) /\
  (exists d, compute_ncforce (case_attr [-90; 0; 90]) case_heat case_two case_rate = Ok d) /\
  (forall d, compute_ncforce (case_attr [0; 90]) case_heat case_two case_rate <> Ok d).
Proof.
  split; [repeat (constructor; [cbn; intuition discriminate|]); constructor|].
  assert (Hh : forall f s x, case_heat f s = Ok x -> nd_shape x = [2; 3; 2]%nat) by (intros f s x E; injection E as <-; reflexivity).
  split; [|split; [exact Hh|split]].
  - intros e l. cbn. repeat (match goal with |- context [if ?b then _ else _] => destruct b end; [intros E; injection E as <-; repeat (constructor; [cbn; intuition lra|]); constructor|]). discriminate.
  - unfold compute_ncforce. cbn -[INR Rltb Reqb ravel unravel]. rdecide. cbn -[INR Rltb Reqb ravel unravel]. eexists. reflexivity.
  - apply (C114_northern_only_refuted (case_attr [0; 90]) case_two case_heat case_rate tt [tt] 2 3 2 eq_refl eq_refl Hh). cbn. lia.
Qed.
