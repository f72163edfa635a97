(** One sweep of the relaxation of compute_reference_states.f90 in any arithmetic, and what missing values do to it in IEEE arithmetic. *)
From Verif Require Import Base Fortran Flux RefStates Ieee.
From Coq Require Import FunctionalExtensionality ZifyNat Lia.
Ltac Zify.zify_post_hook ::= Z.to_euclidean_division_equations.

Lemma range_snoc' lo hi : (lo <= hi + 1)%nat -> range lo (S hi) = range lo hi ++ [S hi].
Proof. intros H. unfold range. replace (S hi + 1 - lo)%nat with (S (hi + 1 - lo)) by lia. rewrite seq_S. f_equal. f_equal. lia. Qed.
Lemma range_none lo hi : (hi < lo)%nat -> range lo hi = [].
Proof. intros H. unfold range. replace (hi + 1 - lo)%nat with O by lia. reflexivity. Qed.
Lemma in_range lo hi x : In x (range lo hi) <-> (lo <= x <= hi)%nat.
Proof. unfold range. rewrite in_seq. lia. Qed.

(** the points visited in sweep n *)
Definition visited (n j k : nat) : bool := Nat.eqb ((j + k) mod 2) (n mod 2).

  Lemma visited_next n j k : visited n j k = true -> visited n (j - 1) k = true -> (1 <= j)%nat -> False.
  Proof. unfold visited. intros H1 H2 Hj. apply Nat.eqb_eq in H1, H2. lia. Qed.
  Lemma visited_before n j k : visited n j k = true -> (1 <= k)%nat -> visited n j (k - 1) = false.
  Proof. unfold visited. intros H Hk. apply Nat.eqb_eq in H. apply Nat.eqb_neq. lia. Qed.
  Lemma visited_S n j k : visited (S n) j k = negb (visited n j k).
  Proof.
    unfold visited. destruct (Nat.eqb_spec ((j + k) mod 2) (n mod 2)); destruct (Nat.eqb_spec ((j + k) mod 2) (S n mod 2)); try reflexivity; exfalso; lia.
  Qed.

Section AnySweep.
  Context {A : Type} {N : Num A} {T : Trunc A}.
  Variable P : rsdims A.
  Variables pv uu pt : arr3 A.
  Variable stat : nat -> A.
  Variables g1 g2 : arr2 A.
  Hypothesis K3 : (3 <= s_kmax P)%nat.
  Hypothesis J3 : (3 <= s_jd P)%nat.
  Local Open Scope num_scope.
  Notation resid := (resid P pv stat).
  Notation ejk := (ejk P stat).
  Notation point := (point P pv stat).
  Notation uz := (uz_top P pt).

  Definition relax (n : nat) (om : A) (u : arr2 A) (j k : nat) : A :=
    if visited n j k then (if neqb (ejk j k) nzero then nzero else u j k - om * resid u j k / ejk j k) else u j k.
  Definition add_resid (n : nat) (u : arr2 A) (j : nat) (s : A) (k : nat) : A := if visited n j k then s + nabs (resid u j k) else s.
  Definition row_norm (n : nat) (u : arr2 A) (s : A) (j : nat) : A := fold_left (add_resid n u j) (range 2 (s_kmax P - 1)) s.
  Definition relax_row (n : nat) (om : A) (u : arr2 A) (j k : nat) : A :=
    if Nat.eqb k (s_kmax P) then (if Nat.eqb (s_kmax P - 2) 1 then nzero else relax n om u j (s_kmax P - 2)) - uz j
    else if Nat.eqb k 1 then nzero else if Nat.leb 2 k && Nat.leb k (s_kmax P - 1) then relax n om u j k else u j k.

  Lemma resid_same u v j k : u (j + 1)%nat k = v (j + 1)%nat k -> u (j - 1)%nat k = v (j - 1)%nat k -> u j (k + 1)%nat = v j (k + 1)%nat ->
    u j (k - 1)%nat = v j (k - 1)%nat -> u j k = v j k -> resid u j k = resid v j k.
  Proof. intros E1 E2 E3 E4 E5. unfold RefStates.resid. rewrite E1, E2, E3, E4, E5. reflexivity. Qed.

  Lemma inner_any n om u u0 s0 j m : (2 <= j)%nat -> (m <= s_kmax P - 1)%nat ->
    (forall k, u0 j k = u j k) -> (forall k, u0 (j + 1)%nat k = u (j + 1)%nat k) ->
    (forall k, (2 <= k <= s_kmax P - 1)%nat -> visited n j k = true -> u0 (j - 1)%nat k = u (j - 1)%nat k) ->
    fold_left (point n om j) (range 2 m) (u0, s0) =
    ((fun j' k' => if Nat.eqb j' j && (Nat.leb 2 k' && Nat.leb k' m) then relax n om u j k' else u0 j' k'), fold_left (add_resid n u j) (range 2 m) s0).
  Proof.
    intros Hj Hm E0 E1 E2. induction m as [|m IH].
    - rewrite range_none by lia. cbn [fold_left]. f_equal.
      extensionality j'. extensionality k'. destruct (Nat.leb_spec 2 k'), (Nat.leb_spec k' 0); try lia; rewrite ?Bool.andb_false_r; reflexivity.
    - destruct (Nat.eq_dec m 0) as [->|Hm0].
      { rewrite range_none by lia. cbn [fold_left]. f_equal.
        extensionality j'. extensionality k'. destruct (Nat.leb_spec 2 k'), (Nat.leb_spec k' 1); try lia; rewrite ?Bool.andb_false_r; reflexivity. }
      rewrite range_snoc' by lia. rewrite !fold_left_app, (IH ltac:(lia)). cbn [fold_left]. set (w := fun j' k' => _). set (s1 := fold_left _ _ s0).
      unfold RefStates.point, add_resid. change (Nat.eqb ((j + S m) mod 2) (n mod 2)) with (visited n j (S m)).
      destruct (visited n j (S m)) eqn:C.
      + assert (C4 := visited_before n j (S m) C ltac:(lia)).
        assert (W : forall k', (k' = S m \/ k' = S m + 1 \/ k' = S m - 1)%nat -> w j k' = u j k').
        { intros k' Hk'. unfold w. rewrite Nat.eqb_refl. cbn [andb]. destruct (Nat.leb_spec 2 k'), (Nat.leb_spec k' m); cbn [andb]; try apply E0.
          unfold relax. replace k' with (S m - 1)%nat by lia. rewrite C4. reflexivity. }
        assert (R : resid w j (S m) = resid u j (S m)).
        { apply resid_same; try (apply W; lia).
          - unfold w. destruct (Nat.eqb_spec (j + 1) j); [lia|]. cbn [andb]. apply E1.
          - unfold w. destruct (Nat.eqb_spec (j - 1) j); [lia|]. cbn [andb]. apply E2; [lia|exact C]. }
        rewrite R, (W (S m)) by lia. f_equal.
        extensionality j'. extensionality k'. unfold set2, w. destruct (Nat.eqb_spec j' j) as [->|]; cbn [andb]; [|reflexivity].
        destruct (Nat.eqb_spec k' (S m)) as [->|Hk'].
        * destruct (Nat.leb_spec 2 (S m)); [|lia]. destruct (Nat.leb_spec (S m) (S m)); [|lia]. cbn [andb]. unfold relax. rewrite C. reflexivity.
        * destruct (Nat.leb_spec 2 k'); cbn [andb]; [|reflexivity]. destruct (Nat.leb_spec k' m), (Nat.leb_spec k' (S m)); try lia; reflexivity.
      + f_equal. extensionality j'. extensionality k'. unfold w. destruct (Nat.eqb_spec j' j) as [->|]; cbn [andb]; [|reflexivity].
        destruct (Nat.leb_spec 2 k'); cbn [andb]; [|reflexivity]. destruct (Nat.leb_spec k' m), (Nat.leb_spec k' (S m)); try lia; try reflexivity.
        replace k' with (S m) by lia. unfold relax. rewrite C. apply E0.
  Qed.

  Lemma rows_any n om u s0 J : (1 <= J)%nat ->
    fold_left (sor_row P pv pt stat n om) (range 2 J) (u, s0) =
    ((fun j k => if Nat.leb 2 j && Nat.leb j J then relax_row n om u j k else u j k), fold_left (row_norm n u) (range 2 J) s0).
  Proof.
    intros HJ. induction J as [|J IH]; [lia|]. destruct (Nat.eq_dec J 0) as [->|NJ].
    - rewrite range_none by lia. cbn [fold_left]. f_equal.
      extensionality j'. extensionality k'. destruct (Nat.leb_spec 2 j'), (Nat.leb_spec j' 1); try lia; reflexivity.
    - rewrite range_snoc' by lia. rewrite !fold_left_app, (IH ltac:(lia)). cbn [fold_left]. set (w := fun j' k' => _). unfold sor_row.
      assert (W0 : forall j' k', (J < j')%nat -> w j' k' = u j' k').
      { intros j' k' H. unfold w. destruct (Nat.leb_spec 2 j'), (Nat.leb_spec j' J); try lia; reflexivity. }
      rewrite (inner_any n om u w _ (S J) (s_kmax P - 1)); [|lia|lia|intros; apply W0; lia|intros; apply W0; lia|].
      2: { intros k Hk C. unfold w. replace (S J - 1)%nat with J by lia. destruct (Nat.leb_spec 2 J), (Nat.leb_spec J J); try lia; cbn [andb]; try reflexivity.
           unfold relax_row. destruct (Nat.eqb_spec k (s_kmax P)); [lia|]. destruct (Nat.eqb_spec k 1); [lia|].
           destruct (Nat.leb_spec 2 k), (Nat.leb_spec k (s_kmax P - 1)); try lia. cbn [andb]. unfold relax.
           destruct (visited n J k) eqn:C'; [|reflexivity]. exfalso. apply (visited_next n (S J) k C); [replace (S J - 1)%nat with J by lia; exact C'|lia]. }
      f_equal.
      extensionality j'. extensionality k'. unfold set2. rewrite Nat.eqb_refl. cbn [andb].
      destruct (Nat.eqb_spec j' (S J)) as [->|Hj'].
      * destruct (Nat.leb_spec 2 (S J)), (Nat.leb_spec (S J) (S J)); try lia. cbn [andb]. unfold relax_row.
        destruct (Nat.eqb_spec k' (s_kmax P)) as [->|Hk'].
        -- destruct (Nat.eqb_spec (s_kmax P - 2) 1); [reflexivity|].
           destruct (Nat.leb_spec 2 (s_kmax P - 2)), (Nat.leb_spec (s_kmax P - 2) (s_kmax P - 1)); try lia. reflexivity.
        -- destruct (Nat.eqb_spec k' 1); [reflexivity|]. destruct (Nat.leb 2 k' && Nat.leb k' (s_kmax P - 1)); [reflexivity|]. apply W0. lia.
      * cbn [andb]. unfold w. destruct (Nat.leb_spec 2 j'); cbn [andb]; [|reflexivity]. destruct (Nat.leb_spec j' J), (Nat.leb_spec j' (S J)); try lia; reflexivity.
  Qed.

  Notation sweep := (sweep P pv uu pt stat g1 g2).
  Notation u_eq := (u_equator P pv uu g1 g2).
  Definition after (n : nat) (om : A) (u : arr2 A) (j k : nat) : A :=
    if Nat.eqb j 1 then u_eq k else if Nat.eqb j (s_jd P) then nzero else if Nat.leb 2 j && Nat.leb j (s_jd P - 1) then relax_row n om u j k else u j k.
  Definition norm (n : nat) (u : arr2 A) : A := fold_left (row_norm n u) (range 2 (s_jd P - 1)) nzero.
  Lemma sweep_any n om u : sweep n om u = (after n om u, norm n u).
  Proof. unfold RefStates.sweep. rewrite rows_any by lia. reflexivity. Qed.
  Definition inner_point (j k : nat) : Prop := (2 <= j <= s_jd P - 1)%nat /\ (2 <= k <= s_kmax P - 1)%nat.
  Lemma after_inner n om u j k : inner_point j k -> after n om u j k = relax n om u j k.
  Proof.
    intros [Hj Hk]. unfold after. destruct (Nat.eqb_spec j 1); [lia|]. destruct (Nat.eqb_spec j (s_jd P)); [lia|].
    destruct (Nat.leb_spec 2 j), (Nat.leb_spec j (s_jd P - 1)); try lia. cbn [andb]. unfold relax_row.
    destruct (Nat.eqb_spec k (s_kmax P)); [lia|]. destruct (Nat.eqb_spec k 1); [lia|].
    destruct (Nat.leb_spec 2 k), (Nat.leb_spec k (s_kmax P - 1)); try lia. reflexivity.
  Qed.
  Lemma after_top n om u j : (2 <= j <= s_jd P - 1)%nat -> exists x, after n om u j (s_kmax P) = x - uz j.
  Proof.
    intros Hj. unfold after. destruct (Nat.eqb_spec j 1); [lia|]. destruct (Nat.eqb_spec j (s_jd P)); [lia|].
    destruct (Nat.leb_spec 2 j), (Nat.leb_spec j (s_jd P - 1)); try lia. cbn [andb]. unfold relax_row. rewrite Nat.eqb_refl. eexists. reflexivity.
  Qed.
End AnySweep.

Section Absent.
  Variables (prec emax : Z) (e : elementary).
  Local Notation N := (IeeeNum prec emax e).
  Local Notation F := spec_float.
  Local Notation nan := S754_nan.
  #[local] Instance ieee_here : Num spec_float := IeeeNum prec emax e.
  Context {T : Trunc F}.
  Lemma sub_l x : nsub nan x = nan. Proof. reflexivity. Qed.
  Lemma sub_r (x : F) : nsub x nan = nan. Proof. destruct x; reflexivity. Qed.
  Lemma mul_l x : nmul nan x = nan. Proof. reflexivity. Qed.
  Lemma mul_r (x : F) : nmul x nan = nan. Proof. destruct x; reflexivity. Qed.
  Lemma div_l x : ndiv nan x = nan. Proof. reflexivity. Qed.
  Lemma div_r (x : F) : ndiv x nan = nan. Proof. destruct x; reflexivity. Qed.
  Lemma add_l x : nadd nan x = nan. Proof. reflexivity. Qed.
  Lemma add_r (x : F) : nadd x nan = nan. Proof. destruct x; reflexivity. Qed.
  Lemma abs_n : nabs nan = nan. Proof. reflexivity. Qed.
  Ltac absent := repeat (rewrite ?sub_l, ?sub_r, ?mul_l, ?mul_r, ?div_l, ?div_r, ?add_l, ?add_r, ?abs_n).

  Lemma fold_nan {X} (f : F -> X -> F) l x s : In x l -> (forall s, f s x = nan) -> (forall y, f nan y = nan) -> fold_left f l s = nan.
  Proof.
    intros I H1 H2. revert s. induction l as [|y l IH]; [contradiction|]. intros s. cbn [fold_left]. destruct I as [->|I]; [|apply IH; exact I].
    rewrite H1. clear IH. induction l as [|z l IH]; [reflexivity|]. cbn [fold_left]. rewrite H2. exact IH.
  Qed.
  Lemma loop_absent n (p : nat -> F -> F) r : (1 <= r <= n)%nat -> (forall s, p r s = nan) -> (forall jj, p jj nan = nan) -> loop n p = nan.
  Proof.
    intros Hr H1 H2. induction n as [|n IH]; [lia|]. cbn [loop]. destruct (Nat.eq_dec r (S n)) as [->|X]; [apply H1|]. rewrite IH by lia. apply H2.
  Qed.

  Variable P : rsdims F.
  Variables pv uu pt : arr3 F.
  Variable stat : nat -> F.
  Variables g1 g2 : arr2 F.
  Hypothesis K3 : (3 <= s_kmax P)%nat.
  Hypothesis J3 : (3 <= s_jd P)%nat.
  Hypothesis KJ : (4 <= s_kmax P)%nat \/ (4 <= s_jd P)%nat.
  Notation resid := (resid P pv stat).
  Notation ejk := (ejk P stat).
  Notation fjk := (fjk P pv).
  Notation after := (after P pv uu pt stat g1 g2).
  Notation nrm := (norm P pv stat).
  Notation iterate := (iterate P pv uu pt stat g1 g2).
  Notation inpt := (inner_point P).

  Lemma norm_nan n u j k : inpt j k -> visited n j k = true -> resid u j k = nan -> nrm n u = nan.
  Proof.
    intros [Hj Hk] V R. assert (Y : forall i l, fold_left (add_resid P pv stat n u i) l nan = nan).
    { intros i l. induction l as [|z l IH]; [reflexivity|]. cbn [fold_left]. unfold add_resid at 2. rewrite add_l. destruct (visited n i z); exact IH. }
    unfold norm. apply (fold_nan _ _ j); [apply in_range; lia| |intros; apply Y].
    intros s. unfold row_norm. apply (fold_nan _ _ k); [apply in_range; lia| |].
    - intros s1. unfold add_resid. rewrite V, R, abs_n. apply add_r.
    - intros y. unfold add_resid. rewrite add_l. destruct (visited n j y); reflexivity.
  Qed.
  Lemma resid_own u j k : u j k = nan -> resid u j k = nan.
  Proof. intros E. unfold RefStates.resid. rewrite E. absent. reflexivity. Qed.
  Lemma resid_coefficient u j k : ejk j k = nan -> resid u j k = nan.
  Proof. intros E. unfold RefStates.resid. rewrite E. absent. reflexivity. Qed.
  Lemma resid_neighbour u j k j' k' : u j' k' = nan ->
    (j' = j + 1 /\ k' = k \/ j' = j - 1 /\ k' = k \/ j' = j /\ k' = k + 1 \/ j' = j /\ k' = k - 1)%nat -> resid u j k = nan.
  Proof. intros E H. unfold RefStates.resid. destruct H as [[-> ->]|[[-> ->]|[[-> ->]|[-> ->]]]]; rewrite E; absent; reflexivity. Qed.
  Lemma stays n om u j k : inpt j k -> u j k = nan -> neqb (ejk j k) nzero = false -> after n om u j k = nan.
  Proof.
    intros I E D. rewrite after_inner by assumption. unfold relax. destruct (visited n j k); [|exact E]. rewrite D, E. apply sub_l.
  Qed.
  Lemma becomes n om u j k : inpt j k -> visited n j k = true -> resid u j k = nan -> neqb (ejk j k) nzero = false -> after n om u j k = nan.
  Proof. intros I V R D. rewrite after_inner by assumption. unfold relax. rewrite V, D, R. absent. reflexivity. Qed.
  Lemma neighbour j k : inpt j k -> exists j' k', inpt j' k' /\ (forall n, visited n j' k' = negb (visited n j k)) /\
    (j = j' + 1 /\ k = k' \/ j = j' - 1 /\ k = k' \/ j = j' /\ k = k' + 1 \/ j = j' /\ k = k' - 1)%nat.
  Proof.
    intros [Hj Hk]. unfold inner_point.
    assert (C : exists j' k', ((2 <= j' <= s_jd P - 1) /\ (2 <= k' <= s_kmax P - 1))%nat /\ (j = j' + 1 /\ k = k' \/ j = j' - 1 /\ k = k' \/ j = j' /\ k = k' + 1 \/ j = j' /\ k = k' - 1)%nat).
    { destruct (Nat.le_gt_cases 3 j); [exists (j - 1)%nat, k; lia|]. destruct (Nat.le_gt_cases 3 k); [exists j, (k - 1)%nat; lia|].
      destruct (Nat.le_gt_cases 4 (s_kmax P)); [exists j, (k + 1)%nat; lia|]. exists (j + 1)%nat, k. lia. }
    destruct C as (j' & k' & I & C). exists j', k'. split; [exact I|]. split; [|exact C]. intros n. unfold visited.
    destruct (Nat.eqb_spec ((j' + k') mod 2) (n mod 2)); destruct (Nat.eqb_spec ((j + k) mod 2) (n mod 2)); try reflexivity; exfalso; lia.
  Qed.
  Lemma never_small n u j k : inpt j k -> u j k = nan -> nrm n u = nan.
  Proof.
    intros I E. destruct (visited n j k) eqn:V; [apply (norm_nan n u j k I V), resid_own, E|].
    destruct (neighbour j k I) as (j' & k' & I' & V' & C). apply (norm_nan n u j' k' I'); [rewrite V', V; reflexivity|]. apply (resid_neighbour u j' k' j k E). lia.
  Qed.
  Lemma stuck f : forall n om u j k, inpt j k -> u j k = nan -> neqb (ejk j k) nzero = false -> iterate f n om u = (fun _ _ => nzero, (n + f)%nat).
  Proof.
    induction f as [|f IH]; intros n om u j k I E D; cbn [RefStates.iterate]; [f_equal; lia|]. rewrite sweep_any by assumption. rewrite (never_small n u j k I E).
    change (nltb nan (nmul (s_eps P) (anormf P pv))) with false. rewrite Bool.andb_false_r. rewrite (IH _ _ _ j k I (stays n om u j k I E D) D). f_equal. lia.
  Qed.
  (** a missing coefficient or right-hand side *)
  Lemma coefficient_stuck j k : inpt j k -> ejk j k = nan -> rs_num_of_iter P pv uu pt stat g1 g2 = S (s_maxits P).
  Proof.
    intros I E. assert (D : neqb (ejk j k) nzero = false) by (rewrite E; reflexivity). assert (R : forall u, resid u j k = nan) by (intros u; apply resid_coefficient, E).
    unfold rs_num_of_iter, solution. set (u0 := fun _ _ => nzero). destruct (s_maxits P) as [|f]; [reflexivity|]. cbn [RefStates.iterate]. rewrite sweep_any by assumption. cbn [Nat.ltb Nat.leb andb].
    destruct (visited 1 j k) eqn:V.
    - rewrite (stuck f 2 _ _ j k I (becomes 1 _ _ j k I V (R _) D) D). reflexivity.
    - assert (V2 : visited 2 j k = true) by (rewrite visited_S, V; reflexivity). destruct f as [|f]; [reflexivity|]. cbn [RefStates.iterate]. rewrite sweep_any by assumption.
      rewrite (norm_nan 2 _ j k I V2 (R _)). change (nltb nan (nmul (s_eps P) (anormf P pv))) with false. rewrite Bool.andb_false_r.
      rewrite (stuck f 3 _ _ j k I (becomes 2 _ _ j k I V2 (R _) D) D). reflexivity.
  Qed.
  Lemma rhs_stuck f : anormf P pv = nan -> forall n om u, iterate f n om u = (fun _ _ => nzero, (n + f)%nat).
  Proof.
    intros E. induction f as [|f IH]; intros n om u; cbn [RefStates.iterate]; [f_equal; lia|]. destruct (sweep P pv uu pt stat g1 g2 n om u) as [u' s]. rewrite E, mul_r.
    replace (nltb s nan) with false by (destruct s; reflexivity). rewrite Bool.andb_false_r, IH. f_equal. lia.
  Qed.
  (** the stability of any level *)
  Lemma stat_stuck k : (1 <= k <= s_kmax P)%nat -> stat k = nan -> rs_num_of_iter P pv uu pt stat g1 g2 = S (s_maxits P).
  Proof.
    intros Hk E. set (k' := if Nat.eqb k 1 then 2%nat else if Nat.eqb k (s_kmax P) then (s_kmax P - 1)%nat else k).
    apply (coefficient_stuck 2 k').
    - unfold k', inner_point. destruct (Nat.eqb_spec k 1), (Nat.eqb_spec k (s_kmax P)); lia.
    - unfold RefStates.ejk, cjk, djk, half_level. cbv zeta. unfold k'. destruct (Nat.eqb_spec k 1) as [->|K1].
      + change (2 - 1)%nat with 1%nat. rewrite E. absent. reflexivity.
      + destruct (Nat.eqb_spec k (s_kmax P)) as [->|K2]; [replace (s_kmax P - 1 + 1)%nat with (s_kmax P) by lia|]; rewrite E; absent; reflexivity.
  Qed.
  (** missing PV *)
  Lemma mean_nan x i r k : (1 <= i <= s_nlon P)%nat -> x i (r + s_jd P - 1)%nat k = nan -> zonal_mean P x r k = nan.
  Proof.
    intros Hi E. unfold zonal_mean. apply (loop_absent _ _ i Hi).
    - intros s. rewrite E. absent. reflexivity.
    - intros jj. reflexivity.
  Qed.
  Lemma cbar_nan r k m : qbar P pv r k = nan -> (1 <= r <= s_jd P)%nat -> (s_jd P - r <= m)%nat -> (1 <= m < s_jd P)%nat -> cbar_from P pv k m = nan.
  Proof.
    intros E Hr. induction m as [|m IH]; [lia|]. intros H1 H2. cbn [cbar_from]. cbv zeta.
    destruct (Nat.eq_dec m 0) as [->|M0].
    - assert (r = s_jd P \/ r = s_jd P - 1)%nat as [->| ->] by lia.
      + replace (s_jd P - 1 + 1)%nat with (s_jd P) by lia. rewrite E. absent. reflexivity.
      + rewrite E. absent. reflexivity.
    - destruct (Nat.eq_dec r (s_jd P - S m)) as [->|Hn]; [rewrite E; absent; reflexivity|]. rewrite IH by lia. reflexivity.
  Qed.
  Lemma equator_nan i r k : (1 <= i <= s_nlon P)%nat -> (1 <= r <= s_jd P)%nat -> (2 <= k <= s_kmax P - 1)%nat -> pv i (r + s_jd P - 1)%nat k = nan ->
    u_equator P pv uu g1 g2 k = nan.
  Proof.
    intros Hi Hr Hk E. unfold u_equator, cbar, RefStates.interior. destruct (Nat.leb_spec 2 k), (Nat.leb_spec k (s_kmax P - 1)); try lia. cbn [andb].
    rewrite (cbar_nan r k (s_jd P - 1) (mean_nan pv i r k Hi E)) by lia. absent. reflexivity.
  Qed.
  Lemma equator_stuck k : (2 <= k <= s_kmax P - 1)%nat -> u_equator P pv uu g1 g2 k = nan -> neqb (ejk 2 k) nzero = false ->
    rs_num_of_iter P pv uu pt stat g1 g2 = S (s_maxits P) \/ (rs_num_of_iter P pv uu pt stat g1 g2 = 2%nat /\ Nat.odd k = true).
  Proof.
    intros Hk E D. assert (I : inpt 2 k) by (unfold inner_point; lia).
    assert (R : forall n om u, resid (after n om u) 2 k = nan).
    { intros n om u. apply (resid_neighbour _ 2 k 1 k); [exact E|lia]. }
    unfold rs_num_of_iter, solution. set (u0 := fun _ _ => nzero). destruct (s_maxits P) as [|f]; [left; reflexivity|]. cbn [RefStates.iterate]. rewrite sweep_any by assumption. cbn [Nat.ltb Nat.leb andb].
    destruct f as [|f]; [left; reflexivity|]. cbn [RefStates.iterate]. rewrite sweep_any by assumption.
    destruct (visited 2 2 k) eqn:V.
    - left. rewrite (norm_nan 2 _ 2 k I V (R _ _ _)). change (nltb nan (nmul (s_eps P) (anormf P pv))) with false. rewrite Bool.andb_false_r.
      rewrite (stuck f 3 _ _ 2 k I (becomes 2 _ _ 2 k I V (R _ _ _) D) D). reflexivity.
    - destruct (_ && _).
      + right. split; [reflexivity|]. unfold visited in V. apply Nat.eqb_neq in V. rewrite <- Nat.negb_even. destruct (Nat.even k) eqn:Ev; [|reflexivity]. apply Nat.even_spec in Ev. destruct Ev as [m ->]. exfalso. apply V. lia.
      + left. destruct f as [|f]; [reflexivity|]. cbn [RefStates.iterate]. rewrite sweep_any by assumption. assert (V3 : visited 3 2 k = true) by (rewrite visited_S, V; reflexivity).
        rewrite (norm_nan 3 _ 2 k I V3 (R _ _ _)). change (nltb nan (nmul (s_eps P) (anormf P pv))) with false. rewrite Bool.andb_false_r.
        rewrite (stuck f 4 _ _ 2 k I (becomes 3 _ _ 2 k I V3 (R _ _ _) D) D). reflexivity.
  Qed.
  (** missing temperature *)
  Lemma tb_nan i r k : (1 <= i <= s_nlon P)%nat -> (1 <= r <= s_nlat P + 1 - s_jd P)%nat -> pt i (r + s_jd P - 1)%nat k = nan -> tb P pt k = nan.
  Proof.
    intros Hi Hr E. unfold tb. rewrite (loop_absent _ (fun r s => nadd s (nmul (ncos (row_lat P (r + s_jd P - 1))) (tbar P pt r k))) r Hr).
    - reflexivity.
    - intros s. unfold tbar. rewrite (mean_nan pt i r k Hi E). absent. reflexivity.
    - intros jj. reflexivity.
  Qed.
  Lemma tref_nan j k : (1 <= k <= s_kmax P)%nat -> tb P pt k = nan -> rs_tref P pv uu pt stat g1 g2 j k = nan.
  Proof.
    intros Hk E. unfold rs_tref. destruct (Nat.eqb_spec k (s_kmax P)) as [->|K1]; [rewrite E; absent; reflexivity|].
    destruct (Nat.eqb_spec k 1) as [->|K2]; [rewrite E; absent; reflexivity|]. unfold tref1. rewrite E. absent. reflexivity.
  Qed.
  Lemma top_nan j : (2 <= j <= s_jd P - 1)%nat -> uz_top P pt j = nan -> forall f n om u,
    iterate f n om u = (fun _ _ => nzero, (n + f)%nat) \/ fst (iterate f n om u) j (s_kmax P) = nan.
  Proof.
    intros Hj E f. induction f as [|f IH]; intros n om u; cbn [RefStates.iterate]; [left; f_equal; lia|]. rewrite sweep_any by assumption.
    destruct (_ && _).
    - right. cbn [fst]. destruct (after_top P pv uu pt stat g1 g2 K3 J3 n om u j Hj) as [x ->]. rewrite E. apply sub_r.
    - destruct (IH (S n) (next_omega P n om) (after n om u)) as [->|H]; [left; f_equal; lia|right; exact H].
  Qed.
  Lemma top_stuck i r j : (1 <= i <= s_nlon P)%nat -> pt i (r + s_jd P - 1)%nat (s_kmax P - 1)%nat = nan -> (2 <= j <= s_jd P - 1)%nat -> (r = j + 1 \/ r = j - 1)%nat ->
    rs_num_of_iter P pv uu pt stat g1 g2 = S (s_maxits P) \/ rs_uref P pv uu pt stat g1 g2 j (s_kmax P) = nan.
  Proof.
    intros Hi E Hj Hr. assert (U : uz_top P pt j = nan).
    { unfold uz_top. cbv zeta. unfold tbar. destruct Hr as [-> | ->]; rewrite (mean_nan pt i _ (s_kmax P - 1) Hi E); absent; reflexivity. }
    unfold rs_num_of_iter, rs_uref, uref1, solution. destruct (top_nan j Hj U (s_maxits P) 1 none (fun _ _ => nzero)) as [->|H]; [left; reflexivity|right].
    destruct (Nat.eqb_spec j (s_jd P)); [lia|]. destruct (Nat.eqb_spec j 1); [lia|]. rewrite H. reflexivity.
  Qed.
  Lemma boundary_nan i k : (1 <= i <= s_nlon P)%nat -> uu i (s_jd P) k = nan -> rs_uref P pv uu pt stat g1 g2 1 k = nan.
  Proof.
    intros Hi E. unfold rs_uref, uref1. destruct (Nat.eqb_spec 1 (s_jd P)); [lia|]. cbn [Nat.eqb]. unfold ubar. apply (mean_nan uu i 1 k Hi). replace (1 + s_jd P - 1)%nat with (s_jd P) by lia. exact E.
  Qed.
End Absent.
