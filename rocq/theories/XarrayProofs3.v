(** Proofs about integrate_budget, hemisphere_to_globe and the stability variables. *)
From Coq Require Import ZifyNat.
From Verif Require Import BaseFacts SpecFacts XarraySpec XarrayProofs XarrayProofs2.
Ltac Zify.zify_post_hook ::= Z.to_euclidean_division_equations.
Open Scope nat_scope.

Lemma ok_inj {T : Type} (x y : T) : Ok x = Ok y -> x = y.
Proof. congruence. Qed.

(** ** Stability variables *)
Section Stability.
  Context {F : Type} (attr : F -> string -> list R).
  Definition profiles (kmax : nat) (get : F -> nat -> R) (fs : list F) : list (nd R) := map (fun f => ND [kmax] (fun idx => get f (hd 0 idx))) fs.
  Lemma profile_at (q : qgds R F) kmax get a var d f0 fs :
    q_fields q = f0 :: fs -> length (q_fields q) = size_of (sizes (q_other q)) ->
    lookup var registry = Some (["height"], ["height"])%string ->
    asarray 0%R (profiles kmax get (q_fields q)) = Ok a -> as_dataarray attr q a var = Ok d ->
    forall idx k f, in_shape (sizes (q_other q)) idx -> nth_error (q_fields q) (ravel (sizes (q_other q)) idx) = Some f ->
      k < kmax -> da_at d (idx ++ [k]) = get f k.
  Proof.
    intros Hf Hl Hv Ha Hd idx k f Hi Hn Hk.
    assert (Hc : core_coords attr q var = Ok [("height"%string, attr f0 "height"%string)]) by (unfold core_coords; rewrite Hv, Hf; reflexivity).
    destruct (as_dataarray_at attr q (profiles kmax get (q_fields q)) a var d _ ltac:(unfold profiles; rewrite map_length; exact Hl)
                ltac:(unfold profiles; rewrite map_length, Hf; cbn; lia) Hc ltac:(intros x Hx; unfold profiles in Hx; apply in_map_iff in Hx; destruct Hx as (g & <- & _); reflexivity) Ha Hd) as (_ & P).
    assert (E : nth_error (profiles kmax get (q_fields q)) (ravel (sizes (q_other q)) idx) = Some (ND [kmax] (fun idx => get f (hd 0 idx))))
      by (unfold profiles; exact (map_nth_error _ _ _ Hn)).
    assert (P0 := P idx). 
    assert (S0 : [kmax] = sizes [("height"%string, attr f0 "height"%string)]).
    { (* the shape was checked by as_dataarray *)
      unfold as_dataarray in Hd. rewrite Hc in Hd. cbn [bind] in Hd. apply bind_ok in Hd. destruct Hd as (b & Hb & Hd).
      apply check_ok in Hd; [|discriminate]. destruct Hd as (Hs & _). apply shape_eqb_true in Hs. rewrite map_app in Hs.
      fold (sizes (q_other q)) in Hs. fold (sizes [("height"%string, attr f0 "height"%string)]) in Hs.
      destruct (asarray_at _ _ Ha ltac:(unfold profiles; rewrite map_length, Hf; cbn; lia)) as (x0 & Ix & Sa & Sx & _).
      assert (X0 : nd_shape x0 = [kmax]) by (unfold profiles in Ix; apply in_map_iff in Ix; destruct Ix as (g & <- & _); reflexivity).
      rewrite X0 in Sa. destruct (shape_eqb (nd_shape a) _) eqn:Es.
      - injection Hb as <-. rewrite Sa in Hs. assert (Z := f_equal (@length nat) Hs). rewrite app_length in Z. cbn [length sizes map] in Z.
        destruct (sizes (q_other q)) as [|n [|? ?]]; cbn in Z; try lia. cbn [app] in Hs. congruence.
      - unfold restore_other in Hb. apply check_ok in Hb; [|discriminate]. destruct Hb as (_ & Hb). rewrite Sa in Hb. cbn [tl] in Hb.
        apply reshape_shape in Hb. rewrite Hb in Hs. change (other_shape q) with (sizes (q_other q)) in Hs. apply app_inv_head in Hs. exact Hs. }
    destruct (P idx [k] _ Hi ltac:(rewrite <- S0; repeat constructor; exact Hk) E) as (_ & V). rewrite V. reflexivity.
  Qed.

  Lemma stability_pair (q : qgds R F) kmax (st_s st_n : F -> nat -> R) vars :
    0 < length (q_fields q) -> length (q_fields q) = size_of (sizes (q_other q)) ->
    static_stability attr kmax (fun f => nhn22_stability false (st_s f) (st_n f)) q = Ok vars ->
    exists dn ds, vars = [("static_stability_n"%string, dn); ("static_stability_s"%string, ds)] /\
    forall idx k f, in_shape (sizes (q_other q)) idx -> nth_error (q_fields q) (ravel (sizes (q_other q)) idx) = Some f ->
      k < kmax -> da_at dn (idx ++ [k]) = st_s f k /\ da_at ds (idx ++ [k]) = st_n f k.
  Proof.
    intros Hpos Hl H. unfold static_stability, nhn22_stability in H. destruct (q_fields q) as [|f0 fs] eqn:Ef; [cbn in Hpos; lia|].
    cbn [map] in H.
    match type of H with (if ?b then _ else _) = _ => destruct b end; [|discriminate].
    apply bind_ok in H; destruct H as (a0 & Ha0 & H). apply bind_ok in H; destruct H as (a1 & Ha1 & H).
    apply bind_ok in H; destruct H as (n & Hn & H). apply bind_ok in H; destruct H as (s & Hs & H). injection H as <-.
    exists n, s. split; [reflexivity|].
    assert (A0 : asarray 0%R (profiles kmax st_s (q_fields q)) = Ok a0).
    { rewrite <- Ha0. unfold profiles. rewrite Ef. cbn [map]. rewrite map_map. reflexivity. }
    assert (A1 : asarray 0%R (profiles kmax st_n (q_fields q)) = Ok a1).
    { rewrite <- Ha1. unfold profiles. rewrite Ef. cbn [map]. rewrite map_map. reflexivity. }
    intros idx k f Hi Hf Hk. rewrite <- Ef in Hf, Hl. split.
    - exact (profile_at q kmax st_s a0 "static_stability_n" n f0 fs Ef Hl eq_refl A0 Hn idx k f Hi Hf Hk).
    - exact (profile_at q kmax st_n a1 "static_stability_s" s f0 fs Ef Hl eq_refl A1 Hs idx k f Hi Hf Hk).
  Qed.
  Lemma stability_one (q : qgds R F) kmax (st : F -> nat -> R) vars :
    0 < length (q_fields q) -> length (q_fields q) = size_of (sizes (q_other q)) ->
    static_stability attr kmax (fun f => One (st f)) q = Ok vars ->
    exists d, vars = [("static_stability"%string, d)] /\
    forall idx k f, in_shape (sizes (q_other q)) idx -> nth_error (q_fields q) (ravel (sizes (q_other q)) idx) = Some f ->
      k < kmax -> da_at d (idx ++ [k]) = st f k.
  Proof.
    intros Hpos Hl H. unfold static_stability in H. destruct (q_fields q) as [|f0 fs] eqn:Ef; [cbn in Hpos; lia|].
    cbn [map] in H.
    match type of H with (if ?b then _ else _) = _ => destruct b end; [|discriminate].
    apply bind_ok in H; destruct H as (a0 & Ha0 & H). apply bind_ok in H; destruct H as (d & Hd & H). injection H as <-.
    exists d. split; [reflexivity|].
    assert (A0 : asarray 0%R (profiles kmax st (q_fields q)) = Ok a0).
    { rewrite <- Ha0. unfold profiles. rewrite Ef. cbn [map]. rewrite map_map. reflexivity. }
    intros idx k f Hi Hf Hk. rewrite <- Ef in Hf, Hl.
    exact (profile_at q kmax st a0 "static_stability" d f0 fs Ef Hl eq_refl A0 Hd idx k f Hi Hf Hk).
  Qed.
End Stability.

(** ** Budget *)
Lemma nsum_split a b (f : nat -> R) : nsum (a + b) f = (nsum a f + nsum b (fun i => f (a + i)%nat))%R.
Proof. induction b as [|b IH]; cbn [nsum nadd nzero RNum]; [rewrite Nat.add_0_r; lra|]. rewrite Nat.add_succ_r. cbn [nsum nadd RNum]. rewrite IH. lra. Qed.
Lemma trapezoid_split a b (x f : nat -> R) :
  trapezoid (a + b + 1) x f = (trapezoid (a + 1) x f + trapezoid (b + 1) (fun i => x (a + i)%nat) (fun i => f (a + i)%nat))%R.
Proof.
  unfold trapezoid. replace (a + b + 1 - 1) with (a + b) by lia. replace (a + 1 - 1) with a by lia. replace (b + 1 - 1) with b by lia.
  rewrite nsum_split. f_equal. apply rsum_ext. intros i _. rewrite Nat.add_assoc. reflexivity.
Qed.
Lemma trapezoid_linear n (x f : nat -> R) c d : (forall i, (i < n)%nat -> f i = c + d * x i)%R -> 0 < n ->
  trapezoid n x f = (c * (x (n - 1)%nat - x 0%nat) + d * (x (n - 1)%nat ^ 2 - x 0%nat ^ 2) / 2)%R.
Proof.
  intros Hf Hn. destruct n as [|m]; [lia|]. unfold trapezoid. replace (S m - 1) with m by lia.
  assert (G : forall k, k <= m -> nsum k (fun i => nmul (ndiv (nadd (f i) (f (i + 1))) (nofZ 2)) (nsub (x (i + 1)) (x i))) = (c * (x k - x 0%nat) + d * (x k ^ 2 - x 0%nat ^ 2) / 2)%R).
  { induction k as [|k IH]; intros Hk; cbn [nsum]; [cbn; lra|]. rewrite IH by lia. cbn [nadd nmul ndiv nsub nofZ RNum]. rewrite !Nat.add_1_r.
    rewrite (Hf k), (Hf (S k)) by lia. field. }
  apply G. lia.
Qed.
Lemma trapezoid_between n (x f : nat -> R) m M : (forall i, (i + 1 < n)%nat -> x i <= x (i + 1)%nat)%R -> (forall i, (i < n)%nat -> m <= f i <= M)%R -> 0 < n ->
  (m * (x (n - 1)%nat - x 0%nat) <= trapezoid n x f <= M * (x (n - 1)%nat - x 0%nat))%R.
Proof.
  intros Hx Hf Hn. destruct n as [|p]; [lia|]. unfold trapezoid. replace (S p - 1) with p by lia.
  assert (G : forall k, k <= p -> (m * (x k - x 0%nat) <= nsum k (fun i => nmul (ndiv (nadd (f i) (f (i + 1)%nat)) (nofZ 2)) (nsub (x (i + 1)%nat) (x i))) <= M * (x k - x 0%nat))%R).
  { induction k as [|k IH]; intros Hk; cbn [nsum]; [cbn; lra|]. specialize (IH ltac:(lia)). cbn [nadd nmul ndiv nsub nofZ RNum].
    specialize (Hx k ltac:(lia)). assert (F1 := Hf k ltac:(lia)). assert (F2 := Hf (k + 1) ltac:(lia)). replace (S k) with (k + 1) by lia.
    assert (H1 : (m * (x (k + 1)%nat - x k) <= (f k + f (k + 1)%nat) / 2 * (x (k + 1)%nat - x k))%R) by (apply Rmult_le_compat_r; lra).
    assert (H2 : ((f k + f (k + 1)%nat) / 2 * (x (k + 1)%nat - x k) <= M * (x (k + 1)%nat - x k))%R) by (apply Rmult_le_compat_r; lra).
    cbn [nadd nmul ndiv nsub nofZ RNum] in IH. lra. }
  apply G. lia.
Qed.
Lemma filter_single (n m : nat) (f : nat -> bool) : m < n -> f m = true -> (forall i, i < n -> f i = true -> i = m) -> filter f (seq 0 n) = [m].
Proof.
  intros Hm Ht Hu.
  assert (G : forall lo c, lo + c <= n -> filter f (seq lo c) = if (lo <=? m) && (m <? lo + c) then [m] else []).
  { intros lo c; revert lo; induction c as [|c IH]; intros lo Hc; cbn [seq filter].
    - destruct (Nat.leb_spec lo m), (Nat.ltb_spec m (lo + 0)); cbn; auto; lia.
    - rewrite (IH (S lo)) by lia. destruct (f lo) eqn:E.
      + apply Hu in E; [|lia]. subst lo. destruct (Nat.leb_spec (S m) m), (Nat.leb_spec m m), (Nat.ltb_spec m (S m + c)), (Nat.ltb_spec m (m + S c)); cbn; auto; lia.
      + assert (lo <> m) by (intros ->; congruence).
        destruct (Nat.leb_spec (S lo) m), (Nat.leb_spec lo m), (Nat.ltb_spec m (S lo + c)), (Nat.ltb_spec m (lo + S c)); cbn; auto; lia. }
  rewrite (G 0 n) by lia. destruct (Nat.leb_spec 0 m), (Nat.ltb_spec m (0 + n)); cbn; auto; lia.
Qed.
Lemma at_date_found n ticks (f : nat -> R) m : distinct_dates n ticks -> m < n -> at_date n ticks f (ticks m) = Ok (f m).
Proof.
  intros Hd Hm. unfold at_date. rewrite (filter_single n m); [reflexivity|exact Hm|apply Z.eqb_refl|].
  intros i Hi H. apply Z.eqb_eq in H. apply Hd; assumption.
Qed.
Lemma budget_value n ticks rate (lwa czaf demf mhf : nat -> R) : distinct_dates n ticks -> 0 < n ->
  let x i := (IZR (ticks i) / IZR rate)%R in
  exists b, integrate_budget n ticks rate lwa czaf demf mhf = Ok b /\
    delta_lwa b = (lwa (n - 1)%nat - lwa 0%nat)%R /\ int_czaf b = trapezoid n x czaf /\ int_demf b = trapezoid n x demf /\ int_mhf b = trapezoid n x mhf /\
    residual b = (delta_lwa b - int_czaf b - int_demf b - int_mhf b)%R /\ seconds b = (IZR (ticks (n - 1)%nat - ticks 0%nat) / 1000000000)%R.
Proof.
  intros Hd Hn x. destruct n as [|m]; [lia|]. unfold integrate_budget.
  rewrite (at_date_found _ _ _ _ Hd) by lia. rewrite (at_date_found _ _ _ _ Hd) by lia. cbn [bind].
  eexists. split; [reflexivity|]. replace (S m - 1) with m by lia. repeat split.
Qed.

(** ** The globe *)
Section Globe.
  Context {X : Type} (negate : X -> X).
  Lemma rows_at (s : latset R X) target rows : reindex s target = Ok rows ->
    length rows = length target /\ forall j p, j < length target -> nth_error (ls_lat s) p = Some (nth j target 0%R) -> nth j rows 0 = p.
  Proof.
    unfold reindex. intros H. apply traverse_ok in H. assert (L := F2_length _ _ _ H). split; [congruence|].
    intros j p Hj Hp. destruct (nth_error rows j) as [r|] eqn:Er.
    - assert (K := Forall2_nth _ _ _ H _ _ _ (nth_error_nth' target 0%R Hj) Er). cbv beta in K.
      assert (I := proj2 (positions_in (nth j target 0%R) (ls_lat s) p) Hp).
      destruct (positions (nth j target 0%R) (ls_lat s)) as [|r' [|? ?]]; try discriminate. injection K as ->.
      destruct I as [I|[]]. rewrite (nth_error_nth _ _ 0 Er). exact I.
    - apply nth_error_None in Er. lia.
  Qed.
  Lemma last_nth (l : list R) d : last l d = nth (length l - 1) l d.
  Proof.
    induction l as [|a l IH]; [reflexivity|]. destruct l as [|b l]; [reflexivity|]. change (last (a :: b :: l) d) with (last (b :: l) d). rewrite IH.
    cbn [length]. replace (S (S (length l)) - 1) with (S (length l)) by lia. replace (S (length l) - 1) with (length l) by lia. reflexivity.
  Qed.
  Lemma removelast_nth (l : list R) j d : j < length l - 1 -> nth j (removelast l) d = nth j l d.
  Proof.
    revert j; induction l as [|a l IH]; intros j H; [cbn in H; lia|]. destruct l as [|b l]; [cbn in H; lia|].
    change (removelast (a :: b :: l)) with (a :: removelast (b :: l)). destruct j as [|j]; [reflexivity|]. cbn [nth]. apply IH. cbn [length] in *. lia.
  Qed.
  Lemma removelast_len (l : list R) : length (removelast l) = length l - 1.
  Proof.
    induction l as [|a l IH]; [reflexivity|]. destruct l as [|b l]; [reflexivity|]. change (removelast (a :: b :: l)) with (a :: removelast (b :: l)).
    cbn [length]. cbn [length] in IH. rewrite IH. lia.
  Qed.
  Lemma tl_nth (l : list R) j d : nth j (tl l) d = nth (S j) l d.
  Proof. destruct l; [destruct j; reflexivity|reflexivity]. Qed.
  Lemma tl_len (l : list R) : length (tl l) = length l - 1.
  Proof. destruct l; cbn; lia. Qed.

  (** the rows of the created hemisphere *)
  Lemma created_rows (s : latset R X) eq0 rows : reindex s (flipped_noeq eq0 (ls_lat s)) = Ok rows ->
    length rows = length (ls_lat s) - 1 /\
    forall j, j < length (ls_lat s) - 1 -> nth j rows 0 = if eq0 then length (ls_lat s) - 1 - j else length (ls_lat s) - 2 - j.
  Proof.
    intros H. destruct (rows_at _ _ _ H) as (L & P). destruct eq0; cbn [flipped_noeq] in *.
    - rewrite rev_length, tl_len in *. split; [exact L|]. intros j Hj. apply P; [exact Hj|].
      rewrite rev_nth by (rewrite tl_len; lia). rewrite tl_nth, tl_len. rewrite (nth_error_nth' _ 0%R) by lia. f_equal. f_equal. lia.
    - rewrite rev_length, removelast_len in *. split; [exact L|]. intros j Hj. apply P; [exact Hj|].
      rewrite rev_nth by (rewrite removelast_len; lia). rewrite removelast_len, removelast_nth by lia. rewrite (nth_error_nth' _ 0%R) by lia. f_equal. f_equal. lia.
  Qed.

  Lemma is_equator_iff y : is_equator y = true <-> near_equator y.
  Proof. unfold is_equator, near_equator. cbn [nltb nabs ndiv none nofZ RNum]. rewrite Rltb_true. reflexivity. Qed.

  Lemma globe_extends coord_name user (s g : latset R X) : hemisphere_to_globe negate coord_name user s = Ok g ->
    mirror_extension negate (resolves (in_dataset coord_name s) NAMES_V user) s g.
  Proof.
    unfold hemisphere_to_globe. intros H. apply bind_ok in H. destruct H as (yn & Hyn & H).
    apply check_ok in H; [|discriminate]. destruct H as (_ & H).
    destruct (ls_lat s) as [|y0 l0] eqn:El; [discriminate|].
    apply check_ok in H; [|discriminate]. destruct H as (Heq & H). apply bind_ok in H. destruct H as (rows & Hr & H).
    rewrite <- El in Hr, H, Heq. destruct (created_rows s _ rows Hr) as (Lr & Pr).
    change (fun n : string => (n =? coord_name)%string || existsb (fun v : string * (nat -> X) => (n =? fst v)%string) (ls_vars s)) with (in_dataset coord_name s) in H.
    set (n := length (ls_lat s)) in *. assert (Hn : 0 < n) by (unfold n; rewrite El; cbn; lia).
    set (wind := resolves (in_dataset coord_name s) NAMES_V user).
    set (v := match get_name (in_dataset coord_name s) NAMES_V user with Ok n0 => Some n0 | _ => None end) in H.
    assert (Hw : forall name, wind name <-> v = Some name).
    { intros name. unfold wind. rewrite <- get_name_ok by discriminate. unfold v. destruct (get_name (in_dataset coord_name s) NAMES_V user) as [w| | | |]; split; intros K; try discriminate K; injection K as ->; reflexivity. }
    set (mir := fun nv : string * (nat -> X) => let x j := snd nv (nth j rows 0) in
                match v with Some n0 => if String.eqb (fst nv) n0 then fun j => negate (x j) else x | None => x end) in H.
    assert (Hm : forall name x j, (wind name -> mir (name, x) j = negate (x (nth j rows 0))) /\ (~ wind name -> mir (name, x) j = x (nth j rows 0))).
    { intros name x j. unfold mir. cbn [fst snd]. destruct v as [w|]; split; intros K.
      - apply Hw in K. injection K as ->. rewrite String.eqb_refl. reflexivity.
      - destruct (String.eqb_spec name w) as [->|]; [exfalso; apply K; apply Hw; reflexivity|reflexivity].
      - apply Hw in K. discriminate.
      - reflexivity. }
    cbv zeta in H. apply ok_inj in H. subst g. unfold mirror_extension. fold n. cbn [ls_lat ls_vars].
    assert (L' : length (map (@nopp R RNum) (map (fun p => nth p (ls_lat s) nzero) rows)) = n - 1) by (rewrite !map_length; exact Lr).
    assert (N' : forall j, j < n - 1 -> nth j (map (@nopp R RNum) (map (fun p => nth p (ls_lat s) nzero) rows)) 0%R = (- nth (nth j rows 0%nat) (ls_lat s) 0)%R).
    { intros j Hj. rewrite map_map. rewrite (nth_indep _ 0%R (nopp (nth 0 (ls_lat s) nzero))) by (rewrite map_length; lia).
      exact (map_nth (fun p => nopp (nth p (ls_lat s) nzero)) rows 0 j). }
    destruct (is_equator y0) eqn:Ey.
    - exists (n - 1). split; [auto|]. split; [rewrite app_length, L'; fold n; lia|]. split; [rewrite map_length; reflexivity|]. split; [|split; [|split]].
      + rewrite app_nth2 by lia. rewrite L', Nat.sub_diag, El. cbn [nth]. apply is_equator_iff. exact Ey.
      + intros j Hj. rewrite app_nth2 by lia. rewrite L'. f_equal. lia.
      + intros j Hj Hj'. rewrite app_nth1 by lia. rewrite N' by lia. rewrite Pr by lia. f_equal. f_equal. lia.
      + intros k name x Hk. exists (concat (length rows) (mir (name, x)) x). split; [rewrite (map_nth_error _ _ _ Hk); reflexivity|]. split.
        * intros j Hj. unfold concat. destruct (Nat.ltb_spec (n - 1 + j) (length rows)); [lia|]. f_equal. lia.
        * intros j Hj Hj'. unfold concat. destruct (Nat.ltb_spec (2 * (n - 1) - (n - 1 + j)) (length rows)); [|lia].
          destruct (Hm name x (2 * (n - 1) - (n - 1 + j))) as (M1 & M2). rewrite Pr in M1, M2 by lia.
          replace (n - 1 - (2 * (n - 1) - (n - 1 + j))) with j in M1, M2 by lia. split; assumption.
    - exists 0. split; [auto|]. split; [rewrite app_length, L'; fold n; lia|]. split; [rewrite map_length; reflexivity|]. split; [|split; [|split]].
      + rewrite app_nth1 by (fold n; lia). rewrite El in Heq. cbn [orb] in Heq. rewrite <- El in Heq. rewrite last_nth in Heq. fold n in Heq. apply is_equator_iff. exact Heq.
      + intros j Hj. rewrite app_nth1 by (fold n; lia). reflexivity.
      + intros j Hj Hj'. rewrite app_nth2 by (fold n; lia). fold n. rewrite N' by lia. rewrite Pr by lia. f_equal. f_equal. lia.
      + intros k name x Hk. exists (concat n x (mir (name, x))). split; [rewrite (map_nth_error _ _ _ Hk); reflexivity|]. split.
        * intros j Hj. unfold concat. destruct (Nat.ltb_spec (0 + j) n); [|lia]. f_equal.
        * intros j Hj Hj'. unfold concat. destruct (Nat.ltb_spec (2 * (n - 1) - (0 + j)) n); [lia|].
          destruct (Hm name x (2 * (n - 1) - (0 + j) - n)) as (M1 & M2). rewrite Pr in M1, M2 by lia.
          replace (n - 2 - (2 * (n - 1) - (0 + j) - n)) with j in M1, M2 by lia. split; assumption.
  Qed.

  (** consequences of the layout *)
  Lemma extension_symmetric wind (s g : latset R X) : 0 < length (ls_lat s) -> mirror_extension negate wind s g ->
    forall j, j < 2 * length (ls_lat s) - 1 -> j <> length (ls_lat s) - 1 -> nth (2 * (length (ls_lat s) - 1) - j) (ls_lat g) 0%R = (- nth j (ls_lat g) 0)%R.
  Proof.
    intros Hn (o & Ho & _ & _ & _ & H1 & H2 & _) j Hj Hj'. set (n := length (ls_lat s)) in *.
    destruct Ho as [-> | ->].
    - destruct (Nat.lt_ge_cases j n) as [L|L].
      + rewrite <- (Nat.add_0_l j) at 1. rewrite H2 by lia. rewrite <- (H1 j L). reflexivity.
      + specialize (H2 (2 * (n - 1) - j) ltac:(lia) ltac:(lia)). cbn [Nat.add] in H2. replace (2 * (n - 1) - (2 * (n - 1) - j)) with j in H2 by lia.
        rewrite H2. rewrite <- (H1 (2 * (n - 1) - j)) by lia. cbn [Nat.add]. ring.
    - destruct (Nat.lt_ge_cases j n) as [L|L].
      + specialize (H2 (n - 1 - j) ltac:(lia) ltac:(lia)). replace (2 * (n - 1) - (n - 1 + (n - 1 - j))) with j in H2 by lia.
        rewrite H2. rewrite <- (H1 (n - 1 - j)) by lia. replace (n - 1 + (n - 1 - j)) with (2 * (n - 1) - j) by lia. ring.
      + specialize (H2 (j - (n - 1)) ltac:(lia) ltac:(lia)). replace (n - 1 + (j - (n - 1))) with j in H2 by lia. rewrite H2.
        rewrite <- (H1 (j - (n - 1))) by lia. replace (n - 1 + (j - (n - 1))) with j by lia. reflexivity.
  Qed.
  Lemma extension_row wind (s g : latset R X) : 0 < length (ls_lat s) -> mirror_extension negate wind s g ->
    forall j, j < 2 * length (ls_lat s) - 1 -> exists i, i < length (ls_lat s) /\ (j = length (ls_lat s) - 1 -> near_equator (nth i (ls_lat s) 0%R)) /\
      (nth j (ls_lat g) 0%R = nth i (ls_lat s) 0%R \/ nth j (ls_lat g) 0%R = (- nth i (ls_lat s) 0)%R).
  Proof.
    intros Hn (o & Ho & _ & _ & He & H1 & H2 & _) j Hj. set (n := length (ls_lat s)) in *.
    destruct Ho as [-> | ->].
    - destruct (Nat.lt_ge_cases j n) as [L|L].
      + exists j. split; [exact L|]. assert (E := H1 j L). cbn [Nat.add] in E. split; [|left; exact E]. intros ->. rewrite <- E. exact He.
      + exists (2 * (n - 1) - j). split; [lia|]. split; [lia|]. right. specialize (H2 (2 * (n - 1) - j) ltac:(lia) ltac:(lia)). cbn [Nat.add] in H2.
        replace (2 * (n - 1) - (2 * (n - 1) - j)) with j in H2 by lia. exact H2.
    - destruct (Nat.lt_ge_cases j (n - 1)) as [L|L].
      + exists (n - 1 - j). split; [lia|]. split; [lia|]. right. specialize (H2 (n - 1 - j) ltac:(lia) ltac:(lia)).
        replace (2 * (n - 1) - (n - 1 + (n - 1 - j))) with j in H2 by lia. exact H2.
      + exists (j - (n - 1)). split; [lia|]. assert (E := H1 (j - (n - 1)) ltac:(lia)). replace (n - 1 + (j - (n - 1))) with j in E by lia.
        split; [|left; exact E]. intros ->. rewrite <- E. exact He.
  Qed.
  Lemma extension_increasing wind (s g : latset R X) : 0 < length (ls_lat s) -> mirror_extension negate wind s g ->
    (forall j, j < length (ls_lat s) -> near_equator (nth j (ls_lat s) 0%R) -> nth j (ls_lat s) 0%R = 0%R) ->
    (increasing (ls_lat s) -> increasing (ls_lat g)) /\ (decreasing (ls_lat s) -> decreasing (ls_lat g)).
  Proof.
    intros Hn M Hz. assert (Hsym := extension_symmetric wind s g Hn M).
    destruct M as (o & Ho & Lg & _ & He & H1 & H2 & _). set (n := length (ls_lat s)) in *.
    assert (Z : nth (n - 1) (ls_lat g) 0%R = 0%R).
    { destruct Ho as [-> | ->].
      - assert (E := H1 (n - 1) ltac:(lia)). cbn [Nat.add] in E. rewrite E in *. apply Hz; [lia|exact He].
      - assert (E := H1 0 ltac:(lia)). rewrite Nat.add_0_r in E. rewrite E in *. apply Hz; [lia|exact He]. }
    (* half of the rows determines the other half *)
    assert (G : forall (lt : R -> R -> Prop), (forall x y z, lt x y -> lt y z -> lt x z) -> (forall x y, lt x y -> lt (- y)%R (- x)%R) ->
      (forall a b, a < b < n -> lt (nth (o + a) (ls_lat g) 0%R) (nth (o + b) (ls_lat g) 0%R)) ->
      forall a b, a < b < 2 * n - 1 -> lt (nth a (ls_lat g) 0%R) (nth b (ls_lat g) 0%R)).
    { intros lt Ht Hneg Hhalf.
      assert (Sy : forall j, j < 2 * n - 1 -> nth j (ls_lat g) 0%R = (- nth (2 * (n - 1) - j) (ls_lat g) 0)%R).
      { intros j Hj. destruct (Nat.eq_dec j (n - 1)) as [->|Hne]; [replace (2 * (n - 1) - (n - 1)) with (n - 1) by lia; rewrite Z; ring|].
        rewrite (Hsym j Hj Hne). ring. }
      assert (Lo : forall a b, a < b <= n - 1 -> lt (nth a (ls_lat g) 0%R) (nth b (ls_lat g) 0%R)).
      { intros a b Hab. destruct Ho as [-> | ->].
        - apply (Hhalf a b). lia.
        - rewrite (Sy a), (Sy b) by lia. apply Hneg. specialize (Hhalf (n - 1 - b) (n - 1 - a) ltac:(lia)).
          replace (n - 1 + (n - 1 - b)) with (2 * (n - 1) - b) in Hhalf by lia. replace (n - 1 + (n - 1 - a)) with (2 * (n - 1) - a) in Hhalf by lia. exact Hhalf. }
      assert (Hi : forall a b, n - 1 <= a < b /\ b < 2 * n - 1 -> lt (nth a (ls_lat g) 0%R) (nth b (ls_lat g) 0%R)).
      { intros a b Hab. rewrite (Sy a), (Sy b) by lia. apply Hneg. apply Lo. lia. }
      intros a b Hab. destruct (Nat.le_gt_cases b (n - 1)); [apply Lo; lia|]. destruct (Nat.le_gt_cases (n - 1) a); [apply Hi; lia|].
      apply Ht with (nth (n - 1) (ls_lat g) 0%R); [apply Lo; lia|apply Hi; lia]. }
    split; intros Hs a b Hab; rewrite Lg in Hab.
    - apply (G (fun x y => (x < y)%R)); [intros; lra|intros; lra| |exact Hab]. intros a' b' Hab'. rewrite !H1 by lia. apply Hs. exact Hab'.
    - apply (G (fun x y => (y < x)%R)); [intros; lra|intros; lra| |exact Hab]. intros a' b' Hab'. rewrite !H1 by lia. apply Hs. exact Hab'.
  Qed.
End Globe.
