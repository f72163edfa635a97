(** Proofs about QGDataset: construction, calls, collection. *)
From Coq Require Import ZifyNat.
From Verif Require Import BaseFacts SpecFacts XarraySpec XarrayProofs.
Ltac Zify.zify_post_hook ::= Z.to_euclidean_division_equations.
Open Scope nat_scope.

(** ** Orientation *)
Lemma Rltb_true x y : Rltb x y = true <-> (x < y)%R.
Proof. unfold Rltb. destruct (Rlt_dec x y); split; congruence. Qed.
Lemma chain_iff (r : R -> R -> bool) (P : R -> R -> Prop) : (forall x y, r x y = true <-> P x y) -> (forall x y z, P x y -> P y z -> P x z) ->
  forall l, chain r l = true <-> forall a b, a < b < length l -> P (nth a l 0%R) (nth b l 0%R).
Proof.
  intros Hr Ht. induction l as [|x l IH]; [cbn; split; [intros _ a b H; lia|reflexivity]|].
  destruct l as [|y l].
  - cbn. split; [intros _ a b H; lia|reflexivity].
  - change (chain r (x :: y :: l)) with (r x y && chain r (y :: l)). rewrite andb_true_iff, IH, Hr. split.
    + intros (H1 & H2) [|a] [|b] H; try lia.
      * destruct b as [|b]; [exact H1|]. apply Ht with y; [exact H1|]. change (nth (S (S b)) (x :: y :: l) 0%R) with (nth (S b) (y :: l) 0%R).
        change y with (nth 0 (y :: l) 0%R) at 1. apply H2. cbn in *; lia.
      * cbn [nth]. apply H2. cbn in *; lia.
    + intros H. split; [apply (H 0 1); cbn; lia|]. intros a b Hab. apply (H (S a) (S b)). cbn in *; lia.
Qed.
Lemma ascending_iff l : is_ascending l = true <-> increasing l.
Proof.
  unfold is_ascending, increasing. apply chain_iff.
  - intros x y. cbn [nltb nzero nsub RNum]. rewrite Rltb_true. lra.
  - intros; lra.
Qed.
Lemma descending_iff l : is_descending l = true <-> decreasing l.
Proof.
  unfold is_descending, decreasing. apply (chain_iff _ (fun x y => (y < x)%R)).
  - intros x y. cbn [nltb nzero nsub RNum]. rewrite Rltb_true. lra.
  - intros; lra.
Qed.
Lemma rev_increasing l : decreasing l -> increasing (rev l).
Proof. intros H a b Hab. rewrite rev_length in Hab. rewrite !rev_nth by lia. apply H. lia. Qed.
Lemma rev_decreasing l : increasing l -> decreasing (rev l).
Proof. intros H a b Hab. rewrite rev_length in Hab. rewrite !rev_nth by lia. apply H. lia. Qed.
Lemma monotonic_inj l a b : monotonic l -> a < length l -> b < length l -> nth a l 0%R = nth b l 0%R -> a = b.
Proof.
  intros H Ha Hb E. destruct (Nat.lt_trichotomy a b) as [L|[L|L]]; [|exact L|]; exfalso.
  - destruct H as [H|H]; specialize (H a b ltac:(lia)); lra.
  - destruct H as [H|H]; specialize (H b a ltac:(lia)); lra.
Qed.

(** ** Equal dimensions *)
Lemma labels_eqb_true (l l' : list R) : labels_eqb l l' = true -> l = l'.
Proof.
  unfold labels_eqb. rewrite andb_true_iff, Nat.eqb_eq, forallb_forall. intros (Hl & H).
  apply (nth_ext _ _ 0%R 0%R Hl). intros n Hn. specialize (H n). cbn [neqb nzero RNum] in H. rewrite Reqb_true in H. apply H. apply in_seq. lia.
Qed.
Lemma names_eqb_true l l' : names_eqb l l' = true -> l = l'.
Proof. unfold names_eqb. destruct (list_eq_dec _ _ _); [auto|discriminate]. Qed.
Lemma lookup_in (d : string) (x : list R) l : NoDup (map fst l) -> In (d, x) l -> lookup d l = Some x.
Proof.
  induction l as [|[e y] l IH]; cbn; intros Hn Hi; [tauto|]. inversion Hn as [|? ? H1 H2]; subst.
  destruct Hi as [Hi|Hi].
  - injection Hi as -> ->. rewrite String.eqb_refl. reflexivity.
  - destruct (String.eqb_spec d e) as [->|_]; [|auto]. exfalso. apply H1. change e with (fst (e, x)). apply in_map. exact Hi.
Qed.
Lemma same_dims (u v : dataarray R) : NoDup (da_names u) -> names_eqb (da_names u) (da_names v) = true -> same_labels u v = true -> da_dims v = da_dims u.
Proof.
  intros Hn He Hs. apply names_eqb_true in He. unfold same_labels in Hs. rewrite forallb_forall in Hs. unfold da_names in *.
  assert (Hv : NoDup (map fst (da_dims v))) by congruence.
  apply nth_ext with (d := (EmptyString, [])) (d' := (EmptyString, [])).
  { rewrite <- (map_length fst), <- He, map_length. reflexivity. }
  intros k Hk.
  assert (Hk' : k < length (da_dims u)) by (rewrite <- (map_length fst), He, map_length; exact Hk).
  assert (N : fst (nth k (da_dims v) (EmptyString, [])) = fst (nth k (da_dims u) (EmptyString, []))).
  { rewrite <- !(map_nth fst). rewrite He. reflexivity. }
  assert (I := nth_In (da_dims u) (EmptyString, []) Hk'). specialize (Hs _ I). assert (J := nth_In (da_dims v) (EmptyString, []) Hk).
  destruct (nth k (da_dims v) (EmptyString, [])) as [d x]. destruct (nth k (da_dims u) (EmptyString, [])) as [d' y]. cbn [fst snd] in *. subst d'.
  rewrite (lookup_in _ _ _ Hv J) in Hs. apply labels_eqb_true in Hs. congruence.
Qed.

(** ** Construction *)
(** the orientation the constructor chooses *)
Definition up (l : list R) : list R := if negb (is_ascending l) then rev l else l.
Definition down (l : list R) : list R := if negb (is_descending l) then rev l else l.
Lemma up_increasing l : monotonic l -> increasing (up l).
Proof.
  unfold up. intros H. destruct (is_ascending l) eqn:E; cbn [negb].
  - apply ascending_iff. exact E.
  - destruct H as [H|H]; [apply ascending_iff in H; congruence|]. apply rev_increasing. exact H.
Qed.
Lemma down_decreasing l : monotonic l -> decreasing (down l).
Proof.
  unfold down. intros H. destruct (is_descending l) eqn:E; cbn [negb].
  - apply descending_iff. exact E.
  - destruct H as [H|H]; [|apply descending_iff in H; congruence]. apply rev_decreasing. exact H.
Qed.
Lemma up_length l : length (up l) = length l.
Proof. unfold up. destruct (negb _); [apply rev_length|reflexivity]. Qed.
Lemma down_length l : length (down l) = length l.
Proof. unfold down. destruct (negb _); [apply rev_length|reflexivity]. Qed.
Lemma rev_or (b : bool) (l : list R) j : j < length l -> nth j (if b then rev l else l) 0%R = nth (if b then length l - 1 - j else j) l 0%R.
Proof. intros H. destruct b; [|reflexivity]. rewrite rev_nth by exact H. f_equal. lia. Qed.
Section Fields.
  Context {F : Type} (mk : list R -> list R -> list R -> nd R -> nd R -> nd R -> outcome F).


  Lemma field_holds (a : dataarray R) (b : nd R) other pn plev0 yn ylat0 xn xlon idx :
    da_dims a = other ++ [(pn, plev0); (yn, ylat0); (xn, xlon)] -> monotonic plev0 -> monotonic ylat0 ->
    reshape (da_nd a) (size_of (sizes other) :: [length plev0; length ylat0; length xlon]) = Ok b ->
    in_shape (sizes other) idx ->
    holds_field a idx plev0 ylat0 (down plev0) (up ylat0) (length xlon)
      (flip_field (negb (is_ascending ylat0)) (negb (is_descending plev0)) (row b (ravel (sizes other) idx))).
  Proof.
    intros Hd Hp Hy Hb Hi. assert (Hsb := reshape_shape _ _ _ Hb).
    assert (Hsa : nd_shape (da_nd a) = sizes other ++ [length plev0; length ylat0; length xlon]).
    { cbn. unfold da_shape. rewrite Hd, map_app. reflexivity. }
    unfold flip_field. cbn [row nd_shape]. rewrite Hsb. cbn [tl]. split.
    - cbn [nd_shape]. rewrite up_length, down_length. reflexivity.
    - rewrite up_length, down_length. intros k j i k0 j0 Hk Hj Hi' Hk0 Hj0 Ek Ej. cbn [nd_at].
      assert (K : (if negb (is_descending plev0) then length plev0 - 1 - k else k) = k0).
      { unfold down in Ek. rewrite rev_or in Ek by exact Hk. apply (monotonic_inj plev0); auto. destruct (negb _); lia. }
      assert (J : (if negb (is_ascending ylat0) then length ylat0 - 1 - j else j) = j0).
      { unfold up in Ej. rewrite rev_or in Ej by exact Hj. apply (monotonic_inj ylat0); auto. destruct (negb _); lia. }
      rewrite K, J. apply (flatten_at _ _ _ _ Hsa Hb _ _ Hi). repeat constructor; assumption.
  Qed.

  Lemma make_fields user u v t q other pn plev0 yn ylat0 xn xlon :
    NoDup (da_names u) -> da_dims u = other ++ [(pn, plev0); (yn, ylat0); (xn, xlon)] -> monotonic plev0 -> monotonic ylat0 ->
    make_dataset mk user u v t = Ok q ->
    q_other q = other /\ length (q_fields q) = size_of (sizes other) /\ 0 < length (q_fields q) /\
    forall idx, in_shape (sizes other) idx -> exists f u' v' t', nth_error (q_fields q) (ravel (sizes other) idx) = Some f /\
      mk xlon (up ylat0) (down plev0) u' v' t' = Ok f /\
      holds_field u idx plev0 ylat0 (down plev0) (up ylat0) (length xlon) u' /\
      holds_field v idx plev0 ylat0 (down plev0) (up ylat0) (length xlon) v' /\
      holds_field t idx plev0 ylat0 (down plev0) (up ylat0) (length xlon) t'.
  Proof.
    intros Hn Hd Hp Hy H. unfold make_dataset in H.
    apply check_ok in H; [|discriminate]. destruct H as (Hm & H). apply andb_true_iff in Hm. destruct Hm as (Hm & _). apply andb_true_iff in Hm. destruct Hm as (Huv & Hut).
    apply bind_ok in H; destruct H as (pname & _ & H). apply bind_ok in H; destruct H as (yname & _ & H). apply bind_ok in H; destruct H as (xname & _ & H).
    apply check_ok in H; [|discriminate]. destruct H as (Hc & H). apply andb_true_iff in Hc. destruct Hc as (Hc & Ht). apply andb_true_iff in Hc. destruct Hc as (_ & Hv).
    assert (Dv : da_dims v = da_dims u) by (apply same_dims; assumption).
    assert (Dt : da_dims t = da_dims u) by (apply same_dims; assumption).
    assert (Hl : length (da_dims u) - 3 = length other) by (rewrite Hd, app_length; cbn; lia).
    cbv zeta in H. rewrite Hl in H. rewrite Hd in H.
    assert (E1 : firstn (length other) (other ++ [(pn, plev0); (yn, ylat0); (xn, xlon)]) = other)
      by (rewrite firstn_app, firstn_all, Nat.sub_diag; cbn; apply app_nil_r).
    assert (E2 : forall k d, nth (length other + k) (other ++ [(pn, plev0); (yn, ylat0); (xn, xlon)]) d = nth k [(pn, plev0); (yn, ylat0); (xn, xlon)] d)
      by (intros k d; rewrite app_nth2 by lia; f_equal; lia).
    assert (E2' : forall d, nth (length other) (other ++ [(pn, plev0); (yn, ylat0); (xn, xlon)]) d = (pn, plev0))
      by (intros d; rewrite app_nth2 by lia; rewrite Nat.sub_diag; reflexivity).
    assert (E3 : skipn (length other) (da_shape u) = [length plev0; length ylat0; length xlon]).
    { unfold da_shape. rewrite Hd, map_app. rewrite skipn_app, map_length, Nat.sub_diag, skipn_all2 by (rewrite map_length; lia). reflexivity. }
    rewrite E1, !E2, E2', E3 in H. cbn [nth snd hd] in H.
    fold (sizes other) in H.
    apply bind_ok in H; destruct H as (u2 & Hu2 & H). apply bind_ok in H; destruct H as (v2 & Hv2 & H). apply bind_ok in H; destruct H as (t2 & Ht2 & H).
    cbv zeta in H. apply bind_ok in H; destruct H as (fs & Hfs & H). apply check_ok in H; [|discriminate]. destruct H as (Hne & H).
    injection H as <-. cbn [q_fields q_other]. apply traverse_ok in Hfs. assert (Lf := F2_length _ _ _ Hfs). rewrite seq_length in Lf.
    split; [reflexivity|]. split; [congruence|]. split; [apply negb_true_iff, Nat.eqb_neq in Hne; lia|].
    intros idx Hi. assert (B := ravel_lt _ _ Hi).
    destruct (nth_error fs (ravel (sizes other) idx)) as [f|] eqn:Ef; [|apply nth_error_None in Ef; lia].
    exists f. do 3 eexists. split; [reflexivity|]. split.
    { assert (En : nth_error (seq 0 (size_of (sizes other))) (ravel (sizes other) idx) = Some (ravel (sizes other) idx)).
      { rewrite (nth_error_nth' _ 0) by (rewrite seq_length; exact B). rewrite seq_nth by exact B. reflexivity. }
      exact (Forall2_nth _ _ _ Hfs _ _ _ En Ef). }
    split; [|split].
    - eapply field_holds; eassumption.
    - eapply field_holds; [rewrite Dv; eassumption|eassumption..].
    - eapply field_holds; [rewrite Dt; eassumption|eassumption..].
  Qed.

End Fields.

Section Requests.
  Context {F : Type}.
  (** ** Calls *)
  Lemma coord_at_pick dims idx : length idx = length dims -> coord_at dims idx = combine (map fst dims) (pick 0%R (map snd dims) idx).
  Proof.
    unfold coord_at. revert idx; induction dims as [|[d l] dims IH]; intros [|i idx] H; cbn in *; try discriminate; [reflexivity|].
    f_equal. apply IH. lia.
  Qed.
  Lemma iter_at (q : qgds R F) idx : in_shape (sizes (q_other q)) idx ->
    nth_error (iter_other q) (ravel (sizes (q_other q)) idx) = Some (coord_at (q_other q) idx).
  Proof.
    intros H. unfold iter_other. rewrite coord_at_pick by (rewrite (in_shape_length _ _ H); apply map_length).
    apply map_nth_error. unfold sizes in *.
    replace (map (fun d : string * list R => length (snd d)) (q_other q)) with (map (@length R) (map snd (q_other q))) in * by apply map_map.
    apply product_at. exact H.
  Qed.
  Lemma iter_length (q : qgds R F) : length (iter_other q) = size_of (sizes (q_other q)).
  Proof. unfold iter_other. rewrite map_length, product_length, map_map. reflexivity. Qed.
  Lemma combine_nth_error {T U : Type} (l : list T) (l' : list U) k x y : nth_error l k = Some x -> nth_error l' k = Some y -> nth_error (combine l l') k = Some (x, y).
  Proof. revert l' k; induction l as [|a l IH]; intros [|b l'] [|k] Hx Hy; cbn in *; try discriminate; [congruence|auto]. Qed.

  Lemma request_one (r : request (F := F)) q q' : distinct_labels r -> length (q_fields q) = size_of (sizes (q_other q)) -> request_all r q = Ok q' ->
    q_other q' = q_other q /\ length (q_fields q') = length (q_fields q) /\
    forall idx f, in_shape (sizes (q_other q)) idx -> nth_error (q_fields q) (ravel (sizes (q_other q)) idx) = Some f ->
      exists f', nth_error (q_fields q') (ravel (sizes (q_other q)) idx) = Some f' /\ one_request (coord_at (q_other q) idx) r f f'.
  Proof.
    intros Hd Hl H. destruct r as [m|m nc]; cbn [request_all] in H.
    - unfold call_all in H. apply bind_ok in H; destruct H as (fs & Hfs & H). injection H as <-. cbn [q_other q_fields].
      apply traverse_ok in Hfs. assert (L := F2_length _ _ _ Hfs). split; [reflexivity|]. split; [congruence|].
      intros idx f Hi Hf. destruct (nth_error fs (ravel (sizes (q_other q)) idx)) as [f'|] eqn:E.
      + exists f'. split; [reflexivity|]. constructor. exact (Forall2_nth _ _ _ Hfs _ _ _ Hf E).
      + apply nth_error_None in E. assert (ravel (sizes (q_other q)) idx < length (q_fields q)) by (apply nth_error_Some; congruence). lia.
    - unfold call_with in H. apply bind_ok in H; destruct H as (fs & Hfs & H). injection H as <-. cbn [q_other q_fields].
      apply traverse_ok in Hfs. assert (L := F2_length _ _ _ Hfs). rewrite combine_length, iter_length, <- Hl, Nat.min_id in L.
      rewrite <- L, skipn_all, app_nil_r. split; [reflexivity|]. split; [congruence|].
      intros idx f Hi Hf. destruct (nth_error fs (ravel (sizes (q_other q)) idx)) as [f'|] eqn:E.
      + exists f'. split; [reflexivity|].
        assert (K := Forall2_nth _ _ _ Hfs _ _ _ (combine_nth_error _ _ _ _ _ Hf (iter_at q idx Hi)) E). cbn [fst snd] in K.
        destruct nc as [nc|].
        * apply bind_ok in K. destruct K as (s & Hs & K). cbn in Hd. destruct Hd as (Hn & Hlab).
          apply one_forced with s; [|exact K]. apply sel_part; assumption.
        * constructor. exact K.
      + apply nth_error_None in E. assert (ravel (sizes (q_other q)) idx < length (q_fields q)) by (apply nth_error_Some; congruence). lia.
  Qed.
  Lemma requests_one (rs : list (request (F := F))) q q' : Forall distinct_labels rs -> length (q_fields q) = size_of (sizes (q_other q)) -> requests_all rs q = Ok q' ->
    q_other q' = q_other q /\ length (q_fields q') = length (q_fields q) /\
    forall idx f, in_shape (sizes (q_other q)) idx -> nth_error (q_fields q) (ravel (sizes (q_other q)) idx) = Some f ->
      exists f', nth_error (q_fields q') (ravel (sizes (q_other q)) idx) = Some f' /\ one_field (coord_at (q_other q) idx) rs f f'.
  Proof.
    intros Hd. revert q; induction Hd as [|r rs Hr Hrs IH]; intros q Hl H; cbn in H.
    - injection H as <-. split; [reflexivity|]. split; [reflexivity|]. intros idx f Hi Hf. exists f. split; [exact Hf|constructor].
    - apply bind_ok in H; destruct H as (q1 & H1 & H).
      destruct (request_one r q q1 Hr Hl H1) as (O1 & L1 & P1).
      destruct (IH q1 ltac:(congruence) H) as (O2 & L2 & P2).
      split; [congruence|]. split; [congruence|]. intros idx f Hi Hf.
      destruct (P1 idx f Hi Hf) as (f1 & Hf1 & R1). rewrite O1 in P2. destruct (P2 idx f1 Hi Hf1) as (f2 & Hf2 & R2).
      exists f2. split; [exact Hf2|]. econstructor; eassumption.
  Qed.

End Requests.

Section Collection.
  Context {F : Type} (attr : F -> string -> list R).
  (** ** Collection *)
  Lemma asarray_at (l : list (nd R)) a : asarray 0%R l = Ok a -> 0 < length l ->
    exists x0, In x0 l /\ nd_shape a = length l :: nd_shape x0 /\ (forall x, In x l -> nd_shape x = nd_shape x0) /\
      forall p x c, nth_error l p = Some x -> nd_at a (p :: c) = nd_at x c.
  Proof.
    destruct l as [|x0 l0]; [cbn; lia|]. intros H _. exists x0. split; [left; reflexivity|]. unfold asarray in H.
    destruct (forallb _ _) eqn:E; [|discriminate]. assert (Ha : forall (x y : nd R), Ok x = Ok y -> x = y) by congruence. apply Ha in H. subst a. clear Ha.
    rewrite forallb_forall in E. split; [reflexivity|]. split.
    - intros x Hx. apply shape_eqb_true, E, Hx.
    - intros p x c Hx. cbn [nd_at]. rewrite (nth_error_nth _ _ x0 Hx). reflexivity.
  Qed.
  Lemma as_dataarray_at (q : qgds R F) (l : list (nd R)) a var d core :
    length l = size_of (sizes (q_other q)) -> 0 < length l ->
    core_coords attr q var = Ok core -> (forall x, In x l -> length (nd_shape x) = length core) ->
    asarray 0%R l = Ok a -> as_dataarray attr q a var = Ok d ->
    da_dims d = q_other q ++ core /\
    forall idx c x, in_shape (sizes (q_other q)) idx -> in_shape (sizes core) c -> nth_error l (ravel (sizes (q_other q)) idx) = Some x ->
      nd_shape x = sizes core /\ da_at d (idx ++ c) = nd_at x c.
  Proof.
    intros Hl Hpos Hcore Hr Ha H. unfold as_dataarray in H. rewrite Hcore in H. cbn [bind] in H.
    apply bind_ok in H. destruct H as (b & Hb & H). apply check_ok in H; [|discriminate]. destruct H as (Hs & H). injection H as <-.
    apply shape_eqb_true in Hs. split; [reflexivity|].
    destruct (asarray_at l a Ha Hpos) as (x0 & Ix & Sa & Sx & Pa).
    assert (Hx0 : length (nd_shape x0) = length core) by (apply Hr; exact Ix).
    rewrite map_app in Hs. fold (sizes (q_other q)) (sizes core) in Hs.
    assert (Lc : length (sizes core) = length core) by apply map_length.
    assert (G : nd_shape x0 = sizes core /\ forall idx c, in_shape (sizes (q_other q)) idx -> in_shape (sizes core) c -> nd_at b (idx ++ c) = nd_at a (ravel (sizes (q_other q)) idx :: c)).
    { destruct (shape_eqb (nd_shape a) _) eqn:Es.
      - injection Hb as <-. rewrite Sa in Hs.
        assert (Lo : length (sizes (q_other q)) = 1) by (assert (Z := f_equal (@length nat) Hs); rewrite app_length in Z; cbn [length] in Z; lia).
        clear Hl. destruct (sizes (q_other q)) as [|n [|? ?]]; try discriminate. cbn [app] in Hs. injection Hs as _ Hs. split; [exact Hs|].
        intros idx c Hi Hc. inversion Hi as [|i s i' s' H1 H2 E1 E2]; subst. inversion H2; subst. cbn [app ravel]. change (size_of []) with 1.
        rewrite Nat.mul_1_r, Nat.add_0_r. reflexivity.
      - unfold restore_other in Hb. apply check_ok in Hb; [|discriminate]. destruct Hb as (_ & Hb). rewrite Sa in Hb. cbn [tl] in Hb.
        assert (Hsb := reshape_shape _ _ _ Hb). change (other_shape q) with (sizes (q_other q)) in Hsb. rewrite Hsb in Hs. apply app_inv_head in Hs. split; [exact Hs|].
        change (other_shape q) with (sizes (q_other q)) in Hb. intros idx c Hi Hc.
        rewrite (restore_at a b (sizes (q_other q)) (nd_shape x0)); [reflexivity|rewrite Sa, Hl; reflexivity|exact Hb|exact Hi|rewrite Hs; exact Hc]. }
    destruct G as (G1 & G2). intros idx c x Hi Hc Hx. split.
    - rewrite <- G1. apply Sx. apply nth_error_In in Hx. exact Hx.
    - cbn [da_at]. rewrite G2 by assumption. apply Pa. exact Hx.
  Qed.
  Lemma collect_at (q : qgds R F) get var d core :
    length (q_fields q) = size_of (sizes (q_other q)) -> 0 < length (q_fields q) ->
    core_coords attr q var = Ok core -> (forall f x, In f (q_fields q) -> get f = Ok x -> length (nd_shape x) = length core) ->
    collect attr get q var = Ok d ->
    da_dims d = q_other q ++ core /\
    forall idx c f, in_shape (sizes (q_other q)) idx -> in_shape (sizes core) c -> nth_error (q_fields q) (ravel (sizes (q_other q)) idx) = Some f ->
      exists x, get f = Ok x /\ nd_shape x = sizes core /\ da_at d (idx ++ c) = nd_at x c.
  Proof.
    intros Hl Hpos Hcore Hr H. unfold collect in H. apply bind_ok in H; destruct H as (l & Hlist & H). apply bind_ok in H; destruct H as (a & Ha & H).
    apply traverse_ok in Hlist. assert (L := F2_length _ _ _ Hlist).
    assert (R' : forall x, In x l -> length (nd_shape x) = length core).
    { intros x Hx. apply In_nth_error in Hx. destruct Hx as (k & Hk).
      destruct (nth_error (q_fields q) k) as [f|] eqn:Ef.
      - apply (Hr f x); [apply nth_error_In in Ef; exact Ef|]. exact (Forall2_nth _ _ _ Hlist _ _ _ Ef Hk).
      - apply nth_error_None in Ef. assert (k < length l) by (apply nth_error_Some; congruence). lia. }
    destruct (as_dataarray_at q l a var d core ltac:(congruence) ltac:(lia) Hcore R' Ha H) as (D & P).
    split; [exact D|]. intros idx c f Hi Hc Hf.
    destruct (nth_error l (ravel (sizes (q_other q)) idx)) as [x|] eqn:Ex.
    - exists x. split; [exact (Forall2_nth _ _ _ Hlist _ _ _ Hf Ex)|]. apply P; assumption.
    - apply nth_error_None in Ex. assert (ravel (sizes (q_other q)) idx < length (q_fields q)) by (apply nth_error_Some; congruence). lia.
  Qed.
End Collection.
