(** Proofs about the dataset interface. *)
From Coq Require Import ZifyNat.
From Verif Require Import BaseFacts SpecFacts XarraySpec.
Ltac Zify.zify_post_hook ::= Z.to_euclidean_division_equations.
Open Scope nat_scope.

(** ** Outcomes *)
Lemma bind_ok {T U : Type} (o : outcome T) (f : T -> outcome U) y : bind o f = Ok y -> exists x, o = Ok x /\ f x = Ok y.
Proof. destruct o; cbn; try discriminate. eauto. Qed.
Lemma check_ok {T : Type} b (e k : outcome T) y : (forall x, e <> Ok x) -> check b e k = Ok y -> b = true /\ k = Ok y.
Proof. destruct b; cbn; intros He H; [auto|]. exfalso; exact (He _ H). Qed.
Lemma traverse_ok {T U : Type} (f : T -> outcome U) l ys : traverse f l = Ok ys -> Forall2 (fun x y => f x = Ok y) l ys.
Proof.
  revert ys; induction l as [|x l IH]; intros ys H; cbn in H.
  - injection H as <-; constructor.
  - apply bind_ok in H; destruct H as (y & Hy & H). apply bind_ok in H; destruct H as (zs & Hz & H).
    injection H as <-. constructor; auto.
Qed.
Lemma traverse_all {T U : Type} (f : T -> outcome U) l ys : Forall2 (fun x y => f x = Ok y) l ys -> traverse f l = Ok ys.
Proof. induction 1 as [|x y l l' H _ IH]; cbn; [reflexivity|]. rewrite H; cbn. rewrite IH; reflexivity. Qed.
Lemma F2_length {T U : Type} (P : T -> U -> Prop) l l' : Forall2 P l l' -> length l = length l'.
Proof. induction 1; cbn; congruence. Qed.
Lemma Forall2_nth {T U : Type} (P : T -> U -> Prop) l l' : Forall2 P l l' -> forall k x y, nth_error l k = Some x -> nth_error l' k = Some y -> P x y.
Proof.
  induction 1 as [|a b l l' H _ IH]; intros [|k] x y Hx Hy; cbn in *; try discriminate.
  - injection Hx as <-; injection Hy as <-; exact H.
  - eauto.
Qed.

(** ** C order *)
Lemma size_cons x a : size_of (x :: a) = x * size_of a.
Proof. reflexivity. Qed.
Lemma size_app a b : size_of (a ++ b) = size_of a * size_of b.
Proof.
  induction a as [|x a IH]; cbn [app].
  - change (size_of []) with 1. lia.
  - change (size_of (x :: a ++ b)) with (x * size_of (a ++ b)). change (size_of (x :: a)) with (x * size_of a). rewrite IH. lia.
Qed.
Lemma size_pos sh idx : in_shape sh idx -> 0 < size_of sh.
Proof. induction 1 as [|i s idx sh H _ IH]; [cbn; lia|]. rewrite size_cons. nia. Qed.
Lemma in_shape_length sh idx : in_shape sh idx -> length idx = length sh.
Proof. apply F2_length. Qed.
Lemma ravel_lt sh idx : in_shape sh idx -> ravel sh idx < size_of sh.
Proof. induction 1 as [|i s idx sh H _ IH]; [cbn; lia|]. rewrite size_cons. cbn [ravel]. nia. Qed.
Lemma unravel_ravel sh idx : in_shape sh idx -> unravel sh (ravel sh idx) = idx.
Proof.
  induction 1 as [|i s idx sh H R IH]; cbn; [reflexivity|].
  assert (B := ravel_lt _ _ R).
  rewrite Nat.div_add_l by lia. rewrite Nat.div_small by exact B. rewrite Nat.add_0_r. f_equal.
  rewrite Nat.add_comm, Nat.mod_add by lia. rewrite Nat.mod_small by exact B. exact IH.
Qed.
Lemma unravel_in sh p : p < size_of sh -> in_shape sh (unravel sh p) /\ ravel sh (unravel sh p) = p.
Proof.
  revert p; induction sh as [|s sh IH]; intros p H; cbn in *; [split; [constructor|lia]|].
  fold (size_of sh) in H.
  assert (size_of sh <> 0) by (intros E; rewrite E in H; lia).
  assert (M : p mod size_of sh < size_of sh) by (apply Nat.mod_upper_bound; assumption).
  destruct (IH _ M) as [I R]. split.
  - constructor; [|exact I]. apply Nat.div_lt_upper_bound; [assumption|lia].
  - rewrite R. rewrite (Nat.mul_comm (p / size_of sh)). symmetry. apply Nat.div_mod. assumption.
Qed.
Lemma ravel_app a b i j : length i = length a -> ravel (a ++ b) (i ++ j) = ravel a i * size_of b + ravel b j.
Proof.
  revert i; induction a as [|x a IH]; intros [|y i] H; cbn in *; try discriminate; [reflexivity|].
  rewrite IH by lia. rewrite size_app. lia.
Qed.
Lemma in_shape_app a b i j : in_shape a i -> in_shape b j -> in_shape (a ++ b) (i ++ j).
Proof. intros Ha Hb. apply Forall2_app; assumption. Qed.
Lemma shape_eqb_true s s' : shape_eqb s s' = true -> s = s'.
Proof. unfold shape_eqb. destruct (list_eq_dec _ _ _); [auto|discriminate]. Qed.
Lemma shape_eqb_refl s : shape_eqb s s = true.
Proof. unfold shape_eqb. destruct (list_eq_dec _ _ _); congruence. Qed.

(** flattening the leading dimensions and restoring them *)
Lemma flatten_at {A : Type} (a b : nd A) other core : nd_shape a = other ++ core -> reshape a (size_of other :: core) = Ok b ->
  forall idx c, in_shape other idx -> in_shape core c -> nd_at b (ravel other idx :: c) = nd_at a (idx ++ c).
Proof.
  unfold reshape. intros Hs H idx c Hi Hc. destruct (_ =? _); [|discriminate]. injection H as <-. cbn [nd_at]. rewrite Hs.
  cbn [ravel]. rewrite <- ravel_app by (apply in_shape_length; exact Hi).
  rewrite unravel_ravel by (apply in_shape_app; assumption). reflexivity.
Qed.
Lemma restore_at {A : Type} (a b : nd A) other core : nd_shape a = size_of other :: core -> reshape a (other ++ core) = Ok b ->
  forall idx c, in_shape other idx -> in_shape core c -> nd_at b (idx ++ c) = nd_at a (ravel other idx :: c).
Proof.
  unfold reshape. intros Hs H idx c Hi Hc. destruct (_ =? _); [|discriminate]. injection H as <-. cbn [nd_at]. rewrite Hs.
  rewrite ravel_app by (apply in_shape_length; exact Hi).
  change (ravel other idx * size_of core + ravel core c) with (ravel (size_of other :: core) (ravel other idx :: c)).
  rewrite unravel_ravel; [reflexivity|]. constructor; [apply ravel_lt; exact Hi|exact Hc].
Qed.
Lemma reshape_shape {A : Type} (a b : nd A) sh : reshape a sh = Ok b -> nd_shape b = sh.
Proof. unfold reshape. destruct (_ =? _); [|discriminate]. intros H; injection H as <-; reflexivity. Qed.
Lemma reshape_total {A : Type} (a : nd A) sh : size_of sh = size_of (nd_shape a) -> exists b, reshape a sh = Ok b.
Proof. unfold reshape. intros ->. rewrite Nat.eqb_refl. eauto. Qed.

(** itertools.product visits the labels in C order *)
Lemma product_length {A : Type} (ls : list (list A)) : length (product ls) = size_of (map (@length A) ls).
Proof.
  induction ls as [|l ls IH]; cbn; [reflexivity|]. fold (size_of (map (@length A) ls)). rewrite <- IH. clear IH.
  induction l as [|x l IH]; cbn; [reflexivity|]. rewrite app_length, map_length, IH. reflexivity.
Qed.
Fixpoint pick {A : Type} (d : A) (ls : list (list A)) (idx : list nat) : list A :=
  match ls, idx with l :: ls, i :: idx => nth i l d :: pick d ls idx | _, _ => [] end.
Lemma product_at {A : Type} (d : A) ls idx : in_shape (map (@length A) ls) idx ->
  nth_error (product ls) (ravel (map (@length A) ls) idx) = Some (pick d ls idx).
Proof.
  revert idx; induction ls as [|l ls IH]; intros idx H; inversion H as [|i s idx' sh Hi Hr E1 E2]; subst; cbn; [reflexivity|].
  rewrite <- product_length. specialize (IH _ Hr). set (P := product ls) in *.
  assert (B : ravel (map (length (A:=A)) ls) idx' < length P) by (unfold P; rewrite product_length; apply ravel_lt; exact Hr).
  clear H Hr. revert i Hi; induction l as [|x l IHl]; intros i Hi; cbn in *; [lia|].
  destruct i as [|i].
  - cbn [Nat.mul Nat.add]. rewrite nth_error_app1 by (rewrite map_length; exact B).
    rewrite (map_nth_error _ _ _ IH). reflexivity.
  - rewrite nth_error_app2 by (rewrite map_length; nia). rewrite map_length.
    replace (S i * length P + _ - length P) with (i * length P + ravel (map (length (A:=A)) ls) idx') by lia.
    rewrite IHl by lia. reflexivity.
Qed.

(** ** Lookup of names *)
Lemma first_in_ok ds names n : first_in ds names = Ok n <->
  ds n = true /\ exists before after, names = before ++ n :: after /\ forall m, In m before -> ds m = false.
Proof.
  induction names as [|x names IH]; cbn.
  - split; [discriminate|]. intros (_ & [|] & ? & ? & _); discriminate.
  - destruct (ds x) eqn:E.
    + split.
      * intros H; injection H as <-. split; [exact E|]. exists [], names. split; [reflexivity|]. intros m [].
      * intros (Hn & [|y before] & after & H & Hb); cbn in H; injection H as <- H; [reflexivity|].
        rewrite (Hb x) in E by (left; reflexivity). discriminate.
    + rewrite IH. split.
      * intros (Hn & before & after & -> & Hb). split; [exact Hn|]. exists (x :: before), after. split; [reflexivity|].
        intros m [<- | Hm]; auto.
      * intros (Hn & [|y before] & after & H & Hb); cbn in H; injection H as <- H.
        -- congruence.
        -- split; [exact Hn|]. exists before, after. split; [exact H|]. intros m Hm. apply Hb. right; exact Hm.
Qed.
Lemma get_name_ok ds names user n : names <> [] -> (get_name ds names user = Ok n <-> resolves ds names user n).
Proof.
  intros Hn. destruct names as [|n0 names]; [congruence|]. unfold get_name, resolves, overrides. cbn [hd].
  destruct (match user with Some d => lookup n0 d | None => None end) as [o|] eqn:E.
  - destruct user as [d|]; [|discriminate]. split.
    + destruct (ds o) eqn:Eo; [|discriminate]. intros H; injection H as <-. split; [exact Eo|]. left. eauto.
    + intros (Hds & [(d' & H1 & H2) | (H & _)]).
      * injection H1 as <-. rewrite E in H2. injection H2 as ->. rewrite Hds. reflexivity.
      * exfalso. apply (H o). eauto.
  - rewrite first_in_ok. split.
    + intros (Hds & H). split; [exact Hds|]. right. split; [|exact H]. intros m (d & -> & Hm). cbn in E. congruence.
    + intros (Hds & [(d & -> & Hm) | (_ & H)]).
      * congruence.
      * split; [exact Hds|exact H].
Qed.
Lemma first_in_total ds names : (exists n, first_in ds names = Ok n) \/ first_in ds names = KeyErr.
Proof. induction names as [|x l IH]; cbn; [auto|]. destruct (ds x); [left; eauto|exact IH]. Qed.
Lemma get_name_total ds names user : names <> [] -> (exists n, get_name ds names user = Ok n) \/ get_name ds names user = KeyErr.
Proof.
  intros Hn. destruct names as [|n0 names]; [congruence|]. unfold get_name.
  destruct (match user with Some d => lookup n0 d | None => None end) as [o|]; [|apply first_in_total].
  destruct (ds o); [left; eauto|right; reflexivity].
Qed.
Lemma get_name_err ds names user : names <> [] -> (forall n, ~ resolves ds names user n) -> get_name ds names user = KeyErr.
Proof.
  intros Hn H. destruct (get_name_total ds names user Hn) as [[n E]|E]; [|exact E].
  exfalso. apply (H n). apply get_name_ok; assumption.
Qed.

(** ** Selection by label *)
Lemma Reqb_true x y : Reqb x y = true <-> x = y.
Proof. unfold Reqb. destruct (Req_EM_T x y); split; congruence. Qed.
Lemma positions_in (x : R) l p : In p (positions x l) <-> nth_error l p = Some x.
Proof.
  unfold positions. rewrite filter_In, in_seq. cbn [neqb nzero RNum]. rewrite Reqb_true. split.
  - intros (H & E). rewrite <- E. apply nth_error_nth'. lia.
  - intros H. split; [assert (p < length l) by (apply nth_error_Some; congruence); lia|]. apply nth_error_nth. exact H.
Qed.
Lemma filter_nodup {A : Type} (f : A -> bool) l : NoDup l -> NoDup (filter f l).
Proof. apply NoDup_filter. Qed.
Lemma positions_nodup (x : R) l : NoDup l -> positions x l = [] \/ exists p, positions x l = [p] /\ nth_error l p = Some x.
Proof.
  intros H. assert (K : NoDup (positions x l)) by (apply NoDup_filter, seq_NoDup).
  assert (I := positions_in x l). destruct (positions x l) as [|p [|p' ps]]; [auto| |].
  - right. exists p. split; [reflexivity|]. apply I. left; reflexivity.
  - exfalso. assert (E : nth_error l p = nth_error l p') by (rewrite (proj1 (I p)), (proj1 (I p')); [reflexivity|right; left; reflexivity|left; reflexivity]).
    assert (p < length l) by (apply nth_error_Some; rewrite (proj1 (I p)); [discriminate|left; reflexivity]).
    apply (proj1 (NoDup_nth_error l) H) in E; [|assumption]. subst p'. inversion K as [|? ? Hn _]. apply Hn. left; reflexivity.
Qed.
Lemma find_dim_some d (l : list (string * list R)) k : find_dim d l = Some k ->
  exists pre x post, l = pre ++ (d, x) :: post /\ length pre = k /\ lookup d l = Some x.
Proof.
  revert k; induction l as [|[d' y] l IH]; intros k H; cbn in *; [discriminate|].
  destruct (String.eqb_spec d d') as [<- | Hd].
  - injection H as <-. exists [], y, l. auto.
  - destruct (find_dim d l) as [k'|]; [|discriminate]. injection H as <-.
    destruct (IH _ eq_refl) as (pre & x & post & -> & Hk & Hl). exists ((d', y) :: pre), x, post. cbn. auto.
Qed.
Lemma filter_none {T : Type} (f : T -> bool) l : (forall x, In x l -> f x = true) -> filter f l = l.
Proof. induction l as [|a l IH]; intros H; cbn; [reflexivity|]. rewrite (H a) by (left; reflexivity). f_equal. apply IH. intros x Hx. apply H; right; exact Hx. Qed.
Lemma names_mid (pre : list (string * list R)) d x post : NoDup (map fst (pre ++ (d, x) :: post)) ->
  forall e, In e (pre ++ post) -> String.eqb (fst e) d = false.
Proof.
  rewrite map_app. cbn. intros H e He. apply String.eqb_neq. intros E.
  apply NoDup_remove_2 in H. apply H. rewrite <- E, <- map_app. apply in_map. exact He.
Qed.

(** one dimension *)
Lemma sel1_part d x a s : NoDup (da_names a) -> (forall e l, lookup e (da_dims a) = Some l -> NoDup l) ->
  sel1 d x a = Ok s ->
  da_dims s = filter (fun e => negb (String.eqb (fst e) d)) (da_dims a) /\
  (forall g, labelled a g d x -> at_named s g = at_named a g) /\ exists p, forall g, g d = p -> labelled a g d x.
Proof.
  intros Hn Hl. unfold sel1. destruct (find_dim d (da_dims a)) as [k|] eqn:E; [|discriminate].
  destruct (find_dim_some _ _ _ E) as (pre & y & post & Ha & Hk & Hy).
  assert (Hf : firstn k (pre ++ (d, y) :: post) = pre) by (rewrite <- Hk, firstn_app, firstn_all, Nat.sub_diag; cbn; apply app_nil_r).
  assert (Hs : skipn (S k) (pre ++ (d, y) :: post) = post).
  { rewrite skipn_app, skipn_all2 by lia. replace (S k - length pre) with 1 by lia. reflexivity. }
  rewrite Ha, Hf, Hs. rewrite app_nth2 by lia. replace (k - length pre) with 0 by lia. cbn [nth snd].
  destruct (positions_nodup x y (Hl _ _ Hy)) as [P|(p & P & Hp)]; rewrite P; [discriminate|].
  intros H. injection H as <-. unfold at_named, da_names. cbn [da_dims da_at]. rewrite Ha.
  unfold da_names in Hn. rewrite Ha in Hn. assert (M := names_mid _ _ _ _ Hn).
  split; [|split].
  - rewrite filter_app. cbn. rewrite String.eqb_refl. cbn. rewrite <- filter_app. symmetry. apply filter_none.
    intros e He. rewrite M by exact He. reflexivity.
  - intros g (l & Hl1 & Hl2). rewrite Hy in Hl1. injection Hl1 as <-.
    assert (g d = p).
    { assert (p < length y) by (apply nth_error_Some; congruence).
      symmetry. apply (proj1 (NoDup_nth_error y) (Hl _ _ Hy)); [assumption|congruence]. }
    f_equal. unfold insert_at. rewrite !map_app. cbn [map fst].
    rewrite <- Hk. rewrite firstn_app, !map_length, Nat.sub_diag, firstn_all2 by (rewrite !map_length; lia). cbn [firstn]. rewrite app_nil_r.
    rewrite skipn_app, skipn_all2 by (rewrite !map_length; lia). rewrite !map_length, Nat.sub_diag. cbn [skipn app]. congruence.
  - exists p. intros g Hg. exists y. rewrite Hg. auto.
Qed.
Lemma lookup_filter (d e : string) (dims : list (string * list R)) : String.eqb e d = false ->
  lookup e (filter (fun x => negb (String.eqb (fst x) d)) dims) = lookup e dims.
Proof.
  intros H. induction dims as [|[d' y] l IH]; cbn; [reflexivity|].
  destruct (String.eqb_spec d' d) as [->|Hd]; cbn.
  - rewrite H. exact IH.
  - destruct (String.eqb e d'); [reflexivity|exact IH].
Qed.
Lemma lookup_filter_some (d e : string) (dims : list (string * list R)) l :
  lookup e (filter (fun x => negb (String.eqb (fst x) d)) dims) = Some l -> lookup e dims = Some l /\ String.eqb e d = false.
Proof.
  intros H. destruct (String.eqb_spec e d) as [->|Hd].
  - exfalso. induction dims as [|[d' y] dims IH]; cbn in H; [discriminate|].
    destruct (String.eqb_spec d' d) as [->|Hd']; cbn in H; [auto|].
    destruct (String.eqb_spec d d'); [congruence|auto].
  - split; [|reflexivity]. rewrite lookup_filter in H; [exact H|]. apply String.eqb_neq. exact Hd.
Qed.
Lemma names_filter f (dims : list (string * list R)) : NoDup (map fst dims) -> NoDup (map fst (filter f dims)).
Proof.
  induction dims as [|a l IH]; cbn; intros H; [constructor|]. inversion H as [|? ? Hn Hr]; subst. destruct (f a); [|auto].
  cbn. constructor; [|auto]. intros Hi. apply Hn. apply in_map_iff in Hi. destruct Hi as (b & Hb & Hi). rewrite <- Hb. apply in_map.
  apply filter_In in Hi. tauto.
Qed.
Lemma sel_part coord a s : NoDup (da_names a) -> (forall e l, lookup e (da_dims a) = Some l -> NoDup l) ->
  sel coord a = Ok s -> part_of coord a s.
Proof.
  revert a; induction coord as [|[d x] coord IH]; intros a Hn Hl H; cbn in H.
  - injection H as <-. split; [|reflexivity]. symmetry. apply filter_none. reflexivity.
  - apply bind_ok in H. destruct H as (b & Hb & H).
    destruct (sel1_part _ _ _ _ Hn Hl Hb) as (B1 & B2 & _).
    assert (Hnb : NoDup (da_names b)) by (unfold da_names; rewrite B1; apply names_filter; exact Hn).
    assert (Hlb : forall e l, lookup e (da_dims b) = Some l -> NoDup l).
    { intros e l He. rewrite B1 in He. apply lookup_filter_some in He. apply (Hl e). tauto. }
    destruct (IH b Hnb Hlb H) as (S1 & S2). split.
    + rewrite S1, B1. clear. induction (da_dims a) as [|e l IH]; cbn; [reflexivity|].
      destruct (String.eqb (fst e) d); cbn; [exact IH|]. destruct (existsb _ _); cbn; [exact IH|f_equal; exact IH].
    + intros g Hg. rewrite S2; [apply B2, Hg; left; reflexivity|].
      intros e y He. destruct (Hg e y (or_intror He)) as (l & L1 & L2). exists l. split; [|exact L2].
      rewrite B1. rewrite lookup_filter; [exact L1|]. apply String.eqb_neq. intros ->.
      (* the dimension was removed by the first step, a second selection along it would have failed *)
      assert (K : forall c b, ~ In d (da_names b) -> In (d, y) c -> forall s, sel c b <> Ok s).
      { clear. induction c as [|[e z] c IH]; [intros b Hb []|]. intros b Hb [He|He] s; cbn.
        - injection He as -> ->. unfold sel1. destruct (find_dim d (da_dims b)) as [k|] eqn:E; [|discriminate].
          exfalso. apply Hb. destruct (find_dim_some _ _ _ E) as (pre & w & post & Hd & _). unfold da_names. rewrite Hd, map_app. apply in_or_app. right; left; reflexivity.
        - destruct (sel1 e z b) as [b'| | | |] eqn:E; try discriminate. cbn. apply IH; [|exact He].
          intros Hi. apply Hb. clear - E Hi. unfold sel1 in E. destruct (find_dim e (da_dims b)) as [k|] eqn:Ek; [|discriminate].
          destruct (find_dim_some _ _ _ Ek) as (pre & w & post & Hd & Hk & _). unfold da_names in *. rewrite Hd in *.
          assert (Hf : firstn k (pre ++ (e, w) :: post) = pre) by (rewrite <- Hk, firstn_app, firstn_all, Nat.sub_diag; cbn; apply app_nil_r).
          assert (Hs : skipn (S k) (pre ++ (e, w) :: post) = post).
          { rewrite skipn_app, skipn_all2 by lia. replace (S k - length pre) with 1 by lia. reflexivity. }
          rewrite Hf, Hs in E. rewrite map_app. cbn [map fst].
          destruct (positions z _) as [|p [|p' ps]]; [discriminate| |]; injection E as <-; cbn [da_dims] in Hi; rewrite map_app in Hi; apply in_app_or in Hi; apply in_or_app; cbn in *; tauto. }
      revert H. apply K; [|exact He]. unfold da_names. rewrite B1. intros Hi. apply in_map_iff in Hi.
      destruct Hi as (z & Hz & Hi). apply filter_In in Hi. destruct Hi as (_ & Hi). rewrite Hz, String.eqb_refl in Hi. discriminate.
Qed.
