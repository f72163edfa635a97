From Verif Require Import Base Storage StorageSpec.
Import ListNotations.
Open Scope nat_scope.

Section Rows.
  Context {row : Type}.
  Implicit Types (st : storage row) (v arr : list row).

  Lemma lookup_update_same a v l w : lookup a l = Some w -> lookup a (@update row a v l) = Some v.
  Proof.
    induction l as [|[b x] l IH]; cbn; [discriminate|]. destruct (String.eqb a b) eqn:E; cbn; rewrite E; auto.
  Qed.
  Lemma lookup_update_other a b v l : a <> b -> lookup b (@update row a v l) = lookup b l.
  Proof.
    intros N. induction l as [|[c x] l IH]; cbn; [reflexivity|]. destruct (String.eqb_spec a c) as [->|]; cbn.
    - destruct (String.eqb_spec b c); [congruence|reflexivity].
    - destruct (String.eqb b c); auto.
  Qed.
  Lemma get_put_same st a v w : getattr st a = Some w -> getattr (putattr st a v) a = Some v.
  Proof. apply lookup_update_same. Qed.
  Lemma get_put_other st a b v : a <> b -> getattr (putattr st a v) b = getattr st b.
  Proof. apply lookup_update_other. Qed.

  Lemma nhem_set_ok st a value arr :
    getattr st a = Some arr -> 1 <= length value <= length arr ->
    nhem_set st a value = Ok (putattr st a (firstn (length arr - length value) arr ++ value)).
  Proof.
    intros G H. unfold nhem_set. rewrite G. unfold last_from.
    destruct (length value) as [|m] eqn:L; [lia|]. unfold broadcast. rewrite L.
    replace (length arr - (length arr - S m)) with (S m) by lia. rewrite Nat.eqb_refl. reflexivity.
  Qed.
  Lemma shem_set_ok st a value arr :
    st_nh_only st = false -> getattr st a = Some arr -> length value <= length arr ->
    shem_set st a value = Ok (putattr st a (rev value ++ skipn (length value) arr)).
  Proof.
    intros N G H. unfold shem_set. rewrite N, G. rewrite Nat.min_l by lia. unfold broadcast.
    rewrite rev_length, Nat.eqb_refl. reflexivity.
  Qed.

  Lemma nth_skipn_ n (l : list row) r d : nth r (skipn n l) d = nth (n + r) l d.
  Proof. revert l; induction n; intros [|x l]; cbn; auto. destruct r; reflexivity. Qed.
  Lemma nth_firstn_ n (l : list row) r d : r < n -> nth r (firstn n l) d = nth r l d.
  Proof. revert l r; induction n; intros [|x l] [|r] H; cbn; try lia; auto. apply IHn; lia. Qed.

  Lemma nhem_write st a value arr :
    getattr st a = Some arr -> 1 <= length value <= length arr ->
    exists st' arr', nhem_set st a value = Ok st' /\ getattr st' a = Some arr' /\ length arr' = length arr /\
      (forall r d, r < length arr -> nth r arr' d =
         if r <? length arr - length value then nth r arr d else nth (r - (length arr - length value)) value d) /\
      (forall b, b <> a -> getattr st' b = getattr st b) /\ st_nh_only st' = st_nh_only st /\ st_nlat st' = st_nlat st.
  Proof.
    intros G H. eexists; eexists. split; [apply nhem_set_ok; eassumption|]. split; [eapply get_put_same; eassumption|].
    split; [rewrite app_length, firstn_length; lia|]. split; [|split; [|split; reflexivity]].
    - intros r d Hr. destruct (Nat.ltb_spec r (length arr - length value)).
      + rewrite app_nth1 by (rewrite firstn_length; lia). apply nth_firstn_; assumption.
      + rewrite app_nth2; rewrite firstn_length, Nat.min_l by lia; [reflexivity|assumption].
    - intros b Hb. apply get_put_other. congruence.
  Qed.
  Lemma shem_write st a value arr :
    st_nh_only st = false -> getattr st a = Some arr -> length value <= length arr ->
    exists st' arr', shem_set st a value = Ok st' /\ getattr st' a = Some arr' /\ length arr' = length arr /\
      (forall r d, r < length arr -> nth r arr' d =
         if r <? length value then nth (length value - 1 - r) value d else nth r arr d) /\
      (forall b, b <> a -> getattr st' b = getattr st b) /\ st_nh_only st' = false /\ st_nlat st' = st_nlat st.
  Proof.
    intros N G H. eexists; eexists. split; [apply shem_set_ok; eassumption|]. split; [eapply get_put_same; eassumption|].
    split; [rewrite app_length, rev_length, skipn_length; lia|]. split; [|split; [|split; [exact N|reflexivity]]].
    - intros r d Hr. destruct (Nat.ltb_spec r (length value)).
      + rewrite app_nth1 by (rewrite rev_length; lia). rewrite rev_nth by lia. f_equal; lia.
      + rewrite app_nth2; rewrite rev_length by lia; [|assumption]. rewrite nth_skipn_. f_equal; lia.
    - intros b Hb. apply get_put_other. congruence.
  Qed.

  Lemma nhem_readback st a value arr st' :
    getattr st a = Some arr -> 1 <= length value <= length arr ->
    length value = (if st_nh_only st then length arr else st_nlat st / 2 + 1) ->
    nhem_set st a value = Ok st' -> nhem_get st' a = Ok value.
  Proof.
    intros G H L E. rewrite (nhem_set_ok st a value arr G H) in E. injection E as <-.
    unfold nhem_get. erewrite get_put_same by eassumption. cbn [st_nh_only putattr st_nlat]. f_equal.
    destruct (st_nh_only st).
    - rewrite L, Nat.sub_diag. reflexivity.
    - unfold slice_last. rewrite <- L. destruct (length value) as [|m] eqn:Q; [lia|].
      rewrite app_length, firstn_length, Nat.min_l, Q by lia.
      replace (length arr - S m + S m - S m) with (length arr - S m) by lia.
      rewrite skipn_app, firstn_length, Nat.min_l, Nat.sub_diag by lia.
      rewrite skipn_all2 by (rewrite firstn_length; lia). reflexivity.
  Qed.
  Lemma shem_readback st a value arr st' :
    st_nh_only st = false -> getattr st a = Some arr -> length value <= length arr ->
    length value = st_nlat st / 2 + 1 ->
    shem_set st a value = Ok st' -> shem_get st' a = Ok (rev value).
  Proof.
    intros N G H L E. rewrite (shem_set_ok st a value arr N G H) in E. injection E as <-.
    unfold shem_get. cbn [st_nh_only putattr st_nlat]. rewrite N. unfold getattr at 1.
    change (lookup a (st_attrs (putattr st a (rev value ++ skipn (length value) arr)))) with
      (getattr (putattr st a (rev value ++ skipn (length value) arr)) a).
    erewrite get_put_same by eassumption. f_equal.
    rewrite <- L, <- (rev_length value), firstn_app, Nat.sub_diag, firstn_all, firstn_O. apply app_nil_r.
  Qed.

  Lemma both_hemispheres st a vn vs arr m :
    st_nh_only st = false -> length arr = 2 * m + 1 -> getattr st a = Some arr ->
    length vn = m + 1 -> length vs = m + 1 ->
    exists st1 st2 arr2, nhem_set st a vn = Ok st1 /\ shem_set st1 a vs = Ok st2 /\ getattr st2 a = Some arr2 /\
      length arr2 = 2 * m + 1 /\
      forall r d, r < 2 * m + 1 -> nth r arr2 d = if r <=? m then nth (m - r) vs d else nth (r - m) vn d.
  Proof.
    intros N L G Ln Ls.
    destruct (nhem_write st a vn arr G ltac:(lia)) as (st1 & arr1 & E1 & G1 & L1 & R1 & _ & N1 & _).
    destruct (shem_write st1 a vs arr1 ltac:(congruence) G1 ltac:(lia)) as (st2 & arr2 & E2 & G2 & L2 & R2 & _).
    exists st1, st2, arr2. repeat split; try assumption; [lia|].
    intros r d Hr. rewrite R2 by lia. destruct (Nat.ltb_spec r (length vs)), (Nat.leb_spec r m); try lia.
    - f_equal; lia.
    - rewrite R1 by lia. destruct (Nat.ltb_spec r (length arr - length vn)); [lia|]. f_equal; lia.
  Qed.

  (** ** histories *)
  Lemma south_step d st o : st_nh_only st = true -> southern d o = true ->
    sstep d st o = (st, InvalidCallOfSHemVariables).
  Proof.
    intros N S. destruct o as [n|n v]; cbn in *; unfold sget, sset; destruct (find_prop n d) as [[[] a]|]; try discriminate;
      unfold shem_get, shem_set; rewrite N; reflexivity.
  Qed.
  Lemma set_flag d st n v st' : sset d st n v = Ok st' -> st_nh_only st' = st_nh_only st /\ st_nlat st' = st_nlat st.
  Proof.
    unfold sset. destruct (find_prop n d) as [[[] a]|].
    - unfold nhem_set. destruct (getattr st a) as [x|]; [|discriminate]. destruct broadcast; try discriminate. intros E; injection E as <-. auto.
    - unfold shem_set. destruct (st_nh_only st) eqn:N; [discriminate|]. destruct (getattr st a) as [x|]; [|discriminate].
      destruct broadcast; try discriminate. intros E; injection E as <-. split; [exact N|reflexivity].
    - intros E; injection E as <-. auto.
  Qed.
  Lemma step_flag d st o : st_nh_only (fst (sstep d st o)) = st_nh_only st /\ st_nlat (fst (sstep d st o)) = st_nlat st.
  Proof.
    destruct o as [n|n v]; cbn; [auto|]. destruct (sset d st n v) eqn:E; cbn; auto. eapply set_flag; eassumption.
  Qed.
  Lemma south_history d l : forall st, st_nh_only st = true ->
    fst (srun d st l) = fst (srun d st (filter (fun o => negb (southern d o)) l)) /\
    (forall k o, nth_error l k = Some o -> southern d o = true -> nth_error (snd (srun d st l)) k = Some InvalidCallOfSHemVariables).
  Proof.
    induction l as [|o l IH]; intros st N; [split; [reflexivity|intros [|k]; discriminate]|].
    cbn [srun filter]. destruct (southern d o) eqn:S; cbn [negb].
    - rewrite (south_step d st o N S). destruct (srun d st l) as [s2 xs] eqn:E. specialize (IH st N). rewrite E in IH.
      destruct IH as [IH1 IH2]. split; [exact IH1|]. intros [|k] o' H S'; cbn in *; [reflexivity|eapply IH2; eassumption].
    - cbn [srun]. pose proof (step_flag d st o) as [F _]. destruct (sstep d st o) as [s1 x] eqn:E1. cbn [fst] in F.
      rewrite N in F. specialize (IH s1 F). destruct (srun d s1 l) as [s2 xs] eqn:E.
      destruct (srun d s1 (filter _ l)) as [s3 ys] eqn:E'. cbn [fst snd] in *. destruct IH as [IH1 IH2].
      split; [exact IH1|]. intros [|k] o' H S'; cbn in *; [injection H as <-; congruence|eapply IH2; eassumption].
  Qed.

  (** row counts never change through views *)
  Lemma broadcast_length v n w : broadcast v n = Ok w -> length w = n.
  Proof.
    unfold broadcast. destruct (Nat.eqb_spec (length v) n); [intros E; injection E as <-; assumption|].
    destruct v as [|x [|]]; try discriminate. intros E; injection E as <-. apply repeat_length.
  Qed.
  Lemma put_len st a v w b : getattr st a = Some w -> length v = length w ->
    option_map (@length row) (getattr (putattr st a v) b) = option_map (@length row) (getattr st b).
  Proof.
    intros G L. destruct (String.eqb_spec a b) as [<-|N].
    - erewrite get_put_same by eassumption. rewrite G. cbn. congruence.
    - rewrite get_put_other by assumption. reflexivity.
  Qed.
  Lemma view_step_shape d st o b : is_view d o ->
    option_map (@length row) (getattr (fst (sstep d st o)) b) = option_map (@length row) (getattr st b).
  Proof.
    destruct o as [n|n v]; cbn; [reflexivity|]. intros V. unfold sset. destruct (find_prop n d) as [[[] a]|]; [| |contradiction].
    - unfold nhem_set. destruct (getattr st a) as [x|] eqn:G; [|reflexivity].
      destruct (broadcast v (length x - last_from (length v) x)) as [w| | |] eqn:B; try reflexivity. cbn [fst].
      apply broadcast_length in B. eapply put_len; [eassumption|]. rewrite app_length, firstn_length.
      assert (last_from (length v) x <= length x) by (unfold last_from; destruct (length v); lia). lia.
    - unfold shem_set. destruct (st_nh_only st); [reflexivity|]. destruct (getattr st a) as [x|] eqn:G; [|reflexivity].
      destruct (broadcast (rev v) (Nat.min (length v) (length x))) as [w| | |] eqn:B; try reflexivity. cbn [fst].
      apply broadcast_length in B. eapply put_len; [eassumption|]. rewrite app_length, skipn_length. lia.
  Qed.
  Lemma view_history_shape d l : forall st b, Forall (is_view d) l ->
    option_map (@length row) (getattr (fst (srun d st l)) b) = option_map (@length row) (getattr st b).
  Proof.
    induction l as [|o l IH]; intros st b H; [reflexivity|]. inversion H as [|? ? V F]; subst. cbn [srun].
    pose proof (view_step_shape d st o b V) as E. destruct (sstep d st o) as [s1 x]. cbn [fst] in E.
    specialize (IH s1 b F). destruct (srun d s1 l). cbn [fst] in *. congruence.
  Qed.
End Rows.

(** ** declared properties *)
Lemma zeros_readable {row} (z : row) d attrs nh rows n h a :
  find_prop n d = Some (h, a) -> h = NHem \/ nh = false ->
  (sget d (zeros z nh rows attrs) n <> AttributeError <-> In a attrs).
Proof.
  intros F H.
  assert (L : forall l, (lookup a (map (fun a => (a, repeat z rows)) l) = None <-> ~ In a l)).
  { induction l as [|b l IH]; cbn; [tauto|]. destruct (String.eqb_spec a b) as [->|N].
    - split; [discriminate|intros Q; exfalso; tauto].
    - rewrite IH. split; [intros Q [E|E]; [congruence|tauto]|tauto]. }
  specialize (L attrs). unfold sget. rewrite F.
  assert (X : (match getattr (zeros z nh rows attrs) a with None => True | Some _ => False end) <-> ~ In a attrs).
  { rewrite <- L. unfold getattr, zeros; cbn. destruct lookup; split; intros; try tauto; discriminate. }
  assert (D : In a attrs \/ ~ In a attrs) by (destruct (in_dec String.string_dec a attrs); tauto).
  destruct h; [unfold nhem_get|unfold shem_get; cbn [st_nh_only zeros]; destruct H as [H|H]; [discriminate|rewrite H]];
    destruct (getattr (zeros z _ rows attrs) a); try (destruct H; subst); split; intros Q; try tauto; try discriminate; try (destruct D; tauto); congruence.
Qed.

(** ** axes *)
Lemma exchange_length a b l : length (exchange a b l) = length l.
Proof. unfold exchange. rewrite map_length, seq_length. reflexivity. Qed.
Lemma exchange_nth a b l k : a < length l -> b < length l -> k < length l ->
  nth k (exchange a b l) 0 = nth (if k =? a then b else if k =? b then a else k) l 0.
Proof.
  intros Ha Hb Hk. unfold exchange.
  rewrite (nth_indep _ 0 ((fun k => nth (if k =? a then b else if k =? b then a else k) l 0) 0)) by (rewrite map_length, seq_length; assumption).
  rewrite (map_nth (fun k => nth (if k =? a then b else if k =? b then a else k) l 0)), seq_nth by assumption. reflexivity.
Qed.
Lemma exchange_invol a b l : a < length l -> b < length l -> exchange b a (exchange a b l) = l.
Proof.
  intros Ha Hb. apply (nth_ext _ _ 0 0); [rewrite !exchange_length; reflexivity|].
  intros k Hk. rewrite !exchange_length in Hk.
  rewrite !exchange_nth; rewrite ?exchange_length; try assumption.
  2:{ destruct (k =? b); [assumption|]. destruct (k =? a); assumption. }
  destruct (Nat.eqb_spec k b) as [->|N1].
  - destruct (Nat.eqb_spec a a); [reflexivity|lia].
  - destruct (Nat.eqb_spec k a) as [->|N2].
    + destruct (Nat.eqb_spec b a) as [->|]; [lia|]. rewrite Nat.eqb_refl. reflexivity.
    + destruct (Nat.eqb_spec k a); [lia|]. destruct (Nat.eqb_spec k b); [lia|reflexivity].
Qed.
Lemma swap_roundtrip {A} (x : ndarray A) a b : a < length (nd_shape x) -> b < length (nd_shape x) ->
  exists y z, swapaxes x a b = Some y /\ swapaxes y b a = Some z /\ same_array z x.
Proof.
  intros Ha Hb. unfold swapaxes at 1. rewrite (proj2 (Nat.ltb_lt _ _) Ha), (proj2 (Nat.ltb_lt _ _) Hb). cbn [andb].
  eexists; eexists. split; [reflexivity|]. unfold swapaxes. cbn [nd_shape]. rewrite exchange_length.
  rewrite (proj2 (Nat.ltb_lt _ _) Ha), (proj2 (Nat.ltb_lt _ _) Hb). cbn [andb]. split; [reflexivity|].
  split; cbn [nd_shape nd_at].
  - apply exchange_invol; assumption.
  - intros idx L. rewrite !exchange_length in L. rewrite exchange_invol by congruence. reflexivity.
Qed.
Lemma swap_axis_error {A} (x : ndarray A) a b :
  swapaxes x a b = None <-> (length (nd_shape x) <= a \/ length (nd_shape x) <= b).
Proof.
  unfold swapaxes. destruct (Nat.ltb_spec a (length (nd_shape x))), (Nat.ltb_spec b (length (nd_shape x))); cbn;
    split; intros; try lia; try discriminate; reflexivity.
Qed.
Lemma find_prop_pairs l n h a : find_prop n (pairs l) = Some (h, a) -> In a l.
Proof.
  unfold pairs. induction l as [|x l IH]; cbn [flat_map pair_of app find_prop]; [discriminate|].
  destruct String.eqb; [intros E; injection E; intros; subst; left; reflexivity|].
  destruct String.eqb; [intros E; injection E; intros; subst; left; reflexivity|]. intros; right; auto.
Qed.
Lemma views_exist (row : Type) (z : row) rows n h a :
    (find_prop n reference_decl = Some (h, a) -> sget reference_decl (zeros z false rows reference_attrs) n <> AttributeError) /\
    (find_prop n barotropic_decl = Some (h, a) -> sget barotropic_decl (zeros z false rows barotropic_attrs) n <> AttributeError) /\
    (find_prop n layerwise_decl = Some (h, a) -> a <> "ep4"%string ->
       sget layerwise_decl (zeros z false rows layerwise_attrs) n <> AttributeError).
Proof.
  split; [|split]; intros F; [| |intros N]; eapply zeros_readable; try eassumption; try (right; reflexivity);
    apply find_prop_pairs in F; cbn in *; intuition congruence.
Qed.
Lemma views_missing (row : Type) (z : row) rows v :
    let st := zeros z false rows layerwise_attrs in
    find_prop "ep4_nhem" layerwise_decl <> None /\ find_prop "ep4_shem" layerwise_decl <> None /\
    sget layerwise_decl st "ep4_nhem" = AttributeError /\ sget layerwise_decl st "ep4_shem" = AttributeError /\
    sset layerwise_decl st "ep4_nhem" v = AttributeError /\ sset layerwise_decl st "ep4_shem" v = AttributeError.
Proof. cbn. repeat split; try discriminate; reflexivity. Qed.
Lemma layouts_convert (A : Type) kmax nlat nlon (x : ndarray A) ly :
    In ly [layout_interpolated kmax nlat nlon; layout_reference kmax nlat; layout_layerwise kmax nlat nlon;
           layout_barotropic nlat nlon; layout_output nlat nlon] ->
    nd_shape x = ly_f ly ->
    exists y, fortran_to_python (ly_1 ly) (ly_2 ly) x = Some y /\ nd_shape y = ly_py ly /\
      (forall k j i, length (ly_f ly) = 3 -> nd_at y [k; j; i] = nd_at x [i; j; k]) /\
      (forall j i, length (ly_f ly) = 2 -> nd_at y [j; i] = nd_at x [i; j]).
Proof.
  intros I S. unfold fortran_to_python, swapaxes. rewrite S. cbn in I.
  repeat destruct I as [<-|I]; try contradiction; cbn; eexists; (split; [reflexivity|]); cbn;
    repeat split; intros; try discriminate; reflexivity.
Qed.
