(** Proofs: every step of the computation commutes with a relabelling of the longitudes. *)
From Verif Require Import Base BaseFacts Spec SpecFacts Flux FluxSpec FluxProofs Utilities UtilitiesProofs Qgpv QgpvSpec QgpvProofs
  Pipeline PipelineSpec PipelineProofs RefStates RefStatesSpec RefStatesProofs RefStatesProofs5 DirInv RotateSpec.
From Coq Require Import FunctionalExtensionality Permutation.
Open Scope R_scope.

Lemma iter_turn n s i : (1 <= n)%nat -> (1 <= i <= n)%nat -> ((i - 1 + S s) mod n + 1)%nat = next_lon n ((i - 1 + s) mod n + 1).
Proof.
  intros Hn Hi. unfold next_lon. replace (i - 1 + S s)%nat with (i - 1 + s + 1)%nat by lia.
  assert (B := Nat.mod_upper_bound (i - 1 + s) n ltac:(lia)). rewrite <- Nat.add_mod_idemp_l by lia.
  destruct (Nat.eqb_spec ((i - 1 + s) mod n + 1) n) as [E|E].
  - rewrite E, Nat.mod_same by lia. reflexivity.
  - rewrite Nat.mod_small by lia. reflexivity.
Qed.

Lemma around n : (2 <= n)%nat -> forall i, (1 <= i <= n)%nat -> next_lon n (prev_lon n i) = i /\ prev_lon n (next_lon n i) = i.
Proof. intros Hn. exact (next_prev n 3 (le_n 3) Hn). Qed.
Lemma Sum_around n : (2 <= n)%nat -> forall f : nat -> R, Sum 1 (n + 1) (fun i => f (next_lon n i)) = Sum 1 (n + 1) f.
Proof. intros Hn. exact (Sum_rotate n 3 (le_n 3) Hn). Qed.
Lemma NoDup_map_in {X Y} (f : X -> Y) (l : list X) : NoDup l -> (forall x y, In x l -> In y l -> f x = f y -> x = y) -> NoDup (map f l).
Proof.
  induction l as [|a l IH]; intros Hn Hf; cbn [map]; [constructor|]. inversion Hn; subst. constructor.
  - intros I. apply in_map_iff in I. destruct I as (x & E & I). apply Hf in E; [subst; contradiction|right; exact I|left; reflexivity].
  - apply IH; [assumption|]. intros x y Hx Hy. apply Hf; right; assumption.
Qed.

Section Rotate.
  Variable c : pconf R.
  Variable s : nat.
  Hypothesis G : centred c.
  Local Notation n := (p_nlat c).
  Local Notation e := (p_eq c).
  Local Notation nl := (p_nlon c).
  Local Notation tn := (turn c s).

  Lemma gsz : (3 <= e)%nat /\ n = (2 * e - 1)%nat /\ (p_jb c < e)%nat /\ p_jd c = (e - p_jb c)%nat /\ (2 <= nl)%nat /\ (3 <= p_kmax c)%nat.
  Proof. destruct G as (A1 & A2 & A3 & A4 & A5 & A6 & _). repeat split; assumption. Qed.
  Lemma dims_sizes : hemisphere_sizes (dims c).
  Proof. destruct gsz as (A1 & A2 & A3 & A4 & A5 & A6). unfold hemisphere_sizes, dims. cbn. repeat split; lia. Qed.
  Lemma turn_ok i : lon_ok c (tn i).
  Proof. destruct gsz as (_ & _ & _ & _ & A5 & _). unfold lon_ok, turn. assert (B := Nat.mod_upper_bound (i - 1 + s) nl ltac:(lia)). lia. Qed.
  Lemma turn_inj i i' : lon_ok c i -> lon_ok c i' -> tn i = tn i' -> i = i'.
  Proof.
    destruct gsz as (_ & _ & _ & _ & A5 & _). unfold lon_ok, turn. intros H H' E.
    assert (X : ((i - 1 + s) mod nl = (i' - 1 + s) mod nl)%nat) by lia.
    assert (D1 := Nat.div_mod (i - 1 + s) nl ltac:(lia)). assert (D2 := Nat.div_mod (i' - 1 + s) nl ltac:(lia)). rewrite X in D1.
    set (a := ((i - 1 + s) / nl)%nat) in *. set (b := ((i' - 1 + s) / nl)%nat) in *.
    assert (C : (a < b \/ a = b \/ b < a)%nat) by lia. destruct C as [C | [C | C]]; nia.
  Qed.
  Lemma turn_next i : lon_ok c i -> tn (next_lon nl i) = next_lon nl (tn i).
  Proof.
    destruct gsz as (_ & _ & _ & _ & A5 & _). unfold lon_ok, turn. intros H. rewrite <- iter_turn by lia.
    unfold next_lon. destruct (Nat.eqb_spec i nl) as [E|E].
    - subst i. replace (1 - 1 + s)%nat with s by lia. replace (nl - 1 + S s)%nat with (s + 1 * nl)%nat by lia. rewrite Nat.mod_add by lia. reflexivity.
    - replace (i + 1 - 1 + s)%nat with (i - 1 + S s)%nat by lia. reflexivity.
  Qed.
  Lemma turn_prev i : lon_ok c i -> tn (prev_lon nl i) = prev_lon nl (tn i).
  Proof.
    destruct gsz as (_ & _ & _ & _ & A5 & _). intros H.
    assert (P : lon_ok c (prev_lon nl i)) by (unfold lon_ok, prev_lon in *; destruct (Nat.eqb_spec i 1); lia).
    assert (T := turn_next _ P). destruct (around nl A5 i H) as [E _]. rewrite E in T. rewrite T.
    assert (Q := turn_ok (prev_lon nl i)). destruct (around nl A5 _ Q) as [_ F]. rewrite F. reflexivity.
  Qed.
  Lemma turn_perm : Permutation (map tn (seq 1 nl)) (seq 1 nl).
  Proof.
    apply NoDup_Permutation_bis.
    - apply NoDup_map_in; [apply seq_NoDup|]. intros x y Hx Hy. apply in_seq in Hx. apply in_seq in Hy. apply turn_inj; unfold lon_ok; lia.
    - rewrite map_length. lia.
    - intros y Hy. apply in_map_iff in Hy. destruct Hy as (x & E & _). subst y. apply in_seq. assert (T := turn_ok x). unfold lon_ok in T. lia.
  Qed.
  (** sums and lists over a circle *)
  Lemma circle_perm (x x' : arr3 R) j k : (forall i, lon_ok c i -> x' i j k = x (tn i) j k) ->
    Permutation (map (fun i => x i j k) (seq 1 nl)) (map (fun i => x' i j k) (seq 1 nl)).
  Proof.
    intros H. rewrite (map_ext_in (fun i => x' i j k) (fun i => x (tn i) j k)) by (intros i Hi; apply in_seq in Hi; apply H; unfold lon_ok; lia).
    rewrite <- (map_map tn (fun i => x i j k)). apply Permutation_map. apply Permutation_sym. exact turn_perm.
  Qed.
  Lemma Sum_turn (f : nat -> R) : Sum 1 (nl + 1) (fun i => f (tn i)) = Sum 1 (nl + 1) f.
  Proof.
    unfold turn. destruct gsz as (_ & _ & _ & _ & A5 & _). clear G. revert f. induction s as [|m IH]; intros f.
    - apply Sum_ext. intros i Hi. rewrite Nat.mod_small by lia. f_equal. lia.
    - rewrite <- (Sum_around nl A5 f). rewrite <- (IH (fun i => f (next_lon nl i))). apply Sum_ext. intros i Hi. rewrite iter_turn by lia. reflexivity.
  Qed.
  Lemma rsum_turn (f : nat -> R) : rsum nl (fun i => f ((i + s) mod nl)%nat) = rsum nl f.
  Proof.
    assert (E := Sum_turn (fun i => f (i - 1)%nat)). rewrite !Sum_rsum in E. replace (nl + 1 - 1)%nat with nl in E by lia.
    rewrite (rsum_ext nl f (fun i => f (1 + i - 1)%nat)) by (intros; f_equal; lia).
    rewrite <- E. apply rsum_ext. intros i Hi. unfold turn. f_equal. replace (1 + i - 1)%nat with i by lia. lia.
  Qed.

  (** column i of x' is column [turn i] of x *)
  Definition cols {T : Type} (x x' : nat -> T) : Prop := forall i, lon_ok c i -> x' i = x (tn i).
  Lemma clip_cols x x' : turned c s x x' -> cols (clip3 c x) (clip3 c x').
  Proof.
    intros H i Hi. assert (T := turn_ok i). unfold lon_ok in *. extensionality j. extensionality k. unfold clip3.
    repeat match goal with |- context [Nat.leb ?a ?b] => destruct (Nat.leb_spec a b); try lia end; cbn [andb]; try reflexivity.
    apply H; unfold lon_ok, lat_ok, lev_ok; lia.
  Qed.
  Lemma flip_turned x x' : turned c s x x' -> turned c s (flip3 c x) (flip3 c x').
  Proof. intros H i j k Hi Hj Hk. unfold flip3. apply H; unfold lat_ok in *; auto; lia. Qed.
  Lemma neg_turned x x' : turned c s x x' -> turned c s (neg3 x) (neg3 x').
  Proof. intros H i j k Hi Hj Hk. unfold neg3. rewrite H by assumption. reflexivity. Qed.

  (** ** PV *)
  Section Vorticity.
    Variables u v u' v' : arr3 R.
    Hypothesis Hu : cols u u'.
    Hypothesis Hv : cols v v'.
    Variable lat : nat -> nat -> R.
    Hypothesis L : forall j d, lat j d = glat n (j + 1) - INR d * (PI / INR (n - 1)).
    Let n3 : (3 <= n)%nat. Proof. destruct gsz. lia. Qed.
    Let nl2 : (2 <= nl)%nat. Proof. exact (proj1 (proj2 (proj2 (proj2 (proj2 gsz))))). Qed.
    Lemma abs_vort_turned dl dp i j k : lon_ok c i ->
      abs_vorticity nl n (p_a c) (p_om c) dl dp u' v' i j k = abs_vorticity nl n (p_a c) (p_om c) dl dp u v (tn i) j k.
    Proof.
      intros Hi. unfold abs_vorticity. rewrite (Hu i Hi). rewrite (Hv (next_lon nl i)), (Hv (prev_lon nl i)); [rewrite turn_next, turn_prev by exact Hi; reflexivity| |];
        unfold lon_ok, next_lon, prev_lon in *; match goal with |- context [Nat.eqb ?a ?b] => destruct (Nat.eqb_spec a b) end; lia.
    Qed.
    Lemma avort_turned i j k : lon_ok c i -> lat_ok c j ->
      @avort R RNum nl n (p_a c) (p_om c) lat u' v' i j k = @avort R RNum nl n (p_a c) (p_om c) lat u v (tn i) j k.
    Proof.
      intros Hi Hj. assert (T := turn_ok i). unfold lon_ok, lat_ok in *.
      rewrite !(avort_R nl n (p_a c) (p_om c) n3 nl2 lat L) by lia.
      assert (Z : forall r, QgpvSpec.zonal_mean nl (interior_avort nl n (p_a c) (p_om c) u' v') r k = QgpvSpec.zonal_mean nl (interior_avort nl n (p_a c) (p_om c) u v) r k).
      { intros r. unfold QgpvSpec.zonal_mean. f_equal. rewrite <- (Sum_turn (fun i => interior_avort nl n (p_a c) (p_om c) u v i r k)).
        apply Sum_ext. intros i' Hi'. apply abs_vort_turned. unfold lon_ok. lia. }
      rewrite !Z. destruct (Nat.eqb j 1); [reflexivity|]. destruct (Nat.eqb j n); [reflexivity|]. apply abs_vort_turned. exact Hi.
    Qed.
    Lemma zmav_turned j k : lat_ok c j -> @zmav R RNum nl n (p_a c) (p_om c) lat u' v' j k = @zmav R RNum nl n (p_a c) (p_om c) lat u v j k.
    Proof.
      intros Hj. unfold lat_ok in *. rewrite !(zmav_R nl n (p_a c) (p_om c)) by lia. unfold QgpvSpec.zonal_mean. f_equal.
      rewrite <- (Sum_turn (fun i => avort nl n (p_a c) (p_om c) lat u v i j k)). apply Sum_ext. intros i Hi. apply avort_turned; unfold lon_ok, lat_ok; lia.
    Qed.
  End Vorticity.

  Variables f f' : fields R.
  Hypothesis F : turned_state c s f f'.
  Variable av : averages R.
  Lemma pv_nh18_turned : turned c s (pv_nh18 c f av) (pv_nh18 c f' av).
  Proof.
    destruct F as (Hu & Hv & Ht). intros i j k Hi Hj Hk. destruct gsz as (A1 & A2 & _ & _ & A5 & _). unfold pv_nh18, qgpv_nh18.
    assert (L : forall j d, @lat_nh18 R RNum n j d = glat n (j + 1) - INR d * (PI / INR (n - 1))) by (apply (lat_nh18_ok nl); lia).
    rewrite (avort_turned _ _ _ _ (clip_cols _ _ Hu) (clip_cols _ _ Hv) _ L) by assumption.
    rewrite (zmav_turned _ _ _ _ (clip_cols _ _ Hu) (clip_cols _ _ Hv) _ L) by assumption.
    unfold stretch. rewrite (clip_cols _ _ Ht i Hi). reflexivity.
  Qed.
  Lemma pv_nhn22_turned : turned c s (pv_nhn22 c f av) (pv_nhn22 c f' av).
  Proof.
    destruct F as (Hu & Hv & Ht). intros i j k Hi Hj Hk. destruct gsz as (A1 & A2 & _ & _ & A5 & _). unfold pv_nhn22, qgpv_nhn22.
    assert (L : forall j d, @lat_nhn22 R RNum n j d = glat n (j + 1) - INR d * (PI / INR (n - 1))) by (apply (lat_nhn22_ok nl); lia).
    rewrite (avort_turned _ _ _ _ (clip_cols _ _ Hu) (clip_cols _ _ Hv) _ L) by assumption.
    unfold stretch. rewrite (clip_cols _ _ Ht i Hi). reflexivity.
  Qed.
  Lemma avort_nhn22_turned : turned c s (avort_nhn22 c f) (avort_nhn22 c f').
  Proof.
    destruct F as (Hu & Hv & Ht). intros i j k Hi Hj Hk. destruct gsz as (A1 & A2 & _ & _ & A5 & _). unfold avort_nhn22.
    assert (L : forall j d, @lat_nhn22 R RNum n j d = glat n (j + 1) - INR d * (PI / INR (n - 1))) by (apply (lat_nhn22_ok nl); lia).
    apply (avort_turned _ _ _ _ (clip_cols _ _ Hu) (clip_cols _ _ Hv) _ L); assumption.
  Qed.
End Rotate.
