(** Proofs about the legacy solver. *)
From Coq Require Import ZifyNat.
From Verif Require Import BaseFacts SpecFacts LinAlg LegacySpec Legacy GridProofs.
Ltac Zify.zify_post_hook ::= Z.to_euclidean_division_equations.
Open Scope R_scope.

(** ** the index map *)
Lemma index_inj j k j' k' kmax : (k < kmax)%nat -> (k' < kmax)%nat -> input_jk_output_index j k kmax = input_jk_output_index j' k' kmax -> j = j' /\ k = k'.
Proof. unfold input_jk_output_index. intros Hk Hk' E. assert (j = j') by nia. subst j'. lia. Qed.
Lemma index_bound j k jm kmax : (j < jm)%nat -> (k < kmax)%nat -> (input_jk_output_index j k kmax < jm * kmax)%nat.
Proof. unfold input_jk_output_index. intros. nia. Qed.
Lemma index_onto r jm kmax : (r < jm * kmax)%nat -> exists j k, (j < jm)%nat /\ (k < kmax)%nat /\ r = input_jk_output_index j k kmax.
Proof.
  intros H. assert (K : (kmax <> 0)%nat) by nia. exists (r / kmax)%nat, (r mod kmax)%nat. unfold input_jk_output_index.
  assert (E := Nat.div_mod r kmax K). assert (B := Nat.mod_upper_bound r kmax K). split; [|split; [exact B|]].
  - apply Nat.div_lt_upper_bound; [exact K|]. lia.
  - lia.
Qed.
Lemma index_eqb j k j' k' kmax : (k < kmax)%nat -> (k' < kmax)%nat ->
  Nat.eqb (input_jk_output_index j k kmax) (input_jk_output_index j' k' kmax) = (Nat.eqb j j' && Nat.eqb k k')%bool.
Proof.
  intros Hk Hk'. destruct (Nat.eqb_spec j j') as [->|Hj]; destruct (Nat.eqb_spec k k') as [->|Hk2]; cbn [andb];
    try apply Nat.eqb_refl; apply Nat.eqb_neq; intros E; apply index_inj in E; tauto || lia.
Qed.

(** ** rows of the assembled matrix *)
Notation rcsc := (@csc R RNum).
Definition term (r : nat) (x : nat -> R) (t : triplet R) : R := if Nat.eqb (fst (fst t)) r then snd t * x (snd (fst t)) else 0.
Lemma csc_cons t l r c : rcsc (t :: l) r c = (if Nat.eqb (fst (fst t)) r && Nat.eqb (snd (fst t)) c then snd t else 0) + rcsc l r c.
Proof. unfold csc. cbn [filter]. destruct (_ && _)%bool; cbn [map]; [rewrite rlsum_cons; reflexivity|ring]. Qed.
Lemma Sum_single n c (f : nat -> R) : (c < n)%nat -> Sum 0 n (fun j => if Nat.eqb c j then f j else 0) = f c.
Proof.
  intros H. induction n as [|n IH]; [lia|]. rewrite Sum_S_r by lia. destruct (Nat.eq_dec c n) as [->|Ne].
  - rewrite Nat.eqb_refl, Sum_zero; [ring|]. intros j Hj. replace (Nat.eqb n j) with false by (symmetry; apply Nat.eqb_neq; lia). reflexivity.
  - rewrite IH by lia. replace (Nat.eqb c n) with false by (symmetry; apply Nat.eqb_neq; lia). ring.
Qed.
Lemma csc_row n l r x : (forall t, In t l -> (snd (fst t) < n)%nat) -> row_sum n (rcsc l) x r = SumL l (term r x).
Proof.
  induction l as [|t l IH]; intros H.
  - unfold row_sum. rewrite Sum_zero; [reflexivity|]. intros. unfold csc. cbn. ring.
  - rewrite SumL_cons, <- IH by (intros t' Ht; apply H; right; exact Ht). unfold row_sum.
    rewrite (Sum_ext 0 n _ (fun c => (if Nat.eqb (snd (fst t)) c then (if Nat.eqb (fst (fst t)) r then snd t * x c else 0) else 0) + rcsc l r c * x c)).
    + rewrite Sum_plus. f_equal. rewrite (Sum_single n (snd (fst t)) (fun c => if Nat.eqb (fst (fst t)) r then snd t * x c else 0)); [reflexivity|apply H; left; reflexivity].
    + intros c Hc. rewrite csc_cons. destruct (Nat.eqb (fst (fst t)) r); destruct (Nat.eqb (snd (fst t)) c); cbn [andb]; ring.
Qed.
Lemma SumL_flat_map {T V} (g : V -> list T) l (f : T -> R) : SumL (flat_map g l) f = SumL l (fun v => SumL (g v) f).
Proof. induction l as [|v l IH]; [reflexivity|]. cbn [flat_map]. rewrite SumL_app, SumL_cons, IH. reflexivity. Qed.
Lemma in_interior jm kmax j k : In (j, k) (interior jm kmax) <-> (j < jm)%nat /\ (1 <= k)%nat /\ (S k < kmax)%nat.
Proof. unfold interior. rewrite in_prod_iff, !in_seq. lia. Qed.
Lemma SumL_prod {T V} (l : list T) (m : list V) (f : T * V -> R) : SumL (list_prod l m) f = SumL l (fun a => SumL m (fun b => f (a, b))).
Proof. induction l as [|a l IH]; [reflexivity|]. cbn [list_prod]. rewrite SumL_app, SumL_cons, IH, SumL_map. reflexivity. Qed.
Lemma SumL_seq a n (f : nat -> R) : SumL (seq a n) f = Sum a (a + n) f.
Proof. unfold SumL, Sum. replace (a + n - a)%nat with n by lia. reflexivity. Qed.
Lemma Sum_pick lo hi c (f : nat -> R) : Sum lo hi (fun j => if Nat.eqb j c then f j else 0) = if Nat.leb lo c && Nat.ltb c hi then f c else 0.
Proof.
  destruct (Nat.le_gt_cases hi lo) as [E|E].
  - rewrite Sum_empty by exact E. destruct (Nat.leb_spec lo c); destruct (Nat.ltb_spec c hi); cbn [andb]; lia || reflexivity.
  - induction hi as [|hi IH]; [lia|]. rewrite Sum_S_r by lia. destruct (Nat.eq_dec lo hi) as [->|Ne].
    + rewrite Sum_empty by lia. destruct (Nat.eqb_spec hi c) as [E2|E2]; [subst c|]; destruct (Nat.leb_spec hi hi); destruct (Nat.ltb_spec hi (S hi)); cbn [andb]; try lia; try ring.
      destruct (Nat.leb_spec hi c); destruct (Nat.ltb_spec c (S hi)); cbn [andb]; lia || ring.
    + rewrite IH by lia. destruct (Nat.eqb_spec hi c) as [E2|E2]; [subst c|]; [destruct (Nat.leb_spec lo hi); destruct (Nat.ltb_spec hi hi); destruct (Nat.ltb_spec hi (S hi)); cbn [andb]; lia || ring|].
      destruct (Nat.leb_spec lo c); destruct (Nat.ltb_spec c hi); destruct (Nat.ltb_spec c (S hi)); cbn [andb]; lia || ring.
Qed.

Section Rows.
  Variables (jm kmax : nat) (ca cb cc cd ce : nat -> nat -> R) (x : nat -> R).
  Notation u j k := (x (input_jk_output_index j k kmax)).
  Definition interior_value (j k : nat) : R :=
    (if Nat.ltb j (jm - 1) then ca j k * u (j + 1)%nat k else 0) + (if Nat.ltb 0 j then cb j k * u (j - 1)%nat k else 0) +
    (cc j k * u j (k + 1)%nat + cd j k * u j (k - 1)%nat + ce j k * u j k).
  Definition rowi (j k : nat) : nat := input_jk_output_index j k kmax.

  Lemma interior_term j k j' k' : (k < kmax)%nat -> (k' < kmax)%nat ->
    SumL (interior_block jm kmax ca cb cc cd ce (j', k')) (term (rowi j k) x) = if Nat.eqb j' j && Nat.eqb k' k then interior_value j k else 0.
  Proof.
    intros Hk Hk'. unfold interior_block. rewrite !SumL_app.
    assert (T : forall c v, term (rowi j k) x (input_jk_output_index j' k' kmax, c, v) = if Nat.eqb j' j && Nat.eqb k' k then v * x c else 0).
    { intros c v. unfold term, rowi. cbn [fst snd]. rewrite index_eqb by assumption. reflexivity. }
    replace (SumL (if Nat.ltb j' (jm - 1) then _ else _) _) with (if Nat.ltb j' (jm - 1) then (if Nat.eqb j' j && Nat.eqb k' k then ca j' k' * x (input_jk_output_index (j' + 1) k' kmax) else 0) else 0)
      by (destruct (Nat.ltb j' (jm - 1)); [rewrite SumL_cons, SumL_nil, T; ring|reflexivity]).
    replace (SumL (if Nat.ltb 0 j' then _ else _) _) with (if Nat.ltb 0 j' then (if Nat.eqb j' j && Nat.eqb k' k then cb j' k' * x (input_jk_output_index (j' - 1) k' kmax) else 0) else 0)
      by (destruct (Nat.ltb 0 j'); [rewrite SumL_cons, SumL_nil, T; ring|reflexivity]).
    rewrite !SumL_cons, SumL_nil, !T. unfold interior_value.
    destruct (Nat.eqb_spec j' j) as [->|]; destruct (Nat.eqb_spec k' k) as [->|]; cbn [andb]; repeat match goal with |- context [Nat.ltb ?a ?b] => destruct (Nat.ltb a b) end; ring.
  Qed.
  Lemma interior_sum j k : (j < jm)%nat -> (k < kmax)%nat ->
    SumL (flat_map (interior_block jm kmax ca cb cc cd ce) (interior jm kmax)) (term (rowi j k) x) = if Nat.leb 1 k && Nat.ltb k (kmax - 1) then interior_value j k else 0.
  Proof.
    intros Hj Hk. rewrite SumL_flat_map. unfold interior. rewrite SumL_prod, SumL_seq.
    rewrite (Sum_ext 0 (0 + jm) _ (fun j' => if Nat.eqb j' j then (if Nat.leb 1 k && Nat.ltb k (kmax - 1) then interior_value j k else 0) else 0)).
    - rewrite Sum_pick. destruct (Nat.leb_spec 0 j); destruct (Nat.ltb_spec j (0 + jm)); cbn [andb]; lia || reflexivity.
    - intros j' Hj'. rewrite SumL_seq. rewrite (Sum_ext _ _ _ (fun k' => if Nat.eqb k' k then (if Nat.eqb j' j then interior_value j k else 0) else 0)).
      + rewrite Sum_pick. destruct (Nat.leb_spec 1 k); destruct (Nat.ltb_spec k (1 + (kmax - 1 - 1))); destruct (Nat.ltb_spec k (kmax - 1)); cbn [andb]; try lia; destruct (Nat.eqb j' j); reflexivity.
      + intros k' Hk'. rewrite interior_term by lia. destruct (Nat.eqb j' j); destruct (Nat.eqb k' k); reflexivity.
  Qed.
  Lemma level_sum (g : nat -> list (triplet R)) k0 (v : nat -> R) j k : (j < jm)%nat ->
    (forall j', (j' < jm)%nat -> SumL (g j') (term (rowi j k) x) = if Nat.eqb j' j && Nat.eqb k0 k then v j else 0) ->
    SumL (flat_map g (seq 0 jm)) (term (rowi j k) x) = if Nat.eqb k0 k then v j else 0.
  Proof.
    intros Hj H. rewrite SumL_flat_map, SumL_seq. rewrite (Sum_ext 0 (0 + jm) _ (fun j' => if Nat.eqb j' j then (if Nat.eqb k0 k then v j else 0) else 0)).
    - rewrite Sum_pick. destruct (Nat.leb_spec 0 j); destruct (Nat.ltb_spec j (0 + jm)); cbn [andb]; lia || reflexivity.
    - intros j' Hj'. rewrite H by lia. destruct (Nat.eqb j' j); destruct (Nat.eqb k0 k); reflexivity.
  Qed.
  Hypothesis K3 : (3 <= kmax)%nat.
  Lemma top_sum j k : (j < jm)%nat -> (k < kmax)%nat ->
    SumL (flat_map (top_block kmax) (seq 0 jm)) (term (rowi j k) x) = if Nat.eqb (kmax - 1) k then u j (kmax - 1)%nat - u j (kmax - 3)%nat else 0.
  Proof.
    intros Hj Hk. apply (level_sum (top_block kmax) (kmax - 1) (fun j => u j (kmax - 1)%nat - u j (kmax - 3)%nat)); [exact Hj|].
    intros j' Hj'. unfold top_block. rewrite !SumL_cons, SumL_nil. unfold term, rowi. cbn [fst snd]. rewrite index_eqb by lia.
    destruct (Nat.eqb_spec j' j) as [->|]; destruct (Nat.eqb (kmax - 1) k); cbn [andb]; cbn [none nopp RNum]; ring.
  Qed.
  Lemma adiab_sum j k : (j < jm)%nat -> (k < kmax)%nat ->
    SumL (flat_map (adiabatic_block kmax) (seq 0 jm)) (term (rowi j k) x) = if Nat.eqb 0 k then u j 2%nat - u j 0%nat else 0.
  Proof.
    intros Hj Hk. apply (level_sum (adiabatic_block kmax) 0 (fun j => u j 2%nat - u j 0%nat)); [exact Hj|].
    intros j' Hj'. unfold adiabatic_block. rewrite !SumL_cons, SumL_nil. unfold term, rowi. cbn [fst snd]. rewrite index_eqb by lia.
    destruct (Nat.eqb_spec j' j) as [->|]; destruct (Nat.eqb 0 k); cbn [andb]; cbn [none nopp RNum]; ring.
  Qed.
  Lemma noslip_sum j k : (j < jm)%nat -> (k < kmax)%nat ->
    SumL (flat_map (noslip_block kmax) (seq 0 jm)) (term (rowi j k) x) = if Nat.eqb 0 k then u j 0%nat else 0.
  Proof.
    intros Hj Hk. apply (level_sum (noslip_block kmax) 0 (fun j => u j 0%nat)); [exact Hj|].
    intros j' Hj'. unfold noslip_block. rewrite !SumL_cons, SumL_nil. unfold term, rowi. cbn [fst snd]. rewrite index_eqb by lia.
    destruct (Nat.eqb_spec j' j) as [->|]; destruct (Nat.eqb 0 k); cbn [andb]; cbn [none nopp RNum]; ring.
  Qed.

  Lemma cols_common t : In t (common jm kmax ca cb cc cd ce) -> (snd (fst t) < jm * kmax)%nat.
  Proof.
    unfold common. rewrite in_app_iff, !in_flat_map. intros [((j & k) & H1 & H2)|(j & H1 & H2)].
    - apply in_interior in H1. unfold interior_block in H2. rewrite !in_app_iff in H2. destruct H2 as [H2|[H2|H2]].
      + destruct (Nat.ltb_spec j (jm - 1)); [|destruct H2]. destruct H2 as [<-|[]]. cbn [fst snd]. apply index_bound; lia.
      + destruct (Nat.ltb_spec 0 j); [|destruct H2]. destruct H2 as [<-|[]]. cbn [fst snd]. apply index_bound; lia.
      + destruct H2 as [<-|[<-|[<-|[]]]]; cbn [fst snd]; apply index_bound; lia.
    - apply in_seq in H1. destruct H2 as [<-|[<-|[]]]; cbn [fst snd]; apply index_bound; lia.
  Qed.
  (** the rows of the two systems *)
  Definition row_value (bottom : nat -> R) (j k : nat) : R :=
    if Nat.eqb k 0 then bottom j else if Nat.eqb k (kmax - 1) then u j (kmax - 1)%nat - u j (kmax - 3)%nat else interior_value j k.
  Lemma row_cases (b1 : R) (k : nat) (i t : R) : (k < kmax)%nat ->
    ((if Nat.leb 1 k && Nat.ltb k (kmax - 1) then i else 0) + (if Nat.eqb (kmax - 1) k then t else 0)) + (if Nat.eqb 0 k then b1 else 0)
    = (if Nat.eqb k 0 then b1 else if Nat.eqb k (kmax - 1) then t else i).
  Proof.
    intros Hk. destruct (Nat.leb_spec 1 k); destruct (Nat.ltb_spec k (kmax - 1)); destruct (Nat.eqb_spec (kmax - 1) k); destruct (Nat.eqb_spec 0 k); destruct (Nat.eqb_spec k 0); destruct (Nat.eqb_spec k (kmax - 1)); cbn [andb]; try lia; ring.
  Qed.
  Lemma noslip_row j k : (j < jm)%nat -> (k < kmax)%nat ->
    row_sum (jm * kmax) (matrix_noslip jm kmax ca cb cc cd ce) x (rowi j k) = row_value (fun j => u j 0%nat) j k.
  Proof.
    intros Hj Hk. unfold matrix_noslip. rewrite csc_row.
    - unfold common. rewrite !SumL_app, interior_sum, top_sum, noslip_sum by assumption. apply (row_cases (u j 0%nat) k); exact Hk.
    - intros t Ht. apply in_app_iff in Ht. destruct Ht as [Ht|Ht]; [apply cols_common; exact Ht|].
      apply in_flat_map in Ht. destruct Ht as (j' & H1 & H2). apply in_seq in H1. destruct H2 as [<-|[]]. cbn [fst snd]. apply index_bound; lia.
  Qed.
  Lemma adiab_row j k : (j < jm)%nat -> (k < kmax)%nat ->
    row_sum (jm * kmax) (matrix_adiab jm kmax ca cb cc cd ce) x (rowi j k) = row_value (fun j => u j 2%nat - u j 0%nat) j k.
  Proof.
    intros Hj Hk. unfold matrix_adiab. rewrite csc_row.
    - unfold common. rewrite !SumL_app, interior_sum, top_sum, adiab_sum by assumption. apply (row_cases (u j 2%nat - u j 0%nat) k); exact Hk.
    - intros t Ht. apply in_app_iff in Ht. destruct Ht as [Ht|Ht]; [apply cols_common; exact Ht|].
      apply in_flat_map in Ht. destruct Ht as (j' & H1 & H2). apply in_seq in H1. destruct H2 as [<-|[<-|[]]]; cbn [fst snd]; apply index_bound; lia.
  Qed.
End Rows.

(** ** the right sides *)
Lemma assign_other (l : list (nat * R)) : forall b i, (forall p, In p l -> fst p <> i) -> assign_all b l i = b i.
Proof.
  unfold assign_all. induction l as [|p l IH]; intros b i H; [reflexivity|]. cbn [fold_left]. rewrite IH by (intros; apply H; right; assumption).
  unfold assign. destruct (Nat.eqb_spec i (fst p)) as [->|]; [|reflexivity]. exfalso. apply (H p); [left; reflexivity|reflexivity].
Qed.
Lemma assign_hit (l : list (nat * R)) : forall b i v, (forall p, In p l -> fst p = i -> snd p = v) -> (exists p, In p l /\ fst p = i) -> assign_all b l i = v.
Proof.
  unfold assign_all. induction l as [|p l IH]; intros b i v H (q & Hq & Eq); [destruct Hq|]. cbn [fold_left].
  destruct (in_dec Nat.eq_dec i (map fst l)) as [I|I].
  - apply IH; [intros; apply H; [right; assumption|assumption]|]. apply in_map_iff in I. destruct I as (z & Ez & Hz). exists z. auto.
  - destruct Hq as [->|Hq].
    + fold (assign_all (assign b q) l). rewrite assign_other.
      * unfold assign. rewrite <- Eq, Nat.eqb_refl. apply H; [left; reflexivity|exact Eq].
      * intros z Hz Ez. apply I. apply in_map_iff. exists z. auto.
    + exfalso. apply I. apply in_map_iff. exists q. auto.
Qed.
Lemma right_value jm kmax (c_f : nat -> nat -> R) uz2 bottom j k : (2 <= kmax)%nat -> (j < jm)%nat -> (k < kmax)%nat ->
  right_bottom jm kmax c_f uz2 bottom (input_jk_output_index j k kmax) = if Nat.eqb k 0 then bottom j else if Nat.eqb k (kmax - 1) then uz2 j else c_f j k.
Proof.
  intros K2 Hj Hk. unfold right_bottom. destruct (Nat.eqb_spec k 0) as [->|K0].
  - apply assign_hit.
    + intros p Hp E. apply in_map_iff in Hp. destruct Hp as (j' & <- & _). cbn [fst snd] in *. apply index_inj in E; [|lia..]. destruct E as (-> & _). reflexivity.
    + exists (input_jk_output_index j 0 kmax, bottom j). split; [|reflexivity]. apply in_map_iff. exists j. split; [reflexivity|]. apply in_seq. lia.
  - rewrite assign_other.
    2:{ intros p Hp E. apply in_map_iff in Hp. destruct Hp as (j' & <- & _). cbn [fst] in E. apply index_inj in E; lia. }
    unfold right_common. destruct (Nat.eqb_spec k (kmax - 1)) as [Ek|Ek].
    + apply assign_hit.
      * intros p Hp E. apply in_map_iff in Hp. destruct Hp as (j' & <- & _). cbn [fst snd] in *. apply index_inj in E; [|lia..]. destruct E as (-> & _). reflexivity.
      * exists (input_jk_output_index j k kmax, uz2 j). split; [|reflexivity]. apply in_map_iff. exists j. rewrite <- Ek. split; [reflexivity|]. apply in_seq. lia.
    + rewrite assign_other.
      2:{ intros p Hp E. apply in_map_iff in Hp. destruct Hp as (j' & <- & _). cbn [fst] in E. apply index_inj in E; lia. }
      apply assign_hit.
      * intros p Hp E. apply in_map_iff in Hp. destruct Hp as ((j' & k') & <- & Hi). apply in_interior in Hi. cbn [fst snd] in *. apply index_inj in E; [|lia..]. destruct E as (-> & ->). reflexivity.
      * exists (input_jk_output_index j k kmax, c_f j k). split; [|reflexivity]. apply in_map_iff. exists (j, k). split; [reflexivity|]. apply in_interior. lia.
Qed.
