(** C161: NaN and infinite values in basis.lwa, in IEEE double precision.  C162: masked arrays given to QGField objects. *)
From Verif Require Import Base Spec Grid GridSpec Basis Object ObjectSpec ObjectProofs4 PropertiesObject Masked MissingSpec.
From Coq Require Import SpecFloat ZifyNat.
Open Scope R_scope.

(** ** C161 *)
Lemma add_nan_l y : @nadd B64 B64Num S754_nan y = S754_nan.
Proof. reflexivity. Qed.
Lemma add_nan_r x : @nadd B64 B64Num x S754_nan = S754_nan.
Proof. destruct x; reflexivity. Qed.
Lemma mul_nan_l y : @nmul B64 B64Num S754_nan y = S754_nan.
Proof. reflexivity. Qed.
Lemma sum_nan n (f : nat -> B64) r : (r < n)%nat -> f r = S754_nan -> @nsum B64 B64Num n f = S754_nan.
Proof.
  intros Hr E. induction n as [|n IH]; [lia|]. cbn [nsum]. destruct (Nat.eq_dec r n) as [->|X]; [rewrite E; apply add_nan_r|]. rewrite IH by lia. apply add_nan_l.
Qed.
Lemma sum_same {A} (N : Num A) n (f g : nat -> A) : (forall r, (r < n)%nat -> f r = g r) -> nsum n f = nsum n g.
Proof. induction n as [|n IH]; intros H; cbn [nsum]; [reflexivity|]. rewrite IH, H by auto. reflexivity. Qed.

(** A NaN anywhere in a longitude makes both components, and the total, NaN in every row of that longitude but the last; so does a NaN
    forcing for the forcing term. *)
Theorem C161_nan_fills_its_longitude :
  forall (nlat : nat) (vort : nat -> nat -> B64) (q_part dmu : nat -> B64) (ncforce : option (nat -> nat -> B64)) (r i j c : nat),
  (r < nlat)%nat -> (j < nlat - 1)%nat -> not_a_number (vort r i) ->
  out_component (fst (@lwa B64 B64Num nlat vort q_part dmu true ncforce)) c j i = Some S754_nan /\
  out_total (fst (@lwa B64 B64Num nlat vort q_part dmu false ncforce)) j i = Some S754_nan.
Proof.
  intros nlat vort q_part dmu nc r i j c Hr Hj E. assert (P : forall c, @lwa_return_array B64 B64Num nlat vort q_part dmu c j i = S754_nan).
  { intros c'. unfold lwa_return_array. rewrite (proj2 (Nat.ltb_lt _ _) Hj). apply (sum_nan nlat _ r Hr). unfold vort_e. rewrite E. reflexivity. }
  unfold lwa. cbn [fst out_component out_total]. rewrite !P. split; reflexivity.
Qed.
Print Assumptions C161_nan_fills_its_longitude.
Theorem C161_nan_forcing_fills_its_longitude :
  forall (nlat : nat) (vort ncforce : nat -> nat -> B64) (q_part dmu : nat -> B64) (p : bool) (r i j : nat),
  (r < nlat)%nat -> (j < nlat - 1)%nat -> not_a_number (ncforce r i) ->
  exists b, snd (@lwa B64 B64Num nlat vort q_part dmu p (Some ncforce)) = Some b /\ b j i = S754_nan.
Proof.
  intros nlat vort nc q_part dmu p r i j Hr Hj E. exists (@lwa_bigsigma B64 B64Num nlat vort q_part dmu nc). split; [destruct p; reflexivity|].
  unfold lwa_bigsigma. rewrite (proj2 (Nat.ltb_lt _ _) Hj). apply (sum_nan nlat _ r Hr). rewrite E. reflexivity.
Qed.
Print Assumptions C161_nan_forcing_fills_its_longitude.
(** One infinite value makes the total activity of its longitude NaN, not infinite: the masked-out half is infinity times zero. *)
Theorem C161_infinity_fills_its_longitude :
  forall (nlat : nat) (vort : nat -> nat -> B64) (q_part dmu : nat -> B64) (ncforce : option (nat -> nat -> B64)) (r i j : nat),
  (r < nlat)%nat -> (j < nlat - 1)%nat -> infinite (vort r i) -> finite_number (q_part j) ->
  out_total (fst (@lwa B64 B64Num nlat vort q_part dmu false ncforce)) j i = Some S754_nan.
Proof.
  intros nlat vort q_part dmu nc r i j Hr Hj [s E] Hq. unfold lwa. cbn [fst out_total]. f_equal.
  assert (V : @vort_e B64 B64Num vort q_part j r i = S754_infinity s) by (unfold vort_e; rewrite E; destruct (q_part j); try contradiction; reflexivity).
  assert (X : @lwa_return_array B64 B64Num nlat vort q_part dmu (if s then 1%nat else 0%nat) j i = S754_nan).
  { unfold lwa_return_array. rewrite (proj2 (Nat.ltb_lt _ _) Hj). apply (sum_nan nlat _ r Hr). destruct s.
    - unfold cyclonic_mask. rewrite V. destruct (Nat.ltb r (j + 1)); reflexivity.
    - unfold anticyclonic_mask. rewrite V. destruct (Nat.ltb r (j + 1)); reflexivity. }
  destruct s; rewrite X; [apply add_nan_r|apply add_nan_l].
Qed.
Print Assumptions C161_infinity_fills_its_longitude.
(** No other longitude is affected, whatever the number type: a column of the results is determined by that column of the data. *)
Theorem C161_other_longitudes_unaffected :
  forall (A : Type) (N : Num A) (nlat : nat) (vort vort' : nat -> nat -> A) (q_part dmu : nat -> A) (ncforce ncforce' : nat -> nat -> A) (i : nat),
  (forall r, (r < nlat)%nat -> vort r i = vort' r i /\ ncforce r i = ncforce' r i) ->
  forall c j,
  out_component (fst (lwa nlat vort q_part dmu true None)) c j i = out_component (fst (lwa nlat vort' q_part dmu true None)) c j i /\
  out_total (fst (lwa nlat vort q_part dmu false None)) j i = out_total (fst (lwa nlat vort' q_part dmu false None)) j i /\
  forall p, exists b b', snd (lwa nlat vort q_part dmu p (Some ncforce)) = Some b /\ snd (lwa nlat vort' q_part dmu p (Some ncforce')) = Some b' /\ b j i = b' j i.
Proof.
  intros A N nlat vort vort' q_part dmu nc nc' i H c j.
  assert (P : forall c, lwa_return_array nlat vort q_part dmu c j i = lwa_return_array nlat vort' q_part dmu c j i).
  { intros c'. unfold lwa_return_array. destruct (Nat.ltb j (nlat - 1)); [|reflexivity]. apply sum_same. intros r Hr. destruct (H r Hr) as [E _].
    destruct c'; unfold anticyclonic_mask, cyclonic_mask, vort_e; rewrite !E; reflexivity. }
  split; [|split].
  - unfold lwa. cbn [fst out_component]. rewrite P. reflexivity.
  - unfold lwa. cbn [fst out_total]. rewrite !P. reflexivity.
  - intros p. exists (lwa_bigsigma nlat vort q_part dmu nc), (lwa_bigsigma nlat vort' q_part dmu nc'). split; [destruct p; reflexivity|]. split; [destruct p; reflexivity|].
    unfold lwa_bigsigma. destruct (Nat.ltb j (nlat - 1)); [|reflexivity]. apply sum_same. intros r Hr. destruct (H r Hr) as [E E']. unfold anticyclonic_mask, cyclonic_mask, vort_e. rewrite !E, E'. reflexivity.
Qed.
Print Assumptions C161_other_longitudes_unaffected.
(** The forcing term does not show a missing vorticity: the forcing at that point is left out instead. *)
Theorem C161_forcing_shows_missing_vorticity_refuted :
  forall (nlat : nat) (vort ncforce ncforce' : nat -> nat -> B64) (q_part dmu : nat -> B64) (r i j : nat),
  (r < nlat)%nat -> not_a_number (vort r i) -> finite_number (dmu r) ->
  finite_number (ncforce r i) -> finite_number (ncforce' r i) -> sign_bit (ncforce r i) = sign_bit (ncforce' r i) ->
  (forall r', r' <> r -> ncforce r' i = ncforce' r' i) ->
  forall p, exists b b', snd (@lwa B64 B64Num nlat vort q_part dmu p (Some ncforce)) = Some b /\ snd (@lwa B64 B64Num nlat vort q_part dmu p (Some ncforce')) = Some b' /\ b j i = b' j i.
Proof.
  intros nlat vort nc nc' q_part dmu r i j Hr E Hd Hn Hn' Hs Ho p.
  exists (@lwa_bigsigma B64 B64Num nlat vort q_part dmu nc), (@lwa_bigsigma B64 B64Num nlat vort q_part dmu nc'). split; [destruct p; reflexivity|]. split; [destruct p; reflexivity|].
  unfold lwa_bigsigma. destruct (Nat.ltb j (nlat - 1)); [|reflexivity]. apply sum_same. intros r' _. destruct (Nat.eq_dec r' r) as [->|X]; [|rewrite (Ho r' X); reflexivity].
  assert (V : @vort_e B64 B64Num vort q_part j r i = S754_nan) by (unfold vort_e; rewrite E; reflexivity).
  assert (M : @nadd B64 B64Num (@anticyclonic_mask B64 B64Num (@vort_e B64 B64Num vort q_part j) j r i) (@cyclonic_mask B64 B64Num (@vort_e B64 B64Num vort q_part j) j r i) = S754_zero false).
  { unfold anticyclonic_mask, cyclonic_mask. rewrite V. destruct (Nat.ltb r (j + 1)); reflexivity. }
  rewrite M. f_equal. clear - Hn Hn' Hs. destruct (nc r i); try contradiction; destruct (nc' r i); try contradiction; cbn in *; subst; reflexivity.
Qed.
Print Assumptions C161_forcing_shows_missing_vorticity_refuted.

(** three rows and two longitudes, one NaN *)
Definition C161_vort : nat -> nat -> B64 := fun r i => if Nat.eqb r 2 && Nat.eqb i 1 then S754_nan else @nofZ B64 B64Num (Z.of_nat (r * r + i)).
Example C161_case :
  out_total (fst (@lwa B64 B64Num 3 C161_vort (fun j => @nofZ B64 B64Num (Z.of_nat (2 * j))) (fun _ => @none B64 B64Num) false None)) 0 1 = Some S754_nan /\
  out_total (fst (@lwa B64 B64Num 3 C161_vort (fun j => @nofZ B64 B64Num (Z.of_nat (2 * j))) (fun _ => @none B64 B64Num) false None)) 1 0 = Some (S754_zero false).
Proof. split; vm_compute; reflexivity. Qed.

(** ** C162 *)
(** Full statement: values hidden by a mask do not influence the results.  Proved: the mask itself has no influence; the rest is refuted. *)
Theorem C162_mask_is_ignored_partial :
  forall (lib : library) (k : class) (w : qgargs) (u v t : field3) (mu mv mt : nat -> nat -> nat -> bool) (nc : field3),
  masked_session lib k w (MaskedArray u mu) (MaskedArray v mv) (MaskedArray t mt) nc = masked_session lib k w (Plain u) (Plain v) (Plain t) nc.
Proof. reflexivity. Qed.
Print Assumptions C162_mask_is_ignored_partial.
(** Every accepted session with the equator among its latitudes returns the hidden wind unchanged where a level of the results is a level of the
    data, and there is another session with the same visible data and another wind in the results. *)
Theorem C162_hidden_values_have_no_influence_refuted :
  forall (lib : library) (k : class) (w : qgargs) (u : field3) (v t : array3) (mask : nat -> nat -> nat -> bool) (nc : field3) (l l0 j i : nat),
  usable k w -> accepted_levels w -> Nat.even (w_nlat w) = false -> descending_pressure w ->
  (l < result_levels w)%nat -> (l0 < w_nlev w)%nat -> result_height w l = data_height w l0 -> mask l0 j i = true ->
  exists x, masked_session lib k w (MaskedArray u mask) v t nc = Done x /\ gives (out_u x) (fun y => y l j i = u l0 j i) /\
  exists u' x', show_the_same (MaskedArray u mask) (MaskedArray u' mask) /\ masked_session lib k w (MaskedArray u' mask) v t nc = Done x' /\
    gives (out_u x') (fun y => y l j i = u l0 j i + 1).
Proof.
  intros lib k w u v t mask nc l l0 j i U L Od D Hl Hl0 E M.
  assert (S : forall z : field3, exists x, masked_session lib k w (MaskedArray z mask) v t nc = Done x /\ gives (out_u x) (fun y => y l j i = z l0 j i)).
  { intros z. unfold masked_session. cbn [convert_masked_data]. set (w' := with_data w z (convert_masked_data v) (convert_masked_data t)).
    assert (U' : usable k w') by exact U. destruct (proj2 (proj1 (C131_session_succeeds_exactly_when lib k w' nc U')) (conj L (fun _ => Od))) as [x Hx].
    exists x. split; [exact Hx|]. destruct (C134_levels_of_the_data_are_kept lib k w' nc x U' Hx Od D l l0 Hl Hl0 E) as (G & _).
    destruct (out_u x) as [y|e]; cbn [gives] in *; [apply G|exact G]. }
  destruct (S u) as (x & Hx & G). exists x. split; [exact Hx|]. split; [exact G|].
  set (u' := fun l j i => if mask l j i then u l j i + 1 else u l j i). destruct (S u') as (x' & Hx' & G'). exists u', x'. split; [|split; [exact Hx'|]].
  - split; [reflexivity|]. intros l' j' i' H. unfold u'. rewrite H. reflexivity.
  - assert (Eu : u' l0 j i = u l0 j i + 1) by (unfold u'; rewrite M; reflexivity). rewrite <- Eu. exact G'.
Qed.
Print Assumptions C162_hidden_values_have_no_influence_refuted.
(** an accepted session whose lowest level is hidden *)
Example C162_case : exists x, masked_session some_library NH18 (some_args true false) (MaskedArray (fun _ _ _ => 9999) (fun l _ _ => Nat.eqb l 0)) (Plain (fun _ _ _ => 0)) (Plain (fun _ _ _ => 300)) (fun _ _ _ => 0) = Done x /\
  gives (out_u x) (fun y => y 0%nat 2%nat 1%nat = 9999).
Proof.
  destruct (C162_hidden_values_have_no_influence_refuted some_library NH18 (some_args true false) (fun _ _ _ => 9999) (Plain (fun _ _ _ => 0)) (Plain (fun _ _ _ => 300)) (fun l _ _ => Nat.eqb l 0) (fun _ _ _ => 0) 0 0 2 1) as (x & Hx & G & _).
  - apply some_usable. cbn. lia.
  - apply some_accepted.
  - reflexivity.
  - apply some_descending.
  - cbn. lia.
  - cbn. lia.
  - rewrite some_height. unfold result_height. cbn. ring.
  - reflexivity.
  - exists x. split; [exact Hx|exact G].
Qed.
