(** C166: interpolation from hybrid levels to pressure levels (scripts/pre_process_data_in_hybrid_coordinates).  Vocabulary: HybridSpec.v;
    what is assumed of gridfill.fill: keeps_unmasked, fills_masked (PropertiesMisc.v). *)
From Verif Require Import Base BaseFacts Spec SpecFacts Grid GridSpec GridProofs Misc Hybrid HybridSpec HybridProofs PropertiesMisc.
From Coq Require Import FunctionalExtensionality.
Open Scope R_scope.

(** every value of the result is a number; where the pressure level lies within the column of the model it is the linear interpolation between
    two neighbouring layers *)
Theorem C166_interpolated_where_possible :
  forall fill nt n nlat nlon ai bi P0 PS variable save new_lev r,
    keeps_unmasked fill -> fills_masked fill -> (2 <= n)%nat -> (forall t j i, layered n ai bi P0 (PS t j i)) ->
    vertical_interpolation_to_pressure true fill nt n nlat nlon ai bi P0 PS variable save new_lev = Some r ->
    forall t k j i, (j < nlat)%nat -> (i < nlon)%nat ->
      exists w, new_variable r t k j i = Number w /\
        (within_column n ai bi P0 (PS t j i) (new_lev k) -> interpolates n ai bi P0 (PS t j i) (fun m => variable t m j i) (new_lev k) w).
Proof.
  intros fill nt n nlat nlon ai bi P0 PS variable save new_lev r K F Hn L E t k j i Hj Hi. cbn in E. injection E as <-. cbn [new_variable].
  destruct (raw_cases n ai bi P0 PS variable new_lev t k j i Hn (L t j i)) as (In & Out).
  destruct (C65_numbers_kept_partial fill nlat nlon (raw_variable n ai bi P0 PS variable new_lev t k) K F) as (Kept & _ & Filled).
  assert (D : within_column n ai bi P0 (PS t j i) (new_lev k) \/ ~ within_column n ai bi P0 (PS t j i) (new_lev k)).
  { unfold within_column. destruct (Rle_dec (layer_pressure ai bi P0 (PS t j i) 0) (new_lev k)); destruct (Rle_dec (new_lev k) (layer_pressure ai bi P0 (PS t j i) (n - 1))); tauto. }
  destruct D as [W|W].
  - destruct (In W) as (w & E & I). exists w. split; [apply Kept; exact E|intros _; exact I].
  - destruct (Filled j i Hj Hi (Out W)) as (w & E). exists w. split; [exact E|intros X; contradiction].
Qed.
Print Assumptions C166_interpolated_where_possible.

(** a field that is a linear function of pressure in each column is reproduced *)
Theorem C166_linear_profiles_are_reproduced :
  forall fill nt n nlat nlon ai bi P0 PS variable save new_lev r (c d : nat -> nat -> nat -> R),
    keeps_unmasked fill -> fills_masked fill -> (2 <= n)%nat -> (forall t j i, layered n ai bi P0 (PS t j i)) ->
    (forall t m j i, (m < n)%nat -> variable t m j i = c t j i + d t j i * layer_pressure ai bi P0 (PS t j i) m) ->
    vertical_interpolation_to_pressure true fill nt n nlat nlon ai bi P0 PS variable save new_lev = Some r ->
    forall t k j i, (j < nlat)%nat -> (i < nlon)%nat -> within_column n ai bi P0 (PS t j i) (new_lev k) ->
      new_variable r t k j i = Number (c t j i + d t j i * new_lev k).
Proof.
  intros fill nt n nlat nlon ai bi P0 PS variable save new_lev r c d K F Hn L V E t k j i Hj Hi W.
  destruct (C166_interpolated_where_possible _ _ _ _ _ _ _ _ _ _ _ _ _ K F Hn L E t k j i Hj Hi) as (w & Ew & I). rewrite Ew. f_equal.
  destruct (I W) as (m & Hm & _ & ->). rewrite !V by lia. assert (S := layer_step n ai bi P0 (PS t j i) m (L t j i) Hm). field. lra.
Qed.
Print Assumptions C166_linear_profiles_are_reproduced.

(** the values at one time and level depend on nothing but the data of this time and the pressure of this level *)
Theorem C166_times_and_levels_are_independent :
  forall fill nt nt' n nlat nlon ai bi P0 PS PS' variable variable' save save' new_lev new_lev' r r' t t' k k',
    vertical_interpolation_to_pressure true fill nt n nlat nlon ai bi P0 PS variable save new_lev = Some r ->
    vertical_interpolation_to_pressure true fill nt' n nlat nlon ai bi P0 PS' variable' save' new_lev' = Some r' ->
    PS t = PS' t' -> variable t = variable' t' -> new_lev k = new_lev' k' ->
    new_variable r t k = new_variable r' t' k'.
Proof.
  intros fill nt nt' n nlat nlon ai bi P0 PS PS' variable variable' save save' new_lev new_lev' r r' t t' k k' E E' H1 H2 H3.
  cbn in E, E'. injection E as <-. injection E' as <-. cbn [new_variable]. extensionality j. extensionality i. f_equal.
  extensionality y. extensionality x. unfold raw_variable. rewrite H1, H2, H3. reflexivity.
Qed.
Print Assumptions C166_times_and_levels_are_independent.

(** the topography is 1 where the level lies within the column and NaN elsewhere, whatever the field *)
Theorem C166_topography :
  forall fill nt n nlat nlon ai bi P0 PS variable new_lev, (2 <= n)%nat -> (forall t j i, layered n ai bi P0 (PS t j i)) ->
    exists r topo, vertical_interpolation_to_pressure true fill nt n nlat nlon ai bi P0 PS variable true new_lev = Some r /\ topography r = Some topo /\
    forall t k j i, (within_column n ai bi P0 (PS t j i) (new_lev k) -> topo t k j i = Number 1) /\ (~ within_column n ai bi P0 (PS t j i) (new_lev k) -> topo t k j i = NaN).
Proof.
  intros fill nt n nlat nlon ai bi P0 PS variable new_lev Hn L. cbn. do 2 eexists. split; [reflexivity|]. split; [reflexivity|]. intros t k j i.
  destruct (raw_cases n ai bi P0 PS variable new_lev t k j i Hn (L t j i)) as (In & Out). split.
  - intros W. destruct (In W) as (w & -> & _). reflexivity.
  - intros W. rewrite (Out W). reflexivity.
Qed.
Print Assumptions C166_topography.
(** expected (line 96 of the script): 1 above the ground, NaN below.  It is NaN above the ground too: above the middle of the highest layer, and
    between the middle of the lowest layer and the ground *)
Theorem C166_topography_marks_the_ground_refuted :
  forall fill nt n nlat nlon ai bi P0 PS variable new_lev t k j i, (2 <= n)%nat -> (forall t j i, layered n ai bi P0 (PS t j i)) -> grounded n ai bi P0 (PS t j i) ->
    (new_lev k < layer_pressure ai bi P0 (PS t j i) 0 \/ layer_pressure ai bi P0 (PS t j i) (n - 1) < new_lev k < PS t j i / 100) ->
    new_lev k < PS t j i / 100 /\
    exists r topo, vertical_interpolation_to_pressure true fill nt n nlat nlon ai bi P0 PS variable true new_lev = Some r /\ topography r = Some topo /\ topo t k j i = NaN.
Proof.
  intros fill nt n nlat nlon ai bi P0 PS variable new_lev t k j i Hn L G H. split.
  - destruct H as [H|H]; [|lra]. assert (A := layers_ascending n ai bi P0 (PS t j i) (L t j i) 0%nat (n - 1)%nat ltac:(lia)).
    assert (X := L t j i (n - 1)%nat ltac:(lia)). replace (n - 1 + 1)%nat with n in X by lia. unfold grounded in G.
    unfold layer_pressure in A at 2. replace (n - 1 + 1)%nat with n in A by lia. lra.
  - destruct (C166_topography fill nt n nlat nlon ai bi P0 PS variable new_lev Hn L) as (r & topo & E & T & V). exists r, topo. split; [exact E|]. split; [exact T|].
    apply (V t k j i). unfold within_column. destruct H; lra.
Qed.
Print Assumptions C166_topography_marks_the_ground_refuted.
(** and the function cannot be called from another program *)
Theorem C166_importable_refuted :
  forall fill nt n nlat nlon ai bi P0 PS variable save new_lev, (0 < nt)%nat ->
    vertical_interpolation_to_pressure false fill nt n nlat nlon ai bi P0 PS variable save new_lev = None.
Proof. intros fill [|nt] n nlat nlon ai bi P0 PS variable save new_lev H; [lia|reflexivity]. Qed.
Print Assumptions C166_importable_refuted.

(** three layers: pressure 100, 400 and 750 hPa over a surface pressure of 900 hPa *)
Definition three_ai (m : nat) : R := nth m [0; 1 / 5; 0; 0] 0.
Definition three_bi (m : nat) : R := nth m [0; 0; 2 / 3; 1] 0.
Example C166_case : (forall t j i : nat, layered 3 three_ai three_bi 100000 ((fun _ _ _ => 90000) t j i)) /\ grounded 3 three_ai three_bi 100000 90000 /\
  layer_pressure three_ai three_bi 100000 90000 0 = 100 /\ layer_pressure three_ai three_bi 100000 90000 1 = 400 /\ layer_pressure three_ai three_bi 100000 90000 2 = 750 /\
  within_column 3 three_ai three_bi 100000 90000 500 /\ (750 < 850 < 90000 / 100) /\
  exists fill, keeps_unmasked fill /\ fills_masked fill /\ exists r, vertical_interpolation_to_pressure true fill 1 3 1 1 three_ai three_bi 100000 (fun _ _ _ => 90000) (fun _ m _ _ => INR m) true (fun k => 500 + 350 * INR k) = Some r /\
    new_variable r 0%nat 0%nat 0%nat 0%nat = Number (1 + 2 / 7) /\ new_variable r 0%nat 1%nat 0%nat 0%nat = Number 0.
Proof.
  assert (P0 : layer_pressure three_ai three_bi 100000 90000 0 = 100) by (unfold layer_pressure, three_ai, three_bi; cbn; lra).
  assert (P1 : layer_pressure three_ai three_bi 100000 90000 1 = 400) by (unfold layer_pressure, three_ai, three_bi; cbn; lra).
  assert (P2 : layer_pressure three_ai three_bi 100000 90000 2 = 750) by (unfold layer_pressure, three_ai, three_bi; cbn; lra).
  assert (L : forall t j i : nat, layered 3 three_ai three_bi 100000 ((fun _ _ _ => 90000) t j i)).
  { intros t j i m Hm. unfold three_ai, three_bi. destruct m as [|[|[|m]]]; [cbn; lra..|lia]. }
  split; [exact L|]. split; [unfold grounded, three_ai, three_bi; cbn; lra|]. split; [exact P0|]. split; [exact P1|]. split; [exact P2|].
  split; [unfold within_column; cbn [Nat.sub]; rewrite P0, P2; lra|]. split; [lra|].
  set (fill := fun (m : nat -> nat -> option R) j i => match m j i with Some x => Number x | None => Number 0 end).
  assert (K : keeps_unmasked fill) by (intros m j i x H; unfold fill; rewrite H; reflexivity).
  assert (F : fills_masked fill) by (intros m j i H; unfold fill; rewrite H; eauto).
  exists fill. split; [exact K|]. split; [exact F|].
  destruct (C166_topography fill 1 3 1 1 three_ai three_bi 100000 (fun _ _ _ => 90000) (fun _ m _ _ => INR m) (fun k => 500 + 350 * INR k) ltac:(lia) L) as (r & topo & E & _).
  exists r. split; [exact E|]. split.
  - destruct (C166_interpolated_where_possible fill 1 3 1 1 _ _ _ _ _ _ _ r K F ltac:(lia) L E 0%nat 0%nat 0%nat 0%nat ltac:(lia) ltac:(lia)) as (w & W & I). rewrite W. f_equal.
    destruct I as (m & Hm & B & ->); [unfold within_column; cbn [Nat.sub INR]; rewrite P0, P2; lra|]. cbn [INR] in B |- *.
    destruct m as [|[|m]]; [exfalso; cbn [Nat.add] in B; rewrite P1 in B; lra| |lia]. clear B. cbn [Nat.add]. rewrite P1, P2. cbn [INR]. field.
  - destruct (raw_cases 3 three_ai three_bi 100000 (fun _ _ _ => 90000) (fun _ m _ _ => INR m) (fun k => 500 + 350 * INR k) 0 1 0 0 ltac:(lia) (L 0%nat 0%nat 0%nat)) as (_ & Out).
    assert (O : raw_variable 3 three_ai three_bi 100000 (fun _ _ _ => 90000) (fun _ m _ _ => INR m) (fun k => 500 + 350 * INR k) 0 1 0 0 = NaN) by (apply Out; unfold within_column; cbn [Nat.sub INR]; rewrite P0, P2; lra).
    cbn in E. injection E as <-. cbn [new_variable]. unfold gridfill_each_level, count_nan. cbn [seq list_prod map app fold_right fst snd]. rewrite O. cbn [is_nan Nat.add Nat.eqb]. unfold fill, masked_invalid. rewrite O. reflexivity.
Qed.
