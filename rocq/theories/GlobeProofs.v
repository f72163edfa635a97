(** Proofs about objects built from the output of hemisphere_to_globe. *)
From Verif Require Import Base BaseFacts Spec SpecFacts Grid GridProofs Pipeline RefStates Object ObjectSpec ObjectProofs ObjectProofs2 ObjectProofs4
  Xarray XarraySpec XarrayProofs XarrayProofs2 XarrayProofs3 GlobeSpec PropertiesXarray2 PropertiesObject.
From Coq Require Import ZifyNat.
Ltac Zify.zify_post_hook ::= Z.to_euclidean_division_equations.
Open Scope R_scope.

Lemma lookup_nth {T : Type} (d : string) (l : list (string * T)) (x : T) : lookup d l = Some x -> exists k, nth_error l k = Some (d, x).
Proof.
  induction l as [|[e y] l IH]; cbn; [discriminate|]. destruct (String.eqb_spec d e) as [->|Ne].
  - intros H; injection H as ->. exists 0%nat. reflexivity.
  - intros H. destruct (IH H) as [k Hk]. exists (S k). exact Hk.
Qed.

Section Globe.
  Variables (coord : string) (user : option (list (string * string))) (s g : latset R row_values).
  Hypothesis H : hemisphere_to_globe minus_row coord user s = Ok g.
  Hypothesis Hem : one_hemisphere (ls_lat s).
  Local Notation n := (length (ls_lat s)).
  Local Notation N := (length (ls_lat g)).
  Local Notation wind := (resolves (in_dataset coord s) NAMES_V user).

  Lemma globe_size : N = (2 * n - 1)%nat /\ (3 <= n)%nat.
  Proof. destruct (C60_mirror_extension minus_row coord user s g H) as (o & _ & L & _). split; [exact L|apply Hem]. Qed.
  (** the middle row is the equator *)
  Lemma globe_middle : nth (n - 1) (ls_lat g) 0 = 0.
  Proof.
    destruct (C60_mirror_extension minus_row coord user s g H) as (o & Ho & L & _ & E & Own & _). destruct Hem as (N3 & _ & _ & B).
    destruct Ho as [-> | ->].
    - specialize (Own (n - 1)%nat ltac:(lia)). cbn [Nat.add] in Own. rewrite Own in E |- *. apply (B (n - 1)%nat ltac:(lia)). exact E.
    - specialize (Own 0%nat ltac:(lia)). rewrite Nat.add_0_r in Own. rewrite Own in E |- *. apply (B 0%nat ltac:(lia)). exact E.
  Qed.
  Lemma globe_opposite j : (j < N)%nat -> nth (N - 1 - j) (ls_lat g) 0 = - nth j (ls_lat g) 0.
  Proof.
    intros Hj. destruct globe_size as (L & N3). destruct (Nat.eq_dec j (n - 1)) as [->|Ne].
    - replace (N - 1 - (n - 1))%nat with (n - 1)%nat by lia. rewrite globe_middle. ring.
    - destruct (C60_latitudes minus_row coord user s g H) as (S1 & _). rewrite <- (S1 j) by lia. replace (N - 1 - j)%nat with (2 * (n - 1) - j)%nat by lia. reflexivity.
  Qed.
  Lemma globe_range j : (j < N)%nat -> -90 <= nth j (ls_lat g) 0 <= 90.
  Proof.
    intros Hj. destruct globe_size as (L & N3). destruct (C60_mirror_extension minus_row coord user s g H) as (o & Ho & _ & _ & _ & Own & Img & _).
    destruct Hem as (_ & _ & _ & B). destruct (Nat.eq_dec j (n - 1)) as [->|Ne]; [rewrite globe_middle; lra|].
    destruct (Nat.le_gt_cases o j) as [A|A]; [destruct (Nat.lt_ge_cases (j - o) n) as [A2|A2]|].
    - specialize (Own (j - o)%nat A2). replace (o + (j - o))%nat with j in Own by lia. rewrite Own. apply B. exact A2.
    - specialize (Img (2 * (n - 1) - j - o)%nat ltac:(lia) ltac:(lia)). replace (2 * (n - 1) - (o + (2 * (n - 1) - j - o)))%nat with j in Img by lia.
      rewrite Img. destruct (B (2 * (n - 1) - j - o)%nat ltac:(lia)). lra.
    - specialize (Img (2 * (n - 1) - j - o)%nat ltac:(lia) ltac:(lia)). replace (2 * (n - 1) - (o + (2 * (n - 1) - j - o)))%nat with j in Img by lia.
      rewrite Img. destruct (B (2 * (n - 1) - j - o)%nat ltac:(lia)). lra.
  Qed.
  (** values of a variable at opposite rows *)
  Lemma globe_values name y j : lookup name (ls_vars g) = Some y -> (j < N)%nat -> j <> (n - 1)%nat ->
    (wind name -> forall l i, y (N - 1 - j)%nat l i = - y j l i) /\ (~ wind name -> forall l i, y (N - 1 - j)%nat l i = y j l i).
  Proof.
    intros Ly Hj Ne. destruct globe_size as (L & N3). destruct (C60_mirror_extension minus_row coord user s g H) as (o & Ho & _ & Lv & _ & _ & _ & V).
    destruct (lookup_nth _ _ _ Ly) as [k Hk].
    destruct (nth_error (ls_vars s) k) as [[name' x]|] eqn:E.
    2:{ apply nth_error_None in E. assert (k < length (ls_vars g))%nat by (apply nth_error_Some; rewrite Hk; discriminate). lia. }
    destruct (V k name' x E) as (y' & E' & Own & Img). rewrite E' in Hk. injection Hk as -> ->.
    assert (Dir : (o <= j < o + n)%nat \/ (o <= N - 1 - j < o + n)%nat) by lia.
    destruct Dir as [Dir|Dir].
    - specialize (Own (j - o)%nat ltac:(lia)). specialize (Img (j - o)%nat ltac:(lia) ltac:(lia)).
      replace (o + (j - o))%nat with j in * by lia. replace (N - 1 - j)%nat with (2 * (n - 1) - j)%nat by lia. destruct Img as (I1 & I2).
      split; intros Wn l i; [rewrite (I1 Wn), Own|rewrite (I2 Wn), Own]; reflexivity.
    - specialize (Own (N - 1 - j - o)%nat ltac:(lia)). specialize (Img (N - 1 - j - o)%nat ltac:(lia) ltac:(lia)).
      replace (o + (N - 1 - j - o))%nat with (N - 1 - j)%nat in * by lia. replace (2 * (n - 1) - (N - 1 - j))%nat with j in Img by lia. destruct Img as (I1 & I2).
      split; intros Wn l i; [rewrite (I1 Wn), Own; unfold minus_row; ring|rewrite (I2 Wn), Own; reflexivity].
  Qed.

  Variables (nu nv nt : string) (w : qgargs).
  Hypothesis Given : given_by g nu nv nt w.
  Hypothesis Asc : forall j, (S j < w_nlat w)%nat -> w_ylat w j < w_ylat w (S j).
  Lemma globe_balanced : balanced_latitudes (w_nlat w) (w_ylat w).
  Proof.
    destruct globe_size as (L & N3). destruct Given as (Nl & rv & u & v & t & _ & _ & _ & Y & _). rewrite Nl in *.
    split; [lia|]. split; [exact Asc|]. right. split.
    - rewrite L. replace (2 * n - 1)%nat with (1 + 2 * (n - 1))%nat by lia. rewrite Nat.even_add_mul_2. reflexivity.
    - replace (N / 2)%nat with (n - 1)%nat by lia. rewrite Y by lia. replace (position rv N (n - 1)) with (n - 1)%nat by (unfold position; destruct rv; lia). exact globe_middle.
  Qed.
  Lemma globe_symmetric : symmetric_latitudes w.
  Proof.
    destruct globe_size as (L & N3). destruct Given as (Nl & rv & u & v & t & _ & _ & _ & Y & _). intros j Hj. rewrite Nl in *.
    rewrite !Y by lia. rewrite <- globe_opposite by (unfold position; destruct rv; lia). replace (position rv N (N - 1 - j)) with (N - 1 - position rv N j)%nat by (unfold position; destruct rv; lia). reflexivity.
  Qed.
  Lemma globe_in_range j : (j < w_nlat w)%nat -> -90 <= w_ylat w j <= 90.
  Proof.
    destruct globe_size as (L & N3). destruct Given as (Nl & rv & u & v & t & _ & _ & _ & Y & _). intros Hj. rewrite Nl in *.
    rewrite Y by lia. apply globe_range. unfold position; destruct rv; lia.
  Qed.
  Lemma globe_usable k : workable k w -> usable k w.
  Proof. intros W. split; [exact globe_balanced|exact W]. Qed.

  (** no meridional wind on the equator *)
  Hypothesis Still : forall l i, (l < w_nlev w)%nat -> (i < w_nlon w)%nat -> w_v w l (w_nlat w / 2)%nat i = 0.
  Hypothesis Wv : wind nv.
  Hypothesis Wu : ~ wind nu.
  Hypothesis Wt : ~ wind nt.
  Lemma globe_fields : mirrored_input w 1 (w_nlev w) (w_nlat w) (w_u w) (w_u w) /\ mirrored_input w (-1) (w_nlev w) (w_nlat w) (w_v w) (w_v w) /\
    mirrored_input w 1 (w_nlev w) (w_nlat w) (w_t w) (w_t w).
  Proof.
    destruct globe_size as (L & N3). destruct Given as (Nl & rv & u & v & t & Lu & Lv & Lt & _ & V). rewrite Nl in *. replace (N / 2)%nat with (n - 1)%nat in Still by lia.
    assert (Pos : forall j, (j < N)%nat -> position rv N (N - 1 - j) = (N - 1 - position rv N j)%nat /\ (position rv N j < N)%nat /\ (j <> n - 1 -> position rv N j <> n - 1)%nat)
      by (intros j Hj; unfold position; destruct rv; lia).
    split; [|split]; intros l j i Hl Hj Hi; destruct (Pos j Hj) as (P1 & P2 & P3);
      destruct (V l j i Hl Hj Hi) as (V1 & V2 & V3); destruct (V l (N - 1 - j)%nat i Hl ltac:(lia) Hi) as (W1 & W2 & W3);
      (destruct (Nat.eq_dec j (n - 1)) as [->|Ne]; [replace (N - 1 - (n - 1))%nat with (n - 1)%nat by lia|]).
    - ring.
    - rewrite V1, W1, P1. destruct (globe_values nu u (position rv N j) Lu P2 (P3 Ne)) as (_ & E). rewrite (E Wu l i). ring.
    - rewrite Still by assumption. ring.
    - rewrite V2, W2, P1. destruct (globe_values nv v (position rv N j) Lv P2 (P3 Ne)) as (E & _). rewrite (E Wv l i). ring.
    - ring.
    - rewrite V3, W3, P1. destruct (globe_values nt t (position rv N j) Lt P2 (P3 Ne)) as (_ & E). rewrite (E Wt l i). ring.
  Qed.
End Globe.

(** a session equals its own mirror image *)
Lemma same_data w : with_data w (w_u w) (w_v w) (w_t w) = w.
Proof. destruct w. reflexivity. Qed.
Lemma self_mirror_activity lib k w x :
  data_only lib -> match k with NH18 => True | NHN22 b => (1 <= b)%nat end -> usable k w -> accepted_levels w -> w_nh w = false -> Nat.even (w_nlat w) = false -> symmetric_latitudes w ->
  (forall j, (j < w_nlat w)%nat -> -90 <= w_ylat w j <= 90) ->
  mirrored_input w 1 (w_nlev w) (w_nlat w) (w_u w) (w_u w) -> mirrored_input w (-1) (w_nlev w) (w_nlat w) (w_v w) (w_v w) ->
  mirrored_input w 1 (w_nlev w) (w_nlat w) (w_t w) (w_t w) ->
  session lib k w (fun _ _ _ => 0) = Done x -> same_activity w x.
Proof.
  intros Hl Hk U L NF Od Sy Rg Hu Hv Ht Hs.
  assert (Z : mirrored_input w (-1) (result_levels w) (analysis_rows w) (fun _ _ _ => 0) (fun _ _ _ => 0)) by (intros ? ? ? ? ? ?; ring).
  assert (M : both (mirrored_map w 1) (out_lwa_baro x) (out_lwa_baro x) /\ both (mirrored_field w 1) (out_lwa x) (out_lwa x)).
  { destruct k as [|b].
    - assert (B := C129_nh18_mirrored_input_gives_mirrored_output lib w _ _ _ _ _ Hl U L NF Sy Rg Hu Hv Ht Z). rewrite same_data, Hs in B.
      unfold both in B at 1. destruct B as (_ & _ & _ & _ & _ & _ & _ & _ & _ & _ & _ & _ & _ & _ & _ & _ & _ & B1 & _ & _ & B2 & _). split; assumption.
    - assert (B := C129_nhn22_mirrored_input_gives_mirrored_activity_partial lib b w _ _ _ _ _ Hl Hk U L NF Sy Rg Hu Hv Ht Z). rewrite same_data, Hs in B.
      unfold both in B at 1. destruct B as (_ & _ & _ & _ & _ & _ & _ & B1 & _ & _ & B2). split; assumption. }
  destruct M as (M1 & M2). destruct U as (Bal & _). destruct Bal as (N4 & Asc & [[Ev _]|[_ Mid]]); [congruence|].
  assert (Away : forall row, (row < w_nlat w)%nat -> row <> (w_nlat w / 2)%nat -> away w row).
  { intros row Hr Ne. unfold away. rewrite Od. rewrite <- Mid. intros E.
    assert (As : ascending (w_nlat w) (w_ylat w)) by (apply balanced_ascending; split; [exact N4|split; [exact Asc|right; split; assumption]]).
    destruct (Nat.lt_total row (w_nlat w / 2)) as [T|[T|T]]; [|contradiction|];
      [assert (X := As row (w_nlat w / 2)%nat ltac:(lia))|assert (X := As (w_nlat w / 2)%nat row ltac:(lia))]; lra. }
  assert (Middle : forall row, row = (w_nlat w / 2)%nat -> (w_nlat w - 1 - row)%nat = row).
  { intros row ->. assert (w_nlat w mod 2 = 1)%nat; [|lia]. rewrite <- Nat.negb_odd in Od. apply negb_false_iff in Od. apply Nat.odd_spec in Od. destruct Od as [m ->].
    rewrite Nat.add_comm, Nat.mul_comm, Nat.mod_add by lia. reflexivity. }
  split.
  - unfold both in M2. destruct (out_lwa x) as [y|]; [|contradiction]. intros l row i Hl' Hr Hi.
    destruct (Nat.eq_dec row (w_nlat w / 2)) as [E|E]; [rewrite (Middle row E); reflexivity|]. rewrite (M2 l row i Hl' Hr Hi (Away row Hr E)). ring.
  - unfold both in M1. destruct (out_lwa_baro x) as [y|]; [|contradiction]. intros row i Hr Hi.
    destruct (Nat.eq_dec row (w_nlat w / 2)) as [E|E]; [rewrite (Middle row E); reflexivity|]. rewrite (M1 row i Hr Hi (Away row Hr E)). ring.
Qed.
