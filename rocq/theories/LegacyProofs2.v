(** Legacy solver: maximum principle, the assembled systems, and the reference states they give. *)
From Coq Require Import ZifyNat.
From Verif Require Import BaseFacts SpecFacts LinAlg LegacySpec Legacy GridProofs LegacyProofs.
Ltac Zify.zify_post_hook ::= Z.to_euclidean_division_equations.
Open Scope R_scope.

(** ** maximum principle *)
Section Max.
  Variables (jm kmax : nat) (cc cd : nat -> nat -> R) (U : nat -> nat -> R).
  Hypothesis Pc : forall r k, (1 <= r <= jm)%nat -> (1 <= k)%nat -> (S k < kmax)%nat -> 0 <= cc r k /\ 0 <= cd r k.
  Hypothesis E : forall r k, (1 <= r <= jm)%nat -> (1 <= k)%nat -> (S k < kmax)%nat ->
    U (r + 1)%nat k - 2 * U r k + U (r - 1)%nat k + (cc r k * (U r (k + 1)%nat - U r k) - cd r k * (U r k - U r (k - 1)%nat)) = 0.
  Hypothesis Z : zero_edges jm kmax U.
  Hypothesis Edge : forall r k, (1 <= r <= jm)%nat -> (k < kmax)%nat -> (k = 0 \/ k = kmax - 1)%nat ->
    U r k <= 0 \/ exists k', (1 <= k')%nat /\ (S k' < kmax)%nat /\ U r k <= U r k'.
  Lemma no_positive r k : (1 <= r <= jm)%nat -> (k < kmax)%nat -> U r k <= 0.
  Proof.
    intros Hr Hk. destruct (Rle_lt_dec (U r k) 0) as [L|L]; [exact L|exfalso].
    set (l := map (fun p => U (S (fst p)) (snd p)) (interior jm kmax)).
    assert (In_l : forall r k, (1 <= r <= jm)%nat -> (1 <= k)%nat -> (S k < kmax)%nat -> In (U r k) l).
    { intros r' k' H1 H2 H3. unfold l. apply in_map_iff. exists ((r' - 1)%nat, k'). cbn [fst snd]. replace (S (r' - 1)) with r' by lia. split; [reflexivity|]. apply in_interior. lia. }
    assert (X : exists k', (1 <= k')%nat /\ (S k' < kmax)%nat /\ U r k <= U r k').
    { destruct (Nat.eq_dec k 0) as [E0|E0]; [|destruct (Nat.eq_dec k (kmax - 1)) as [E1|E1]].
      - destruct (Edge r k Hr Hk (or_introl E0)) as [?|?]; [lra|assumption].
      - destruct (Edge r k Hr Hk (or_intror E1)) as [?|?]; [lra|assumption].
      - exists k. split; [lia|]. split; [lia|lra]. }
    destruct X as (k1 & K1 & K2 & K3). assert (In1 := In_l r k1 Hr K1 K2).
    assert (Ne : l <> []) by (intros Y; rewrite Y in In1; destruct In1).
    set (m := rlmax l). assert (Mp : 0 < m) by (assert (G := lmax_ge l _ In1); fold m in G; lra).
    assert (Le : forall r k, (r <= S jm)%nat -> (k < kmax)%nat -> U r k <= m).
    { assert (Li : forall r k, (1 <= r <= jm)%nat -> (1 <= k)%nat -> (S k < kmax)%nat -> U r k <= m) by (intros; apply lmax_ge; apply In_l; assumption).
      intros r' k' H1 H2. destruct (Nat.eq_dec r' 0) as [->|R0]; [rewrite (proj1 (Z k' H2)); lra|].
      destruct (Nat.eq_dec r' (S jm)) as [->|R1]; [rewrite (proj2 (Z k' H2)); lra|].
      assert (Hr' : (1 <= r' <= jm)%nat) by lia.
      destruct (Nat.eq_dec k' 0) as [E0|E0]; [|destruct (Nat.eq_dec k' (kmax - 1)) as [E1|E1]].
      - destruct (Edge r' k' Hr' H2 (or_introl E0)) as [?|(k2 & Q1 & Q2 & Q3)]; [lra|]. specialize (Li r' k2 Hr' Q1 Q2). lra.
      - destruct (Edge r' k' Hr' H2 (or_intror E1)) as [?|(k2 & Q1 & Q2 & Q3)]; [lra|]. specialize (Li r' k2 Hr' Q1 Q2). lra.
      - apply Li; lia. }
    assert (Im := lmax_in l Ne). fold m in Im. unfold l in Im. apply in_map_iff in Im. destruct Im as ((j0 & k0) & Em & Hi). apply in_interior in Hi. cbn [fst snd] in Em.
    assert (Up : forall d, (S j0 + d <= S jm)%nat -> U (S j0 + d)%nat k0 = m).
    { induction d as [|d IH]; intros Hd; [rewrite Nat.add_0_r; exact Em|]. specialize (IH ltac:(lia)). set (q := (S j0 + d)%nat) in *.
      assert (Hq : (1 <= q <= jm)%nat) by lia. assert (Q := E q k0 Hq ltac:(lia) ltac:(lia)). destruct (Pc q k0 Hq ltac:(lia) ltac:(lia)) as (C1 & C2).
      assert (L1 := Le (q + 1)%nat k0 ltac:(lia) ltac:(lia)). assert (L2 := Le (q - 1)%nat k0 ltac:(lia) ltac:(lia)).
      assert (L3 := Le q (k0 + 1)%nat ltac:(lia) ltac:(lia)). assert (L4 := Le q (k0 - 1)%nat ltac:(lia) ltac:(lia)).
      replace (S j0 + S d)%nat with (q + 1)%nat by lia. rewrite IH in Q.
      assert (0 <= cc q k0 * (m - U q (k0 + 1)%nat)) by (apply Rmult_le_pos; lra). assert (0 <= cd q k0 * (m - U q (k0 - 1)%nat)) by (apply Rmult_le_pos; lra). lra. }
    assert (F := Up (jm - j0)%nat ltac:(lia)). replace (S j0 + (jm - j0))%nat with (S jm) in F by lia. rewrite (proj2 (Z k0 ltac:(lia))) in F. lra.
  Qed.
End Max.

(** the elliptic equation with general weights *)
Definition general (jm kmax : nat) (cc cd source : nat -> nat -> R) (U : nat -> nat -> R) : Prop :=
  forall r k, (1 <= r <= jm)%nat -> (1 <= k)%nat -> (S k < kmax)%nat ->
    U (r + 1)%nat k - 2 * U r k + U (r - 1)%nat k + (cc r k * (U r (k + 1)%nat - U r k) - cd r k * (U r k - U r (k - 1)%nat)) = source r k.

Section Unique.
  Variables (jm kmax : nat) (cc cd source : nat -> nat -> R) (top bottom : nat -> R).
  Hypothesis Pc : forall r k, (1 <= r <= jm)%nat -> (1 <= k)%nat -> (S k < kmax)%nat -> 0 <= cc r k /\ 0 <= cd r k.
  Lemma unique_gen (bc : (nat -> R) -> (nat -> nat -> R) -> Prop) U V :
    (forall W, bc (fun _ => 0) W -> top_condition jm kmax (fun _ => 0) W -> forall r k, (1 <= r <= jm)%nat -> (k < kmax)%nat -> (k = 0 \/ k = kmax - 1)%nat ->
       W r k <= 0 \/ exists k', (1 <= k')%nat /\ (S k' < kmax)%nat /\ W r k <= W r k') ->
    (bc (fun _ => 0) (fun r k => U r k - V r k)) -> (bc (fun _ => 0) (fun r k => V r k - U r k)) ->
    zero_edges jm kmax U -> zero_edges jm kmax V -> general jm kmax cc cd source U -> general jm kmax cc cd source V ->
    top_condition jm kmax top U -> top_condition jm kmax top V -> same jm kmax U V.
  Proof.
    intros Ed B1 B2 ZU ZV GU GV TU TV r k Hr Hk.
    destruct (Nat.eq_dec r 0) as [->|R0]; [rewrite (proj1 (ZU k Hk)), (proj1 (ZV k Hk)); reflexivity|].
    destruct (Nat.eq_dec r (S jm)) as [->|R1]; [rewrite (proj2 (ZU k Hk)), (proj2 (ZV k Hk)); reflexivity|].
    assert (D1 : U r k - V r k <= 0).
    { apply (no_positive jm kmax cc cd (fun r k => U r k - V r k) Pc).
      - intros r' k' H1 H2 H3. assert (G1 := GU r' k' H1 H2 H3). assert (G2 := GV r' k' H1 H2 H3). lra.
      - intros k' Hk'. destruct (ZU k' Hk'), (ZV k' Hk'). split; lra.
      - apply (Ed (fun r k => U r k - V r k)); [exact B1|]. intros r' Hr'. specialize (TU r' Hr'). specialize (TV r' Hr'). lra.
      - lia.
      - exact Hk. }
    assert (D2 : V r k - U r k <= 0).
    { apply (no_positive jm kmax cc cd (fun r k => V r k - U r k) Pc).
      - intros r' k' H1 H2 H3. assert (G1 := GU r' k' H1 H2 H3). assert (G2 := GV r' k' H1 H2 H3). lra.
      - intros k' Hk'. destruct (ZU k' Hk'), (ZV k' Hk'). split; lra.
      - apply (Ed (fun r k => V r k - U r k)); [exact B2|]. intros r' Hr'. specialize (TU r' Hr'). specialize (TV r' Hr'). lra.
      - lia.
      - exact Hk. }
    lra.
  Qed.
  Lemma unique_noslip U V : (3 <= kmax)%nat -> zero_edges jm kmax U -> zero_edges jm kmax V -> general jm kmax cc cd source U -> general jm kmax cc cd source V ->
    top_condition jm kmax top U -> top_condition jm kmax top V -> no_slip jm bottom U -> no_slip jm bottom V -> same jm kmax U V.
  Proof.
    intros K3 ZU ZV GU GV TU TV BU BV. apply (unique_gen (no_slip jm) U V); try assumption.
    - intros W BW TW r k Hr Hk [-> | ->]; [left; rewrite (BW r Hr); lra|]. specialize (TW r Hr).
      destruct (Nat.eq_dec kmax 3) as [->|]; [left|right].
      + cbn in TW |- *. rewrite (BW r Hr) in TW. lra.
      + exists (kmax - 3)%nat. split; [lia|]. split; [lia|lra].
    - intros r Hr. rewrite (BU r Hr), (BV r Hr). ring.
    - intros r Hr. rewrite (BU r Hr), (BV r Hr). ring.
  Qed.
  Lemma unique_adiab U V : (4 <= kmax)%nat -> zero_edges jm kmax U -> zero_edges jm kmax V -> general jm kmax cc cd source U -> general jm kmax cc cd source V ->
    top_condition jm kmax top U -> top_condition jm kmax top V -> adiabatic jm bottom U -> adiabatic jm bottom V -> same jm kmax U V.
  Proof.
    intros K3 ZU ZV GU GV TU TV BU BV. apply (unique_gen (adiabatic jm) U V); try assumption.
    - intros W BW TW r k Hr Hk [-> | ->].
      + right. exists 2%nat. split; [lia|]. split; [lia|]. specialize (BW r Hr). lra.
      + right. exists (kmax - 3)%nat. specialize (TW r Hr). split; [lia|]. split; [lia|lra].
    - intros r Hr. assert (B1 := BU r Hr). assert (B2 := BV r Hr). lra.
    - intros r Hr. assert (B1 := BU r Hr). assert (B2 := BV r Hr). lra.
  Qed.
End Unique.

(** ** the assembled systems are the equations *)
Notation rback := (@map_back R RNum).
Lemma back_inside jm kmax x r k : (1 <= r <= jm)%nat -> rback jm kmax x r k = x (input_jk_output_index (r - 1) k kmax).
Proof. intros H. unfold map_back. destruct (Nat.leb_spec 1 r); destruct (Nat.leb_spec r jm); cbn [andb]; lia || reflexivity. Qed.
Lemma back_edges jm kmax x : zero_edges jm kmax (rback jm kmax x).
Proof.
  intros k Hk. unfold map_back. split; [reflexivity|]. destruct (Nat.leb_spec 1 (S jm)); destruct (Nat.leb_spec (S jm) jm); cbn [andb]; lia || reflexivity.
Qed.

Section System.
  Variables (jm kmax : nat) (cc cd f : nat -> nat -> R) (top bottom : nat -> R).
  Hypothesis K3 : (3 <= kmax)%nat.
  Let ones := fun _ _ : nat => 1.
  Let ce := fun j k => - (1 + 1 + cc j k + cd j k).
  Definition up (g : nat -> nat -> R) (r k : nat) : R := g (r - 1)%nat k.
  Lemma interior_back x j k : (j < jm)%nat -> let U := rback jm kmax x in
    interior_value jm kmax ones ones cc cd ce x j k =
    U (S j + 1)%nat k - 2 * U (S j) k + U (S j - 1)%nat k + (cc j k * (U (S j) (k + 1)%nat - U (S j) k) - cd j k * (U (S j) k - U (S j) (k - 1)%nat)).
  Proof.
    intros Hj U. unfold interior_value.
    assert (U0 : forall k', U (S j) k' = x (input_jk_output_index j k' kmax)) by (intros; unfold U; rewrite back_inside by lia; replace (S j - 1)%nat with j by lia; reflexivity).
    assert (U1 : (if Nat.ltb j (jm - 1) then ones j k * x (input_jk_output_index (j + 1) k kmax) else 0) = U (S j + 1)%nat k).
    { unfold ones. destruct (Nat.ltb_spec j (jm - 1)).
      - unfold U. rewrite back_inside by lia. replace (S j + 1 - 1)%nat with (j + 1)%nat by lia. ring.
      - unfold U, map_back. destruct (Nat.leb_spec 1 (S j + 1)); destruct (Nat.leb_spec (S j + 1) jm); cbn [andb]; lia || reflexivity. }
    assert (U2 : (if Nat.ltb 0 j then ones j k * x (input_jk_output_index (j - 1) k kmax) else 0) = U (S j - 1)%nat k).
    { unfold ones. destruct (Nat.ltb_spec 0 j).
      - unfold U. rewrite back_inside by lia. replace (S j - 1 - 1)%nat with (j - 1)%nat by lia. ring.
      - unfold U, map_back. destruct (Nat.leb_spec 1 (S j - 1)); destruct (Nat.leb_spec (S j - 1) jm); cbn [andb]; lia || reflexivity. }
    rewrite U1, U2, !U0. unfold ce. ring.
  Qed.
  Lemma rows_all (P : nat -> Prop) : (forall i, (i < jm * kmax)%nat -> P i) <-> (forall j k, (j < jm)%nat -> (k < kmax)%nat -> P (input_jk_output_index j k kmax)).
  Proof.
    split; [intros H j k Hj Hk; apply H; apply index_bound; assumption|]. intros H i Hi. destruct (index_onto i jm kmax Hi) as (j & k & Hj & Hk & ->). apply H; assumption.
  Qed.
  Lemma system_gen (M : nat -> nat -> R) (bot : (nat -> nat -> R) -> nat -> R) x b :
    let U := rback jm kmax x in
    (forall j k, (j < jm)%nat -> (k < kmax)%nat -> row_sum (jm * kmax) M x (rowi kmax j k) = row_value jm kmax ones ones cc cd ce x (fun j => bot U (S j)) j k) ->
    (forall j k, (j < jm)%nat -> (k < kmax)%nat -> b (input_jk_output_index j k kmax) = if Nat.eqb k 0 then bottom j else if Nat.eqb k (kmax - 1) then top j else f j k) ->
    ((forall i, (i < jm * kmax)%nat -> row_sum (jm * kmax) M x i = b i) <->
     general jm kmax (up cc) (up cd) (up f) U /\ top_condition jm kmax (fun r => top (r - 1)%nat) U /\ (forall r, (1 <= r <= jm)%nat -> bot U r = bottom (r - 1)%nat)).
  Proof.
    intros U HM Hb. rewrite (rows_all (fun i => row_sum (jm * kmax) M x i = b i)). unfold rowi in HM. split.
    - intros H. split; [|split].
      + intros r k Hr H1 H2. specialize (H (r - 1)%nat k ltac:(lia) ltac:(lia)). rewrite HM, Hb in H by lia. unfold row_value in H.
        replace (Nat.eqb k 0) with false in H by (symmetry; apply Nat.eqb_neq; lia). replace (Nat.eqb k (kmax - 1)) with false in H by (symmetry; apply Nat.eqb_neq; lia).
        rewrite interior_back in H by lia. replace (S (r - 1)) with r in H by lia. exact H.
      + intros r Hr. specialize (H (r - 1)%nat (kmax - 1)%nat ltac:(lia) ltac:(lia)). rewrite HM, Hb in H by lia. unfold row_value in H.
        replace (Nat.eqb (kmax - 1) 0) with false in H by (symmetry; apply Nat.eqb_neq; lia). rewrite Nat.eqb_refl in H. unfold U. rewrite !back_inside by lia. exact H.
      + intros r Hr. specialize (H (r - 1)%nat 0%nat ltac:(lia) ltac:(lia)). rewrite HM, Hb in H by lia. unfold row_value in H. rewrite Nat.eqb_refl in H. replace (S (r - 1)) with r in H by lia. exact H.
    - intros (HG & HT & HB) j k Hj Hk. rewrite HM, Hb by assumption. unfold row_value. destruct (Nat.eqb_spec k 0) as [->|K0].
      + rewrite HB by lia. replace (S j - 1)%nat with j by lia. reflexivity.
      + destruct (Nat.eqb_spec k (kmax - 1)) as [->|K1].
        * specialize (HT (S j) ltac:(lia)). unfold U in HT. rewrite !back_inside in HT by lia. replace (S j - 1)%nat with j in HT by lia. exact HT.
        * rewrite interior_back by assumption. specialize (HG (S j) k ltac:(lia) ltac:(lia) ltac:(lia)). fold U. unfold up in HG. replace (S j - 1)%nat with j in HG at 2 3 4 by lia. replace (S j - 1)%nat with j in * by lia. exact HG.
  Qed.
  Lemma system_noslip x : let U := rback jm kmax x in
    (forall i, (i < jm * kmax)%nat -> row_sum (jm * kmax) (matrix_noslip jm kmax ones ones cc cd ce) x i = right_bottom jm kmax f top bottom i) <->
    general jm kmax (up cc) (up cd) (up f) U /\ top_condition jm kmax (fun r => top (r - 1)%nat) U /\ no_slip jm (fun r => bottom (r - 1)%nat) U.
  Proof.
    intros U. apply (system_gen (matrix_noslip jm kmax ones ones cc cd ce) (fun U r => U r 0%nat) x).
    - intros j k Hj Hk. rewrite noslip_row by (assumption || lia). unfold row_value. destruct (Nat.eqb k 0); [|reflexivity].
      rewrite back_inside by lia. replace (S j - 1)%nat with j by lia. reflexivity.
    - intros j k Hj Hk. apply right_value; lia.
  Qed.
  Lemma system_adiab x : let U := rback jm kmax x in
    (forall i, (i < jm * kmax)%nat -> row_sum (jm * kmax) (matrix_adiab jm kmax ones ones cc cd ce) x i = right_bottom jm kmax f top bottom i) <->
    general jm kmax (up cc) (up cd) (up f) U /\ top_condition jm kmax (fun r => top (r - 1)%nat) U /\ adiabatic jm (fun r => bottom (r - 1)%nat) U.
  Proof.
    intros U. apply (system_gen (matrix_adiab jm kmax ones ones cc cd ce) (fun U r => U r 2%nat - U r 0%nat) x).
    - intros j k Hj Hk. rewrite adiab_row by (assumption || lia). unfold row_value. destruct (Nat.eqb k 0); [|reflexivity].
      rewrite !back_inside by lia. replace (S j - 1)%nat with j by lia. reflexivity.
    - intros j k Hj Hk. apply right_value; lia.
  Qed.
End System.
