From Verif Require Import Base BaseFacts Spec SpecFacts Grid GridProofs Object ObjectSpec ObjectProofs ObjectProofs4 Drivers DriversSpec PropertiesObject.
Open Scope R_scope.

(** an axis as stored, or reversed *)
Definition at_ (turned : bool) (n k : nat) : nat := if turned then (n - 1 - k)%nat else k.
Lemma at_in b n k : (k < n)%nat -> (at_ b n k < n)%nat.
Proof. destruct b; cbn; lia. Qed.
Lemma at_twice b n k : (k < n)%nat -> at_ b n (at_ b n k) = k.
Proof. destruct b; cbn; lia. Qed.

(** axes turned according to a, b; data according to c, d *)
Lemma placed_iff f t w a b c d :
  distinct (f_nlev f) (f_lev f) -> distinct (f_nlat f) (f_lat f) -> w_nlon w = f_nlon f -> w_nlat w = f_nlat f -> w_nlev w = f_nlev f ->
  (forall l, w_plev w l = f_lev f (at_ a (f_nlev f) l)) -> (forall j, w_ylat w j = f_lat f (at_ b (f_nlat f) j)) ->
  (forall l j i, w_u w l j i = f_u f t (at_ c (f_nlev f) l) (at_ d (f_nlat f) j) i) -> (forall l j i, w_v w l j i = f_v f t (at_ c (f_nlev f) l) (at_ d (f_nlat f) j) i) ->
  (forall l j i, w_t w l j i = f_t f t (at_ c (f_nlev f) l) (at_ d (f_nlat f) j) i) ->
  (placed f t w <-> atmosphere_same_turned f t (xorb a c) (xorb b d)).
Proof.
  intros Dl Dy W1 W2 W3 Hp Hy Hu Hv Ht.
  assert (X : forall x y n k, (k < n)%nat -> at_ x n (at_ y n k) = if xorb x y then (n - 1 - k)%nat else k) by (intros [|] [|] n k H; cbn; lia).
  assert (Y : forall x y n k, (k < n)%nat -> at_ y n (at_ x n k) = if xorb x y then (n - 1 - k)%nat else k) by (intros [|] [|] n k H; cbn; lia).
  split.
  - intros (_ & _ & _ & P).
    assert (G : forall l j, (l < f_nlev f)%nat -> (j < f_nlat f)%nat -> forall i, (i < f_nlon f)%nat ->
              w_u w l j i = f_u f t (at_ a (f_nlev f) l) (at_ b (f_nlat f) j) i /\ w_v w l j i = f_v f t (at_ a (f_nlev f) l) (at_ b (f_nlat f) j) i /\ w_t w l j i = f_t f t (at_ a (f_nlev f) l) (at_ b (f_nlat f) j) i).
    { intros l j Hl Hj i Hi. destruct (P l j Hl Hj) as (l' & j' & Hl' & Hj' & E1 & E2 & V). rewrite Hp in E1. rewrite Hy in E2.
      rewrite (Dl _ _ (at_in a _ _ Hl) Hl' E1), (Dy _ _ (at_in b _ _ Hj) Hj' E2). apply V. exact Hi. }
    split; [|split]; intros l j i Hl Hj Hi; specialize (G (at_ a (f_nlev f) l) (at_ b (f_nlat f) j) (at_in _ _ _ Hl) (at_in _ _ _ Hj) i Hi);
      rewrite !at_twice in G by assumption; destruct G as (G1 & G2 & G3);
      [rewrite Hu in G1|rewrite Hv in G2|rewrite Ht in G3]; rewrite !Y in * by assumption; assumption.
  - intros (S1 & S2 & S3). repeat (split; [assumption|]). intros l j Hl Hj. exists (at_ a (f_nlev f) l), (at_ b (f_nlat f) j).
    split; [apply at_in; exact Hl|]. split; [apply at_in; exact Hj|]. split; [apply Hp|]. split; [apply Hy|]. intros i Hi. rewrite Hu, Hv, Ht.
    split; [|split]; [rewrite <- S1|rewrite <- S2|rewrite <- S3]; try apply at_in; try assumption; f_equal; destruct a, b, c, d; cbn; lia.
Qed.

Lemma predigest_placed f t : placed f t (predigest_args f t).
Proof.
  repeat (split; [reflexivity|]). intros l j Hl Hj. exists (f_nlev f - 1 - l)%nat, (f_nlat f - 1 - j)%nat.
  split; [lia|]. split; [lia|]. repeat split.
Qed.
Lemma Rltb_minus x y : Rltb (x - y) 0 = Rltb x y.
Proof. unfold Rltb. destruct (Rlt_dec (x - y) 0), (Rlt_dec x y); try reflexivity; lra. Qed.
Lemma Rltb_minus' x y : Rltb 0 (x - y) = Rltb y x.
Proof. unfold Rltb. destruct (Rlt_dec 0 (x - y)), (Rlt_dec y x); try reflexivity; lra. Qed.
Lemma step_ascending n (x : nat -> R) : (forall a, (S a < n)%nat -> x a < x (S a)) -> forall a b, (a < b < n)%nat -> x a < x b.
Proof.
  intros A a b. revert a. induction b as [|b IH]; intros a H; [lia|]. assert (St := A b ltac:(lia)).
  destruct (Nat.eq_dec a b) as [->|N]; [exact St|]. assert (X := IH a ltac:(lia)). lra.
Qed.
Lemma ordered_distinct n x : ordered n x -> distinct n x.
Proof.
  intros [A|A] a b Ha Hb E; destruct (Nat.lt_trichotomy a b) as [L|[L|L]]; try assumption; exfalso.
  - assert (X := step_ascending n x A a b ltac:(lia)). lra.
  - assert (X := step_ascending n x A b a ltac:(lia)). lra.
  - assert (X := step_ascending n (fun k => - x k) ltac:(intros k Hk; specialize (A k Hk); lra) a b ltac:(lia)). cbv beta in X. lra.
  - assert (X := step_ascending n (fun k => - x k) ltac:(intros k Hk; specialize (A k Hk); lra) b a ltac:(lia)). cbv beta in X. lra.
Qed.
Lemma each_step_done {T} (step : nat -> res T) n : forall t l, each_step step t n = Done l ->
  length l = n /\ forall k, (k < n)%nat -> exists y, nth_error l k = Some y /\ step (t + k)%nat = Done y.
Proof.
  induction n as [|n IH]; intros t l E; cbn in E; [injection E as <-; split; [reflexivity|intros; lia]|].
  destruct (step t) as [y|] eqn:S1; [|discriminate]. destruct (each_step step (S t) n) as [r|] eqn:S2; [|discriminate]. injection E as <-.
  destruct (IH (S t) r S2) as (L & N). split; [cbn; lia|]. intros [|k] Hk; [exists y; split; [reflexivity|]; rewrite Nat.add_0_r; exact S1|].
  destruct (N k ltac:(lia)) as (z & Z1 & Z2). exists z. split; [exact Z1|]. rewrite <- Z2. f_equal. lia.
Qed.
Lemma each_step_all {T} (step : nat -> res T) n : forall t, (forall k, (k < n)%nat -> exists y, step (t + k)%nat = Done y) -> exists l, each_step step t n = Done l.
Proof.
  induction n as [|n IH]; intros t H; [exists []; reflexivity|]. cbn. destruct (H 0%nat ltac:(lia)) as (y & Y). rewrite Nat.add_0_r in Y. rewrite Y.
  destruct (IH (S t)) as (l & L); [|rewrite L; eauto]. intros k Hk. destruct (H (S k) ltac:(lia)) as (z & Z). exists z. rewrite <- Z. f_equal. lia.
Qed.
Lemma each_step_same {T} (step step' : nat -> res T) n : forall t, (forall k, (t <= k < t + n)%nat -> step k = step' k) -> each_step step t n = each_step step' t n.
Proof.
  induction n as [|n IH]; intros t H; [reflexivity|]. cbn. rewrite H by lia. destruct (step' t); [|reflexivity]. rewrite (IH (S t)); [reflexivity|]. intros k Hk. apply H. lia.
Qed.
Lemma mean_last_average n x k j : mean_last n x k j = zonal_average n (x k j).
Proof. unfold mean_last, zonal_average. rewrite Sum_rsum, Nat.sub_0_r. reflexivity. Qed.
