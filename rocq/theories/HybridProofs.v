From Verif Require Import Base BaseFacts Spec SpecFacts Grid GridSpec GridProofs Misc Hybrid HybridSpec PropertiesMisc.
From Coq Require Import FunctionalExtensionality.
Open Scope R_scope.

Lemma old_lev_layer ai bi P0 ps m : old_lev ai bi P0 ps m = layer_pressure ai bi P0 ps m.
Proof. unfold old_lev, interface_pressure, layer_pressure. replace (m + 1)%nat with (S m) by lia. field. Qed.
Lemma layer_step n ai bi P0 ps m : layered n ai bi P0 ps -> (m + 1 < n)%nat -> layer_pressure ai bi P0 ps m < layer_pressure ai bi P0 ps (m + 1).
Proof.
  intros L H. unfold layer_pressure. assert (A := L m ltac:(lia)). assert (B := L (m + 1)%nat ltac:(lia)). lra.
Qed.
Lemma layers_ascending n ai bi P0 ps : layered n ai bi P0 ps -> ascending n (layer_pressure ai bi P0 ps).
Proof.
  intros L a b. revert a. induction b as [|b IH]; intros a H; [lia|]. assert (St := layer_step n ai bi P0 ps b L ltac:(lia)). replace (b + 1)%nat with (S b) in St by lia.
  destruct (Nat.eq_dec a b) as [->|N]; [exact St|]. assert (X := IH a ltac:(lia)). lra.
Qed.
Lemma raw_cases n ai bi P0 PS var lev t k j i : (2 <= n)%nat -> layered n ai bi P0 (PS t j i) ->
  (within_column n ai bi P0 (PS t j i) (lev k) ->
     exists w, raw_variable n ai bi P0 PS var lev t k j i = Number w /\ interpolates n ai bi P0 (PS t j i) (fun m => var t m j i) (lev k) w) /\
  (~ within_column n ai bi P0 (PS t j i) (lev k) -> raw_variable n ai bi P0 PS var lev t k j i = NaN).
Proof.
  intros Hn L. set (ps := PS t j i) in *. assert (A := layers_ascending n ai bi P0 ps L). unfold raw_variable, interp_or_nan. fold ps.
  assert (E : old_lev ai bi P0 ps = layer_pressure ai bi P0 ps) by (extensionality m; apply old_lev_layer). rewrite E.
  set (x := layer_pressure ai bi P0 ps) in *. unfold within_column. fold x.
  destruct (Rltb_spec (lev k) (x 0%nat)) as [B|B]; [cbn [orb]; split; [lra|reflexivity]|].
  destruct (Rltb_spec (x (n - 1)%nat) (lev k)) as [C|C]; [cbn [orb]; split; [lra|reflexivity]|]. cbn [orb].
  split; [intros _|lra]. eexists. split; [reflexivity|].
  destruct (searchsorted_split n x (lev k) A) as [_ H]. unfold interp1d. toR. set (s := searchsorted n x (lev k)) in *. set (hi := Nat.min (Nat.max s 1) (n - 1)).
  assert (Hi : (1 <= hi < n)%nat) by (unfold hi; lia). exists (hi - 1)%nat. fold x. replace (hi - 1 + 1)%nat with hi by lia. split; [lia|]. assert (P := A (hi - 1)%nat hi ltac:(lia)). split.
  - split.
    + destruct (Nat.le_gt_cases s 1); [replace (hi - 1)%nat with 0%nat by lia; lra|left; apply H; lia].
    + destruct (Nat.le_gt_cases s (n - 1)); [|replace hi with (n - 1)%nat by lia; lra]. assert (~ (hi < s)%nat) by lia. rewrite H in * by lia. lra.
  - field. lra.
Qed.
