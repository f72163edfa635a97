(** Proofs of C181: the reference PV of a level is a function of the PV of that level. *)
From Verif Require Import Base BaseFacts Spec SpecFacts Fortran Flux RefStates DirInv.
From Coq Require Import Lia List.
Import ListNotations.

Section Level.
  Context {A : Type} {N : Num A} {T : Trunc A}.
  Variable P : rsdims A.
  Variables (x y : arr3 A) (k : nat).
  Hypothesis E : forall i j, (1 <= i <= s_nlon P)%nat -> (1 <= j <= s_nlat P)%nat -> x i j k = y i j k.
  Lemma in_cells p : In p (cells P) -> x (fst p) (snd p) k = y (fst p) (snd p) k.
  Proof.
    unfold cells, do_, range. rewrite in_flat_map. intros (j & Hj & H). rewrite in_map_iff in H. destruct H as (i & <- & Hi). rewrite in_seq in Hi, Hj. cbn [fst snd]. apply E; lia.
  Qed.
  Lemma values_level : map (fun p => x (fst p) (snd p) k) (cells P) = map (fun p => y (fst p) (snd p) k) (cells P).
  Proof. apply map_ext_in. exact in_cells. Qed.
  Lemma qmax_level : qmax P x k = qmax P y k.
  Proof. unfold qmax. rewrite values_level. reflexivity. Qed.
  Lemma dq_level : dq P x k = dq P y k.
  Proof. unfold dq, qmin. rewrite qmax_level, values_level. reflexivity. Qed.
  Lemma fold_ext_in {B C : Type} (f g : B -> C -> B) l : (forall c, In c l -> forall b, f b c = g b c) -> forall b, fold_left f l b = fold_left g l b.
  Proof. induction l as [|c l IH]; intros H b; [reflexivity|]. cbn [fold_left]. rewrite (H c (or_introl eq_refl)). apply IH. intros c' Hc. apply H. right. exact Hc. Qed.
  Lemma an_level nn : an P x k nn = an P y k nn.
  Proof. unfold an. apply fold_ext_in. intros p Hp s. unfold bin. rewrite qmax_level, dq_level, (in_cells p Hp). reflexivity. Qed.
  Lemma aan_level nn : aan P x k nn = aan P y k nn.
  Proof.
    unfold aan. assert (G : forall m, cumulate (an P x k) m = cumulate (an P y k) m /\ cumulate (an P x k) (S m) = cumulate (an P y k) (S m)); [|apply G].
    induction m as [|m [I1 I2]]; [split; reflexivity|]. split; [exact I2|]. change (nadd (cumulate (an P x k) (S m)) (an P x k (S (S m))) = nadd (cumulate (an P y k) (S m)) (an P y k (S (S m)))). rewrite an_level, I2. reflexivity.
  Qed.
  Lemma qref0_level j : qref0 P x j k = qref0 P y j k.
  Proof.
    unfold qref0. rewrite qmax_level. destruct (interior P k); [|reflexivity]. destruct (Nat.eqb j (s_jd P)); [reflexivity|]. unfold at_row. apply fold_ext_in. intros nn _ q.
    unfold bracketed, qn. rewrite !aan_level, qmax_level, dq_level. reflexivity.
  Qed.
  Lemma rs_qref_level j : rs_qref P x j k = rs_qref P y j k.
  Proof. unfold rs_qref, qref1. rewrite !qref0_level. reflexivity. Qed.
End Level.
