(** Proofs about the direct inversion: the block elimination solves the discrete elliptic problem. *)
From Verif Require Import Base BaseFacts Spec SpecFacts Flux FluxSpec FluxProofs RefStates RefStatesSpec RefStatesProofs RefStatesProofs2 RefStatesProofs3 RefStatesProofs4 DirInv DirInvSpec.
From Coq Require Import FunctionalExtensionality.
Open Scope R_scope.

Lemma Sum_delta lo hi i f : (lo <= i < hi)%nat -> Sum lo hi (fun m => if Nat.eqb m i then f m else 0) = f i.
Proof.
  intros Hi. rewrite (Sum_split lo i hi) by lia. rewrite (Sum_S_l i hi) by lia. rewrite Nat.eqb_refl, !Sum_zero; [ring| |].
  - intros m Hm. destruct (Nat.eqb_spec m i); [lia|reflexivity].
  - intros m Hm. destruct (Nat.eqb_spec m i); [lia|reflexivity].
Qed.
Lemma Sum_delta_none lo hi i f : (i < lo \/ hi <= i)%nat -> Sum lo hi (fun m => if Nat.eqb m i then f m else 0) = 0.
Proof. intros Hi. apply Sum_zero. intros m Hm. destruct (Nat.eqb_spec m i); [lia|reflexivity]. Qed.

Section Matrices.
  Variable n : nat.
  Lemma mat_vec_R (x : arr2 R) y i : @mat_vec R RNum n x y i = apply n x y i.
  Proof. unfold mat_vec, apply. apply loop_sum. reflexivity. Qed.
  Lemma mat_mul_R (x y : arr2 R) i m : @mat_mul R RNum n x y i m = Sum 1 (n + 1) (fun l => x i l * y l m).
  Proof. unfold mat_mul. apply loop_sum. reflexivity. Qed.
  Lemma apply_ext x x' v v' i : (forall m, (1 <= m <= n)%nat -> x i m = x' i m) -> (forall m, (1 <= m <= n)%nat -> v m = v' m) -> apply n x v i = apply n x' v' i.
  Proof. intros E F. unfold apply. apply Sum_ext. intros m Hm. rewrite E, F by lia. reflexivity. Qed.
  Lemma apply_plus x v w i : apply n x (fun m => v m + w m) i = apply n x v i + apply n x w i.
  Proof. unfold apply. rewrite <- Sum_plus. apply Sum_ext. intros; ring. Qed.
  Lemma apply_minus x v w i : apply n x (fun m => v m - w m) i = apply n x v i - apply n x w i.
  Proof. unfold apply. rewrite <- Sum_minus. apply Sum_ext. intros; ring. Qed.
  Lemma apply_product x y v i : apply n (fun i m => Sum 1 (n + 1) (fun l => x i l * y l m)) v i = apply n x (apply n y v) i.
  Proof.
    unfold apply. transitivity (Sum 1 (n + 1) (fun m => Sum 1 (n + 1) (fun l => x i l * y l m * v m))).
    - apply Sum_ext. intros m _. rewrite Rmult_comm, <- Sum_scal. apply Sum_ext. intros l _. ring.
    - rewrite Sum_swap. apply Sum_ext. intros l _. rewrite <- Sum_scal. apply Sum_ext. intros m _. ring.
  Qed.
  Lemma apply_identity v i : (1 <= i <= n)%nat -> apply n (fun i m => if Nat.eqb i m then 1 else 0) v i = v i.
  Proof.
    intros Hi. unfold apply. transitivity (Sum 1 (n + 1) (fun m => if Nat.eqb m i then v m else 0)).
    - apply Sum_ext. intros m _. rewrite (Nat.eqb_sym m i). destruct (Nat.eqb i m); ring.
    - apply Sum_delta. lia.
  Qed.
  Lemma apply_inverse x y g i : right_inverse n x y -> (1 <= i <= n)%nat -> apply n x (apply n y g) i = g i.
  Proof.
    intros H Hi. rewrite <- apply_product. transitivity (apply n (fun i m => if Nat.eqb i m then 1 else 0) g i); [|apply apply_identity; exact Hi]. apply apply_ext; [|reflexivity].
    intros m Hm. rewrite H by lia. reflexivity.
  Qed.
  Lemma apply_diag (dg : nat -> R) v i : (1 <= i <= n)%nat -> apply n (fun i m => if Nat.eqb i m then dg i else 0) v i = dg i * v i.
  Proof.
    intros Hi. unfold apply. transitivity (Sum 1 (n + 1) (fun m => if Nat.eqb m i then dg i * v m else 0)).
    - apply Sum_ext. intros m _. rewrite (Nat.eqb_sym m i). destruct (Nat.eqb i m); ring.
    - apply (Sum_delta 1 (n + 1) i (fun m => dg i * v m)). lia.
  Qed.
  Lemma mclip_in (x : arr2 R) i m : (1 <= i <= n)%nat -> (1 <= m <= n)%nat -> @mclip R RNum n x i m = x i m.
  Proof.
    intros Hi Hm. unfold mclip. repeat match goal with |- context [Nat.leb ?a ?b] => destruct (Nat.leb_spec a b); [|lia] end. reflexivity.
  Qed.
End Matrices.

(** ** maximum principle on rows 1..n (zero outside) and levels K0..K1 *)
Section Maximum.
  Variables (n K0 K1 : nat).
  Variables (a b : nat -> R) (c d : nat -> nat -> R).
  Variable p : nat -> nat -> R.
  Hypothesis HK : (K0 + 2 <= K1)%nat.
  Hypothesis Pos : forall i k, (1 <= i <= n)%nat -> (K0 < k < K1)%nat -> 0 < a i /\ 0 < b i /\ 0 < c i k /\ 0 < d i k.
  Hypothesis Bottom : forall i, (1 <= i <= n)%nat -> p K0 i = 0.
  Hypothesis Sides : forall k, (K0 < k < K1)%nat -> p k 0%nat = 0 /\ p k (n + 1)%nat = 0.
  Hypothesis Top : forall i, (1 <= i <= n)%nat -> p K1 i = p (K1 - 1)%nat i.
  Hypothesis Eq : forall i k, (1 <= i <= n)%nat -> (K0 < k < K1)%nat ->
    a i * (p k (i + 1)%nat - p k i) + b i * (p k (i - 1)%nat - p k i) + c i k * (p (k + 1)%nat i - p k i) + d i k * (p (k - 1)%nat i - p k i) = 0.
  Lemma maximum i k : (1 <= i <= n)%nat -> (K0 < k < K1)%nat -> p k i <= 0.
  Proof.
    intros Hi Hk. set (pts := do_ (K0 + 1) (K1 - 1) (fun k => map (fun i => (k, i)) (range 1 n))).
    assert (InP : forall k i, In (k, i) pts <-> (K0 < k < K1)%nat /\ (1 <= i <= n)%nat).
    { intros k' i'. unfold pts. rewrite in_do. split.
      - intros (y & Hy & Hin). apply in_map_iff in Hin. destruct Hin as (z & Ez & Hz). apply in_range in Hz. injection Ez as -> ->. lia.
      - intros [A B]. exists k'. split; [lia|]. apply in_map_iff. exists i'. split; [reflexivity|]. apply in_range. lia. }
    set (l := map (fun x => p (fst x) (snd x)) pts). set (M := lmax l).
    assert (NE : l <> []). { intros X. apply map_eq_nil in X. assert (Y : In (k, i) pts) by (apply InP; auto). rewrite X in Y. destruct Y. }
    assert (Max : forall k i, (K0 < k < K1)%nat -> (1 <= i <= n)%nat -> p k i <= M).
    { intros k' i' A B. apply (lmax_ge l). apply in_map_iff. exists (k', i'). split; [reflexivity|]. apply InP. auto. }
    destruct (Rle_dec M 0) as [L|L]; [specialize (Max k i Hk Hi); lra|]. exfalso.
    assert (Att : exists k i, (K0 < k < K1)%nat /\ (1 <= i <= n)%nat /\ p k i = M).
    { assert (X := lmax_in l NE). apply in_map_iff in X. destruct X as ([k' i'] & X1 & X2). apply InP in X2. exists k', i'. tauto. }
    assert (Down : forall t i, (1 <= i <= n)%nat -> (K0 + t < K1)%nat -> p (K0 + t)%nat i <> M).
    { induction t as [|t IH]; intros i' Hi' Ht E.
      - rewrite Nat.add_0_r, Bottom in E by exact Hi'. lra.
      - set (k' := (K0 + S t)%nat) in *. assert (Hk' : (K0 < k' < K1)%nat) by (unfold k'; lia). destruct (Pos i' k' Hi' Hk') as (P1 & P2 & P3 & P4).
        assert (X := Eq i' k' Hi' Hk'). rewrite E in X. destruct (Sides k' Hk') as [S1 S2].
        assert (N1 : p k' (i' + 1)%nat <= M) by (destruct (Nat.eq_dec i' n) as [->|]; [lra|apply Max; lia]).
        assert (N2 : p k' (i' - 1)%nat <= M) by (destruct (Nat.eq_dec i' 1) as [->|]; [cbn [Nat.sub]; lra|apply Max; lia]).
        assert (N3 : p (k' + 1)%nat i' <= M).
        { destruct (Nat.eq_dec (k' + 1) K1) as [F|F]; [rewrite F, Top by exact Hi'; replace (K1 - 1)%nat with k' by lia; lra|apply Max; lia]. }
        assert (N4 : p (k' - 1)%nat i' <= M).
        { destruct (Nat.eq_dec (k' - 1) K0) as [F|F]; [rewrite F, Bottom by exact Hi'; lra|apply Max; lia]. }
        assert (Z1 : 0 <= a i' * (M - p k' (i' + 1)%nat)) by (apply Rmult_le_pos; lra).
        assert (Z2 : 0 <= b i' * (M - p k' (i' - 1)%nat)) by (apply Rmult_le_pos; lra).
        assert (Z3 : 0 <= c i' k' * (M - p (k' + 1)%nat i')) by (apply Rmult_le_pos; lra).
        assert (Z4 : 0 <= d i' k' * (M - p (k' - 1)%nat i')) by (apply Rmult_le_pos; lra).
        assert (Z : d i' k' * (M - p (k' - 1)%nat i') = 0) by lra. apply Rmult_integral in Z.
        apply (IH i' Hi' ltac:(lia)). replace (K0 + t)%nat with (k' - 1)%nat by (unfold k'; lia). lra. }
    destruct Att as (k' & i' & Hk' & Hi' & E). apply (Down (k' - K0)%nat i' Hi'); replace (K0 + (k' - K0))%nat with k' by lia; [lia|exact E].
  Qed.
End Maximum.

Lemma rs_eta (Q : rsdims R) :
  {| s_nlon := s_nlon Q; s_nlat := s_nlat Q; s_kmax := s_kmax Q; s_jd := s_jd Q; s_npart := s_npart Q; s_maxits := s_maxits Q;
     s_a := s_a Q; s_om := s_om Q; s_dz := s_dz Q; s_eps := s_eps Q; s_h := s_h Q; s_dphi := s_dphi Q; s_dlambda := s_dlambda Q;
     s_r := s_r Q; s_cp := s_cp Q; s_rjac := s_rjac Q |} = Q.
Proof. destruct Q; reflexivity. Qed.
Section Solve.
  Variable P : rsdims R.
  Variable jb : nat.
  Variables pv vort pt : arr3 R.
  Variable stat : nat -> R.
  Variable inverse : nat -> arr2 R -> arr2 R.
  Hypothesis G : pole_to_pole P.
  Hypothesis H : physical P stat.
  Hypothesis Hj : (jb + 4 <= s_jd P)%nat.
  Hypothesis Inv : exact_inverse inverse.
  Let K3 : (3 <= s_kmax P)%nat := proj1 (proj2 (proj2 (proj2 G))).
  Let J3 : (3 <= s_jd P)%nat := proj1 G.
  Notation nu := (@d_n R P jb).
  Lemma n_rows : (nu + jb + 2 = s_jd P)%nat /\ (2 <= nu)%nat.
  Proof. unfold d_n, d_jd. lia. Qed.
  Lemma dp_R : @dp R RNum P = s_dphi P.
  Proof.
    assert (G0 := G). destruct G0 as (G1 & G2 & _ & _ & _ & G6 & _). unfold dp. rewrite nfloat_R. cbn [ndiv npi RNum]. rewrite G2, minus_INR, mult_INR by lia. rewrite minus_INR in G6 by lia.
    cbn [INR] in *. assert (X := le_INR 3 (s_jd P) G1). cbn [INR] in X. apply (Rmult_eq_reg_r ((1 + 1) * INR (s_jd P) - 1 - 1)); [|lra]. unfold Rdiv. rewrite Rmult_assoc, Rinv_l by lra. lra.
  Qed.
  Lemma D_P : @D R RNum P = P.
  Proof. unfold D. rewrite dp_R. apply rs_eta. Qed.
  Lemma row_inside i k : (1 <= i <= nu)%nat -> (2 <= k <= s_kmax P - 1)%nat -> inside P (row jb i) k.
  Proof. intros Hi Hk. assert (X := n_rows). unfold row, inside. lia. Qed.

  Notation a i := (@ajk R RNum P (row jb i)).
  Notation b i := (@bjk R RNum P (row jb i)).
  Notation c i k := (@cjk R RNum P stat (row jb i) k).
  Notation d i k := (@djk R RNum P stat (row jb i) k).
  Lemma coefs i k : (1 <= i <= nu)%nat -> (2 <= k <= s_kmax P - 1)%nat -> 0 < a i /\ 0 < b i /\ 0 < c i k /\ 0 < d i k.
  Proof. intros Hi Hk. apply (coefficients_pos P stat K3 J3 G H). apply row_inside; assumption. Qed.

  Notation X k s := (@mclip R RNum nu (qjj P jb stat k s)).
  Definition at_side (v : nat -> R) (i : nat) : R := if Nat.leb 1 i && Nat.leb i nu then v i else 0.
  (** row i of Q v + C S v *)
  Lemma X_apply k s v i : (1 <= i <= nu)%nat ->
    apply nu (X k s) v i = a i * (at_side v (i + 1) - v i) + b i * (at_side v (i - 1) - v i) - c i k * v i - d i k * v i + c i k * apply nu s v i.
  Proof.
    intros Hi. destruct n_rows as [_ Hn2].
    transitivity (apply nu (qjj0 P jb stat k) v i + apply nu (fun i m => Sum 1 (nu + 1) (fun l => cjj P jb stat k i l * s l m)) v i).
    - unfold apply. rewrite <- Sum_plus. apply Sum_ext. intros m Hm. rewrite mclip_in by lia. unfold qjj. rewrite mat_mul_R. cbn [nadd RNum]. ring.
    - rewrite (apply_product nu (cjj P jb stat k) s v i).
      replace (apply nu (cjj P jb stat k) (apply nu s v) i) with (c i k * apply nu s v i).
      2: { unfold cjj. rewrite D_P. symmetry. exact (apply_diag nu (fun i => c i k) (apply nu s v) i Hi). }
      f_equal. unfold apply.
      transitivity (Sum 1 (nu + 1) (fun m => if Nat.eqb m i then - (a i + b i + c i k + d i k) * v m else 0)
        + Sum 1 (nu + 1) (fun m => if Nat.eqb m (i + 1) then a i * v m else 0) + Sum 1 (nu + 1) (fun m => if Nat.eqb m (i - 1) then b i * v m else 0)).
      + rewrite <- !Sum_plus. apply Sum_ext. intros m Hm. unfold qjj0, d_ejk. rewrite D_P. cbn [nopp nadd nzero RNum].
        destruct (Nat.eqb_spec m i), (Nat.eqb_spec m (i + 1)), (Nat.eqb_spec m (i - 1)), (Nat.eqb_spec (m + 1) i), (Nat.ltb_spec i nu), (Nat.ltb_spec 1 i); try lia; cbn [andb]; ring.
      + rewrite (Sum_delta 1 (nu + 1) i (fun m => - (a i + b i + c i k + d i k) * v m)) by lia.
        replace (Sum 1 (nu + 1) (fun m => if Nat.eqb m (i + 1) then a i * v m else 0)) with (a i * at_side v (i + 1)).
        2: { unfold at_side. destruct (Nat.leb_spec 1 (i + 1)); [|lia]. destruct (Nat.leb_spec (i + 1) nu); cbn [andb]; symmetry.
             - exact (Sum_delta 1 (nu + 1) (i + 1) (fun m => a i * v m) ltac:(lia)).
             - rewrite Rmult_0_r. exact (Sum_delta_none 1 (nu + 1) (i + 1) (fun m => a i * v m) ltac:(lia)). }
        replace (Sum 1 (nu + 1) (fun m => if Nat.eqb m (i - 1) then b i * v m else 0)) with (b i * at_side v (i - 1)).
        2: { unfold at_side. destruct (Nat.leb_spec (i - 1) nu); [|lia]. destruct (Nat.leb_spec 1 (i - 1)); cbn [andb]; symmetry.
             - exact (Sum_delta 1 (nu + 1) (i - 1) (fun m => b i * v m) ltac:(lia)).
             - rewrite Rmult_0_r. exact (Sum_delta_none 1 (nu + 1) (i - 1) (fun m => b i * v m) ltac:(lia)). }
        ring.
  Qed.

  Notation S k := (@sjk R RNum RTrunc P jb pv vort pt stat inverse k).
  Notation T k := (@tjk R RNum RTrunc P jb pv vort pt stat inverse k).
  Notation rhs k i := (@rj R RNum RTrunc P jb pv vort k i).
  Lemma S_top : S (s_kmax P - 1)%nat = @s_top R RNum /\ T (s_kmax P - 1)%nat = @t_top R RNum P jb pt.
  Proof. unfold sjk, tjk. rewrite Nat.sub_diag. split; reflexivity. Qed.
  Lemma S_next k : (2 <= k <= s_kmax P - 1)%nat ->
    S (k - 1)%nat = s_next P jb stat inverse k (S k) /\ T (k - 1)%nat = t_next P jb pv vort stat inverse k (S k) (T k).
  Proof.
    intros Hk. unfold sjk, tjk. replace (s_kmax P - 1 - (k - 1))%nat with (Datatypes.S (s_kmax P - 1 - k)) by lia. cbn [down].
    destruct (down P jb pv vort pt stat inverse (s_kmax P - 1 - k)) as [s t] eqn:E. cbn [fst snd]. replace (s_kmax P - Datatypes.S (s_kmax P - 1 - k))%nat with k by lia. split; reflexivity.
  Qed.
  (** one pass, when the inverse is exact *)
  Lemma pass k v i : (2 <= k <= s_kmax P - 1)%nat -> nonsingular nu (X k (S k)) -> (1 <= i <= nu)%nat ->
    apply nu (X k (S k)) (apply nu (S (k - 1)%nat) v) i = - (d i k * v i) /\
    apply nu (X k (S k)) (T (k - 1)%nat) i = rhs k i - c i k * T k i.
  Proof.
    intros Hk NS Hi. assert (HR := Inv nu _ NS). destruct (S_next k Hk) as [-> ->]. fold (d_inv P jb stat inverse k (S k)) in HR.
    set (Y := d_inv P jb stat inverse k (S k)) in *. split.
    - transitivity (apply nu (X k (S k)) (apply nu Y (fun m => - (d m k * v m))) i); [|exact (apply_inverse nu _ _ (fun m => - (d m k * v m)) i HR Hi)].
      apply apply_ext; [reflexivity|]. intros m Hm. unfold s_next. fold Y.
      transitivity (- apply nu (fun i m => Sum 1 (nu + 1) (fun l => Y i l * djj P jb stat k l m)) v m).
      + unfold apply. replace (- Sum 1 (nu + 1) (fun m0 => Sum 1 (nu + 1) (fun l => Y m l * djj P jb stat k l m0) * v m0)) with (-1 * Sum 1 (nu + 1) (fun m0 => Sum 1 (nu + 1) (fun l => Y m l * djj P jb stat k l m0) * v m0)) by ring.
        rewrite <- Sum_scal. apply Sum_ext. intros l _. rewrite mat_mul_R. cbn [nopp RNum]. ring.
      + rewrite apply_product. transitivity (- apply nu Y (fun m => d m k * v m) m).
        * f_equal. apply apply_ext; [reflexivity|]. intros l Hl. unfold djj. rewrite D_P. exact (apply_diag nu (fun i => d i k) v l Hl).
        * unfold apply. replace (- Sum 1 (nu + 1) (fun m0 => Y m m0 * (d m0 k * v m0))) with (-1 * Sum 1 (nu + 1) (fun m0 => Y m m0 * (d m0 k * v m0))) by ring.
          rewrite <- Sum_scal. apply Sum_ext. intros; ring.
    - transitivity (apply nu (X k (S k)) (apply nu Y (fun m => rhs k m - c m k * T k m)) i); [|exact (apply_inverse nu _ _ (fun m => rhs k m - c m k * T k m) i HR Hi)].
      apply apply_ext; [reflexivity|]. intros m Hm. unfold t_next. fold Y. rewrite mat_vec_R. apply apply_ext; [reflexivity|]. intros l Hl.
      rewrite mat_vec_R. cbn [nsub RNum]. f_equal. unfold cjj. rewrite D_P. exact (apply_diag nu (fun i => c i k) (T k) l Hl).
  Qed.

  (** the matrices handed to LAPACK are nonsingular *)
  Lemma all_nonsingular k : (2 <= k <= s_kmax P - 1)%nat -> nonsingular nu (X k (S k)).
  Proof.
    intros Hk. remember (s_kmax P - 1 - k)%nat as t eqn:Et. revert k Hk Et. induction t as [t IH] using lt_wf_ind. intros k Hk Et v Hv.
    assert (Up : forall k', (k < k' <= s_kmax P - 1)%nat -> nonsingular nu (X k' (S k'))) by (intros k' Hk'; apply (IH (s_kmax P - 1 - k')%nat); lia).
    (* extend v to the levels above *)
    set (ext := fix ext (m : nat) : nat -> R := match m with O => v | Datatypes.S m' => apply nu (S (k + m')%nat) (ext m') end).
    set (p := fun l => if Nat.leb k l then at_side (ext (l - k)%nat) else fun _ => 0).
    assert (In0 : forall w i, (1 <= i <= nu)%nat -> at_side w i = w i).
    { intros w i Hi. unfold at_side. destruct (Nat.leb_spec 1 i); [|lia]. destruct (Nat.leb_spec i nu); [|lia]. reflexivity. }
    assert (E1 : forall l i, (k <= l)%nat -> (1 <= i <= nu)%nat -> p l i = ext (l - k)%nat i).
    { intros l i Hl Hi. unfold p. destruct (Nat.leb_spec k l); [|lia]. apply In0; exact Hi. }
    assert (E2 : forall l i, (k <= l)%nat -> (1 <= i <= nu)%nat -> p (l + 1)%nat i = apply nu (S l) (p l) i).
    { intros l i Hl Hi. rewrite E1 by lia. replace (l + 1 - k)%nat with (Datatypes.S (l - k)) by lia. cbn [ext]. replace (k + (l - k))%nat with l by lia.
      apply apply_ext; [reflexivity|]. intros m Hm. symmetry. apply E1; lia. }
    assert (E3 : forall i, (1 <= i <= nu)%nat -> p (k - 1)%nat i = 0). { intros i Hi. unfold p. destruct (Nat.leb_spec k (k - 1)); [lia|reflexivity]. }
    (* its equation *)
    assert (Z : forall l i, (k <= l <= s_kmax P - 1)%nat -> (1 <= i <= nu)%nat -> apply nu (X l (S l)) (p l) i + d i l * p (l - 1)%nat i = 0).
    { intros l i Hl Hi. destruct (Nat.eq_dec l k) as [->|N].
      - rewrite E3 by exact Hi. rewrite (apply_ext nu _ (X k (S k)) (p k) v i); [rewrite Hv by exact Hi; ring|reflexivity|].
        intros m Hm. rewrite E1 by lia. rewrite Nat.sub_diag. reflexivity.
      - destruct (pass l (p (l - 1)%nat) i ltac:(lia) (Up l ltac:(lia)) Hi) as [Q _].
        rewrite (apply_ext nu _ (X l (S l)) (p l) (apply nu (S (l - 1)%nat) (p (l - 1)%nat)) i); [rewrite Q; ring|reflexivity|].
        intros m Hm. replace (p l) with (p (l - 1 + 1)%nat) by (f_equal; lia). apply E2; lia. }
    assert (Side : forall l, p l 0%nat = 0 /\ p l (nu + 1)%nat = 0).
    { intros l. unfold p. destruct (Nat.leb k l); [|split; reflexivity]. unfold at_side. cbn [Nat.leb andb]. destruct (Nat.leb_spec (nu + 1) nu); [lia|]. rewrite andb_false_r. split; reflexivity. }
    assert (Eqn : forall s, (s = 1 \/ s = -1) -> forall i l, (1 <= i <= nu)%nat -> (k - 1 < l < s_kmax P)%nat ->
      a i * (s * p l (i + 1)%nat - s * p l i) + b i * (s * p l (i - 1)%nat - s * p l i) + c i l * (s * p (l + 1)%nat i - s * p l i) + d i l * (s * p (l - 1)%nat i - s * p l i) = 0).
    { intros s _ i l Hi Hl. assert (Q := Z l i ltac:(lia) Hi). rewrite X_apply in Q by exact Hi. rewrite <- E2 in Q by lia.
      assert (F : forall i', at_side (p l) i' = p l i').
      { intros i'. unfold at_side at 1. destruct (Nat.leb_spec 1 i'), (Nat.leb_spec i' nu); cbn [andb]; try reflexivity; unfold p; destruct (Nat.leb_spec k l); try lia;
          unfold at_side; destruct (Nat.leb_spec 1 i'), (Nat.leb_spec i' nu); try lia; reflexivity. }
      rewrite !F in Q. replace (a i * (s * p l (i + 1)%nat - s * p l i) + b i * (s * p l (i - 1)%nat - s * p l i) + c i l * (s * p (l + 1)%nat i - s * p l i) + d i l * (s * p (l - 1)%nat i - s * p l i))
        with (s * (a i * (p l (i + 1)%nat - p l i) + b i * (p l (i - 1)%nat - p l i) - c i l * p l i - d i l * p l i + c i l * p (l + 1)%nat i + d i l * p (l - 1)%nat i)) by ring.
      rewrite Q. ring. }
    assert (TopE : forall i, (1 <= i <= nu)%nat -> p (s_kmax P) i = p (s_kmax P - 1)%nat i).
    { intros i Hi. replace (p (s_kmax P)) with (p (s_kmax P - 1 + 1)%nat) by (f_equal; lia). rewrite E2 by lia. rewrite (proj1 S_top). exact (apply_identity nu (p (s_kmax P - 1)%nat) i Hi). }
    assert (Pos : forall i l, (1 <= i <= nu)%nat -> (k - 1 < l < s_kmax P)%nat -> 0 < a i /\ 0 < b i /\ 0 < c i l /\ 0 < d i l) by (intros i l Hi Hl; apply coefs; lia).
    intros i Hi. assert (V : p k i = v i) by (rewrite E1 by lia; rewrite Nat.sub_diag; reflexivity). rewrite <- V.
    assert (B : forall s, (s = 1 \/ s = -1) -> s * p k i <= 0).
    { intros s Hs. apply (maximum nu (k - 1) (s_kmax P) (fun i => a i) (fun i => b i) (fun i l => c i l) (fun i l => d i l) (fun l i => s * p l i)); try lia.
      - exact Pos.
      - intros i' Hi'. rewrite E3 by exact Hi'. ring.
      - intros l _. destruct (Side l) as [-> ->]. split; ring.
      - intros i' Hi'. rewrite TopE by exact Hi'. reflexivity.
      - intros i' l Hi' Hl. exact (Eqn s Hs i' l Hi' Hl). }
    assert (B1 := B 1 (or_introl eq_refl)). assert (B2 := B (-1) (or_intror eq_refl)). lra.
  Qed.

  Notation p k := (@pjk R RNum RTrunc P jb pv vort pt stat inverse k).
  Lemma p_next k i : (1 <= k)%nat -> p (k + 1)%nat i = apply nu (S k) (p k) i + T k i.
  Proof. intros Hk. destruct k as [|k]; [lia|]. rewrite Nat.add_1_r. change (pjk P jb pv vort pt stat inverse (Datatypes.S (Datatypes.S k)) i) with (mat_vec nu (S (Datatypes.S k)) (p (Datatypes.S k)) i + T (Datatypes.S k) i). rewrite mat_vec_R. reflexivity. Qed.
  Lemma level k i : (2 <= k <= s_kmax P - 1)%nat -> (1 <= i <= nu)%nat ->
    a i * (at_side (p k) (i + 1) - p k i) + b i * (at_side (p k) (i - 1) - p k i) + c i k * (p (k + 1)%nat i - p k i) + d i k * (p (k - 1)%nat i - p k i) = rhs k i.
  Proof.
    intros Hk Hi. assert (NS := all_nonsingular k Hk). destruct (pass k (p (k - 1)%nat) i Hk NS Hi) as [Q1 Q2].
    assert (Q : apply nu (X k (S k)) (p k) i = rhs k i - c i k * T k i - d i k * p (k - 1)%nat i).
    { transitivity (apply nu (X k (S k)) (fun m => apply nu (S (k - 1)%nat) (p (k - 1)%nat) m + T (k - 1)%nat m) i).
      - apply apply_ext; [reflexivity|]. intros m Hm. replace (p k) with (p (k - 1 + 1)%nat) by (f_equal; lia). apply p_next; lia.
      - rewrite apply_plus. rewrite Q1, Q2. ring. }
    rewrite X_apply in Q by exact Hi. assert (N := p_next k i ltac:(lia)). rewrite N. lra.
  Qed.
End Solve.
