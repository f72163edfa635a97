(** Properties C01-C07 and C67: local wave activity on a barotropic sphere (basis.lwa). *)
From Verif Require Import Spec LwaSpec Basis LwaProofs.
From Flocq Require Import Core.
Open Scope R_scope.

(** C01.  Both return modes of [lwa] give the displaced-contour line integrals of [LwaSpec]. *)
Theorem C01_lwa_is_displaced_contour_integral :
  forall nlat (vort : nat -> nat -> R) q dmu ncforce j i, (j < nlat)%nat ->
    out_component (fst (lwa nlat vort q dmu true ncforce)) 0 j i = Some (lwa_anticyclonic nlat vort q dmu j i) /\
    out_component (fst (lwa nlat vort q dmu true ncforce)) 1 j i = Some (lwa_cyclonic nlat vort q dmu j i) /\
    out_total (fst (lwa nlat vort q dmu false ncforce)) j i =
      Some (lwa_anticyclonic nlat vort q dmu j i + lwa_cyclonic nlat vort q dmu j i).
Proof.
  intros; split; [|split]; [apply component_spec|apply component_spec|apply total_spec]; assumption.
Qed.
Print Assumptions C01_lwa_is_displaced_contour_integral.

(** the specification on a concrete 3x1 column: q = (5, 1, 0), Q = (2, 2, 2), dmu = 1 *)
Example C01_instance :
  let vort := fun r (_ : nat) => match r with O => 5 | S O => 1 | _ => 0 end in
  lwa_anticyclonic 3 vort (fun _ => 2) (fun _ => 1) 0 0 = 3 /\
  lwa_cyclonic 3 vort (fun _ => 2) (fun _ => 1) 0 0 = 3 /\
  lwa_anticyclonic 3 vort (fun _ => 2) (fun _ => 1) 2 0 = 0.
Proof.
  cbn. unfold lwa_anticyclonic, lwa_cyclonic, Sum, ppart, Rmax; cbn.
  repeat destruct Rle_dec; repeat split; lra.
Qed.

(** C02.  Non-negativity, in exact arithmetic and under any monotone rounding that keeps 0. *)
Theorem C02_lwa_nonnegative :
  forall (rnd : R -> R), monotone rnd -> rnd 0 = 0 ->
  forall nlat (vort : nat -> nat -> R) q dmu flag ncforce,
    (forall r, (r < nlat)%nat -> 0 <= dmu r) ->
    match fst (@lwa R (RndNum rnd) nlat vort q dmu flag ncforce) with
    | Partitioned a => forall c j i, 0 <= a c j i
    | Single a => forall j i, 0 <= a j i
    end.
Proof. exact lwa_rnd_nonneg. Qed.
Print Assumptions C02_lwa_nonnegative.

(** exact arithmetic is the instance rnd = identity *)
Theorem C02_lwa_nonnegative_exact :
  forall nlat (vort : nat -> nat -> R) q dmu flag ncforce,
    (forall r, (r < nlat)%nat -> 0 <= dmu r) ->
    match fst (lwa nlat vort q dmu flag ncforce) with
    | Partitioned a => forall c j i, 0 <= a c j i
    | Single a => forall j i, 0 <= a j i
    end.
Proof. exact (lwa_rnd_nonneg (fun x => x) (fun x y H => H) eq_refl). Qed.
Print Assumptions C02_lwa_nonnegative_exact.

(** IEEE binary64 round-to-nearest-even (without overflow) meets the hypotheses of C02. *)
Example C02_binary64_is_an_instance :
  let rnd := round radix2 (FLT_exp (-1074) 53) ZnearestE in monotone rnd /\ rnd 0 = 0.
Proof.
  cbn zeta. assert (Prec_gt_0 53) by (unfold Prec_gt_0; lia).
  split; [intros x y H0; apply round_le; auto using FLT_exp_valid, valid_rnd_N|apply round_0, valid_rnd_N].
Qed.

(** C03.  LWA is zero exactly where no contour is displaced. *)
Theorem C03_lwa_zero_iff_undisturbed :
  forall nlat (vort : nat -> nat -> R) q dmu ncforce j i, (S j < nlat)%nat ->
    (forall r, (r < nlat)%nat -> 0 < dmu r) ->
    (out_total (fst (lwa nlat vort q dmu false ncforce)) j i = Some 0 <->
     (forall r, (j < r < nlat)%nat -> q j <= vort r i) /\ (forall r, (r <= j)%nat -> vort r i <= q j)).
Proof. exact total_zero_iff. Qed.
Print Assumptions C03_lwa_zero_iff_undisturbed.

(** a zonally symmetric non-decreasing flow has no wave activity *)
Theorem C03_symmetric_flow_has_zero_lwa :
  forall nlat (vort : nat -> nat -> R) q dmu ncforce, nondecreasing nlat q ->
    (forall r i, (r < nlat)%nat -> vort r i = q r) ->
    (forall r, (r < nlat)%nat -> 0 < dmu r) ->
    forall j i, (S j < nlat)%nat -> out_total (fst (lwa nlat vort q dmu false ncforce)) j i = Some 0.
Proof. exact symmetric_zero. Qed.
Print Assumptions C03_symmetric_flow_has_zero_lwa.

Example C03_hypotheses_met : nondecreasing 4 INR /\ forall r, (r < 4)%nat -> 0 < (fun _ => 1) r.
Proof. split; [intros a b H; apply le_INR; lia|intros; lra]. Qed.
(** ... and a field with non-zero LWA exists, so the equivalence is not constant *)
Example C03_nonzero_somewhere :
  out_total (fst (lwa 2 (fun r (_ : nat) => match r with O => 1 | S _ => 0 end) (fun _ => 0) (fun _ => 1) false None)) 0 0 = Some 1.
Proof. apply nonzero_example. Qed.

(** C04.  Total = sum of the components; bigsigma does not depend on the flag. *)
Theorem C04_partition_sums_to_total :
  forall nlat (vort : nat -> nat -> R) q dmu ncforce j i,
  exists a c,
    out_component (fst (lwa nlat vort q dmu true ncforce)) 0 j i = Some a /\
    out_component (fst (lwa nlat vort q dmu true ncforce)) 1 j i = Some c /\
    out_total (fst (lwa nlat vort q dmu false ncforce)) j i = Some (a + c) /\
    snd (lwa nlat vort q dmu true ncforce) = snd (lwa nlat vort q dmu false ncforce).
Proof. intros; do 2 eexists; repeat split; reflexivity. Qed.
Print Assumptions C04_partition_sums_to_total.
(** the wave activity 1 of [C03_nonzero_somewhere] is all in one component *)
Example C04_case :
  let o := fst (lwa 2 (fun r (_ : nat) => match r with O => 1 | S _ => 0 end) (fun _ => 0) (fun _ => 1) true None) in out_component o 0 0%nat 0%nat <> out_component o 1 0%nat 0%nat.
Proof.
  cbv zeta. destruct (C01_lwa_is_displaced_contour_integral 2 (fun r (_ : nat) => match r with O => 1 | S _ => 0 end) (fun _ => 0) (fun _ => 1) None 0%nat 0%nat ltac:(lia)) as (E1 & E2 & _).
  rewrite E1, E2. intros E. injection E as E. revert E. unfold lwa_anticyclonic, lwa_cyclonic, Sum, ppart, Rmax; cbn. repeat destruct Rle_dec; lra.
Qed.

(** C05.  Column locality; [sigma] is any relabelling of longitudes. *)
Theorem C05_lwa_column_local :
  forall nlat (vort vort' : nat -> nat -> R) q dmu flag j i i',
    (forall r, (r < nlat)%nat -> vort r i = vort' r i') -> (j < nlat)%nat ->
    out_component (fst (lwa nlat vort q dmu flag None)) 0 j i = out_component (fst (lwa nlat vort' q dmu flag None)) 0 j i' /\
    out_component (fst (lwa nlat vort q dmu flag None)) 1 j i = out_component (fst (lwa nlat vort' q dmu flag None)) 1 j i' /\
    out_total (fst (lwa nlat vort q dmu flag None)) j i = out_total (fst (lwa nlat vort' q dmu flag None)) j i'.
Proof. exact column_local. Qed.
Print Assumptions C05_lwa_column_local.

Theorem C05_lwa_zonal_relabelling :
  forall nlat (vort : nat -> nat -> R) q dmu flag (sigma : nat -> nat) j i, (j < nlat)%nat ->
    out_component (fst (lwa nlat (fun r i => vort r (sigma i)) q dmu flag None)) 0 j i =
      out_component (fst (lwa nlat vort q dmu flag None)) 0 j (sigma i) /\
    out_component (fst (lwa nlat (fun r i => vort r (sigma i)) q dmu flag None)) 1 j i =
      out_component (fst (lwa nlat vort q dmu flag None)) 1 j (sigma i) /\
    out_total (fst (lwa nlat (fun r i => vort r (sigma i)) q dmu flag None)) j i =
      out_total (fst (lwa nlat vort q dmu flag None)) j (sigma i).
Proof. intros; apply column_local; [reflexivity|assumption]. Qed.
Print Assumptions C05_lwa_zonal_relabelling.
(** a disturbance in one column only: seen in that column and not in another *)
Example C05_case :
  let spot := fun r (i : nat) => if Nat.eqb i 3 then match r with O => 1 | S _ => 0 end else 0 in
  let o := fst (lwa 2 spot (fun _ => 0) (fun _ => 1) false None) in out_total o 0 3%nat = Some 1 /\ out_total o 0 5%nat = Some 0.
Proof.
  intros spot o. split.
  - unfold o. rewrite (proj2 (proj2 (C05_lwa_column_local 2 spot (fun r (_ : nat) => match r with O => 1 | S _ => 0 end) (fun _ => 0) (fun _ => 1) false 0 3%nat 0%nat ltac:(intros; reflexivity) ltac:(lia)))).
    exact C03_nonzero_somewhere.
  - unfold o. apply C03_lwa_zero_iff_undisturbed; [lia|intros; lra|]. unfold spot. cbn. split; intros; lra.
Qed.

(** C06.  Positive affine rescaling of the field and its reference state. *)
Theorem C06_lwa_affine_equivariant :
  forall nlat (vort : nat -> nat -> R) q dmu a b j i, 0 < a -> (j < nlat)%nat ->
    let sv := fun r i => a * vort r i + b in
    let sq := fun r => a * q r + b in
    (forall c, (c < 2)%nat -> exists x,
       out_component (fst (lwa nlat vort q dmu true None)) c j i = Some x /\
       out_component (fst (lwa nlat sv sq dmu true None)) c j i = Some (a * x)) /\
    exists x,
       out_total (fst (lwa nlat vort q dmu false None)) j i = Some x /\
       out_total (fst (lwa nlat sv sq dmu false None)) j i = Some (a * x).
Proof. exact affine_out. Qed.
Print Assumptions C06_lwa_affine_equivariant.
Example C06_case : out_total (fst (lwa 2 (fun r i => 3 * (fun r (_ : nat) => match r with O => 1 | S _ => 0 end) r i + 7) (fun _ => 3 * 0 + 7) (fun _ => 1) false None)) 0 0%nat = Some 3.
Proof.
  destruct (proj2 (C06_lwa_affine_equivariant 2 (fun r (_ : nat) => match r with O => 1 | S _ => 0 end) (fun _ => 0) (fun _ => 1) 3 7 0%nat 0%nat ltac:(lra) ltac:(lia))) as (x & E & ->).
  rewrite C03_nonzero_somewhere in E. injection E as <-. f_equal. ring.
Qed.

(** C07.  The forcing term integrates over the displaced region, and is linear. *)
Theorem C07_bigsigma_is_forcing_integral :
  forall nlat (vort : nat -> nat -> R) q dmu flag f j i, (j < nlat)%nat ->
    exists s, snd (lwa nlat vort q dmu flag (Some f)) = Some s /\
              s j i = forcing_integral nlat vort q dmu f j i.
Proof. exact bigsigma_spec. Qed.
Print Assumptions C07_bigsigma_is_forcing_integral.

Theorem C07_bigsigma_none : forall nlat (vort : nat -> nat -> R) q dmu flag,
  snd (lwa nlat vort q dmu flag None) = None.
Proof. intros; destruct flag; reflexivity. Qed.
Print Assumptions C07_bigsigma_none.

Theorem C07_bigsigma_linear :
  forall nlat (vort : nat -> nat -> R) q dmu flag f g a b j i, (j < nlat)%nat ->
  exists sf sg s,
    snd (lwa nlat vort q dmu flag (Some f)) = Some sf /\
    snd (lwa nlat vort q dmu flag (Some g)) = Some sg /\
    snd (lwa nlat vort q dmu flag (Some (fun r i => a * f r i + b * g r i))) = Some s /\
    s j i = a * sf j i + b * sg j i.
Proof. exact bigsigma_linear. Qed.
Print Assumptions C07_bigsigma_linear.
Example C07_case : exists s, snd (lwa 2 (fun r (_ : nat) => match r with O => 1 | S _ => 0 end) (fun _ => 0) (fun _ => 1) false (Some (fun _ _ => 5))) = Some s /\ s 0%nat 0%nat <> 0.
Proof.
  destruct (C07_bigsigma_is_forcing_integral 2 (fun r (_ : nat) => match r with O => 1 | S _ => 0 end) (fun _ => 0) (fun _ => 1) false (fun _ _ => 5) 0%nat 0%nat ltac:(lia)) as (s & E & V).
  exists s. split; [exact E|]. rewrite V. unfold forcing_integral, Sum; cbn. repeat destruct Rlt_dec; unfold indic; cbn; lra.
Qed.

(** C67.  LWA depends continuously on the field: 1-Lipschitz in the weighted column L1 norm. *)
Theorem C67_lwa_lipschitz :
  forall nlat (vort vort' : nat -> nat -> R) q dmu j i, (j < nlat)%nat ->
    (forall r, (r < nlat)%nat -> 0 <= dmu r) ->
    exists x y,
      out_total (fst (lwa nlat vort q dmu false None)) j i = Some x /\
      out_total (fst (lwa nlat vort' q dmu false None)) j i = Some y /\
      Rabs (x - y) <= Sum 0 nlat (fun r => Rabs (vort r i - vort' r i) * dmu r).
Proof. exact lipschitz. Qed.
Print Assumptions C67_lwa_lipschitz.
(** the bound is attained: the undisturbed flow against that of [C03_nonzero_somewhere] *)
Example C67_case : out_total (fst (lwa 2 (fun _ _ => 0) (fun _ => 0) (fun _ => 1) false None)) 0 0%nat = Some 0 /\
  Sum 0 2 (fun r => Rabs ((fun r (_ : nat) => match r with O => 1 | S _ => 0 end) r 0%nat - 0) * 1) = 1.
Proof.
  split; [apply C03_lwa_zero_iff_undisturbed; [lia|intros; lra|split; intros; lra]|].
  unfold Sum; cbn. rewrite (Rabs_pos_eq (1 - 0)) by lra. rewrite Rabs_pos_eq by lra. lra.
Qed.
