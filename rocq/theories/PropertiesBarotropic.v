(** Properties C10, C15, C16: [BarotropicField] as an object. *)
From Verif Require Import Spec EqvlatSpec Basis Barotropic BarotropicProofs.
Open Scope R_scope.

(** C10.  With the default areas the arcsine argument stays in its domain, for every field and
    every contour value ... *)
Theorem C10_default_area_at_most_sphere :
  forall nlat nlon pv a q, (2 <= nlat)%nat -> (1 <= nlon)%nat -> 0 < a ->
    let ylat := fun j => -90 + INR j * (180 / INR (nlat - 1)) in
    let area := default_area nlon ylat (default_dphi nlat) a in
    total nlat nlon area <= sphere a /\
    -1 <= total_below nlat nlon pv area q / (2 * PI * a ^ 2) - 1 <= 1.
Proof. exact default_object_args. Qed.
Print Assumptions C10_default_area_at_most_sphere.

(** ... so the profile read from a default object is monotone and within the data range with no
    hypothesis on areas. *)
Theorem C10_default_object_profile :
  forall nlat nlon pv a n lo hi, (2 <= nlat)%nat -> (1 <= nlon)%nat -> 0 < a -> (2 <= n)%nat ->
    is_min nlat nlon pv lo -> is_max nlat nlon pv hi ->
    let ylat := fun j => -90 + INR j * (180 / INR (nlat - 1)) in
    exists q, snd (brun (bf_init nlat nlon ylat pv None None (Some n) a false) [ReadEqvlat]) = [OEqv q] /\
      nondecreasing nlat q /\ forall l, lo <= q l <= hi.
Proof. exact default_object_profile. Qed.
Print Assumptions C10_default_object_profile.
Example C10_case : exists q, snd (brun (bf_init 3 2 (fun j => -90 + INR j * (180 / INR (3 - 1))) (fun j i => INR (2 * j + i)) None None (Some 4%nat) 1 false) [ReadEqvlat]) = [OEqv q] /\
  nondecreasing 3 q /\ forall l, 0 <= q l <= 5.
Proof.
  assert (F : forall (Q : nat -> nat -> Prop), (forall j i, (j < 3)%nat -> (i < 2)%nat -> (2 * j + i <= 5)%nat -> Q j i) -> forall j i, (j < 3)%nat -> (i < 2)%nat -> Q j i) by (intros Q H j i Hj Hi; apply H; lia).
  apply (C10_default_object_profile 3 2 (fun j i => INR (2 * j + i)) 1 4 0 5); try lia; try lra.
  - split; [exists 0%nat, 0%nat; cbn; repeat split; lia || lra|]. intros. apply pos_INR.
  - split; [exists 2%nat, 1%nat; cbn; repeat split; lia || lra|]. apply F. intros j i _ _ H. apply le_INR in H. cbn [INR] in H. lra.
Qed.

(** C15.  Any history of reads gives, read by read, what a single read of a fresh object gives. *)
Theorem C15_reads_order_independent :
  forall nlat nlon ylat area dphi npart radius flag pv h,
    let mk := fun f => bf_init nlat nlon ylat f area dphi npart radius flag in
    forallb is_read h = true ->
    snd (brun (mk pv) h) = concat (map (fun o => snd (brun (mk pv) [o])) h).
Proof. exact reads_order. Qed.
Print Assumptions C15_reads_order_independent.

(** what the two reads are *)
Theorem C15_read_values :
  forall nlat nlon ylat area dphi npart radius flag pv,
    snd (brun (bf_init nlat nlon ylat pv area dphi npart radius flag) [ReadEqvlat; ReadLwa]) =
    let q := fst (eqvlat_fawa nlat nlon ylat pv
       (match area with Some w => w | None => default_area nlon ylat (match dphi with Some d => d | None => default_dphi nlat end) radius end)
       (match npart with Some n => n | None => nlat end) radius false) in
    [OEqv q; OLwa (fst (lwa nlat pv q
       (fun j => radius * Rabs (cos (ylat j * (PI / 180))) * (match dphi with Some d => d | None => default_dphi nlat end) j) flag None))].
Proof. exact lwa_value. Qed.
Print Assumptions C15_read_values.

(** after any history, a newly assigned field is seen by equivalent_latitudes at once *)
Theorem C15_assignment_seen_by_equivalent_latitudes :
  forall nlat nlon ylat area dphi npart radius flag pv h pv',
    let mk := fun f => bf_init nlat nlon ylat f area dphi npart radius flag in
    snd (brun (fst (brun (mk pv) (h ++ [AssignPv pv']))) [ReadEqvlat]) = snd (brun (mk pv') [ReadEqvlat]).
Proof. exact eqvlat_after_assign. Qed.
Print Assumptions C15_assignment_seen_by_equivalent_latitudes.

(** C16.  Full claim: after assigning pv_field, lwa describes the new field.  True only when lwa has
    not been read before ... *)
Theorem C16_lwa_follows_assignment_if_unread_partial :
  forall nlat nlon ylat area dphi npart radius flag pv h pv',
    let mk := fun f => bf_init nlat nlon ylat f area dphi npart radius flag in
    existsb is_lwa_read h = false ->
    snd (brun (fst (brun (mk pv) (h ++ [AssignPv pv']))) [ReadLwa]) = snd (brun (mk pv') [ReadLwa]).
Proof. exact lwa_after_assign_unread. Qed.
Print Assumptions C16_lwa_follows_assignment_if_unread_partial.

(** ... because once read it is frozen, whatever happens next ... *)
Theorem C16_lwa_frozen_after_first_read :
  forall nlat nlon ylat area dphi npart radius flag pv h,
    let mk := fun f => bf_init nlat nlon ylat f area dphi npart radius flag in
    snd (brun (fst (brun (mk pv) (ReadLwa :: h))) [ReadLwa]) = snd (brun (mk pv) [ReadLwa]).
Proof. exact lwa_frozen. Qed.
Print Assumptions C16_lwa_frozen_after_first_read.

(** ... and the stale value differs from the right one. *)
Theorem C16_lwa_consistent_after_assignment_refuted :
  exists nlat nlon ylat pv pv',
    let mk := fun f => bf_init nlat nlon ylat f None None None 1 false in
    snd (brun (mk pv) [ReadLwa; AssignPv pv'; ReadLwa]) <>
    snd (brun (mk pv) [ReadLwa]) ++ [ONone] ++ snd (brun (mk pv') [ReadLwa]).
Proof. exact stale_lwa. Qed.
Print Assumptions C16_lwa_consistent_after_assignment_refuted.

Example C15_C16_hypotheses_met :
  forallb is_read [@ReadLwa R; ReadEqvlat; ReadLwa] = true /\
  existsb is_lwa_read [@ReadEqvlat R; AssignPv (fun _ _ => 1); ReadEqvlat] = false.
Proof. split; reflexivity. Qed.
