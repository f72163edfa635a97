(** Property C177: the sum of local wave activity around a latitude circle is the finite-amplitude wave activity of Nakamura & Zhu (2010). *)
From Verif Require Import Base BaseFacts Spec SpecFacts Basis LwaSpec LwaProofs Object ObjectSpec FormulaSpec FormulaProofs PropertiesObject PropertiesFormula FormulaProofs2 FawaSpec FawaProofs.
Open Scope R_scope.

(** ** falwa.basis.lwa: [x i] is the wave activity returned for row j *)
Lemma lwa_column nlat nlon vort q dmu j x : (S j < nlat)%nat ->
  (forall i, (i < nlon)%nat -> out_total (fst (lwa nlat vort q dmu false None)) j i = Some (x i)) ->
  forall i, (i < nlon)%nat -> x i = column nlat vort dmu (q j) (S j) i.
Proof.
  intros Hj Hx i Hi. specialize (Hx i Hi). rewrite total_spec in Hx by lia. injection Hx as <-. unfold lwa_anticyclonic, lwa_cyclonic, column.
  destruct (Nat.eqb_spec (S j) nlat); [lia|]. ring.
Qed.
Theorem C177_zonal_total_of_lwa_is_the_circulation_excess :
  forall (nlat nlon : nat) (vort : nat -> nat -> R) (q dmu : nat -> R) (j : nat) (x : nat -> R), (S j < nlat)%nat ->
    (forall i, (i < nlon)%nat -> out_total (fst (lwa nlat vort q dmu false None)) j i = Some (x i)) ->
    Sum 0 nlon x = circulation_excess nlat nlon vort dmu (q j) (S j) - q j * area_excess nlat nlon vort dmu (q j) (S j) /\
    (area_excess nlat nlon vort dmu (q j) (S j) = 0 -> Sum 0 nlon x = circulation_excess nlat nlon vort dmu (q j) (S j)).
Proof.
  intros nlat nlon vort q dmu j x Hj Hx.
  assert (E : Sum 0 nlon x = circulation_excess nlat nlon vort dmu (q j) (S j) - q j * area_excess nlat nlon vort dmu (q j) (S j)).
  { rewrite <- total_eq by lia. apply Sum_ext. intros i Hi. apply (lwa_column nlat nlon vort q); [exact Hj|exact Hx|lia]. }
  split; [exact E|]. intros Z. rewrite E, Z. ring.
Qed.
Print Assumptions C177_zonal_total_of_lwa_is_the_circulation_excess.

(** another reference value [q' j] at the same row lowers the total by at most the area excess times the change of the value; in particular
    the value whose contour encloses the area north of the row gives the least wave activity *)
Theorem C177_lwa_is_least_for_the_area_preserving_reference :
  forall (nlat nlon : nat) (vort : nat -> nat -> R) (q q' dmu : nat -> R) (j : nat) (x x' : nat -> R), (S j < nlat)%nat ->
    (forall r, (r < nlat)%nat -> 0 <= dmu r) ->
    (forall i, (i < nlon)%nat -> out_total (fst (lwa nlat vort q dmu false None)) j i = Some (x i)) ->
    (forall i, (i < nlon)%nat -> out_total (fst (lwa nlat vort q' dmu false None)) j i = Some (x' i)) ->
    Sum 0 nlon x - (q' j - q j) * area_excess nlat nlon vort dmu (q j) (S j) <= Sum 0 nlon x' /\
    (area_excess nlat nlon vort dmu (q j) (S j) = 0 -> Sum 0 nlon x <= Sum 0 nlon x').
Proof.
  intros nlat nlon vort q q' dmu j x x' Hj Hd Hx Hx'.
  assert (E : Sum 0 nlon x - (q' j - q j) * area_excess nlat nlon vort dmu (q j) (S j) <= Sum 0 nlon x').
  { rewrite (Sum_ext 0 nlon x _ (fun i Hi => lwa_column nlat nlon vort q dmu j x Hj Hx i (proj2 Hi))).
    rewrite (Sum_ext 0 nlon x' _ (fun i Hi => lwa_column nlat nlon vort q' dmu j x' Hj Hx' i (proj2 Hi))).
    apply total_convex; [lia|exact Hd]. }
  split; [exact E|]. intros Z. rewrite Z in E. lra.
Qed.
Print Assumptions C177_lwa_is_least_for_the_area_preserving_reference.

(** two rows and two longitudes: the high value 3 lies in the southern row of the first column; the contour 2 encloses as much area as
    the northern row *)
Definition swap_vort (r i : nat) : R := match r, i with O, O => 3 | O, _ => 0 | _, O => 1 | _, _ => 4 end.
Example C177_case : area_excess 2 2 swap_vort (fun _ => 1) 2 1 = 0 /\ circulation_excess 2 2 swap_vort (fun _ => 1) 2 1 = 2 /\
  out_total (fst (lwa 2 swap_vort (fun _ => 2) (fun _ => 1) false None)) 0 0 = Some (1 + 1) /\
  out_total (fst (lwa 2 swap_vort (fun _ => 2) (fun _ => 1) false None)) 0 1 = Some (0 + 0).
Proof.
  assert (P1 : ppart (2 - 1) = 1) by (unfold ppart, Rmax; destruct (Rle_dec _ _); lra). assert (P2 : ppart (3 - 2) = 1) by (unfold ppart, Rmax; destruct (Rle_dec _ _); lra).
  assert (P3 : ppart (2 - 4) = 0) by (unfold ppart, Rmax; destruct (Rle_dec _ _); lra). assert (P4 : ppart (0 - 2) = 0) by (unfold ppart, Rmax; destruct (Rle_dec _ _); lra).
  assert (A : area_excess 2 2 swap_vort (fun _ => 1) 2 1 = 0 /\ circulation_excess 2 2 swap_vort (fun _ => 1) 2 1 = 2).
  { unfold area_excess, circulation_excess, above_contour, beyond_row, vorticity_of, one_of, Sum. cbn.
    destruct (Rlt_dec 2 3); [|lra]. destruct (Rlt_dec 2 0); [lra|]. destruct (Rlt_dec 2 1); [lra|]. destruct (Rlt_dec 2 4); [|lra]. split; lra. }
  split; [apply A|]. split; [apply A|]. rewrite !total_spec by lia. unfold lwa_anticyclonic, lwa_cyclonic, Sum. cbn. rewrite P1, P2, P3, P4. split; f_equal; lra.
Qed.

(** ** A session: rows by distance from the equator, PV counted positive towards the pole, cells of area a dphi cos(phi) *)
Section Session.
  Variables (lib : library) (k : class) (w : qgargs) (nc : field3) (t : tables).
  Definition pv_cells (north : bool) (l : nat) (d i : nat) : R := pole_pv w t north l i d.
  Lemma session_column north l d i : session_tables_are lib k w nc t -> 0 <= w_a w -> (i < w_nlon w)%nat -> reported w north d -> wave_row k w d -> inner_level w l -> (l < result_levels w)%nat ->
    t_lwa t l (result_row w north d) i = column (half w + 1) (pv_cells north l) (arc w) (pole_ref w t north l d) d i.
  Proof.
    intros H Ha Hi Hr Hd Hl Hl'. destruct (C147_wave_activity_follows_from_qgpv lib k w nc t H Ha north d i Hi Hr) as [A _].
    rewrite (proj1 (A l Hl') (conj Hd Hl)). reflexivity.
  Qed.
End Session.
Theorem C177_zonal_total_of_a_session_is_the_circulation_excess :
  forall (lib : library) (k : class) (w : qgargs) (nc : field3) (t : tables), session_tables_are lib k w nc t -> 0 <= w_a w ->
  forall north d l, reported w north d -> wave_row k w d -> inner_level w l ->
    let Q := pole_ref w t north l d in
    let pv d i := pole_pv w t north l i d in
    Sum 0 (w_nlon w) (fun i => t_lwa t l (result_row w north d) i)
      = circulation_excess (half w + 1) (w_nlon w) pv (arc w) Q d - Q * area_excess (half w + 1) (w_nlon w) pv (arc w) Q d.
Proof.
  intros lib k w nc t H Ha north d l Hr Hd Hl. cbv zeta. assert (Hl' : (l < result_levels w)%nat) by (unfold inner_level in Hl; lia).
  change (fun d0 i => pole_pv w t north l i d0) with (pv_cells w t north l). rewrite <- total_eq by (unfold wave_row in Hd; lia).
  apply Sum_ext. intros i Hi. apply (session_column lib k w nc t); auto. lia.
Qed.
Print Assumptions C177_zonal_total_of_a_session_is_the_circulation_excess.

(** the same, with the wave activity the contour formula of C147 gives for another reference value [Q'] at the same row *)
Theorem C177_session_wave_activity_is_least_for_the_area_preserving_reference :
  forall (lib : library) (k : class) (w : qgargs) (nc : field3) (t : tables), session_tables_are lib k w nc t -> 0 <= w_a w ->
  forall north d l Q', reported w north d -> wave_row k w d -> inner_level w l ->
    let Q := pole_ref w t north l d in
    let pv d i := pole_pv w t north l i d in
    let excess := area_excess (half w + 1) (w_nlon w) pv (arc w) Q d in
    Sum 0 (w_nlon w) (fun i => t_lwa t l (result_row w north d) i) - (Q' - Q) * excess
      <= Sum 0 (w_nlon w) (fun i => contour w (pole_pv w t north l i) Q' d) /\
    (excess = 0 -> Sum 0 (w_nlon w) (fun i => t_lwa t l (result_row w north d) i) <= Sum 0 (w_nlon w) (fun i => contour w (pole_pv w t north l i) Q' d)).
Proof.
  intros lib k w nc t H Ha north d l Q' Hr Hd Hl. cbv zeta. assert (Hl' : (l < result_levels w)%nat) by (unfold inner_level in Hl; lia).
  change (fun d0 i => pole_pv w t north l i d0) with (pv_cells w t north l).
  assert (E : Sum 0 (w_nlon w) (fun i => t_lwa t l (result_row w north d) i)
    - (Q' - pole_ref w t north l d) * area_excess (half w + 1) (w_nlon w) (pv_cells w t north l) (arc w) (pole_ref w t north l d) d
    <= Sum 0 (w_nlon w) (fun i => contour w (pole_pv w t north l i) Q' d)).
  { rewrite (Sum_ext 0 (w_nlon w) (fun i => t_lwa t l (result_row w north d) i) (column (half w + 1) (pv_cells w t north l) (arc w) (pole_ref w t north l d) d))
      by (intros i Hi; apply (session_column lib k w nc t); auto; lia).
    change (fun i => contour w (pole_pv w t north l i) Q' d) with (column (half w + 1) (pv_cells w t north l) (arc w) Q' d).
    apply total_convex; [unfold wave_row in Hd; lia|]. clear Hr. intros r Hr'. start H. apply (arc_nonneg k w g U Hg Od r); [exact Ha|lia]. }
  split; [exact E|]. intros Z. rewrite Z in E. lra.
Qed.
Print Assumptions C177_session_wave_activity_is_least_for_the_area_preserving_reference.
(** [formulas_apply] of PropertiesFormula gives sessions, rows and levels these two theorems apply to *)
Example C177_session_case : forall nc, exists t, session_tables_are some_library NH18 (some_args true false) nc t /\
  0 <= w_a (some_args true false) /\ reported (some_args true false) false 1 /\ wave_row NH18 (some_args true false) 1 /\ inner_level (some_args true false) 1.
Proof. intros nc. destruct (formulas_apply NH18 false nc ltac:(cbn; lia)) as (t & A & B & C & D & _ & F). exists t. auto. Qed.
