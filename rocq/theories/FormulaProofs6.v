(** Proofs of the formulas, continued: quasigeostrophic potential vorticity. *)
From Verif Require Import Base BaseFacts Spec SpecFacts Grid GridSpec GridProofs Flux FluxSpec FluxProofs Qgpv QgpvSpec QgpvProofs Pipeline PipelineSpec PipelineProofs RefStates DirInv Utilities UtilSpec UtilitiesProofs RefStatesProofs
  Object ObjectSpec ObjectProofs ObjectProofs2 ObjectProofs3 ObjectProofs4 FormulaSpec FormulaProofs FormulaProofs2 FormulaProofs3.
From Coq Require Import ZifyNat FunctionalExtensionality.
Ltac Zify.zify_post_hook ::= Z.to_euclidean_division_equations.
Open Scope R_scope.

Section Vorticity.
  Variables (lib : library) (k : class) (w : qgargs) (nc : field3) (g : grid) (t : tables).
  Hypothesis U : usable k w.
  Hypothesis Hg : grid_of w = Done g.
  Hypothesis Od : Nat.even (w_nlat w) = false.
  Local Notation o := (object_of k w g).
  Local Notation c := (ob_conf o).
  Local Notation x := (analyse lib k w o nc).
  Local Notation h := (half w).
  Hypothesis T : are_stored x c t.
  Local Notation n := (w_nlat w).
  Local Notation m := (w_nlon w).
  Ltac tbl := destruct T as (T1 & T2 & T3 & T4 & T5 & T6 & T7 & T8 & T9 & T10 & T11 & T12 & T13 & T14 & T15 & T16 & T17 & T18 & T19 & T20 & T21 & T22 & T23 & T24 & T25).

  Lemma glat_row row : glat n (row + 1) = row_lat w row.
  Proof. unfold glat, row_lat, step. rewrite plus_INR. cbn [INR]. destruct (n_odd k w U Od) as [N N2]. assert (0 < INR (n - 1)) by (apply lt_0_INR; lia). field. lra. Qed.
  Lemma next_east i : (i < m)%nat -> next_lon m (i + 1) = (eastward w i + 1)%nat.
  Proof.
    intros Hi. unfold next_lon, eastward. destruct (Nat.eqb_spec (i + 1) m) as [E|E]; [rewrite E, Nat.mod_same by lia; reflexivity|]. rewrite Nat.mod_small by lia. reflexivity.
  Qed.
  Lemma prev_west i : (i < m)%nat -> prev_lon m (i + 1) = (westward w i + 1)%nat.
  Proof.
    intros Hi. unfold prev_lon, westward. destruct (Nat.eqb_spec (i + 1) 1) as [E|E]; [rewrite Nat.mod_small by lia; lia|].
    replace (i + m - 1)%nat with (i - 1 + 1 * m)%nat by lia. rewrite Nat.mod_add, Nat.mod_small by lia. lia.
  Qed.
  Lemma near_range i : (i < m)%nat -> (eastward w i < m)%nat /\ (westward w i < m)%nat.
  Proof. intros Hi. split; apply Nat.mod_upper_bound; lia. Qed.
  Section Level.
    Variable l : nat.
    Hypothesis Hl : (l < result_levels w)%nat.
    Local Notation uu := (clip3 c (u_ (s_f x))).
    Local Notation vv := (clip3 c (v_ (s_f x))).
    Local Notation tt := (clip3 c (theta_ (s_f x))).
    Lemma clipped (y : arr3 R) i row l' : (i < m)%nat -> (row < n)%nat -> (l' < result_levels w)%nat -> clip3 c y (i + 1)%nat (row + 1)%nat (l' + 1)%nat = y (i + 1)%nat (row + 1)%nat (l' + 1)%nat.
    Proof. intros. apply (clip_in k w g U Hg Od); [|destruct (n_odd k w U Od)|]; lia. Qed.
    Lemma inside_odd row i : (i < m)%nat -> (1 <= row)%nat -> (row + 1 < n)%nat ->
      interior_avort m n (w_a w) (w_om w) uu vv (i + 1)%nat (row + 1)%nat (l + 1)%nat = vorticity_inside w (t_u t l) (t_v t l) row i.
    Proof.
      intros Hi H1 H2. tbl. unfold interior_avort, abs_vorticity, vorticity_inside. change (dphi_s n) with (step w). destruct (near_range i Hi) as [Ne Nw].
      replace (row + 1 - 1)%nat with (row - 1 + 1)%nat by lia. rewrite !glat_row, next_east, prev_west, !clipped by (assumption || lia). rewrite !T2, !T3. reflexivity.
    Qed.
    Lemma average_odd (y : arr3 R) (z : nat -> R) j : (forall i, (i < m)%nat -> y (i + 1)%nat j (l + 1)%nat = z i) -> QgpvSpec.zonal_mean m y j (l + 1) = zonal_average w z.
    Proof. intros H. unfold QgpvSpec.zonal_mean, zonal_average. f_equal. change 1%nat with (0 + 1)%nat at 1. rewrite Sum_1. apply Sum_ext. intros i Hi. apply H. lia. Qed.
    Lemma vorticity_odd lat : (forall j d, lat j d = glat n (j + 1) - INR d * dphi_s n) -> forall row i, (i < m)%nat -> (row < n)%nat ->
      avort m n (w_a w) (w_om w) lat uu vv (i + 1)%nat (row + 1)%nat (l + 1)%nat = vorticity w (t_u t l) (t_v t l) row i.
    Proof.
      intros Hlat row i Hi Hr. destruct (n_odd k w U Od) as [N N2]. destruct (limits k w U) as (L & _). rewrite avort_R by (assumption || lia). unfold vorticity.
      destruct (Nat.eqb_spec (row + 1) 1) as [A1|A1], (Nat.eqb_spec row 0) as [A2|A2]; try lia; [apply average_odd; intros i' Hi'; change 2%nat with (1 + 1)%nat; apply inside_odd; lia|].
      destruct (Nat.eqb_spec (row + 1) n) as [A3|A3], (Nat.eqb_spec row (n - 1)) as [A4|A4]; try lia; [apply average_odd; intros i' Hi'; replace (n - 1)%nat with (n - 2 + 1)%nat by lia; apply inside_odd; lia|].
      apply inside_odd; lia.
    Qed.
    Lemma zmav_odd lat : (forall j d, lat j d = glat n (j + 1) - INR d * dphi_s n) -> forall row, (row < n)%nat ->
      zmav m n (w_a w) (w_om w) lat uu vv (row + 1)%nat (l + 1)%nat = zonal_average w (vorticity w (t_u t l) (t_v t l) row).
    Proof. intros Hlat row Hr. rewrite zmav_R by lia. apply average_odd. intros i Hi. apply vorticity_odd; assumption. Qed.
    Lemma stretching_odd t0 slope row i : (i < m)%nat -> (row < n)%nat -> inner_level w l ->
      QgpvSpec.stretching (w_H w) (one_based (result_height w)) (one_based t0) (one_based slope) tt (i + 1)%nat (row + 1)%nat (l + 1)%nat = stretching_of w (fun l => t_theta t l row i) t0 slope l.
    Proof.
      intros Hi Hr [V1 V2]. tbl. unfold QgpvSpec.stretching, stretching_of, one_based. replace (l + 1 - 1 - 1)%nat with (l - 1)%nat by lia. replace (l + 1 - 1)%nat with l by lia. replace (l + 1 + 1 - 1)%nat with (l + 1)%nat by lia.
      assert (A := clipped (theta_ (s_f x)) i row (l - 1) Hi Hr ltac:(lia)). assert (B := T4 (l - 1)%nat row i). replace (l - 1 + 1)%nat with l in A, B by lia. rewrite A, clipped by lia. rewrite B, T4. reflexivity.
    Qed.
    Lemma inner_iff : inner_level w l <-> QgpvProofs.interior (p_kmax c) (l + 1).
    Proof. unfold inner_level, QgpvProofs.interior. destruct (sizes_odd k w g U Hg Od) as (_ & _ & -> & _). lia. Qed.
    Lemma lats_ok : (forall j d, @lat_nh18 R RNum n j d = glat n (j + 1) - INR d * dphi_s n) /\ (forall j d, @lat_nhn22 R RNum n j d = glat n (j + 1) - INR d * dphi_s n).
    Proof. destruct (n_odd k w U Od) as [N N2]. destruct (limits k w U) as (L & _). split; intros; [apply (lat_nh18_ok m)|apply (lat_nhn22_ok m)]; lia. Qed.
  End Level.
  Lemma means_eta : tn0 (s_av x) = t_mean k w lib true /\ ts0 (s_av x) = t_mean k w lib false /\ stat_n (s_av x) = t_slope k w lib true /\ stat_s (s_av x) = t_slope k w lib false.
  Proof. repeat split; apply functional_extensionality; intros l; destruct (means_odd lib k w nc g t U Hg Od T l) as (A & B & C & D); assumption. Qed.
  Lemma qgpv_formula l row i : (i < m)%nat -> (row < n)%nat -> (l < result_levels w)%nat ->
    (inner_level w l -> t_qgpv t l row i =
       vorticity w (t_u t l) (t_v t l) row i
       + match k with
         | NH18 => zonal_average w (vorticity w (t_u t l) (t_v t l) row) * stretching_of w (fun l => t_theta t l row i) (t_mean k w lib true) (t_slope k w lib true) l
         | NHN22 _ => 2 * w_om w * sin (row_lat w row)
                      * stretching_of w (fun l => t_theta t l row i) (t_mean k w lib (negb (Nat.leb row h))) (t_slope k w lib (negb (Nat.leb row h))) l
         end) /\
    (~ inner_level w l -> t_qgpv t l row i = 0).
  Proof.
    intros Hi Hr Hl. destruct (n_odd k w U Od) as [N N2]. destruct (limits k w U) as (L & _). destruct (lats_ok l Hl) as [La Lb]. destruct means_eta as (M1 & M2 & M3 & M4).
    destruct (sizes_odd k w g U Hg Od) as (S1 & S2 & S3 & S4 & _). rewrite <- N in S2. assert (Hh := height_odd k w g Hg).
    assert (E : t_qgpv t l row i = match k with NH18 => pv_nh18 c (s_f x) (s_av x) | NHN22 _ => pv_nhn22 c (s_f x) (s_av x) end (i + 1)%nat (row + 1)%nat (l + 1)%nat) by (tbl; apply T1).
    rewrite E. clear E. split.
    - intros Hv. assert (Hv' := proj1 (inner_iff l Hl) Hv).
      assert (Ea : pv_nh18 c (s_f x) (s_av x) (i + 1)%nat (row + 1)%nat (l + 1)%nat = vorticity w (t_u t l) (t_v t l) row i
        + zonal_average w (vorticity w (t_u t l) (t_v t l) row) * stretching_of w (fun l => t_theta t l row i) (t_mean k w lib true) (t_slope k w lib true) l).
      { unfold pv_nh18. rewrite qgpv_nh18_R by exact Hv'. rewrite S1, S2, Hh, M1, M3. change (p_a c) with (w_a w). change (p_om c) with (w_om w). change (p_h c) with (w_H w).
        rewrite (vorticity_odd l Hl _ La row i Hi Hr), (zmav_odd l Hl _ La row Hr), (stretching_odd l Hl _ _ row i Hi Hr Hv). reflexivity. }
      assert (Eb : pv_nhn22 c (s_f x) (s_av x) (i + 1)%nat (row + 1)%nat (l + 1)%nat = vorticity w (t_u t l) (t_v t l) row i
        + 2 * w_om w * sin (row_lat w row) * stretching_of w (fun l => t_theta t l row i) (t_mean k w lib (negb (Nat.leb row h))) (t_slope k w lib (negb (Nat.leb row h))) l).
      { unfold pv_nhn22. rewrite qgpv_nhn22_R by (exact Hv' || lia). rewrite S1, S2, S4, Hh, M1, M2, M3, M4. change (p_a c) with (w_a w). change (p_om c) with (w_om w). change (p_h c) with (w_H w).
        rewrite (vorticity_odd l Hl _ Lb row i Hi Hr), glat_row. destruct (Nat.leb_spec (row + 1) (h + 1)), (Nat.leb_spec row h); try lia; rewrite (stretching_odd l Hl _ _ row i Hi Hr Hv); reflexivity. }
      clear - Ea Eb. destruct k; assumption.
    - intros Hv. assert (Hv' : ~ QgpvProofs.interior (p_kmax c) (l + 1)) by (intros A; apply Hv, (inner_iff l Hl); exact A).
      assert (Ea : pv_nh18 c (s_f x) (s_av x) (i + 1)%nat (row + 1)%nat (l + 1)%nat = 0) by (apply qgpv_outside_nh18; exact Hv').
      assert (Eb : pv_nhn22 c (s_f x) (s_av x) (i + 1)%nat (row + 1)%nat (l + 1)%nat = 0) by (apply qgpv_outside_nhn22; exact Hv').
      clear - Ea Eb. destruct k; assumption.
  Qed.
End Vorticity.
