(** Proofs about the reference states of a whole session: the tables in terms of the solvers of one hemisphere. *)
From Verif Require Import Base BaseFacts Spec SpecFacts Grid GridSpec GridProofs Flux FluxSpec FluxProofs Pipeline PipelineSpec PipelineProofs RefStates RefStatesSpec RefStatesProofs DirInv DirInvSpec DirInvProofs DirInvProofs2 DirInvProofs3 DirInvProofs4
  Utilities UtilSpec RotateSpec RotateProofs2 Object ObjectSpec ObjectProofs ObjectProofs2 ObjectProofs3 ObjectProofs4 FormulaSpec FormulaProofs FormulaProofs2 StateSpec.
From Coq Require Import ZifyNat FunctionalExtensionality.
Ltac Zify.zify_post_hook ::= Z.to_euclidean_division_equations.
Open Scope R_scope.

Section States.
  Variables (lib : library) (k : class) (w : qgargs) (nc : field3) (g : grid) (t : tables).
  Hypothesis U : usable k w.
  Hypothesis Hg : grid_of w = Done g.
  Hypothesis Od : Nat.even (w_nlat w) = false.
  Local Notation o := (object_of k w g).
  Local Notation c := (ob_conf o).
  Local Notation x := (analyse lib k w o nc).
  Local Notation h := (half w).
  Hypothesis T : are_stored x c t.
  Local Notation r := (s_refs x).
  Local Notation q := (s_q x).
  Local Notation f := (s_f x).
  Local Notation av := (s_av x).
  Local Notation sizes := (sizes_odd k w g U Hg Od).

  Definition hemi (north : bool) (y : arr3 R) : arr3 R := if north then clip3 c y else clip3 c (flip3 c y).
  Definition hemi_pv (north : bool) : arr3 R := if north then clip3 c q else clip3 c (neg3 (flip3 c q)).
  Definition hemi_stat (north : bool) : nat -> R := match k with NH18 => stat_n av | NHN22 _ => if north then stat_n av else stat_s av end.
  Definition P18 : rsdims R := nh18_dims c (g_npart g) (w_maxit w) (w_tol w) (w_rjac w).
  Definition P : rsdims R := match k with NH18 => P18 | NHN22 _ => nhn22_dims c end.
  Definition solved (north : bool) : refstate R :=
    match k with
    | NH18 => nh18_solver c (g_npart g) (w_maxit w) (w_tol w) (w_rjac w) (stat_n av) (lb_mem1 lib) (lb_mem2 lib) (hemi_pv north) (hemi north (u_ f)) (hemi north (theta_ f))
    | NHN22 _ => nhn22_inversion c (lb_inverse lib) (tn0 av) (hemi_pv north) (hemi north (u_ f)) (hemi north (avort_nhn22 c f)) (hemi north (theta_ f))
                   (if north then tn0 av else ts0 av) (hemi_stat north)
    end.
  Lemma refs_eq : r = match k with
    | NH18 => let n := store_north c (p_eq c) (p_eq c) zero_refs (solved true) in if p_nh c then n else store_south (p_eq c) (p_eq c) n (solved false)
    | NHN22 _ => let n := store_north c (p_eq c) (p_jd c) zero_refs (solved true) in if p_nh c then n else store_south (p_eq c) (p_jd c) n (solved false)
    end.
  Proof. unfold solved, hemi_stat, hemi_pv, hemi. clear. destruct k; reflexivity. Qed.
  Ltac rows_case := repeat (match goal with |- context [Nat.leb ?a ?b] => destruct (Nat.leb_spec a b) end; try lia).
  Lemma qref_at north d l : reported w north d -> qref_ r (result_row w north d + 1)%nat l = qref_ (solved north) (d + 1)%nat l.
  Proof.
    destruct sizes as (_ & S2 & _ & S4 & _ & S6 & S7 & S8). intros [Hd Hr]. rewrite refs_eq. generalize solved. intros sol. unfold result_row, grid_row.
    destruct k; cbv zeta; rewrite S7; destruct (w_nh w) eqn:Hn; try (subst north); try (destruct north; [specialize (Hr eq_refl)|clear Hr]);
      cbn [store_north store_south qref_]; unfold set_shem, set_nhem; rewrite ?S8, ?Hn, ?S4; rows_case; f_equal; lia.
  Qed.
  Lemma other_at (y : refstate R -> arr2 R) north d l : (y = @uref_ R \/ y = @ptref_ R) -> reported w north d -> (boundary k <= d)%nat ->
    y r (result_row w north d + 1)%nat l = y (solved north) (d + 1 - boundary k)%nat l.
  Proof.
    destruct sizes as (_ & S2 & _ & S4 & _ & S6 & S7 & S8). intros Hy [Hd Hr] Hb. rewrite refs_eq. generalize solved. intros sol. unfold result_row, grid_row.
    destruct (limits k w U) as (_ & _ & Lb). destruct Hy as [-> | ->]; destruct k as [|b]; cbn [boundary] in *; cbv zeta; rewrite S7; destruct (w_nh w) eqn:Hn; try (subst north); try (destruct north; [specialize (Hr eq_refl)|clear Hr]);
      cbn [store_north store_south uref_ ptref_]; unfold set_shem, set_nhem; rewrite ?S8, ?Hn, ?S4, ?S6; rows_case; f_equal; lia.
  Qed.
  (** rows nearer the equator than the boundary of the direct inversion *)
  Lemma unset_at (y : refstate R -> arr2 R) north d l : (y = @uref_ R \/ y = @ptref_ R) -> reported w north d -> (d < boundary k)%nat -> y r (result_row w north d + 1)%nat l = 0.
  Proof.
    destruct sizes as (_ & S2 & _ & S4 & _ & S6 & S7 & S8). intros Hy [Hd Hr] Hb. rewrite refs_eq. generalize solved. intros sol. unfold result_row, grid_row.
    destruct (limits k w U) as (_ & _ & Lb). destruct Hy as [-> | ->]; destruct k as [|b]; cbn [boundary] in *; try lia; cbv zeta; rewrite S7; destruct (w_nh w) eqn:Hn; try (subst north); try (destruct north; [specialize (Hr eq_refl)|clear Hr]);
      cbn [store_north store_south uref_ ptref_ zero_refs]; unfold set_shem, set_nhem; rewrite ?S8, ?Hn, ?S4, ?S6; rows_case; reflexivity.
  Qed.
  Lemma conf_numbers : p_a c = w_a w /\ p_om c = w_om w /\ p_dz c = thickness w /\ p_h c = w_H w /\ p_rr c = w_rr w /\ p_cp c = w_cp w.
  Proof. rewrite (dz_odd k w g Hg). repeat split. Qed.
  Lemma spacing : p_dphi c = step w /\ p_dlambda c = 2 * PI / INR (w_nlon w).
  Proof.
    destruct (conf_centred k w g U Hg) as (_ & _ & _ & _ & _ & _ & D1 & D2). destruct sizes as (S1 & S2 & _ & S4 & _). destruct (n_odd k w U Od) as [N1 N2]. destruct (limits k w U) as (L1 & _).
    rewrite S1 in D2. rewrite S4 in D1. replace (h + 1 - 1)%nat with h in D1 by lia. split.
    - unfold step. rewrite N1. replace (2 * h + 1 - 1)%nat with (2 * h)%nat by lia. rewrite mult_INR. cbn [INR].
      assert (INR h <> 0) by (apply not_0_INR; lia). assert (E : p_dphi c = PI / 2 / INR h) by (rewrite <- D1; field; assumption). rewrite E. field. assumption.
    - rewrite <- D2. field. apply not_0_INR. lia.
  Qed.
  Lemma dims_common : s_nlon P = w_nlon w /\ s_nlat P = (2 * h + 1)%nat /\ s_kmax P = result_levels w /\ s_jd P = (h + 1)%nat /\
    s_a P = w_a w /\ s_om P = w_om w /\ s_dz P = thickness w /\ s_h P = w_H w /\ s_dphi P = step w /\ s_dlambda P = 2 * PI / INR (w_nlon w) /\ s_r P = w_rr w /\ s_cp P = w_cp w.
  Proof.
    destruct sizes as (S1 & S2 & S3 & S4 & _). destruct conf_numbers as (N1 & N2 & N3 & N4 & N5 & N6). destruct spacing as (E1 & E2).
    unfold P, P18. destruct k; cbn [nh18_dims nhn22_dims s_nlon s_nlat s_kmax s_jd s_a s_om s_dz s_h s_dphi s_dlambda s_r s_cp];
      rewrite S1, S2, S3, ?S4, N1, N2, N3, N4, N5, N6, E1, E2; repeat split; lia.
  Qed.
  Lemma npart_at : s_npart P = contours k w.
  Proof.
    destruct (grid_inv w g Hg) as (_ & _ & _ & _ & E & _). destruct sizes as (_ & S2 & _). destruct (n_odd k w U Od) as [N1 _].
    unfold P, P18, contours. destruct k; cbn [nh18_dims nhn22_dims s_npart]; [|rewrite S2; destruct (w_npart w); lia]. rewrite E. destruct (w_npart w); [reflexivity|].
    destruct (lat_facts NH18 w g U Hg) as (_ & L & _). rewrite L. unfold analysis_rows. rewrite Od. lia.
  Qed.
  Lemma pole_P : pole_to_pole P.
  Proof.
    assert (G := conf_centred k w g U Hg). assert (N := npart_ok k w g U Hg).
    assert (E : (p_nlat c / 2 + p_nlat c mod 2 = p_eq c)%nat) by (destruct G as (A1 & A2 & _); lia). unfold P, P18. destruct k.
    - apply nh18_pole; assumption.
    - destruct G as (A1 & A2 & A3 & A4 & A5 & A6 & A7 & A8). unfold pole_to_pole. cbn [nhn22_dims s_jd s_nlat s_nlon s_kmax s_npart s_dphi s_dlambda].
      rewrite E. repeat split; try assumption; try lia.
  Qed.
  Lemma lat_P d : lat P (d + 1) = angle w d.
  Proof. unfold lat, angle. destruct dims_common as (_ & _ & _ & _ & _ & _ & _ & _ & -> & _). rewrite plus_INR. cbn [INR]. ring. Qed.
  Lemma height_P l : height P (l + 1) = INR l * thickness w.
  Proof. unfold height. destruct dims_common as (_ & _ & _ & _ & _ & _ & -> & _). rewrite plus_INR. cbn [INR]. ring. Qed.
  Lemma tab_q l row i : t_qgpv t l row i = q (i + 1)%nat (row + 1)%nat (l + 1)%nat. Proof. apply T. Qed.
  Lemma tab_u l row i : t_u t l row i = u_ f (i + 1)%nat (row + 1)%nat (l + 1)%nat. Proof. apply T. Qed.
  Lemma tab_theta l row i : t_theta t l row i = theta_ f (i + 1)%nat (row + 1)%nat (l + 1)%nat. Proof. apply T. Qed.
  Lemma ref_u_at north d l : reported w north d -> (boundary k <= d)%nat -> ref_u w t north d l = uref_ (solved north) (d + 1 - boundary k)%nat (l + 1)%nat.
  Proof. intros. unfold ref_u. destruct T as (_ & _ & _ & _ & _ & -> & _). apply (other_at (@uref_ R)); auto. Qed.
  Lemma ref_theta_at north d l : reported w north d -> (boundary k <= d)%nat -> ref_theta w t north d l = ptref_ (solved north) (d + 1 - boundary k)%nat (l + 1)%nat.
  Proof. intros. unfold ref_theta. destruct T as (_ & _ & _ & _ & _ & _ & -> & _). apply (other_at (@ptref_ R)); auto. Qed.
  Lemma ref_unset north d l : reported w north d -> (d < boundary k)%nat -> ref_u w t north d l = 0 /\ ref_theta w t north d l = 0.
  Proof. intros. unfold ref_u, ref_theta. destruct T as (_ & _ & _ & _ & _ & -> & -> & _). split; [apply (unset_at (@uref_ R))|apply (unset_at (@ptref_ R))]; auto. Qed.

  (** rows of the hemisphere; index h + d + 1 of the solver is row d *)
  Lemma hemi_at north (y : arr3 R) i l d : (i < w_nlon w)%nat -> (l < result_levels w)%nat -> (d <= h)%nat ->
    hemi north y (i + 1)%nat (h + d + 1)%nat (l + 1)%nat = y (i + 1)%nat (grid_row w north d + 1)%nat (l + 1)%nat.
  Proof.
    intros Hi Hl Hd. unfold hemi, grid_row. destruct north; rewrite (clip_in k w g U Hg Od) by lia; [reflexivity|]. rewrite (flip_row k w g U Hg Od) by lia. reflexivity.
  Qed.
  Lemma zonal_at north (y : arr3 R) d l : (l < result_levels w)%nat -> (d <= h)%nat ->
    zonal P (hemi north y) (d + 1) (l + 1) = zonal_average w (fun i => y (i + 1)%nat (grid_row w north d + 1)%nat (l + 1)%nat).
  Proof.
    intros Hl Hd. unfold zonal, zonal_average. destruct dims_common as (-> & _ & _ & -> & _). f_equal. change 1%nat with (0 + 1)%nat at 1. rewrite Sum_1. apply Sum_ext. intros i Hi.
    replace (d + 1 + (h + 1) - 1)%nat with (h + d + 1)%nat by lia. apply hemi_at; lia.
  Qed.
  Lemma zonal_theta_at north d l : (l < result_levels w)%nat -> (d <= h)%nat -> zonal P (hemi north (theta_ f)) (d + 1) (l + 1) = zonal_theta w t north d l.
  Proof. intros Hl Hd. rewrite zonal_at by assumption. unfold zonal_theta, zonal_average. f_equal. apply Sum_ext. intros i _. symmetry. apply tab_theta. Qed.
  Lemma zonal_u_at north d l : (l < result_levels w)%nat -> (d <= h)%nat -> zonal P (hemi north (u_ f)) (d + 1) (l + 1) = zonal_u w t north d l.
  Proof. intros Hl Hd. rewrite zonal_at by assumption. unfold zonal_u, zonal_average. f_equal. apply Sum_ext. intros i _. symmetry. apply tab_u. Qed.
End States.
