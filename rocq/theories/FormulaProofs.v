(** Proofs of the formulas between arguments and results of a session (grids with an odd number of latitudes). *)
From Verif Require Import Base BaseFacts Spec SpecFacts Grid GridSpec GridProofs Flux FluxSpec FluxProofs Pipeline PipelineSpec PipelineProofs RefStates DirInv
  Object ObjectSpec ObjectProofs ObjectProofs2 ObjectProofs3 ObjectProofs4 FormulaSpec.
From Coq Require Import ZifyNat FunctionalExtensionality.
Ltac Zify.zify_post_hook ::= Z.to_euclidean_division_equations.
Open Scope R_scope.

Section Odd.
  Variables (lib : library) (k : class) (w : qgargs) (nc : field3) (g : grid).
  Hypothesis U : usable k w.
  Hypothesis Hg : grid_of w = Done g.
  Hypothesis Od : Nat.even (w_nlat w) = false.
  Local Notation o := (object_of k w g).
  Local Notation c := (ob_conf o).
  Local Notation x := (analyse lib k w o nc).
  Local Notation n := (w_nlat w).
  Local Notation h := (half w).

  Lemma map_odd y m : read_map w o m y = Done (fun row i => y (i + 1)%nat (row + 1)%nat).
  Proof. unfold read_map, each, back, return_interp. cbn [object_of ob_grid]. destruct (lat_facts k w g U Hg) as (L1 & _). rewrite L1, Od. reflexivity. Qed.
  Lemma profile_odd y m : read_profile w o m y = Done (fun l row => y (row + 1)%nat (l + 1)%nat).
  Proof. unfold read_profile, each, back, return_interp. cbn [object_of ob_grid]. destruct (lat_facts k w g U Hg) as (L1 & _). rewrite L1, Od. reflexivity. Qed.

  Lemma n_odd : n = (2 * h + 1)%nat /\ (2 <= h)%nat.
  Proof. unfold half. assert (P := parity w). rewrite Od in P. destruct U as ((N4 & _) & _). lia. Qed.
  (** the sizes, in terms of h *)
  Lemma sizes_odd : p_nlon c = w_nlon w /\ p_nlat c = (2 * h + 1)%nat /\ p_kmax c = result_levels w /\ p_eq c = (h + 1)%nat /\
    p_jb c = boundary k /\ p_jd c = (h + 1 - boundary k)%nat /\ p_nh c = w_nh w /\ rows c = (if w_nh w then h + 1 else 2 * h + 1)%nat.
  Proof.
    destruct (conf_facts k w g U Hg) as (C1 & C2 & C3 & C4 & C5 & C6 & C7). assert (W := rows_facts k w g U Hg). destruct n_odd as [E _]. unfold analysis_rows in *. rewrite Od in *.
    unfold half in *. rewrite W. destruct (w_nh w); repeat split; try assumption; lia.
  Qed.
  Lemma limits : (2 <= w_nlon w)%nat /\ (3 <= result_levels w)%nat /\ (boundary k <= h)%nat.
  Proof. destruct U as (_ & A & B & C & _). fold (result_levels w) in B. unfold half. auto. Qed.
  Local Notation D := (dims c).
  Lemma dims_odd : imax D = w_nlon w /\ jmax D = (2 * h + 1)%nat /\ kmax D = result_levels w /\ nd D = (h + 1)%nat /\ jb D = boundary k /\ jd D = (h + 1 - boundary k)%nat.
  Proof. cbn [dims imax jmax kmax nd jb jd]. destruct sizes_odd as (-> & -> & -> & -> & -> & -> & _). repeat split. Qed.
  Lemma hemi_sizes : hemisphere_sizes D.
  Proof. destruct dims_odd as (E1 & E2 & E3 & E4 & E5 & E6). destruct limits, n_odd. unfold hemisphere_sizes. rewrite E1, E2, E4, E5, E6. lia. Qed.
  Lemma spacing_odd : row_spacing D = step w.
  Proof. unfold row_spacing, step. destruct dims_odd as (_ & -> & _). destruct n_odd as [-> _]. reflexivity. Qed.
  Lemma latitude_odd d : latitude D (d + 1) = angle w d.
  Proof. unfold latitude, angle. cbn [dims is_nhem]. rewrite spacing_odd, plus_INR. cbn [INR]. ring. Qed.
  Lemma latitude_pred d : (1 <= d)%nat -> latitude D d = angle w (d - 1).
  Proof. intros. rewrite <- latitude_odd. f_equal. lia. Qed.
  Lemma element_odd d : element D (d + 1) = arc w d.
  Proof. unfold element, arc. rewrite spacing_odd, latitude_odd. reflexivity. Qed.
  Lemma wave_row_iff d : analysed_row D (d + 1) <-> wave_row k w d.
  Proof. unfold analysed_row, wave_row. destruct dims_odd as (_ & _ & _ & -> & -> & _). cbn [dims is_nhem]. lia. Qed.
  Lemma inner_level_iff l : interior_level D (l + 1) <-> inner_level w l.
  Proof. unfold interior_level, inner_level. destruct dims_odd as (_ & _ & -> & _). lia. Qed.
  Lemma field_row_odd d : field_row D (d + 1) = (h + d + 1)%nat.
  Proof. unfold field_row. destruct dims_odd as (_ & _ & _ & -> & _). cbn [dims is_nhem]. lia. Qed.
  Lemma prefac_odd : p_prefac c = thickness w * Sum 1 (result_levels w - 1) (fun l => exp (- (INR l * thickness w) / w_H w)).
  Proof.
    change (p_prefac c) with (g_prefactor g). rewrite (prefac_eq w g Hg), prefactor_R. destruct (grid_inv w g Hg) as (_ & _ & _ & -> & _ & _ & _ & _ & _ & Ge & Gu).
    unfold thickness. destruct (w_evenly w); [destruct (Ge eq_refl) as [_ ->]|destruct (Gu eq_refl) as (_ & -> & _)]; reflexivity.
  Qed.
  Lemma dz_odd : p_dz c = thickness w.
  Proof. change (p_dz c) with (g_dz g). destruct (grid_inv w g Hg) as (_ & _ & _ & _ & _ & _ & _ & _ & _ & Ge & Gu). unfold thickness. destruct (w_evenly w); [destruct (Ge eq_refl) as [_ ->]|destruct (Gu eq_refl) as (_ & -> & _)]; reflexivity. Qed.
  Lemma height_odd : p_height c = result_height w.
  Proof. change (p_height c) with (g_height g). apply result_height_eq. exact Hg. Qed.

  Lemma Sum_1 lo hi f : Sum (lo + 1) (hi + 1) f = Sum lo hi (fun i => f (i + 1)%nat).
  Proof. apply Sum_shift. Qed.
  Lemma avg_odd y i d : avg c y i d = vertical_mean w (fun l => y i d (l + 1)%nat).
  Proof.
    unfold avg. rewrite column_average_Sum. destruct dims_odd as (_ & _ & -> & _). cbn [dims f_h f_dz f_prefac]. rewrite prefac_odd, dz_odd, height_odd.
    change (p_h c) with (w_H w). unfold vertical_mean. change 2%nat with (1 + 1)%nat. rewrite Sum_1. match goal with |- _ = ?S / ?P => generalize P; intros P0; replace (S / P0) with (/ P0 * S) by (unfold Rdiv; ring) end. rewrite <- Sum_scal.
    apply Sum_ext. intros l Hl. replace (l + 1 - 1)%nat with l by lia. unfold Rdiv. ring.
  Qed.

  (** ** the arguments of the two hemispheric calls *)
  Local Notation q := (s_q x).
  Local Notation f := (s_f x).
  Local Notation r := (s_refs x).
  Local Notation av := (s_av x).
  Definition side (north : bool) : kin R := if north then north_args c q f (stored nc) av r else south_args c q f (stored nc) av r.
  Lemma clip_in y i j l : (1 <= i <= w_nlon w)%nat -> (1 <= j <= 2 * h + 1)%nat -> (1 <= l <= result_levels w)%nat -> clip3 c y i j l = y i j l.
  Proof.
    intros Hi Hj Hl. unfold clip3. destruct sizes_odd as (-> & -> & -> & _).
    destruct (Nat.leb_spec 1 i); [|lia]. destruct (Nat.leb_spec i (w_nlon w)); [|lia]. destruct (Nat.leb_spec 1 j); [|lia]. destruct (Nat.leb_spec j (2 * h + 1)); [|lia].
    destruct (Nat.leb_spec 1 l); [|lia]. destruct (Nat.leb_spec l (result_levels w)); [|lia]. reflexivity.
  Qed.
  Lemma clip2_in m y j l : (1 <= j <= m)%nat -> (1 <= l <= result_levels w)%nat -> clip2 c m y j l = y j l.
  Proof.
    intros Hj Hl. unfold clip2. destruct sizes_odd as (_ & _ & -> & _).
    destruct (Nat.leb_spec 1 j); [|lia]. destruct (Nat.leb_spec j m); [|lia]. destruct (Nat.leb_spec 1 l); [|lia]. destruct (Nat.leb_spec l (result_levels w)); [|lia]. reflexivity.
  Qed.
  Lemma flip_row y i d l : (d <= h)%nat -> flip3 c y i (h + d + 1)%nat l = y i (h - d + 1)%nat l.
  Proof. intros. unfold flip3. destruct sizes_odd as (_ & -> & _). f_equal. lia. Qed.
  Lemma reported_side north d : reported w north d -> w_nh w = true -> north = true.
  Proof. intros [_ H] E. rewrite E in H. exact H. Qed.
  Section At.
    Variables (north : bool) (i l : nat).
    Hypothesis Hi : (i < w_nlon w)%nat.
    Hypothesis Hl : (l < result_levels w)%nat.
    Lemma side_pv d : (d <= h)%nat -> i_pv (side north) (i + 1)%nat (h + d + 1)%nat (l + 1)%nat = sign north * q (i + 1)%nat (grid_row w north d + 1)%nat (l + 1)%nat.
    Proof. intros Hd. unfold side, sign, grid_row. destruct north; cbn [north_args south_args i_pv]; rewrite clip_in by lia; [ring|]. unfold neg3. rewrite flip_row by lia. toR. ring. Qed.
    Lemma side_uu d : (d <= h)%nat -> i_uu (side north) (i + 1)%nat (h + d + 1)%nat (l + 1)%nat = u_ f (i + 1)%nat (grid_row w north d + 1)%nat (l + 1)%nat.
    Proof. intros Hd. unfold side, grid_row. destruct north; cbn [north_args south_args i_uu]; rewrite clip_in by lia; [reflexivity|]. rewrite flip_row by lia. reflexivity. Qed.
    Lemma side_pt d : (d <= h)%nat -> i_pt (side north) (i + 1)%nat (h + d + 1)%nat (l + 1)%nat = theta_ f (i + 1)%nat (grid_row w north d + 1)%nat (l + 1)%nat.
    Proof. intros Hd. unfold side, grid_row. destruct north; cbn [north_args south_args i_pt]; rewrite clip_in by lia; [reflexivity|]. rewrite flip_row by lia. reflexivity. Qed.
    Lemma side_vv d : (d <= h)%nat -> i_vv (side north) (i + 1)%nat (h + d + 1)%nat (l + 1)%nat = sign north * v_ f (i + 1)%nat (grid_row w north d + 1)%nat (l + 1)%nat.
    Proof. intros Hd. unfold side, sign, grid_row. destruct north; cbn [north_args south_args i_vv]; rewrite clip_in by lia; [ring|]. unfold neg3. rewrite flip_row by lia. toR. ring. Qed.
    Lemma side_nc d : (d <= h)%nat -> i_nc (side north) (i + 1)%nat (h + d + 1)%nat (l + 1)%nat = nc l (grid_row w north d) i.
    Proof.
      intros Hd. unfold side, grid_row. destruct north; cbn [north_args south_args i_nc]; rewrite clip_in by lia; [|rewrite flip_row by lia]; apply stored_at.
    Qed.
    Lemma side_qref d : (d <= h)%nat -> reported w north d -> i_qref (side north) (d + 1)%nat (l + 1)%nat = sign north * qref_correct_unit c r (result_row w north d + 1)%nat (l + 1)%nat.
    Proof.
      intros Hd [_ Hr]. unfold side, sign, result_row, grid_row, last_rows, first_rows_rev. destruct sizes_odd as (_ & _ & _ & E & _ & _ & _ & W).
      destruct north; cbn [north_args south_args i_qref]; rewrite E, clip2_in by lia.
      - unfold last_rows. rewrite W. rewrite Rmult_1_l. destruct (w_nh w); f_equal; lia.
      - destruct (w_nh w); [discriminate Hr|]. unfold neg2, first_rows_rev. toR. replace (h + 1 + 1 - (d + 1))%nat with (h - d + 1)%nat by lia. ring.
    Qed.
    Lemma side_ref (y : refstate R -> arr2 R) (z : kin R -> arr2 R) d : (forall a b e m s, z (north_args c a b e m s) = clip2 c (p_jd c) (last_rows c (p_jd c) (y s))) ->
      (forall a b e m s, z (south_args c a b e m s) = clip2 c (p_jd c) (first_rows_rev (p_jd c) (y s))) ->
      (boundary k <= d <= h)%nat -> (w_nh w = true -> north = true) -> z (side north) (d + 1 - boundary k)%nat (l + 1)%nat = y r (result_row w north d + 1)%nat (l + 1)%nat.
    Proof.
      intros Zn Zs Hd Hr. unfold side, result_row, grid_row. destruct sizes_odd as (_ & _ & _ & E & _ & J & _ & W).
      destruct north; [rewrite Zn|rewrite Zs]; rewrite J, clip2_in by lia.
      - unfold last_rows. rewrite W. destruct (w_nh w); f_equal; lia.
      - destruct (w_nh w); [discriminate (Hr eq_refl)|]. unfold first_rows_rev. f_equal. lia.
    Qed.
    Lemma side_uref d : (boundary k <= d <= h)%nat -> (w_nh w = true -> north = true) -> i_uref (side north) (d + 1 - boundary k)%nat (l + 1)%nat = uref_ r (result_row w north d + 1)%nat (l + 1)%nat.
    Proof. apply (side_ref uref_ i_uref); reflexivity. Qed.
    Lemma side_tref d : (boundary k <= d <= h)%nat -> (w_nh w = true -> north = true) -> i_tref (side north) (d + 1 - boundary k)%nat (l + 1)%nat = ptref_ r (result_row w north d + 1)%nat (l + 1)%nat.
    Proof. apply (side_ref ptref_ i_tref); reflexivity. Qed.
  End At.

  (** ** assembled results *)
  Lemma global3_at (X Y : arr3 R) i north d l : reported w north d -> global3 c X Y i (result_row w north d + 1)%nat l = if north then X i (d + 1)%nat l else Y i (d + 1)%nat l.
  Proof.
    intros [Hd Hr]. unfold global3, set_shem, set_nhem, result_row, grid_row. destruct sizes_odd as (_ & _ & _ & -> & _ & _ & -> & ->).
    destruct (w_nh w).
    - subst north. destruct (Nat.leb_spec (d + 1) (h + 1 - (h + 1))); [lia|]. f_equal. lia.
    - destruct north.
      + specialize (Hr eq_refl). destruct (Nat.leb_spec (h + d + 1) (h + 1)); [lia|]. destruct (Nat.leb_spec (h + d + 1) (2 * h + 1 - (h + 1))); [lia|]. f_equal. lia.
      + destruct (Nat.leb_spec (h - d + 1) (h + 1)); [|lia]. f_equal. lia.
  Qed.
  Lemma global2_at (X Y : arr2 R) i north d : reported w north d -> global2 c X Y i (result_row w north d + 1)%nat = if north then X i (d + 1)%nat else Y i (d + 1)%nat.
  Proof. intros H. exact (global3_at (fun i j _ => X i j) (fun i j _ => Y i j) i north d O H). Qed.
End Odd.
