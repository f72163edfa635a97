(** Proofs for C182, continued: potential vorticity, wave activity and fluxes *)
From Coq Require Import Reals Lra Lia List FunctionalExtensionality.
From Verif Require Import Base BaseFacts Grid Flux Utilities Qgpv Pipeline RefStates DirInv UnitProofs.
Import ListNotations.
Open Scope R_scope.

Section QgpvUnits.
  Variables c l kt : R.
  Hypothesis Hc : 0 < c.
  Hypothesis Hl : 0 < l.
  Hypothesis Ht : 0 < kt.
  Let c0 : c <> 0. Proof. lra. Qed.
  Let l0 : l <> 0. Proof. lra. Qed.
  Let k0 : kt <> 0. Proof. lra. Qed.
  Variables (nlon nlat kmax : nat) (a om h : R) (u v th : arr3 R).
  Notation u' := (scale3 (l * c) u).
  Notation v' := (scale3 (l * c) v).
  Section Vort.
    Variable lat : nat -> nat -> R.
    Lemma avort_interior_u i j k : avort_interior nlon nlat (l * a) (c * om) lat u' v' i j k = c * avort_interior nlon nlat a om lat u v i j k.
    Proof. unfold avort_interior. cbv zeta. unfold scale3. toR. un c l kt. Qed.
    Lemma avort_u i j k : avort nlon nlat (l * a) (c * om) lat u' v' i j k = c * avort nlon nlat a om lat u v i j k.
    Proof.
      unfold avort. destruct (Nat.eqb j nlat); [apply loop_scal; intros; rewrite avort_interior_u; toR; unfold Rdiv; ring|].
      destruct (Nat.eqb j 1); [apply loop_scal; intros; rewrite avort_interior_u; toR; unfold Rdiv; ring|apply avort_interior_u].
    Qed.
    Lemma zmav_u j k : zmav nlon nlat (l * a) (c * om) lat u' v' j k = c * zmav nlon nlat a om lat u v j k.
    Proof. unfold zmav. apply loop_scal. intros; rewrite avort_u; toR; unfold Rdiv; ring. Qed.
  End Vort.
  Variable height : nat -> R.
  Notation ht' := (fun k => l * height k).
  Notation th' := (scale3 kt th).
  Lemma stretch_u tp tm sp sm f i j k : stretch (l * h) ht' th' (kt * tp) (kt * tm) (/ l * kt * sp) (/ l * kt * sm) (c * f) i j k = c * stretch h height th tp tm sp sm f i j k.
  Proof.
    unfold stretch. cbv zeta. unfold scale3. toR. rewrite !ratio_neg by assumption.
    replace (l * height (k + 1)%nat - l * height (k - 1)%nat) with (l * (height (k + 1)%nat - height (k - 1)%nat)) by ring. un c l kt.
  Qed.
  Lemma qgpv_nh18_u t0 st i j k :
    qgpv_nh18 nlon nlat kmax (l * a) (c * om) (l * h) ht' u' v' th' (fun k => kt * t0 k) (fun k => / l * kt * st k) i j k = c * qgpv_nh18 nlon nlat kmax a om h height u v th t0 st i j k.
  Proof. unfold qgpv_nh18. rewrite avort_u, zmav_u, stretch_u. destruct (_ && _); toR; [|ring]. rewrite ratio by assumption. ring. Qed.
  Lemma qgpv_nhn22_u jd ts tn ss sn i j k :
    qgpv_nhn22 nlon nlat kmax (l * a) (c * om) (l * h) ht' jd u' v' th' (fun k => kt * ts k) (fun k => kt * tn k) (fun k => / l * kt * ss k) (fun k => / l * kt * sn k) i j k
    = c * qgpv_nhn22 nlon nlat kmax a om h height jd u v th ts tn ss sn i j k.
  Proof.
    unfold qgpv_nhn22. rewrite avort_u. destruct (_ && _); toR; [|ring]. cbv zeta. rewrite ratio by assumption.
    replace (2 * (c * om) * sin (lat_nhn22 nlat j 1)) with (c * (2 * om * sin (lat_nhn22 nlat j 1))) by ring.
    destruct (Nat.leb j jd); rewrite stretch_u; ring.
  Qed.
End QgpvUnits.

Definition flux_units (c l kt : R) (D : fluxdims R) : fluxdims R :=
  {| imax := imax D; jmax := jmax D; kmax := kmax D; nd := nd D; jb := jb D; jd := jd D; is_nhem := is_nhem D;
     f_a := l * f_a D; f_om := c * f_om D; f_dz := l * f_dz D; f_h := l * f_h D; f_rr := l * l * c * c * / kt * f_rr D; f_cp := l * l * c * c * / kt * f_cp D; f_prefac := l * f_prefac D |}.

Section FluxUnits.
  Variables c l kt : R.
  Hypothesis Hc : 0 < c.
  Hypothesis Hl : 0 < l.
  Hypothesis Ht : 0 < kt.
  Let c0 : c <> 0. Proof. lra. Qed.
  Let l0 : l <> 0. Proof. lra. Qed.
  Let k0 : kt <> 0. Proof. lra. Qed.
  Let lc : 0 < l * c. Proof. nra. Qed.
  Let pos4 : l * l * c * c * / kt <> 0. Proof. assert (I := Rinv_0_lt_compat kt Ht). apply Rgt_not_eq. repeat apply Rmult_lt_0_compat; assumption. Qed.
  Variable D : fluxdims R.
  Notation D' := (flux_units c l kt D).
  Ltac pj := cbn [flux_units imax jmax kmax nd jb jd is_nhem f_a f_om f_dz f_h f_rr f_cp f_prefac].
  Variables (pv uu vv pt nc : arr3 R) (qref uref tref : arr2 R) (t0 : nat -> R).
  Notation pv' := (scale3 c pv).
  Notation uu' := (scale3 (l * c) uu).
  Notation vv' := (scale3 (l * c) vv).
  Notation nc' := (scale3 (c * c) nc).
  Notation qref' := (scale2 c qref).
  Notation uref' := (scale2 (l * c) uref).

  Lemma qe_u i j k jj : qe D' pv' qref' i j k jj = c * qe D pv qref i j k jj.
  Proof. unfold qe, scale3, scale2. change (grow D' jj) with (grow D jj). toR. ring. Qed.
  Lemma rd2_u q d (x : arr2 R) j k : rd2 d (scale2 q x) j k = q * rd2 d x j k.
  Proof. reflexivity. Qed.
  Lemma ue_u i j k jj : ue D' uu' uref' i j k jj = l * c * ue D uu uref i j k jj.
  Proof.
    unfold ue. pj. rewrite rd2_u. unfold scale3. change (grow D' jj) with (grow D jj). change (uref_row D' j) with (uref_row D j).
    change (lat_of D' j 1) with (lat_of D j 1). change (lat_of D' jj 1) with (lat_of D jj 1). toR. ring.
  Qed.
  Lemma aa_u jj : aa D' jj = l * aa D jj.
  Proof. unfold aa. pj. change (lat_of D' jj 1) with (lat_of D jj 1). change (Flux.dp D') with (Flux.dp D). toR. ring. Qed.
  Lemma ab_u : ab D' = l * ab D.
  Proof. unfold ab. pj. change (Flux.dp D') with (Flux.dp D). toR. ring. Qed.
  Lemma below_u i j k jj : below D' pv' qref' i j k jj = below D pv qref i j k jj.
  Proof. unfold below. rewrite qe_u. toR. rewrite Rleb_pos0 by assumption. reflexivity. Qed.
  Lemma above_u i j k jj : above D' pv' qref' i j k jj = above D pv qref i j k jj.
  Proof. unfold above. rewrite qe_u. toR. rewrite Rltb_pos0 by assumption. reflexivity. Qed.
  Lemma sum_below_u i j k : sum_below D' pv' qref' i j k = l * c * sum_below D pv qref i j k.
  Proof. unfold sum_below. pj. apply loop_scal. intros jj s. rewrite below_u, qe_u, aa_u. destruct (below _ _ _ _ _ _ _); toR; ring. Qed.
  Lemma sum_above_u i j k : sum_above D' pv' qref' i j k = l * c * sum_above D pv qref i j k.
  Proof. unfold sum_above. pj. apply loop_scal. intros jj s. rewrite above_u, qe_u, aa_u. destruct (above _ _ _ _ _ _ _); toR; ring. Qed.
  Lemma sum_ncforce_u i j k : sum_ncforce D' pv' nc' qref' i j k = l * c * c * sum_ncforce D pv nc qref i j k.
  Proof.
    unfold sum_ncforce. pj. apply loop_scal. intros jj s. cbv zeta. rewrite above_u, below_u, aa_u. unfold scale3. change (grow D' jj) with (grow D jj).
    destruct (above _ _ _ _ _ _ _), (below _ _ _ _ _ _ _); toR; ring.
  Qed.
  Lemma sum_ua2_u i j k : sum_ua2 D' pv' uu' qref' uref' i j k = l * l * c * c * sum_ua2 D pv uu qref uref i j k.
  Proof.
    unfold sum_ua2. pj. apply loop_scal. intros jj s. cbv zeta. rewrite above_u, below_u, qe_u, ue_u, ab_u.
    destruct (above _ _ _ _ _ _ _), (below _ _ _ _ _ _ _); toR; ring.
  Qed.
  Lemma fill_u q (f g : arr3 R) : (forall i j k, g i j k = q * f i j k) -> fill D' g = scale3 q (fill D f).
  Proof.
    intros H. extensionality i. extensionality j. extensionality k. unfold fill, scale3. change (analysed D' j k) with (analysed D j k).
    destruct (analysed D j k); [apply H|toR; ring].
  Qed.
  Lemma astar1_u : astar1 D' pv' qref' = scale3 (l * c) (astar1 D pv qref).
  Proof. unfold astar1. pj. apply fill_u. intros. destruct (is_nhem D); [apply sum_above_u|apply sum_below_u]. Qed.
  Lemma astar2_u : astar2 D' pv' qref' = scale3 (l * c) (astar2 D pv qref).
  Proof. unfold astar2. pj. apply fill_u. intros. destruct (is_nhem D); [apply sum_below_u|apply sum_above_u]. Qed.
  Lemma ncforce3d_u : ncforce3d D' pv' nc' qref' = scale3 (l * c * c) (ncforce3d D pv nc qref).
  Proof. apply fill_u. intros. apply sum_ncforce_u. Qed.
  Lemma ua2_u : ua2 D' pv' uu' qref' uref' = scale3 (l * l * c * c) (ua2 D pv uu qref uref).
  Proof. apply fill_u. intros. apply sum_ua2_u. Qed.
  Lemma ua1_u : ua1 D' pv' qref' uref' = scale3 (l * l * c * c) (ua1 D pv qref uref).
  Proof. apply fill_u. intros. rewrite astar1_u, astar2_u. pj. rewrite rd2_u. unfold scale3. change (uref_row D' j) with (uref_row D j). toR. ring. Qed.
  Lemma ep1_u : ep1 D' uu' vv' (scale3 kt pt) (scale1 kt t0) uref' (scale2 kt tref) = scale3 (l * l * c * c) (ep1 D uu vv pt t0 uref tref).
  Proof.
    apply fill_u. intros. cbv zeta. pj. rewrite !rd2_u. unfold scale3, scale1, scale2, nsq. change (grow D' j) with (grow D j). change (uref_row D' j) with (uref_row D j). change (lat_of D' j 1) with (lat_of D j 1). toR.
    set (kap := f_rr D / f_cp D). replace (l * l * c * c * / kt * f_rr D / (l * l * c * c * / kt * f_cp D)) with kap by (symmetry; apply ratio, pos4).
    replace (- kap * (l * f_dz D * nfloat k 1)) with (- (l * (kap * (f_dz D * nfloat k 1)))) by ring.
    replace (- kap * (f_dz D * nfloat k 1)) with (- (kap * (f_dz D * nfloat k 1))) by ring. rewrite ratio_neg by assumption.
    replace (kt * t0 (k + 1)%nat - kt * t0 (k - 1)%nat) with (kt * (t0 (k + 1)%nat - t0 (k - 1)%nat)) by ring. un c l kt.
  Qed.
  Lemma put_u q (ws ws' : list (nat * R)) p : ws' = map (fun w => (fst w, q * snd w)) ws -> put ws' (fun _ => 0) p = q * put ws (fun _ => 0) p.
  Proof.
    intros ->. unfold put. enough (H : forall m, fold_left (fun m w p => if Nat.eqb p (fst w) then snd w else m p) (map (fun w => (fst w, q * snd w)) ws) (scale1 q m)
      = scale1 q (fold_left (fun m w p => if Nat.eqb p (fst w) then snd w else m p) ws m)).
    { specialize (H (fun _ => 0)). replace (scale1 q (fun _ : nat => 0)) with (fun _ : nat => 0) in H by (extensionality j; unfold scale1; ring). rewrite H. reflexivity. }
    induction ws as [|[a x] ws IH]; intros m; cbn [map fold_left fst snd]; [reflexivity|]. rewrite <- IH. f_equal. extensionality j. unfold scale1. destruct (Nat.eqb _ _); reflexivity.
  Qed.
  Lemma do_map {T} (f : T -> T) lo hi (b b' : nat -> list T) : (forall k, b' k = map f (b k)) -> do_ lo hi b' = map f (do_ lo hi b).
  Proof. intros H. unfold do_. induction (range lo hi) as [|x xs IH]; cbn [flat_map]; [reflexivity|]. rewrite map_app, IH, H. reflexivity. Qed.
  Lemma mflux_u i r k x y : mflux uu' vv' i r k (l * c * x) y = l * l * c * c * mflux uu vv i r k x y.
  Proof. unfold mflux, scale3. toR. ring. Qed.
  Lemma ep2_u : ep2 D' uu' vv' uref' = scale3 (l * l * c * c) (ep2 D uu vv uref).
  Proof.
    extensionality i. extensionality j. extensionality k. unfold ep2, scale3 at 3. pj. apply put_u. unfold ep2_writes. pj. change (jstart D') with (jstart D). change (jend D') with (jend D).
    apply do_map. intros k'. apply do_map. intros i'. rewrite map_app. f_equal; [|cbn [map fst snd]; rewrite rd2_u, mflux_u; reflexivity].
    apply do_map. intros j'. cbn [map fst snd]. rewrite rd2_u, mflux_u. reflexivity.
  Qed.
  Lemma ep3_u : ep3 D' uu' vv' uref' = scale3 (l * l * c * c) (ep3 D uu vv uref).
  Proof.
    extensionality i. extensionality j. extensionality k. unfold ep3, scale3 at 3. pj. apply put_u. unfold ep3_writes. pj. change (jstart D') with (jstart D). change (jend D') with (jend D).
    apply do_map. intros k'. apply do_map. intros i'. rewrite map_app. f_equal; [|cbn [map fst snd]; rewrite rd2_u, mflux_u; reflexivity].
    apply do_map. intros j'. cbn [map fst snd]. rewrite rd2_u, mflux_u. reflexivity.
  Qed.
  Lemma ep4_u : ep4 D' vv' (scale3 kt pt) (scale1 kt t0) (scale2 kt tref) = scale2 (l * c * c) (ep4 D vv pt t0 tref).
  Proof.
    extensionality i. extensionality j. unfold ep4, scale2. change (analysed D' j 2) with (analysed D j 2). destruct (analysed D j 2); toR; [|ring]. cbv zeta. pj. unfold scale3, scale1, rd2.
    replace (kt * t0 3%nat - kt * t0 1%nat) with (kt * (t0 3%nat - t0 1%nat)) by ring. replace (kt * t0 2%nat - kt * t0 1%nat) with (kt * (t0 2%nat - t0 1%nat)) by ring.
    change (grow D' j) with (grow D j). change (uref_row D' j) with (uref_row D j). change (lat_of D' j 1) with (lat_of D j 1). rewrite ratio_neg by assumption. un c l kt.
  Qed.
  Lemma column_average_u q ht (x : arr3 R) : column_average D' (scale1 l ht) (scale3 q x) = scale2 q (column_average D ht x).
  Proof.
    extensionality i. extensionality j. unfold column_average, vertical_average, scale2. pj. apply nsum_scal. intros k. unfold scale3, scale1. toR. rewrite ratio_neg, ratio by assumption. ring.
  Qed.
End FluxUnits.
