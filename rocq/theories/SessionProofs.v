(** Proofs about sessions with their checks and about sessions that only compute wave activity. *)
From Verif Require Import Base BaseFacts Spec SpecFacts Grid GridSpec GridProofs Flux FluxSpec FluxProofs Pipeline PipelineSpec PipelineProofs RefStates RefStatesSpec RefStatesProofs RefStatesProofs4 DirInv Utilities UtilSpec
  Object ObjectSpec ObjectProofs ObjectProofs2 ObjectProofs3 ObjectProofs4 FormulaSpec FormulaProofs FormulaProofs2 FormulaProofs3 FormulaProofs4 Session SessionSpec.
From Coq Require Import ZifyNat FunctionalExtensionality.
Ltac Zify.zify_post_hook ::= Z.to_euclidean_division_equations.
Open Scope R_scope.

(** the tolerance is looked at from the second iteration on *)
Lemma iterate_from P pv uu pt stat g1 g2 fuel : forall n om u, (n <= snd (@iterate R RNum RTrunc P pv uu pt stat g1 g2 fuel n om u))%nat.
Proof.
  induction fuel as [|fuel IH]; intros n om u; cbn [iterate]; [reflexivity|]. destruct (sweep P pv uu pt stat g1 g2 n om u) as [u' an].
  destruct (Nat.ltb 1 n && nltb an _); [reflexivity|]. specialize (IH (S n) (next_omega P n om) u'). lia.
Qed.
Lemma count_from P pv uu pt stat g1 g2 : (Nat.min 2 (s_maxits P + 1) <= @rs_num_of_iter R RNum RTrunc P pv uu pt stat g1 g2)%nat.
Proof.
  unfold rs_num_of_iter, solution. destruct (s_maxits P) as [|f]; [cbn; lia|]. cbn [iterate]. destruct (sweep P pv uu pt stat g1 g2 1 none (fun _ _ => nzero)) as [u' an].
  change (Nat.ltb 1 1) with false. cbn [andb]. assert (A := iterate_from P pv uu pt stat g1 g2 f 2 (next_omega P 1 none) u'). lia.
Qed.

(** the argument ncforce plays no part in the reference states, their counts of iterations and compute_lwa_only *)
Lemma forcing_unused lib k w o nc nc' :
  s_f (analyse lib k w o nc) = s_f (analyse lib k w o nc') /\ s_av (analyse lib k w o nc) = s_av (analyse lib k w o nc') /\ s_q (analyse lib k w o nc) = s_q (analyse lib k w o nc') /\
  s_refs (analyse lib k w o nc) = s_refs (analyse lib k w o nc') /\ s_only (analyse lib k w o nc) = s_only (analyse lib k w o nc').
Proof. unfold analyse. cbv zeta. cbn [s_f s_av s_q s_refs s_only]. repeat split. Qed.
Lemma nonconvergent_forcing lib k w o nc nc' : nonconvergent lib k w o (analyse lib k w o nc) = nonconvergent lib k w o (analyse lib k w o nc').
Proof.
  destruct (forcing_unused lib k w o nc nc') as (A & B & C & _). revert A B C. generalize (analyse lib k w o nc) as x, (analyse lib k w o nc') as x'. intros x x' A B C.
  unfold nonconvergent, fails, iterations. rewrite A, B, C. reflexivity.
Qed.
Lemma read_lwa_forcing lib k w o nc nc' : read_lwa w o (analyse lib k w o nc) = read_lwa w o (analyse lib k w o nc').
Proof.
  destruct (forcing_unused lib k w o nc nc') as (_ & _ & _ & A & B). revert A B. generalize (analyse lib k w o nc) as x, (analyse lib k w o nc') as x'. intros x x' A B.
  unfold read_lwa. cbv zeta. cbn [read out_qref out_uref out_ptref]. rewrite A, B. reflexivity.
Qed.
Lemma read_qgpv_forcing lib k w o nc nc' : out_qgpv (read w o (analyse lib k w o nc)) = out_qgpv (read w o (analyse lib k w o nc')).
Proof.
  destruct (forcing_unused lib k w o nc nc') as (_ & _ & A & _). revert A. generalize (analyse lib k w o nc) as x, (analyse lib k w o nc') as x'. intros x x' A.
  cbn [read out_qgpv]. rewrite A. reflexivity.
Qed.

Section Sessions.
  Variables (lib : library) (k : class) (w : qgargs) (named raising : bool) (nc : field3).
  Lemma with_fluxes_cases : usable k w ->
    match session lib k w nc with
    | Raise e => session_with_fluxes lib k w named raising nc = Stopped (match create k w with Raise _ => Constructor | Done _ => if named then InterpolateFields else ComputeReferenceStates end) e
    | Done x => exists g, grid_of w = Done g /\ x = read w (object_of k w g) (analyse lib k w (object_of k w g) nc) /\
        session_with_fluxes lib k w named raising nc =
          if nonconvergent lib k w (object_of k w g) (analyse lib k w (object_of k w g) nc) then Stopped (if raising then ComputeReferenceStates else ComputeFluxes) ValueError else Returned x
    end.
  Proof.
    intros U. unfold session_with_fluxes, prepared. destruct (grid_of w) as [g|e] eqn:Hg.
    - rewrite (session_eq lib k w nc g Hg). rewrite create_eq, Hg. set (o := object_of k w g). cbv beta iota zeta. fold o. destruct (out_qgpv (read w o (analyse lib k w o nc))) as [q|e].
      + exists g. split; [reflexivity|]. split; [reflexivity|]. fold o. destruct (nonconvergent lib k w o (analyse lib k w o nc)) eqn:N; destruct raising; cbn [andb]; rewrite ?N; reflexivity.
      + reflexivity.
    - rewrite (session_refused lib k w nc e Hg). rewrite create_eq, Hg. reflexivity.
  Qed.
  Lemma lwa_only_cases : usable k w ->
    match session lib k w nc with
    | Raise e => session_with_lwa_only lib k w named raising = Stopped (match create k w with Raise _ => Constructor | Done _ => if named then InterpolateFields else ComputeReferenceStates end) e
    | Done x => exists g, grid_of w = Done g /\ x = read w (object_of k w g) (analyse lib k w (object_of k w g) nc) /\
        session_with_lwa_only lib k w named raising =
          if raising && nonconvergent lib k w (object_of k w g) (analyse lib k w (object_of k w g) nc) then Stopped ComputeReferenceStates ValueError
          else Returned (read_lwa w (object_of k w g) (analyse lib k w (object_of k w g) nc))
    end.
  Proof.
    intros U. unfold session_with_lwa_only, prepared. destruct (grid_of w) as [g|e] eqn:Hg.
    - rewrite (session_eq lib k w nc g Hg). rewrite create_eq, Hg. set (o := object_of k w g). cbv beta iota zeta. fold o.
      rewrite (read_qgpv_forcing lib k w o (fun _ _ _ => 0) nc), (nonconvergent_forcing lib k w o (fun _ _ _ => 0) nc).
      destruct (out_qgpv (read w o (analyse lib k w o nc))) as [q|e].
      + exists g. split; [reflexivity|]. split; [reflexivity|]. fold o. destruct (raising && nonconvergent lib k w o (analyse lib k w o nc)); [reflexivity|].
        rewrite (read_lwa_forcing lib k w o (fun _ _ _ => 0) nc). reflexivity.
      + reflexivity.
    - rewrite (session_refused lib k w nc e Hg). rewrite create_eq, Hg. reflexivity.
  Qed.
End Sessions.

Lemma nonconvergent_nhn22 lib b w o x : nonconvergent lib (NHN22 b) w o x = false.
Proof. unfold nonconvergent, fails. cbn. rewrite Bool.andb_false_r. reflexivity. Qed.
Lemma nonconvergent_nh18 lib w o x : nonconvergent lib NH18 w o x = true <-> exists north, (w_nh w = true -> north = true) /\ (w_maxit w <= iterations lib w o x north)%nat.
Proof.
  unfold nonconvergent, fails. rewrite Bool.orb_true_iff, Bool.andb_true_iff, Bool.negb_true_iff, !Nat.leb_le. split.
  - intros [A|[A B]]; [exists true|exists false]; split; auto. rewrite A. discriminate.
  - intros ([|] & A & B); [left; exact B|right]. split; [|exact B]. destruct (w_nh w); [discriminate (A eq_refl)|reflexivity].
Qed.
Lemma too_few lib w o x : (w_maxit w <= 2)%nat -> nonconvergent lib NH18 w o x = true.
Proof.
  intros H. apply nonconvergent_nh18. exists true. split; [reflexivity|]. unfold iterations. eapply Nat.le_trans; [|apply count_from]. cbn [nh18_dims s_maxits]. lia.
Qed.

(** ** compute_lwa_only against the session with fluxes *)
Section Only.
  Variables (lib : library) (k : class) (w : qgargs) (nc : field3) (g : grid).
  Hypothesis U : usable k w.
  Hypothesis Hg : grid_of w = Done g.
  Local Notation o := (object_of k w g).
  Local Notation c := (ob_conf o).
  Local Notation x := (analyse lib k w o nc).
  Local Notation D := (dims c).
  Lemma only_lwa : lo_lwa (read_lwa w o x) = out_lwa (read w o x).
  Proof.
    cbn [read_lwa read lo_lwa out_lwa]. assert (E : o_lwa (s_only x) = b_lwa3 (s_baro x)); [|rewrite E; reflexivity].
    extensionality i. extensionality j. extensionality l. apply lwa3_same.
  Qed.
  Lemma baro_scaled h0 (y : kin R) : (forall l, (l < result_levels w)%nat -> result_height w l = h0 + INR l * thickness w) ->
    forall i j, k_lwa_baro c y i j = exp (- h0 / w_H w) * lo_astarbaro D (i_pv y) (i_qref y) i j.
  Proof.
    intros Hh i j. change (w_H w) with (f_h D). rewrite <- (py_astar_baro_Sum D h0 (i_pv y) (i_qref y) i j). change (k_lwa_baro c y i j) with (@py_astar_baro R RNum D (p_height c) (i_pv y) (i_qref y) i j).
    unfold py_astar_baro. rewrite !column_average_Sum. assert (E : p_kmax c = result_levels w) by (destruct (conf_facts k w g U Hg) as (_ & _ & E & _); exact E).
    assert (A : forall (z : arr3 R), Sum 2 (kmax D + 1) (fun l => z i j l * exp (- p_height c (l - 1)%nat / f_h D) * (f_dz D / f_prefac D))
      = Sum 2 (kmax D + 1) (fun l => z i j l * exp (- (h0 + INR (l - 1) * f_dz D) / f_h D) * (f_dz D / f_prefac D))).
    { intros z. apply Sum_ext. intros l Hl. cbn [dims kmax] in Hl. rewrite E in Hl. change (p_height c) with (g_height g). rewrite (result_height_eq w g Hg). rewrite Hh by lia. cbn [dims f_dz]. rewrite (dz_odd k w g Hg). reflexivity. }
    rewrite !A. reflexivity.
  Qed.
  Lemma only_baro_stored h0 : (forall l, (l < result_levels w)%nat -> result_height w l = h0 + INR l * thickness w) ->
    b_lwa (s_baro x) = fun i j => exp (- h0 / w_H w) * o_lwa_baro (s_only x) i j.
  Proof.
    intros Hh. extensionality i. extensionality j. cbn [analyse s_baro s_only barotropic_terms lwa_only b_lwa o_lwa_baro]. unfold global2, set_shem, set_nhem.
    cbn [nzero RNum]. destruct (p_nh c); repeat destruct (Nat.leb _ _); rewrite ?(baro_scaled h0 _ Hh); cbn [north_args south_args i_pv i_qref]; ring.
  Qed.
  Lemma each_scaled m a (y : nat -> nat -> R) (f : nat -> res (nat -> R)) :
    (forall i, f i = back w o m (y i)) ->
    each (fun i => back w o m (fun r => a * y i r)) = match each f with Raise e => Raise e | Done z => Done (fun row i => a * z row i) end.
  Proof.
    intros E. assert (B : forall i, back w o m (fun r => a * y i r) = match back w o m (y i) with Raise e => Raise e | Done z => Done (fun row => a * z row) end).
    { intros i. unfold back, return_interp, interp1d_checked. destruct (lg_need _); [|reflexivity].
      destruct (w_nh w); destruct (Nat.eqb _ _); try reflexivity; f_equal; extensionality row; apply interp1d_scal. }
    unfold each. rewrite !B, !E. destruct (back w o m (y 0%nat)) as [z|e] eqn:Z; [|reflexivity]. f_equal. extensionality row. extensionality i. rewrite B, E. destruct (back w o m (y i)); [reflexivity|ring].
  Qed.
  Lemma map_scaled m a y : read_map w o m (fun i j => a * y i j) = match read_map w o m y with Raise e => Raise e | Done z => Done (fun row i => a * z row i) end.
  Proof. unfold read_map. apply (each_scaled m a (fun i r => y (i + 1)%nat (r + 1)%nat)). reflexivity. Qed.
  Lemma only_baro h0 : (forall l, (l < result_levels w)%nat -> result_height w l = h0 + INR l * thickness w) ->
    out_lwa_baro (read w o x) = match lo_lwa_baro (read_lwa w o x) with Raise e => Raise e | Done z => Done (fun row i => exp (- h0 / w_H w) * z row i) end.
  Proof. intros Hh. cbn [read read_lwa out_lwa_baro lo_lwa_baro]. rewrite (only_baro_stored h0 Hh). apply map_scaled. Qed.

  Hypothesis Od : Nat.even (w_nlat w) = false.
  Variable t : tables.
  Hypothesis T : are_stored x c t.
  Lemma only_wind north d i (z : nat -> nat -> R) : reported w north d -> (i < w_nlon w)%nat -> lo_u_baro (read_lwa w o x) = Done z ->
    (wave_row k w d -> z (result_row w north d) i = Sum 1 (result_levels w - 1) (fun l => t_u t l (grid_row w north d) i * exp (- (INR l * thickness w) / w_H w) * thickness w)
        / (thickness w * Sum 1 (result_levels w - 1) (fun l => exp (- (INR l * thickness w) / w_H w)))) /\
    (~ wave_row k w d -> z (result_row w north d) i = 0).
  Proof.
    intros Hd Hi Hz. cbn [read_lwa lo_u_baro] in Hz. rewrite (map_odd k w g U Hg Od) in Hz. injection Hz as <-. cbn [analyse s_only lwa_only o_u_baro].
    rewrite (global2_at k w g U Hg Od) by exact Hd.
    match goal with |- context [if north then ?a else ?b] => assert (E : (if north then a else b) = lo_ubaro D (i_uu (side lib k w nc g north)) (i + 1)%nat (d + 1)%nat) by (destruct north; reflexivity) end.
    rewrite E. clear E. split.
    - intros Hw. rewrite lo_ubaro_Sum by (apply (wave_row_iff k w g U Hg Od); exact Hw). destruct (dims_odd k w g U Hg Od) as (_ & _ & -> & _). cbn [dims f_h f_dz f_prefac].
      rewrite (prefac_odd k w g Hg), (dz_odd k w g Hg). change (p_h c) with (w_H w). destruct (limits k w U) as (_ & L & _). replace (result_levels w) with (result_levels w - 1 + 1)%nat at 1 by lia. change 2%nat with (1 + 1)%nat.
      rewrite Sum_1. match goal with |- _ = ?S / ?P => generalize P; intros P0; replace (S / P0) with (/ P0 * S) by (unfold Rdiv; ring) end. rewrite <- Sum_scal.
      apply Sum_ext. intros l Hl. rewrite (field_row_odd k w g U Hg Od), (side_uu lib k w nc g U Hg Od) by (assumption || lia || apply Hd). rewrite plus_INR. cbn [INR].
      destruct T as (_ & T2 & _). rewrite T2. replace (- (INR l + 1 - 1) * thickness w / w_H w) with (- (INR l * thickness w) / w_H w) by (unfold Rdiv; ring). unfold Rdiv. ring.
    - intros Hw. apply lo_ubaro_out. rewrite (wave_row_iff k w g U Hg Od). exact Hw.
  Qed.
End Only.

(** ** what compute_lwa_only does not depend on *)
Lemma other_solver_grid w w' : same_but_solver w w' -> grid_of w = grid_of w'.
Proof. intros (A1 & A2 & A3 & A4 & A5 & A6 & A7 & A8 & A9 & A10 & A11 & A12 & A13 & A14 & A15 & A16 & A17 & A18). unfold grid_of. destruct w, w'. cbn in *. subst. reflexivity. Qed.
Lemma only_refs (c : pconf R) q f r r' : qref_ r = qref_ r' -> lwa_only c q f r = lwa_only c q f r'.
Proof. intros E. unfold lwa_only. assert (A : qref_correct_unit c r = qref_correct_unit c r') by (unfold qref_correct_unit; rewrite E; reflexivity). rewrite A. reflexivity. Qed.
Lemma nh18_qref (c : pconf R) n q f old m m' t t' j j' st st' g1 g1' g2 g2' : qref_ (refs_nh18 c (nh18_solver c n m t j st g1 g2) q f old) = qref_ (refs_nh18 c (nh18_solver c n m' t' j' st' g1' g2') q f old).
Proof.
  assert (E : forall pv uu pt, qref_ (nh18_solver c n m t j st g1 g2 pv uu pt) = qref_ (nh18_solver c n m' t' j' st' g1' g2' pv uu pt)) by reflexivity.
  unfold refs_nh18. cbv zeta. generalize dependent (nh18_solver c n m t j st g1 g2). generalize dependent (nh18_solver c n m' t' j' st' g1' g2'). intros s' s E.
  unfold store_south, store_north. destruct (p_nh c); cbn [qref_]; rewrite ?E; reflexivity.
Qed.
Lemma nhn22_qref (c : pconf R) i i' q av f a old : qref_ (refs_nhn22 c (nhn22_inversion c i (tn0 a)) q av f a old) = qref_ (refs_nhn22 c (nhn22_inversion c i' (tn0 a)) q av f a old).
Proof.
  assert (E : forall pv uu vo pt t0 st, qref_ (nhn22_inversion c i (tn0 a) pv uu vo pt t0 st) = qref_ (nhn22_inversion c i' (tn0 a) pv uu vo pt t0 st)) by reflexivity.
  unfold refs_nhn22. cbv zeta. generalize dependent (nhn22_inversion c i (tn0 a)). generalize dependent (nhn22_inversion c i' (tn0 a)). intros s' s E.
  unfold store_south, store_north. destruct (p_nh c); cbn [qref_]; rewrite ?E; reflexivity.
Qed.
Definition solver_args (w : qgargs) (m : nat) (tol rjac : R) : qgargs :=
  {| w_nlon := w_nlon w; w_nlat := w_nlat w; w_nlev := w_nlev w; w_ylat := w_ylat w; w_plev := w_plev w; w_u := w_u w; w_v := w_v w; w_t := w_t w;
     w_kmax := w_kmax w; w_maxit := m; w_dz := w_dz w; w_npart := w_npart w; w_tol := tol; w_rjac := rjac;
     w_H := w_H w; w_cp := w_cp w; w_rr := w_rr w; w_om := w_om w; w_a := w_a w; w_nh := w_nh w; w_evenly := w_evenly w |}.
Lemma solver_args_eq w w' : same_but_solver w w' -> w' = solver_args w (w_maxit w') (w_tol w') (w_rjac w').
Proof.
  intros (A1 & A2 & A3 & A4 & A5 & A6 & A7 & A8 & A9 & A10 & A11 & A12 & A13 & A14 & A15 & A16 & A17 & A18). unfold solver_args. rewrite A1, A2, A3, A4, A5, A6, A7, A8, A9, A10, A11, A12, A13, A14, A15, A16, A17, A18. destruct w'. reflexivity.
Qed.
Lemma other_qref lib lib' k w m tol rjac g nc : lb_spline lib = lb_spline lib' -> lb_dspline lib = lb_dspline lib' ->
  let w' := solver_args w m tol rjac in
  qref_ (s_refs (analyse lib k w (object_of k w g) nc)) = qref_ (s_refs (analyse lib' k w' (object_of k w' g) nc)) /\
  s_only (analyse lib k w (object_of k w g) nc) = s_only (analyse lib' k w' (object_of k w' g) nc).
Proof.
  intros L1 L2 w'. assert (O : object_of k w' g = object_of k w g) by reflexivity. rewrite O. clear O. set (o := object_of k w g).
  assert (A : domain lib' k w' o = domain lib k w o) by (unfold domain; rewrite <- L1, <- L2; reflexivity).
  assert (F : interpolated w' o = interpolated w o) by reflexivity. unfold analyse. cbv zeta. cbn [s_refs s_only]. rewrite A, F. clear A F.
  set (f := interpolated w o). set (av := domain lib k w o). clearbody f av.
  destruct k as [|b]; (split; [|apply only_refs]).
  1,2: apply nh18_qref. all: apply nhn22_qref.
Qed.
Lemma other_solver lib lib' k w m tol rjac g nc : lb_spline lib = lb_spline lib' -> lb_dspline lib = lb_dspline lib' ->
  let w' := solver_args w m tol rjac in
  let x := read_lwa w (object_of k w g) (analyse lib k w (object_of k w g) nc) in let x' := read_lwa w' (object_of k w' g) (analyse lib' k w' (object_of k w' g) nc) in
  lo_qref x = lo_qref x' /\ lo_lwa x = lo_lwa x' /\ lo_lwa_baro x = lo_lwa_baro x' /\ lo_u_baro x = lo_u_baro x'.
Proof.
  intros L1 L2 w'. destruct (other_qref lib lib' k w m tol rjac g nc L1 L2) as [A B]. fold w' in A, B. revert A B.
  generalize (analyse lib k w (object_of k w g) nc) as x, (analyse lib' k w' (object_of k w' g) nc) as x'. assert (O : object_of k w' g = object_of k w g) by reflexivity. rewrite O. clear O. generalize (object_of k w g) as o.
  intros o x x' A B. cbv zeta. cbn [read_lwa lo_qref lo_lwa lo_lwa_baro lo_u_baro read out_qref]. rewrite B. unfold qref_correct_unit. rewrite A. repeat split; reflexivity.
Qed.

(** ** the stability used for the forcing of a heating rate *)
Lemma stability_rows lib k w g (U : usable k w) (Hg : grid_of w = Done g) (Od : Nat.even (w_nlat w) = false) north d m : (d <= half w)%nat ->
  stability_temp (p_eq (ob_conf (object_of k w g))) (stat_n (domain lib k w (object_of k w g))) (stat_s (domain lib k w (object_of k w g))) m (grid_row w north d) = stability k w lib north d m.
Proof.
  intros H1. destruct (sizes_odd k w g U Hg Od) as (_ & _ & _ & -> & _).
  assert (M : stat_n (domain lib k w (object_of k w g)) m = t_slope k w lib true m /\ stat_s (domain lib k w (object_of k w g)) m = t_slope k w lib false m).
  { destruct (mean_of_odd k w g U Hg Od) as [Ms Mn]. assert (Hh := result_height_eq w g Hg). unfold domain, t_slope, smooth, domain_nh18, domain_nhn22. cbv zeta. cbn [object_of ob_grid]. change (ob_theta (object_of k w g)) with (ob_theta (object_of k w g)). rewrite Hh.
    destruct k; cbn [averages_nh18 averages_nhn22 stat_n stat_s]; toR; rewrite ?nhalf_half, Ms, Mn; split; unfold Rdiv; rewrite ?Rmult_1_l; reflexivity. }
  destruct M as [M1 M2]. unfold stability_temp, stability. rewrite M1, M2. toR. replace (half w + 1 - 1)%nat with (half w) by lia. unfold grid_row. destruct north.
  - destruct (Nat.ltb_spec (half w + d) (half w)); [lia|]. destruct (Nat.eqb_spec (half w + d) (half w)), (Nat.eqb_spec d 0); try lia; lra.
  - destruct (Nat.ltb_spec (half w - d) (half w)), (Nat.eqb_spec (half w - d) (half w)), (Nat.eqb_spec d 0); try lia; lra.
Qed.
