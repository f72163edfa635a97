(** Proofs about whole objects: reading from northern-only objects; the two modes agree. *)
From Verif Require Import Base BaseFacts Spec SpecFacts Grid GridSpec GridProofs Pipeline PipelineSpec PipelineProofs RefStates RefStatesProofs5 DirInv Object ObjectSpec ObjectProofs ObjectProofs2.
From Coq Require Import ZifyNat FunctionalExtensionality.
Ltac Zify.zify_post_hook ::= Z.to_euclidean_division_equations.
Open Scope R_scope.

(** the interpolation above node h only needs the nodes above it *)
Lemma interp_upper m h (x : nat -> R) (y y' : nat -> R) v : (h + 2 < m + 0)%nat -> ascending m x -> x (h + 1)%nat <= v ->
  (forall j, (1 <= j)%nat -> (h + j < m)%nat -> y' j = y (h + j)%nat) ->
  interp1d (m - h) (fun j => x (h + j)%nat) y' v = interp1d m x y v.
Proof.
  intros Hm Asc Hv H. assert (Asc' : ascending (m - h) (fun j => x (h + j)%nat)) by (intros a b Hab; apply Asc; lia).
  destruct (Rle_lt_or_eq_dec _ _ Hv) as [Hlt|<-].
  - destruct (searchsorted_split m x v Asc) as [L1 S1]. destruct (searchsorted_split (m - h) _ v Asc') as [L2 S2].
    unfold interp1d. set (a := searchsorted m x v) in *. set (b := searchsorted (m - h) (fun j => x (h + j)%nat) v) in *. cbv zeta.
    assert (A2 : (h + 2 <= a)%nat) by (assert (Q := proj2 (S1 (h + 1)%nat ltac:(lia)) Hlt); lia).
    assert (E : b = (a - h)%nat).
    { destruct (Nat.lt_total b (a - h)) as [C|[C|C]]; [|exact C|].
      - assert (W := proj1 (S1 (h + b)%nat ltac:(lia)) ltac:(lia)). apply S2 in W; lia.
      - assert (W := proj1 (S2 (a - h)%nat ltac:(lia)) C). replace (h + (a - h))%nat with a in W by lia. apply S1 in W; lia. }
    rewrite E. set (t := Nat.min (Nat.max a 1) (m - 1)). set (t' := Nat.min (Nat.max (a - h) 1) (m - h - 1)).
    assert (Et : t' = (t - h)%nat) by lia. assert (B : (h + 2 <= t < m)%nat) by lia. rewrite Et. rewrite !H by lia.
    replace (h + (t - h))%nat with t by lia. replace (h + (t - h - 1))%nat with (t - 1)%nat by lia. reflexivity.
  - rewrite (interp1d_node m x y) by (assumption || lia). assert (N := interp1d_node (m - h) (fun j => x (h + j)%nat) y' 1 ltac:(lia) Asc' ltac:(lia)). cbv beta in N. rewrite N. apply H; lia.
Qed.

(** ** reading from a northern-only object *)
Definition north_column (w : qgargs) (x : nat -> R) (row : nat) : R :=
  if Nat.even (w_nlat w) then interp1d (w_nlat w / 2 + 1) (fun j => linspace_lat (w_nlat w) (w_nlat w / 2 + j)) x (w_ylat w (w_nlat w / 2 + row)) else x row.
Section North.
  Variables (k : class) (w : qgargs) (g : grid).
  Hypothesis U : usable k w.
  Hypothesis Hg : grid_of w = Done g.
  Hypothesis NT : w_nh w = true.
  Local Notation o := (object_of k w g).
  Local Notation c := (ob_conf o).
  Local Notation n := (w_nlat w).
  Lemma back_north x : back w o (n / 2 + 1) x = Done (north_column w x).
  Proof.
    unfold back, return_interp, north_column, interp1d_checked. cbn [object_of ob_grid]. destruct (lat_facts k w g U Hg) as (L1 & L2 & _ & L3 & _). rewrite L1, L2, NT.
    assert (P := parity w). unfold analysis_rows. destruct (Nat.even n) eqn:E; [|reflexivity]. rewrite (L3 eq_refl).
    replace ((n + 1) / 2)%nat with (n / 2)%nat by lia. rewrite Nat.eqb_refl. f_equal. extensionality row.
    replace (n + 1 - (n / 2 + 1))%nat with (n / 2)%nat by lia. replace (n - n / 2)%nat with (n / 2)%nat by lia. reflexivity.
  Qed.
  Lemma rows_north : rows c = (n / 2 + 1)%nat.
  Proof. rewrite (rows_facts k w g U Hg), NT. reflexivity. Qed.
  Lemma read_map_north y : read_map w o (n / 2 + 1) y = Done (fun row i => north_column w (fun r => y (i + 1)%nat (r + 1)%nat) row).
  Proof. unfold read_map, each. rewrite back_north. f_equal. extensionality row. extensionality i. rewrite back_north. reflexivity. Qed.
  Lemma read_profile_north y : read_profile w o (n / 2 + 1) y = Done (fun l row => north_column w (fun r => y (r + 1)%nat (l + 1)%nat) row).
  Proof. unfold read_profile, each. rewrite back_north. f_equal. extensionality l. extensionality row. rewrite back_north. reflexivity. Qed.
  Lemma read_field_north y : read_field w o (n / 2 + 1) y = Done (fun l row i => north_column w (fun r => y (i + 1)%nat (r + 1)%nat (l + 1)%nat) row).
  Proof. unfold read_field. rewrite read_map_north. f_equal. extensionality l. extensionality row. extensionality i. rewrite read_map_north. reflexivity. Qed.
End North.

(** ** the two modes *)
Section Modes.
  Variables (k : class) (w : qgargs) (g1 g0 : grid).
  Local Notation w1 := (with_mode w true).
  Local Notation w0 := (with_mode w false).
  Hypothesis U : usable k w.
  Hypothesis H1 : grid_of w1 = Done g1.
  Hypothesis H0 : grid_of w0 = Done g0.
  Hypothesis Sym : symmetric_latitudes w.
  Local Notation o1 := (object_of k w1 g1).
  Local Notation o0 := (object_of k w0 g0).
  Local Notation c := (ob_conf o0).
  Local Notation n := (w_nlat w).

  Lemma other_mode : g1 = {| g_kmax := g_kmax g0; g_height := g_height g0; g_dz := g_dz g0; g_nlev := g_nlev g0; g_nlat := g_nlat g0; g_nlon := g_nlon g0;
     g_input_ylat := g_input_ylat g0; g_lat := g_lat g0; g_jd := g_jd g0; g_dphi := g_dphi g0; g_dlambda := g_dlambda g0; g_npart := g_npart g0; g_nh := true; g_prefactor := g_prefactor g0; g_H := g_H g0 |}.
  Proof.
    clear -H1 H0. unfold grid_of, qg_init in *. cbn [with_mode w_nlev w_nlat w_nlon w_ylat w_plev w_kmax w_dz w_npart w_H w_nh w_evenly] in *.
    repeat match type of H0 with context [match ?x with _ => _ end] => destruct x; try discriminate end; injection H0 as <-; injection H1 as <-; reflexivity.
  Qed.
  Lemma conf1 : ob_conf o1 = with_flag c true. Proof. rewrite other_mode. destruct (grid_inv w0 g0 H0) as (_ & _ & _ & _ & _ & E & _). reflexivity. Qed.
  Lemma conf0 : c = with_flag c false. Proof. destruct (grid_inv w0 g0 H0) as (_ & _ & _ & _ & _ & E & _). unfold with_flag. cbn [object_of ob_conf conf_of p_nlon p_nlat p_kmax p_eq p_jb p_jd p_a p_om p_dz p_h p_rr p_cp p_prefac p_dphi p_dlambda p_tol p_height p_ylat p_clat]. unfold conf_of. rewrite E. reflexivity. Qed.

  Lemma column_modes (x1 x0 : nat -> R) row : (row < northern_rows w)%nat -> away w (n / 2 + row) ->
    (forall r, (1 <= r)%nat -> (r < n / 2 + 1)%nat -> x1 r = x0 (n / 2 + r)%nat) -> north_column w1 x1 row = column w0 x0 (n / 2 + row)%nat.
  Proof.
    intros Hr Ha H. unfold north_column, column, northern_rows, result_rows, away in *. cbn [with_mode w_nlat w_ylat w_nh] in *. assert (Asc := balanced_ascending n (w_ylat w) (proj1 U)). destruct U as ((N & B) & _). assert (P := parity w).
    destruct (Nat.even n) eqn:E.
    - assert (PN : 0 < INR n) by (apply lt_0_INR; lia).
      assert (EQ : INR n = 2 * INR (n / 2)) by (rewrite P at 1; rewrite mult_INR; cbn [INR]; ring).
      assert (PH : 0 < INR (n / 2)) by (apply lt_0_INR; lia).
      replace (n / 2 + 1)%nat with (n + 1 - n / 2)%nat at 1 by lia. apply interp_upper; [lia|apply linspace_ascending; lia| |intros j J1 J2; apply H; lia].
      rewrite linspace_R by lia. rewrite plus_INR. cbn [INR]. replace (-90 + (INR (n / 2) + 1) * (180 / INR n)) with (180 / INR n) by (rewrite EQ; field; lra).
      (* rows n/2 and above are in the north *)
      assert (Pos : 0 < w_ylat w (n / 2 + row)%nat).
      { assert (S1 := Sym (n / 2 + row)%nat ltac:(lia)). assert (A := Asc (n - 1 - (n / 2 + row))%nat (n / 2 + row)%nat ltac:(lia)). lra. }
      unfold Rabs in Ha. destruct Rcase_abs; lra.
    - apply H; [|lia]. destruct row; [exfalso; apply Ha; rewrite Nat.add_0_r; destruct B as [_ [[B _]|[_ B]]]; [congruence|exact B]|lia].
  Qed.
  (** reading *)
  Lemma shape0 : p_nlon c = w_nlon w /\ p_kmax c = result_levels w /\ p_eq c = (n / 2 + 1)%nat /\ p_nlat c = analysis_rows w.
  Proof. destruct (conf_facts k w0 g0 U H0) as (C1 & C2 & C3 & C4 & _). repeat split; assumption. Qed.
  Lemma read_map_modes (y1 y0 : arr2 R) : same_north2 c y1 y0 -> both (same_map w) (read_map w1 o1 (n / 2 + 1) y1) (read_map w0 o0 (analysis_rows w) y0).
  Proof.
    intros H. destruct shape0 as (C1 & C3 & C4 & _).
    assert (E1 := read_map_north k w1 g1 U H1 eq_refl y1). cbn [with_mode w_nlat] in E1. rewrite E1.
    assert (E0 := read_map_global k w0 g0 U H0 eq_refl y0). change (analysis_rows w0) with (analysis_rows w) in E0. rewrite E0. unfold both.
    intros r i Hr Hi Ha. apply column_modes; [exact Hr|exact Ha|]. intros j J1 J2. rewrite H by (unfold lon_ok; rewrite ?C1, ?C4; lia). rewrite C4. f_equal. lia.
  Qed.
  Lemma read_field_modes (y1 y0 : arr3 R) : same_north3 c y1 y0 -> both (same_field w) (read_field w1 o1 (n / 2 + 1) y1) (read_field w0 o0 (analysis_rows w) y0).
  Proof.
    intros H. destruct shape0 as (C1 & C3 & C4 & _).
    assert (E1 := read_field_north k w1 g1 U H1 eq_refl y1). cbn [with_mode w_nlat] in E1. rewrite E1.
    assert (E0 := read_field_global k w0 g0 U H0 eq_refl y0). change (analysis_rows w0) with (analysis_rows w) in E0. rewrite E0. unfold both.
    intros l r i Hl Hr Hi Ha. apply column_modes; [exact Hr|exact Ha|]. intros j J1 J2. rewrite H by (unfold lon_ok, lev_ok; rewrite ?C1, ?C3, ?C4; lia). rewrite C4. f_equal. lia.
  Qed.
  Lemma read_profile_modes (y1 y0 : arr2 R) : same_north_profile c y1 y0 -> both (same_profile_rows w) (read_profile w1 o1 (n / 2 + 1) y1) (read_profile w0 o0 (analysis_rows w) y0).
  Proof.
    intros H. destruct shape0 as (C1 & C3 & C4 & _).
    assert (E1 := read_profile_north k w1 g1 U H1 eq_refl y1). cbn [with_mode w_nlat] in E1. rewrite E1.
    assert (E0 := read_profile_global k w0 g0 U H0 eq_refl y0). change (analysis_rows w0) with (analysis_rows w) in E0. rewrite E0. unfold both.
    intros l r Hl Hr Ha. apply column_modes; [exact Hr|exact Ha|]. intros j J1 J2. rewrite H by (unfold lev_ok; rewrite ?C3, ?C4; lia). rewrite C4. f_equal. lia.
  Qed.

  Lemma symmetric_c : symmetric_grid c.
  Proof. apply (conf_symmetric k w0 g0 U H0). exact Sym. Qed.
  Variable lib : library.
  Variable nc : field3.
  Hypothesis Hk : match k with NH18 => True | NHN22 b => (1 <= b)%nat end.
  Local Notation x1 := (analyse lib k w1 o1 nc).
  Local Notation x0 := (analyse lib k w0 o0 nc).
  Lemma stores_modes : s_av x1 = s_av x0 /\ same_north_refs c (s_refs x1) (s_refs x0) /\ same_north_fluxes c (s_baro x1) (s_baro x0) /\ same_north_layers c (s_layer x1) (s_layer x0) /\
    same_north2 c (s_div x1) (s_div x0) /\ same_north2 c (s_conv x1) (s_conv x0) /\ same_north2 c (s_lambda x1) (s_lambda x0) /\ same_north2 c (s_phi x1) (s_phi x0) /\
    exists d1 d0, s_stretch x1 = Some d1 /\ s_stretch x0 = Some d0 /\
      forall i r k, lon_ok c i -> (1 <= r <= p_eq c)%nat -> lev_ok c k -> d1 i (p_eq c - 1 + r)%nat k = d0 i (p_eq c - 1 + r)%nat k.
  Proof.
    assert (G := symmetric_c). assert (E0 := conf0). assert (E1 := conf1). destruct (eq3 k w0 g0 U H0) as (Q3 & Ql & Qk).
    destruct (conf_facts k w0 g0 U H0) as (_ & _ & _ & _ & C5 & _).
    assert (Ef : interpolated w1 o1 = interpolated w0 o0) by (rewrite other_mode; reflexivity).
    assert (Ea : domain lib k w1 o1 = domain lib k w0 o0).
    { unfold domain. rewrite other_mode. destruct k; reflexivity. }
    assert (En : g_npart (ob_grid o1) = g_npart (ob_grid o0)) by (cbn [object_of ob_grid]; rewrite other_mode; reflexivity).
    unfold analyse. cbn [s_f s_av s_q s_refs s_baro s_layer s_only s_div s_conv s_lambda s_phi s_stretch].
    rewrite Ef, Ea, En, E1. set (C := ob_conf o0) in *. rewrite E0.
    change (with_flag (with_flag C false) true) with (with_flag C true).
    change (same_north_refs (with_flag C false)) with (same_north_refs C). change (same_north_fluxes (with_flag C false)) with (same_north_fluxes C).
    change (same_north_layers (with_flag C false)) with (same_north_layers C). change (same_north2 (with_flag C false)) with (same_north2 C).
    change (lon_ok (with_flag C false)) with (lon_ok C). change (lev_ok (with_flag C false)) with (lev_ok C). change (p_eq (with_flag C false)) with (p_eq C).
    change (w_maxit w1) with (w_maxit w). change (w_tol w1) with (w_tol w). change (w_rjac w1) with (w_rjac w).
    change (w_maxit w0) with (w_maxit w). change (w_tol w0) with (w_tol w). change (w_rjac w0) with (w_rjac w).
    set (av := domain lib k w0 o0) in *. set (f := interpolated w0 o0) in *. set (np := g_npart (ob_grid o0)). clearbody av f np C. clear E0 E1 Ef Ea En.
    set (q := match k with NH18 => pv_nh18 C f av | NHN22 _ => pv_nhn22 C f av end).
    change (match k with NH18 => pv_nh18 (with_flag C true) f av | NHN22 _ => pv_nhn22 (with_flag C true) f av end) with q.
    change (match k with NH18 => pv_nh18 (with_flag C false) f av | NHN22 _ => pv_nhn22 (with_flag C false) f av end) with q.
    set (r1 := match k with NH18 => refs_nh18 (with_flag C true) (nh18_solver (with_flag C true) np (w_maxit w) (w_tol w) (w_rjac w) (stat_n av) (lb_mem1 lib) (lb_mem2 lib)) q f zero_refs | NHN22 _ => refs_nhn22 (with_flag C true) (nhn22_inversion (with_flag C true) (lb_inverse lib) (tn0 av)) q (avort_nhn22 (with_flag C true) f) f av zero_refs end).
    set (r0 := match k with NH18 => refs_nh18 (with_flag C false) (nh18_solver (with_flag C false) np (w_maxit w) (w_tol w) (w_rjac w) (stat_n av) (lb_mem1 lib) (lb_mem2 lib)) q f zero_refs | NHN22 _ => refs_nhn22 (with_flag C false) (nhn22_inversion (with_flag C false) (lb_inverse lib) (tn0 av)) q (avort_nhn22 (with_flag C false) f) f av zero_refs end).
    assert (Hr : same_north_refs C r1 r0 /\ (p_jb C = 0%nat -> same_equatorial_wind C r1 r0)).
    { unfold r1, r0, q. clear r1 r0 q. destruct k as [|b]; split.
      - apply (refs_nh18_same C G); split; [|split]; intros ? ? ? ?; reflexivity.
      - intros _. apply (refs_nh18_equator C G (nh18_solver C np (w_maxit w) (w_tol w) (w_rjac w) (stat_n av) (lb_mem1 lib) (lb_mem2 lib))). intros l Hl. apply nh18_equator; assumption.
      - apply (refs_nhn22_same C G (nhn22_inversion C (lb_inverse lib) (tn0 av))); split; [|split]; intros ? ? ? ?; reflexivity.
      - intros Z. exfalso. rewrite Z in C5. cbn [boundary] in C5. lia. }
    destruct Hr as [Hr Hw]. clearbody q r1 r0.
    assert (Hb := barotropic_same C G q f (stored nc) av r1 r0 Hr Hw).
    split; [reflexivity|]. split; [exact Hr|]. split; [exact Hb|]. split; [apply (layerwise_same C G q f (stored nc) av r1 r0 Hr Hw)|].
    split; [apply (div_same C G r1 r0 Hw); exact Hb|]. split; [apply (conv_same C G r1 r0 Hw); assumption|].
    split; [apply (zflux_same C); exact Hb|]. split; [apply (phi_same C G); assumption|]. apply (stretch_same C G); assumption.
  Qed.
  Lemma unit_modes r1 r0 : same_north_profile c (qref_ r1) (qref_ r0) -> same_north_profile c (qref_correct_unit (ob_conf o1) r1) (qref_correct_unit c r0).
  Proof.
    intros H r l Hr Hl. rewrite conf1. rewrite conf0 at 2. destruct symmetric_c as (S1 & S2 & _). set (C := c) in *. clearbody C. unfold qref_correct_unit. cbn [with_flag p_nh p_om p_ylat p_nlat p_eq].
    replace (p_nlat C - p_eq C + (r - 1))%nat with (p_eq C - 1 + r - 1)%nat by lia. rewrite (H r l Hr Hl). reflexivity.
  Qed.
  Lemma read_modes : same_northern_outputs w (read w1 o1 x1) (read w0 o0 x0).
  Proof.
    destruct stores_modes as (Ea & Hr & Hb & Hl & Hd & Hc & Hlam & Hp & (d1 & d0 & D1 & D0 & Hs)).
    assert (Hun := unit_modes _ _ (proj1 Hr)). destruct Hr as (R1 & R2 & R3).
    destruct Hb as (B1 & B2 & B3 & B4 & B5 & B6 & B7 & B8 & B9 & B10 & B11 & B12). destruct Hl as (L1 & L2 & L3 & L4 & L5 & L6 & L7 & L8 & L9 & L10).
    assert (W1 := rows_north k w1 g1 U H1 eq_refl). cbn [with_mode w_nlat] in W1. assert (W0 := rows_global k w0 g0 U H0 eq_refl). change (analysis_rows w0) with (analysis_rows w) in W0.
    destruct shape0 as (C1 & C3 & C4 & C2). assert (N1 : p_nlat (ob_conf o1) = analysis_rows w) by (rewrite conf1; exact C2).
    set (y1 := analyse lib k w1 o1 nc) in *. set (y0 := analyse lib k w0 o0 nc) in *. clearbody y1 y0.
    assert (St : both (same_field w) (out_stretch (read w1 o1 y1)) (out_stretch (read w0 o0 y0))).
    { unfold read. cbn [out_stretch]. rewrite D1, D0, W1, W0, N1, C2. apply read_field_modes. intros i r l Hi Hr Hl.
      rewrite Nat.sub_diag. cbn [Nat.add]. rewrite <- (Hs i r l Hi) by (assumption || lia). f_equal. rewrite C4. assert (Q := analysis_odd w). lia. }
    unfold read in *. unfold same_northern_outputs.
    cbn [out_qgpv out_u out_v out_theta out_stat_n out_stat_s out_qref out_uref out_ptref out_f1 out_f2 out_f3 out_conv out_div out_heat out_lambda out_phi out_lwa_baro out_u_baro out_nc_baro out_lwa out_ua1 out_ua2 out_ep1 out_ep2 out_ep3 out_stretch] in *.
    rewrite W1, W0, Ea in *.
    split; [reflexivity|]. split; [reflexivity|].
    split; [apply read_profile_modes; exact Hun|]. split; [apply read_profile_modes; exact R2|]. split; [apply read_profile_modes; exact R3|].
    split; [apply read_map_modes; exact B3|]. split; [apply read_map_modes; exact B4|]. split; [apply read_map_modes; exact B5|].
    split; [apply read_map_modes; exact Hc|]. split; [apply read_map_modes; exact Hd|]. split; [apply read_map_modes; exact B8|].
    split; [apply read_map_modes; exact Hlam|]. split; [apply read_map_modes; exact Hp|].
    split; [apply read_map_modes; exact B1|]. split; [apply read_map_modes; exact B2|]. split; [apply read_map_modes; exact B11|].
    split; [apply read_field_modes; exact B12|]. split; [apply read_field_modes; exact L5|]. split; [apply read_field_modes; exact L6|].
    split; [apply read_field_modes; exact L7|]. split; [apply read_field_modes; exact L8|]. split; [apply read_field_modes; exact L9|]. exact St.
  Qed.
End Modes.
