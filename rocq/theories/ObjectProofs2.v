(** Proofs about whole objects: mirror images on the user's latitudes. *)
From Verif Require Import Base BaseFacts Spec SpecFacts Grid GridSpec GridProofs Pipeline PipelineSpec RefStates RefStatesProofs5 DirInv MirrorSpec MirrorProofs Object ObjectSpec ObjectProofs RotateSpec.
From Coq Require Import ZifyNat FunctionalExtensionality.
Ltac Zify.zify_post_hook ::= Z.to_euclidean_division_equations.
Open Scope R_scope.

(** ** linear interpolation on a symmetric axis *)
Section Interp.
  Variables (m : nat) (x : nat -> R).
  Hypothesis Hm : (2 <= m)%nat.
  Hypothesis Asc : ascending m x.
  Hypothesis Sym : forall j, (j < m)%nat -> x (m - 1 - j)%nat = - x j.

  Lemma node_dec v : (exists j, (j < m)%nat /\ x j = v) \/ (forall j, (j < m)%nat -> x j <> v).
  Proof.
    clear Asc Sym Hm. induction m as [|p IH]; [right; lia|]. destruct IH as [(j & Hj & E)|H]; [left; exists j; split; [lia|exact E]|].
    destruct (Req_dec (x p) v) as [E|E]; [left; exists p; split; [lia|exact E]|]. right. intros j Hj. destruct (Nat.eq_dec j p) as [->|]; [exact E|apply H; lia].
  Qed.
  Lemma interp_mirror (y : nat -> R) v : interp1d m x (fun j => y (m - 1 - j)%nat) (- v) = interp1d m x y v.
  Proof.
    destruct (node_dec v) as [(j & Hj & <-)|H].
    - rewrite <- Sym by exact Hj. rewrite !interp1d_node by (assumption || lia). f_equal. lia.
    - destruct (searchsorted_split m x v Asc) as [L1 S1]. destruct (searchsorted_split m x (- v) Asc) as [L2 S2].
      assert (E : searchsorted m x (- v) = (m - searchsorted m x v)%nat).
      { set (a := searchsorted m x v) in *. set (b := searchsorted m x (- v)) in *.
        assert (Q : forall i, (i < m)%nat -> ((i < b)%nat <-> (i < m - a)%nat)).
        { intros i Hi. rewrite (S2 i Hi). assert (K := S1 (m - 1 - i)%nat ltac:(lia)). rewrite Sym in K by exact Hi. assert (Z := H (m - 1 - i)%nat ltac:(lia)). rewrite Sym in Z by exact Hi.
          split; intros X.
          - destruct (Nat.lt_ge_cases (m - 1 - i) a) as [A|A]; [|lia]. apply K in A. lra.
          - assert (~ (- x i < v)) by (intros Y; apply K in Y; lia). lra. }
        destruct (Nat.lt_total b (m - a)) as [C|[C|C]]; [|exact C|].
        - assert (W := proj2 (Q b ltac:(lia)) C). lia.
        - assert (W := proj1 (Q (m - a)%nat ltac:(lia)) C). lia. }
      unfold interp1d. rewrite E. set (a := searchsorted m x v) in *. cbv zeta.
      set (h := Nat.min (Nat.max a 1) (m - 1)). set (h' := Nat.min (Nat.max (m - a) 1) (m - 1)).
      assert (Hh : (1 <= h < m)%nat) by lia. assert (Eh : h' = (m - h)%nat) by lia. rewrite Eh.
      replace (m - 1 - (m - h))%nat with (h - 1)%nat by lia. replace (m - 1 - (m - h - 1))%nat with h by lia.
      replace (x (m - h)%nat) with (- x (h - 1)%nat) by (rewrite <- Sym by lia; f_equal; lia).
      replace (x (m - h - 1)%nat) with (- x h) by (rewrite <- Sym by lia; f_equal; lia).
      toR. assert (P := Asc (h - 1)%nat h ltac:(lia)). field. repeat split; lra.
  Qed.
  (** away from node p, the value there does not matter *)
  Lemma interp_skip (y y' : nat -> R) v p : (1 <= p)%nat -> (p + 1 < m)%nat -> (forall j, (j < m)%nat -> j <> p -> y' j = y j) ->
    x 0%nat <= v <= x (m - 1)%nat ->
    v <= x (p - 1)%nat \/ x (p + 1)%nat <= v -> interp1d m x y' v = interp1d m x y v.
  Proof.
    clear Sym. intros Hp Hp' H In D. destruct (node_dec v) as [(j & Hj & <-)|Nn].
    - rewrite !interp1d_node by assumption. apply H; [exact Hj|]. intros ->. assert (A1 := Asc (p - 1)%nat p ltac:(lia)). assert (A2 := Asc p (p + 1)%nat ltac:(lia)). destruct D; lra.
    - destruct (searchsorted_split m x v Asc) as [L1 S1]. unfold interp1d. set (a := searchsorted m x v) in *. cbv zeta. set (h := Nat.min (Nat.max a 1) (m - 1)).
      assert (Hh : (1 <= h < m)%nat) by lia.
      assert (B : (h <= p - 1)%nat \/ (p + 2 <= h)%nat).
      { destruct D as [D|D].
        - left. assert (~ (p - 1 < a)%nat) by (intros X; apply S1 in X; [lra|lia]).
          assert (N0 := Nn 0%nat ltac:(lia)). assert (Q := proj2 (S1 0%nat ltac:(lia)) ltac:(lra)). lia.
        - right. assert (N1 := Nn (p + 1)%nat Hp'). assert (Q := proj2 (S1 (p + 1)%nat Hp') ltac:(lra)).
          assert (Nm := Nn (m - 1)%nat ltac:(lia)). assert (~ (m - 1 < a)%nat) by (intros X; apply S1 in X; [lra|lia]). lia. }
      rewrite !H by lia. reflexivity.
  Qed.
End Interp.

(** ** reading from an object that keeps both hemispheres *)
Definition column (w : qgargs) (x : nat -> R) (row : nat) : R :=
  if Nat.even (w_nlat w) then interp1d (w_nlat w + 1) (linspace_lat (w_nlat w)) x (w_ylat w row) else x row.
Section Global.
  Variables (k : class) (w : qgargs) (g : grid).
  Hypothesis U : usable k w.
  Hypothesis Hg : grid_of w = Done g.
  Hypothesis NF : w_nh w = false.
  Local Notation o := (object_of k w g).
  Local Notation c := (ob_conf o).
  Local Notation n := (w_nlat w).

  Lemma back_global x : back w o (analysis_rows w) x = Done (column w x).
  Proof.
    unfold back, return_interp, column, interp1d_checked. cbn [object_of ob_grid]. destruct (lat_facts k w g U Hg) as (L1 & L2 & _ & L3 & _). rewrite L1, L2, NF.
    destruct (Nat.even n) eqn:E; [|reflexivity]. rewrite Nat.eqb_refl. rewrite (L3 eq_refl). unfold analysis_rows. rewrite E. reflexivity.
  Qed.
  Lemma read_map_global y : read_map w o (analysis_rows w) y = Done (fun row i => column w (fun r => y (i + 1)%nat (r + 1)%nat) row).
  Proof.
    unfold read_map, each. rewrite back_global. f_equal. extensionality row. extensionality i. rewrite back_global. reflexivity.
  Qed.
  Lemma read_profile_global y : read_profile w o (analysis_rows w) y = Done (fun l row => column w (fun r => y (r + 1)%nat (l + 1)%nat) row).
  Proof.
    unfold read_profile, each. rewrite back_global. f_equal. extensionality l. extensionality row. rewrite back_global. reflexivity.
  Qed.
  Lemma read_field_global y : read_field w o (analysis_rows w) y = Done (fun l row i => column w (fun r => y (i + 1)%nat (r + 1)%nat (l + 1)%nat) row).
  Proof.
    unfold read_field. rewrite read_map_global. f_equal. extensionality l. extensionality row. extensionality i. rewrite read_map_global. reflexivity.
  Qed.
  Lemma rows_global : rows c = analysis_rows w.
  Proof. rewrite (rows_facts k w g U Hg), NF. reflexivity. Qed.
End Global.

Section Mirrored.
  Variables (k : class) (w : qgargs) (g : grid).
  Hypothesis U : usable k w.
  Hypothesis Hg : grid_of w = Done g.
  Hypothesis NF : w_nh w = false.
  Hypothesis Sym : symmetric_latitudes w.
  Variables u' v' t' : field3.
  Local Notation w' := (with_data w u' v' t').
  Local Notation o := (object_of k w g).
  Local Notation o' := (object_of k w' g).
  Local Notation c := (ob_conf o).
  Local Notation n := (w_nlat w).
  Hypothesis Hu : mirrored_input w 1 (w_nlev w) n (w_u w) u'.
  Hypothesis Hv : mirrored_input w (-1) (w_nlev w) n (w_v w) v'.
  Hypothesis Ht : mirrored_input w 1 (w_nlev w) n (w_t w) t'.

  Lemma lin_sym j : (j < n + 1)%nat -> @linspace_lat R RNum n (n + 1 - 1 - j) = - @linspace_lat R RNum n j.
  Proof.
    intros Hj. destruct U as ((N & _) & _). assert (P : INR n <> 0) by (apply not_0_INR; lia). rewrite !linspace_R by lia.
    replace (n + 1 - 1 - j)%nat with (n - j)%nat by lia. rewrite minus_INR by lia. field. exact P.
  Qed.
  Lemma analysis_sym j : (j < analysis_rows w)%nat -> lg_ylat (g_lat g) (analysis_rows w - 1 - j)%nat = - lg_ylat (g_lat g) j.
  Proof.
    destruct (lat_facts k w g U Hg) as (_ & _ & _ & L3 & L4). unfold analysis_rows. destruct (Nat.even n); [rewrite (L3 eq_refl); apply lin_sym|rewrite (L4 eq_refl); apply Sym].
  Qed.
  Lemma conf_symmetric : symmetric_grid c.
  Proof.
    destruct (conf_facts k w g U Hg) as (C1 & C2 & C3 & C4 & C5 & C6 & _). assert (E := analysis_odd w). destruct U as ((N & _) & _ & _ & B & _).
    unfold symmetric_grid. rewrite C2, C4, C5, C6. split; [lia|]. split; [lia|]. split; [lia|]. split; [lia|].
    intros j Hj. cbn [object_of ob_conf conf_of p_ylat p_clat]. rewrite analysis_sym by exact Hj. split; [reflexivity|].
    unfold deg2rad. cbn [nmul ndiv nofZ npi RNum]. rewrite Ropp_mult_distr_l_reverse, cos_neg. reflexivity.
  Qed.
  Lemma nh_false : p_nh c = false.
  Proof. destruct (conf_facts k w g U Hg) as (_ & _ & _ & _ & _ & _ & E). rewrite E. exact NF. Qed.

  (** the data on the analysis latitudes *)
  Lemma interp1d_scal m x y sg v : interp1d m x (fun r => sg * y r) v = sg * @interp1d R RNum m x y v.
  Proof. unfold interp1d. toR. unfold Rdiv. ring. Qed.
  Lemma analysis_mirrored sg (x x' : field3) : mirrored_input w sg (w_nlev w) n x x' ->
    mirrored_input w sg (w_nlev w) (analysis_rows w) (to_analysis w (g_lat g) x) (to_analysis w' (g_lat g) x').
  Proof.
    intros H l j i Hl Hj Hi. unfold to_analysis. cbn [with_data w_nlat w_ylat]. destruct (lat_facts k w g U Hg) as (L1 & _). rewrite L1.
    destruct U as (B & _). assert (N := proj1 B).
    destruct (Nat.even n) eqn:E.
    - rewrite (interp1d_ext n (w_ylat w) (fun r => sg * x l (n - 1 - r)%nat i)) by (lia || (intros r Hr; apply H; assumption)).
      rewrite interp1d_scal. f_equal. rewrite analysis_sym by exact Hj.
      rewrite <- (interp_mirror n (w_ylat w) ltac:(lia) (balanced_ascending _ _ B) Sym (fun r => x l r i)). rewrite Ropp_involutive. reflexivity.
    - unfold analysis_rows in *. rewrite E in *. apply H; assumption.
  Qed.
  Lemma theta_mirrored : mirrored_input w 1 (w_nlev w) n (theta_data w) (theta_data w').
  Proof. intros l j i Hl Hj Hi. unfold theta_data, data_height. cbn [with_data w_t w_rr w_cp w_H w_plev]. rewrite Ht by assumption. ring. Qed.
  Lemma levels_image sg (x x' : field3) : mirrored_input w sg (w_nlev w) (analysis_rows w) x x' ->
    forall i j l, lon_ok c i -> lat_ok c j -> lev_ok c l -> stored (to_levels w' g x') i j l = sg * stored (to_levels w g x) i (opposite c j) l.
  Proof.
    intros H i j l Hi Hj Hl. destruct (conf_facts k w g U Hg) as (C1 & C2 & C3 & _). unfold lon_ok, lat_ok, lev_ok, opposite in *. rewrite C1, C2, C3 in *. unfold stored.
    replace (analysis_rows w + 1 - j - 1)%nat with (analysis_rows w - 1 - (j - 1))%nat by lia.
    unfold to_levels. cbn [with_data w_evenly]. unfold result_levels in Hl. destruct (w_evenly w).
    - apply H; lia.
    - unfold vertical_interpolation. cbn [with_data w_nlev]. change (data_height w') with (data_height w). rewrite <- interp1d_scal.
      apply interp1d_ext; [apply (grid_inv w g Hg)|]. intros r Hr. apply H; lia.
  Qed.
  Lemma fields_image : image_state c (interpolated w o) (interpolated w' o').
  Proof.
    split; [|split]; cbn [interpolated u_ v_ theta_ object_of ob_grid ob_u ob_v ob_theta with_data w_u w_v]; intros i j l Hi Hj Hl.
    - rewrite (levels_image 1 _ _ (analysis_mirrored 1 _ _ Hu)) by assumption. ring.
    - rewrite (levels_image (-1) _ _ (analysis_mirrored (-1) _ _ Hv)) by assumption. ring.
    - rewrite (levels_image 1 _ _ (analysis_mirrored 1 _ _ theta_mirrored)) by assumption. ring.
  Qed.
  Lemma domain_mirrored lib : data_only lib -> exchanged (domain lib k w o) (domain lib k w' o') /\ (k = NH18 -> domain lib k w' o' = domain lib k w o).
  Proof.
    intros (S1 & S2). assert (G := conf_symmetric). destruct (conf_facts k w g U Hg) as (C1 & C2 & _).
    assert (X : forall l, (l < w_nlev w)%nat -> t0_south c (ob_theta o' l) = t0_north c (ob_theta o l) /\ t0_north c (ob_theta o' l) = t0_south c (ob_theta o l)).
    { intros l Hl. apply (t0_image c G). intros j i Hj Hi. rewrite C1, C2 in *. assert (Y := analysis_mirrored 1 _ _ theta_mirrored l j i Hl Hj Hi). rewrite Rmult_1_l in Y. exact Y. }
    assert (F : forall (spl : nat -> (nat -> R) -> (nat -> R) -> R -> R), (forall m x y y' h, (forall l, (l < m)%nat -> y' l = y l) -> spl m x y' h = spl m x y h) ->
      (fun l => spl (w_nlev w) (data_height w) (fun l => t0_south c (ob_theta o' l)) (g_height g l)) = (fun l => spl (w_nlev w) (data_height w) (fun l => t0_north c (ob_theta o l)) (g_height g l)) /\
      (fun l => spl (w_nlev w) (data_height w) (fun l => t0_north c (ob_theta o' l)) (g_height g l)) = (fun l => spl (w_nlev w) (data_height w) (fun l => t0_south c (ob_theta o l)) (g_height g l))).
    { intros spl Sp. split; extensionality l; apply Sp; apply X. }
    destruct (F _ S1) as [A1 A2]. destruct (F _ S2) as [A3 A4]. clear F X.
    unfold domain, domain_nh18, domain_nhn22.
    change (data_height w') with (data_height w). change (w_nlev w') with (w_nlev w). change (ob_grid o') with g. change (ob_grid o) with g. change (ob_conf o') with c. cbv zeta beta.
    destruct k; rewrite A1, A2, A3, A4; unfold averages_nh18, averages_nhn22; (split; [unfold exchanged; cbn [tn0 ts0 stat_n stat_s]|intros; try discriminate]).
    - repeat split; extensionality l; f_equal; apply Rplus_comm.
    - f_equal; extensionality l; f_equal; apply Rplus_comm.
    - repeat split.
  Qed.

  (** a column of the results *)
  Lemma column_mirrored sg (x x' : nat -> R) row : (row < n)%nat -> (forall r, (r < analysis_rows w)%nat -> x' r = sg * x (analysis_rows w - 1 - r)%nat) ->
    column w x' row = sg * column w x (n - 1 - row)%nat.
  Proof.
    intros Hr H. unfold column, analysis_rows in *. destruct (Nat.even n) eqn:E; [|apply H; exact Hr].
    destruct U as (B & _). assert (N := proj1 B).
    rewrite (interp1d_ext (n + 1) _ (fun r => sg * x (n + 1 - 1 - r)%nat)) by (lia || assumption).
    rewrite interp1d_scal. f_equal. rewrite (Sym row Hr).
    rewrite <- (interp_mirror (n + 1) (linspace_lat n) ltac:(lia) (linspace_ascending n ltac:(lia)) lin_sym x). rewrite Ropp_involutive. reflexivity.
  Qed.
  Hypothesis In : forall j, (j < w_nlat w)%nat -> -90 <= w_ylat w j <= 90.
  Lemma column_away sg (x x' : nat -> R) row : (row < n)%nat -> away w row ->
    (forall r, (r < analysis_rows w)%nat -> r <> (n / 2)%nat -> x' r = sg * x (analysis_rows w - 1 - r)%nat) ->
    column w x' row = sg * column w x (n - 1 - row)%nat.
  Proof.
    intros Hr Ha H. set (z := fun r => if Nat.eqb r (n / 2) then sg * x (analysis_rows w - 1 - r)%nat else x' r).
    assert (Hz : column w x' row = column w z row).
    { unfold column, away, analysis_rows in *. destruct U as ((N & B) & _). assert (P := parity w). destruct (Nat.even n) eqn:E.
      - assert (PN : 0 < INR n) by (apply lt_0_INR; lia).
        assert (EQ : INR n = 2 * INR (n / 2)) by (rewrite P at 1; rewrite mult_INR; cbn [INR]; ring).
        apply (interp_skip (n + 1) (linspace_lat n) ltac:(lia) (linspace_ascending n ltac:(lia)) z x' (w_ylat w row) (n / 2)); try lia.
        + intros j Hj Hne. unfold z. destruct (Nat.eqb_spec j (n / 2)); [contradiction|reflexivity].
        + rewrite !linspace_R by lia. replace (n + 1 - 1)%nat with n by lia. destruct (In row Hr). cbn [INR]. replace (-90 + INR n * (180 / INR n)) with 90 by (field; lra). lra.
        + rewrite !linspace_R by lia. rewrite minus_INR, plus_INR by lia. cbn [INR].
          assert (Hh : INR (n / 2) * (180 / INR n) = 90) by (rewrite EQ; field; assert (0 < INR (n / 2)) by (apply lt_0_INR; lia); lra).
          replace (-90 + (INR (n / 2) - 1) * (180 / INR n)) with (- (180 / INR n)) by (rewrite Rmult_minus_distr_r, Hh; ring).
          replace (-90 + (INR (n / 2) + 1) * (180 / INR n)) with (180 / INR n) by (rewrite Rmult_plus_distr_r, Hh; ring).
          unfold Rabs in Ha. destruct Rcase_abs; lra.
      - unfold z. destruct (Nat.eqb_spec row (n / 2)) as [->|]; [|reflexivity]. exfalso. apply Ha. destruct B as [_ [[B _]|[_ B]]]; [congruence|exact B]. }
    rewrite Hz. apply column_mirrored; [exact Hr|]. intros r Hr'. unfold z. destruct (Nat.eqb_spec r (n / 2)); [reflexivity|apply H; assumption].
  Qed.

  (** reading arrays with known images *)
  Lemma opposite_row r : (r < analysis_rows w)%nat -> opposite c (r + 1) = (analysis_rows w - 1 - r + 1)%nat /\ lat_ok c (r + 1).
  Proof. intros H. destruct (conf_facts k w g U Hg) as (_ & C2 & _). unfold opposite, lat_ok. rewrite C2. lia. Qed.
  Lemma off_row r : (r < analysis_rows w)%nat -> r <> (n / 2)%nat -> off_equator c (r + 1).
  Proof. intros H Hn. split; [apply opposite_row; exact H|]. destruct (conf_facts k w g U Hg) as (_ & _ & _ & C4 & _). rewrite C4. lia. Qed.
  Lemma lon_in i : (i < w_nlon w)%nat -> lon_ok c (i + 1).
  Proof. intros H. destruct (conf_facts k w g U Hg) as (C1 & _). unfold lon_ok. rewrite C1. lia. Qed.
  Lemma lev_in i : (i < result_levels w)%nat -> lev_ok c (i + 1).
  Proof. intros H. destruct (conf_facts k w g U Hg) as (_ & _ & C3 & _). unfold lev_ok. rewrite C3. lia. Qed.
  Lemma read_map_image sg (y y' : arr2 R) : (forall i j, lon_ok c i -> off_equator c j -> y' i j = sg * y i (opposite c j)) ->
    both (mirrored_map w sg) (read_map w o (rows c) y) (read_map w' o' (rows c) y').
  Proof.
    intros H. rewrite (rows_global k w g U Hg NF). rewrite (read_map_global k w g U Hg NF).
    assert (E := read_map_global k w' g U Hg NF y'). change (analysis_rows w') with (analysis_rows w) in E. rewrite E. unfold both.
    intros row i Hr Hi Ha. apply column_away; [exact Hr|exact Ha|]. intros r R1 R2. rewrite H by (apply lon_in || apply off_row; assumption).
    destruct (opposite_row r R1) as [-> _]. reflexivity.
  Qed.
  Lemma read_field_image sg (y y' : arr3 R) : (forall i j l, lon_ok c i -> off_equator c j -> lev_ok c l -> y' i j l = sg * y i (opposite c j) l) ->
    both (mirrored_field w sg) (read_field w o (rows c) y) (read_field w' o' (rows c) y').
  Proof.
    intros H. rewrite (rows_global k w g U Hg NF). rewrite (read_field_global k w g U Hg NF).
    assert (E := read_field_global k w' g U Hg NF y'). change (analysis_rows w') with (analysis_rows w) in E. rewrite E. unfold both.
    intros l row i Hl Hr Hi Ha. apply column_away; [exact Hr|exact Ha|]. intros r R1 R2. rewrite H by (apply lon_in || apply lev_in || apply off_row; assumption).
    destruct (opposite_row r R1) as [-> _]. reflexivity.
  Qed.
  Lemma read_input_image sg (y y' : arr3 R) : (forall i j l, lon_ok c i -> lat_ok c j -> lev_ok c l -> y' i j l = sg * y i (opposite c j) l) ->
    both (mirrored_everywhere w sg) (read_field w o (p_nlat c) y) (read_field w' o' (p_nlat c) y').
  Proof.
    intros H. destruct (conf_facts k w g U Hg) as (_ & C2 & _). rewrite C2. rewrite (read_field_global k w g U Hg NF).
    assert (E := read_field_global k w' g U Hg NF y'). change (analysis_rows w') with (analysis_rows w) in E. rewrite E. unfold both.
    intros l row i Hl Hr Hi. apply column_mirrored; [exact Hr|]. intros r R1. destruct (opposite_row r R1) as [R2 R3]. rewrite H by (apply lon_in || apply lev_in || exact R3; assumption).
    rewrite R2. reflexivity.
  Qed.
  Lemma read_profile_image sg (y y' : arr2 R) : (forall j l, off_equator c j -> lev_ok c l -> y' j l = sg * y (opposite c j) l) ->
    both (mirrored_table w sg) (read_profile w o (rows c) y) (read_profile w' o' (rows c) y').
  Proof.
    intros H. rewrite (rows_global k w g U Hg NF). rewrite (read_profile_global k w g U Hg NF).
    assert (E := read_profile_global k w' g U Hg NF y'). change (analysis_rows w') with (analysis_rows w) in E. rewrite E. unfold both.
    intros l row Hl Hr Ha. apply column_away; [exact Hr|exact Ha|]. intros r R1 R2. rewrite H by (apply lev_in || apply off_row; assumption).
    destruct (opposite_row r R1) as [-> _]. reflexivity.
  Qed.

  Variable lib : library.
  Hypothesis Hlib : data_only lib.
  Variables nc nc' : field3.
  Hypothesis Hnc : mirrored_input w (-1) (result_levels w) (analysis_rows w) nc nc'.
  Local Notation x := (analyse lib k w o nc).
  Local Notation x' := (analyse lib k w' o' nc').
  Lemma nc_image : image_neg c (stored nc) (stored nc').
  Proof.
    intros i j l Hi Hj Hl. destruct (conf_facts k w g U Hg) as (C1 & C2 & C3 & _). unfold lon_ok, lat_ok, lev_ok, opposite in *. rewrite C1, C2, C3 in *. unfold stored.
    rewrite Hnc by lia. replace (analysis_rows w + 1 - j - 1)%nat with (analysis_rows w - 1 - (j - 1))%nat by lia. ring.
  Qed.
  Lemma eq3 : (3 <= p_eq c)%nat /\ (2 <= p_nlon c)%nat /\ (2 <= p_kmax c)%nat.
  Proof. destruct (conf_facts k w g U Hg) as (C1 & _ & C3 & C4 & _). rewrite C1, C3, C4. destruct U as ((N & _) & N1 & N2 & _). fold (result_levels w) in N2. lia. Qed.
End Mirrored.

Ltac flip1 H := intros; rewrite H by assumption; ring.
Section Nh18.
  Variables (w : qgargs) (g : grid).
  Local Notation k := NH18.
  Hypothesis U : usable k w.
  Hypothesis Hg : grid_of w = Done g.
  Hypothesis NF : w_nh w = false.
  Hypothesis Sym : symmetric_latitudes w.
  Hypothesis In : forall j, (j < w_nlat w)%nat -> -90 <= w_ylat w j <= 90.
  Variables u' v' t' : field3.
  Local Notation w' := (with_data w u' v' t').
  Local Notation o := (object_of k w g).
  Local Notation o' := (object_of k w' g).
  Local Notation c := (ob_conf o).
  Local Notation n := (w_nlat w).
  Hypothesis Hu : mirrored_input w 1 (w_nlev w) n (w_u w) u'.
  Hypothesis Hv : mirrored_input w (-1) (w_nlev w) n (w_v w) v'.
  Hypothesis Ht : mirrored_input w 1 (w_nlev w) n (w_t w) t'.
  Variable lib : library.
  Hypothesis Hlib : data_only lib.
  Variables nc nc' : field3.
  Hypothesis Hnc : mirrored_input w (-1) (result_levels w) (analysis_rows w) nc nc'.
  Local Notation x := (analyse lib k w o nc).
  Local Notation x' := (analyse lib k w' o' nc').
  Lemma stores_image : exchanged (s_av x) (s_av x') /\ image_state c (s_f x) (s_f x') /\ image_neg c (s_q x) (s_q x') /\ image_refs c (s_refs x) (s_refs x') /\
    (p_jb c = 0%nat -> forall l, lev_ok c l -> uref_ (s_refs x') (p_eq c) l = uref_ (s_refs x) (p_eq c) l) /\
    image_fluxes c (s_baro x) (s_baro x') /\ image_layers c (s_layer x) (s_layer x') /\
    result2 c (s_div x) (s_div x') /\ result2 c (s_conv x) (s_conv x') /\ result2 c (s_lambda x) (s_lambda x') /\ result2_neg c (s_phi x) (s_phi x') /\
    exists d d', s_stretch x = Some d /\ s_stretch x' = Some d' /\ result3 c d d'.
  Proof.
    assert (G := conf_symmetric k w g U Hg Sym). assert (P := nh_false k w g U Hg NF). destruct (eq3 k w g U Hg) as (E3 & El & Ek).
    assert (Hf := fields_image k w g U Hg Sym u' v' t' Hu Hv Ht). assert (HN := nc_image k w g U Hg In nc nc' Hnc).
    destruct (domain_mirrored k w g U Hg Sym u' v' t' Ht lib Hlib) as [Hav Ea]. specialize (Ea eq_refl).
    unfold analyse. cbn [s_f s_av s_q s_refs s_baro s_layer s_only s_div s_conv s_lambda s_phi s_stretch].
    change (ob_conf o') with c. change (ob_grid o') with g. change (ob_grid o) with g. rewrite Ea in *.
    change (w_maxit w') with (w_maxit w). change (w_tol w') with (w_tol w). change (w_rjac w') with (w_rjac w).
    set (av := domain lib k w o) in *. set (f := interpolated w o) in *. set (f' := interpolated w' o') in *. set (C := ob_conf o) in *. clearbody av f f' C.
    set (q := pv_nh18 C f av). set (q' := pv_nh18 C f' av).
    set (solver := nh18_solver C (g_npart g) (w_maxit w) (w_tol w) (w_rjac w) (stat_n av) (lb_mem1 lib) (lb_mem2 lib)).
    set (r := refs_nh18 C solver q f zero_refs). set (r' := refs_nh18 C solver q' f' zero_refs).
    assert (Hq : image_neg C q q') by (apply pv_nh18_image; assumption).
    assert (Hr : image_refs C r r') by (apply refs_nh18_image; assumption).
    assert (Hw : forall k, lev_ok C k -> uref_ r' (p_eq C) k = uref_ r (p_eq C) k).
    { apply (refs_nh18_equator_image C P solver q q' f f'); try assumption. intros l Hl. apply nh18_equator; assumption. }
    clearbody q q' r r'. assert (Hw' : p_jb C = 0%nat -> forall k, lev_ok C k -> uref_ r' (p_eq C) k = uref_ r (p_eq C) k) by (intros; apply Hw; assumption).
    assert (Hb := barotropic_image C G P q q' f f' _ _ av av r r' Hf Hq HN Hav Hr Hw').
    split; [exact Hav|]. split; [exact Hf|]. split; [exact Hq|]. split; [exact Hr|]. split; [exact Hw'|]. split; [exact Hb|].
    split; [exact (layerwise_image C G P q q' f f' _ _ av av r r' Hf Hq HN Hav Hr Hw')|].
    split; [apply div_image; assumption|]. split; [apply conv_image; assumption|]. split; [apply zonal_flux_image; assumption|]. split; [apply phi_image; assumption|].
    apply stretch_image; assumption.
  Qed.
  Lemma read_mirrored : mirrored_outputs w (read w o x) (read w' o' x').
  Proof.
    assert (G := conf_symmetric k w g U Hg Sym). assert (P := nh_false k w g U Hg NF).
    destruct stores_image as ((A1 & A2 & A3 & A4) & (F1 & F2 & F3) & Hq & Hr & Hw & Hb & Hl & Hd & Hc & Hlam & Hp & (d & d' & E1 & E2 & Hs)).
    assert (Hun : forall j l, off_equator c j -> lev_ok c l -> qref_correct_unit c (s_refs x') j l = -1 * qref_correct_unit c (s_refs x) (opposite c j) l).
    { intros j l [Hj _] Hl'. rewrite (unit_image c G P (s_refs x) (s_refs x') Hr Hw j l Hj Hl'). ring. }
    destruct Hr as (R1 & R2 & R3).
    destruct Hb as (B1 & B2 & B3 & B4 & B5 & B6 & B7 & B8 & B9 & B10 & B11 & B12). destruct Hl as (L1 & L2 & L3 & L4 & L5 & L6 & L7 & L8 & L9 & L10).
    set (y := analyse lib k w o nc) in *. set (y' := analyse lib k w' o' nc') in *. clearbody y y'.
    assert (St : both (mirrored_field w 1) (out_stretch (read w o y)) (out_stretch (read w' o' y'))).
    { unfold read. cbn [out_stretch]. rewrite E1, E2. apply (read_field_image k w g U Hg NF Sym u' v' t' In). change (ob_conf o') with c. rewrite (rows_global k w g U Hg NF).
      destruct (conf_facts k w g U Hg) as (_ & C2 & _). rewrite C2. rewrite Nat.sub_diag. cbn [Nat.add]. flip1 Hs. }
    unfold read in *. unfold mirrored_outputs.
    cbn [out_qgpv out_u out_v out_theta out_stat_n out_stat_s out_qref out_uref out_ptref out_f1 out_f2 out_f3 out_conv out_div out_heat out_lambda out_phi out_lwa_baro out_u_baro out_nc_baro out_lwa out_ua1 out_ua2 out_ep1 out_ep2 out_ep3 out_stretch] in *.
    change (ob_conf o') with c in *.
    split; [apply (read_input_image k w g U Hg NF Sym u' v' t' In); flip1 Hq|]. split; [apply (read_input_image k w g U Hg NF Sym u' v' t' In); flip1 F1|].
    split; [apply (read_input_image k w g U Hg NF Sym u' v' t' In); flip1 F2|]. split; [apply (read_input_image k w g U Hg NF Sym u' v' t' In); flip1 F3|].
    split; [exact A3|]. split; [exact A4|].
    split; [apply (read_profile_image k w g U Hg NF Sym u' v' t' In); exact Hun|]. split; [apply (read_profile_image k w g U Hg NF Sym u' v' t' In); flip1 R2|]. split; [apply (read_profile_image k w g U Hg NF Sym u' v' t' In); flip1 R3|].
    split; [apply (read_map_image k w g U Hg NF Sym u' v' t' In); flip1 B3|]. split; [apply (read_map_image k w g U Hg NF Sym u' v' t' In); flip1 B4|]. split; [apply (read_map_image k w g U Hg NF Sym u' v' t' In); flip1 B5|].
    split; [apply (read_map_image k w g U Hg NF Sym u' v' t' In); flip1 Hc|]. split; [apply (read_map_image k w g U Hg NF Sym u' v' t' In); flip1 Hd|]. split; [apply (read_map_image k w g U Hg NF Sym u' v' t' In); flip1 B8|].
    split; [apply (read_map_image k w g U Hg NF Sym u' v' t' In); flip1 Hlam|]. split; [apply (read_map_image k w g U Hg NF Sym u' v' t' In); flip1 Hp|].
    split; [apply (read_map_image k w g U Hg NF Sym u' v' t' In); flip1 B1|]. split; [apply (read_map_image k w g U Hg NF Sym u' v' t' In); flip1 B2|]. split; [apply (read_map_image k w g U Hg NF Sym u' v' t' In); flip1 B11|].
    split; [apply (read_field_image k w g U Hg NF Sym u' v' t' In); flip1 B12|]. split; [apply (read_field_image k w g U Hg NF Sym u' v' t' In); flip1 L5|]. split; [apply (read_field_image k w g U Hg NF Sym u' v' t' In); flip1 L6|].
    split; [apply (read_field_image k w g U Hg NF Sym u' v' t' In); flip1 L7|]. split; [apply (read_field_image k w g U Hg NF Sym u' v' t' In); flip1 L8|]. split; [apply (read_field_image k w g U Hg NF Sym u' v' t' In); flip1 L9|].
    exact St.
  Qed.
End Nh18.

Section Nhn22.
  Variables (bnd : nat) (w : qgargs) (g : grid).
  Local Notation k := (NHN22 bnd).
  Hypothesis U : usable k w.
  Hypothesis Hb1 : (1 <= bnd)%nat.
  Hypothesis Hg : grid_of w = Done g.
  Hypothesis NF : w_nh w = false.
  Hypothesis Sym : symmetric_latitudes w.
  Hypothesis In : forall j, (j < w_nlat w)%nat -> -90 <= w_ylat w j <= 90.
  Variables u' v' t' : field3.
  Local Notation w' := (with_data w u' v' t').
  Local Notation o := (object_of k w g).
  Local Notation o' := (object_of k w' g).
  Local Notation c := (ob_conf o).
  Local Notation n := (w_nlat w).
  Hypothesis Hu : mirrored_input w 1 (w_nlev w) n (w_u w) u'.
  Hypothesis Hv : mirrored_input w (-1) (w_nlev w) n (w_v w) v'.
  Hypothesis Ht : mirrored_input w 1 (w_nlev w) n (w_t w) t'.
  Variable lib : library.
  Hypothesis Hlib : data_only lib.
  Variables nc nc' : field3.
  Hypothesis Hnc : mirrored_input w (-1) (result_levels w) (analysis_rows w) nc nc'.
  Local Notation x := (analyse lib k w o nc).
  Local Notation x' := (analyse lib k w' o' nc').
  Lemma stores_activity : exchanged (s_av x) (s_av x') /\ image_state c (s_f x) (s_f x') /\ image_neg c (s_q x) (s_q x') /\ profile c (qref_ (s_refs x)) (qref_ (s_refs x')) /\
    result2 c (b_lwa (s_baro x)) (b_lwa (s_baro x')) /\ result2 c (b_u (s_baro x)) (b_u (s_baro x')) /\ result3 c (b_lwa3 (s_baro x)) (b_lwa3 (s_baro x')) /\ result2 c (b_nc (s_baro x)) (b_nc (s_baro x')).
  Proof.
    assert (G := conf_symmetric k w g U Hg Sym). assert (P := nh_false k w g U Hg NF). destruct (eq3 k w g U Hg) as (E3 & El & Ek).
    assert (Hf := fields_image k w g U Hg Sym u' v' t' Hu Hv Ht). assert (HN := nc_image k w g U Hg In nc nc' Hnc).
    destruct (domain_mirrored k w g U Hg Sym u' v' t' Ht lib Hlib) as [Hav _].
    assert (Hj : (1 <= p_jb c)%nat) by (destruct (conf_facts k w g U Hg) as (_ & _ & _ & _ & C5 & _); rewrite C5; exact Hb1).
    unfold analyse. cbn [s_f s_av s_q s_refs s_baro s_layer s_only s_div s_conv s_lambda s_phi s_stretch].
    change (ob_conf o') with c. change (ob_grid o') with g. change (ob_grid o) with g.
    set (av := domain lib k w o) in *. set (av' := domain lib k w' o') in *. set (f := interpolated w o) in *. set (f' := interpolated w' o') in *. set (C := ob_conf o) in *. clearbody av av' f f' C.
    set (q := pv_nhn22 C f av). set (q' := pv_nhn22 C f' av').
    set (r := refs_nhn22 C _ q _ f av zero_refs). set (r' := refs_nhn22 C _ q' _ f' av' zero_refs).
    assert (Hq : image_neg C q q') by (apply pv_nhn22_image; assumption).
    assert (Hr : profile C (qref_ r) (qref_ r')) by (apply qref_nhn22_image; assumption).
    set (s := {| qref_ := qref_ r'; uref_ := fun j k => uref_ r (opposite C j) k; ptref_ := fun j k => ptref_ r (opposite C j) k |}).
    assert (Hs : image_refs C r s) by (split; [exact Hr|split; intros j l _ _; reflexivity]).
    assert (Hw : p_jb C = 0%nat -> forall k, lev_ok C k -> uref_ s (p_eq C) k = uref_ r (p_eq C) k) by (intros; lia).
    assert (Hbs := barotropic_image C G P q q' f f' _ _ av av' r s Hf Hq HN Hav Hs Hw).
    split; [exact Hav|]. split; [exact Hf|]. split; [exact Hq|]. split; [exact Hr|].
    destruct Hbs as (B1 & B2 & _ & _ & _ & _ & _ & _ & _ & _ & B3 & B4).
    split; [exact B1|]. split; [exact B2|]. split; [exact B4|]. exact B3.
  Qed.
  Lemma read_activity : mirrored_activity w (read w o x) (read w' o' x').
  Proof.
    assert (G := conf_symmetric k w g U Hg Sym). assert (P := nh_false k w g U Hg NF).
    destruct stores_activity as ((A1 & A2 & A3 & A4) & (F1 & F2 & F3) & Hq & Hr & B1 & B2 & B3 & B4).
    assert (Hun : forall j l, off_equator c j -> lev_ok c l -> qref_correct_unit c (s_refs x') j l = -1 * qref_correct_unit c (s_refs x) (opposite c j) l).
    { set (s := {| qref_ := qref_ (s_refs x'); uref_ := fun j k => uref_ (s_refs x) (opposite c j) k; ptref_ := fun j k => ptref_ (s_refs x) (opposite c j) k |}).
      assert (Hs : image_refs c (s_refs x) s) by (split; [exact Hr|split; intros j l _ _; reflexivity]).
      assert (Hj1 : (1 <= p_jb c)%nat) by (destruct (conf_facts k w g U Hg) as (_ & _ & _ & _ & C5 & _); rewrite C5; exact Hb1).
      assert (Hw : p_jb c = 0%nat -> forall l, lev_ok c l -> uref_ s (p_eq c) l = uref_ (s_refs x) (p_eq c) l) by (intros; lia).
      intros j l [Hj _] Hl'. assert (Y := unit_image c G P (s_refs x) s Hs Hw j l Hj Hl'). change (qref_correct_unit c s j l) with (qref_correct_unit c (s_refs x') j l) in Y. rewrite Y. ring. }
    set (y := analyse lib k w o nc) in *. set (y' := analyse lib k w' o' nc') in *. clearbody y y'.
    unfold read in *. unfold mirrored_activity.
    cbn [out_qgpv out_u out_v out_theta out_stat_n out_stat_s out_qref out_uref out_ptref out_f1 out_f2 out_f3 out_conv out_div out_heat out_lambda out_phi out_lwa_baro out_u_baro out_nc_baro out_lwa out_ua1 out_ua2 out_ep1 out_ep2 out_ep3 out_stretch] in *.
    change (ob_conf o') with c in *.
    split; [apply (read_input_image k w g U Hg NF Sym u' v' t' In); flip1 Hq|]. split; [apply (read_input_image k w g U Hg NF Sym u' v' t' In); flip1 F1|].
    split; [apply (read_input_image k w g U Hg NF Sym u' v' t' In); flip1 F2|]. split; [apply (read_input_image k w g U Hg NF Sym u' v' t' In); flip1 F3|].
    split; [exact A3|]. split; [exact A4|].
    split; [apply (read_profile_image k w g U Hg NF Sym u' v' t' In); exact Hun|].
    split; [apply (read_map_image k w g U Hg NF Sym u' v' t' In); flip1 B1|]. split; [apply (read_map_image k w g U Hg NF Sym u' v' t' In); flip1 B2|]. split; [apply (read_map_image k w g U Hg NF Sym u' v' t' In); flip1 B4|].
    apply (read_field_image k w g U Hg NF Sym u' v' t' In); flip1 B3.
  Qed.
End Nhn22.
