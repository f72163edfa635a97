(** C170: comparison plots; C171: extraction of time slices. *)
From Verif Require Import Base BaseFacts Spec SpecFacts Basis PlotFiles.
From Coq Require Import Lra Lia.
Open Scope R_scope.

(** ** Specification *)
(** value [v] occurs in a field with ny rows and nx columns *)
Definition occurs (ny nx : nat) (x : nat -> nat -> R) (v : R) : Prop := exists j i, (j < ny)%nat /\ (i < nx)%nat /\ x j i = v.
(** [m] is the smallest, [M] the largest value of both fields *)
Definition common_range (ny nx : nat) (a b : nat -> nat -> R) (m M : R) : Prop :=
  (occurs ny nx a m \/ occurs ny nx b m) /\ (occurs ny nx a M \/ occurs ny nx b M) /\ forall v, occurs ny nx a v \/ occurs ny nx b v -> m <= v <= M.
(** 31 equidistant levels from lo to hi *)
Definition equidistant (lo hi : R) (levels : nat -> R) : Prop := forall k, (k <= 30)%nat -> levels k = lo + (hi - lo) * (INR k / 30).
(** a coloured value *)
Definition coloured (levels : nat -> R) (v : R) : Prop := levels 0%nat <= v <= levels 30%nat.

Lemma linspace31 lo hi k : (k <= 30)%nat -> @linspace R RNum lo hi 31 k = lo + (hi - lo) * (INR k / 30).
Proof.
  intros H. unfold linspace. cbn [Nat.ltb Nat.leb andb]. change (31 - 1)%nat with 30%nat. destruct (Nat.eqb_spec k 30) as [->|N].
  - rewrite (INR_IZR_INZ 30). cbn. toR. field.
  - toR. rewrite !nofnat_INR. rewrite (INR_IZR_INZ 30). cbn. field.
Qed.
Lemma equidistant_linspace lo hi : equidistant lo hi (@linspace R RNum lo hi 31).
Proof. intros k H. apply linspace31. exact H. Qed.
Lemma contourf_increasing x lo hi : contourf x (@linspace R RNum lo hi 31) = if Rltb lo hi then Done {| pn_field := x; pn_levels := Some (@linspace R RNum lo hi 31) |} else Raise ValueError.
Proof.
  unfold contourf. destruct (Rltb_spec lo hi) as [L|L].
  - assert (E : forallb (fun k => Rltb (@linspace R RNum lo hi 31 k) (@linspace R RNum lo hi 31 (S k))) (seq 0 30) = true); [|rewrite E; reflexivity].
    apply forallb_forall. intros k Hk. apply in_seq in Hk. rewrite !linspace31 by lia. unfold Rltb. destruct (Rlt_dec _ _) as [|N]; [reflexivity|]. exfalso. apply N. rewrite S_INR.
    apply Rplus_lt_compat_l, Rmult_lt_compat_l; lra.
  - assert (E : forallb (fun k => Rltb (@linspace R RNum lo hi 31 k) (@linspace R RNum lo hi 31 (S k))) (seq 0 30) = false); [|rewrite E; reflexivity].
    destruct (forallb _ _) eqn:F; [|reflexivity]. rewrite forallb_forall in F. specialize (F 0%nat ltac:(apply in_seq; lia)). rewrite !linspace31 in F by lia. unfold Rltb in F. destruct (Rlt_dec _ _) as [G|]; [|discriminate].
    cbn in G. lra.
Qed.
Lemma occurs_cells ny nx x v : occurs ny nx x v <-> In v (cells ny nx x).
Proof.
  unfold occurs, cells. rewrite in_map_iff. split.
  - intros (j & i & Hj & Hi & <-). exists (j, i). split; [reflexivity|]. apply in_prod; apply in_seq; lia.
  - intros ((j, i) & <- & H). apply in_prod_iff in H. rewrite !in_seq in H. exists j, i. cbn. repeat split; lia.
Qed.
Lemma cells_nonempty ny nx x : (0 < ny)%nat -> (0 < nx)%nat -> cells ny nx x <> [].
Proof. intros H1 H2 E. assert (X : occurs ny nx x (x 0%nat 0%nat)) by (exists 0%nat, 0%nat; auto). apply occurs_cells in X. rewrite E in X. exact X. Qed.
Lemma range_common ny nx a b : (0 < ny)%nat -> (0 < nx)%nat -> common_range ny nx a b (plot_min ny nx a b) (plot_max ny nx a b).
Proof.
  intros Hy Hx. unfold plot_min, plot_max. assert (Na := cells_nonempty ny nx a Hy Hx). assert (Nb := cells_nonempty ny nx b Hy Hx).
  set (la := cells ny nx a) in *. set (lb := cells ny nx b) in *. split; [|split].
  - assert (H := lmin_in [rlmin la; rlmin lb] ltac:(discriminate)). destruct H as [H|[H|[]]]; [left|right]; apply occurs_cells; [fold la|fold lb]; rewrite <- H; apply lmin_in; assumption.
  - assert (H := lmax_in [rlmax la; rlmax lb] ltac:(discriminate)). destruct H as [H|[H|[]]]; [left|right]; apply occurs_cells; [fold la|fold lb]; rewrite <- H; apply lmax_in; assumption.
  - intros v H. rewrite !occurs_cells in H. fold la lb in H. assert (M1 := lmin_le [rlmin la; rlmin lb]). assert (M2 := lmax_ge [rlmax la; rlmax lb]). destruct H as [H|H].
    + assert (A := lmin_le la v H). assert (B := lmax_ge la v H). specialize (M1 (rlmin la) ltac:(left; reflexivity)). specialize (M2 (rlmax la) ltac:(left; reflexivity)). lra.
    + assert (A := lmin_le lb v H). assert (B := lmax_ge lb v H). specialize (M1 (rlmin lb) ltac:(right; left; reflexivity)). specialize (M2 (rlmax lb) ltac:(right; left; reflexivity)). lra.
Qed.
Lemma range_unique ny nx a b m M : (0 < ny)%nat -> (0 < nx)%nat -> common_range ny nx a b m M -> plot_min ny nx a b = m /\ plot_max ny nx a b = M.
Proof.
  intros Hy Hx (P1 & P2 & P3). destruct (range_common ny nx a b Hy Hx) as (Q1 & Q2 & Q3). assert (A := P3 _ Q1). assert (B := P3 _ Q2). assert (C := Q3 _ P1). assert (D := Q3 _ P2). lra.
Qed.
Lemma largest_two x y : rlmax [x; y] = Rmax x y.
Proof. apply lmax_unique; [unfold Rmax; destruct (Rle_dec x y); cbn; tauto|]. intros z [<-|[<-|[]]]; [apply Rmax_l|apply Rmax_r]. Qed.

(** ** C170 *)
(** compare_two_fields draws the first field, the second and the size of the difference, the first two with the same levels, spanning the values of
    both, so that no value is left blank; it succeeds exactly when the values are not all equal and the factor is not negative *)
Theorem C170_comparison_plot :
  forall (ny nx : nat) (a b : nat -> nat -> R) (factor : option R) (m M : R), (0 < ny)%nat -> (0 < nx)%nat -> common_range ny nx a b m M ->
    (m < M -> match factor with Some d => 0 <= d | None => True end ->
       exists p q r levels, compare_two_fields ny nx a b factor = Done (p, q, r) /\ pn_field p = a /\ pn_field q = b /\ (forall j i, pn_field r j i = Rabs (a j i - b j i)) /\
         pn_levels p = Some levels /\ pn_levels q = Some levels /\ equidistant m M levels /\
         (forall v, occurs ny nx a v \/ occurs ny nx b v -> coloured levels v) /\
         match factor with
         | Some d => if Reqb d 0 then pn_levels r = None else exists l, pn_levels r = Some l /\ equidistant 0 (d * Rmax (Rabs m) (Rabs M)) l
         | None => pn_levels r = None
         end) /\
    (m = M \/ match factor with Some d => d < 0 | None => False end -> compare_two_fields ny nx a b factor = Raise ValueError).
Proof.
  intros ny nx a b factor m M Hy Hx CR. destruct (range_unique ny nx a b m M Hy Hx CR) as (Em & EM). unfold compare_two_fields. rewrite !contourf_increasing, Em, EM.
  assert (CR' := CR). destruct CR' as (C1 & C2 & C3). split.
  - intros L F. unfold Rltb at 1 2. destruct (Rlt_dec m M) as [_|]; [|contradiction].
    assert (Col : forall v, occurs ny nx a v \/ occurs ny nx b v -> coloured (@linspace R RNum m M 31) v).
    { intros v H. unfold coloured. rewrite !linspace31 by lia. rewrite (INR_IZR_INZ 30). cbn. specialize (C3 v H). lra. }
    assert (P : 0 < Rmax (Rabs m) (Rabs M)). { assert (X := Rmax_l (Rabs m) (Rabs M)). assert (Y := Rmax_r (Rabs m) (Rabs M)). destruct (Req_dec m 0) as [->|N]; [|assert (Z := Rabs_pos_lt m N); lra]. assert (Z := Rabs_pos_lt M ltac:(lra)). lra. }
    destruct factor as [d|].
    + destruct (Reqb d 0) eqn:E.
      * do 4 eexists. split; [reflexivity|]. cbn [pn_field pn_levels]. repeat split; try (apply equidistant_linspace); try apply Col; auto.
      * unfold difference_levels. rewrite contourf_increasing, Em, EM, largest_two. unfold Reqb in E. destruct (Req_EM_T d 0) as [|Nz]; [discriminate|].
        assert (Q : 0 < d * Rmax (Rabs m) (Rabs M)) by (apply Rmult_lt_0_compat; lra). unfold Rltb. destruct (Rlt_dec 0 _) as [_|]; [|contradiction].
        do 4 eexists. split; [reflexivity|]. cbn [pn_field pn_levels]. repeat split; try (apply equidistant_linspace); try apply Col; auto.
        eexists. split; [reflexivity|]. apply equidistant_linspace.
    + do 4 eexists. split; [reflexivity|]. cbn [pn_field pn_levels]. repeat split; try (apply equidistant_linspace); try apply Col; auto.
  - intros [L|L].
    + unfold Rltb at 1. destruct (Rlt_dec m M) as [|_]; [lra|]. reflexivity.
    + destruct factor as [d|]; [|contradiction]. unfold Rltb. destruct (Rlt_dec m M) as [Lm|_]; [|reflexivity].
      unfold Reqb. destruct (Req_EM_T d 0) as [|_]; [lra|]. unfold difference_levels. rewrite contourf_increasing, Em, EM, largest_two. cbn [three].
      assert (P := Rmax_l (Rabs m) (Rabs M)). assert (P' := Rabs_pos m). unfold Rltb. destruct (Rlt_dec 0 _) as [Q|_]; [|reflexivity]. exfalso.
      assert (d * Rmax (Rabs m) (Rabs M) <= 0); [|lra]. rewrite <- (Rmult_0_l (Rmax (Rabs m) (Rabs M))). apply Rmult_le_compat_r; lra.
Qed.
Print Assumptions C170_comparison_plot.
(** expected: differences of any size are shown.  Differences above [factor] times the largest value, one percent by default, are left blank *)
Theorem C170_all_differences_shown_refuted :
  (forall (ny nx : nat) (a b : nat -> nat -> R) (d m M : R) p q r l j i, (0 < ny)%nat -> (0 < nx)%nat -> common_range ny nx a b m M -> d <> 0 -> compare_two_fields ny nx a b (Some d) = Done (p, q, r) ->
     pn_levels r = Some l -> (coloured l (Rabs (a j i - b j i)) <-> Rabs (a j i - b j i) <= d * Rmax (Rabs m) (Rabs M))) /\
  exists a b p q r l, compare_two_fields 1 2 a b (Some (1 / 100)) = Done (p, q, r) /\ pn_levels r = Some l /\ ~ coloured l (Rabs (a 0%nat 1%nat - b 0%nat 1%nat)).
Proof.
  assert (G : forall (ny nx : nat) (a b : nat -> nat -> R) (d m M : R) p q r l j i, (0 < ny)%nat -> (0 < nx)%nat -> common_range ny nx a b m M -> d <> 0 -> compare_two_fields ny nx a b (Some d) = Done (p, q, r) ->
     pn_levels r = Some l -> (coloured l (Rabs (a j i - b j i)) <-> Rabs (a j i - b j i) <= d * Rmax (Rabs m) (Rabs M))).
  { intros ny nx a b d m M p q r l j i Hy Hx CR Nz E EL. destruct (range_unique ny nx a b m M Hy Hx CR) as (Em & EM). unfold compare_two_fields in E. rewrite !contourf_increasing, Em, EM in E.
    destruct (Rltb m M); cbn [three] in E; [|discriminate]. unfold Reqb in E. destruct (Req_EM_T d 0) as [|_]; [contradiction|]. unfold difference_levels in E. rewrite contourf_increasing, Em, EM, largest_two in E.
    destruct (Rltb 0 _) eqn:L in E; cbn [three] in E; [|discriminate]. injection E as <- <- <-. cbn [pn_levels] in EL. injection EL as <-. unfold coloured. rewrite !linspace31 by lia. rewrite (INR_IZR_INZ 30). cbn.
    assert (A := Rabs_pos (a j i - b j i)). split; intros; lra. }
  split; [exact G|].
  set (a := fun (_ i : nat) => INR i). set (b := fun (_ _ : nat) => 0).
  assert (CR : common_range 1 2 a b 0 1).
  { split; [|split]; [left; exists 0%nat, 0%nat; cbn; auto|left; exists 0%nat, 1%nat; cbn; auto|]. intros v [(j & i & Hj & Hi & <-)|(j & i & Hj & Hi & <-)]; unfold a, b; [destruct i as [|[|]]; [cbn; lra..|lia]|lra]. }
  destruct (proj1 (C170_comparison_plot 1 2 a b (Some (1 / 100)) 0 1 ltac:(lia) ltac:(lia) CR) ltac:(lra) ltac:(lra)) as (p & q & r & levels & E & _ & _ & _ & _ & _ & _ & _ & L).
  unfold Reqb in L. destruct (Req_EM_T (1 / 100) 0) as [Q|_]; [lra|]. destruct L as (l & L & _). exists a, b, p, q, r, l. split; [exact E|]. split; [exact L|].
  intros C. apply (proj1 (G 1%nat 2%nat a b (1 / 100) 0 1 p q r l 0%nat 1%nat ltac:(lia) ltac:(lia) CR ltac:(lra) E L)) in C. unfold a, b in C. cbn [INR] in C. rewrite Rabs_R0, Rabs_R1, Rmax_right in C by lra. rewrite Rminus_0_r, Rabs_R1 in C. lra.
Qed.
Print Assumptions C170_all_differences_shown_refuted.
(** documented: None gives automatic colours on maps too.  It raises TypeError; apart from this and a factor of 0 both functions draw the same *)
Theorem C170_maps_with_automatic_colours_refuted :
  (forall (ny nx : nat) (a b : nat -> nat -> R) (m M : R), (0 < ny)%nat -> (0 < nx)%nat -> common_range ny nx a b m M -> m < M -> compare_two_fields_on_map ny nx a b None = Raise TypeError) /\
  (forall (ny nx : nat) (a b : nat -> nat -> R) (m M : R), (0 < ny)%nat -> (0 < nx)%nat -> common_range ny nx a b m M -> compare_two_fields_on_map ny nx a b (Some 0) = Raise ValueError) /\
  forall (ny nx : nat) (a b : nat -> nat -> R) (d : R), d <> 0 -> compare_two_fields_on_map ny nx a b (Some d) = compare_two_fields ny nx a b (Some d).
Proof.
  split; [|split].
  - intros ny nx a b m M Hy Hx CR L. destruct (range_unique ny nx a b m M Hy Hx CR) as (Em & EM). unfold compare_two_fields_on_map. rewrite !contourf_increasing, Em, EM. unfold Rltb. destruct (Rlt_dec m M); [reflexivity|contradiction].
  - intros ny nx a b m M Hy Hx CR. destruct (range_unique ny nx a b m M Hy Hx CR) as (Em & EM). unfold compare_two_fields_on_map, difference_levels. rewrite !contourf_increasing, Em, EM.
    destruct (Rltb m M); [|reflexivity]. cbn [three]. unfold Rltb. destruct (Rlt_dec 0 _) as [L|]; [lra|reflexivity].
  - intros ny nx a b d Nz. unfold compare_two_fields_on_map, compare_two_fields, Reqb. destruct (Req_EM_T d 0); [contradiction|reflexivity].
Qed.
Print Assumptions C170_maps_with_automatic_colours_refuted.
Example C170_case : common_range 2 2 (fun j i => INR (j + i)) (fun j i => - INR i) (-1) 2.
Proof.
  split; [|split]; [right; exists 0%nat, 1%nat; cbn; auto|left; exists 1%nat, 1%nat; cbn; repeat split; auto; lra|].
  intros v [(j & i & Hj & Hi & <-)|(j & i & Hj & Hi & <-)]; destruct j as [|[|]], i as [|[|]]; try lia; cbn; lra.
Qed.

(** ** C171 *)
(** index z of a dimension of length n is position p: p = z, or p = n + z for negative z *)
Definition indexes (n : nat) (z : Z) (p : nat) : Prop := (p < n)%nat /\ (z = Z.of_nat p \/ z = (Z.of_nat p - Z.of_nat n)%Z).
Section C171.
  Context {T : Type}.
  (** variable (name, content) of the result for that of the file: series are sampled, the rest is kept *)
  Definition sampled (n : nat) (zs : list Z) (v v' : nat * content T) : Prop :=
    fst v' = fst v /\
    match snd v, snd v' with
    | Series x, Series x' => forall k z, nth_error zs k = Some z -> exists p, indexes n z p /\ x' k = x p
    | Constant x, Constant x' => x' = x
    | _, _ => False
    end.
End C171.
Lemma position_iff n z p : position n z = Some p <-> indexes n z p.
Proof.
  unfold position, indexes. destruct (Z.leb_spec 0 z), (Z.ltb_spec z (Z.of_nat n)), (Z.leb_spec (- Z.of_nat n) z), (Z.ltb_spec z 0); cbn [andb]; split; intros X; try discriminate; try (injection X as <-); try (f_equal); lia.
Qed.
Lemma positions_some n zs l : positions n zs = Some l -> length l = length zs /\ forall k z, nth_error zs k = Some z -> exists p, nth_error l k = Some p /\ indexes n z p.
Proof.
  revert l. induction zs as [|z zs IH]; intros l E; cbn in E; [injection E as <-; split; [reflexivity|intros [|] ? H; discriminate H]|].
  destruct (position n z) as [p|] eqn:P; [|discriminate]. destruct (positions n zs) as [q|] eqn:Q; [|discriminate]. injection E as <-. destruct (IH q eq_refl) as (L & N).
  split; [cbn; lia|]. intros [|k] y H; [injection H as <-; exists p; split; [reflexivity|apply position_iff; exact P]|apply N; exact H].
Qed.
Lemma positions_none n zs : positions n zs = None <-> exists z, In z zs /\ forall p, ~ indexes n z p.
Proof.
  induction zs as [|z zs IH]; cbn; [split; [discriminate|intros (? & [] & _)]|]. destruct (position n z) as [p|] eqn:P.
  - apply position_iff in P. destruct (positions n zs) eqn:Q.
    + split; [discriminate|]. intros (y & [<-|H] & N); [destruct (N p P)|]. discriminate (proj2 IH (ex_intro _ y (conj H N))).
    + split; [|reflexivity]. intros _. destruct (proj1 IH eq_refl) as (y & H & N). exists y. auto.
  - split; [|reflexivity]. intros _. exists z. split; [auto|]. intros p I. apply position_iff in I. congruence.
Qed.
(** the new file has one time per index, in the order given; every variable with the dimension time is sampled at these times, every other variable is unchanged.  It
    fails exactly when there is no dimension time, or an index is out of range *)
Theorem C171_time_slices : forall (T : Type) (d : dataset T) (zs : list Z),
  (forall d', extract_one_timeslice d zs = Done d' -> exists n, ds_time d = Some n /\ ds_time d' = Some (length zs) /\ Forall2 (sampled n zs) (ds_vars d) (ds_vars d')) /\
  (extract_one_timeslice d zs = Raise ValueError <-> ds_time d = None) /\
  (extract_one_timeslice d zs = Raise IndexError <-> exists n z, ds_time d = Some n /\ In z zs /\ forall p, ~ indexes n z p) /\
  (forall e, extract_one_timeslice d zs = Raise e -> e = ValueError \/ e = IndexError).
Proof.
  intros T d zs. unfold extract_one_timeslice. destruct (ds_time d) as [n|]; [|split; [discriminate|]; split; [split; reflexivity|]; split; [split; [discriminate|intros (? & ? & X & _); discriminate X]|intros e X; injection X as <-; auto]].
  destruct (positions n zs) as [l|] eqn:P.
  - destruct (positions_some n zs l P) as (L & N). split; [|split; [split; discriminate|split; [|discriminate]]].
    + intros d' E. injection E as <-. exists n. cbn [ds_time ds_vars]. split; [reflexivity|]. split; [f_equal; exact L|]. induction (ds_vars d) as [|(a, c) vs IH]; [constructor|]. cbn [map]. constructor; [|exact IH].
      split; [reflexivity|]. cbn [snd fst]. destruct c as [x|x]; [|reflexivity]. intros k z H. destruct (N k z H) as (p & H1 & H2). exists p. split; [exact H2|]. rewrite (nth_error_nth l k 0%nat H1). reflexivity.
    + split; [discriminate|]. intros (m & z & Em & Hz & Nz). injection Em as <-. assert (X := proj2 (positions_none n zs) (ex_intro _ z (conj Hz Nz))). congruence.
  - split; [discriminate|]. split; [split; discriminate|]. split; [split|].
    + intros _. destruct (proj1 (positions_none n zs) P) as (z & Hz & Nz). exists n, z. auto.
    + reflexivity.
    + intros e E. injection E as <-. auto.
Qed.
Print Assumptions C171_time_slices.
(** extracting twice is extracting once with the indices of the indices *)
Theorem C171_twice : forall (T : Type) (d d1 d2 : dataset T) (zs ys : list Z),
  extract_one_timeslice d zs = Done d1 -> extract_one_timeslice d1 ys = Done d2 ->
  exists xs d3, extract_one_timeslice d xs = Done d3 /\ ds_time d3 = ds_time d2 /\ length xs = length ys /\
    (forall k y, nth_error ys k = Some y -> exists p, indexes (length zs) y p /\ nth_error xs k = nth_error zs p) /\
    Forall2 (fun v v' => fst v = fst v' /\ match snd v, snd v' with Series x, Series x' => forall k, (k < length ys)%nat -> x k = x' k | Constant x, Constant x' => x = x' | _, _ => False end) (ds_vars d3) (ds_vars d2).
Proof.
  intros T d d1 d2 zs ys E1 E2. unfold extract_one_timeslice in *. destruct (ds_time d) as [n|]; [|discriminate]. destruct (positions n zs) as [l|] eqn:P1; [|discriminate]. injection E1 as <-. cbn [ds_time ds_vars] in E2.
  destruct (positions (length l) ys) as [m|] eqn:P2; [|discriminate]. injection E2 as <-. cbn [ds_time ds_vars].
  destruct (positions_some _ _ _ P1) as (L1 & N1). destruct (positions_some _ _ _ P2) as (L2 & N2).
  assert (Hm : forall p, In p m -> (p < length l)%nat). { intros p Hp. destruct (In_nth_error m p Hp) as (k & Hk). destruct (nth_error ys k) as [y|] eqn:Y; [|apply nth_error_None in Y; assert (X := proj1 (nth_error_Some m k) ltac:(congruence)); lia]. destruct (N2 k y Y) as (p' & Q1 & Q2). rewrite Q1 in Hk. injection Hk as ->. apply Q2. }
  set (xs := map (fun p => nth p zs 0%Z) m).
  assert (P3 : positions n xs = Some (map (fun p => nth p l 0%nat) m)).
  { unfold xs. clear - P1 L1 N1 Hm. induction m as [|p m IH]; [reflexivity|]. cbn [map positions]. assert (Hp := Hm p ltac:(left; reflexivity)).
    assert (Z : nth_error zs p = Some (nth p zs 0%Z)) by (apply nth_error_nth'; lia). destruct (N1 p _ Z) as (p' & Q1 & Q2). apply position_iff in Q2. rewrite Q2. rewrite IH by (intros; apply Hm; right; assumption). rewrite (nth_error_nth l p 0%nat Q1). reflexivity. }
  exists xs. rewrite P3. eexists. split; [reflexivity|]. cbn [ds_time ds_vars]. split; [rewrite map_length; reflexivity|]. split; [unfold xs; rewrite map_length; exact L2|]. split.
  - intros k y Hy. destruct (N2 k y Hy) as (p & Q1 & Q2). rewrite L1 in Q2. exists p. split; [exact Q2|]. unfold xs. rewrite nth_error_map, Q1. cbn [option_map]. symmetry. apply nth_error_nth'. apply Q2.
  - rewrite map_map. induction (ds_vars d) as [|(a, c) vs IH]; [constructor|]. cbn [map]. constructor; [|exact IH]. cbn [fst snd]. split; [reflexivity|]. destruct c as [x|x]; [|reflexivity]. intros k Hk. f_equal.
    destruct (nth_error m k) as [p|] eqn:Ek; [|apply nth_error_None in Ek; lia]. rewrite (nth_error_nth m k 0%nat Ek). erewrite nth_error_nth; [reflexivity|]. rewrite nth_error_map, Ek. reflexivity.
Qed.
Print Assumptions C171_twice.
Example C171_case : exists d', extract_one_timeslice {| ds_time := Some 4%nat; ds_vars := [(0%nat, Series (fun t => INR t)); (1%nat, Constant 5)] |} [2; -1]%Z = Done d' /\
  exists x, ds_vars d' = [(0%nat, Series x); (1%nat, Constant 5)] /\ x 0%nat = 2 /\ x 1%nat = 3.
Proof. eexists. split; [reflexivity|]. eexists. split; [reflexivity|]. split; [change (INR 2 = 2)|change (INR 3 = 3)]; cbn; lra. Qed.
