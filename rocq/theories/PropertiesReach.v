(** C180: the reach of one value of the state in QGPV, in any arithmetic, and the region that one missing value (NaN) makes missing. *)
From Verif Require Import Base Fortran Flux Qgpv Ieee ReachSpec PropertiesMissing2.
From Coq Require Import Lia.

Lemma pole_dec nlat j : pole_row nlat j \/ ~ pole_row nlat j.
Proof. unfold pole_row. lia. Qed.
Lemma shown_same nlat j : (1 <= j <= nlat)%nat -> ~ pole_row nlat j -> shown_row nlat j = j.
Proof. intros Hj P. unfold shown_row, pole_row in *. destruct (Nat.eqb_spec j nlat); destruct (Nat.eqb_spec j 1); try lia. Qed.

Section Any.
  Context {A : Type} {N : Num A}.
  Variables (nlon nlat kmax : nat) (aa omega : A).
  Hypothesis (Hlon : (2 <= nlon)%nat) (Hlat : (3 <= nlat)%nat).

  Lemma neighbours i : (1 <= i <= nlon)%nat -> side_by_side nlon i (east nlon i) /\ side_by_side nlon i (west nlon i).
  Proof. intros Hi. unfold side_by_side, east, west. destruct (Nat.eqb_spec i nlon); destruct (Nat.eqb_spec i 1); lia. Qed.
  Lemma shown_inside j : (1 <= j <= nlat)%nat -> (2 <= shown_row nlat j <= nlat - 1)%nat.
  Proof. intros Hj. unfold shown_row. destruct (Nat.eqb_spec j nlat); destruct (Nat.eqb_spec j 1); lia. Qed.
  Lemma loop_agree n (p q : nat -> A -> A) : (forall jj s, (1 <= jj <= n)%nat -> p jj s = q jj s) -> loop n p = loop n q.
  Proof. induction n as [|n IH]; intros H; cbn [loop]; [reflexivity|]. rewrite IH by (intros; apply H; lia). apply H. lia. Qed.
  Lemma avort_shown lat u v i j k : (1 <= j <= nlat)%nat -> pole_row nlat j ->
    avort nlon nlat aa omega lat u v i j k = loop nlon (fun i' s => nadd s (ndiv (avort_interior nlon nlat aa omega lat u v i' (shown_row nlat j) k) (nofnat nlon))).
  Proof. intros Hj P. unfold avort, shown_row, pole_row in *. destruct (Nat.eqb_spec j nlat); destruct (Nat.eqb_spec j 1); try reflexivity; lia. Qed.
  Lemma avort_own lat u v i j k : (1 <= j <= nlat)%nat -> ~ pole_row nlat j -> avort nlon nlat aa omega lat u v i j k = avort_interior nlon nlat aa omega lat u v i j k.
  Proof. intros Hj P. unfold avort, pole_row in *. destruct (Nat.eqb_spec j nlat); destruct (Nat.eqb_spec j 1); try reflexivity; lia. Qed.

  Variables (u v u' v' : arr3 A) (i0 j0 k0 : nat).
  Hypothesis (Hu : same_but i0 j0 k0 u u') (Hv : same_but i0 j0 k0 v v').

  Lemma interior_same lat i j k : (1 <= i <= nlon)%nat -> ~ (k = k0 /\ ((j = j0 + 1 \/ j + 1 = j0) /\ i = i0 \/ j = j0 /\ side_by_side nlon i i0))%nat ->
    (2 <= j)%nat -> avort_interior nlon nlat aa omega lat u' v' i j k = avort_interior nlon nlat aa omega lat u v i j k.
  Proof.
    intros Hi H Hj. destruct (neighbours i Hi) as [E W]. unfold avort_interior.
    rewrite (Hv (east nlon i) j k) by (intros (<- & <- & <-); apply H; tauto). rewrite (Hv (west nlon i) j k) by (intros (<- & <- & <-); apply H; tauto).
    rewrite (Hu i (j + 1)%nat k) by (intros (<- & <- & <-); apply H; tauto). rewrite (Hu i (j - 1)%nat k) by (intros (<- & <- & <-); apply H; split; [reflexivity|left; split; [lia|reflexivity]]).
    reflexivity.
  Qed.
  Lemma vorticity_same lat i j k : (1 <= i <= nlon)%nat -> (1 <= j <= nlat)%nat -> ~ (k = k0 /\ (u_reaches nlat i0 j0 i j \/ v_reaches nlon nlat i0 j0 i j)) ->
    avort nlon nlat aa omega lat u' v' i j k = avort nlon nlat aa omega lat u v i j k.
  Proof.
    intros Hi Hj H. pose proof (shown_inside j Hj) as Sh. unfold u_reaches, v_reaches, u_rows, v_rows in H. destruct (pole_dec nlat j) as [P|P].
    - rewrite !avort_shown by assumption. apply loop_agree. intros i' s Hi'. rewrite interior_same; [reflexivity|exact Hi'| |lia]. intros (E & C). apply H. split; [exact E|]. tauto.
    - rewrite !avort_own by assumption. rewrite (shown_same nlat j Hj P) in *. apply interior_same; [exact Hi| |lia]. intros (E & C). apply H. split; [exact E|]. tauto.
  Qed.
  Lemma mean_same lat j k : (1 <= j <= nlat)%nat -> ~ (k = k0 /\ (u_rows nlat j0 j \/ v_rows nlat j0 j)) -> zmav nlon nlat aa omega lat u' v' j k = zmav nlon nlat aa omega lat u v j k.
  Proof.
    intros Hj H. unfold zmav. apply loop_agree. intros i s Hi. rewrite vorticity_same; [reflexivity|exact Hi|exact Hj|]. unfold u_reaches, v_reaches. tauto.
  Qed.
End Any.

Lemma stretch_same {A : Type} {N : Num A} (hh : A) height (th th' : arr3 A) tp tm sp sm f i0 j0 k0 i j k :
  same_but i0 j0 k0 th th' -> ~ theta_reaches i0 j0 k0 i j k -> (1 <= k)%nat -> stretch hh height th' tp tm sp sm f i j k = stretch hh height th tp tm sp sm f i j k.
Proof.
  intros E H Hk. unfold stretch, theta_reaches in *. rewrite (E i j (k + 1)%nat) by (intros (-> & -> & X); apply H; split; [reflexivity|]; split; [reflexivity|]; lia).
  rewrite (E i j (k - 1)%nat) by (intros (-> & -> & X); apply H; split; [reflexivity|]; split; [reflexivity|]; lia). reflexivity.
Qed.

(** Change the state at one grid point, for given reference profiles.  QGPV of QGFieldNHN22 can only change where the point enters the
    differences; QGPV of QGFieldNH18, whose stretching term is multiplied by the zonal mean vorticity, on the whole rows concerned. *)
Theorem C180_reach_of_one_grid_point :
  forall (A : Type) (N : Num A) (nlon nlat kmax jd : nat) (a omega H : A) (height t0 stat ts0 tn0 stats statn : nat -> A)
         (u v theta u' v' theta' : arr3 A) (i0 j0 k0 i j k : nat),
  (2 <= nlon)%nat -> (3 <= nlat)%nat -> same_but i0 j0 k0 u u' -> same_but i0 j0 k0 v v' -> same_but i0 j0 k0 theta theta' -> (1 <= i <= nlon)%nat -> (1 <= j <= nlat)%nat ->
  (~ (k = k0 /\ (u_reaches nlat i0 j0 i j \/ v_reaches nlon nlat i0 j0 i j)) -> ~ theta_reaches i0 j0 k0 i j k ->
   qgpv_nhn22 nlon nlat kmax a omega H height jd u' v' theta' ts0 tn0 stats statn i j k = qgpv_nhn22 nlon nlat kmax a omega H height jd u v theta ts0 tn0 stats statn i j k) /\
  (~ (k = k0 /\ (u_rows nlat j0 j \/ v_rows nlat j0 j)) -> ~ theta_reaches i0 j0 k0 i j k ->
   qgpv_nh18 nlon nlat kmax a omega H height u' v' theta' t0 stat i j k = qgpv_nh18 nlon nlat kmax a omega H height u v theta t0 stat i j k).
Proof.
  intros A N nlon nlat kmax jd a omega H height t0 stat ts0 tn0 stats statn u v theta u' v' theta' i0 j0 k0 i j k Hlon Hlat Hu Hv Ht Hi Hj. split; intros R T.
  - unfold qgpv_nhn22. destruct (Nat.leb_spec 2 k); cbn [andb]; [|reflexivity]. destruct (Nat.leb k (kmax - 1)); [|reflexivity]. cbv zeta.
    rewrite (vorticity_same nlon nlat a omega Hlon Hlat u v u' v' i0 j0 k0 Hu Hv _ i j k Hi Hj R). rewrite (stretch_same H height theta theta' _ _ _ _ _ i0 j0 k0 i j k Ht T ltac:(lia)). reflexivity.
  - unfold qgpv_nh18. destruct (Nat.leb_spec 2 k); cbn [andb]; [|reflexivity]. destruct (Nat.leb k (kmax - 1)); [|reflexivity].
    rewrite (vorticity_same nlon nlat a omega Hlon Hlat u v u' v' i0 j0 k0 Hu Hv _ i j k Hi Hj) by (unfold u_reaches, v_reaches; tauto).
    rewrite (mean_same nlon nlat a omega Hlon Hlat u v u' v' i0 j0 k0 Hu Hv _ j k Hj R).
    rewrite (stretch_same H height theta theta' _ _ _ _ _ i0 j0 k0 i j k Ht T ltac:(lia)). reflexivity.
Qed.
Print Assumptions C180_reach_of_one_grid_point.

Section Missing.
  Variables (prec emax : Z) (e : elementary).
  Local Notation N := (IeeeNum prec emax e).
  Local Notation nan := S754_nan.
  Lemma nan_opp : @nopp _ N nan = nan. Proof. reflexivity. Qed.
  Lemma nan_div_r x : @ndiv _ N x nan = nan. Proof. destruct x; reflexivity. Qed.
  Local Ltac nans := repeat first [rewrite (nan_sub_l prec emax e)|rewrite (nan_sub_r prec emax e)|rewrite (nan_mul_l prec emax e)|rewrite (nan_mul_r prec emax e)
    |rewrite (nan_div_l prec emax e)|rewrite nan_div_r|rewrite (nan_add_l prec emax e)|rewrite (nan_add_r prec emax e)|rewrite nan_opp]; try reflexivity.

  Variables (nlon nlat kmax : nat) (a omega H : spec_float).
  Hypothesis (Hlon : (2 <= nlon)%nat) (Hlat : (3 <= nlat)%nat).

  Lemma interior_u lat u v i j k i0 j0 : u i0 j0 k = nan -> i = i0 -> (j = j0 + 1 \/ j + 1 = j0)%nat -> @avort_interior _ N nlon nlat a omega lat u v i j k = nan.
  Proof.
    intros E -> Hj. unfold avort_interior. cbv zeta. destruct Hj as [->|<-]; [rewrite Nat.add_sub|]; rewrite E; nans.
  Qed.
  Lemma turned i i0 : (1 <= i <= nlon)%nat -> (1 <= i0 <= nlon)%nat -> side_by_side nlon i i0 -> east nlon i = i0 \/ west nlon i = i0.
  Proof. intros Hi Hi0 S'. unfold side_by_side, east, west in *. destruct (Nat.eqb_spec i nlon); destruct (Nat.eqb_spec i 1); lia. Qed.
  Lemma interior_v lat u v i j k i0 : v i0 j k = nan -> (1 <= i <= nlon)%nat -> (1 <= i0 <= nlon)%nat -> side_by_side nlon i i0 -> @avort_interior _ N nlon nlat a omega lat u v i j k = nan.
  Proof.
    intros E Hi Hi0 S'. unfold avort_interior. cbv zeta. destruct (turned i i0 Hi Hi0 S') as [->| ->]; rewrite E; nans.
  Qed.
  Lemma a_neighbour i0 : (1 <= i0 <= nlon)%nat -> exists i, (1 <= i <= nlon)%nat /\ side_by_side nlon i i0.
  Proof. intros H0. destruct (Nat.eq_dec i0 1) as [->|X]; [exists 2%nat|exists (i0 - 1)%nat]; unfold side_by_side; lia. Qed.
  Lemma mean_nan (p : nat -> spec_float) i0 : (1 <= i0 <= nlon)%nat -> p i0 = nan -> @loop _ N nlon (fun i s => @nadd _ N s (@ndiv _ N (p i) (@nofnat _ N nlon))) = nan.
  Proof. intros Hi E. apply (loop_nan prec emax e _ _ i0 Hi); [intros s; rewrite E; nans|intros jj; nans]. Qed.

  Lemma vorticity_u lat u v i j k i0 j0 : (1 <= i0 <= nlon)%nat -> (1 <= j <= nlat)%nat -> u i0 j0 k = nan -> u_reaches nlat i0 j0 i j -> @avort _ N nlon nlat a omega lat u v i j k = nan.
  Proof.
    intros Hi0 Hj E [Rw Co]. destruct (pole_dec nlat j) as [P|P].
    - rewrite avort_shown by assumption. apply (mean_nan (fun i => avort_interior nlon nlat a omega lat u v i (shown_row nlat j) k) i0 Hi0). apply (interior_u lat u v i0 _ k i0 j0 E eq_refl). exact Rw.
    - destruct Co as [Co|Co]; [contradiction|]. rewrite avort_own by assumption. unfold u_rows in Rw. rewrite (shown_same nlat j Hj P) in Rw. exact (interior_u lat u v i j k i0 j0 E Co Rw).
  Qed.
  Lemma vorticity_v lat u v i j k i0 j0 : (1 <= i <= nlon)%nat -> (1 <= i0 <= nlon)%nat -> (1 <= j <= nlat)%nat -> v i0 j0 k = nan -> v_reaches nlon nlat i0 j0 i j -> @avort _ N nlon nlat a omega lat u v i j k = nan.
  Proof.
    intros Hi Hi0 Hj E [Rw Co]. unfold v_rows in Rw. destruct (pole_dec nlat j) as [P|P].
    - rewrite avort_shown by assumption. destruct (a_neighbour i0 Hi0) as (i1 & Hi1 & Sd).
      apply (mean_nan (fun i => avort_interior nlon nlat a omega lat u v i (shown_row nlat j) k) i1 Hi1). rewrite Rw. exact (interior_v lat u v i1 j0 k i0 E Hi1 Hi0 Sd).
    - destruct Co as [Co|Co]; [contradiction|]. rewrite avort_own by assumption. rewrite (shown_same nlat j Hj P) in Rw. rewrite Rw. exact (interior_v lat u v i j0 k i0 E Hi Hi0 Co).
  Qed.
  Lemma zonal_nan lat u v j k i0 j0 : (1 <= i0 <= nlon)%nat -> (1 <= j <= nlat)%nat ->
    u i0 j0 k = nan /\ u_rows nlat j0 j \/ v i0 j0 k = nan /\ v_rows nlat j0 j -> @zmav _ N nlon nlat a omega lat u v j k = nan.
  Proof.
    intros Hi0 Hj [[E Rw]|[E Rw]]; unfold zmav.
    - apply (mean_nan (fun i => avort nlon nlat a omega lat u v i j k) i0 Hi0). apply (vorticity_u lat u v i0 j k i0 j0 Hi0 Hj E). split; [exact Rw|right; reflexivity].
    - destruct (a_neighbour i0 Hi0) as (i1 & Hi1 & Sd). apply (mean_nan (fun i => avort nlon nlat a omega lat u v i j k) i1 Hi1).
      apply (vorticity_v lat u v i1 j k i0 j0 Hi1 Hi0 Hj E). split; [exact Rw|right; exact Sd].
  Qed.
  Lemma stretch_theta height th tp tm sp sm f i0 j0 k0 i j k : th i0 j0 k0 = nan -> theta_reaches i0 j0 k0 i j k -> @stretch _ N H height th tp tm sp sm f i j k = nan.
  Proof. intros E (-> & -> & Hk). unfold stretch. cbv zeta. destruct Hk as [->| ->]; [rewrite Nat.add_sub|]; rewrite E; nans. Qed.
  Lemma stretch_factor height th tp tm sp sm i j k : @stretch _ N H height th tp tm sp sm nan i j k = nan.
  Proof. unfold stretch. cbv zeta. nans. Qed.
End Missing.

(** One missing value makes QGPV missing on the whole of that reach: nothing is skipped and nothing is filled in.  In particular a single
    missing wind makes a whole circle of latitude (two for the zonal wind) of QGPV of QGFieldNH18 missing. *)
Theorem C180_missing_value_fills_its_reach :
  forall (prec emax : Z) (e : elementary) (nlon nlat kmax jd : nat) (a omega H : spec_float) (height t0 stat ts0 tn0 stats statn : nat -> spec_float)
         (u v theta : arr3 spec_float) (i0 j0 k0 i j k : nat),
  (2 <= nlon)%nat -> (3 <= nlat)%nat -> (1 <= i0 <= nlon)%nat -> (1 <= i <= nlon)%nat -> (1 <= j <= nlat)%nat -> (2 <= k <= kmax - 1)%nat ->
  let N := IeeeNum prec emax e in
  let q22 := @qgpv_nhn22 _ N nlon nlat kmax a omega H height jd u v theta ts0 tn0 stats statn in
  let q18 := @qgpv_nh18 _ N nlon nlat kmax a omega H height u v theta t0 stat in
  (u i0 j0 k0 = S754_nan -> k = k0 -> (u_reaches nlat i0 j0 i j -> q22 i j k = S754_nan) /\ (u_rows nlat j0 j -> q18 i j k = S754_nan)) /\
  (v i0 j0 k0 = S754_nan -> k = k0 -> (v_reaches nlon nlat i0 j0 i j -> q22 i j k = S754_nan) /\ (v_rows nlat j0 j -> q18 i j k = S754_nan)) /\
  (theta i0 j0 k0 = S754_nan -> theta_reaches i0 j0 k0 i j k -> q22 i j k = S754_nan /\ q18 i j k = S754_nan).
Proof.
  intros prec emax e nlon nlat kmax jd a omega H height t0 stat ts0 tn0 stats statn u v theta i0 j0 k0 i j k Hlon Hlat Hi0 Hi Hj Hk N q22 q18.
  assert (L : (Nat.leb 2 k && Nat.leb k (kmax - 1))%bool = true) by (apply andb_true_intro; split; apply Nat.leb_le; lia).
  assert (Q22 : @avort _ N nlon nlat a omega (@lat_nhn22 _ N nlat) u v i j k = S754_nan -> q22 i j k = S754_nan)
    by (intros E; unfold q22, qgpv_nhn22; rewrite L; cbv zeta; rewrite E; apply nan_add_l).
  assert (Q18 : @zmav _ N nlon nlat a omega (@lat_nh18 _ N nlat) u v j k = S754_nan -> q18 i j k = S754_nan).
  { intros E. unfold q18, qgpv_nh18. rewrite L, E. unfold N. rewrite stretch_factor, nan_mul_r, nan_add_r. reflexivity. }
  split; [|split].
  - intros E ->. split; intros R.
    + apply Q22. exact (vorticity_u prec emax e nlon nlat a omega Hlon Hlat _ u v i j k0 i0 j0 Hi0 Hj E R).
    + apply Q18. apply (zonal_nan prec emax e nlon nlat a omega Hlon Hlat _ u v j k0 i0 j0 Hi0 Hj). left. split; assumption.
  - intros E ->. split; intros R.
    + apply Q22. exact (vorticity_v prec emax e nlon nlat a omega Hlon Hlat _ u v i j k0 i0 j0 Hi Hi0 Hj E R).
    + apply Q18. apply (zonal_nan prec emax e nlon nlat a omega Hlon Hlat _ u v j k0 i0 j0 Hi0 Hj). right. split; assumption.
  - intros E R. split.
    + unfold q22, qgpv_nhn22. rewrite L. cbv zeta. unfold N. rewrite (stretch_theta prec emax e H height theta _ _ _ _ _ i0 j0 k0 i j k E R), nan_mul_r, nan_add_r. reflexivity.
    + unfold q18, qgpv_nh18. rewrite L. unfold N. rewrite (stretch_theta prec emax e H height theta _ _ _ _ _ i0 j0 k0 i j k E R), nan_mul_r, nan_add_r. reflexivity.
Qed.
Print Assumptions C180_missing_value_fills_its_reach.
(** A grid of 4 x 5 points and 5 levels: a missing zonal wind at (2, 3, 3) makes the whole row 2 of NH18 missing, the pole row 1 of both
    classes, only point (2, 2) of row 2 of NHN22, and leaves row 3 of both alone. *)
Example C180_case :
  let u := fun i j k => if (Nat.eqb i 2 && Nat.eqb j 3 && Nat.eqb k 3)%bool then S754_nan else S754_zero false in
  let u' := fun _ _ _ : nat => S754_zero false in
  same_but 2 3 3 u u' /\ u 2%nat 3%nat 3%nat = S754_nan /\ u_rows 5 3 2 /\ u_rows 5 3 1 /\ u_reaches 5 2 3 2 2 /\ u_reaches 5 2 3 4 1 /\ ~ u_reaches 5 2 3 1 2 /\
  ~ u_rows 5 3 3 /\ v_rows 5 3 3 /\ v_reaches 4 5 1 3 4 3 /\ ~ v_reaches 4 5 1 3 3 3 /\ theta_reaches 1 2 3 1 2 4.
Proof.
  cbv zeta. unfold u_reaches, v_reaches, u_rows, v_rows, theta_reaches, pole_row, side_by_side, shown_row. cbn [Nat.eqb].
  split; [|split; [reflexivity|repeat split; lia]].
  intros i j k H. destruct (Nat.eqb_spec i 2); cbn [andb]; [|reflexivity]. destruct (Nat.eqb_spec j 3); cbn [andb]; [|reflexivity]. destruct (Nat.eqb_spec k 3); [|reflexivity]. contradiction H. lia.
Qed.
