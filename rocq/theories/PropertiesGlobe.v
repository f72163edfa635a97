(** Objects built from the output of hemisphere_to_globe. *)
From Verif Require Import Base BaseFacts Spec SpecFacts Grid GridProofs Pipeline RefStates Object ObjectSpec ObjectProofs ObjectProofs4
  Xarray XarraySpec XarrayProofs XarrayProofs3 GlobeSpec GlobeProofs GlobeProofs2 PropertiesXarray2 PropertiesObject.
From Verif Require Import PropertiesXarray.
From Coq Require Import ZifyNat.
Ltac Zify.zify_post_hook ::= Z.to_euclidean_division_equations.
Open Scope R_scope.

(** ** C144: identical wave activity on both hemispheres *)

(** the promise of the docstring, for one run: the dataset [s] holds a hemisphere from an exact equator; nv is the variable taken for the meridional wind *)
Definition globe_run (lib : library) (k : class) coord user (s g : latset R row_values) (nu nv nt : string) (w : qgargs) (x : outputs) : Prop :=
  data_only lib /\ match k with NH18 => True | NHN22 b => (1 <= b)%nat end /\
  hemisphere_to_globe minus_row coord user s = Ok g /\ one_hemisphere (ls_lat s) /\
  resolves (in_dataset coord s) NAMES_V user nv /\ nu <> nv /\ nt <> nv /\
  given_by g nu nv nt w /\ (forall j, (S j < w_nlat w)%nat -> w_ylat w j < w_ylat w (S j)) /\ workable k w /\ accepted_levels w /\ w_nh w = false /\
  session lib k w (fun _ _ _ => 0) = Done x.
Definition identical_activity : Prop := forall lib k coord user s g nu nv nt w x, globe_run lib k coord user s g nu nv nt w x -> same_activity w x.

(** Proved: if there is no meridional wind on the equator.  Not proved: the statement without that condition, which is false *)
Theorem C144_identical_activity_partial : forall lib k coord user s g nu nv nt w x,
  globe_run lib k coord user s g nu nv nt w x ->
  (forall l i, (l < w_nlev w)%nat -> (i < w_nlon w)%nat -> w_v w l (w_nlat w / 2)%nat i = 0) ->
  same_activity w x.
Proof.
  intros lib k coord user s g nu nv nt w x (Hl & Hk & H & Hem & Rv & Nu & Nt & Gv & Asc & Wk & Lv & NF & Hs) Still.
  assert (Un : forall m, m <> nv -> ~ resolves (in_dataset coord s) NAMES_V user m).
  { intros m Ne Rm. apply Ne. apply (PropertiesXarray.C61_names_unique (in_dataset coord s) NAMES_V user m nv); [discriminate|exact Rm|exact Rv]. }
  assert (Bal := globe_balanced coord user s g H Hem nu nv nt w Gv Asc).
  destruct (globe_fields coord user s g H Hem nu nv nt w Gv Asc Still Rv (Un nu Nu) (Un nt Nt)) as (F1 & F2 & F3).
  apply (self_mirror_activity lib k w x); try assumption.
  - exact (globe_usable coord user s g H Hem nu nv nt w Gv Asc k Wk).
  - destruct Bal as (_ & _ & [[Ev Nz]|[Od _]]); [|exact Od]. destruct (globe_size coord user s g H Hem) as (L & N3). destruct Gv as (Nl & _). rewrite Nl, L in Ev.
    replace (2 * length (ls_lat s) - 1)%nat with (1 + 2 * (length (ls_lat s) - 1))%nat in Ev by lia. rewrite Nat.even_add_mul_2 in Ev. discriminate.
  - exact (globe_symmetric coord user s g H Hem nu nv nt w Gv Asc).
  - exact (globe_in_range coord user s g H Hem nu nv nt w Gv Asc).
Qed.
Print Assumptions C144_identical_activity_partial.

(** A hemisphere of three rows; the meridional wind differs from zero at one point, on the row [at_row] *)
Definition hemi_wind (at_row : nat) : latset R row_values :=
  LS [0; 45; 90] [("u"%string, fun _ _ _ => 0); ("v"%string, fun j _ i => if Nat.eqb j at_row && Nat.eqb i 0 then 4 else 0);
                  ("t"%string, fun _ l _ => 300 * exp (- (INR l / 7)))].
Lemma hemi_globe r : exists g, hemisphere_to_globe minus_row "lat" None (hemi_wind r) = Ok g /\ ls_lat g = [-90; -45; 0; 45; 90] /\
  (exists y, lookup "u" (ls_vars g) = Some y /\ forall j l i, (j < 5)%nat -> y j l i = 0) /\
  (exists y, lookup "v" (ls_vars g) = Some y /\ forall j l i, (j < 5)%nat -> y j l i =
     if Nat.leb 2 j then if Nat.eqb (j - 2) r && Nat.eqb i 0 then 4 else 0 else - (if Nat.eqb (2 - j) r && Nat.eqb i 0 then 4 else 0)) /\
  (exists y, lookup "t" (ls_vars g) = Some y /\ forall j l i, (j < 5)%nat -> y j l i = 300 * exp (- (INR l / 7))).
Proof.
  unfold hemisphere_to_globe, is_equator, reindex, positions, hemi_wind. cbn -[INR Rltb Reqb exp Nat.eqb].
  replace (Rltb (Rabs 0) (1 / 10000)) with true by (symmetry; apply Rltb_true; rewrite Rabs_R0; lra).
  cbn -[INR Rltb Reqb exp Nat.eqb]. rdecide. cbn -[INR Rltb Reqb exp Nat.eqb]. eexists. split; [reflexivity|]. cbn -[INR exp Nat.eqb].
  split; [repeat f_equal; lra|]. split; [|split]; eexists; (split; [reflexivity|]); intros j l i Hj; unfold minus_row, concat;
    (assert (j = 0 \/ j = 1 \/ j = 2 \/ j = 3 \/ j = 4)%nat as [-> | [-> | [-> | [-> | ->]]]] by lia); cbn -[INR exp Nat.eqb]; reflexivity.
Qed.
(** the object made from it: the arguments of [eq_args] with that wind *)
Definition globe_wind (r : nat) : field3 := fun _ j i =>
  if Nat.leb 2 j then if Nat.eqb (j - 2) r && Nat.eqb i 0 then 4 else 0 else - (if Nat.eqb (2 - j) r && Nat.eqb i 0 then 4 else 0).
Definition globe_args (r : nat) : qgargs := with_data eq_args (w_u eq_args) (globe_wind r) (w_t eq_args).
Lemma globe_case r x : session eq_library NH18 (globe_args r) (fun _ _ _ => 0) = Done x ->
  exists g, globe_run eq_library NH18 "lat" None (hemi_wind r) g "u" "v" "t" (globe_args r) x.
Proof.
  intros Hs. destruct (hemi_globe r) as (g & H & L & (yu & Lu & Yu) & (yv & Lv & Yv) & yt & Lt & Yt). exists g. unfold globe_run.
  split; [exact eq_data_only|]. split; [exact I|]. split; [exact H|]. split; [|split; [|split; [discriminate|split; [discriminate|split; [|split; [|split; [|split; [|split; [reflexivity|exact Hs]]]]]]]]].
  - split; [cbn; lia|]. split; [left|].
    + intros a b Hab. cbn [hemi_wind ls_lat length] in *. assert ((a = 0 /\ b = 1) \/ (a = 0 /\ b = 2) \/ (a = 1 /\ b = 2))%nat as [(-> & ->) | [(-> & ->) | (-> & ->)]] by lia; cbn; lra.
    + split; [left; reflexivity|]. intros j Hj. cbn [hemi_wind ls_lat length] in *.
      assert (j = 0 \/ j = 1 \/ j = 2)%nat as [-> | [-> | ->]] by lia; cbn; unfold near_equator; (split; [lra|]); try reflexivity; intros A; rewrite Rabs_pos_eq in A by lra; lra.
  - apply get_name_ok; [discriminate|reflexivity].
  - unfold given_by. rewrite L. cbn [length]. split; [reflexivity|]. exists false, yu, yv, yt. split; [exact Lu|]. split; [exact Lv|]. split; [exact Lt|]. split.
    + intros j Hj. cbn [position globe_args with_data eq_args w_ylat]. assert (j = 0 \/ j = 1 \/ j = 2 \/ j = 3 \/ j = 4)%nat as [-> | [-> | [-> | [-> | ->]]]] by lia; cbn [nth INR]; lra.
    + intros l j i _ Hj _. cbn [position]. rewrite Yu, Yv, Yt by exact Hj. split; [reflexivity|]. split; reflexivity.
  - intros j _. cbn [globe_args with_data eq_args w_ylat]. rewrite S_INR. lra.
  - exact (proj2 eq_usable).
  - exact eq_accepted.
Qed.
Theorem C144_identical_activity_refuted : ~ identical_activity.
Proof.
  intros P. destruct eq_differs as (x & E & D). assert (W : eq_args = globe_args 0).
  { unfold globe_args, with_data, eq_args. cbn [w_nlon w_nlat w_nlev w_ylat w_plev w_u w_t w_kmax w_maxit w_dz w_npart w_tol w_rjac w_H w_cp w_rr w_om w_a w_nh w_evenly]. f_equal.
    apply FunctionalExtensionality.functional_extensionality; intros l. apply FunctionalExtensionality.functional_extensionality; intros j.
    apply FunctionalExtensionality.functional_extensionality; intros i. unfold eq_wind, globe_wind.
    destruct j as [|[|[|j]]]; cbn [Nat.leb Nat.sub Nat.eqb andb]; try reflexivity; lra. }
  rewrite W in E, D. destruct (globe_case 0 x E) as (g & G). exact (D (P _ _ _ _ _ _ _ _ _ _ _ G)).
Qed.
Print Assumptions C144_identical_activity_refuted.
(** the hypotheses of the partial theorem hold with the wind on the second row *)
Example C144_applies : exists g x, globe_run eq_library NH18 "lat" None (hemi_wind 1) g "u" "v" "t" (globe_args 1) x /\
  (forall l i, (l < w_nlev (globe_args 1))%nat -> (i < w_nlon (globe_args 1))%nat -> w_v (globe_args 1) l (w_nlat (globe_args 1) / 2)%nat i = 0) /\
  w_v (globe_args 1) 0%nat 3%nat 0%nat = 4.
Proof.
  destruct (global_session eq_library NH18 (globe_args 1) (fun _ _ _ => 0)) as [x Hx]; [exact eq_usable|exact eq_accepted|reflexivity|].
  destruct (globe_case 1 x Hx) as [g G]. exists g, x. split; [exact G|]. split; [|reflexivity]. intros l i _ _. cbn [globe_args with_data eq_args w_v w_nlat].
  change (5 / 2)%nat with 2%nat. reflexivity.
Qed.

(** ** C145: which globes the constructor accepts *)
Lemma odd_without_zero n (y : nat -> R) : (3 <= n)%nat -> Nat.even n = false -> (forall j, (j < n)%nat -> y j <> 0) -> y 0%nat < y 1%nat -> check_and_flip_ylat n y = Raise TypeError.
Proof.
  intros N3 Od Nz Up. unfold check_and_flip_ylat. destruct (Nat.ltb_spec n 2); [lia|]. rewrite Od. cbn [andb].
  assert (C : count_zero n y = 0%nat) by (apply count_zero_0; intros j Hj; cbn [neqb RNum nzero]; apply Reqb_false, Nz; exact Hj). rewrite C. cbn [Nat.eqb].
  destruct (nltb _ _); reflexivity.
Qed.
Theorem C145_globe_accepted_exactly_with_an_exact_equator : forall lib k coord user (s g : latset R row_values) nu nv nt w nc,
  hemisphere_to_globe minus_row coord user s = Ok g -> (3 <= length (ls_lat s))%nat ->
  given_by g nu nv nt w -> (forall j, (S j < w_nlat w)%nat -> w_ylat w j < w_ylat w (S j)) -> workable k w -> accepted_levels w ->
  (In 0 (ls_lat s) -> exists x, session lib k w nc = Done x /\ all_returned x) /\
  (~ In 0 (ls_lat s) -> session lib k w nc = Raise TypeError).
Proof.
  intros lib k coord user s g nu nv nt w nc H N3 Gv Asc Wk Lv.
  destruct (C60_mirror_extension minus_row coord user s g H) as (o & Ho & L & _ & _ & Own & Img & _).
  destruct Gv as (Nl & rv & u & v & t & _ & _ & _ & Y & _).
  set (n := length (ls_lat s)) in *. set (N := length (ls_lat g)) in *.
  assert (Od : Nat.even (w_nlat w) = false).
  { rewrite Nl, L. replace (2 * n - 1)%nat with (1 + 2 * (n - 1))%nat by lia. rewrite Nat.even_add_mul_2. reflexivity. }
  assert (As : forall a b, (a < b < w_nlat w)%nat -> w_ylat w a < w_ylat w b).
  { intros a b Hab. induction b as [|b IH]; [lia|]. assert (St := Asc b ltac:(lia)). destruct (Nat.eq_dec a b) as [->|]; [exact St|]. specialize (IH ltac:(lia)). lra. }
  assert (Pos : forall j, (j < N)%nat -> position rv N (position rv N j) = j /\ (position rv N j < N)%nat /\ position rv N (N - 1 - j) = (N - 1 - position rv N j)%nat)
    by (intros j Hj; unfold position; destruct rv; lia).
  assert (Row : forall r, (r < N)%nat -> nth r (ls_lat g) 0 = w_ylat w (position rv N r)).
  { intros r Hr. destruct (Pos r Hr) as (P1 & P2 & _). rewrite Y by exact P2. rewrite P1. reflexivity. }
  split.
  - intros I0. destruct (In_nth _ _ 0 I0) as (j & Hj & Zj). fold n in Hj. specialize (Own j Hj). rewrite Zj in Own.
    assert (Mid : (o + j = n - 1)%nat).
    { destruct (Nat.eq_dec (o + j) (n - 1)) as [E|Ne]; [exact E|]. specialize (Img j Hj Ne). rewrite Zj in Img.
      rewrite Row in Own by lia. rewrite Row in Img by lia. replace (2 * (n - 1) - (o + j))%nat with (N - 1 - (o + j))%nat in Img by lia.
      destruct (Pos (o + j)%nat ltac:(lia)) as (_ & Q & P3). rewrite P3 in Img.
      assert (position rv N (o + j) <> (N - 1 - position rv N (o + j))%nat) by (unfold position; destruct rv; lia).
      destruct (Nat.lt_total (position rv N (o + j)) (N - 1 - position rv N (o + j))) as [T|[T|T]]; [|lia|];
        [assert (X := As (position rv N (o + j)) (N - 1 - position rv N (o + j))%nat ltac:(lia))|assert (X := As (N - 1 - position rv N (o + j))%nat (position rv N (o + j)) ltac:(lia))]; lra. }
    assert (U : usable k w).
    { split; [|exact Wk]. split; [lia|]. split; [exact Asc|]. right. split; [exact Od|].
      rewrite Row in Own by lia. rewrite <- Own. f_equal. rewrite Nl, Mid. unfold position. destruct rv; lia. }
    destruct (C131_session_succeeds_exactly_when lib k w nc U) as (E & A & _).
    destruct (proj2 E) as [x Hx]; [split; [exact Lv|intros _; exact Od]|]. exists x. split; [exact Hx|]. apply A. exact Hx.
  - intros N0. assert (Nz : forall j, (j < w_nlat w)%nat -> w_ylat w j <> 0).
    { intros j Hj Zj. rewrite Nl in Hj. assert (Q := Row (position rv N j)). destruct (Pos j Hj) as (P1 & P2 & _). rewrite P1 in Q. specialize (Q P2). rewrite Zj in Q. clear Zj P1. set (r := position rv N j) in *. clearbody r.
      apply N0. destruct (Nat.le_gt_cases o r) as [B|B]; [destruct (Nat.lt_ge_cases (r - o) n) as [B2|B2]|].
      - assert (X := Own (r - o)%nat B2). replace (o + (r - o))%nat with r in X by lia. rewrite Q in X. rewrite X. apply nth_In. exact B2.
      - assert (X := Img (2 * (n - 1) - r - o)%nat ltac:(lia) ltac:(lia)). replace (2 * (n - 1) - (o + (2 * (n - 1) - r - o)))%nat with r in X by lia. rewrite Q in X.
        replace 0 with (nth (2 * (n - 1) - r - o) (ls_lat s) 0) by lra. apply nth_In. lia.
      - assert (X := Img (2 * (n - 1) - r - o)%nat ltac:(lia) ltac:(lia)). replace (2 * (n - 1) - (o + (2 * (n - 1) - r - o)))%nat with r in X by lia. rewrite Q in X.
        replace 0 with (nth (2 * (n - 1) - r - o) (ls_lat s) 0) by lra. apply nth_In. lia. }
    assert (Rf := odd_without_zero (w_nlat w) (w_ylat w) ltac:(lia) Od Nz (Asc 0%nat ltac:(lia))).
    apply session_refused. unfold grid_of, qg_init. destruct Lv as (N2 & V). destruct Wk as (NL & _). destruct (w_evenly w).
    + destruct (Nat.ltb_spec (w_nlev w) 2); [lia|]. rewrite own_shape, Rf by lia. reflexivity.
    + rewrite (proj2 (valid_plev w N2) (V eq_refl)). rewrite own_shape, Rf by lia. reflexivity.
Qed.
Print Assumptions C145_globe_accepted_exactly_with_an_exact_equator.
(** both cases occur: an equator at 0 and one at 0.00001 degrees, which hemisphere_to_globe takes for the equator *)
Definition near_hemi : latset R row_values := LS [1 / 100000; 45; 90] (ls_vars (hemi_wind 1)).
Definition near_args : qgargs :=
  {| w_nlon := 4; w_nlat := 5; w_nlev := 3; w_ylat := fun j => nth j [-90; -45; 1 / 100000; 45; 90] 0;
     w_plev := w_plev eq_args; w_u := w_u eq_args; w_v := globe_wind 1; w_t := w_t eq_args;
     w_kmax := 3; w_maxit := 10; w_dz := 1; w_npart := Some 2%nat; w_tol := 1; w_rjac := 1; w_H := 7; w_cp := 1; w_rr := 1; w_om := 1; w_a := 1;
     w_nh := false; w_evenly := true |}.
Example C145_applies :
  (exists g, hemisphere_to_globe minus_row "lat" None (hemi_wind 1) = Ok g /\ given_by g "u" "v" "t" (globe_args 1) /\ In 0 (ls_lat (hemi_wind 1)) /\
     workable NH18 (globe_args 1) /\ accepted_levels (globe_args 1) /\ forall j, (S j < 5)%nat -> w_ylat (globe_args 1) j < w_ylat (globe_args 1) (S j)) /\
  (exists g, hemisphere_to_globe minus_row "lat" None near_hemi = Ok g /\ given_by g "u" "v" "t" near_args /\ ~ In 0 (ls_lat near_hemi) /\
     workable NH18 near_args /\ accepted_levels near_args /\ forall j, (S j < 5)%nat -> w_ylat near_args j < w_ylat near_args (S j)).
Proof.
  split.
  - destruct (global_session eq_library NH18 (globe_args 1) (fun _ _ _ => 0)) as [x Hx]; [exact eq_usable|exact eq_accepted|reflexivity|].
    destruct (globe_case 1 x Hx) as (g & _ & _ & H & _ & _ & _ & _ & Gv & Asc & Wk & Lv & _). exists g. split; [exact H|]. split; [exact Gv|]. split; [left; reflexivity|].
    split; [exact Wk|]. split; [exact Lv|]. exact Asc.
  - unfold hemisphere_to_globe, is_equator, reindex, positions, near_hemi, hemi_wind. cbn -[INR Rltb Reqb exp Nat.eqb].
    replace (Rltb (Rabs (1 / 100000)) (1 / 10000)) with true by (symmetry; apply Rltb_true; rewrite Rabs_right; lra).
    cbn -[INR Rltb Reqb exp Nat.eqb]. rdecide. cbn -[INR Rltb Reqb exp Nat.eqb]. eexists. split; [reflexivity|].
    split; [|split; [intros [E|[E|[E|[]]]]; lra|split; [exact (proj2 eq_usable)|split; [exact eq_accepted|]]]].
    + unfold given_by. cbn -[INR exp Nat.eqb]. split; [reflexivity|]. exists false. do 3 eexists. split; [reflexivity|]. split; [reflexivity|]. split; [reflexivity|]. split.
      * intros j Hj. cbn [position]. assert (j = 0 \/ j = 1 \/ j = 2 \/ j = 3 \/ j = 4)%nat as [-> | [-> | [-> | [-> | ->]]]] by lia; cbn [nth]; lra.
      * intros l j i _ Hj _. unfold minus_row, concat, position, globe_wind, uniform_theta.
        assert (j = 0 \/ j = 1 \/ j = 2 \/ j = 3 \/ j = 4)%nat as [-> | [-> | [-> | [-> | ->]]]] by lia; cbn -[INR exp Nat.eqb]; (split; [reflexivity|split; reflexivity]).
    + intros j Hj. assert (j = 0 \/ j = 1 \/ j = 2 \/ j = 3)%nat as [-> | [-> | [-> | ->]]] by lia; cbn [near_args w_ylat nth]; lra.
Qed.
