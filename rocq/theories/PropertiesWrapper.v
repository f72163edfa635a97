(** Property theorems for the one-level functions of wrapper.py. *)
From Coq Require Import ZifyNat.
From Verif Require Import BaseFacts SpecFacts WrapperSpec Wrapper LwaProofs EqvlatProofs EqvlatProofs2 WrapperProofs Barotropic BarotropicProofs.
Ltac Zify.zify_post_hook ::= Z.to_euclidean_division_equations.
Open Scope R_scope.

(** rows of the hemispheric domain: nlat_s, by default half of the rows *)
Definition domain_rows (nlat : nat) (nlat_s : option nat) : nat := match nlat_s with Some s => s | None => (nlat / 2)%nat end.
Definition contours (s : nat) (n_points : option nat) : nat := match n_points with Some n => n | None => s end.

(** ** C62: both hemispheres *)
Theorem C62_both_hemispheres nlat nlon ylat v area dmu os on a q l :
  qgpv_eqlat_lwa nlat nlon ylat v area dmu os on a = Returns (q, l) ->
  let s := domain_rows nlat os in let n := contours s on in
  (* the southern rows hold the reference and the wave activity of the southern domain *)
  (forall lo hi, (2 <= n)%nat -> 0 < a -> is_min s nlon v lo -> is_max s nlon v hi ->
     (forall j i, (j < s)%nat -> (i < nlon)%nat -> 0 <= area j i) -> total s nlon area <= sphere a ->
     forall j, (j < s)%nat -> (j + s < nlat)%nat -> reference_value s nlon v area n a lo hi (ylat j) (q j)) /\
  (forall j i, (j < s)%nat -> (j + s < nlat)%nat -> l j i = wave_activity s v q dmu j i) /\
  (* the northern rows the reference of the mirrored field, in opposite order and sign, and the wave activity of the northern domain *)
  (forall lo hi, (2 <= n)%nat -> 0 < a -> is_min s nlon (mirror_field nlat v) lo -> is_max s nlon (mirror_field nlat v) hi ->
     (forall j i, (j < s)%nat -> (i < nlon)%nat -> 0 <= area j i) -> total s nlon area <= sphere a ->
     forall j, (j < s)%nat -> reference_value s nlon (mirror_field nlat v) area n a lo hi (ylat j) (- q (nlat - 1 - j)%nat)) /\
  (forall j i, (j < s)%nat -> l (nlat - s + j)%nat i = wave_activity s (from_row (nlat - s) v) (from_row (nlat - s) q) (from_row (nlat - s) dmu) j i) /\
  (* and rows in neither domain hold zero *)
  (forall j i, (s <= j)%nat -> (j + s < nlat)%nat -> q j = 0 /\ l j i = 0).
Proof.
  intros H s n. destruct (qgpv_value _ _ _ _ _ _ _ _ _ _ _ H) as (Hs & Hx & Hn & S1 & N1 & M1 & LS & LN & LM).
  split; [|split; [exact LS|split; [|split; [exact LN|]]]].
  - intros lo hi H2 Ha Hlo Hhi Hw Ht j Hj Hjs. rewrite (S1 j Hj Hjs). unfold profile, reference_value. apply grid_curve; assumption.
  - intros lo hi H2 Ha Hlo Hhi Hw Ht j Hj. rewrite (N1 j Hj), Ropp_involutive. unfold profile, reference_value. apply grid_curve; assumption.
  - intros j i H1 H2. split; [apply M1; assumption|apply LM; assumption].
Qed.
Print Assumptions C62_both_hemispheres.
(** with an even number of rows (and no nlat_s) every row belongs to a domain; with an odd number the equator's is zero *)
Theorem C62_equator_row nlat nlon ylat v area dmu on a q l :
  qgpv_eqlat_lwa nlat nlon ylat v area dmu None on a = Returns (q, l) ->
  (Nat.even nlat = true -> forall j, (j < nlat)%nat -> (j < domain_rows nlat None)%nat \/ (nlat - domain_rows nlat None <= j)%nat) /\
  (Nat.even nlat = false -> q (nlat / 2)%nat = 0 /\ forall i, l (nlat / 2)%nat i = 0).
Proof.
  intros H. destruct (C62_both_hemispheres _ _ _ _ _ _ _ _ _ _ _ H) as (_ & _ & _ & _ & M). cbn [domain_rows] in *. split.
  - intros E j Hj. apply Nat.even_spec in E. destruct E as (m & ->). lia.
  - intros E. assert (O : Nat.odd nlat = true) by (unfold Nat.odd; rewrite E; reflexivity). apply Nat.odd_spec in O. destruct O as (m & Em).
    split; [apply (M (nlat / 2)%nat 0%nat); lia|]. intros i. apply (M (nlat / 2)%nat i); lia.
Qed.
Print Assumptions C62_equator_row.
(** the mirrored field has the mirrored reference *)
Theorem C62_reference_mirrors nlat nlon ylat v area dmu os on a q l q' l' :
  qgpv_eqlat_lwa nlat nlon ylat v area dmu os on a = Returns (q, l) ->
  qgpv_eqlat_lwa nlat nlon ylat (mirror_field nlat v) area dmu os on a = Returns (q', l') ->
  (2 * domain_rows nlat os <= nlat)%nat -> forall j, (j < nlat)%nat -> q' j = mirror_profile nlat q j.
Proof. exact (qgpv_mirror nlat nlon ylat v area dmu os on a q l q' l'). Qed.
Print Assumptions C62_reference_mirrors.
(** its wave activity is mirrored up to the anomaly of the row itself (and not at the edge rows of the domains) *)
Theorem C62_wave_activity_mirrors_partial nlat nlon ylat v area dmu os on a q l q' l' :
  qgpv_eqlat_lwa nlat nlon ylat v area dmu os on a = Returns (q, l) ->
  qgpv_eqlat_lwa nlat nlon ylat (mirror_field nlat v) area dmu os on a = Returns (q', l') ->
  (2 * domain_rows nlat os <= nlat)%nat -> (forall j, (j < nlat)%nat -> dmu (nlat - 1 - j)%nat = dmu j) ->
  forall j i, (0 < j)%nat -> (S j < domain_rows nlat os)%nat ->
    l' j i = l (nlat - 1 - j)%nat i + (q (nlat - 1 - j)%nat - v (nlat - 1 - j)%nat i) * dmu j.
Proof. exact (qgpv_mirror_lwa nlat nlon ylat v area dmu os on a q l q' l'). Qed.
Print Assumptions C62_wave_activity_mirrors_partial.
Definition wave_activity_mirrors : Prop :=
  forall nlat nlon ylat v area dmu os on a q l q' l',
  qgpv_eqlat_lwa nlat nlon ylat v area dmu os on a = Returns (q, l) ->
  qgpv_eqlat_lwa nlat nlon ylat (mirror_field nlat v) area dmu os on a = Returns (q', l') ->
  (2 * domain_rows nlat os <= nlat)%nat -> (forall j, (j < nlat)%nat -> dmu (nlat - 1 - j)%nat = dmu j) ->
  forall j i, (0 < j)%nat -> (S j < domain_rows nlat os)%nat -> (i < nlon)%nat -> l' j i = l (nlat - 1 - j)%nat i.
Theorem C62_wave_activity_mirrors_refuted : ~ wave_activity_mirrors.
Proof.
  intros H. set (v := fun (j i : nat) => INR i).
  destruct (qgpv_returns 6 2 (fun j => -90 + 36 * INR j) v (fun _ _ => 1) (fun _ => 1) None None 1 ltac:(cbn; lia) ltac:(lia) ltac:(cbn; lia)) as (q & l & E).
  destruct (qgpv_returns 6 2 (fun j => -90 + 36 * INR j) (mirror_field 6 v) (fun _ _ => 1) (fun _ => 1) None None 1 ltac:(cbn; lia) ltac:(lia) ltac:(cbn; lia)) as (q' & l' & E').
  assert (D : forall j, (j < 6)%nat -> (fun _ : nat => 1) (6 - 1 - j)%nat = (fun _ : nat => 1) j) by reflexivity.
  assert (P := C62_wave_activity_mirrors_partial _ _ _ _ _ _ _ _ _ _ _ _ _ E E' ltac:(cbn; lia) D 1%nat).
  assert (X := H _ _ _ _ _ _ _ _ _ _ _ _ _ E E' ltac:(cbn; lia) D 1%nat).
  assert (P0 := P 0%nat ltac:(lia) ltac:(cbn; lia)). assert (P1 := P 1%nat ltac:(lia) ltac:(cbn; lia)).
  assert (X0 := X 0%nat ltac:(lia) ltac:(cbn; lia) ltac:(lia)). assert (X1 := X 1%nat ltac:(lia) ltac:(cbn; lia) ltac:(lia)).
  unfold v in P0, P1. cbn in P0, P1, X0, X1. lra.
Qed.
Print Assumptions C62_wave_activity_mirrors_refuted.
Example C62_case : exists q l q' l',
  let v := fun j i : nat => INR (j * j) + INR i in
  qgpv_eqlat_lwa 7 2 (fun j => -90 + 30 * INR j) v (fun _ _ => 1) (fun _ => 1) None (Some 5%nat) 1 = Returns (q, l) /\
  qgpv_eqlat_lwa 7 2 (fun j => -90 + 30 * INR j) (mirror_field 7 v) (fun _ _ => 1) (fun _ => 1) None (Some 5%nat) 1 = Returns (q', l') /\
  is_min 3 2 v 0 /\ is_max 3 2 v 5 /\ is_min 3 2 (mirror_field 7 v) (-37) /\ is_max 3 2 (mirror_field 7 v) (-16) /\ total 3 2 (fun _ _ => 1) <= sphere 1.
Proof.
  destruct (qgpv_returns 7 2 (fun j => -90 + 30 * INR j) (fun j i : nat => INR (j * j) + INR i) (fun _ _ => 1) (fun _ => 1) None (Some 5%nat) 1 ltac:(cbn; lia) ltac:(lia) ltac:(cbn; lia)) as (q & l & E).
  destruct (qgpv_returns 7 2 (fun j => -90 + 30 * INR j) (mirror_field 7 (fun j i : nat => INR (j * j) + INR i)) (fun _ _ => 1) (fun _ => 1) None (Some 5%nat) 1 ltac:(cbn; lia) ltac:(lia) ltac:(cbn; lia)) as (q' & l' & E').
  exists q, l, q', l'. cbv zeta. split; [exact E|]. split; [exact E'|].
  assert (C : forall (P : nat -> nat -> Prop), P 0%nat 0%nat -> P 0%nat 1%nat -> P 1%nat 0%nat -> P 1%nat 1%nat -> P 2%nat 0%nat -> P 2%nat 1%nat -> forall j i, (j < 3)%nat -> (i < 2)%nat -> P j i).
  { intros P P1 P2 P3 P4 P5 P6 [|[|[|j]]] [|[|i]] Hj Hi; try assumption; lia. }
  assert (HP := PI2_3_2).
  repeat split.
  - exists 0%nat, 0%nat. split; [lia|]. split; [lia|]. cbn. lra.
  - apply C; cbn; lra.
  - exists 2%nat, 1%nat. split; [lia|]. split; [lia|]. cbn. lra.
  - apply C; cbn; lra.
  - exists 0%nat, 1%nat. split; [lia|]. split; [lia|]. unfold mirror_field. cbn. lra.
  - apply C; unfold mirror_field; cbn; lra.
  - exists 2%nat, 0%nat. split; [lia|]. split; [lia|]. unfold mirror_field. cbn. lra.
  - apply C; unfold mirror_field; cbn; lra.
  - unfold total, sphere. rewrite !Sum_rsum. cbn. lra.
Qed.

(** ** C63: the vgrad option *)
(** eqvlat_bracket_hemispheric cannot be called at all; qgpv_eqlat_lwa_options cannot be called with vgrad *)
Theorem C63_vgrad_refuted nlat nlon ylat (v area : nat -> nat -> R) dmu os on a :
  (forall vgrad, eqvlat_bracket_hemispheric nlat nlon ylat v area os on a vgrad = RaisesTypeError) /\
  (forall vgrad nc, qgpv_eqlat_lwa_options nlat nlon ylat v area dmu os on (Some vgrad) nc a = RaisesTypeError).
Proof. split; intros; reflexivity. Qed.
Print Assumptions C63_vgrad_refuted.
(** the other options are accepted *)
Theorem C63_without_vgrad_partial nlat nlon ylat (v area : nat -> nat -> R) dmu os on a nc :
  (0 < domain_rows nlat os <= nlat)%nat -> (0 < nlon)%nat -> (0 < contours (domain_rows nlat os) on)%nat ->
  exists r, qgpv_eqlat_lwa_options nlat nlon ylat v area dmu os on None nc a = Returns r /\ o_brac r = None /\
    (o_capsigma r = None <-> nc = None).
Proof.
  intros Hs Hx Hn. unfold qgpv_eqlat_lwa_options. rewrite sliced_runs by assumption. eexists. split; [reflexivity|]. cbn [o_brac o_capsigma].
  split; [reflexivity|]. destruct nc; split; congruence.
Qed.
Print Assumptions C63_without_vgrad_partial.
Example C63_case : (0 < domain_rows 7 None <= 7)%nat /\ (0 < contours (domain_rows 7 None) (Some 5%nat))%nat.
Proof. cbn. lia. Qed.

(** ** C115: the variants agree *)
Theorem C115_variants_agree nlat nlon ylat (v f area : nat -> nat -> R) dmu os on a q l c :
  qgpv_eqlat_lwa_ncforce nlat nlon ylat v f area dmu os on a = Returns (q, l, c) ->
  qgpv_eqlat_lwa nlat nlon ylat v area dmu os on a = Returns (q, l) /\
  qgpv_eqlat_lwa_options nlat nlon ylat v area dmu os on None (Some f) a = Returns (OptionsResult q l None (Some c)) /\
  qgpv_eqlat_lwa_options nlat nlon ylat v area dmu os on None None a = Returns (OptionsResult q l None None).
Proof.
  intros H. assert (P := forced_plain nlat nlon ylat v f area dmu os on a). rewrite H in P. split; [exact P|].
  rewrite options_plain, options_forced, H, P. split; reflexivity.
Qed.
Print Assumptions C115_variants_agree.
(** and the forcing term is the integral of the forcing over the displaced region of each domain *)
Theorem C115_forcing_term nlat nlon ylat (v f area : nat -> nat -> R) dmu os on a q l c :
  qgpv_eqlat_lwa_ncforce nlat nlon ylat v f area dmu os on a = Returns (q, l, c) ->
  let s := domain_rows nlat os in
  (forall j i, (j < s)%nat -> (j + s < nlat)%nat -> c j i = forcing_integral s v q dmu f j i) /\
  (forall j i, (j < s)%nat -> c (nlat - s + j)%nat i =
     forcing_integral s (from_row (nlat - s) v) (from_row (nlat - s) q) (from_row (nlat - s) dmu) (from_row (nlat - s) f) j i).
Proof. exact (forced_value nlat nlon ylat v f area dmu os on a q l c). Qed.
Print Assumptions C115_forcing_term.
Example C115_case : exists q l c, qgpv_eqlat_lwa_ncforce 7 2 (fun j => -90 + 30 * INR j) (fun j i : nat => INR (j * j) + INR i) (fun j i => INR i) (fun _ _ => 1) (fun _ => 1) None (Some 5%nat) 1 = Returns (q, l, c).
Proof. unfold qgpv_eqlat_lwa_ncforce. rewrite sliced_runs by (cbn; lia). do 3 eexists. reflexivity. Qed.

(** ** C116: wave activity from the returned reference *)
Theorem C116_recomputed_wave_activity nlat nlon ylat (v area : nat -> nat -> R) dmu os on a q l l' :
  qgpv_eqlat_lwa nlat nlon ylat v area dmu os on a = Returns (q, l) -> (2 * domain_rows nlat os <= nlat)%nat ->
  qgpv_input_qref_to_compute_lwa nlat nlon q v dmu os = Returns l' ->
  forall j i, (j < nlat)%nat -> l' j i = l j i.
Proof.
  intros H H2 H' j i Hj. destruct (qgpv_value _ _ _ _ _ _ _ _ _ _ _ H) as (Hs & Hx & Hn & _ & _ & _ & LS & LN & LM).
  destruct (input_value _ _ _ _ _ _ _ H') as (_ & LS' & LN' & LM').
  change (domain_rows nlat os) with (or_default os (nlat / 2)) in H2. set (s := or_default os (nlat / 2)) in *.
  destruct (Nat.lt_ge_cases j s) as [L|L].
  - rewrite LS, LS' by lia. reflexivity.
  - destruct (Nat.lt_ge_cases (j + s) nlat) as [L2|L2].
    + rewrite LM, LM' by lia. reflexivity.
    + replace j with (nlat - s + (j - (nlat - s)))%nat by lia. rewrite LN, LN' by lia. reflexivity.
Qed.
Print Assumptions C116_recomputed_wave_activity.
Example C116_case : (2 * domain_rows 7 None <= 7)%nat /\ (forall q, exists l, qgpv_input_qref_to_compute_lwa 7 2 q (fun j i : nat => INR (j * j) + INR i) (fun _ => 1) None = Returns l).
Proof. split; [cbn; lia|]. intros q. unfold qgpv_input_qref_to_compute_lwa. rewrite sliced_runs by (cbn; lia). eexists. reflexivity. Qed.

(** ** C117: function and object *)
Theorem C117_function_and_object_agree nlat nlon ylat pv area dphi npart radius flag q o :
  let d := match dphi with Some d => d | None => default_dphi nlat end in
  barotropic_eqlat_lwa nlat nlon ylat pv
    (match area with Some w => w | None => default_area nlon ylat d radius end)
    (fun j => radius * Rabs (cos (ylat j * (PI / 180))) * d j) npart radius flag = Returns (q, o) ->
  snd (brun (bf_init nlat nlon ylat pv area dphi npart radius flag) [ReadEqvlat; ReadLwa]) = [OEqv q; OLwa o].
Proof.
  intros d H. rewrite lwa_value. unfold barotropic_eqlat_lwa in H. apply sliced_ok in H. destruct H as (_ & H).
  fold d. set (w := match area with Some w => w | None => default_area nlon ylat d radius end) in *.
  change (match npart with Some n => n | None => nlat end) with (or_default npart nlat).
  rewrite fst_eqvlat_fawa. rewrite <- (fst_eqvlat_fawa nlat nlon ylat pv w (or_default npart nlat) radius true).
  destruct (eqvlat_fawa nlat nlon ylat pv w (or_default npart nlat) radius true) as (q0 & f0). cbn [fst].
  destruct (lwa nlat pv q0 _ flag None) as (o0 & s0) eqn:El in H. apply returns_inj in H. injection H as <- <-.
  rewrite El. reflexivity.
Qed.
Print Assumptions C117_function_and_object_agree.
Example C117_case : exists q o, barotropic_eqlat_lwa 5 4 (fun j => -90 + 45 * INR j) (fun j i => INR (j + i)) (default_area 4 (fun j => -90 + 45 * INR j) (default_dphi 5) 1)
  (fun j => 1 * Rabs (cos ((-90 + 45 * INR j) * (PI / 180))) * default_dphi 5 j) None 1 true = Returns (q, o).
Proof. unfold barotropic_eqlat_lwa. rewrite sliced_runs by (cbn; lia). do 2 eexists. reflexivity. Qed.

(** ** C118: surface wave activity *)
(** southern rows: no wave activity exactly where no air of the row's reference temperature is displaced *)
Theorem C118_southern_undisturbed_partial nlat nlon ylat th area dmu os on a q l :
  theta_lwa nlat nlon ylat th area dmu os on a = Returns (q, l) -> let s := domain_rows nlat os in
  (forall r, (r < s)%nat -> 0 < dmu r) -> forall j i, (S j < s)%nat -> (j + s < nlat)%nat ->
  (l j i = 0 <-> (forall r, (j < r < s)%nat -> q j <= th r i) /\ (forall r, (r <= j)%nat -> th r i <= q j)).
Proof.
  intros H s Hd j i Hj Hjs. destruct (theta_value _ _ _ _ _ _ _ _ _ _ _ H) as (_ & _ & _ & _ & _ & LS & _). change (or_default os (nlat / 2)) with s in LS.
  rewrite LS by lia. assert (Z := total_zero_iff s th q dmu None j i Hj Hd). rewrite total_spec in Z by lia. rewrite <- Z. unfold wave_activity. split; congruence.
Qed.
Print Assumptions C118_southern_undisturbed_partial.
(** northern rows: the same test is applied, although temperature decreases towards the northern pole *)
Theorem C118_northern_reversed nlat nlon ylat th area dmu os on a q l :
  theta_lwa nlat nlon ylat th area dmu os on a = Returns (q, l) -> let s := domain_rows nlat os in
  (forall r, (r < nlat)%nat -> 0 < dmu r) -> forall j i, (nlat - s <= j)%nat -> (S j < nlat)%nat ->
  (l j i = 0 <-> (forall r, (j < r < nlat)%nat -> q j <= th r i) /\ (forall r, (nlat - s <= r <= j)%nat -> th r i <= q j)).
Proof.
  intros H s Hd j i H1 H2. destruct (theta_value _ _ _ _ _ _ _ _ _ _ _ H) as (Hs & _ & _ & _ & _ & _ & LN). change (or_default os (nlat / 2)) with s in Hs, LN.
  assert (E := LN (j - (nlat - s))%nat i ltac:(lia)). replace (nlat - s + (j - (nlat - s)))%nat with j in E by lia. rewrite E.
  assert (Z := total_zero_iff s (from_row (nlat - s) th) (from_row (nlat - s) q) (from_row (nlat - s) dmu) None (j - (nlat - s))%nat i ltac:(lia) ltac:(intros r Hr; apply Hd; lia)).
  rewrite total_spec in Z by lia. fold (wave_activity s (from_row (nlat - s) th) (from_row (nlat - s) q) (from_row (nlat - s) dmu) (j - (nlat - s)) i) in Z.
  set (x := wave_activity _ _ _ _ _ _) in *. assert (X : x = 0 <-> undisturbed s (from_row (nlat - s) th) (from_row (nlat - s) q) (j - (nlat - s)) i) by (rewrite <- Z; split; congruence).
  rewrite X. clear - Hs H1 H2. unfold undisturbed, from_row. split; intros (Z1 & Z2); split; intros r Hr.
  - specialize (Z1 (r - (nlat - s))%nat ltac:(lia)). replace (nlat - s + (r - (nlat - s)))%nat with r in Z1 by lia. replace (nlat - s + (j - (nlat - s)))%nat with j in Z1 by lia. exact Z1.
  - specialize (Z2 (r - (nlat - s))%nat ltac:(lia)). replace (nlat - s + (r - (nlat - s)))%nat with r in Z2 by lia. replace (nlat - s + (j - (nlat - s)))%nat with j in Z2 by lia. exact Z2.
  - replace (nlat - s + (j - (nlat - s)))%nat with j by lia. apply Z1. lia.
  - replace (nlat - s + (j - (nlat - s)))%nat with j by lia. apply Z2. lia.
Qed.
Print Assumptions C118_northern_reversed.
(** expected: no wave activity where all air poleward of the row is colder and all air equatorward is warmer than its reference *)
Definition undisturbed_is_zero : Prop := forall nlat nlon ylat th area dmu os on a q l,
  theta_lwa nlat nlon ylat th area dmu os on a = Returns (q, l) -> (forall r, (r < nlat)%nat -> 0 < dmu r) ->
  (forall j i, (j < nlat)%nat -> (i < nlon)%nat -> 0 <= area j i) -> 0 < a -> total nlat nlon area <= sphere a ->
  forall j i, (nlat - domain_rows nlat os <= j)%nat -> (S j < nlat)%nat -> (i < nlon)%nat ->
  (forall r, (j < r < nlat)%nat -> th r i <= q j) -> (forall r, (nlat - domain_rows nlat os <= r <= j)%nat -> q j <= th r i) -> l j i = 0.
Definition cold_poles (j i : nat) : R := match j with 1%nat | 2%nat => 2 | _ => 1 end.
Definition no_pole_area (j i : nat) : R := match j with 1%nat | 2%nat => 1 | _ => 0 end.
Lemma cold_reference q l : theta_lwa 4 1 (fun j => -90 + 60 * INR j) cold_poles no_pole_area (fun _ => 1) None None 1 = Returns (q, l) -> q 2%nat = 2.
Proof.
  intros H. destruct (theta_value _ _ _ _ _ _ _ _ _ _ _ H) as (_ & _ & _ & _ & N & _). specialize (N 1%nat ltac:(cbn; lia)).
  cbn [or_default] in N. change (4 / 2)%nat with 2%nat in N. change (4 - 1 - 1)%nat with 2%nat in N. rewrite N. unfold profile.
  assert (HP := PI2_3_2). 
  assert (W : forall j i, (j < 2)%nat -> (i < 1)%nat -> 0 <= no_pole_area j i) by (intros [|[|[|j]]] i _ _; cbn; lra).
  assert (T : total 2 1 no_pole_area <= sphere 1) by (unfold total, sphere; rewrite !Sum_rsum; cbn; lra).
  set (v := fun r i : nat => cold_poles (4 - 1 - r) i).
  assert (Mi : is_min 2 1 v 1) by (split; [exists 0%nat, 0%nat; repeat split; lia|intros [|[|j]] i Hj _; cbn; lra || lia]).
  assert (Ma : is_max 2 1 v 2) by (split; [exists 1%nat, 0%nat; repeat split; lia|intros [|[|j]] i Hj _; cbn; lra || lia]).
  assert (C := grid_curve 2 1 (fun j => -90 + 60 * INR j) v no_pole_area 2 1 1 2 ltac:(lia) ltac:(lra) Mi Ma W T true 1%nat).
  destruct C as (_ & C & _). rewrite C.
  - unfold contour. cbn. lra.
  - unfold latitude_of_area, total_below, contour, v. rewrite !Sum_rsum. cbn -[asin Rlt_dec].
    repeat match goal with |- context [Rlt_dec ?a ?b] => destruct (Rlt_dec a b) end; try (exfalso; lra).
    all: match goal with |- asin ?x * _ <= _ => replace x with (- (1)) by (field; lra) end.
    all: rewrite asin_opp, asin_1; assert (- (PI / 2) * (180 / PI) = -90) by (field; lra); lra.
Qed.
Theorem C118_northern_undisturbed_refuted : ~ undisturbed_is_zero.
Proof.
  intros H. destruct (theta_returns 4 1 (fun j => -90 + 60 * INR j) cold_poles no_pole_area (fun _ => 1) None None 1 ltac:(cbn; lia) ltac:(lia) ltac:(cbn; lia)) as (q & l & E).
  assert (Q := cold_reference q l E). assert (HP := PI2_3_2).
  assert (D : forall r, (r < 4)%nat -> 0 < (fun _ : nat => 1) r) by (intros; lra).
  assert (Z := H _ _ _ _ _ _ _ _ _ _ _ E D). clear H.
  assert (Z0 : l 2%nat 0%nat = 0).
  { apply Z; try lra; try (cbn; lia).
    - intros [|[|[|j]]] i _ _; cbn; lra.
    - unfold total, sphere. rewrite !Sum_rsum. cbn. lra.
    - intros r Hr. replace r with 3%nat by (cbn in Hr; lia). rewrite Q. cbn. lra.
    - intros r Hr. replace r with 2%nat by (cbn in Hr; lia). rewrite Q. cbn. lra. }
  apply (C118_northern_reversed _ _ _ _ _ _ _ _ _ _ _ E D) in Z0; [|cbn; lia|lia]. destruct Z0 as (Z0 & _).
  specialize (Z0 3%nat ltac:(lia)). rewrite Q in Z0. cbn in Z0. lra.
Qed.
Print Assumptions C118_northern_undisturbed_refuted.

Example C118_case : exists q l, theta_lwa 7 2 (fun j => -90 + 30 * INR j) (fun j i : nat => INR (j + i)) (fun _ _ => 1) (fun _ => 1) None None 1 = Returns (q, l) /\ (S 1 < domain_rows 7 None)%nat /\ (1 + domain_rows 7 None < 7)%nat.
Proof.
  destruct (theta_returns 7 2 (fun j => -90 + 30 * INR j) (fun j i : nat => INR (j + i)) (fun _ _ => 1) (fun _ => 1) None None 1 ltac:(cbn; lia) ltac:(lia) ltac:(cbn; lia)) as (q & l & E).
  exists q, l. split; [exact E|]. cbn. lia.
Qed.

(** ** C119: sign of the northern profile of eqvlat_hemispheric *)
Theorem C119_profiles_compared nlat nlon ylat v area dmu os on a h q l :
  eqvlat_hemispheric nlat nlon ylat v area os on a = Returns h -> qgpv_eqlat_lwa nlat nlon ylat v area dmu os on a = Returns (q, l) ->
  let s := domain_rows nlat os in
  (forall j, (j < s)%nat -> (j + s < nlat)%nat -> h j = q j) /\ (forall j, (nlat - s <= j < nlat)%nat -> h j = - q j).
Proof.
  intros H H' s. destruct (hemispheric_value _ _ _ _ _ _ _ _ _ H) as (Hs & _ & _ & S1 & N1).
  destruct (qgpv_value _ _ _ _ _ _ _ _ _ _ _ H') as (_ & _ & _ & S2 & N2 & _). change (or_default os (nlat / 2)) with s in *. split.
  - intros j H1 H2. rewrite S1, S2 by assumption. reflexivity.
  - intros j Hj. replace j with (nlat - 1 - (nlat - 1 - j))%nat by lia. rewrite N1, N2 by lia. lra.
Qed.
Print Assumptions C119_profiles_compared.
Example C119_case : exists h q l, eqvlat_hemispheric 7 2 (fun j => -90 + 30 * INR j) (fun j i : nat => INR (j * j) + INR i) (fun _ _ => 1) None (Some 5%nat) 1 = Returns h /\
  qgpv_eqlat_lwa 7 2 (fun j => -90 + 30 * INR j) (fun j i : nat => INR (j * j) + INR i) (fun _ _ => 1) (fun _ => 1) None (Some 5%nat) 1 = Returns (q, l) /\ h 0%nat = q 0%nat /\ h 6%nat = - q 6%nat.
Proof.
  destruct C62_case as (q & l & _ & _ & E & _).
  destruct (hemispheric_returns 7 2 (fun j => -90 + 30 * INR j) (fun j i : nat => INR (j * j) + INR i) (fun _ _ => 1) None (Some 5%nat) 1 ltac:(cbn; lia) ltac:(lia) ltac:(cbn; lia)) as (h & H).
  exists h, q, l. split; [exact H|]. split; [exact E|]. destruct (C119_profiles_compared _ _ _ _ _ _ _ _ _ _ _ _ H E) as (A & B). split; [apply A|apply B]; cbn; lia.
Qed.
(** expected: values of the field in that hemisphere *)
Definition profile_in_range : Prop := forall nlat nlon ylat v area os on a h lo hi,
  eqvlat_hemispheric nlat nlon ylat v area os on a = Returns h -> (2 <= contours (domain_rows nlat os) on)%nat ->
  (forall j i, (j < nlat)%nat -> (i < nlon)%nat -> lo <= v j i <= hi) -> (2 * domain_rows nlat os <= nlat)%nat ->
  forall j, (j < domain_rows nlat os)%nat \/ (nlat - domain_rows nlat os <= j < nlat)%nat -> lo <= h j <= hi.
Lemma extremes m n v lo hi : (0 < m)%nat -> (0 < n)%nat -> (forall j i, (j < m)%nat -> (i < n)%nat -> lo <= v j i <= hi) ->
  exists lo' hi', is_min m n v lo' /\ is_max m n v hi' /\ lo <= lo' /\ hi' <= hi.
Proof.
  intros Hm Hn H. set (c := cells_of m n v v). assert (Ne : map fst c <> []).
  { intros E. apply map_eq_nil in E. exact (cells_ne m n v v Hm Hn E). }
  assert (In_v : forall j i, (j < m)%nat -> (i < n)%nat -> In (v j i) (map fst c)).
  { intros j i Hj Hi. apply in_map_iff. exists (v j i, v j i). split; [reflexivity|]. apply cells_in. exists j, i. auto. }
  assert (Of_v : forall x, In x (map fst c) -> exists j i, (j < m)%nat /\ (i < n)%nat /\ v j i = x).
  { intros x Hx. apply in_map_iff in Hx. destruct Hx as (y & <- & Hy). apply cells_in in Hy. destruct Hy as (j & i & Hj & Hi & ->). exists j, i. auto. }
  exists (lmin (map fst c)), (lmax (map fst c)).
  assert (I1 := lmin_in _ Ne). assert (I2 := lmax_in _ Ne). destruct (Of_v _ I1) as (j1 & i1 & A1 & B1 & E1). destruct (Of_v _ I2) as (j2 & i2 & A2 & B2 & E2).
  split; [|split; [|split]].
  - split; [exists j1, i1; auto|]. intros j i Hj Hi. apply lmin_le. apply In_v; assumption.
  - split; [exists j2, i2; auto|]. intros j i Hj Hi. apply lmax_ge. apply In_v; assumption.
  - rewrite <- E1. apply H; assumption.
  - rewrite <- E2. apply H; assumption.
Qed.
Theorem C119_southern_range_partial nlat nlon ylat v area os on a h lo hi :
  eqvlat_hemispheric nlat nlon ylat v area os on a = Returns h -> (2 <= contours (domain_rows nlat os) on)%nat ->
  (forall j i, (j < domain_rows nlat os)%nat -> (i < nlon)%nat -> lo <= v j i <= hi) -> (2 * domain_rows nlat os <= nlat)%nat ->
  forall j, (j < domain_rows nlat os)%nat -> lo <= h j <= hi.
Proof.
  intros H H2 Hv Hs j Hj. destruct (hemispheric_value _ _ _ _ _ _ _ _ _ H) as (Hs' & Hx & Hn & S1 & _).
  change (or_default os (nlat / 2)) with (domain_rows nlat os) in *.
  assert (Hp : (0 < domain_rows nlat os)%nat) by lia. destruct (extremes _ _ _ _ _ Hp Hx Hv) as (lo' & hi' & Mi & Ma & L1 & L2).
  rewrite (S1 j Hj) by lia. unfold profile.
  assert (G := grid_qref_range _ _ ylat _ area _ a _ _ H2 Mi Ma true j). split; [apply Rle_trans with (1 := L1); apply G|eapply Rle_trans; [apply G|exact L2]].
Qed.
Print Assumptions C119_southern_range_partial.
Example C119_southern_range_case : exists h, eqvlat_hemispheric 7 2 (fun j => -90 + 30 * INR j) (fun j i : nat => INR (j + i)) (fun _ _ => 1) None None 1 = Returns h /\
  0 <= h 1%nat <= 3.
Proof.
  destruct (hemispheric_returns 7 2 (fun j => -90 + 30 * INR j) (fun j i : nat => INR (j + i)) (fun _ _ => 1) None None 1 ltac:(cbn; lia) ltac:(lia) ltac:(cbn; lia)) as (h & E).
  exists h. split; [exact E|]. apply (C119_southern_range_partial _ _ _ _ _ _ _ _ _ _ _ E); [cbn; lia| |cbn; lia|cbn; lia].
  intros j i Hj Hi. cbn in Hj. split; [apply pos_INR|]. replace 3 with (INR 3) by (cbn; lra). apply le_INR. lia.
Qed.
Theorem C119_northern_range_refuted : ~ profile_in_range.
Proof.
  intros H. destruct (hemispheric_returns 4 1 (fun j => -90 + 60 * INR j) (fun _ _ => 1) (fun _ _ => 1) None None 1 ltac:(cbn; lia) ltac:(lia) ltac:(cbn; lia)) as (h & E).
  assert (R1 := H _ _ _ _ _ _ _ _ _ 1 1 E ltac:(cbn; lia) ltac:(intros; lra) ltac:(cbn; lia) 3%nat ltac:(cbn; lia)).
  destruct (hemispheric_value _ _ _ _ _ _ _ _ _ E) as (_ & _ & _ & _ & N). specialize (N 0%nat ltac:(cbn; lia)). cbn [or_default] in N.
  change (4 / 2)%nat with 2%nat in N. change (4 - 1 - 0)%nat with 3%nat in N. rewrite N in R1. unfold profile in R1.
  assert (HP := PI2_3_2).
  assert (Mi : is_min 2 1 (mirror_field 4 (fun _ _ => 1)) (-1)) by (split; [exists 0%nat, 0%nat; unfold mirror_field; repeat split; lia || lra|intros; unfold mirror_field; lra]).
  assert (Ma : is_max 2 1 (mirror_field 4 (fun _ _ => 1)) (-1)) by (split; [exists 0%nat, 0%nat; unfold mirror_field; repeat split; lia || lra|intros; unfold mirror_field; lra]).
  assert (Rg := grid_qref_range 2 1 (fun j => -90 + 60 * INR j) _ (fun _ _ => 1) 2 1 _ _ ltac:(lia) Mi Ma true 0%nat).
  lra.
Qed.
Print Assumptions C119_northern_range_refuted.

(** ** C120: what the barotropic function with a given reference returns *)
(** documented: the array; returned: a pair whose first component is the array *)
Theorem C120_returns_a_pair_partial nlat nlon q (v : nat -> nat -> R) dmu :
  exists o, barotropic_input_qref_to_compute_lwa nlat nlon q v dmu = Returns (o, None) /\
    forall j i, (j < nlat)%nat -> out_total o j i = Some (wave_activity nlat v q dmu j i).
Proof. eexists. split; [reflexivity|]. intros j i Hj. exact (total_spec nlat v q dmu None j i Hj). Qed.
Print Assumptions C120_returns_a_pair_partial.

(** ** C121: range and order of the reference *)
Theorem C121_reference_ordered_and_in_range nlat nlon ylat v area dmu os on a q l :
  qgpv_eqlat_lwa nlat nlon ylat v area dmu os on a = Returns (q, l) ->
  let s := domain_rows nlat os in (2 <= contours s on)%nat -> 0 < a -> (2 * s <= nlat)%nat ->
  (forall j i, (j < s)%nat -> (i < nlon)%nat -> 0 <= area j i) -> total s nlon area <= sphere a -> nondecreasing s ylat ->
  nondecreasing s q /\ nondecreasing s (from_row (nlat - s) q) /\
  (forall lo hi, (forall j i, (j < s)%nat -> (i < nlon)%nat -> lo <= v j i <= hi) -> forall j, (j < s)%nat -> lo <= q j <= hi) /\
  (forall lo hi, (forall j i, (nlat - s <= j < nlat)%nat -> (i < nlon)%nat -> lo <= v j i <= hi) -> forall j, (nlat - s <= j < nlat)%nat -> lo <= q j <= hi).
Proof.
  intros H s Hn2 Ha H2 Hw Ht Hy. destruct (qgpv_value _ _ _ _ _ _ _ _ _ _ _ H) as (Hs & Hx & Hn & S1 & N1 & _). change (or_default os (nlat / 2)) with s in *.
  change (or_default on s) with (contours s on) in *. set (n := contours s on) in *.
  assert (Bd : forall w : nat -> nat -> R, exists lo hi, forall j i, (j < s)%nat -> (i < nlon)%nat -> lo <= w j i <= hi).
  { intros w. set (c := cells_of s nlon w w). exists (lmin (map fst c)), (lmax (map fst c)). intros j i Hj Hi.
    assert (I : In (w j i) (map fst c)) by (apply in_map_iff; exists (w j i, w j i); split; [reflexivity|]; apply cells_in; exists j, i; auto).
    split; [apply lmin_le|apply lmax_ge]; exact I. }
  assert (Mo : forall w : nat -> nat -> R, nondecreasing s (profile s nlon ylat w area n a)).
  { intros w. destruct (Bd w) as (lo & hi & B). destruct (extremes _ _ _ _ _ (proj1 Hs) Hx B) as (lo' & hi' & Mi & Ma & _).
    exact (proj1 (grid_mono_range _ _ ylat _ area _ a _ _ true Hn2 Ha Mi Ma Hw Ht Hy)). }
  assert (Rg : forall (w : nat -> nat -> R) lo hi, (forall j i, (j < s)%nat -> (i < nlon)%nat -> lo <= w j i <= hi) -> forall j, lo <= profile s nlon ylat w area n a j <= hi).
  { intros w lo hi B j. destruct (extremes _ _ _ _ _ (proj1 Hs) Hx B) as (lo' & hi' & Mi & Ma & L1 & L2).
    assert (G := grid_qref_range _ _ ylat _ area _ a _ _ Hn2 Mi Ma true j). fold (profile s nlon ylat w area n a j) in G. lra. }
  split; [|split; [|split]].
  - intros i j Hij. rewrite !S1 by lia. apply Mo. exact Hij.
  - intros i j Hij. unfold from_row. replace (nlat - s + i)%nat with (nlat - 1 - (s - 1 - i))%nat by lia. replace (nlat - s + j)%nat with (nlat - 1 - (s - 1 - j))%nat by lia.
    rewrite !N1 by lia. apply Ropp_le_contravar. apply Mo. lia.
  - intros lo hi B j Hj. rewrite S1 by lia. apply Rg. exact B.
  - intros lo hi B j Hj. replace j with (nlat - 1 - (nlat - 1 - j))%nat by lia. rewrite N1 by lia.
    assert (B' : forall r i, (r < s)%nat -> (i < nlon)%nat -> - hi <= mirror_field nlat v r i <= - lo).
    { intros r i Hr Hi. unfold mirror_field. specialize (B (nlat - 1 - r)%nat i ltac:(lia) Hi). lra. }
    specialize (Rg _ _ _ B' (nlat - 1 - j)%nat). lra.
Qed.
Print Assumptions C121_reference_ordered_and_in_range.
Example C121_case : (2 <= contours (domain_rows 7 None) (Some 5%nat))%nat /\ (2 * domain_rows 7 None <= 7)%nat /\ total (domain_rows 7 None) 2 (fun _ _ => 1) <= sphere 1 /\
  nondecreasing (domain_rows 7 None) (fun j => -90 + 30 * INR j).
Proof.
  assert (HP := PI2_3_2). split; [cbn; lia|]. split; [cbn; lia|]. split; [unfold total, sphere; rewrite !Sum_rsum; cbn; lra|].
  intros i j Hij. assert (INR i <= INR j) by (apply le_INR; lia). lra.
Qed.
