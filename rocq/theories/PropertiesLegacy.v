(** Property theorems for the legacy solver beta_version.solve_uref_both_bc. *)
From Coq Require Import ZifyNat.
From Verif Require Import BaseFacts SpecFacts LinAlg LegacySpec Legacy GridProofs LegacyProofs LegacyProofs2 LegacyProofs3 LegacyProofs4.
Ltac Zify.zify_post_hook ::= Z.to_euclidean_division_equations.
Open Scope R_scope.

(** ** C66: numbering of the unknowns *)
Theorem C66_index_bijection jm kmax :
  (forall j k, (j < jm)%nat -> (k < kmax)%nat -> (input_jk_output_index j k kmax < jm * kmax)%nat) /\
  (forall j k j' k', (k < kmax)%nat -> (k' < kmax)%nat -> input_jk_output_index j k kmax = input_jk_output_index j' k' kmax -> j = j' /\ k = k') /\
  (forall i, (i < jm * kmax)%nat -> exists j k, (j < jm)%nat /\ (k < kmax)%nat /\ i = input_jk_output_index j k kmax).
Proof. split; [exact (fun j k => index_bound j k jm kmax)|]. split; [exact (fun j k j' k' => index_inj j k j' k' kmax)|exact (fun i => index_onto i jm kmax)]. Qed.
Print Assumptions C66_index_bijection.
(** a vector solves the assembled matrix equation exactly when the array it is mapped back to solves the difference
    equations with the boundary values; weights cc (upward) and cd (downward), rows shifted by one *)
Theorem C66_no_slip_system jm kmax cc cd f top bottom x : (3 <= kmax)%nat ->
  let U := map_back jm kmax x in
  (forall i, (i < jm * kmax)%nat ->
     Sum 0 (jm * kmax) (fun c => matrix_noslip jm kmax (fun _ _ => 1) (fun _ _ => 1) cc cd (fun j k => - (1 + 1 + cc j k + cd j k)) i c * x c) = right_bottom jm kmax f top bottom i) <->
  zero_edges jm kmax U /\
  (forall r k, (1 <= r <= jm)%nat -> (1 <= k)%nat -> (S k < kmax)%nat ->
     U (r + 1)%nat k - 2 * U r k + U (r - 1)%nat k + (cc (r - 1)%nat k * (U r (k + 1)%nat - U r k) - cd (r - 1)%nat k * (U r k - U r (k - 1)%nat)) = f (r - 1)%nat k) /\
  top_condition jm kmax (fun r => top (r - 1)%nat) U /\ no_slip jm (fun r => bottom (r - 1)%nat) U.
Proof.
  intros K3 U. assert (E := system_noslip jm kmax cc cd f top bottom K3 x). cbv zeta in E. fold U in E. assert (Z := back_edges jm kmax x). fold U in Z.
  unfold row_sum in E. rewrite E. unfold general, up. tauto.
Qed.
Print Assumptions C66_no_slip_system.
Theorem C66_adiabatic_system jm kmax cc cd f top bottom x : (3 <= kmax)%nat ->
  let U := map_back jm kmax x in
  (forall i, (i < jm * kmax)%nat ->
     Sum 0 (jm * kmax) (fun c => matrix_adiab jm kmax (fun _ _ => 1) (fun _ _ => 1) cc cd (fun j k => - (1 + 1 + cc j k + cd j k)) i c * x c) = right_bottom jm kmax f top bottom i) <->
  zero_edges jm kmax U /\
  (forall r k, (1 <= r <= jm)%nat -> (1 <= k)%nat -> (S k < kmax)%nat ->
     U (r + 1)%nat k - 2 * U r k + U (r - 1)%nat k + (cc (r - 1)%nat k * (U r (k + 1)%nat - U r k) - cd (r - 1)%nat k * (U r k - U r (k - 1)%nat)) = f (r - 1)%nat k) /\
  top_condition jm kmax (fun r => top (r - 1)%nat) U /\ adiabatic jm (fun r => bottom (r - 1)%nat) U.
Proof.
  intros K3 U. assert (E := system_adiab jm kmax cc cd f top bottom K3 x). cbv zeta in E. fold U in E. assert (Z := back_edges jm kmax x). fold U in Z.
  unfold row_sum in E. rewrite E. unfold general, up. tauto.
Qed.
Print Assumptions C66_adiabatic_system.
Example C66_case : map (fun p => input_jk_output_index (fst p) (snd p) 3) (list_prod (seq 0 2) (seq 0 3)) = seq 0 6.
Proof. reflexivity. Qed.

(** ** C123: the reference states are those of the discretised elliptic problem, which has exactly one solution *)
(** what a returned reference state has to be, given the solution U *)
Definition reported (nlat kmax : nat) (ylat : nat -> R) (zmum zmPT : nat -> nat -> R) (U : nat -> nat -> R) (s : ref_state R) : Prop :=
  let jm := (nlat / 4)%nat in
  (forall k l, (k < kmax)%nat -> (nlat / 2 <= l < nlat)%nat ->
     on_broken_line (jm + 2) (degrees jm) (fun r => wind jm U r k) (ylat l) (rs_u_corr s k l) /\ rs_u s k l = zmum k l - rs_u_corr s k l /\
     rs_t s k l = zmPT k l * exp (- INR k / 7 * kappa) - rs_t_corr s k l) /\
  (forall k l, (l < nlat / 2)%nat -> rs_u_corr s k l = 0 /\ rs_u s k l = 0 /\ rs_t_corr s k l = 0 /\ rs_t s k l = 0).
Lemma north_half nlat : north nlat = (nlat / 2)%nat.
Proof. unfold north. lia. Qed.
Lemma finish_reported nlat kmax ylat zmum zmPT U : (2 <= nlat / 4)%nat -> (forall l, (north nlat <= l < nlat)%nat -> 0 <= ylat l <= 90) ->
  reported nlat kmax ylat zmum zmPT U (finish sqrt nlat kmax ylat zmum zmPT U).
Proof.
  intros J2 Y. set (jm := (nlat / 4)%nat) in *. split.
  - intros k l Hk Hl. unfold finish. cbn [rs_u_corr rs_u rs_t_corr rs_t]. cbv zeta. rewrite north_half. destruct (Nat.leb_spec (nlat / 2) l); [|lia]. fold jm. split; [|split].
    + rewrite (interp1d_ext2 (jm + 2) (lg_alat_2 jm) (degrees jm) _ (fun r => wind jm U r k)) by (lia || (intros; apply alat_2_degrees) || (intros; apply wind_value)).
      apply interp1d_broken; [lia|apply degrees_ascending|]. replace (jm + 2 - 1)%nat with (S jm) by lia. rewrite (proj1 (degrees_ends jm)), (proj2 (degrees_ends jm)). apply Y. rewrite north_half. exact Hl.
    + reflexivity.
    + unfold lg_rkappa, kappa. rewrite nofnat_INR. unfold lg_r0, lg_cp. reflexivity.
  - intros k l Hl. unfold finish. cbn [rs_u_corr rs_u rs_t_corr rs_t]. cbv zeta. rewrite north_half. destruct (Nat.leb_spec (nlat / 2) l); [lia|]. repeat split; reflexivity.
Qed.
Theorem C123_unique_reference_states spsolve nlat kmax zmum FAWA ylat eps dPT zmPT B0 B1 ns ad :
  solve_legacy spsolve nlat kmax zmum FAWA ylat eps dPT zmPT B0 B1 = Done (ns, ad) -> exact_solver spsolve ->
  ascending nlat ylat -> (forall k l, (k < kmax)%nat -> (l < nlat)%nat -> 0 <= eps k l) -> (4 <= kmax)%nat ->
  let jm := (nlat / 4)%nat in
  (* the inputs interpolated to the rows of the solver *)
  exists E A Z D b0 b1,
    (forall r k, (1 <= r <= jm)%nat -> on_broken_line nlat ylat (eps k) (degrees jm r) (E r k) /\
       on_broken_line nlat ylat (FAWA k) (degrees jm r) (A r k) /\ on_broken_line nlat ylat (zmum k) (degrees jm r) (Z r k)) /\
    (forall r, on_extended_line nlat ylat dPT (degrees jm r) (D r) /\ on_extended_line nlat ylat B0 (degrees jm r) (b0 r) /\ on_extended_line nlat ylat B1 (degrees jm r) (b1 r)) /\
    (* no-slip lower boundary *)
    (exists U, solves jm kmax E A D U /\ no_slip jm (noslip_value jm Z) U /\
       (forall V, solves jm kmax E A D V -> no_slip jm (noslip_value jm Z) V -> same jm kmax U V) /\ reported nlat kmax ylat zmum zmPT U ns) /\
    (* adiabatic lower boundary *)
    (exists U, solves jm kmax E A D U /\ adiabatic jm (adiabatic_value jm b0 b1) U /\
       (forall V, solves jm kmax E A D V -> adiabatic jm (adiabatic_value jm b0 b1) V -> same jm kmax U V) /\ reported nlat kmax ylat zmum zmPT U ad).
Proof.
  intros H Ex Asc Pe K4 jm. destruct (legacy_value _ _ _ _ _ _ _ _ _ _ _ _ _ H) as (J2 & K3 & Rows & Y & U & Ua & -> & -> & X). fold jm in J2, Rows, X.
  destruct (X Asc Pe Ex) as ((S1 & S2 & S3) & Xa). destruct (Xa K4) as (A1 & A2 & A3). clear X Xa.
  assert (N2 : (2 <= nlat)%nat) by (unfold jm in J2; lia).
  eexists _, _, (fun r k => interp1d nlat ylat (zmum k) (degrees jm r)), _, (fun r => interp1d nlat ylat B0 (degrees jm r)), (fun r => interp1d nlat ylat B1 (degrees jm r)).
  split; [|split; [|split]].
  3:{ exists U. split; [exact S1|]. split; [exact S2|]. split; [exact S3|]. apply finish_reported; assumption. }
  3:{ exists Ua. split; [exact A1|]. split; [exact A2|]. split; [exact A3|]. apply finish_reported; assumption. }
  - intros r k Hr. specialize (Rows (r - 1)%nat ltac:(lia)). replace (S (r - 1)) with r in Rows by lia. repeat split; apply interp1d_broken; assumption.
  - intros r. repeat split; apply interp1d_extended; assumption.
Qed.
Print Assumptions C123_unique_reference_states.
(** Gaussian elimination in exact arithmetic is an exact solver, and a grid on which the function returns *)
Definition grid12 (l : nat) : R := -90 + 180 / 11 * INR l.
Lemma grid12_ok : in_bounds 12 grid12 3 (@lg_alat R RNum 3) = true /\ in_bounds 5 (@lg_alat_2 R RNum 3) 6 (fun l => grid12 (6 + l)%nat) = true.
Proof.
  assert (P := PI_RGT_0). split; apply in_bounds_iff.
  - intros j Hj. rewrite alat_degrees. assert (A := degrees_ascending 3 0%nat (S j) ltac:(lia)). assert (B := degrees_ascending 3 (S j) 4%nat ltac:(lia)).
    rewrite (proj1 (degrees_ends 3)) in A. rewrite (proj2 (degrees_ends 3)) in B. unfold grid12. cbn [INR Nat.sub]. lra.
  - intros l Hl. cbn [Nat.sub]. rewrite !alat_2_degrees, (proj1 (degrees_ends 3)), (proj2 (degrees_ends 3)). unfold grid12.
    destruct l as [|[|[|[|[|[|l]]]]]]; [cbn; lra..|lia].
Qed.
Example C123_case : exists ns ad, solve_legacy gauss 12 5 (fun k l => INR l) (fun k l => INR (k * l)) grid12 (fun _ _ => 1) (fun l => INR l) (fun k l => 300) (fun _ => 0) (fun _ => 0) = Done (ns, ad) /\
  exact_solver gauss /\ ascending 12 grid12.
Proof.
  destruct grid12_ok as (G1 & G2). unfold solve_uref_both_bc. change (12 / 4)%nat with 3%nat. rewrite G1. cbn [negb]. change (Nat.ltb 3 2) with false. change (Nat.ltb 5 2) with false. change (Nat.eqb 5 2) with false. cbv iota zeta.
  change (12 - north 12)%nat with 6%nat. change (north 12) with 6%nat. change (3 + 2)%nat with 5%nat. rewrite G2. cbn [negb]. do 2 eexists. split; [reflexivity|]. split.
  - intros n M b Hr. exact (gauss_solves n M b Hr).
  - intros a b Hab. unfold grid12. assert (INR a < INR b) by (apply lt_INR; lia). lra.
Qed.
(** with three levels the adiabatic problem does not determine the solution *)
Definition adiabatic_unique : Prop := forall jm kmax E A D bot U V, (2 <= jm)%nat -> (3 <= kmax)%nat -> (forall r k, 0 < E r k) ->
  solves jm kmax E A D U -> adiabatic jm bot U -> solves jm kmax E A D V -> adiabatic jm bot V -> same jm kmax U V.
Theorem C123_adiabatic_three_levels_refuted : ~ adiabatic_unique.
Proof.
  intros H. set (w := spacing 2 / 1000 * (spacing 2 / 1000)). set (s := exp (- (1 / 14)) + exp (1 / 14)).
  assert (Sp : 0 < spacing 2) by (unfold spacing; cbn; lra). assert (Hw : 0 < w) by (unfold w; apply Rmult_lt_0_compat; lra).
  assert (Hs : 0 < s) by (unfold s; assert (A := exp_pos (- (1 / 14))); assert (B := exp_pos (1 / 14)); lra).
  set (V := fun r k : nat => if (Nat.leb 1 r && Nat.leb r 2)%bool then if Nat.eqb k 1 then 1 else 1 + 1 / (w * s) else 0).
  assert (X := H 2%nat 3%nat (fun _ _ => 1) (fun _ _ => 0) (fun _ => 0) (fun _ => 0) (fun _ _ => 0) V ltac:(lia) ltac:(lia) ltac:(intros; lra)).
  assert (F0 : forall r k, over_f 2 (fun _ _ => 0) r k = 0) by (intros r k; unfold over_f; destruct (_ && _)%bool; unfold Rdiv; ring).
  assert (T0 : forall r, top_value 2 3 (fun _ => 0) r = 0) by (intros r; unfold top_value, Rdiv; ring).
  assert (X1 : 0 = V 1%nat 1%nat).
  { apply X; [| | | |lia|lia].
    - split; [intros k _; split; reflexivity|]. split; [intros r k _ _ _; unfold source; rewrite !F0; ring|intros r _; rewrite T0; ring].
    - intros r _. ring.
    - split; [intros k _; split; reflexivity|]. split.
      + intros r k Hr H1 H2. replace k with 1%nat by lia. unfold source. rewrite !F0. fold w. assert (Hr' : (r = 1 \/ r = 2)%nat) by lia.
        destruct Hr' as [-> | ->]; cbn [V Nat.add Nat.sub Nat.leb Nat.eqb andb]; unfold V; cbn [Nat.leb Nat.eqb andb]; replace (exp (1 / 14)) with (s - exp (- (1 / 14))) by (unfold s; ring); field; split; lra.
      + intros r Hr. rewrite T0. assert (Hr' : (r = 1 \/ r = 2)%nat) by lia. destruct Hr' as [-> | ->]; unfold V; cbn; ring.
    - intros r Hr. assert (Hr' : (r = 1 \/ r = 2)%nat) by lia. destruct Hr' as [-> | ->]; unfold V; cbn; ring. }
  unfold V in X1. cbn in X1. lra.
Qed.
Print Assumptions C123_adiabatic_three_levels_refuted.

(** ** C124: the temperature correction *)
Notation correction := (@lg_T R RNum sqrt).
Lemma correction_levels jm kmax u r k : (k = 0 \/ kmax - 2 <= k)%nat -> correction jm kmax u r k = 0.
Proof. intros H. unfold lg_T. destruct (Nat.leb_spec 1 k); destruct (Nat.ltb_spec k (kmax - 2)); cbn [andb]; lia || reflexivity. Qed.
Lemma spread_even jm ev m : (1 <= jm)%nat -> (2 * m < jm + 2)%nat -> @spread R RNum jm ev (2 * m) = ev m.
Proof.
  intros J Hm. unfold spread. apply (interp1d_node ((jm + 2 + 1) / 2) (fun m => @lg_gl_2 R RNum jm (2 * m)) ev m); [lia| |lia].
  intros a b Hab. rewrite !gl_2_sine. apply sine_strict. lia.
Qed.
Lemma correction_even jm kmax u m k : (1 <= jm)%nat -> (1 <= k)%nat -> (k < kmax - 2)%nat -> (2 * m < jm + 2)%nat ->
  correction jm kmax u (2 * m) k = @even_rows R RNum sqrt jm u k m - rsum (jm + 2) (@spread R RNum jm (@even_rows R RNum sqrt jm u k)) / INR (jm + 2).
Proof.
  intros J H1 H2 Hm. unfold lg_T. destruct (Nat.leb_spec 1 k); [|lia]. destruct (Nat.ltb_spec k (kmax - 2)); [|lia]. cbn [andb]. cbv zeta. rewrite spread_even by assumption. rewrite nofnat_INR. reflexivity.
Qed.
Theorem C124_temperature_correction spsolve nlat kmax zmum FAWA ylat eps dPT zmPT B0 B1 ns ad :
  solve_legacy spsolve nlat kmax zmum FAWA ylat eps dPT zmPT B0 B1 = Done (ns, ad) ->
  let jm := (nlat / 4)%nat in forall s, s = ns \/ s = ad -> exists T,
  (* the reported correction is interpolated from the rows of the solver *)
  (forall k l, (nlat / 2 <= l < nlat)%nat -> on_broken_line (jm + 2) (degrees jm) (fun r => T r k) (ylat l) (rs_t_corr s k l)) /\
  (* it is zero at the lowest and the two highest levels and has mean zero over the rows elsewhere *)
  (forall r k, (k = 0 \/ kmax - 2 <= k)%nat -> T r k = 0) /\
  (forall k, Sum 0 (jm + 2) (fun r => T r k) = 0) /\
  (* rows between even ones hold the mean of their neighbours *)
  (forall m k, (2 * m + 2 < jm + 2)%nat -> T (2 * m + 1)%nat k = (T (2 * m)%nat k + T (2 * m + 2)%nat k) / 2).
Proof.
  intros H jm s Hs. destruct (legacy_value _ _ _ _ _ _ _ _ _ _ _ _ _ H) as (J2 & K3 & Rows & Y & U & Ua & Ens & Ead & _). fold jm in J2.
  assert (F : exists V, s = finish sqrt nlat kmax ylat zmum zmPT V) by (destruct Hs as [-> | ->]; eauto). destruct F as (V & ->). clear Hs Ens Ead.
  set (cor := fun r k => if Nat.leb 1 r && Nat.leb r jm then V r k * @lg_cor R RNum jm (r - 1) / @lg_cosl R RNum sqrt jm (r - 1) else 0).
  exists (correction jm kmax cor). split; [|split; [|split]].
  - intros k l Hl. unfold finish. cbn [rs_t_corr]. cbv zeta. rewrite north_half. destruct (Nat.leb_spec (nlat / 2) l); [|lia]. fold jm.
    rewrite (interp1d_ext2 (jm + 2) (lg_alat_2 jm) (degrees jm) _ (fun r => correction jm kmax cor r k)) by (lia || (intros; apply alat_2_degrees) || reflexivity).
    apply interp1d_broken; [lia|apply degrees_ascending|]. replace (jm + 2 - 1)%nat with (S jm) by lia. rewrite (proj1 (degrees_ends jm)), (proj2 (degrees_ends jm)). apply Y. rewrite north_half. exact Hl.
  - intros r k Hk. apply correction_levels. exact Hk.
  - intros k. unfold lg_T. destruct (Nat.leb_spec 1 k); destruct (Nat.ltb_spec k (kmax - 2)); cbn [andb]; cbv zeta; try (apply Sum_zero; reflexivity).
    rewrite Sum0_rsum. rewrite (BaseFacts.rsum_minus (jm + 2) (@spread R RNum jm (even_rows sqrt jm cor k)) (fun _ => rsum (jm + 2) (@spread R RNum jm (even_rows sqrt jm cor k)) / @nofnat R RNum (jm + 2))).
    rewrite nofnat_INR. set (S0 := rsum (jm + 2) (@spread R RNum jm (even_rows sqrt jm cor k))).
    assert (C : forall n (c : R), rsum n (fun _ => c) = INR n * c) by (induction n as [|n IH]; intros c; [cbn; ring|rewrite rsum_S, IH, S_INR; ring]). rewrite C. field. apply not_0_INR. lia.
  - intros m k Hm. destruct (Nat.eq_dec k 0) as [Ek|Ek]; [|destruct (Nat.le_gt_cases (kmax - 2) k) as [Ek2|Ek2]].
    + rewrite !correction_levels by lia. field.
    + rewrite !correction_levels by lia. field.
    + replace (2 * m + 2)%nat with (2 * (m + 1))%nat by lia. rewrite !correction_even by lia. unfold lg_T. destruct (Nat.leb_spec 1 k); [|lia]. destruct (Nat.ltb_spec k (kmax - 2)); [|lia]. cbn [andb]. cbv zeta. rewrite nofnat_INR.
      cbn [nsub ndiv RNum]. set (ev := even_rows sqrt jm cor k). set (q := rsum (jm + 2) (spread jm ev) / INR (jm + 2)).
      assert (M : @spread R RNum jm ev (2 * m + 1) = (ev m + ev (m + 1)%nat) / 2); [|rewrite M; field].
      unfold spread. assert (Asc : ascending ((jm + 2 + 1) / 2) (fun m => @lg_gl_2 R RNum jm (2 * m))) by (intros a b Hab; rewrite !gl_2_sine; apply sine_strict; lia).
      destruct (interp1d_broken ((jm + 2 + 1) / 2) (fun m => @lg_gl_2 R RNum jm (2 * m)) ev (@lg_gl_2 R RNum jm (2 * m + 1)) ltac:(lia) Asc) as (i & Hi & (L1 & L2) & E).
      { rewrite !gl_2_sine. split; [left; apply sine_strict; lia|]. left. apply sine_strict. lia. }
      rewrite E. rewrite !gl_2_sine in L1, L2. assert (i = m).
      { destruct (lt_eq_lt_dec i m) as [[L|L]|L]; [|exact L|].
        - exfalso. assert (G := sine_strict jm (2 * S i) (2 * m + 1) ltac:(lia)). lra.
        - exfalso. assert (G := sine_strict jm (2 * m + 1) (2 * i) ltac:(lia)). lra. }
      subst i. rewrite !gl_2_sine. unfold sine. replace (S m) with (m + 1)%nat by lia. replace (2 * (m + 1))%nat with (2 * m + 1 + 1)%nat by lia. rewrite !(plus_INR (2 * m)), !(plus_INR (2 * m + 1)), (plus_INR (2 * m) 1).
      set (y := INR (2 * m)). cbn [INR]. assert (P : 0 < INR (jm + 1)) by (apply lt_0_INR; lia). field. lra.
Qed.
Print Assumptions C124_temperature_correction.
Example C124_case : exists ns T, (forall k l, (6 <= l < 12)%nat -> on_broken_line 5 (degrees 3) (fun r => T r k) (grid12 l) (rs_t_corr ns k l)) /\ Sum 0 5 (fun r => T r 2%nat) = 0.
Proof.
  destruct C123_case as (ns & ad & E & _). destruct (C124_temperature_correction _ _ _ _ _ _ _ _ _ _ _ _ _ E ns (or_introl eq_refl)) as (T & A & _ & B & _).
  exists ns, T. split; [exact A|apply B].
Qed.
(** ** C125: thermal wind balance of the temperature correction *)
Definition balanced : Prop := forall jm kmax u m k, (2 <= jm)%nat -> (1 <= k)%nat -> (k < kmax - 2)%nat -> (2 * m + 2 < jm + 2)%nat ->
  let r := (2 * m + 1)%nat in thermal_wind jm (coriolis jm r) (cosine jm r) (correction jm kmax u) u r k.
(** what holds: the Coriolis parameter and the cosine are taken one row too far north *)
Theorem C125_misplaced_balance_partial jm kmax u m k : (2 <= jm)%nat -> (1 <= k)%nat -> (k < kmax - 2)%nat -> (2 * m + 2 < jm)%nat ->
  let r := (2 * m + 1)%nat in thermal_wind jm (coriolis jm (r + 1)) (cosine jm (r + 1)) (correction jm kmax u) u r k.
Proof.
  intros J H1 H2 Hm r. unfold thermal_wind, r. replace (2 * m + 1 + 1)%nat with (2 * (m + 1))%nat by lia. replace (2 * m + 1 - 1)%nat with (2 * m)%nat by lia.
  rewrite !correction_even by lia. replace (m + 1)%nat with (S m) by lia. cbn [even_rows]. cbv zeta. destruct (Nat.ltb_spec (2 * S m) jm); [|lia].
  assert (Ev : forall x, (x = 2 * S m - 1)%nat -> (2 * m + 1)%nat = x) by lia. unfold lg_dmdz. rewrite gl_sine, cosl_cosine, om_value, spacing_dm. unfold coriolis.
  replace (S (2 * S m - 1)) with (2 * S m)%nat by lia. rewrite <- (Ev (2 * S m - 1)%nat eq_refl). unfold lg_aa, lg_hh, lg_dz, lg_r0. cbn [nsub nmul ndiv nofZ RNum]. unfold Rdiv. ring.
Qed.
Print Assumptions C125_misplaced_balance_partial.
(** in the northernmost pair of rows there is no relation to the wind at all: the last even row is never computed *)
Theorem C125_last_rows_partial jm kmax u k : (2 <= jm)%nat -> (1 <= k)%nat -> (k < kmax - 2)%nat ->
  let last := (2 * ((jm + 1) / 2))%nat in correction jm kmax u last k - correction jm kmax u 0 k = 0 /\ (jm <= last <= jm + 1)%nat.
Proof.
  intros J H1 H2 last. split; [|unfold last; lia]. unfold last. change (correction jm kmax u 0 k) with (correction jm kmax u (2 * 0) k). rewrite (correction_even jm kmax u ((jm + 1) / 2) k), (correction_even jm kmax u 0 k) by lia.
  destruct ((jm + 1) / 2)%nat as [|m] eqn:E; [lia|]. cbn [even_rows]. cbv zeta. destruct (Nat.ltb_spec (2 * S m) jm); [lia|]. cbn [nzero RNum]. ring.
Qed.
Print Assumptions C125_last_rows_partial.
Theorem C125_thermal_wind_refuted : ~ balanced.
Proof.
  intros H. assert (X := H 4%nat 6%nat (fun _ k => INR k) 0%nat 1%nat ltac:(lia) ltac:(lia) ltac:(lia) ltac:(lia)).
  assert (Y := C125_misplaced_balance_partial 4 6 (fun _ k => INR k) 0 1 ltac:(lia) ltac:(lia) ltac:(lia) ltac:(lia)). cbv zeta in X, Y. unfold thermal_wind in X, Y. rewrite X in Y. clear X H.
  change (2 * 0 + 1)%nat with 1%nat in Y. change (1 + 1)%nat with 2%nat in Y. unfold spacing, coriolis, cosine, sine in Y. cbn [INR Nat.add Nat.sub] in Y.
  match type of Y with context [sqrt ?a] => set (c1 := sqrt a) in * end. match type of Y with context [sqrt ?a] => set (c2 := sqrt a) in * end.
  assert (C1 : 0 < c1) by (unfold c1; apply sqrt_lt_R0; lra). assert (C2 : 0 < c2) by (unfold c2; apply sqrt_lt_R0; lra).
  assert (Lt : c2 < c1) by (unfold c1, c2; apply sqrt_lt_1; lra).
  match type of Y with ?l = ?r => assert (Z : l * c1 * c2 = r * c1 * c2) by (rewrite Y; reflexivity) end. clear Y. field_simplify in Z; [|lra..]. nra.
Qed.
Print Assumptions C125_thermal_wind_refuted.
Example C125_case : exists jm kmax m k, (2 <= jm)%nat /\ (1 <= k)%nat /\ (k < kmax - 2)%nat /\ (2 * m + 2 < jm)%nat.
Proof. exists 4%nat, 6%nat, 0%nat, 2%nat. lia. Qed.
