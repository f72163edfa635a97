From Coq Require Import FunctionalExtensionality.
From Verif Require Import BaseFacts XarrayProofs XarrayProofs2 XarrayProofs3 PropertiesXarray PropertiesXarray2 PropertiesXarray3 ObjectProofs ObjectProofs4 SessionProofs PropertiesObject PropertiesSession.
From Verif Require Import DatasetSpec.
From Verif Require Import XarrayProofs2.
Open Scope R_scope.

Lemma up_in l x : In x (up l) <-> In x l.
Proof. unfold up. destruct (negb _); [symmetry; apply in_rev|reflexivity]. Qed.
Lemma down_in l x : In x (down l) <-> In x l.
Proof. unfold down. destruct (negb _); [symmetry; apply in_rev|reflexivity]. Qed.

Lemma element_at x a b c l j i : nd_shape x = [a; b; c] -> (l < a)%nat -> (j < b)%nat -> (i < c)%nat -> element x l j i = nd_at x [l; j; i].
Proof. intros E H1 H2 H3. unfold element. rewrite E. apply Nat.ltb_lt in H1, H2, H3. rewrite H1, H2, H3. reflexivity. Qed.
Lemma element_ext x y a b c : nd_shape x = [a; b; c] -> nd_shape y = [a; b; c] ->
  (forall l j i, (l < a)%nat -> (j < b)%nat -> (i < c)%nat -> nd_at x [l; j; i] = nd_at y [l; j; i]) -> element x = element y.
Proof.
  intros E E' H. extensionality l. extensionality j. extensionality i. unfold element. rewrite E, E'.
  destruct (Nat.ltb l a) eqn:L1; [|reflexivity]. destruct (Nat.ltb j b) eqn:L2; [|reflexivity]. destruct (Nat.ltb i c) eqn:L3; [|reflexivity].
  cbn [andb]. apply H; apply Nat.ltb_lt; assumption.
Qed.

Section One.
  Context (b : qgargs) (u v t : dataarray R) (idx : list nat) (plev0 ylat0 xlon : list R) (u' v' t' : nd R).
  Hypothesis (Hp : monotonic plev0) (Hy : monotonic ylat0).
  Let holds a x := holds_field a idx plev0 ylat0 (down plev0) (up ylat0) (length xlon) x.
  Hypothesis (Hu : holds u u') (Hv : holds v v') (Ht : holds t t').
  Lemma made_slice : slice b u v t idx plev0 ylat0 xlon (field_args b xlon (up ylat0) (down plev0) u' v' t').
  Proof.
    split; cbn [field_args w_nlon w_nlat w_nlev w_ylat w_plev w_u w_v w_t].
    - rewrite up_length, down_length. auto.
    - apply up_increasing, Hy.
    - apply down_decreasing, Hp.
    - intros j Hj. apply up_in, nth_In, Hj.
    - intros l Hl. apply down_in, nth_In, Hl.
    - intros l j i l0 j0 Hl Hj Hi Hl0 Hj0 E1 E2. destruct Hu as (S1 & D1), Hv as (S2 & D2), Ht as (S3 & D3).
      rewrite (element_at u' _ _ _ l j i S1 Hl Hj Hi), (element_at v' _ _ _ l j i S2 Hl Hj Hi), (element_at t' _ _ _ l j i S3 Hl Hj Hi).
      rewrite (D1 l j i l0 j0), (D2 l j i l0 j0), (D3 l j i l0 j0) by assumption. auto.
    - repeat split.
  Qed.
End One.

(** arrays that hold the same field are equal where they have elements *)
Lemma holds_same a a2 idx idx2 plev0 ylat0 (xlon : list R) x x2 : same_field a a2 idx idx2 plev0 ylat0 xlon ->
  holds_field a idx plev0 ylat0 (down plev0) (up ylat0) (length xlon) x ->
  holds_field a2 idx2 plev0 ylat0 (down plev0) (up ylat0) (length xlon) x2 -> element x = element x2.
Proof.
  intros Sm (S1 & D1) (S2 & D2). apply (element_ext x x2 _ _ _ S1 S2). intros l j i Hl Hj Hi.
  destruct (In_nth plev0 (nth l (down plev0) 0) 0) as (l0 & L0 & E0); [apply down_in, nth_In, Hl|].
  destruct (In_nth ylat0 (nth j (up ylat0) 0) 0) as (j0 & J0 & E1); [apply up_in, nth_In, Hj|].
  rewrite (D1 l j i l0 j0), (D2 l j i l0 j0) by auto. apply Sm; assumption.
Qed.

(** ** The fields of an analysed dataset *)
Section Fields.
  Context (lib : library) (k : class) (raising : bool) (base : qgargs) (user : list (string * string)) (u v t : dataarray R) (nc : option (dataarray R)).
  Context (other : list (string * list R)) (plev0 ylat0 xlon : list R).
  Hypothesis (In_ : input_dims u other plev0 ylat0 xlon).
  Let requests : list (request (F := qgfield)) := [Plain interpolate; Plain (reference_states lib k raising); WithForcing (fluxes lib k raising) nc].
  Lemma analysed_requests q q' : make_dataset (new_field k base) user u v t = Ok q -> requests_all requests q = Ok q' <-> analysed lib k raising base user u v t nc = Ok q'.
  Proof.
    intros E. unfold analysed. rewrite E. cbn [bind]. unfold requests. cbn [requests_all request_all].
    destruct (call_all interpolate q) as [q1| | | |]; cbn [bind]; try reflexivity.
    destruct (call_all (reference_states lib k raising) q1) as [q2| | | |]; cbn [bind]; try reflexivity.
    destruct (call_with (fluxes lib k raising) nc q2) as [q3| | | |]; cbn [bind]; reflexivity.
  Qed.
  Lemma analysed_fields q : unambiguous nc -> analysed lib k raising base user u v t nc = Ok q ->
    q_other q = other /\ fields_complete q /\
    forall idx, in_shape (sizes other) idx -> exists u' v' t' o x n,
      let w := field_args base xlon (up ylat0) (down plev0) u' v' t' in
      field_at q idx {| qf_args := w; qf_obj := o; qf_xlon := xlon; qf_read := Some x |} /\
      create k w = Done o /\
      holds_field u idx plev0 ylat0 (down plev0) (up ylat0) (length xlon) u' /\
      holds_field v idx plev0 ylat0 (down plev0) (up ylat0) (length xlon) v' /\
      holds_field t idx plev0 ylat0 (down plev0) (up ylat0) (length xlon) t' /\
      forcing_at (coord_at other idx) nc n /\
      session_with_fluxes lib k w false raising n = Returned x.
  Proof.
    intros Un E. destruct In_ as (Nd & (pn & yn & xn & Hd) & Hp & Hy).
    destruct (make_dataset (new_field k base) user u v t) as [q0| | | |] eqn:Hq; try (unfold analysed in E; rewrite Hq in E; discriminate).
    apply (analysed_requests q0 q Hq) in E.
    destruct (make_fields (new_field k base) user u v t q0 other pn plev0 yn ylat0 xn xlon Nd Hd Hp Hy Hq) as (O & L & P & Fs).
    assert (Dl : Forall distinct_labels requests).
    { unfold requests. repeat constructor. destruct nc as [a|]; [exact Un|exact I]. }
    destruct (requests_one requests q0 q Dl ltac:(rewrite O; exact L) E) as (O' & L' & Fs'). rewrite O in *.
    split; [exact O'|]. split; [split; [lia|rewrite O'; lia]|]. intros idx Hi.
    destruct (Fs idx Hi) as (f & u' & v' & t' & Ef & Hmk & Hu & Hv & Ht). destruct (Fs' idx f Hi Ef) as (f' & Ef' & H1).
    unfold new_field in Hmk. set (w := field_args base xlon (up ylat0) (down plev0) u' v' t') in *.
    destruct (create k w) as [o|e] eqn:Hc; [|destruct e; discriminate]. injection Hmk as <-. assert (K : q_other q = other /\ True) by auto. clear O O'.
    inversion H1 as [|r rs f0 f1 f2 R1 T1]; subst. inversion R1; subst. match goal with X : interpolate _ = Ok _ |- _ => injection X as <- end. clear R1 H1.
    inversion T1 as [|r rs f0 f3 f2 R2 T2]; subst. inversion R2 as [m f0 f4 M| |]; subst.
    unfold reference_states in M. cbn [qf_args] in M. destruct (prepared lib k w false raising no_forcing) as [y|s e]; [|destruct e; discriminate]. injection M as <-. clear R2 T1.
    inversion T2 as [|r rs f0 f3 f2 R3 T3]; subst. inversion T3; subst. clear T2 T3.
    assert (X : exists s, fluxes lib k raising {| qf_args := w; qf_obj := o; qf_xlon := xlon; qf_read := None |} s = Ok f' /\ forcing_at (coord_at other idx) nc (forcing_of s)).
    { inversion R3 as [|m f0 f3 M|m a s f0 f3 Pt M]; subst.
      - exists None. split; [exact M|]. intros l j i. reflexivity.
      - exists (Some s). split; [exact M|]. exists s. split; [exact Pt|]. intros l j i. reflexivity. }
    destruct X as (s & M & Fo). unfold fluxes in M. cbn [qf_args qf_obj qf_xlon] in M.
    destruct (session_with_fluxes lib k w false raising (forcing_of s)) as [x|? e] eqn:Hs; [|destruct e; discriminate]. injection M as <-.
    exists u', v', t', o, x, (forcing_of s). cbv zeta. fold w. unfold field_at. rewrite (proj1 K). auto 10.
  Qed.
End Fields.

(** ** Shapes *)
Lemma property_rank name f x : get_property name f = Ok x -> forall f0 q fs core, q_fields q = f0 :: fs -> core_coords field_attr q name = Ok core -> length (nd_shape x) = length core.
Proof.
  unfold get_property. intros H f0 q fs core Hf Hc. unfold core_coords in Hc. rewrite Hf in Hc.
  destruct (lookup name properties) as [p|] eqn:Lp; [|discriminate]. destruct (qf_read f) as [y|]; [|discriminate].
  assert (In (name, p) properties) as I.
  { clear - Lp. induction properties as [|(n, p') l IH]; [discriminate|]. cbn [lookup] in Lp. destruct (String.eqb name n) eqn:E; [apply String.eqb_eq in E; left; congruence|right; auto]. }
  cbn [properties In] in I.
  repeat (destruct I as [I|I]; [injection I as <- <-; cbn in Hc; injection Hc as <-; cbn [as_array] in H; match type of H with as_array _ _ ?r = _ => destruct r as [z|e]; [injection H as <-; reflexivity|destruct e; discriminate] end|]).
  contradiction.
Qed.

Section Shapes.
  Context (k : class) (w : qgargs) (g : grid) (xlon : list R) (r : option outputs).
  Hypothesis (U : usable k w) (Hg : grid_of w = Done g) (Hn : w_nh w = true -> Nat.even (w_nlat w) = false) (Hl : w_nlon w = length xlon).
  Let f := {| qf_args := w; qf_obj := object_of k w g; qf_xlon := xlon; qf_read := r |}.
  Lemma half_rows : (w_nlat w / 2 + 1 <= w_nlat w)%nat.
  Proof. assert (N := proj1 (proj1 U)). assert (X := Nat.div_mod (w_nlat w) 2 ltac:(lia)). lia. Qed.
  Lemma kmax_is : g_kmax g = result_levels w.
  Proof. apply (conf_facts k w g U Hg). Qed.
  Lemma rows_are : rows_back w (object_of k w g) (rows (ob_conf (object_of k w g))) = result_rows w /\
    rows_back w (object_of k w g) (p_nlat (ob_conf (object_of k w g))) = w_nlat w.
  Proof.
    destruct (lat_facts k w g U Hg) as (N & _). destruct (conf_facts k w g U Hg) as (_ & P & _). assert (Q := rows_facts k w g U Hg). rewrite Q, P.
    unfold rows_back, result_rows. cbn [object_of ob_grid]. rewrite N. unfold analysis_rows in *.
    destruct (Nat.even (w_nlat w)) eqn:E; destruct (w_nh w) eqn:H; split; try reflexivity; specialize (Hn eq_refl); discriminate.
  Qed.
  Lemma attrs_are : field_attr f "height" = map (result_height w) (seq 0 (result_levels w)) /\ field_attr f "ylat" = map (w_ylat w) (seq 0 (w_nlat w)) /\
    field_attr f "ylat_ref_states" = map (fun r => w_ylat w (w_nlat w - result_rows w + r)%nat) (seq 0 (result_rows w)) /\ field_attr f "xlon" = xlon.
  Proof.
    unfold field_attr, f. cbn [qf_args qf_obj qf_xlon String.eqb Ascii.eqb Bool.eqb object_of ob_grid].
    split; [rewrite (result_height_eq w g Hg), kmax_is; reflexivity|]. split; [reflexivity|]. split; [|reflexivity].
    destruct (lat_facts k w g U Hg) as (N & _). unfold ylat_ref_states, result_rows. cbn [object_of ob_grid]. rewrite N.
    destruct (w_nh w) eqn:H; [destruct (Nat.even (w_nlat w)) eqn:E|]; cbn [fst snd]; try reflexivity.
    apply map_ext. intros a. f_equal. lia.
  Qed.
  Lemma axes_are name axes : field_axes w xlon name axes <-> axes_of (field_attr f) name axes.
  Proof. destruct attrs_are as (A1 & A2 & A3 & A4). unfold axes_of, field_axes. rewrite A1, A2, A3, A4. reflexivity. Qed.
End Shapes.
Lemma known_axes name : (exists p, lookup name properties = Some p) -> forall h y yr xs, exists axes, documented h y yr xs name axes.
Proof.
  intros (p & Lp) h y yr xs.
  assert (In (name, p) properties) as I.
  { clear - Lp. induction properties as [|(n, p') l IH]; [discriminate|]. cbn [lookup] in Lp. destruct (String.eqb name n) eqn:E; [apply String.eqb_eq in E; left; congruence|right; auto]. }
  cbn [properties In] in I.
  repeat (destruct I as [I|I]; [injection I as <- _; eexists; first [apply doc_volume; cbn; tauto | apply doc_section; cbn; tauto | apply doc_map; cbn; tauto | apply doc_layer; cbn; tauto]|]).
  contradiction.
Qed.
(** every property of a field whose session returned is an array of the shape of its axes *)
Lemma property_shape lib k w g xlon n x name axes : usable k w -> grid_of w = Done g -> w_nlon w = length xlon -> session lib k w n = Done x ->
  (exists p, lookup name properties = Some p) -> field_axes w xlon name axes ->
  exists y, get_property name {| qf_args := w; qf_obj := object_of k w g; qf_xlon := xlon; qf_read := Some x |} = Ok y /\ nd_shape y = sizes axes /\
    forall c, is_result name x c (nd_at y c).
Proof.
  intros U Hg Hl Hx Lp Ax.
  destruct (C131_session_succeeds_exactly_when lib k w n U) as (S1 & S2 & _). specialize (S2 x Hx). destruct (proj1 S1 (ex_intro _ x Hx)) as (_ & Hn).
  destruct (rows_are k w g U Hg Hn) as (R1 & R2). assert (K := kmax_is k w g U Hg). unfold field_axes in Ax.
  unfold all_returned in S2. decompose [and] S2. clear S2 S1. unfold get_property, is_result. cbn [qf_args qf_obj qf_read].
  change (g_kmax (ob_grid (object_of k w g))) with (g_kmax g). rewrite K, R1, R2.
  destruct Lp as (p & Lp). rewrite Lp. 
  assert (In (name, p) properties) as I.
  { clear - Lp. induction properties as [|(m, p') l IH]; [discriminate|]. cbn [lookup] in Lp. destruct (String.eqb name m) eqn:E; [apply String.eqb_eq in E; left; congruence|right; auto]. }
  clear Lp. cbn [properties In] in I.
  destruct Ax as [m Hm|m Hm|m Hm|m Hm|m Hm]; cbn [volumes stability_profiles sections maps layers In] in Hm;
  (repeat (destruct Hm as [<-|Hm]; [|]); [..|contradiction]);
  (repeat (destruct I as [I|I]; [|]); [..|contradiction]); try discriminate; injection I as <-;
  repeat match goal with H : returned ?r |- context [as_array _ _ ?r] => destruct H as (z & ->) end;
  (eexists; split; [reflexivity|]; split; [cbn [nd_shape sizes map snd]; rewrite ?map_length, ?seq_length, ?Hl; reflexivity|]; intros c; exists z; split; [|reflexivity]; assumption || reflexivity).
Qed.
