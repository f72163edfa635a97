(** Datasets analysed field by field: what a QGDataset returns is what a field object made from each slice alone returns. *)
From Coq Require Import FunctionalExtensionality.
From Verif Require Import BaseFacts XarrayProofs XarrayProofs2 XarrayProofs3 PropertiesXarray PropertiesXarray2 PropertiesXarray3 ObjectProofs ObjectProofs4 SessionProofs PropertiesObject PropertiesSession.
From Verif Require Import DatasetSpec DatasetProofs.
From Verif Require Import XarrayProofs2.
Open Scope R_scope.

Lemma session_of_fluxes lib k w named raising n x : usable k w -> session_with_fluxes lib k w named raising n = Returned x -> session lib k w n = Done x.
Proof.
  intros U H. assert (C := with_fluxes_cases lib k w named raising n U). destruct (session lib k w n) as [y|e]; [|congruence].
  destruct C as (g & _ & _ & E). rewrite E in H. destruct (nonconvergent _ _ _ _ _); [discriminate|]. congruence.
Qed.
Lemma first_field {F} (q : qgds R F) : fields_complete q -> exists f0 fs idx, q_fields q = f0 :: fs /\ field_at q idx f0.
Proof.
  intros (P & L). destruct (q_fields q) as [|f0 fs] eqn:E; [cbn in P; lia|]. destruct (unravel_in (sizes (q_other q)) 0) as (I & E0); [rewrite <- L; cbn; lia|].
  exists f0, fs, (unravel (sizes (q_other q)) 0). split; [reflexivity|]. split; [exact I|]. rewrite E0, E. reflexivity.
Qed.
Lemma any_field {F} (q : qgds R F) f : fields_complete q -> In f (q_fields q) -> exists idx, field_at q idx f.
Proof.
  intros (P & L) I. destruct (In_nth_error _ _ I) as (p & E). assert (B : (p < size_of (sizes (q_other q)))%nat) by (rewrite <- L; apply nth_error_Some; congruence).
  destruct (unravel_in (sizes (q_other q)) p B) as (I0 & E0). exists (unravel (sizes (q_other q)) p). split; [exact I0|]. rewrite E0. exact E.
Qed.

(** ** C190: each slice is analysed as its own field *)
Theorem C190_each_slice_is_analysed_as_its_own_field :
  forall (lib : library) (k : class) (raising : bool) (base : qgargs) user u v t nc other plev0 ylat0 xlon q name d,
    input_dims u other plev0 ylat0 xlon -> unambiguous nc -> analysed lib k raising base user u v t nc = Ok q -> dataset_variable q name = Ok d ->
    exists axes, da_dims d = other ++ axes /\
      forall idx c, in_shape (sizes other) idx -> in_shape (sizes axes) c -> exists w n x,
        slice base u v t idx plev0 ylat0 xlon w /\ forcing_at (coord_at other idx) nc n /\
        session_with_fluxes lib k w false raising n = Returned x /\ is_result name x c (da_at d (idx ++ c)) /\
        (usable k w -> field_axes w xlon name axes).
Proof.
  intros lib k raising base user u v t nc other plev0 ylat0 xlon q name d Hi Un Hq Hd.
  destruct (analysed_fields lib k raising base user u v t nc other plev0 ylat0 xlon Hi q Un Hq) as (O & Co & Fs).
  destruct (first_field q Co) as (f0 & fs & i0 & E0 & A0). assert (Co' := Co). destruct Co' as (P & L).
  assert (Hc : exists core, core_coords field_attr q name = Ok core).
  { unfold dataset_variable, collect in Hd. destruct (traverse (get_property name) (q_fields q)) as [l| | | |]; try discriminate. cbn [bind] in Hd.
    destruct (asarray nzero l) as [a| | | |]; try discriminate. cbn [bind] in Hd. unfold as_dataarray in Hd. destruct (core_coords field_attr q name) as [core| | | |]; try discriminate. exists core. reflexivity. }
  destruct Hc as (core & Hc). exists core.
  destruct (collect_at field_attr q (get_property name) name d core L P Hc) as (D & V); [intros f x _ G; eapply property_rank; eassumption|exact Hd|].
  rewrite O in D, V. split; [exact D|]. intros idx c Hx Hcc. destruct (Fs idx Hx) as (u' & v' & t' & o & x & n & (_ & F1) & F2 & F3 & F4 & F5 & F6 & F7).
  rewrite O in F1. destruct (V idx c _ Hx Hcc F1) as (y & Y1 & _ & Y2).
  exists (field_args base xlon (up ylat0) (down plev0) u' v' t'), n, x. destruct Hi as (_ & _ & Hp & Hy).
  split; [apply made_slice; assumption|]. split; [exact F6|]. split; [exact F7|]. rewrite Y2. split; cycle 1.
  { intros U. unfold create in F2. destruct (grid_of (field_args base xlon (up ylat0) (down plev0) u' v' t')) as [g|] eqn:Hg; [|discriminate]. injection F2 as <-.
    assert (Hn := proj2 (proj1 (proj1 (C131_session_succeeds_exactly_when lib k _ n U)) (ex_intro _ x (session_of_fluxes _ _ _ _ _ _ _ U F7)))).
    assert (Same : field_attr f0 = field_attr {| qf_args := field_args base xlon (up ylat0) (down plev0) u' v' t'; qf_obj := object_of k (field_args base xlon (up ylat0) (down plev0) u' v' t') g; qf_xlon := xlon; qf_read := Some x |}).
    { destruct A0 as (A1 & A2). rewrite O in A1, A2. destruct (Fs i0 A1) as (u'' & v'' & t'' & o' & x' & n' & (_ & G1) & G2 & _). rewrite O in G1.
      pose proof (eq_trans (eq_sym A2) G1) as X. injection X as ->. unfold create in G2.
      change (grid_of (field_args base xlon (up ylat0) (down plev0) u'' v'' t'')) with (grid_of (field_args base xlon (up ylat0) (down plev0) u' v' t')) in G2. rewrite Hg in G2. injection G2 as <-. reflexivity. }
    assert (Lp : exists p, lookup name properties = Some p). { unfold get_property in Y1. destruct (lookup name properties) as [p|]; [exists p; reflexivity|discriminate]. }
    edestruct (known_axes name Lp) as (axes & Ax). assert (Ax' := proj1 (axes_are k _ g xlon (Some x) U Hg Hn eq_refl name axes) Ax). rewrite <- Same in Ax'.
    assert (Ec := documented_core field_attr q f0 fs name axes E0 Ax'). rewrite Hc in Ec. injection Ec as ->. exact Ax. }
  clear - Y1.
  unfold get_property in Y1. cbn [qf_args qf_obj qf_read] in Y1. unfold is_result. destruct (lookup name properties) as [[p|p|p|p]|]; [..|discriminate];
  (destruct (p x) as [z|e]; [|destruct e; discriminate]; cbn [as_array] in Y1; injection Y1 as <-; exists z; split; reflexivity).
Qed.
Print Assumptions C190_each_slice_is_analysed_as_its_own_field.

(** The results at one index of the extra dimensions depend on nothing but the fields there: another dataset, with other extra dimensions, that
    holds the same fields at some index has the same results at that index *)
Theorem C190_results_depend_on_their_slice_only :
  forall (lib : library) (k : class) (raising : bool) (base : qgargs) plev0 ylat0 xlon name
    user u v t other q d user2 u2 v2 t2 other2 q2 d2,
    input_dims u other plev0 ylat0 xlon -> analysed lib k raising base user u v t None = Ok q -> dataset_variable q name = Ok d ->
    input_dims u2 other2 plev0 ylat0 xlon -> analysed lib k raising base user2 u2 v2 t2 None = Ok q2 -> dataset_variable q2 name = Ok d2 ->
    exists axes, da_dims d = other ++ axes /\ da_dims d2 = other2 ++ axes /\
      forall idx idx2 c, in_shape (sizes other) idx -> in_shape (sizes other2) idx2 -> in_shape (sizes axes) c ->
        same_field u u2 idx idx2 plev0 ylat0 xlon -> same_field v v2 idx idx2 plev0 ylat0 xlon -> same_field t t2 idx idx2 plev0 ylat0 xlon ->
        da_at d (idx ++ c) = da_at d2 (idx2 ++ c).
Proof.
  intros lib k raising base plev0 ylat0 xlon name user u v t other q d user2 u2 v2 t2 other2 q2 d2 Hi Hq Hd Hi2 Hq2 Hd2.
  destruct (analysed_fields lib k raising base user u v t None other plev0 ylat0 xlon Hi q I Hq) as (O & Co & Fs).
  destruct (analysed_fields lib k raising base user2 u2 v2 t2 None other2 plev0 ylat0 xlon Hi2 q2 I Hq2) as (O2 & Co2 & Fs2).
  destruct (first_field q Co) as (f0 & fs & i0 & E0 & A0). destruct (first_field q2 Co2) as (g0 & gs & j0 & E2 & A2).
  assert (Co' := Co). destruct Co' as (P & L). assert (Co2' := Co2). destruct Co2' as (P2 & L2).
  assert (Same : field_attr f0 = field_attr g0).
  { destruct (Fs i0) as (u' & v' & t' & o & x & n & (_ & F1) & F2 & _); [rewrite <- O; apply A0|]. destruct A0 as (_ & A0).
    destruct (Fs2 j0) as (u'' & v'' & t'' & o' & x' & n' & (_ & G1) & G2 & _); [rewrite <- O2; apply A2|]. destruct A2 as (_ & A2).
    assert (f0 = _) as -> by (pose proof (eq_trans (eq_sym A0) F1) as X; injection X as X; exact X).
    assert (g0 = _) as -> by (pose proof (eq_trans (eq_sym A2) G1) as X; injection X as X; exact X).
    unfold create in F2, G2. change (grid_of (field_args base xlon (up ylat0) (down plev0) u'' v'' t'')) with (grid_of (field_args base xlon (up ylat0) (down plev0) u' v' t')) in G2.
    destruct (grid_of _) as [g|]; [|discriminate]. injection F2 as <-. injection G2 as <-. reflexivity. }
  assert (Hc : exists core, core_coords field_attr q name = Ok core).
  { unfold dataset_variable, collect in Hd. destruct (traverse (get_property name) (q_fields q)) as [l| | | |]; try discriminate. cbn [bind] in Hd.
    destruct (asarray nzero l) as [a| | | |]; try discriminate. cbn [bind] in Hd. unfold as_dataarray in Hd. destruct (core_coords field_attr q name) as [core| | | |]; try discriminate. exists core. reflexivity. }
  destruct Hc as (core & Hc). assert (Hc2 : core_coords field_attr q2 name = Ok core).
  { rewrite <- Hc. unfold core_coords. rewrite E0, E2, Same. reflexivity. }
  exists core.
  destruct (collect_at field_attr q (get_property name) name d core L P Hc) as (D & V); [intros f x _ G; eapply property_rank; eassumption|exact Hd|].
  destruct (collect_at field_attr q2 (get_property name) name d2 core L2 P2 Hc2) as (D2 & V2); [intros f x _ G; eapply property_rank; eassumption|exact Hd2|].
  rewrite O in D, V. rewrite O2 in D2, V2. split; [exact D|]. split; [exact D2|]. intros idx idx2 c Hx Hx2 Hcc Su Sv St.
  destruct (Fs idx Hx) as (u' & v' & t' & o & x & n & (_ & F1) & F2 & F3 & F4 & F5 & F6 & F7).
  destruct (Fs2 idx2 Hx2) as (u'' & v'' & t'' & o' & x' & n' & (_ & G1) & G2 & G3 & G4 & G5 & G6 & G7).
  assert (W : field_args base xlon (up ylat0) (down plev0) u'' v'' t'' = field_args base xlon (up ylat0) (down plev0) u' v' t').
  { unfold field_args. rewrite (holds_same _ _ _ _ _ _ _ _ _ Su F3 G3), (holds_same _ _ _ _ _ _ _ _ _ Sv F4 G4), (holds_same _ _ _ _ _ _ _ _ _ St F5 G5). reflexivity. }
  assert (N : n' = n). { extensionality l. extensionality j. extensionality i. rewrite (F6 l j i), (G6 l j i). reflexivity. }
  rewrite W in G1, G2, G7. rewrite N in G7. rewrite O in F1. rewrite O2 in G1.
  destruct (V idx c _ Hx Hcc F1) as (y & Y1 & _ & Y2). destruct (V2 idx2 c _ Hx2 Hcc G1) as (y' & Z1 & _ & Z2).
  assert (o' = o) by congruence. assert (x' = x) by congruence. subst o' x'. rewrite Y2, Z2. congruence.
Qed.
Print Assumptions C190_results_depend_on_their_slice_only.

(** If a session with each slice alone returns, so does the analysis of the dataset, and every variable can be read, with the extra dimensions of the
    input followed by heights, latitudes and longitudes of the results *)
Theorem C190_the_dataset_is_analysed_when_every_slice_is :
  forall (lib : library) (k : class) (raising : bool) (base : qgargs) user u v t other plev0 ylat0 xlon q0,
    input_dims u other plev0 ylat0 xlon -> make_dataset (new_field k base) user u v t = Ok q0 ->
    (forall idx w, in_shape (sizes other) idx -> slice base u v t idx plev0 ylat0 xlon w ->
       usable k w /\ exists x, session_with_fluxes lib k w false raising no_forcing = Returned x) ->
    exists q, analysed lib k raising base user u v t None = Ok q /\
      forall name p, lookup name properties = Some p -> exists d axes w idx,
        dataset_variable q name = Ok d /\ da_dims d = other ++ axes /\ slice base u v t idx plev0 ylat0 xlon w /\ field_axes w xlon name axes.
Proof.
  intros lib k raising base user u v t other plev0 ylat0 xlon q0 Hi Hq H. assert (Hi' := Hi). destruct Hi' as (Nd & (pn & yn & xn & Hdm) & Hp & Hy).
  destruct (make_fields (new_field k base) user u v t q0 other pn plev0 yn ylat0 xn xlon Nd Hdm Hp Hy Hq) as (O & L & P & Fs).
  assert (Co : fields_complete q0) by (split; [exact P|rewrite O; exact L]).
  assert (Each : forall f, In f (q_fields q0) -> reference_states lib k raising f = Ok f /\ exists f', fluxes lib k raising f None = Ok f').
  { intros f Hf. destruct (any_field q0 f Co Hf) as (idx & Hx & Ex). rewrite O in Hx, Ex. destruct (Fs idx Hx) as (f' & u' & v' & t' & Ef & Hmk & Hu & Hv & Ht).
    assert (f' = f) by congruence. subst f'. unfold new_field in Hmk. set (w := field_args base xlon (up ylat0) (down plev0) u' v' t') in *.
    destruct (create k w) as [o|e] eqn:Hc; [|destruct e; discriminate]. injection Hmk as <-.
    destruct (H idx w Hx) as (_ & x & Hs); [apply made_slice; assumption|].
    unfold reference_states, fluxes. cbn [qf_args forcing_of]. rewrite Hs. unfold session_with_fluxes in Hs. destruct (prepared lib k w false raising no_forcing) as [y|s e]; [|discriminate].
    split; [reflexivity|]. eexists. reflexivity. }
  assert (C1 : call_all (@interpolate) q0 = Ok q0).
  { unfold call_all. rewrite (traverse_all interpolate (q_fields q0) (q_fields q0)) by (clear; induction (q_fields q0); constructor; auto). destruct q0. reflexivity. }
  assert (C2 : call_all (reference_states lib k raising) q0 = Ok q0).
  { unfold call_all. rewrite (traverse_all (reference_states lib k raising) (q_fields q0) (q_fields q0)); [destruct q0; reflexivity|].
    clear - Each. induction (q_fields q0) as [|f l IH]; constructor; [apply Each; left; reflexivity|apply IH; intros; apply Each; right; assumption]. }
  assert (C3 : exists q, call_with (fluxes lib k raising) None q0 = Ok q).
  { unfold call_with.
    assert (T : forall l : list (qgfield * list (string * R)), (forall y, In y l -> In (fst y) (q_fields q0)) -> exists ys, traverse (fun fc => fluxes lib k raising (fst fc) None) l = Ok ys).
    { induction l as [|y l IH]; intros Hl; [exists []; reflexivity|]. destruct (Each (fst y)) as (_ & f' & E'); [apply Hl; left; reflexivity|].
      destruct IH as (ys & Ey); [intros z Hz; apply Hl; right; exact Hz|]. exists (f' :: ys). cbn [traverse]. rewrite E'. cbn [bind]. rewrite Ey. reflexivity. }
    destruct (T (combine (q_fields q0) (iter_other q0))) as (ys & Ey); [intros (a, b) Hab; apply in_combine_l in Hab; exact Hab|]. rewrite Ey. cbn [bind]. eexists. reflexivity. }
  destruct C3 as (q & C3). exists q. assert (An : analysed lib k raising base user u v t None = Ok q).
  { unfold analysed. rewrite Hq. cbn [bind]. rewrite C1. cbn [bind]. rewrite C2. cbn [bind]. exact C3. }
  split; [exact An|]. intros name p Lp.
  destruct (analysed_fields lib k raising base user u v t None other plev0 ylat0 xlon Hi q I An) as (O' & Co' & Fs').
  assert (Ks : forall f, In f (q_fields q) -> exists idx u' v' t' g x, let w := field_args base xlon (up ylat0) (down plev0) u' v' t' in
      slice base u v t idx plev0 ylat0 xlon w /\ usable k w /\ grid_of w = Done g /\ session lib k w no_forcing = Done x /\
      f = {| qf_args := w; qf_obj := object_of k w g; qf_xlon := xlon; qf_read := Some x |}).
  { intros f Hf. destruct (any_field q f Co' Hf) as (idx & Hx & Ex). rewrite O' in Hx, Ex. destruct (Fs' idx Hx) as (u' & v' & t' & o & x & n & (_ & F1) & F2 & F3 & F4 & F5 & F6 & F7).
    rewrite O' in F1. assert (N : n = no_forcing). { extensionality l. extensionality j. extensionality i. apply F6. } subst n.
    set (w := field_args base xlon (up ylat0) (down plev0) u' v' t') in *. assert (Sl : slice base u v t idx plev0 ylat0 xlon w) by (apply made_slice; assumption).
    destruct (H idx w Hx Sl) as (U & _). unfold create in F2. destruct (grid_of w) as [g|] eqn:Hg; [|discriminate]. injection F2 as <-.
    exists idx, u', v', t', g, x. cbv zeta. fold w. split; [exact Sl|]. split; [exact U|]. split; [exact Hg|]. split; [eapply session_of_fluxes; eassumption|]. congruence. }
  destruct (first_field q Co') as (f0 & fs & i0 & E0 & _).
  destruct (Ks f0) as (idx0 & u0 & v0 & t0 & g0 & x0 & Sl & U0 & Hg0 & Hs0 & Ef0); [rewrite E0; left; reflexivity|].
  set (w0 := field_args base xlon (up ylat0) (down plev0) u0 v0 t0) in *.
  assert (Hn : w_nh w0 = true -> Nat.even (w_nlat w0) = false). { apply (proj1 (C131_session_succeeds_exactly_when lib k w0 no_forcing U0)). exists x0. exact Hs0. }
  destruct (known_axes name (ex_intro _ p Lp) (map (result_height w0) (seq 0 (result_levels w0))) (map (w_ylat w0) (seq 0 (w_nlat w0)))
    (map (fun r => w_ylat w0 (w_nlat w0 - result_rows w0 + r)%nat) (seq 0 (result_rows w0))) xlon) as (axes & Ax). fold (field_axes w0 xlon name axes) in Ax.
  destruct (C172_every_variable_has_its_axes field_attr q (get_property name) name f0 fs axes E0 Co') as (d & D1 & D2 & _).
  - rewrite Ef0. apply (axes_are k w0 g0 xlon (Some x0) U0 Hg0 Hn eq_refl). exact Ax.
  - intros f Hf. destruct (Ks f Hf) as (idx & u' & v' & t' & g & x & Sf & Uf & Hgf & Hsf & ->).
    destruct (property_shape lib k _ g xlon no_forcing x name axes Uf Hgf eq_refl Hsf (ex_intro _ p Lp) Ax) as (y & Y1 & Y2 & _). exists y. split; assumption.
  - exists d, axes, w0, idx0. rewrite O' in D2. auto.
Qed.
Print Assumptions C190_the_dataset_is_analysed_when_every_slice_is.

(** ** The arguments of a slice are determined by the labels *)
Lemma steps_up (s : nat -> nat) n : (forall a b, (a < b < n)%nat -> (s a < s b)%nat) -> forall j, (j < n)%nat -> (j <= s j)%nat.
Proof. intros H. induction j as [|j IH]; intros Hj; [lia|]. specialize (IH ltac:(lia)). specialize (H j (S j) ltac:(lia)). lia. Qed.
Lemma steps_all (s : nat -> nat) n : (forall a b, (a < b < n)%nat -> (s a < s b)%nat) -> (forall j, (j < n)%nat -> (s j < n)%nat) -> forall j, (j < n)%nat -> s j = j.
Proof.
  intros H B j Hj. assert (L := steps_up s n H j Hj).
  assert (G : forall d j, (j + d < n)%nat -> (s j + d <= s (j + d)%nat)%nat).
  { induction d as [|d IH]; intros i Hi; [rewrite !Nat.add_0_r; lia|]. specialize (IH i ltac:(lia)). specialize (H (i + d)%nat (i + S d)%nat ltac:(lia)). lia. }
  specialize (G (n - 1 - j)%nat j ltac:(lia)). specialize (B (j + (n - 1 - j))%nat ltac:(lia)). lia.
Qed.
Lemma sorted_values (l : list R) (f : nat -> R) : XarraySpec.increasing l -> (forall a b, (a < b < length l)%nat -> f a < f b) -> (forall j, (j < length l)%nat -> In (f j) l) ->
  forall j, (j < length l)%nat -> f j = nth j l 0.
Proof.
  intros Hl Hf Hin.
  assert (E : exists s : nat -> nat, forall j, (j < length l)%nat -> (s j < length l)%nat /\ nth (s j) l 0 = f j).
  { assert (X : forall n, (n <= length l)%nat -> exists s : nat -> nat, forall j, (j < n)%nat -> (s j < length l)%nat /\ nth (s j) l 0 = f j).
    { induction n as [|n IH]; intros Hn; [exists (fun j => j); intros; lia|]. destruct IH as (s & Hs); [lia|].
      destruct (In_nth l (f n) 0 (Hin n ltac:(lia))) as (p & P1 & P2). exists (fun j => if Nat.eqb j n then p else s j). intros j Hj.
      destruct (Nat.eqb_spec j n); [subst; auto|]. apply Hs. lia. }
    apply X. lia. }
  destruct E as (s & Hs). intros j Hj. destruct (Hs j Hj) as (_ & <-). f_equal. apply (steps_all s (length l)); [|intros a Ha; apply Hs, Ha|exact Hj].
  intros a b Hab. destruct (Hs a ltac:(lia)) as (A1 & A2). destruct (Hs b ltac:(lia)) as (B1 & B2). specialize (Hf a b Hab).
  destruct (Nat.lt_trichotomy (s a) (s b)) as [|[C|C]]; [assumption| |]; exfalso.
  - rewrite C in A2. lra.
  - specialize (Hl (s b) (s a) ltac:(lia)). lra.
Qed.
Lemma slice_latitude b u v t idx plev0 ylat0 xlon w : monotonic ylat0 -> slice b u v t idx plev0 ylat0 xlon w -> forall j, (j < w_nlat w)%nat -> w_ylat w j = nth j (up ylat0) 0.
Proof.
  intros Hy Sl j Hj. destruct (slice_sizes _ _ _ _ _ _ _ _ _ Sl) as (_ & E & _).
  apply sorted_values; [apply up_increasing, Hy| | |]; rewrite up_length; rewrite <- E; [apply Sl|intros a Ha; apply up_in; apply Sl, Ha|exact Hj].
Qed.
Lemma slice_pressure b u v t idx plev0 ylat0 xlon w : monotonic plev0 -> slice b u v t idx plev0 ylat0 xlon w -> forall l, (l < w_nlev w)%nat -> w_plev w l = nth l (down plev0) 0.
Proof.
  intros Hy Sl l Hl. destruct (slice_sizes _ _ _ _ _ _ _ _ _ Sl) as (_ & _ & E).
  assert (X : - w_plev w l = nth l (map Ropp (down plev0)) 0).
  { apply (sorted_values (map Ropp (down plev0)) (fun l => - w_plev w l)); rewrite ?map_length, ?down_length, <- ?E; [| | |exact Hl].
    - intros a c. rewrite map_length. intros Hac. assert (D := down_decreasing _ Hy a c Hac). rewrite !(nth_indep _ 0 (- 0)) by (rewrite map_length; lia). rewrite !map_nth. lra.
    - intros a c Hac. assert (D := slice_pressures _ _ _ _ _ _ _ _ _ Sl a c Hac). lra.
    - intros a Ha. apply in_map, down_in. apply Sl, Ha. }
  rewrite (nth_indep _ 0 (- 0)) in X by (rewrite map_length, down_length, <- E; exact Hl). rewrite map_nth in X. lra.
Qed.

(** ** A case: two dates, latitudes from north to south, pressures from the top down to the ground, QGFieldNHN22 *)
Definition rows_down : list R := [90; 45; 0; -45; -90].
Definition tops_first : list R := map (fun l => 1000 * exp (- INR l / 7)) [3; 2; 1; 0]%nat.
Definition two_dates (y : nat -> R) : dataarray R := DA [("time", [0; 6]); ("plev", tops_first); ("lat", rows_down); ("lon", [0; 90; 180; 270])]%string
  (fun idx => y (nth 0 idx 0%nat) + INR (nth 1 idx 0%nat) * INR (nth 3 idx 0%nat) - INR (nth 2 idx 0%nat)).
Lemma rows_monotonic : monotonic rows_down.
Proof. right. intros [|[|[|[|[|a]]]]] [|[|[|[|[|b]]]]] H; cbn in *; lia || lra. Qed.
Lemma tops_nth l : (l < 4)%nat -> nth l tops_first 0 = 1000 * exp (- INR (3 - l) / 7).
Proof. intros H. destruct l as [|[|[|[|]]]]; [reflexivity..|lia]. Qed.
Lemma tops_increasing : XarraySpec.increasing tops_first.
Proof.
  intros a b H. change (length tops_first) with 4%nat in H. rewrite !tops_nth by lia. apply Rmult_lt_compat_l; [lra|]. apply exp_increasing.
  assert (X : INR (3 - b) < INR (3 - a)) by (apply lt_INR; lia). lra.
Qed.
Lemma up_rows : up rows_down = [-90; -45; 0; 45; 90].
Proof.
  unfold up. destruct (is_ascending rows_down) eqn:E; [|reflexivity]. exfalso. apply ascending_iff in E. specialize (E 0%nat 1%nat ltac:(cbn; lia)). cbn in E. lra.
Qed.
Lemma down_tops : down tops_first = map (fun l => 1000 * exp (- INR l / 7)) [0; 1; 2; 3]%nat.
Proof.
  unfold down. destruct (is_descending tops_first) eqn:E; [|reflexivity]. exfalso. apply descending_iff in E. specialize (E 0%nat 1%nat ltac:(cbn; lia)).
  assert (X := tops_increasing 0%nat 1%nat ltac:(cbn; lia)). lra.
Qed.
Lemma case_slices u v t idx w : slice (some_args true false) u v t idx tops_first rows_down [0; 90; 180; 270] w -> usable (NHN22 1) w /\ accepted_levels w /\ w_nh w = false.
Proof.
  intros Sl. destruct (slice_sizes _ _ _ _ _ _ _ _ _ Sl) as (N1 & N2 & N3). cbn in N1, N2, N3.
  assert (Y := slice_latitude _ _ _ _ _ _ _ _ _ rows_monotonic Sl). assert (Z := slice_pressure _ _ _ _ _ _ _ _ _ (or_introl tops_increasing) Sl). rewrite up_rows in Y. rewrite down_tops in Z. rewrite N2 in Y. rewrite N3 in Z.
  destruct (slice_settings _ _ _ _ _ _ _ _ _ Sl) as (K1 & _ & K3 & K4 & _ & _ & K7 & _ & _ & _ & _ & K12 & K13). cbn in K1, K3, K4, K7, K12, K13.
  split; [|split; [|exact K12]].
  - unfold usable, balanced_latitudes. rewrite N1, N2, K13, K1, K4. split; [|cbn; repeat split; lia].
    split; [lia|]. split; [intros [|[|[|[|]]]] Hj; try lia; rewrite !Y by lia; cbn; lra|]. right. split; [reflexivity|]. change (5 / 2)%nat with 2%nat. rewrite Y by lia. reflexivity.
  - unfold accepted_levels. rewrite N3, K1, K3. split; [lia|]. intros _. split.
    + rewrite !Z by lia. cbn [nth map INR]. apply Rmult_le_compat_l; [lra|]. apply Rlt_le, exp_increasing. lra.
    + unfold data_height, plev_to_height. rewrite K7, Z by lia. cbn [nth map Nat.sub]. replace (1000 * exp (- INR 3 / 7) / 1000) with (exp (- INR 3 / 7)) by field. rewrite ln_exp. cbn [INR]. lra.
Qed.
Lemma case_inputs y : input_dims (two_dates y) [("time"%string, [0; 6])] tops_first rows_down [0; 90; 180; 270].
Proof.
  split; [repeat (constructor; [cbn; intuition discriminate|]); constructor|]. split; [exists "plev"%string, "lat"%string, "lon"%string; reflexivity|].
  split; [left; exact tops_increasing|exact rows_monotonic].
Qed.
Lemma case_made yu yv yt : exists q0, make_dataset (new_field (NHN22 1) (some_args true false)) [] (two_dates yu) (two_dates yv) (two_dates yt) = Ok q0.
Proof.
  assert (Mk : forall u' v' t', exists f, new_field (NHN22 1) (some_args true false) [0; 90; 180; 270] (up rows_down) (down tops_first) u' v' t' = Ok f).
  { intros u' v' t'. unfold new_field. set (w := field_args (some_args true false) [0; 90; 180; 270] (up rows_down) (down tops_first) u' v' t').
    set (wz := field_args (some_args true false) [0; 90; 180; 270] (up rows_down) (down tops_first) (ND [4; 5; 4]%nat (fun _ => 0)) (ND [4; 5; 4]%nat (fun _ => 0)) (ND [4; 5; 4]%nat (fun _ => 0))).
    destruct (case_slices (DA [] (fun _ => 0)) (DA [] (fun _ => 0)) (DA [] (fun _ => 0)) [] wz) as (U & A & _).
    { apply made_slice; [left; exact tops_increasing|exact rows_monotonic|..]; split; try reflexivity; rewrite up_rows, down_tops; reflexivity. }
    destruct (proj1 (grid_exists _ _ U) A) as (g & Hg). unfold create. change (grid_of w) with (grid_of wz). rewrite Hg. eexists. reflexivity. }
  unfold make_dataset.
  assert (La : forall l, labels_eqb l l = true). { intros l. unfold labels_eqb. rewrite Nat.eqb_refl. apply forallb_forall. intros p _. unfold neqb, RNum, Reqb. destruct (Req_EM_T _ _); congruence. }
  assert (Sa : forall ya yb, same_labels (two_dates ya) (two_dates yb) = true) by (intros; unfold same_labels; cbn [two_dates da_dims forallb fst snd lookup String.eqb Ascii.eqb Bool.eqb]; rewrite !La; reflexivity).
  rewrite !Sa. cbn [andb check].
  cbn -[Nat.eqb reshape new_field is_ascending is_descending rows_down tops_first flip_field row INR].
  assert (Re : forall ya, exists b, reshape (da_nd (two_dates ya)) [2; 4; 5; 4]%nat = Ok b) by (intros; apply reshape_total; reflexivity).
  destruct (Re yu) as (bu & Eu), (Re yv) as (bv & Ev), (Re yt) as (bt & Et). change (length tops_first) with 4%nat. change (length rows_down) with 5%nat.
  rewrite Eu, Ev, Et. cbn [bind]. fold (up rows_down). fold (down tops_first).
  set (fl := flip_field (negb (is_ascending rows_down)) (negb (is_descending tops_first))).
  destruct (Mk (fl (row bu 0)) (fl (row bv 0)) (fl (row bt 0))) as (f0 & ->). cbn [bind].
  destruct (Mk (fl (row bu 1)) (fl (row bv 1)) (fl (row bt 1))) as (f1 & ->). cbn [bind length Nat.eqb negb check]. eexists. reflexivity.
Qed.
Example C190_case : forall raising yu yv yt, exists q d axes,
  input_dims (two_dates yu) [("time"%string, [0; 6])] tops_first rows_down [0; 90; 180; 270] /\
  analysed some_library (NHN22 1) raising (some_args true false) [] (two_dates yu) (two_dates yv) (two_dates yt) None = Ok q /\
  dataset_variable q "lwa_baro" = Ok d /\ da_dims d = [("time"%string, [0; 6])] ++ axes /\ sizes axes = [5; 4]%nat.
Proof.
  intros raising yu yv yt. destruct (case_made yu yv yt) as (q0 & Hq).
  destruct (C190_the_dataset_is_analysed_when_every_slice_is some_library (NHN22 1) raising (some_args true false) [] (two_dates yu) (two_dates yv) (two_dates yt)
    [("time"%string, [0; 6])] tops_first rows_down [0; 90; 180; 270] q0 (case_inputs yu) Hq) as (q & Q1 & Q2).
  - intros idx w _ Sl. destruct (case_slices _ _ _ _ _ Sl) as (U & A & N). split; [exact U|].
    destruct (C158_which_sessions_are_refused some_library (NHN22 1) w false raising no_forcing U) as (_ & _ & R & _).
    destruct (R A) as (x & _ & [X|(X & _)]); [rewrite N; discriminate|exists x; exact X|discriminate].
  - destruct (Q2 "lwa_baro"%string _ eq_refl) as (d & axes & w & idx & D1 & D2 & Sl & Ax). exists q, d, axes. split; [apply case_inputs|]. split; [exact Q1|]. split; [exact D1|]. split; [exact D2|].
    destruct (slice_sizes _ _ _ _ _ _ _ _ _ Sl) as (_ & N2 & _). destruct (case_slices _ _ _ _ _ Sl) as (_ & _ & N). unfold field_axes, result_rows in Ax. rewrite N in Ax. change (length rows_down) with 5%nat in N2. rewrite N2 in Ax.
    inversion Ax as [m Hm|m Hm|m Hm|m Hm|m Hm]; subst; cbn in Hm; try (exfalso; repeat (destruct Hm as [Hm|Hm]; [discriminate|]); contradiction).
    cbn [sizes map snd]. rewrite map_length, seq_length. reflexivity.
Qed.

(** ** C191: wave activity of a dataset is not negative *)
Theorem C191_wave_activity_of_a_dataset_is_not_negative :
  forall (lib : library) (k : class) (raising : bool) (base : qgargs) user u v t nc other plev0 ylat0 xlon q name d,
    input_dims u other plev0 ylat0 xlon -> unambiguous nc -> analysed lib k raising base user u v t nc = Ok q ->
    name = "lwa_baro"%string \/ name = "lwa"%string -> dataset_variable q name = Ok d ->
    0 <= w_a base -> w_evenly base = false -> 0 < w_dz base -> (forall y, In y ylat0 -> -90 <= y <= 90) ->
    (forall idx w, slice base u v t idx plev0 ylat0 xlon w -> usable k w) ->
    forall idx, in_shape (sizes (da_dims d)) idx -> 0 <= da_at d idx.
Proof.
  intros lib k raising base user u v t nc other plev0 ylat0 xlon q name d Hi Un Hq Hname Hd Ha Hev Hz Hlat HU idx0 Hx0.
  destruct (C190_each_slice_is_analysed_as_its_own_field lib k raising base user u v t nc other plev0 ylat0 xlon q name d Hi Un Hq Hd) as (axes & D & V).
  rewrite D in Hx0. unfold sizes in Hx0. rewrite map_app in Hx0. apply Forall2_app_inv_r in Hx0. destruct Hx0 as (idx & c & Hx & Hc & ->).
  destruct (V idx c Hx Hc) as (w & n & x & Sl & Fo & Hs & Re & Ax). assert (U := HU idx w Sl). specialize (Ax U).
  destruct (slice_settings _ _ _ _ _ _ _ _ _ Sl) as (_ & _ & K3 & _ & _ & _ & _ & _ & _ & _ & K11 & _ & K13).
  destruct (C133_reported_wave_activity_is_not_negative lib k w n x U (session_of_fluxes _ _ _ _ _ _ _ U Hs)) as (B1 & B2).
  - rewrite K11. exact Ha.
  - rewrite K13, Hev, K3. exact Hz.
  - intros j Hj. apply Hlat. apply Sl, Hj.
  - destruct Hname as [-> | ->]; cbn in Re; destruct Re as (y & Y1 & Y2); rewrite Y2.
    + rewrite Y1 in B1. cbn [gives] in B1. apply B1.
      inversion Ax as [m Hm|m Hm|m Hm|m Hm|m Hm]; subst; cbn in Hm; try (exfalso; repeat (destruct Hm as [Hm|Hm]; [discriminate|]); contradiction).
      unfold sizes in Hc. cbn [map snd] in Hc. inversion Hc as [|a b l l' Hab _]; subst. rewrite map_length, seq_length in Hab. exact Hab.
    + rewrite Y1 in B2. cbn [gives] in B2. apply B2.
      inversion Ax as [m Hm|m Hm|m Hm|m Hm|m Hm]; subst; cbn in Hm; try (exfalso; repeat (destruct Hm as [Hm|Hm]; [discriminate|]); contradiction).
      unfold sizes in Hc. cbn [map snd] in Hc. inversion Hc as [|a b l l' _ Hc']; subst. inversion Hc' as [|a' b' l1 l1' Hab _]; subst. rewrite map_length, seq_length in Hab. exact Hab.
Qed.
Print Assumptions C191_wave_activity_of_a_dataset_is_not_negative.
Example C191_case : forall raising yu yv yt, exists q d,
  analysed some_library (NHN22 1) raising (some_args true false) [] (two_dates yu) (two_dates yv) (two_dates yt) None = Ok q /\
  dataset_variable q "lwa_baro" = Ok d /\ 0 <= da_at d [1; 3; 2]%nat.
Proof.
  intros raising yu yv yt. destruct (C190_case raising yu yv yt) as (q & d & axes & Hi & Hq & Hd & D & Sz). exists q, d. split; [exact Hq|]. split; [exact Hd|].
  apply (C191_wave_activity_of_a_dataset_is_not_negative some_library (NHN22 1) raising (some_args true false) [] (two_dates yu) (two_dates yv) (two_dates yt) None
    [("time"%string, [0; 6])] tops_first rows_down [0; 90; 180; 270] q "lwa_baro"%string d Hi I Hq (or_introl eq_refl) Hd).
  - cbn. lra.
  - reflexivity.
  - cbn. lra.
  - intros y Hy. cbn in Hy. intuition lra.
  - intros idx w Sl. apply (case_slices _ _ _ _ _ Sl).
  - rewrite D. unfold sizes. rewrite map_app. fold (sizes axes). rewrite Sz. cbn. repeat constructor; lia.
Qed.
