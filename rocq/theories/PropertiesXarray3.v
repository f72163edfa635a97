(** Which axes the variables of a dataset carry. *)
From Verif Require Import BaseFacts SpecFacts XarraySpec XarrayProofs XarrayProofs2 PropertiesXarray PropertiesXarray2.
Open Scope R_scope.

(** ** The documented kinds of variables, written down from the doc-strings of the field properties (oopinterface.py:1220-1510) *)
Definition volumes : list string := ["qgpv"; "interpolated_u"; "interpolated_v"; "interpolated_theta"]%string.
Definition stability_profiles : list string := ["static_stability"; "static_stability_n"; "static_stability_s"]%string.
Definition sections : list string := ["qref"; "uref"; "ptref"]%string.
Definition maps : list string :=
  ["adv_flux_f1"; "adv_flux_f2"; "adv_flux_f3"; "convergence_zonal_advective_flux"; "divergence_eddy_momentum_flux"; "meridional_heat_flux";
   "flux_vector_lambda_baro"; "flux_vector_phi_baro"; "lwa_baro"; "u_baro"; "ncforce_baro"]%string.
Definition layers : list string := ["lwa"; "ua1"; "ua2"; "ep1"; "ep2"; "ep3"; "stretch_term"; "ncforce"]%string.
(** the axes of a variable of a field with the given heights, input latitudes, latitudes of the results and longitudes *)
Inductive documented (height ylat ylat_results xlon : list R) : string -> list (string * list R) -> Prop :=
| doc_volume v : In v volumes -> documented height ylat ylat_results xlon v [("height", height); ("ylat", ylat); ("xlon", xlon)]%string
| doc_profile v : In v stability_profiles -> documented height ylat ylat_results xlon v [("height", height)]%string
| doc_section v : In v sections -> documented height ylat ylat_results xlon v [("height", height); ("ylat", ylat_results)]%string
| doc_map v : In v maps -> documented height ylat ylat_results xlon v [("ylat", ylat_results); ("xlon", xlon)]%string
| doc_layer v : In v layers -> documented height ylat ylat_results xlon v [("height", height); ("ylat", ylat_results); ("xlon", xlon)]%string.
Definition axes_of (attr : string -> list R) : string -> list (string * list R) -> Prop :=
  documented (attr "height"%string) (attr "ylat"%string) (attr "ylat_ref_states"%string) (attr "xlon"%string).

Lemma documented_core {F : Type} (attr : F -> string -> list R) (q : qgds R F) f0 fs var axes :
  q_fields q = f0 :: fs -> axes_of (attr f0) var axes -> core_coords attr q var = Ok axes.
Proof.
  intros Hf H. unfold core_coords. rewrite Hf.
  destruct H as [v H|v H|v H|v H|v H]; cbn in H; repeat (destruct H as [<- | H]; [reflexivity|]); contradiction.
Qed.
Lemma shape_eqb_refl s : shape_eqb s s = true.
Proof. unfold shape_eqb. destruct (list_eq_dec _ s s); congruence. Qed.
Lemma size_of_app a b : size_of (a ++ b) = (size_of a * size_of b)%nat.
Proof. induction a as [|x a IH]; [cbn [app]; change (size_of []) with 1%nat; lia|]. change (x * size_of (a ++ b) = x * size_of a * size_of b)%nat. rewrite IH. lia. Qed.

(** Every variable can be read, with the extra dimensions of the input followed by the axes of its kind, labelled by the axes
    of the fields, and with the values of the fields: provided each field answers with an array of that shape *)
Theorem C172_every_variable_has_its_axes {F : Type} (attr : F -> string -> list R) (q : qgds R F) (get : F -> outcome (nd R)) var f0 fs axes :
  q_fields q = f0 :: fs -> fields_complete q -> axes_of (attr f0) var axes ->
  (forall f, In f (q_fields q) -> exists x, get f = Ok x /\ nd_shape x = sizes axes) ->
  exists d, collect attr get q var = Ok d /\ da_dims d = q_other q ++ axes /\
    forall idx c f, field_at q idx f -> in_shape (sizes axes) c -> exists x, get f = Ok x /\ da_at d (idx ++ c) = nd_at x c.
Proof.
  intros Hf (Hp & Hl) Ha Hg. assert (Hc := documented_core attr q f0 fs var axes Hf Ha).
  assert (T : exists xs, Forall2 (fun f x => get f = Ok x /\ nd_shape x = sizes axes) (q_fields q) xs).
  { clear - Hg. induction (q_fields q) as [|f l IH]; [exists []; constructor|].
    destruct (Hg f (or_introl eq_refl)) as (x & X). destruct IH as (xs & XS); [intros g G; apply Hg; right; exact G|]. exists (x :: xs). constructor; assumption. }
  destruct T as (xs & T). assert (L := F2_length _ _ _ T).
  assert (Sx : forall x, In x xs -> nd_shape x = sizes axes).
  { clear - T. induction T as [|f x l l' (_ & S0) _ IH]; intros y [].
    - subst. exact S0.
    - apply IH; assumption. }
  assert (D : exists d, collect attr get q var = Ok d).
  { unfold collect. rewrite (traverse_all get (q_fields q) xs) by (clear - T; induction T as [|? ? ? ? (G & _)]; constructor; assumption).
    cbn [bind]. destruct xs as [|x0 xs]; [exfalso; cbn in L; lia|].
    unfold asarray at 1. replace (forallb _ (x0 :: xs)) with true; cycle 1.
    { symmetry. apply forallb_forall. intros x Hx. rewrite (Sx x Hx), (Sx x0 (or_introl eq_refl)). apply shape_eqb_refl. }
    cbn [bind]. unfold as_dataarray. rewrite Hc. cbn [bind nd_shape]. rewrite (Sx x0 (or_introl eq_refl)), map_app.
    fold (sizes (q_other q)). fold (sizes axes).
    set (a := ND (length (x0 :: xs) :: sizes axes) _).
    destruct (shape_eqb (length (x0 :: xs) :: sizes axes) (sizes (q_other q) ++ sizes axes)) eqn:E.
    - cbn [bind]. change (nd_shape a) with (length (x0 :: xs) :: sizes axes). rewrite E. cbn [check]. eexists. reflexivity.
    - unfold restore_other. change (nd_shape a) with (length (x0 :: xs) :: sizes axes). unfold other_size. change (other_shape q) with (sizes (q_other q)).
      rewrite <- L, Hl, Nat.eqb_refl. cbn [check tl].
      destruct (reshape_total a (sizes (q_other q) ++ sizes axes)) as (b & Hb).
      { change (nd_shape a) with (length (x0 :: xs) :: sizes axes). rewrite size_of_app, <- Hl, L. reflexivity. }
      rewrite Hb. cbn [bind]. rewrite (reshape_shape _ _ _ Hb), shape_eqb_refl. cbn [check]. eexists. reflexivity. }
  destruct D as (d & D). exists d. split; [exact D|].
  destruct (collect_at attr q get var d axes Hl Hp Hc) as (D1 & D2); [|exact D|].
  { intros f x Hx G. destruct (Hg f Hx) as (x' & G' & S'). assert (x' = x) by congruence. subst x'. rewrite S'. unfold sizes. apply map_length. }
  split; [exact D1|]. intros idx c f (Hi & Hfi) Hcc. destruct (D2 idx c f Hi Hcc Hfi) as (x & X1 & _ & X2). exists x. auto.
Qed.
Print Assumptions C172_every_variable_has_its_axes.

(** An array of another rank or another size is refused, never relabelled *)
Theorem C172_other_shapes_are_refused {F : Type} (attr : F -> string -> list R) (q : qgds R F) (get : F -> outcome (nd R)) var f0 fs axes d :
  q_fields q = f0 :: fs -> fields_complete q -> axes_of (attr f0) var axes ->
  (forall f x, In f (q_fields q) -> get f = Ok x -> length (nd_shape x) = length axes) ->
  collect attr get q var = Ok d -> forall idx f, field_at q idx f -> (forall n, In n (sizes axes) -> (0 < n)%nat) ->
  exists x, get f = Ok x /\ nd_shape x = sizes axes.
Proof.
  intros Hf (Hp & Hl) Ha Hr D idx f (Hi & Hfi) Hpos. assert (Hc := documented_core attr q f0 fs var axes Hf Ha).
  destruct (collect_at attr q get var d axes Hl Hp Hc Hr D) as (_ & P).
  destruct (P idx (map (fun _ => 0%nat) (sizes axes)) f Hi) as (x & X1 & X2 & _); [|exact Hfi|exists x; auto].
  clear - Hpos. induction (sizes axes) as [|n l IH]; constructor; [apply Hpos; left; reflexivity|apply IH; intros m Hm; apply Hpos; right; exact Hm].
Qed.
Print Assumptions C172_other_shapes_are_refused.

(** two time steps, a 2 x 3 map for each *)
Definition map_attr (_ : R) (n : string) : list R := if String.eqb n "height"%string then [0; 1000] else if String.eqb n "ylat_ref_states"%string then [-10; 10] else if String.eqb n "ylat"%string then [-10; 0; 10] else [0; 120; 240].
Definition map_of (x : R) : outcome (nd R) := Ok (ND [2; 3]%nat (fun idx => x + INR (nth 0%nat idx 0%nat) + INR (nth 1%nat idx 0%nat))).
Example C172_case : let q := QGDS [100; 200] [("time"%string, [0; 6])] in
  fields_complete q /\ axes_of (map_attr 100) "lwa_baro"%string [("ylat", [-10; 10]); ("xlon", [0; 120; 240])]%string /\
  exists d, collect map_attr map_of q "lwa_baro"%string = Ok d /\ da_dims d = [("time", [0; 6]); ("ylat", [-10; 10]); ("xlon", [0; 120; 240])]%string /\
    da_at d [1; 0; 2]%nat = 202.
Proof.
  cbv zeta. assert (A : axes_of (map_attr 100) "lwa_baro"%string [("ylat", [-10; 10]); ("xlon", [0; 120; 240])]%string) by (apply (doc_map _ _ [-10; 10] [0; 120; 240]); cbn; tauto).
  assert (C : fields_complete (QGDS [100; 200] [("time"%string, [0; 6])])) by (split; [cbn; lia|reflexivity]).
  split; [exact C|]. split; [exact A|].
  destruct (C172_every_variable_has_its_axes map_attr (QGDS [100; 200] [("time"%string, [0; 6])]) map_of _ 100 [200] _ eq_refl C A) as (d & D1 & D2 & D3).
  { intros f _. eexists. split; reflexivity. }
  exists d. split; [exact D1|]. split; [exact D2|].
  destruct (D3 [1%nat] [0; 2]%nat 200) as (x & X & V).
  { split; [repeat constructor; lia|reflexivity]. }
  { repeat constructor; cbn; lia. }
  change ([1%nat] ++ [0; 2]%nat) with [1; 0; 2]%nat in V. rewrite V. injection X as <-. cbn. lra.
Qed.
