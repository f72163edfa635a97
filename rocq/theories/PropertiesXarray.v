(** Property theorems for the dataset interface (QGDataset, integrate_budget, hemisphere_to_globe). *)
From Coq Require Import ZifyNat.
From Verif Require Import BaseFacts SpecFacts XarraySpec XarrayProofs XarrayProofs2 XarrayProofs3.
Ltac Zify.zify_post_hook ::= Z.to_euclidean_division_equations.
Open Scope R_scope.

(** decide comparisons of numerals *)
Ltac rdecide :=
  repeat match goal with
  | |- context [Reqb ?x ?y] => first
      [ replace (Reqb x y) with true by (symmetry; apply Reqb_true; lra)
      | replace (Reqb x y) with false by (symmetry; apply not_true_iff_false; rewrite Reqb_true; lra) ]
  | |- context [Rltb ?x ?y] => first
      [ replace (Rltb x y) with true by (symmetry; apply Rltb_true; lra)
      | replace (Rltb x y) with false by (symmetry; apply not_true_iff_false; rewrite Rltb_true; lra) ]
  end.

(** ** C61: names *)
Theorem C61_names_resolved ds names user : names <> [] ->
  (forall n, get_name ds names user = Ok n <-> resolves ds names user n) /\
  ((forall n, ~ resolves ds names user n) -> get_name ds names user = KeyErr).
Proof. intros H. split; [intros n; apply get_name_ok; exact H|apply get_name_err; exact H]. Qed.
Print Assumptions C61_names_resolved.
(** at most one name is meant *)
Theorem C61_names_unique ds names user n n' : names <> [] -> resolves ds names user n -> resolves ds names user n' -> n = n'.
Proof. intros H R1 R2. apply get_name_ok in R1; [|exact H]. apply get_name_ok in R2; [|exact H]. congruence. Qed.
Print Assumptions C61_names_unique.
Example C61_case :
  let ds n := (n =? "lat")%string || (n =? "latitude")%string in
  get_name ds NAMES_YLAT None = Ok "lat"%string /\ get_name ds NAMES_YLAT (Some [("ylat", "latitude")]%string) = Ok "latitude"%string /\
  get_name ds NAMES_YLAT (Some [("ylat", "y")]%string) = KeyErr /\ get_name ds NAMES_XLON None = KeyErr.
Proof. cbn. repeat split. Qed.

(** ** C58: extra dimensions *)
Theorem C58_extra_dimensions_restored {F : Type} (mk : list R -> list R -> list R -> nd R -> nd R -> nd R -> outcome F) attr
  user u v t other pn plev0 yn ylat0 xn xlon q (requests : list request) q' (get : F -> outcome (nd R)) var core d :
  NoDup (da_names u) -> da_dims u = other ++ [(pn, plev0); (yn, ylat0); (xn, xlon)] -> monotonic plev0 -> monotonic ylat0 ->
  make_dataset mk user u v t = Ok q ->
  Forall distinct_labels requests -> requests_all requests q = Ok q' ->
  core_coords attr q' var = Ok core -> (forall f x, get f = Ok x -> length (nd_shape x) = length core) ->
  collect attr get q' var = Ok d ->
  da_dims d = other ++ core /\
  forall idx c, in_shape (sizes other) idx -> in_shape (sizes core) c ->
    exists ylat plev u' v' t' f f' x,
      increasing ylat /\ decreasing plev /\
      holds_field u idx plev0 ylat0 plev ylat (length xlon) u' /\
      holds_field v idx plev0 ylat0 plev ylat (length xlon) v' /\
      holds_field t idx plev0 ylat0 plev ylat (length xlon) t' /\
      mk xlon ylat plev u' v' t' = Ok f /\ one_field (coord_at other idx) requests f f' /\
      get f' = Ok x /\ nd_shape x = sizes core /\ da_at d (idx ++ c) = nd_at x c.
Proof.
  intros Hn Hd Hp Hy Hq Hr Hq' Hc Hg Hcol.
  destruct (make_fields mk user u v t q other pn plev0 yn ylat0 xn xlon Hn Hd Hp Hy Hq) as (O & L & P & Fs).
  destruct (requests_one requests q q' Hr ltac:(rewrite O; exact L) Hq') as (O' & L' & Fs'). rewrite O in *.
  destruct (collect_at attr q' get var d core ltac:(congruence) ltac:(lia) Hc ltac:(intros f x _; apply Hg) Hcol) as (D & C). rewrite O' in *.
  split; [exact D|]. intros idx c Hi Hcc.
  destruct (Fs idx Hi) as (f & u' & v' & t' & Ef & Hmk & Hu & Hv & Ht). destruct (Fs' idx f Hi Ef) as (f' & Ef' & H1).
  destruct (C idx c f' Hi Hcc Ef') as (x & Hx & Hs & Hval).
  exists (up ylat0), (down plev0), u', v', t', f, f', x.
  split; [apply up_increasing; exact Hy|]. split; [apply down_decreasing; exact Hp|]. auto 10.
Qed.
Print Assumptions C58_extra_dimensions_restored.

(** a case: two dates, three members, pressures and latitudes in the wrong order, a forcing with its dimensions and labels in another order;
    the objects remember u and add the forcing *)
Definition case_dims : list (string * list R) :=
  [("time", [10; 20]); ("member", [1; 2; 3]); ("plev", [100; 1000]); ("lat", [30; 0; -30]); ("lon", [0])]%string.
Definition case_u : dataarray R := DA case_dims (fun idx => INR (ravel [2; 3; 2; 3; 1]%nat idx)).
Definition case_mk (xlon ylat plev : list R) (u v t : nd R) : outcome (nd R) := Ok u.
Definition case_attr (f : nd R) (name : string) : list R :=
  if (name =? "height")%string then [0; 1] else if (name =? "ylat")%string then [-30; 0; 30] else [0].
Definition case_force : dataarray R := DA [("member", [3; 1; 2]); ("time", [20; 10])]%string (fun idx => - INR (ravel [3; 2]%nat idx)).
Definition case_add (f : nd R) (nc : option (dataarray R)) : outcome (nd R) :=
  match nc with Some s => Ok (ND (nd_shape f) (fun idx => nd_at f idx + da_at s [])) | None => Ok f end.
Definition case_requests : list (request (F := nd R)) := [Plain Ok; WithForcing case_add (Some case_force)].
Example C58_case :
  NoDup (da_names case_u) /\ monotonic [100; 1000] /\ monotonic [30; 0; -30] /\ Forall distinct_labels case_requests /\
  exists q q' d, make_dataset case_mk [] case_u case_u case_u = Ok q /\ requests_all case_requests q = Ok q' /\
    collect case_attr (fun f => Ok f) q' "interpolated_u" = Ok d /\ da_at d [1; 1; 0; 0; 0]%nat = 29 - 4.
Proof.
  split; [repeat (constructor; [cbn; intuition discriminate|]); constructor|].
  split; [left; intros [|[|a]] [|[|b]] H; cbn in *; lia || lra|].
  split; [right; intros [|[|[|a]]] [|[|[|b]]] H; cbn in *; lia || lra|]. split.
  { constructor; [exact I|]. constructor; [|constructor]. split; [repeat (constructor; [cbn; intuition discriminate|]); constructor|].
    intros d l. cbn. destruct (d =? "member")%string; [|destruct (d =? "time")%string; [|discriminate]]; intros H; injection H as <-;
      repeat (constructor; [cbn; intuition lra|]); constructor. }
  unfold make_dataset, requests_all, request_all, call_all, call_with, collect, as_dataarray, core_coords, sel, sel1.
  cbn -[INR Rltb Reqb ravel unravel]. do 3 eexists.
  split; [rdecide; cbn -[INR Rltb Reqb ravel unravel]; reflexivity|].
  cbn -[INR Rltb Reqb ravel unravel].
  repeat (progress rdecide; cbn -[INR Rltb Reqb ravel unravel]).
  split; [reflexivity|].
  cbn -[INR Rltb Reqb ravel unravel]. split; [reflexivity|].
  cbn -[INR]. change (INR 29 + - INR 4 = 29 - 4). cbn [INR]. lra.
Qed.
