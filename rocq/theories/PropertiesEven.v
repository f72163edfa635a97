(** Property C151: a session on a grid with an even number of latitudes is the session with one more row, interpolated on the way in and out. *)
From Verif Require Import Base BaseFacts Spec SpecFacts Grid GridSpec GridProofs Object ObjectSpec ObjectProofs ObjectProofs2 ObjectProofs4 FormulaSpec FormulaProofs EvenSpec EvenProofs PropertiesObject PropertiesFormula.
Open Scope R_scope.

(** the specification's [polyline] is the broken line: on every segment it is the straight line through the two ends *)
Lemma polyline_on_segment n x y v j : (2 <= n)%nat -> ascending n x -> (j + 1 < n)%nat -> x j <= v <= x (j + 1)%nat ->
  polyline n x y v = y j + (v - x j) * ((y (j + 1)%nat - y j) / (x (j + 1)%nat - x j)).
Proof.
  intros Hn Asc Hj Hv. unfold polyline. destruct (segment_spec x v (n - 2) 0) as (A & B & C); [intros r Hr; left; lia|]. set (s := segment x v (n - 2) 0) in *. clearbody s. cbv zeta.
  assert (St : forall a b, (a < b)%nat -> (b < n)%nat -> x a < x b) by (intros a b La Lb; apply Asc; lia).
  replace (j + 1)%nat with (S j) in * by lia. destruct (lt_eq_lt_dec s j) as [[L|E]|L].
  - destruct C as [C|C]; [lia|]. destruct (Nat.eq_dec (S s) j) as [E|E].
    + subst j. assert (V : v = x (S s)) by lra. rewrite V. assert (x s < x (S s)) by (apply St; lia). assert (x (S s) < x (S (S s))) by (apply St; lia). field. lra.
    + exfalso. assert (x (S s) < x j) by (apply St; lia). lra.
  - subst j. reflexivity.
  - exfalso. destruct (B s (le_n s)) as [Q|Q]; [lia|]. destruct (Nat.eq_dec s (S j)) as [->|]; [lra|]. assert (x (S j) < x s) by (apply St; lia). lra.
Qed.

(** ** C151: even numbers of latitudes *)
Theorem C151_even_grids_are_interpolated_odd_grids :
  forall (lib : library) (k : class) (w : qgargs) (nc : field3), usable k w -> Nat.even (w_nlat w) = true ->
    (* the arguments with one more row are those of a session C146-C150 speak about *)
    (usable k (one_more_row w) /\ Nat.even (w_nlat (one_more_row w)) = false) /\
    (* a session over the globe succeeds exactly when the one with one more row does, and everything it returns is interpolated from what that one returns *)
    (w_nh w = false ->
       ((exists x, session lib k w nc = Done x) <-> exists t, session_tables_are lib k (one_more_row w) nc t) /\
       forall x t, session lib k w nc = Done x -> session_tables_are lib k (one_more_row w) nc t -> reads x (reread w t)).
Proof.
  intros lib k w nc U Ev. assert (U' := more_usable k w U Ev). assert (Od : Nat.even (w_nlat (one_more_row w)) = false) by (apply (even_half k w U Ev)).
  split; [split; assumption|]. intros NF. split.
  - destruct (C131_session_succeeds_exactly_when lib k w nc U) as (E & _). split.
    + intros Hx. apply E in Hx. destruct Hx as [A _]. apply tables_of; [exact U'|exact A|exact Od].
    + intros (t & _ & _ & x & Hx & _). destruct (C131_session_succeeds_exactly_when lib k (one_more_row w) nc U') as (E' & _). apply E. split; [|rewrite NF; discriminate].
      apply (proj1 E'). exists x. exact Hx.
  - intros x t Hx (_ & _ & x' & Hx' & Ht).
    destruct (grid_of w) as [g|e] eqn:Hg; [|rewrite (session_refused lib k w nc e Hg) in Hx; discriminate]. destruct (more_grid k w U Ev g Hg) as [g' Hg'].
    rewrite (proj1 (session_global lib k w nc g U Hg NF)) in Hx. rewrite (proj1 (session_global lib k (one_more_row w) nc g' U' Hg' NF)) in Hx'.
    injection Hx as <-. injection Hx' as <-. apply (more_reads k w U Ev g Hg g' Hg' NF). exact Ht.
Qed.
Print Assumptions C151_even_grids_are_interpolated_odd_grids.
Example even_grids_apply : forall k nc, (boundary k <= 1)%nat -> let w := some_args false false in
  usable k w /\ Nat.even (w_nlat w) = true /\ w_nh w = false /\ exists x, session some_library k w nc = Done x.
Proof.
  intros k nc B w. split; [apply some_usable; exact B|]. split; [reflexivity|]. split; [reflexivity|].
  apply (C131_session_succeeds_exactly_when some_library k w nc (some_usable k false false B)). split; [apply some_accepted|discriminate].
Qed.
