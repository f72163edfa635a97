(** Vocabulary for the life-cycle properties C37-C41, C44, C77-C80: what happened in a history of calls.
    Nothing here looks inside the object. *)
From Verif Require Export QGState.
Open Scope list_scope.
Open Scope nat_scope.

Section Vocabulary.
  Context {V I R X W F L : Type}.
  Notation answer := (answer I R W F L).
  Notation call := (call V X).
  Notation event := (call * answer)%type.

  Definition returns (a : answer) : Prop := forall e, a <> Raised e.

  (** the answer of a compute_reference_states call that raised for non-convergence or returned with the
      warning *)
  Definition complains (a : answer) : Prop :=
    (exists h, a = Raised (NonConvergent h)) \/ (exists n s, a = Refs true n s).
  Definition nonconvergent (e : event) : Prop := fst e = ComputeReferenceStates /\ complains (snd e).
  (** a compute_reference_states call that returned without the warning *)
  Definition converged (e : event) : Prop :=
    fst e = ComputeReferenceStates /\ exists n s, snd e = Refs false n s.
  Definition is_interpolate (k : call) : Prop := exists t, k = InterpolateFields t.
  Definition is_compute_refs (k : call) : Prop := k = ComputeReferenceStates.
  (** a compute_layerwise_lwa_fluxes call that completed *)
  Definition layerwise_completed (e : event) : Prop := exists nc, e = (ComputeLayerwise nc, Done_).

  (** ncforce is left out or has the shape of the analysis grid *)
  Definition acceptable (c : config) (nc : option (nat * X)) : Prop :=
    match nc with None => True | Some (n, _) => n = nlat_analysis c end.
  Definition content (nc : option (nat * X)) : option X := option_map snd nc.

  (** the fields on the object after the calls, the iteration limit, and the fields that the most recent
      interpolate_fields call saw *)
  Fixpoint fields_after (v : V) (ks : list call) : V :=
    match ks with [] => v | SetFields w :: ks' => fields_after w ks' | _ :: ks' => fields_after v ks' end.
  Fixpoint maxit_after (m : nat) (ks : list call) : nat :=
    match ks with [] => m | SetMaxit n :: ks' => maxit_after n ks' | _ :: ks' => maxit_after m ks' end.
  Fixpoint interpolated_from (last : option V) (v : V) (ks : list call) : option V :=
    match ks with
    | [] => last
    | SetFields w :: ks' => interpolated_from last w ks'
    | InterpolateFields _ :: ks' => interpolated_from (Some v) v ks'
    | _ :: ks' => interpolated_from last v ks'
    end.
End Vocabulary.
