(** Vocabulary of the properties about arrays shared between a QGField object and its user. *)
From Verif Require Export Alias.

Section Spec.
  Context {X : Type}.
  Variable K : kernel -> list (option X) -> X.
  Variable converges : list (option X) -> bool.
  Notation state := (@state X). Notation event := (@event X).
  Notation step := (step K converges). Notation runs := (runs K converges).

  (** the user does not overwrite array [l] *)
  Definition leaves_alone (l : nat) (e : event) : Prop := match e with Write l' _ => l' <> l | _ => True end.
  Definition is_write (e : event) : bool := match e with Write _ _ => true | _ => false end.

  (** every array the user assigns to u_field, v_field or theta_field is one they made (or one of [own]) *)
  Fixpoint assigns_own (c : acfg) (own : list nat) (st : state) (h : list event) : Prop :=
    match h with
    | [] => True
    | e :: t =>
        match e with SetField _ l => In l own | _ => True end /\
        assigns_own c (match e with NewArray _ => top st :: own | _ => own end) (fst (step c st e)) t
    end.

  (** what the user sees of a history: for each call, read or assignment the content, at that moment, of the
      arrays returned; None for an exception *)
  Fixpoint seen (c : acfg) (st : state) (h : list event) : list (option (list X)) :=
    match h with
    | [] => []
    | e :: t =>
        let st' := fst (step c st e) in
        (if is_write e then [] else [option_map (map (cell st')) (snd (step c st e))]) ++ seen c st' t
    end.
  (** the same history without overwriting anything *)
  Definition without_writes (h : list event) : list event := filter (fun e => negb (is_write e)) h.

  (** the arrays, among those returned, that are the user.s own copies: on an even grid
      what a property, interpolate_fields or compute_reference_states returns, on an odd grid qref *)
  Definition copies (c : acfg) (e : event) (r : option (list nat)) : list nat :=
    match r with
    | None => []
    | Some ls =>
        match e with
        | Get P_qref => ls
        | Get _ | Call Interpolate => if a_even c then ls else []
        | Call Refs => if a_even c then ls else match ls with [] => [] | q :: _ => [q] end
        | _ => []
        end
    end.
  (** the arguments of the constructor that are read only then *)
  Definition detached_inputs (c : acfg) : list nat := if a_even c then [in_u; in_v; in_t] else [in_t].

  (** every array overwritten in the history is one of [ok] or a copy obtained earlier, and is marked
      [edited]; no array marked [edited] is passed to the object *)
  Fixpoint edits_only_copies (c : acfg) (edited : nat -> bool) (ok : list nat) (st : state) (h : list event) : Prop :=
    match h with
    | [] => True
    | e :: t =>
        match e with
        | Write l _ => In l ok /\ edited l = true
        | SetField _ l | Call (Fluxes (Some l)) | Call (Layerwise (Some l)) => edited l = false
        | _ => True
        end /\
        edits_only_copies c edited (copies c e (snd (step c st e)) ++ ok) (fst (step c st e)) t
    end.
End Spec.

(** the properties whose arrays are the object's working arrays *)
Definition live (c : acfg) (p : prop) : bool :=
  negb (a_even c) &&
  match p with
  | P_uref | P_ptref | P_adv_flux_f1 | P_adv_flux_f2 | P_adv_flux_f3 | P_meridional_heat_flux
  | P_lwa_baro | P_ncforce_baro | P_u_baro | P_lwa | P_ua1 | P_ua2 | P_ep1 | P_ep2 | P_ep3 => true
  | P_stretch_term => a_nh c
  | _ => false
  end.
