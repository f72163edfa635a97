(** Specification vocabulary for the dataset interface. *)
From Verif Require Export Spec Xarray.
Open Scope R_scope.

(** ** Name lookup *)
(** the name meant by a list of default names: the user's name for the first of them, or else the first one present *)
Definition overrides (user : option (list (string * string))) (key name : string) : Prop :=
  exists d, user = Some d /\ lookup key d = Some name.
Definition resolves (ds : string -> bool) (names : list string) (user : option (list (string * string))) (n : string) : Prop :=
  ds n = true /\
  (overrides user (hd EmptyString names) n \/
   (forall m, ~ overrides user (hd EmptyString names) m) /\
   exists before after, names = before ++ n :: after /\ forall m, In m before -> ds m = false).

(** ** Arrays *)
(** an index within a shape *)
Definition in_shape (sh idx : list nat) : Prop := Forall2 (fun i s => i < s)%nat idx sh.
(** same shape, same elements *)
Definition agrees {A : Type} (a b : nd A) : Prop := nd_shape a = nd_shape b /\ forall idx, in_shape (nd_shape a) idx -> nd_at a idx = nd_at b idx.
Definition sizes (dims : list (string * list R)) : list nat := map (fun d => length (snd d)) dims.
(** element of an array when each dimension is indexed by name *)
Definition at_named (a : dataarray R) (g : string -> nat) : R := da_at a (map g (da_names a)).
(** the position of a dimension carries a label *)
Definition labelled (a : dataarray R) (g : string -> nat) (d : string) (x : R) : Prop :=
  exists l, lookup d (da_dims a) = Some l /\ nth_error l (g d) = Some x.
(** [s] is the part of [a] at the given labels: the other dimensions remain, the elements are those of [a] at these labels *)
Definition part_of (coord : list (string * R)) (a s : dataarray R) : Prop :=
  da_dims s = filter (fun d => negb (existsb (String.eqb (fst d)) (map fst coord))) (da_dims a) /\
  (forall g, (forall d x, In (d, x) coord -> labelled a g d x) -> at_named s g = at_named a g).
(** the labels at an index of the extra dimensions *)
Definition coord_at (dims : list (string * list R)) (idx : list nat) : list (string * R) :=
  map (fun di => (fst (fst di), nth (snd di) (snd (fst di)) 0)) (combine dims idx).

(** ** Orientation *)
Definition increasing (l : list R) : Prop := forall a b, (a < b < length l)%nat -> nth a l 0 < nth b l 0.
Definition decreasing (l : list R) : Prop := forall a b, (a < b < length l)%nat -> nth b l 0 < nth a l 0.
Definition monotonic (l : list R) : Prop := increasing l \/ decreasing l.
(** [x] holds, by coordinate value, the (pressure, latitude, longitude) field that [a] holds at [idx] of its first dimensions *)
Definition holds_field (a : dataarray R) (idx : list nat) (plev0 ylat0 plev ylat : list R) (nx : nat) (x : nd R) : Prop :=
  nd_shape x = [length plev; length ylat; nx] /\
  forall k j i k0 j0, (k < length plev)%nat -> (j < length ylat)%nat -> (i < nx)%nat -> (k0 < length plev0)%nat -> (j0 < length ylat0)%nat ->
    nth k plev 0 = nth k0 plev0 0 -> nth j ylat 0 = nth j0 ylat0 0 -> nd_at x [k; j; i] = da_at a (idx ++ [k0; j0; i]).

(** ** Calls on one field *)
Section Calls.
  Context {F : Type}.
  Inductive request :=
  | Plain (m : F -> outcome F)
  | WithForcing (m : F -> option (dataarray R) -> outcome F) (nc : option (dataarray R)).
  (** the calls made on all fields of a dataset *)
  Definition request_all (r : request) (q : qgds R F) : outcome (qgds R F) :=
    match r with Plain m => call_all m q | WithForcing m nc => call_with m nc q end.
  Fixpoint requests_all (rs : list request) (q : qgds R F) : outcome (qgds R F) :=
    match rs with [] => Ok q | r :: rs => do q' <- request_all r q; requests_all rs q' end.
  (** the same calls made on a single field that belongs to the labels [coord]: a forcing is replaced by its part there *)
  Inductive one_request (coord : list (string * R)) : request -> F -> F -> Prop :=
  | one_plain m f f' : m f = Ok f' -> one_request coord (Plain m) f f'
  | one_unforced m f f' : m f None = Ok f' -> one_request coord (WithForcing m None) f f'
  | one_forced m nc s f f' : part_of coord nc s -> m f (Some s) = Ok f' -> one_request coord (WithForcing m (Some nc)) f f'.
  Inductive one_field (coord : list (string * R)) : list request -> F -> F -> Prop :=
  | one_nil f : one_field coord [] f f
  | one_cons r rs f f' f'' : one_request coord r f f' -> one_field coord rs f' f'' -> one_field coord (r :: rs) f f''.
  (** a forcing in which each dimension name and each label occurs once *)
  Definition distinct_labels (r : request) : Prop :=
    match r with
    | WithForcing _ (Some nc) => NoDup (da_names nc) /\ forall d l, lookup d (da_dims nc) = Some l -> NoDup l
    | _ => True
    end.
End Calls.

(** ** Time integration *)
(** the dates of the time steps are all different *)
Definition distinct_dates (n : nat) (ticks : nat -> Z) : Prop := forall a b, (a < n)%nat -> (b < n)%nat -> ticks a = ticks b -> a = b.

(** ** The two hemispheres *)
Section GlobeSpec.
  Context {X : Type} (negate : X -> X).
  (** "name in dataset" *)
  Definition in_dataset (coord_name : string) (s : latset R X) (n : string) : bool :=
    String.eqb n coord_name || existsb (fun v => String.eqb n (fst v)) (ls_vars s).
  Definition near_equator (y : R) : Prop := Rabs y < 1 / 10000.
  (** [g] has the n rows of [s], unchanged, as its rows o..o+n-1 and, about its middle row, the mirror image of each of them:
      opposite latitude, same values, the variable called [wind] (if any) negated *)
  Definition mirror_extension (wind : string -> Prop) (s g : latset R X) : Prop :=
    let n := length (ls_lat s) in
    exists o, (o = 0 \/ o = n - 1)%nat /\ length (ls_lat g) = (2 * n - 1)%nat /\ length (ls_vars g) = length (ls_vars s) /\
    near_equator (nth (n - 1) (ls_lat g) 0) /\
    (forall j, (j < n)%nat -> nth (o + j) (ls_lat g) 0 = nth j (ls_lat s) 0) /\
    (forall j, (j < n)%nat -> (o + j <> n - 1)%nat -> nth (2 * (n - 1) - (o + j)) (ls_lat g) 0 = - nth j (ls_lat s) 0) /\
    forall k name x, nth_error (ls_vars s) k = Some (name, x) -> exists y, nth_error (ls_vars g) k = Some (name, y) /\
      (forall j, (j < n)%nat -> y (o + j)%nat = x j) /\
      (forall j, (j < n)%nat -> (o + j <> n - 1)%nat ->
         (wind name -> y (2 * (n - 1) - (o + j))%nat = negate (x j)) /\ (~ wind name -> y (2 * (n - 1) - (o + j))%nat = x j)).
End GlobeSpec.
