(** Specification vocabulary for the storage properties. *)
From Verif Require Import Base Storage.

Section S.
  Context {row : Type}.
  (** the operation goes through a property declared for the southern hemisphere *)
  Definition southern (d : decl) (o : sop row) : bool :=
    match o with
    | Get n | Set_ n _ => match find_prop n d with Some (SHem, _) => true | _ => false end
    end.
  (** the operation is a read, or an assignment through a declared hemispheric property *)
  Definition is_view (d : decl) (o : sop row) : Prop :=
    match o with Get _ => True | Set_ n _ => find_prop n d <> None end.
End S.

(** equal shape and equal element at every index tuple *)
Definition same_array {A} (x y : ndarray A) : Prop :=
  nd_shape x = nd_shape y /\ forall idx, length idx = length (nd_shape x) -> nd_at x idx = nd_at y idx.
