(** Model of the treatment of masked arrays by the constructors, /repo/src/falwa/oopinterface.py:124-131 and 272-280. *)
From Verif Require Export Object ObjectSpec.

(** a numpy array, or a numpy.ma array with its mask; True hides a value *)
Inductive array3 := Plain (x : field3) | MaskedArray (data : field3) (mask : nat -> nat -> nat -> bool).
(** _convert_masked_data, 273-280: [variable.data]; the warning is dropped *)
Definition convert_masked_data (a : array3) : field3 := match a with Plain x => x | MaskedArray x _ => x end.
(** 125-127, then everything the session does.  ylat (131) is converted in the same way; the model takes its data. *)
Definition masked_session (lib : library) (k : class) (w : qgargs) (u v t : array3) (nc : field3) : res outputs :=
  session lib k (with_data w (convert_masked_data u) (convert_masked_data v) (convert_masked_data t)) nc.
