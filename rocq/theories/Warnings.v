(** The reports of NaN in QGFieldNHN22.compute_reference_states: _check_nan, /repo/src/falwa/oopinterface.py:1158-1162, applied at line 1834 to the array
    fawa of compute_qref_and_fawa_first.f90, which nothing else uses. *)
From Verif Require Export RefStates DirInv.

Section Fawa.
  Context {A : Type} {N : Num A} {T : Trunc A}.
  Local Open Scope num_scope.
  (** compute_qref_and_fawa_first.f90:156-157, the whole arrays, for 1 <= j <= nd and 1 <= k <= kmax.  cref (line 92) and cbar (lines 99-104) are local
      arrays, computed by the same text as in compute_reference_states.f90 (RefStates.cref, RefStates.cbar); [g_cref] and [g_cbar] are what the memory
      held before *)
  Definition d_fawa (P : rsdims A) (pv : arr3 A) (g_cref g_cbar : arr2 A) (j k : nat) : A :=
    (cref P pv g_cref j k - cbar P pv g_cbar j k) / (nofZ 2 * npi * s_a P).
End Fawa.

(** oopinterface.py:1160: the elements that are NaN; a message is printed if there is one *)
Definition nan_elements {A} (isnan : A -> bool) (nd kmax : nat) (x : arr2 A) : list (nat * nat) :=
  filter (fun p => isnan (x (fst p) (snd p))) (list_prod (seq 1 nd) (seq 1 kmax)).
Definition reported {A} (isnan : A -> bool) (nd kmax : nat) (x : arr2 A) : Prop := (0 < length (nan_elements isnan nd kmax x))%nat.
