(** Specification vocabulary for sessions with their checks. *)
From Verif Require Export ObjectSpec Session.
Open Scope R_scope.

(** the same arguments but for maxit, tol and rjac *)
Definition same_but_solver (w w' : qgargs) : Prop :=
  w_nlon w = w_nlon w' /\ w_nlat w = w_nlat w' /\ w_nlev w = w_nlev w' /\ w_ylat w = w_ylat w' /\ w_plev w = w_plev w' /\ w_u w = w_u w' /\ w_v w = w_v w' /\ w_t w = w_t w' /\
  w_kmax w = w_kmax w' /\ w_dz w = w_dz w' /\ w_npart w = w_npart w' /\ w_H w = w_H w' /\ w_cp w = w_cp w' /\ w_rr w = w_rr w' /\ w_om w = w_om w' /\ w_a w = w_a w' /\
  w_nh w = w_nh w' /\ w_evenly w = w_evenly w'.
