(** Specification vocabulary for the convergence of sessions of QGFieldNH18. *)
From Verif Require Export StateSpec.
Open Scope R_scope.

(** the reference potential vorticity over the Coriolis parameter is not the same on all rows off the equator, at some inner level *)
Definition scaled_pv_varies (w : qgargs) (t : tables) (north : bool) : Prop :=
  exists l d d', inner_level w l /\ (1 <= d <= half w)%nat /\ (1 <= d' <= half w)%nat /\
    pole_ref w t north l d / (2 * w_om w * sin (angle w d)) <> pole_ref w t north l d' / (2 * w_om w * sin (angle w d')).
