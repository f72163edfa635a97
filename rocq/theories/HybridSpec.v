(** Specification vocabulary for fields on hybrid levels. *)
From Verif Require Export Spec.
Open Scope R_scope.

(** pressure (hPa) in the middle of layer m of a hybrid coordinate: mean of the pressures of the interfaces above and below it *)
Definition layer_pressure (ai bi : nat -> R) (P0 ps : R) (m : nat) : R :=
  ((ai m * P0 + bi m * ps) + (ai (m + 1)%nat * P0 + bi (m + 1)%nat * ps)) / 200.
(** pressure increases from one interface to the next one below *)
Definition layered (n : nat) (ai bi : nat -> R) (P0 ps : R) : Prop :=
  forall m, (m < n)%nat -> ai m * P0 + bi m * ps < ai (m + 1)%nat * P0 + bi (m + 1)%nat * ps.
(** the lowest interface is the ground *)
Definition grounded (n : nat) (ai bi : nat -> R) (P0 ps : R) : Prop := ai n * P0 + bi n * ps = ps.
(** pressure v lies between the middle of the highest and of the lowest layer *)
Definition within_column (n : nat) (ai bi : nat -> R) (P0 ps v : R) : Prop :=
  layer_pressure ai bi P0 ps 0 <= v <= layer_pressure ai bi P0 ps (n - 1).
(** w is the linear interpolation at v of the layer values y between two neighbouring layers *)
Definition interpolates (n : nat) (ai bi : nat -> R) (P0 ps : R) (y : nat -> R) (v w : R) : Prop :=
  exists m, (m + 1 < n)%nat /\ layer_pressure ai bi P0 ps m <= v <= layer_pressure ai bi P0 ps (m + 1) /\
    w = y m + (y (m + 1)%nat - y m) * ((v - layer_pressure ai bi P0 ps m) / (layer_pressure ai bi P0 ps (m + 1) - layer_pressure ai bi P0 ps m)).
