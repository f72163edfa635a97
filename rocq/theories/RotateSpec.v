(** Specification vocabulary for a state and the same state with the longitudes relabelled: two runs of the pipeline are compared. *)
From Verif Require Export PipelineSpec.
Open Scope R_scope.

Section RotateSpec.
  Variable c : pconf R.
  (** the shift, in columns *)
  Variable s : nat.
  (** the column [s] places to the east of column i, counting from 1 *)
  Definition turn (i : nat) : nat := ((i - 1 + s) mod p_nlon c + 1)%nat.
  (** inputs: column i of x' is the column [s] places east of it in x, at every grid point *)
  Definition turned (x x' : arr3 R) : Prop := forall i j k, lon_ok c i -> lat_ok c j -> lev_ok c k -> x' i j k = x (turn i) j k.
  Definition turned_state (f f' : fields R) : Prop := turned (u_ f) (u_ f') /\ turned (v_ f) (v_ f') /\ turned (theta_ f) (theta_ f').
  (** arrays in python order (level, row, longitude), 0-based *)
  Definition turned_raw (th th' : nat -> nat -> nat -> R) : Prop :=
    forall l j i, (j < p_nlat c)%nat -> (i < p_nlon c)%nat -> th' l j i = th l j ((i + s) mod p_nlon c)%nat.

  (** results: maps, layered maps and profiles over the stored rows *)
  Definition row_ok (j : nat) : Prop := (1 <= j <= rows c)%nat.
  Definition turned2 (x x' : arr2 R) : Prop := forall i j, lon_ok c i -> row_ok j -> x' i j = x (turn i) j.
  Definition turned3 (x x' : arr3 R) : Prop := forall i j k, lon_ok c i -> row_ok j -> lev_ok c k -> x' i j k = x (turn i) j k.
  Definition same_profile (x x' : arr2 R) : Prop := forall j k, row_ok j -> lev_ok c k -> x' j k = x j k.
  Definition same_refs (r r' : refstate R) : Prop :=
    same_profile (qref_ r) (qref_ r') /\ same_profile (uref_ r) (uref_ r') /\ same_profile (ptref_ r) (ptref_ r').
  Definition turned_fluxes (b b' : baro R) : Prop :=
    turned2 (b_lwa b) (b_lwa b') /\ turned2 (b_u b) (b_u b') /\ turned2 (b_ua1 b) (b_ua1 b') /\ turned2 (b_ua2 b) (b_ua2 b') /\ turned2 (b_ep1 b) (b_ep1 b') /\
    turned2 (b_ep2 b) (b_ep2 b') /\ turned2 (b_ep3 b) (b_ep3 b') /\ turned2 (b_ep4 b) (b_ep4 b') /\
    turned2 (b_astar1 b) (b_astar1 b') /\ turned2 (b_astar2 b) (b_astar2 b') /\ turned2 (b_nc b) (b_nc b') /\ turned3 (b_lwa3 b) (b_lwa3 b').
  Definition turned_layers (l l' : layerwise R) : Prop :=
    turned3 (l_lwa l) (l_lwa l') /\ turned3 (l_astar1 l) (l_astar1 l') /\ turned3 (l_astar2 l) (l_astar2 l') /\ turned3 (l_nc l) (l_nc l') /\
    turned3 (l_ua1 l) (l_ua1 l') /\ turned3 (l_ua2 l) (l_ua2 l') /\ turned3 (l_ep1 l) (l_ep1 l') /\
    turned3 (l_ep2 l) (l_ep2 l') /\ turned3 (l_ep3 l) (l_ep3 l') /\ turned2 (l_ep4 l) (l_ep4 l').
  Definition turned_lwa_only (o o' : lwaonly R) : Prop :=
    turned2 (o_lwa_baro o) (o_lwa_baro o') /\ turned2 (o_u_baro o) (o_u_baro o') /\ turned3 (o_lwa o) (o_lwa o') /\
    turned3 (o_astar1 o) (o_astar1 o') /\ turned3 (o_astar2 o) (o_astar2 o').
End RotateSpec.

(** the analysis grid: rows from pole to pole with the equator in the middle *)
Definition centred (c : pconf R) : Prop :=
  (3 <= p_eq c)%nat /\ p_nlat c = (2 * p_eq c - 1)%nat /\ (p_jb c < p_eq c)%nat /\ p_jd c = (p_eq c - p_jb c)%nat /\
  (2 <= p_nlon c)%nat /\ (3 <= p_kmax c)%nat /\ p_dphi c * INR (p_eq c - 1) = PI / 2 /\ p_dlambda c * INR (p_nlon c) = 2 * PI.
