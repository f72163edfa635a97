(** Specification vocabulary for a state and its mirror image about the equator: two runs of the pipeline are compared. *)
From Verif Require Export PipelineSpec.
Open Scope R_scope.

Section MirrorSpec.
  Variable c : pconf R.
  (** row of the opposite latitude *)
  Definition opposite (j : nat) : nat := (p_nlat c + 1 - j)%nat.
  (** inputs: x' is the mirror image of x, or its negative, at every grid point *)
  Definition image (x x' : arr3 R) : Prop := forall i j k, lon_ok c i -> lat_ok c j -> lev_ok c k -> x' i j k = x i (opposite j) k.
  Definition image_neg (x x' : arr3 R) : Prop := forall i j k, lon_ok c i -> lat_ok c j -> lev_ok c k -> x' i j k = - x i (opposite j) k.
  (** the mirror image of a state: winds from the west and temperatures are reflected, winds from the south also change sign *)
  Definition image_state (f f' : fields R) : Prop := image (u_ f) (u_ f') /\ image_neg (v_ f) (v_ f') /\ image (theta_ f) (theta_ f').
  (** the potential temperature on the data levels (level, row, longitude), 0-based *)
  Definition raw_image (th th' : nat -> nat -> nat -> R) : Prop :=
    forall l j i, (j < p_nlat c)%nat -> (i < p_nlon c)%nat -> th' l j i = th l (p_nlat c - 1 - j)%nat i.
  (** averages of the two hemispheres exchanged *)
  Definition exchanged (av av' : averages R) : Prop := tn0 av' = ts0 av /\ ts0 av' = tn0 av /\ stat_n av' = stat_s av /\ stat_s av' = stat_n av.

  (** results, at every latitude except the equator itself, where only one of two hemispheric results is kept *)
  Definition off_equator (j : nat) : Prop := lat_ok c j /\ j <> p_eq c.
  Definition result2 (x x' : arr2 R) : Prop := forall i j, lon_ok c i -> off_equator j -> x' i j = x i (opposite j).
  Definition result2_neg (x x' : arr2 R) : Prop := forall i j, lon_ok c i -> off_equator j -> x' i j = - x i (opposite j).
  Definition result3 (x x' : arr3 R) : Prop := forall i j k, lon_ok c i -> off_equator j -> lev_ok c k -> x' i j k = x i (opposite j) k.
  Definition result3_neg (x x' : arr3 R) : Prop := forall i j k, lon_ok c i -> off_equator j -> lev_ok c k -> x' i j k = - x i (opposite j) k.
  Definition profile (x x' : arr2 R) : Prop := forall j k, off_equator j -> lev_ok c k -> x' j k = x (opposite j) k.
  Definition image_refs (r r' : refstate R) : Prop := profile (qref_ r) (qref_ r') /\ profile (uref_ r) (uref_ r') /\ profile (ptref_ r) (ptref_ r').

  (** the momentum fluxes to the north and to the south of a row change places and sign *)
  Definition image_fluxes (b b' : baro R) : Prop :=
    result2 (b_lwa b) (b_lwa b') /\ result2 (b_u b) (b_u b') /\ result2 (b_ua1 b) (b_ua1 b') /\ result2 (b_ua2 b) (b_ua2 b') /\ result2 (b_ep1 b) (b_ep1 b') /\
    result2_neg (b_ep3 b) (b_ep2 b') /\ result2_neg (b_ep2 b) (b_ep3 b') /\ result2 (b_ep4 b) (b_ep4 b') /\
    result2 (b_astar1 b) (b_astar1 b') /\ result2 (b_astar2 b) (b_astar2 b') /\ result2 (b_nc b) (b_nc b') /\ result3 (b_lwa3 b) (b_lwa3 b').
  Definition image_layers (l l' : layerwise R) : Prop :=
    result3 (l_lwa l) (l_lwa l') /\ result3 (l_astar1 l) (l_astar1 l') /\ result3 (l_astar2 l) (l_astar2 l') /\ result3 (l_nc l) (l_nc l') /\
    result3 (l_ua1 l) (l_ua1 l') /\ result3 (l_ua2 l) (l_ua2 l') /\ result3 (l_ep1 l) (l_ep1 l') /\
    result3_neg (l_ep3 l) (l_ep2 l') /\ result3_neg (l_ep2 l) (l_ep3 l') /\ result2 (l_ep4 l) (l_ep4 l').
  Definition image_lwa_only (o o' : lwaonly R) : Prop :=
    result2 (o_lwa_baro o) (o_lwa_baro o') /\ result2 (o_u_baro o) (o_u_baro o') /\ result3 (o_lwa o) (o_lwa o').
End MirrorSpec.
