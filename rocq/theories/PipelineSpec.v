(** Specification vocabulary for the two-hemisphere computations: mirror symmetry about the equator. *)
From Verif Require Export Spec Pipeline.
Open Scope R_scope.

Section PipelineSpec.
  Variable c : pconf R.
  (** rows 1..nlat with the equator in row eq, latitudes symmetric, results in both hemispheres *)
  Definition symmetric_grid : Prop :=
    (2 <= p_eq c)%nat /\ p_nlat c = (2 * p_eq c - 1)%nat /\ (p_jb c < p_eq c)%nat /\ p_jd c = (p_eq c - p_jb c)%nat /\
    (forall j, (j < p_nlat c)%nat -> p_ylat c (p_nlat c - 1 - j) = - p_ylat c j /\ p_clat c (p_nlat c - 1 - j) = p_clat c j).

  (** a point of the analysis grid *)
  Definition lon_ok (i : nat) : Prop := (1 <= i <= p_nlon c)%nat.
  Definition lat_ok (j : nat) : Prop := (1 <= j <= p_nlat c)%nat.
  Definition lev_ok (k : nat) : Prop := (1 <= k <= p_kmax c)%nat.
  (** a global field x(i,j,k) is even / odd about the equator *)
  Definition even_field (x : arr3 R) : Prop := forall i j k, lon_ok i -> lat_ok j -> lev_ok k -> x i (p_nlat c + 1 - j)%nat k = x i j k.
  Definition odd_field (x : arr3 R) : Prop := forall i j k, lon_ok i -> lat_ok j -> lev_ok k -> x i (p_nlat c + 1 - j)%nat k = - x i j k.
  (** a zonally uniform quantity x(j,k), and a map x(i,j) *)
  Definition even_profile (x : arr2 R) : Prop := forall j k, lat_ok j -> lev_ok k -> x (p_nlat c + 1 - j)%nat k = x j k.
  Definition even_map (x : arr2 R) : Prop := forall i j, lon_ok i -> lat_ok j -> x i (p_nlat c + 1 - j)%nat = x i j.
  Definition odd_map (x : arr2 R) : Prop := forall i j, lon_ok i -> lat_ok j -> x i (p_nlat c + 1 - j)%nat = - x i j.

  (** u and theta even, v odd *)
  Definition symmetric_state (f : fields R) : Prop := even_field (u_ f) /\ odd_field (v_ f) /\ even_field (theta_ f).
  (** reference states even *)
  Definition symmetric_refs (r : refstate R) : Prop := even_profile (qref_ r) /\ even_profile (uref_ r) /\ even_profile (ptref_ r).

  (** the flux terms of a symmetric state: everything is even, except that the momentum fluxes at the two
      neighbouring rows change places and sign (off the equator) *)
  Definition symmetric_fluxes (b : baro R) : Prop :=
    even_map (b_lwa b) /\ even_map (b_u b) /\ even_map (b_ua1 b) /\ even_map (b_ua2 b) /\ even_map (b_ep1 b) /\
    even_map (b_ep4 b) /\ even_map (b_astar1 b) /\ even_map (b_astar2 b) /\ even_map (b_nc b) /\ even_field (b_lwa3 b) /\
    (forall i j, lon_ok i -> lat_ok j -> j <> p_eq c ->
       b_ep2 b i (p_nlat c + 1 - j)%nat = - b_ep3 b i j /\ b_ep3 b i (p_nlat c + 1 - j)%nat = - b_ep2 b i j).
  Definition symmetric_layers (l : layerwise R) : Prop :=
    even_field (l_lwa l) /\ even_field (l_astar1 l) /\ even_field (l_astar2 l) /\ even_field (l_nc l) /\
    even_field (l_ua1 l) /\ even_field (l_ua2 l) /\ even_field (l_ep1 l) /\ even_map (l_ep4 l) /\
    (forall i j k, lon_ok i -> lat_ok j -> lev_ok k -> j <> p_eq c ->
       l_ep2 l i (p_nlat c + 1 - j)%nat k = - l_ep3 l i j k /\ l_ep3 l i (p_nlat c + 1 - j)%nat k = - l_ep2 l i j k).

  (** the same object with the other setting of northern_hemisphere_results_only *)
  Definition with_flag (b : bool) : pconf R :=
    {| p_nlon := p_nlon c; p_nlat := p_nlat c; p_kmax := p_kmax c; p_eq := p_eq c; p_jb := p_jb c; p_jd := p_jd c; p_nh := b;
       p_a := p_a c; p_om := p_om c; p_dz := p_dz c; p_h := p_h c; p_rr := p_rr c; p_cp := p_cp c; p_prefac := p_prefac c;
       p_dphi := p_dphi c; p_dlambda := p_dlambda c; p_tol := p_tol c;
       p_height := p_height c; p_ylat := p_ylat c; p_clat := p_clat c |}.

  (** results of northern-only mode, rows 1..eq, against results of both-hemispheres mode, rows 1..nlat: the
      same numbers at every row strictly north of the equator *)
  Definition same_north2 (x1 x0 : arr2 R) : Prop :=
    forall i r, lon_ok i -> (2 <= r <= p_eq c)%nat -> x1 i r = x0 i (p_eq c - 1 + r)%nat.
  Definition same_north3 (x1 x0 : arr3 R) : Prop :=
    forall i r k, lon_ok i -> (2 <= r <= p_eq c)%nat -> lev_ok k -> x1 i r k = x0 i (p_eq c - 1 + r)%nat k.
  Definition same_north_profile (x1 x0 : arr2 R) : Prop :=
    forall r k, (2 <= r <= p_eq c)%nat -> lev_ok k -> x1 r k = x0 (p_eq c - 1 + r)%nat k.
  Definition same_north_refs (r1 r0 : refstate R) : Prop :=
    same_north_profile (qref_ r1) (qref_ r0) /\ same_north_profile (uref_ r1) (uref_ r0) /\ same_north_profile (ptref_ r1) (ptref_ r0).
  (** the reference wind on the equator itself *)
  Definition same_equatorial_wind (r1 r0 : refstate R) : Prop := forall k, lev_ok k -> uref_ r1 1%nat k = uref_ r0 (p_eq c) k.
  Definition same_north_fluxes (b1 b0 : baro R) : Prop :=
    same_north2 (b_lwa b1) (b_lwa b0) /\ same_north2 (b_u b1) (b_u b0) /\ same_north2 (b_ua1 b1) (b_ua1 b0) /\ same_north2 (b_ua2 b1) (b_ua2 b0) /\
    same_north2 (b_ep1 b1) (b_ep1 b0) /\ same_north2 (b_ep2 b1) (b_ep2 b0) /\ same_north2 (b_ep3 b1) (b_ep3 b0) /\ same_north2 (b_ep4 b1) (b_ep4 b0) /\
    same_north2 (b_astar1 b1) (b_astar1 b0) /\ same_north2 (b_astar2 b1) (b_astar2 b0) /\ same_north2 (b_nc b1) (b_nc b0) /\
    same_north3 (b_lwa3 b1) (b_lwa3 b0).
  Definition same_north_layers (l1 l0 : layerwise R) : Prop :=
    same_north3 (l_lwa l1) (l_lwa l0) /\ same_north3 (l_astar1 l1) (l_astar1 l0) /\ same_north3 (l_astar2 l1) (l_astar2 l0) /\
    same_north3 (l_nc l1) (l_nc l0) /\ same_north3 (l_ua1 l1) (l_ua1 l0) /\ same_north3 (l_ua2 l1) (l_ua2 l0) /\ same_north3 (l_ep1 l1) (l_ep1 l0) /\
    same_north3 (l_ep2 l1) (l_ep2 l0) /\ same_north3 (l_ep3 l1) (l_ep3 l0) /\ same_north2 (l_ep4 l1) (l_ep4 l0).
  Definition same_north_lwa_only (o1 o0 : lwaonly R) : Prop :=
    same_north2 (o_lwa_baro o1) (o_lwa_baro o0) /\ same_north2 (o_u_baro o1) (o_u_baro o0) /\ same_north3 (o_lwa o1) (o_lwa o0) /\
    same_north3 (o_astar1 o1) (o_astar1 o0) /\ same_north3 (o_astar2 o1) (o_astar2 o0).
End PipelineSpec.
