(** Properties C25-C29 and C73: hemispheric views of the storage classes. *)
From Verif Require Import Base Storage StorageSpec StorageProofs.
Open Scope nat_scope.

(** C25.  [row] is the content of one latitude row; [nth r a d] is row r of array a. *)
Theorem C25_northern_write_changes_exactly_the_last_rows :
  forall (row : Type) (st : storage row) a value arr,
    getattr st a = Some arr -> 1 <= length value <= length arr ->
    exists st' arr', nhem_set st a value = Ok st' /\ getattr st' a = Some arr' /\ length arr' = length arr /\
      (forall r d, r < length arr -> nth r arr' d =
         if r <? length arr - length value then nth r arr d else nth (r - (length arr - length value)) value d) /\
      (forall b, b <> a -> getattr st' b = getattr st b) /\ st_nh_only st' = st_nh_only st /\ st_nlat st' = st_nlat st.
Proof. exact @nhem_write. Qed.
Print Assumptions C25_northern_write_changes_exactly_the_last_rows.

Theorem C25_southern_write_changes_exactly_the_first_rows_flipped :
  forall (row : Type) (st : storage row) a value arr,
    st_nh_only st = false -> getattr st a = Some arr -> length value <= length arr ->
    exists st' arr', shem_set st a value = Ok st' /\ getattr st' a = Some arr' /\ length arr' = length arr /\
      (forall r d, r < length arr -> nth r arr' d =
         if r <? length value then nth (length value - 1 - r) value d else nth r arr d) /\
      (forall b, b <> a -> getattr st' b = getattr st b) /\ st_nh_only st' = false /\ st_nlat st' = st_nlat st.
Proof. exact @shem_write. Qed.
Print Assumptions C25_southern_write_changes_exactly_the_first_rows_flipped.

Theorem C25_northern_read_returns_what_was_written :
  forall (row : Type) (st : storage row) a value arr st',
    getattr st a = Some arr -> 1 <= length value <= length arr ->
    length value = (if st_nh_only st then length arr else st_nlat st / 2 + 1) ->
    nhem_set st a value = Ok st' -> nhem_get st' a = Ok value.
Proof. exact @nhem_readback. Qed.
Print Assumptions C25_northern_read_returns_what_was_written.

Theorem C25_southern_read_returns_the_flipped_write :
  forall (row : Type) (st : storage row) a value arr st',
    st_nh_only st = false -> getattr st a = Some arr -> length value <= length arr ->
    length value = st_nlat st / 2 + 1 ->
    shem_set st a value = Ok st' -> shem_get st' a = Ok (rev value).
Proof. exact @shem_readback. Qed.
Print Assumptions C25_southern_read_returns_the_flipped_write.
Example C25_hypotheses_met :
  let st := zeros 0 false 5 barotropic_attrs in
  sget barotropic_decl (fst (srun barotropic_decl st [Set_ "ep4_nhem" [1; 2; 3]; Set_ "ep4_shem" [7; 8; 9]])) "ep4"
  = Ok [9; 8; 7; 2; 3].
Proof. reflexivity. Qed.

(** C26. *)
Theorem C26_both_hemispheres_determine_every_row :
  forall (row : Type) (st : storage row) a vn vs arr m,
    st_nh_only st = false -> length arr = 2 * m + 1 -> getattr st a = Some arr ->
    length vn = m + 1 -> length vs = m + 1 ->
    exists st1 st2 arr2, nhem_set st a vn = Ok st1 /\ shem_set st1 a vs = Ok st2 /\ getattr st2 a = Some arr2 /\
      length arr2 = 2 * m + 1 /\
      forall r d, r < 2 * m + 1 -> nth r arr2 d = if r <=? m then nth (m - r) vs d else nth (r - m) vn d.
Proof. exact @both_hemispheres. Qed.
Print Assumptions C26_both_hemispheres_determine_every_row.
Example C26_hypotheses_met : getattr (zeros 0 false 5 layerwise_attrs) "lwa" = Some [0; 0; 0; 0; 0].
Proof. reflexivity. Qed.

(** C27.  [southern d o]: the operation reads or assigns a property declared for the southern hemisphere. *)
Theorem C27_northern_only_mode_refuses_southern_access :
  forall (row : Type) (d : decl) (l : list (sop row)) st, st_nh_only st = true ->
    fst (srun d st l) = fst (srun d st (filter (fun o => negb (southern d o)) l)) /\
    (forall k o, nth_error l k = Some o -> southern d o = true ->
       nth_error (snd (srun d st l)) k = Some InvalidCallOfSHemVariables).
Proof. intros row d l st H. exact (south_history d l st H). Qed.
Print Assumptions C27_northern_only_mode_refuses_southern_access.
Example C27_hypotheses_met :
  southern layerwise_decl (Set_ "lwa_shem" [5]) = true /\
  snd (srun layerwise_decl (zeros 0 true 3 layerwise_attrs) [Set_ "lwa_nhem" [1;2;3]; Set_ "lwa_shem" [5]; Get "lwa_nhem"])
  = [Ok []; InvalidCallOfSHemVariables; Ok [1;2;3]].
Proof. split; reflexivity. Qed.

(** C28.  Every view of the reference-state and barotropic storages can be read right after construction. *)
Theorem C28_declared_views_exist_partial :
  forall (row : Type) (z : row) rows n h a,
    (find_prop n reference_decl = Some (h, a) -> sget reference_decl (zeros z false rows reference_attrs) n <> AttributeError) /\
    (find_prop n barotropic_decl = Some (h, a) -> sget barotropic_decl (zeros z false rows barotropic_attrs) n <> AttributeError) /\
    (find_prop n layerwise_decl = Some (h, a) -> a <> "ep4"%string ->
       sget layerwise_decl (zeros z false rows layerwise_attrs) n <> AttributeError).
Proof. exact @views_exist. Qed.
Print Assumptions C28_declared_views_exist_partial.
Example C28_hypotheses_met :
  find_prop "qref_nhem" reference_decl <> None /\ find_prop "lwa_nhem" layerwise_decl <> None /\
  sget layerwise_decl (zeros 0 false 3 layerwise_attrs) "lwa_nhem" = Ok [0; 0].
Proof. split; [discriminate|]. split; [discriminate|]. reflexivity. Qed.

(** the layer-wise storage declares ep4_nhem and ep4_shem but never creates ep4 *)
Theorem C28_declared_views_exist_refuted :
  forall (row : Type) (z : row) rows v,
    let st := zeros z false rows layerwise_attrs in
    find_prop "ep4_nhem" layerwise_decl <> None /\ find_prop "ep4_shem" layerwise_decl <> None /\
    sget layerwise_decl st "ep4_nhem" = AttributeError /\ sget layerwise_decl st "ep4_shem" = AttributeError /\
    sset layerwise_decl st "ep4_nhem" v = AttributeError /\ sset layerwise_decl st "ep4_shem" v = AttributeError.
Proof. exact @views_missing. Qed.
Print Assumptions C28_declared_views_exist_refuted.

(** C29.  [same_array]: equal shape and equal element at every index tuple. *)
Theorem C29_index_orders_are_inverse :
  forall (A : Type) (x : ndarray A) s1 s2, s1 < length (nd_shape x) -> s2 < length (nd_shape x) ->
    (exists y z, fortran_to_python s1 s2 x = Some y /\ python_to_fortran s1 s2 y = Some z /\ same_array z x) /\
    (exists y z, python_to_fortran s1 s2 x = Some y /\ fortran_to_python s1 s2 y = Some z /\ same_array z x).
Proof. intros A x s1 s2 H1 H2. split; [exact (swap_roundtrip x s1 s2 H1 H2)|exact (swap_roundtrip x s2 s1 H2 H1)]. Qed.
Print Assumptions C29_index_orders_are_inverse.

(** for every storage as created by QGField except the domain averages, an array of the declared Fortran shape
    converts to the declared python shape, and element (k, j, i) in python order is element (i, j, k) *)
Theorem C29_declared_shapes_convert :
  forall (A : Type) kmax nlat nlon (x : ndarray A) ly,
    In ly [layout_interpolated kmax nlat nlon; layout_reference kmax nlat; layout_layerwise kmax nlat nlon;
           layout_barotropic nlat nlon; layout_output nlat nlon] ->
    nd_shape x = ly_f ly ->
    exists y, fortran_to_python (ly_1 ly) (ly_2 ly) x = Some y /\ nd_shape y = ly_py ly /\
      (forall k j i, length (ly_f ly) = 3 -> nd_at y [k; j; i] = nd_at x [i; j; k]) /\
      (forall j i, length (ly_f ly) = 2 -> nd_at y [j; i] = nd_at x [i; j]).
Proof. exact @layouts_convert. Qed.
Print Assumptions C29_declared_shapes_convert.
Example C29_hypotheses_met :
  option_map (@nd_shape nat) (fortran_to_python 0 2 {| nd_shape := [4; 3; 2]; nd_at := fun _ => 0 |}) = Some [2; 3; 4].
Proof. reflexivity. Qed.

(** C73.  No history of reads and view assignments, failed ones included, changes the number of rows of a
    stored array. *)
Theorem C73_views_never_change_array_sizes :
  forall (row : Type) (d : decl) (l : list (sop row)) st b, Forall (is_view d) l ->
    option_map (@length row) (getattr (fst (srun d st l)) b) = option_map (@length row) (getattr st b).
Proof. exact @view_history_shape. Qed.
Print Assumptions C73_views_never_change_array_sizes.
Example C73_hypotheses_met :
  Forall (is_view layerwise_decl) [Set_ "lwa_nhem" [1; 2]; Get "lwa"; Set_ "lwa_shem" [1; 2; 3; 4; 5; 6; 7]].
Proof. repeat constructor; cbn; discriminate. Qed.
