(** Model of /repo/src/falwa/basis.py: [lwa], [eqvlat_fawa], [eqvlat_vgrad].
    2-d arrays are functions row -> column -> value with the sizes passed explicitly. *)
From Verif Require Export Base.

Section Lwa.
  Context {A : Type} {N : Num A}.
  Local Open Scope num_scope.

  Definition mat := nat -> nat -> A.

  (** basis.py:183  [vort_e = vort[:, :] - q_part[j]] *)
  Definition vort_e (vort : mat) (q_part : nat -> A) (j : nat) : mat :=
    fun r i => vort r i - q_part j.

  (** basis.py:186,188,189: zeros; -1 where vort_e < 0; rows [:j+1] reset to 0 *)
  Definition anticyclonic_mask (ve : mat) (j : nat) : mat :=
    let m0 : mat := fun _ _ => nzero in
    let m1 : mat := fun r i => if ve r i <? nzero then - none else m0 r i in
    fun r i => if Nat.ltb r (j + 1) then nzero else m1 r i.

  (** basis.py:185,191: zeros; +1 where vort_e > 0 among rows [:j+1] *)
  Definition cyclonic_mask (ve : mat) (j : nat) : mat :=
    let m0 : mat := fun _ _ => nzero in
    fun r i => if andb (Nat.ltb r (j + 1)) (nzero <? ve r i) then none else m0 r i.

  (** basis.py:178,182,193,194: return_array[c, j, i]; rows j = nlat-1 stay 0 *)
  Definition lwa_return_array (nlat : nat) (vort : mat) (q_part dmu : nat -> A)
    (c j i : nat) : A :=
    if Nat.ltb j (nlat - 1) then
      let ve := vort_e vort q_part j in
      let mask := match c with O => anticyclonic_mask ve j | _ => cyclonic_mask ve j end in
      nsum nlat (fun r => ve r i * mask r i * dmu r)
    else nzero.

  (** basis.py:180,182,195-197 *)
  Definition lwa_bigsigma (nlat : nat) (vort : mat) (q_part dmu : nat -> A) (ncforce : mat)
    (j i : nat) : A :=
    if Nat.ltb j (nlat - 1) then
      let ve := vort_e vort q_part j in
      nsum nlat (fun r => ncforce r i * (anticyclonic_mask ve j r i + cyclonic_mask ve j r i) * dmu r)
    else nzero.

  Inductive lwact :=
  | Partitioned (a : nat -> nat -> nat -> A)   (* (2, nlat, nlon) *)
  | Single (a : nat -> nat -> A).              (* (nlat, nlon) *)

  (** basis.py:137-205.  [nlon] only fixes shapes and is not needed for the values. *)
  Definition lwa (nlat : nat) (vort : mat) (q_part dmu : nat -> A)
    (return_partitioned_lwa : bool) (ncforce : option mat) : lwact * option mat :=
    let ra := lwa_return_array nlat vort q_part dmu in
    let bigsigma := match ncforce with
                    | None => None
                    | Some f => Some (lwa_bigsigma nlat vort q_part dmu f)
                    end in
    if return_partitioned_lwa then (Partitioned ra, bigsigma)
    else (Single (fun j i => ra 0%nat j i + ra 1%nat j i), bigsigma).
End Lwa.

Arguments lwact : clear implicits.

(** Reading one element of the first returned object of [lwa]. *)
Definition out_component {A} (o : lwact A) (c j i : nat) : option A :=
  match o with Partitioned a => Some (a c j i) | Single _ => None end.
Definition out_total {A} (o : lwact A) (j i : nat) : option A :=
  match o with Partitioned _ => None | Single a => Some (a j i) end.

Section Eqvlat.
  Context {A : Type} {N : Num A}.
  Local Open Scope num_scope.

  (** np.linspace(start, stop, n, endpoint=True): y[i] = i*step + start, y[n-1] = stop (n > 1) *)
  Definition linspace (start stop : A) (n : nat) (i : nat) : A :=
    if andb (Nat.ltb 1 n) (Nat.eqb i (n - 1)) then stop
    else if Nat.ltb 1 n then nofnat i * ((stop - start) / nofnat (n - 1)) + start
    else start.

  (** np.digitize(x, bins) for non-decreasing bins of size n: number of bins <= x *)
  Definition digitize (bins : nat -> A) (n : nat) (x : A) : nat :=
    length (filter (fun k => bins k <=? x) (seq 0 n)).

  (** np.interp, numpy's C loop for one x: clamp outside, otherwise last node j with xp[j] <= x *)
  Fixpoint last_le (xp : nat -> A) (x : A) (n : nat) : nat :=
    match n with
    | O => O
    | S m => if xp m <=? x then m else last_le xp x m
    end.
  Definition interp1 (n : nat) (xp fp : nat -> A) (x : A) : A :=
    if xp (n - 1)%nat <? x then fp (n - 1)%nat
    else if x <? xp 0%nat then fp 0%nat
    else let j := last_le xp x n in
         if Nat.eqb j (n - 1) then fp j
         else if xp j =? x then fp j
         else (fp (S j) - fp j) / (xp (S j) - xp j) * (x - xp j) + fp j.
  Definition interp (n : nat) (xp fp : nat -> A) (x : nat -> A) : nat -> A :=
    fun l => interp1 n xp fp (x l).

  (** np.rad2deg *)
  Definition rad2deg (x : A) : A := x * (nofZ 180 / npi).

  (** vort.flatten(), area.flatten() zipped: cells (value, area) in row-major order *)
  Definition cells_of (nlat nlon : nat) (vort area : nat -> nat -> A) : list (A * A) :=
    flat_map (fun j => map (fun i => (vort j i, area j i)) (seq 0 nlon)) (seq 0 nlat).

  Definition vort_bins (cells : list (A * A)) (n_points : nat) : nat -> A :=
    linspace (lmin (map fst cells)) (lmax (map fst cells)) n_points.   (* basis.py:41,43 *)

  (** basis.py:47-48, list comprehension element for bin i *)
  Definition bin_area (cells : list (A * A)) (bins : nat -> A) (n i : nat) : A :=
    lsum (map snd (filter (fun c => Nat.eqb (digitize bins n (fst c)) i) cells)).
  (** basis.py:49-50 *)
  Definition bin_circ (cells : list (A * A)) (bins : nat -> A) (n i : nat) : A :=
    lsum (map (fun c => snd c * fst c) (filter (fun c => Nat.eqb (digitize bins n (fst c)) i) cells)).

  (** basis.py:48 [np.cumsum([0] + [... for i in range(1, n)])] *)
  Definition fawa_aq (cells : list (A * A)) (n : nat) : nat -> A :=
    let bins := vort_bins cells n in
    ncumsum (fun i => match i with O => nzero | _ => bin_area cells bins n i end).
  Definition fawa_cq (cells : list (A * A)) (n : nat) : nat -> A :=
    let bins := vort_bins cells n in
    ncumsum (fun i => match i with O => nzero | _ => bin_circ cells bins n i end).

  (** basis.py:51-52 *)
  Definition eqv_latitude (aq : nat -> A) (planet_radius : A) : nat -> A :=
    fun k => rad2deg (nasin (aq k / (nofZ 2 * npi * nsq planet_radius) - none)).

  (** basis.py:41-53, on the flattened cells *)
  Definition qref_of_cells (ylat : nat -> A) (cells : list (A * A)) (n_points : nat)
    (planet_radius : A) : nat -> A :=
    interp n_points (eqv_latitude (fawa_aq cells n_points) planet_radius)
           (vort_bins cells n_points) ylat.

  (** basis.py:57 *)
  Definition cref_of_cells (ylat : nat -> A) (cells : list (A * A)) (n_points : nat)
    (planet_radius : A) : nat -> A :=
    interp n_points (eqv_latitude (fawa_aq cells n_points) planet_radius)
           (fawa_cq cells n_points) ylat.

  (** basis.py:42 zonal mean; area.sum(axis=1) *)
  Definition row_mean (nlon : nat) (f : nat -> nat -> A) (j : nat) : A := nsum nlon (f j) / nofnat nlon.
  Definition row_sum (nlon : nat) (f : nat -> nat -> A) (j : nat) : A := nsum nlon (f j).

  (** basis.py:58-60: cbar starts at 0 and is filled for j = nlat-2, ..., 1; [cbar_at m] is the value
      at j = nlat-1-m *)
  Fixpoint cbar_at (qbar areasum : nat -> A) (nlat m : nat) : A :=
    match m with
    | O => nzero
    | S m' => let j := (nlat - 1 - m)%nat in
              cbar_at qbar areasum nlat m' +
              (none / nofZ 2) * (qbar (S j) * areasum (S j) + qbar j * areasum j)
    end.
  Definition cbar (qbar areasum : nat -> A) (nlat j : nat) : A :=
    match j with O => nzero | _ => cbar_at qbar areasum nlat (nlat - 1 - j) end.

  (** basis.py:11-64; result (qref[nlat], option fawa[nlat-1]) *)
  Definition eqvlat_fawa (nlat nlon : nat) (ylat : nat -> A) (vort area : nat -> nat -> A)
    (n_points : nat) (planet_radius : A) (output_fawa : bool) : (nat -> A) * option (nat -> A) :=
    let cells := cells_of nlat nlon vort area in
    let qref := qref_of_cells ylat cells n_points planet_radius in
    if output_fawa then
      let cref := cref_of_cells ylat cells n_points planet_radius in
      let cb := cbar (row_mean nlon vort) (row_sum nlon area) nlat in
      (qref, Some (fun l => - (cb (S l) + cref (S l)) / (nofZ 2 * npi * planet_radius)))
    else (qref, None).

  (** ** eqvlat_vgrad, basis.py:67-134 *)

  (** basis.py:97-98: np.min of a two-element list of the same minimum *)
  Definition q_part_u (cells : list (A * A)) (n_points : nat) : nat -> A :=
    let v := map fst cells in
    linspace (lmin [lmin v; lmin v]) (lmax [lmax v; lmax v]) n_points.

  (** basis.py:110-111 *)
  Definition vgrad_aa (cells : list (A * A)) (n : nat) : nat -> A :=
    fun i => bin_area cells (q_part_u cells n) n i.

  (** cells with the vgrad value attached: ((vort, area), vgrad) *)
  Definition cells3_of (nlat nlon : nat) (vort area vgrad : nat -> nat -> A) : list ((A * A) * A) :=
    flat_map (fun j => map (fun i => ((vort j i, area j i), vgrad j i)) (seq 0 nlon)) (seq 0 nlat).

  (** basis.py:112-118 *)
  Definition vgrad_dp (cells3 : list ((A * A) * A)) (n : nat) : nat -> A :=
    let cells := map fst cells3 in
    let bins := q_part_u cells n in
    fun i => let aai := vgrad_aa cells n i in
             if aai =? nzero then nzero
             else lsum (map (fun c => snd (fst c) * snd c)
                            (filter (fun c => Nat.eqb (digitize bins n (fst (fst c))) i) cells3)) / aai.

  (** basis.py:122-123 [brac[1:-1] = 0.5 * (dp[:-2] + dp[2:])], end points 0 *)
  Definition vgrad_brac (dp : nat -> A) (n : nat) : nat -> A :=
    fun i => if andb (Nat.ltb 0 i) (Nat.ltb i (n - 1))
             then (none / nofZ 2) * (dp (i - 1)%nat + dp (S i)) else nzero.

  (** basis.py:120,125-126 *)
  Definition vgrad_lat_part (cells : list (A * A)) (n : nat) (planet_radius : A) : nat -> A :=
    eqv_latitude (ncumsum (vgrad_aa cells n)) planet_radius.

  (** basis.py:67-134 *)
  Definition eqvlat_vgrad (nlat nlon : nat) (ylat : nat -> A) (vort area : nat -> nat -> A)
    (n_points : nat) (planet_radius : A) (vgrad : option (nat -> nat -> A))
    : (nat -> A) * option (nat -> A) :=
    let cells := cells_of nlat nlon vort area in
    let lat_part := vgrad_lat_part cells n_points planet_radius in
    let q_part := interp n_points lat_part (q_part_u cells n_points) ylat in
    match vgrad with
    | None => (q_part, None)
    | Some vg =>
        let dp := vgrad_dp (cells3_of nlat nlon vort area vg) n_points in
        (q_part, Some (interp n_points lat_part (vgrad_brac dp n_points) ylat))
    end.
End Eqvlat.
