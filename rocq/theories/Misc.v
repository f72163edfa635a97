(** Model of stat_utils.py and preprocessing.py. *)
From Verif Require Export Base.

Section Covariance.
  Context {A : Type} {N : Num A}.
  Local Open Scope num_scope.

  (** np.average over the [nt] observations of variable [p] *)
  Definition observations_mean (nt : nat) (X : nat -> nat -> A) (p : nat) : A := nsum nt (fun t => X p t) / nofnat nt.
  (** np.cov(m, y, rowvar=False) for two-dimensional m, y of shapes (nt, n): the variables are the columns of m followed by
      the columns of y; the mean of each is removed and the product of the result with its transpose is multiplied by
      1 / (nt - 1).  nt >= 2 is assumed: for nt = 1 numpy warns and divides by zero. *)
  Definition np_cov (nt n : nat) (m y : nat -> nat -> A) : nat -> nat -> A :=
    let X := fun p t => if Nat.ltb p n then m t p else y t (p - n)%nat in
    let avg := observations_mean nt X in
    let D := fun p t => X p t - avg p in
    fun p r => nsum nt (fun t => D p t * D r t) * (none / nofnat (nt - 1)).
  (** np.diagonal(c, offset=k) of a two-dimensional array *)
  Definition np_diagonal (c : nat -> nat -> A) (k : nat) : nat -> A := fun i => c i (i + k)%nat.
  (** stat_utils.py:19-26 calculate_covariance; the result is 0 outside the (lat_dim, lon_dim) array.
      var_b[:, j, :] must have lon_dim columns too; only this case is modelled. *)
  Definition calculate_covariance (nt lat_dim lon_dim : nat) (var_a var_b : nat -> nat -> nat -> A) : nat -> nat -> A :=
    fun j i => if Nat.ltb j lat_dim && Nat.ltb i lon_dim then
      np_diagonal (np_cov nt lon_dim (fun t x => var_a t j x) (fun t x => var_b t j x)) lon_dim i
    else nzero.
End Covariance.

(** a binary64 array entry: a number, an infinity or NaN *)
Inductive entry := Number (x : R) | Infinity (negative : bool) | NaN.
Definition is_nan (e : entry) : bool := match e with NaN => true | _ => false end.
(** np.isnan(a).sum() *)
Definition count_nan (nlat nlon : nat) (a : nat -> nat -> entry) : nat :=
  fold_right Nat.add 0%nat (map (fun p => if is_nan (a (fst p) (snd p)) then 1%nat else 0%nat) (list_prod (seq 0 nlat) (seq 0 nlon))).
(** np.ma.masked_invalid: masks NaN and infinities *)
Definition masked_invalid (a : nat -> nat -> entry) : nat -> nat -> option R :=
  fun j i => match a j i with Number x => Some x | _ => None end.
(** preprocessing.py:23-31 gridfill_each_level; the first component of gridfill.fill is the oracle [fill] *)
Definition gridfill_each_level (fill : (nat -> nat -> option R) -> nat -> nat -> entry) (nlat nlon : nat) (a : nat -> nat -> entry) : nat -> nat -> entry :=
  if Nat.eqb (count_nan nlat nlon a) 0 then a else fill (masked_invalid a).
