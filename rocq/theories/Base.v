(** Arithmetic interface of the model.

    Every numeric definition of the model is generic over [Num A].  Three instances are used:
    - [RNum]      exact real arithmetic (property theorems);
    - [RndNum r]  real arithmetic with every result rounded by [r] (sign theorems that also hold
                  in floating point);
    - [QNum]      rationals, so that the model can be run with [vm_compute]. *)
From Coq Require Export Reals ZArith QArith List Bool Lia Lra Arith Permutation.
Export ListNotations.
Open Scope nat_scope.

Class Num (A : Type) : Type := {
  nzero : A;
  none : A;
  nadd : A -> A -> A;
  nsub : A -> A -> A;
  nmul : A -> A -> A;
  ndiv : A -> A -> A;
  nopp : A -> A;
  nltb : A -> A -> bool;
  nleb : A -> A -> bool;
  neqb : A -> A -> bool;
  nofZ : Z -> A;
  nabs : A -> A;
  nsin : A -> A;
  ncos : A -> A;
  nexp : A -> A;
  nasin : A -> A;
  npi : A }.

Declare Scope num_scope.
Delimit Scope num_scope with num.
Infix "+" := nadd : num_scope.
Infix "-" := nsub : num_scope.
Infix "*" := nmul : num_scope.
Infix "/" := ndiv : num_scope.
Notation "- x" := (nopp x) : num_scope.
Arguments nofZ {A Num} _%Z.
Infix "<?" := nltb : num_scope.
Infix "<=?" := nleb : num_scope.
Infix "=?" := neqb : num_scope.

(** ** Helpers shared by the model (loops as folds) *)

Section Helpers.
  Context {A : Type} {N : Num A}.

  (** accumulation loop [acc = 0; for i in 0..n-1: acc += f i] *)
  Fixpoint nsum (n : nat) (f : nat -> A) : A :=
    match n with
    | O => nzero
    | S m => nadd (nsum m f) (f m)
    end.

  (** the same over a list (np.sum over a 1-d array, left to right) *)
  Definition lsum (l : list A) : A := fold_left nadd l nzero.

  (** np.cumsum *)
  Definition ncumsum (f : nat -> A) (k : nat) : A := nsum (S k) f.

  (** float(n) of a non-negative integer *)
  Definition nofnat (n : nat) : A := nofZ (Z.of_nat n).

  Definition nmin (x y : A) : A := if nltb y x then y else x.
  Definition nmax (x y : A) : A := if nltb x y then y else x.
  Definition lmin (l : list A) : A :=
    match l with [] => nzero | x :: xs => fold_left nmin xs x end.
  Definition lmax (l : list A) : A :=
    match l with [] => nzero | x :: xs => fold_left nmax xs x end.

  (** x ** 2 *)
  Definition nsq (x : A) : A := nmul x x.
End Helpers.

(** ** Exact reals *)

Definition Rltb (x y : R) : bool := if Rlt_dec x y then true else false.
Definition Rleb (x y : R) : bool := if Rle_dec x y then true else false.
Definition Reqb (x y : R) : bool := if Req_EM_T x y then true else false.

#[export] Instance RNum : Num R := {|
  nzero := 0%R; none := 1%R;
  nadd := Rplus; nsub := Rminus; nmul := Rmult; ndiv := Rdiv; nopp := Ropp;
  nltb := Rltb; nleb := Rleb; neqb := Reqb;
  nofZ := IZR; nabs := Rabs;
  nsin := sin; ncos := cos; nexp := exp; nasin := asin; npi := PI |}.

(** ** Reals with rounding after each operation *)

Definition RndNum (rnd : R -> R) : Num R := {|
  nzero := 0%R; none := 1%R;
  nadd x y := rnd (x + y)%R; nsub x y := rnd (x - y)%R;
  nmul x y := rnd (x * y)%R; ndiv x y := rnd (x / y)%R; nopp := Ropp;
  nltb := Rltb; nleb := Rleb; neqb := Reqb;
  nofZ z := rnd (IZR z); nabs := Rabs;
  nsin x := rnd (sin x); ncos x := rnd (cos x); nexp x := rnd (exp x);
  nasin x := rnd (asin x); npi := rnd PI |}.

(** ** Rationals (for running the model); transcendental functions are truncated Taylor
    polynomials, good enough for examples only. *)

Definition Qsinq (x : Q) : Q := Qred (x - x*x*x/6 + x*x*x*x*x/120 - x*x*x*x*x*x*x/5040).
Definition Qcosq (x : Q) : Q := Qred (1 - x*x/2 + x*x*x*x/24 - x*x*x*x*x*x/720).
Definition Qexpq (x : Q) : Q := Qred (1 + x + x*x/2 + x*x*x/6 + x*x*x*x/24).
Definition Qasinq (x : Q) : Q := Qred (x + x*x*x/6 + 3*x*x*x*x*x/40).

Definition QNum : Num Q := {|
  nzero := 0%Q; none := 1%Q;
  nadd x y := Qred (x + y); nsub x y := Qred (x - y);
  nmul x y := Qred (x * y); ndiv x y := Qred (x / y); nopp x := Qred (- x);
  nltb x y := negb (Qle_bool y x); nleb := Qle_bool; neqb := Qeq_bool;
  nofZ z := inject_Z z; nabs x := Qred (Qabs.Qabs x);
  nsin := Qsinq; ncos := Qcosq; nexp := Qexpq; nasin := Qasinq; npi := (355 # 113)%Q |}.

(** unfold the operations of the real instance in a goal *)
Ltac toR :=
  change (@nadd R RNum) with Rplus in *; change (@nsub R RNum) with Rminus in *;
  change (@nmul R RNum) with Rmult in *; change (@ndiv R RNum) with Rdiv in *;
  change (@nopp R RNum) with Ropp in *; change (@nzero R RNum) with 0%R in *;
  change (@none R RNum) with 1%R in *; change (@nltb R RNum) with Rltb in *;
  change (@nleb R RNum) with Rleb in *; change (@neqb R RNum) with Reqb in *;
  change (@nofZ R RNum) with IZR in *; change (@nabs R RNum) with Rabs in *;
  change (@nsin R RNum) with sin in *; change (@ncos R RNum) with cos in *;
  change (@nexp R RNum) with exp in *; change (@nasin R RNum) with asin in *;
  change (@npi R RNum) with PI in *; cbn beta in *.
