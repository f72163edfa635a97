(** IEEE 754 arithmetic with NaN, infinities and overflow, in any binary format: the reading of REAL in
    /repo/src/falwa/f90_modules (compute_flux_dirinv.f90:7-20, compute_lwa_only_nhn22.f90:5-20: REAL without a kind, binary32).
    The five operations and the comparisons are those of the standard library's SpecFloat; sin, cos, exp, asin and pi are whatever the
    Fortran library returns. *)
From Verif Require Export Base.
From Coq Require Export SpecFloat.

Record elementary := { e_sin : spec_float -> spec_float; e_cos : spec_float -> spec_float; e_exp : spec_float -> spec_float;
                       e_asin : spec_float -> spec_float; e_pi : spec_float }.

Definition IeeeNum (prec emax : Z) (e : elementary) : Num spec_float := {|
  nzero := S754_zero false; none := binary_normalize prec emax 1 0 false;
  nadd := SFadd prec emax; nsub := SFsub prec emax; nmul := SFmul prec emax; ndiv := SFdiv prec emax; nopp := SFopp;
  nltb := SFltb; nleb := SFleb; neqb := SFeqb;
  nofZ z := binary_normalize prec emax z 0 false; nabs := SFabs;
  nsin := e_sin e; ncos := e_cos e; nexp := e_exp e; nasin := e_asin e; npi := e_pi e |}.

(** single precision *)
Definition Single (e : elementary) : Num spec_float := IeeeNum 24 128 e.
