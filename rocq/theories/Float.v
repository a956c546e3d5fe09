(** IEEE-754 binary64, the dtype of every tensor the solvers work on.
    [spec_float] and its operations are the Coq standard library's executable
    specification of IEEE arithmetic (Coq.Floats.SpecFloat); no primitive floats, no axioms.
    Simplification: NaNs carry no payload and no sign. *)
From Verif Require Import Base.
From Coq Require Export Floats.SpecFloat.

Definition F := spec_float.
Definition fadd : F -> F -> F := SFadd 53 1024.
Definition fsub : F -> F -> F := SFsub 53 1024.
Definition fmul : F -> F -> F := SFmul 53 1024.
Definition fdiv : F -> F -> F := SFdiv 53 1024.
Definition fsqrt : F -> F := SFsqrt 53 1024.
Definition fopp : F -> F := SFopp.
Definition fabs : F -> F := SFabs.
(** C++ [<] and [<=]: false when an operand is NaN. *)
Definition flt : F -> F -> bool := SFltb.
Definition fle : F -> F -> bool := SFleb.
Definition fzero : F := S754_zero false.
Definition fone : F := S754_finite false 4503599627370496 (-52).
Definition ftwo : F := S754_finite false 4503599627370496 (-51).
Definition fhalf : F := S754_finite false 4503599627370496 (-53).
(** [m * 2^e], rounded. *)
Definition fnum (m e : Z) : F := binary_normalize 53 1024 m e false.
(** [at::isfinite] *)
Definition ffinite (x : F) : bool :=
  match x with S754_zero _ | S754_finite _ _ _ => true | _ => false end.
(** [at::isnan] *)
Definition fnan (x : F) : bool := match x with S754_nan => true | _ => false end.
Definition fneg_zero : F := S754_zero true.
