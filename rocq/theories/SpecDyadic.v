(** Exact arithmetic, for the intervals of substepping (C35, C38): the rationals in lowest terms. *)
From Coq Require Import QArith Qcanon.
From Verif Require Import Base Substep.
Local Close Scope Q_scope.

Definition rationals : arith Qc := mkArith Qcplus Qcminus Qcmult (Q2Qc 0) (Q2Qc 1) (Q2Qc (1 # 2)).
(** [k / 2^n] *)
Definition dyadic (k n : nat) : Qc := Q2Qc (Z.of_nat k # Pos.of_nat (2 ^ n)).
