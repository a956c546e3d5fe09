(** Vocabulary for GMRES solves inside a Newton step or a sensitivity solve, over the real numbers (C45, C59). *)
From Coq Require Import Reals.
From Verif Require Import Base Newton Krylov SpecKrylov SpecGmres.

(** After [iters] iterations for the right-hand side [b], the answer [x] is a sum of steps, one per cycle, and [z] meets
    the tolerances up to [eps] times the steps. *)
Definition near (eps : R) (cfg : kconfig R) (n iters : nat) (b x z : list R) : Prop :=
  exists e ds, (0 <= e)%R /\ tolerated eps cfg b e /\ Forall (fun d => length d = n) ds /\ x = sum_of n ds /\
    length ds * Z.to_nat (k_restart cfg) < iters + Z.to_nat (k_restart cfg) /\
    (square z <= e * e + eps * eps * real_sum (map square ds))%R.
