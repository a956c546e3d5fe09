(** Vocabulary for GMRES over the real numbers (C54, C63). *)
From Coq Require Import Reals.
From Verif Require Import Base Newton Krylov SpecKrylov.

(** Exact arithmetic; [eps] is the dtype's. *)
Definition reals (eps : R) : num R :=
  mkNum 0%R 1%R Rplus Rminus Rmult Rdiv Ropp sqrt Rabs (fun x y => if Rlt_dec x y then true else false) eps.
Definition real_sum (x : list R) : R := fold_right Rplus 0%R x.
Definition real_dot (x y : list R) : R := real_sum (map2 Rmult x y).
(** The square of the norm. *)
Definition square (x : list R) : R := real_dot x x.

(** A solver of upper triangular systems given by their columns. *)
Definition solves_upper (tri : list (list R) -> list R -> list R) : Prop :=
  forall cols g,
    (forall j col, nth_error cols j = Some col -> length col = S j /\ nth j col 0%R <> 0%R) -> length g = length cols ->
    length (tri cols g) = length cols /\
    forall i, i < length cols ->
      real_sum (map2 (fun y col => (y * nth i col 0)%R) (tri cols g) cols) = nth i g 0%R.

(** The operator's arguments, in order. *)
Definition operands {V} (l : list (kcall V)) : list (list (list V)) :=
  flat_map (fun c => match c with CMat x => [x] | CPre _ => [] end) l.
(** Of the operands of a solve with restart width [m], the one of iteration [q]: one more call is made at every restart. *)
Definition iteration_operand {V} (m : nat) (l : list (kcall V)) (q : nat) : option (list (list V)) :=
  nth_error (operands l) (q + q / m).
(** In row [i], each of the first [iters] directions has norm one, or is zero (after an exact breakdown): no norm was
    floored on the way. *)
Definition normalised (m i iters : nat) (l : list (kcall R)) : Prop :=
  forall q x v, q < iters -> iteration_operand m l q = Some x -> nth_error x i = Some v -> square v = 1%R \/ square v = 0%R.

(** The operator changes no vector's norm by a factor below [eps]. *)
Definition bounded_below (eps : R) (n : nat) (A : list R -> list R) : Prop :=
  forall x, length x = n -> (eps * eps * square x <= square (A x))%R.

(** [x] is the sum of the steps. *)
Definition sum_of (n : nat) (ds : list (list R)) : list R := fold_left (map2 Rplus) ds (repeat 0%R n).
(** A residual norm that meets the tolerances. *)
Definition tolerated (eps : R) (cfg : kconfig R) (b : list R) (e : R) : Prop :=
  (e < k_abs_tol cfg \/ e / Rmax eps (sqrt (square b)) < k_rel_tol cfg)%R.

(** For the right-hand side [b] and the answer [x], the residual [z] meets the tolerances up to [eps] times the answer. *)
Definition met (eps : R) (cfg : kconfig R) (b x z : list R) : Prop :=
  exists e, (0 <= e)%R /\ tolerated eps cfg b e /\ (square z <= e * e + eps * eps * square x)%R.
(** Some tolerance is positive, the budget is not zero, and a cycle is not shorter than a row of [n]. *)
Definition full_cycle {V} (pos : V -> Prop) (cfg : kconfig V) (n : nat) : Prop :=
  (0 < k_restart cfg)%Z /\ (Z.of_nat n <= k_restart cfg)%Z /\ (0 < k_max_its cfg)%Z /\ (pos (k_abs_tol cfg) \/ pos (k_rel_tol cfg)).
