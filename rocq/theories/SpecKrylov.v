(** Vocabulary of the Krylov properties (C42-C46, C54, C55). *)
From Verif Require Import Base Newton Krylov.

(** Cost of a solve: calls of the operator and of the preconditioner. *)
Definition mats {V} (l : list (kcall V)) : nat :=
  length (filter (fun c => match c with CMat _ => true | CPre _ => false end) l).
Definition pres {V} (l : list (kcall V)) : nat :=
  length (filter (fun c => match c with CMat _ => false | CPre _ => true end) l).

(** The rows of a batch are unrelated: each has its own operator. *)
Definition per_row {V} (fs : list (list V -> list V)) (x : list (list V)) : result (list (list V)) :=
  if Nat.eqb (length x) (length fs) then Ok (map2 (fun f v => f v) fs x) else Err (StdExn "batch size").
(** The operator acts on row [i] alone, by [A]. *)
Definition acts_on {V} (i : nat) (A : list V -> list V) (f : list (list V) -> result (list (list V))) : Prop :=
  forall x y v, f x = Ok y -> nth_error x i = Some v -> nth_error y i = Some (A v).
Definition keeps_width {V} (n : nat) (f : list V -> list V) : Prop := forall x, length x = n -> length (f x) = n.

(** A (B, n) tensor. *)
Definition sheet {V} (rows n : nat) (x : list (list V)) : Prop :=
  length x = rows /\ Forall (fun r => length r = n) x.
(** The operator answers every such tensor with another. *)
Definition answers_sheets {V} (rows n : nat) (f : list (list V) -> result (list (list V))) : Prop :=
  forall x, sheet rows n x -> exists y, f x = Ok y /\ sheet rows n y.

(** The least number of cycles of [m] iterations that contain [max_its] of them. *)
Definition least_cycles (max_its m c : Z) : Prop :=
  (max_its <= c * m)%Z /\ ((0 < c -> (c - 1) * m < max_its) /\ 0 <= c)%Z.

(** The arithmetic is that of a ring, and an operator on rows of [n] entries is linear in it. *)
Definition ring_of {V} (N : num V) : Prop :=
  ring_theory (n_zero N) (n_one N) (n_add N) (n_mul N) (n_sub N) (n_neg N) (@eq V).
Definition linear_op {V} (N : num V) (n : nat) (A : list V -> list V) : Prop :=
  keeps_width n A /\
  (forall x y, length x = n -> length y = n -> A (map2 (n_add N) x y) = map2 (n_add N) (A x) (A y)) /\
  (forall c x, length x = n -> A (map (n_mul N c) x) = map (n_mul N c) (A x)).

(** The residual [r] of a row with right-hand side [b] is within the tolerances: in norm below the absolute one, or
    below the relative one after division by the norm of [b] (floored at the dtype's epsilon). *)
Definition norm {V} (N : num V) (rsum : list V -> V) (x : list V) : V :=
  n_sqrt N (rsum (map (fun a => n_mul N a a) x)).
Definition within {V} (N : num V) (rsum : list V -> V) (cfg : kconfig V) (b r : list V) : Prop :=
  n_lt N (norm N rsum r) (k_abs_tol cfg) = true \/
  n_lt N (n_div N (norm N rsum r) (if n_lt N (norm N rsum b) (n_eps N) then n_eps N else norm N rsum b)) (k_rel_tol cfg) = true.
(** [b - A x] *)
Definition residual_of {V} (N : num V) (A : list V -> list V) (b x : list V) : list V := map2 (n_sub N) b (A x).
