(** Vocabulary of the properties of a Krylov Newton step (C59). *)
From Verif Require Import Base Tensor Newton Krylov SpecKrylov KrylovSystem SpecKrylovSystem.

(** What the groups hold in row [i] of their batch, one group after the other. *)
Definition row_entries {V} (i : nat) (ts : list (tensor V)) : list V :=
  flat_map (fun t => let w := last (t_shape t) 0 in firstn w (skipn (i * w) (t_data t))) ts.

(** Where it returns, the operator on groups acts in every row of the batch on its own, by [A i]. *)
Definition row_operator {V} (dyn : list nat) (d : device) (uws rws : list nat) (A : nat -> list V -> list V)
           (f : list (tensor V) -> result (list (tensor V))) : Prop :=
  forall v jv, dense_groups dyn d v uws -> f v = Ok jv ->
    dense_groups dyn d jv rws /\ forall i, i < numel dyn -> row_entries i jv = A i (row_entries i v).
(** So does a preconditioner, on matrices of [rows] rows and [n] columns. *)
Definition row_precond {V} (rows n : nat) (d : device) (M : nat -> list V -> list V) (f : tensor V -> result (tensor V)) : Prop :=
  forall r z, wf r -> t_dev r = d -> t_shape r = [rows; n] -> f r = Ok z ->
    wf z /\ t_shape z = [rows; n] /\ forall i, i < rows -> row_entries i [z] = M i (row_entries i [r]).

(** The preconditioner of a system, set up as [p]; without one, rows are left as they are. *)
Definition precond_rows {V} (s : ksystem V) (rows n : nat) (d : device) (M : nat -> list V -> list V) (p : list (tensor V)) : Prop :=
  match ks_precond s with
  | None => forall i v, M i v = v
  | Some (_, apply) => row_precond rows n d M (apply p)
  end.

(** The linear solve of a step: its right-hand side and solution are the rows of [b] and [du]; its operator is [A i] on row [i],
    its preconditioner [M i]. *)
Definition solves_rows {V} (N : num V) rsum edot tri (cfg : kconfig V) (rows : nat) (A M : nat -> list V -> list V)
           (du b : list (tensor V)) (iters : nat) (calls : list (kcall V)) : Prop :=
  exists op pre res,
    krylov_solve N rsum edot tri op pre (map (fun i => row_entries i b) (seq 0 rows)) cfg = (Ok res, calls) /\
    (forall i, i < rows -> acts_on i (A i) op /\ acts_on i (M i) pre) /\
    kr_du res = map (fun i => row_entries i du) (seq 0 rows) /\ kr_iters res = iters.
