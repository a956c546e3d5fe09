(** Specification vocabulary for the MPI scheduler. *)
From Verif Require Import Base Tensor.

(** How many of the ranks [0 .. m-1] were given device [j]. *)
Definition ranks_on (assign : nat -> option nat) (m j : nat) : nat :=
  length (filter (fun r => match assign r with Some i => Nat.eqb i j | None => false end) (seq 0 m)).

(** Two device names that may denote one physical device: both the CPU, or two CUDA
    devices of which one is unpinned or with equal indices. *)
Definition may_alias (x y : device) : Prop :=
  (d_type x = "cpu"%string /\ d_type y = "cpu"%string) \/
  (d_type x = "cuda"%string /\ d_type y = "cuda"%string /\
   (d_index x = -1 \/ d_index y = -1 \/ d_index x = d_index y)%Z).

Definition supported (d : device) : Prop := d_type d = "cpu"%string \/ d_type d = "cuda"%string.

(** No two entries may denote one device. *)
Inductive pairwise_distinct : list device -> Prop :=
| pd_nil : pairwise_distinct []
| pd_cons d l : (forall e, In e l -> ~ may_alias d e) -> pairwise_distinct l -> pairwise_distinct (d :: l).

(** The ranks on the same host as rank [r], in order. *)
Definition node_of (hosts : list string) (host : string) : list nat :=
  filter (fun r => match nth_error hosts r with Some h => String.eqb h host | None => false end)
         (seq 0 (length hosts)).

(** How many ranks of one node were given device [j]. *)
Definition node_load (assign : nat -> option nat) (hosts : list string) (host : string) (j : nat) : nat :=
  length (filter (fun r => match assign r with Some i => Nat.eqb i j | None => false end)
                 (node_of hosts host)).

(** A result as an option. *)
Definition given {A} (x : result A) : option A := match x with Ok a => Some a | Err _ => None end.
