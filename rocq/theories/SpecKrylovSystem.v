(** Vocabulary of the properties of the Krylov step: group tensors, cache policy. *)
From Verif Require Import Base Tensor Broadcast SpecBroadcast Newton Krylov SpecKrylov KrylovSystem.

(** Dense groups over one batch. *)
Definition dense_groups {V} (dyn : list nat) (d : device) (ts : list (tensor V)) (ws : list nat) : Prop :=
  Forall2 (fun t w => wf t /\ t_dev t = d /\ t_shape t = dyn ++ [w]) ts ws.
Definition all_dense (l : list glayout) : Prop := Forall (fun g => gl_structure g <> "block"%string) l.
Definition sum_of (ws : list nat) : nat := fold_right Nat.add 0 ws.

(** The points at which a step built a preconditioner, its linear solves, whether it came that far. *)
Definition setups {V} (l : list (sys_call (V:=V))) : list (list (tensor V)) :=
  flat_map (fun c => match c with SSetup u => [u] | _ => [] end) l.
Definition reached {V} (l : list (sys_call (V:=V))) : Prop :=
  (exists u, In (SSetup u) l) \/ (exists p cs k, In (SSolve p cs k) l).
(** The iteration counts reported by the linear solves of a run. *)
Definition counts {V} (l : list (sys_call (V:=V))) : list Z :=
  flat_map (fun c => match c with SSolve _ _ (Ok k) => [Z.of_nat k] | _ => [] end) l.

(** The cache policy: is the preconditioner built at step [i], given the iteration counts of the steps before? *)
Definition rebuilt (c : cache_strategy) (bar : Z) (iters : list Z) (i : nat) : Prop :=
  match c with
  | CacheNone => True
  | Chord => i = 0
  | MaxLinearIters => i = 0 \/ exists j k, i = S j /\ nth_error iters j = Some k /\ (bar < k)%Z
  end.
(** [j] is the last step up to [i] that built one. *)
Definition last_rebuilt (c : cache_strategy) (bar : Z) (iters : list Z) (i j : nat) : Prop :=
  j <= i /\ rebuilt c bar iters j /\ forall k, j < k <= i -> ~ rebuilt c bar iters k.

(** The systems of a dense solve: [A] holds [P] matrices of [n] rows and columns, [B] for each of them [m] right-hand
    sides (as columns); both row-major.  [rhs B n m i j] is column [j] of system [i]. *)
Definition matrix_of {V} (d : list V) (n i : nat) (a : list (list V)) : Prop :=
  length a = n /\ Forall (fun r => length r = n) a /\
  forall r row c, nth_error a r = Some row -> c < n -> nth_error row c = nth_error d ((i * n + r) * n + c).
Definition column_of {V} (d : list V) (n m i j : nat) (v : list V) : Prop :=
  length v = n /\ forall r, r < n -> nth_error v r = nth_error d ((i * n + r) * m + j).
(** A matrix applied to a vector: a contraction per row. *)
Definition apply_matrix {V} (edot : list V -> list V -> V) (a : list (list V)) (v : list V) : list V :=
  map (fun row => edot row v) a.
(** The contraction is linear in its second argument. *)
Definition linear_dot {V} (N : num V) (n : nat) (edot : list V -> list V -> V) : Prop :=
  forall a, length a = n ->
  (forall x y, length x = n -> length y = n -> edot a (map2 (n_add N) x y) = n_add N (edot a x) (edot a y)) /\
  (forall c x, length x = n -> edot a (map (n_mul N c) x) = n_mul N c (edot a x)).
