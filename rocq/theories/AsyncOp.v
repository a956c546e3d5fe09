(** The public operations of a dispatcher with an asynchronous scheduler:
    dispatchers/DispatchedModel.cpp:97-351, the [_async != nullptr] branches.
    Definitions only.  [o] is what run_async (Async.v) ended with; the operation
    gathers the chunk results.  A [None] slot is a default constructed result. *)
From Verif Require Import Base Tensor BatchChunk Dispatch Async.

Section AsyncOp.
  Context {V : Type}.
  Notation tens := (tensor V).
  Notation vmap := (smap tens).
  Notation nmap := (smap vmap).
  Notation disp := (disp V).

  (** 99-102 (and 129-132, 170-173, 226-229, 286-289): the batch size and the chunk
      function run_async is given. *)
  Definition async_start {R} (chunk_fn : device -> Z -> device -> Z -> Z -> result R)
             (inputs : vmap) : result (Z * (device -> Z -> Z -> result R)) :=
    let* in_dev := input_device inputs in
    let b := infer_batch_size inputs in
    Ok (b, chunk_fn in_dev b).

  Definition async_op {R} (dflt : R) (gather : list R -> result R)
             (o : result (list (option R))) : result R :=
    let* rs := o in
    gather (map (fun x => match x with Some r => r | None => dflt end) rs).

  (** 113-114 *)
  Definition async_forward (o : result (list (option vmap))) : result vmap :=
    async_op [] cat_batch o.
  (** 146-147, 157-165 *)
  Definition async_jvp (o : result (list (option (vmap * vmap)))) : result (vmap * vmap) :=
    async_op ([], []) gather_jvp o.
  (** 186-187, 197-221 *)
  Definition async_jacobian (D : disp) (o : result (list (option (vmap * nmap))))
    : result (vmap * nmap) :=
    async_op ([], []) (gather_jacobian D (l_in (dp_layout D))) o.
  (** 242-243, 253-280 *)
  Definition async_param_jacobian (D : disp) (o : result (list (option (vmap * nmap))))
    : result (vmap * nmap) :=
    async_op ([], []) (gather_jacobian D (l_param (dp_layout D))) o.
  (** 305-306, 316-350 *)
  Definition async_param_vjp (add : V -> V -> V) (D : disp) (b : Z)
             (o : result (list (option vmap))) : result vmap :=
    async_op [] (gather_param_vjp add D b) o.
End AsyncOp.
