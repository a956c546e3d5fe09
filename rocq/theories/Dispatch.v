(** dispatchers/DispatchedModel.cpp: the synchronous path and the pieces shared
    with the asynchronous one.  Definitions only. *)
From Verif Require Import Base Tensor BatchChunk.

(** [static_cast<int64_t>(n)] of a [std::size_t] on the supported platforms
    (two's complement, 64 bit). *)
Definition to_int64 (n : Z) : Z :=
  let m := (n mod 2 ^ 64)%Z in
  if (m <? 2 ^ 63)%Z then m else (m - 2 ^ 64)%Z.

(** DispatchedModel.cpp:390-396 [chunk_extent]; [n] is [_sync->batch_size()]. *)
Definition chunk_extent (n b : Z) : Z :=
  if (n =? 0)%Z || (b <=? to_int64 n)%Z then b else to_int64 n.

(** A loop either ends (with a value or an exception) or is still running when
    the given number of iterations is used up.  [Unfinished] is never a value
    of the C++ function; theorems exclude it. *)
Inductive loop_result (A : Type) : Type :=
| Done (r : result A)
| Unfinished.
Arguments Done {A} r.
Arguments Unfinished {A}.

(** DispatchedModel.cpp:121-122 (and 153-154, 193-194, 249-250, 312-313):
    [for (int64_t s = 0; s < b; s += chunk)
       results.push_back(chunk_fn(dev, s, std::min(chunk, b - s)))].
    [s += chunk] is exact in Z; it cannot overflow int64 for b < 2^62. *)
Fixpoint sync_loop {R} (fuel : nat) (chunk_fn : Z -> Z -> result R) (chunk b s : Z)
  : loop_result (list R) :=
  if (s <? b)%Z then
    match fuel with
    | O => Unfinished
    | S fuel' =>
        match chunk_fn s (Z.min chunk (b - s)) with
        | Err e => Done (Err e)
        | Ok r =>
            match sync_loop fuel' chunk_fn chunk b (s + chunk)%Z with
            | Unfinished => Unfinished
            | Done (Err e) => Done (Err e)
            | Done (Ok rs) => Done (Ok (r :: rs))
            end
        end
    end
  else Done (Ok []).

(** The loop as run by one synchronous call; [b] iterations always suffice. *)
Definition sync_chunks {R} (n b : Z) (chunk_fn : Z -> Z -> result R) : loop_result (list R) :=
  sync_loop (Z.to_nat b) chunk_fn (chunk_extent n b) b 0.

Definition lbind {A B} (x : loop_result A) (f : A -> result B) : loop_result B :=
  match x with
  | Unfinished => Unfinished
  | Done (Err e) => Done (Err e)
  | Done (Ok a) => Done (f a)
  end.

Section Dispatch.
  Context {V : Type}.
  Notation tens := (tensor V).
  Notation vmap := (smap (tensor V)).
  Notation nmap := (smap (smap (tensor V))).

  (** Declared layout of the active Model: rank of each output's, input's and
      promoted parameter's base shape ([output_base_shapes()],
      [input_base_shapes()], [parameter_base_shapes()]). *)
  Record layout : Type := mkLayout
    { l_out : smap nat; l_in : smap nat; l_param : smap nat }.

  (** Dispatcher state used by an evaluation (DispatchedModel.cpp:665-673):
      layout, primary device [_active->device()], and per device the
      [named_parameters()] of its Model. *)
  Record disp : Type := mkDisp
    { dp_layout : layout; dp_active : device; dp_stores : list (device * vmap) }.

  Fixpoint store_of (d : device) (l : list (device * vmap)) : option vmap :=
    match l with
    | [] => None
    | (d', p) :: l' => if device_eqb d d' then Some p else store_of d l'
    end.

  (** [_models.at(d.str())]. *)
  Definition model_at (D : disp) (d : device) : result vmap :=
    match store_of d (dp_stores D) with
    | Some p => Ok p
    | None => Err (StdExn "map::at")
    end.

  (** Parameter values an evaluation sees: the override when there is one, the
      stored value otherwise (Model.cpp:879-899 [_resolve_param], aliases aside,
      see Rename.v). *)
  Definition effective (store ov : vmap) : vmap :=
    map (fun kt => (fst kt, match lookup (fst kt) ov with
                            | Some t => t
                            | None => snd kt
                            end)) store.

  Definition base_nd (nds : smap nat) (q : string) : nat :=
    match lookup q nds with Some n => n | None => 0 end.

  (** DispatchedModel.cpp:457: [t.dim() - base_ndim < 1 || t.size(0) != b]
      negated. *)
  Definition param_batched (nds : smap nat) (b : Z) (q : string) (t : tens) : bool :=
    negb ((Z.of_nat (dim t) - Z.of_nat (base_nd nds q) <? 1)%Z
          || negb (Z.of_nat (lead t) =? b)%Z).

  (** DispatchedModel.cpp:444-463 [chunk_param_overrides]. *)
  Fixpoint chunk_param_overrides (nds : smap nat) (params : vmap) (s cnt b : Z) (d : device)
    : result vmap :=
    match params with
    | [] => Ok []
    | (q, t) :: rest =>
        if param_batched nds b q t then
          let* sl := narrow0 t s cnt in
          let* r := chunk_param_overrides nds rest s cnt b d in
          Ok ((q, move d sl) :: r)
        else chunk_param_overrides nds rest s cnt b d
    end.

  (** The compiled per-device Models, as functions of the device, the effective
      parameters and the call's arguments.  Arbitrary. *)
  Variable fwd : device -> vmap -> vmap -> result vmap.
  Variable jvp : device -> vmap -> vmap -> vmap -> result (vmap * vmap).
  Variable jac : device -> vmap -> vmap -> result (vmap * nmap).
  Variable pjac : device -> vmap -> vmap -> result (vmap * nmap).
  Variable pvjp : device -> vmap -> vmap -> vmap -> result vmap.
  (** Element addition, for the adjoint stitch. *)
  Variable add : V -> V -> V.

  Section Chunks.
    Variable D : disp.
    Variable in_dev : device.
    Variable b : Z.

    Definition master : result vmap := model_at D (dp_active D).

    Definition overrides_for (d : device) (s cnt : Z) : result vmap :=
      let* p := master in chunk_param_overrides (l_param (dp_layout D)) p s cnt b d.

    (** DispatchedModel.cpp:106-111. *)
    Definition chunk_forward (inputs : vmap) (d : device) (s cnt : Z) : result vmap :=
      let* sl := slice_batch inputs s cnt in
      let* ov := overrides_for d s cnt in
      let* st := model_at D d in
      let* out := fwd d (effective st ov) (to_device sl d) in
      Ok (to_device out in_dev).

    (** DispatchedModel.cpp:136-143. *)
    Definition chunk_jvp (inputs tangents : vmap) (d : device) (s cnt : Z)
      : result (vmap * vmap) :=
      let* sl := slice_batch inputs s cnt in
      let* tl := slice_batch tangents s cnt in
      let* ov := overrides_for d s cnt in
      let* st := model_at D d in
      let* (out, jout) := jvp d (effective st ov) (to_device sl d) (to_device tl d) in
      Ok (to_device out in_dev, to_device jout in_dev).

    (** DispatchedModel.cpp:177-183; 233-239 with [pjac]. *)
    Definition chunk_jacobian (j : device -> vmap -> vmap -> result (vmap * nmap))
               (inputs : vmap) (d : device) (s cnt : Z) : result (vmap * nmap) :=
      let* sl := slice_batch inputs s cnt in
      let* ov := overrides_for d s cnt in
      let* st := model_at D d in
      let* (out, jb) := j d (effective st ov) (to_device sl d) in
      Ok (to_device out in_dev, to_device_nested jb in_dev).

    (** DispatchedModel.cpp:292-302. *)
    Definition chunk_param_vjp (inputs cotangents : vmap) (d : device) (s cnt : Z)
      : result vmap :=
      let* sl := slice_batch inputs s cnt in
      let* cl := slice_batch cotangents s cnt in
      let* ov := overrides_for d s cnt in
      let* st := model_at D d in
      let* g := pvjp d (effective st ov) (to_device sl d) (to_device cl d) in
      Ok (to_device g in_dev).

    (** DispatchedModel.cpp:157-165. *)
    Definition gather_jvp (chunks : list (vmap * vmap)) : result (vmap * vmap) :=
      let* o := cat_batch (map fst chunks) in
      let* j := cat_batch (map snd chunks) in
      Ok (o, j).

    (** DispatchedModel.cpp:197-221; 253-280 with the parameter base ranks. *)
    Definition gather_jacobian (col_nd : smap nat) (chunks : list (vmap * nmap))
      : result (vmap * nmap) :=
      let* o := cat_batch (map fst chunks) in
      let* j := cat_batch_nested (map snd chunks) (l_out (dp_layout D)) col_nd in
      Ok (o, j).

    (** DispatchedModel.cpp:344-347: [acc = acc + parts[k]], left to right.
        Equal shapes only; torch would broadcast otherwise. *)
    Fixpoint sum_parts (acc : tens) (parts : list tens) : result tens :=
      match parts with
      | [] => Ok acc
      | p :: ps => let* a := zip_same add acc p in sum_parts a ps
      end.

    (** DispatchedModel.cpp:329-348: one parameter of the adjoint stitch. *)
    Definition stitch_one (params : vmap) (chunks : list vmap) (q : string) : result tens :=
      let batched := match lookup q params with
                     | Some t => param_batched (l_param (dp_layout D)) b q t
                     | None => false
                     end in
      let* parts := mapM (fun c => match lookup q c with
                                   | Some t => Ok t
                                   | None => Err (Fatal "param_vjp: key missing from a chunk.")
                                   end) chunks in
      if batched then cat0 parts
      else match parts with
           | [] => Err (StdExn "front() of an empty vector")
           | p :: ps => sum_parts p ps
           end.

    (** DispatchedModel.cpp:319-350. *)
    Definition gather_param_vjp (chunks : list vmap) : result vmap :=
      match chunks with
      | [] => Err (Fatal "DispatchedModel::param_vjp: no chunks produced.")
      | [c] => Ok c
      | c :: _ =>
          let* params := master in
          mapM (fun kt => let* t := stitch_one params chunks (fst kt) in Ok (fst kt, t)) c
      end.
  End Chunks.

  (** [inputs.begin()->second.device()] after [_assert(!inputs.empty())]. *)
  Definition input_device (inputs : vmap) : result device :=
    match inputs with
    | [] => Err (Fatal "DispatchedModel: inputs are empty.")
    | (_, t) :: _ => Ok (t_dev t)
    end.

  (** The shape shared by the five synchronous operations
      (DispatchedModel.cpp:97-124, 126-166, 168-222, 224-281, 283-351):
      fast path when one chunk covers the batch and the Model already lives on
      the inputs' device, chunk loop plus gather otherwise. *)
  Definition sync_op {R} (n : Z) (D : disp) (inputs : vmap)
             (direct : vmap -> result R)
             (chunk_fn : device -> Z -> device -> Z -> Z -> result R)
             (gather : Z -> list R -> result R) : loop_result R :=
    match input_device inputs with
    | Err e => Done (Err e)
    | Ok in_dev =>
        let b := infer_batch_size inputs in
        let chunk := chunk_extent n b in
        if (b <=? chunk)%Z && device_eqb (dp_active D) in_dev
        then Done (let* st := model_at D (dp_active D) in direct st)
        else lbind (sync_chunks n b (chunk_fn in_dev b (dp_active D))) (gather b)
    end.

  (** DispatchedModel.cpp:97-124 [forward], synchronous branch.  The scheduler
      reports batch size [n]; parameters are synced (single device: nothing to
      copy, see Params.v for [sync_params]). *)
  Definition sync_forward (n : Z) (D : disp) (inputs : vmap) : loop_result vmap :=
    sync_op n D inputs
            (fun st => fwd (dp_active D) (effective st []) inputs)
            (fun in_dev b d s c => chunk_forward D in_dev b inputs d s c)
            (fun _ => cat_batch).

  (** DispatchedModel.cpp:126-166 [jvp], synchronous branch. *)
  Definition sync_jvp (n : Z) (D : disp) (inputs tangents : vmap) : loop_result (vmap * vmap) :=
    sync_op n D inputs
            (fun st => jvp (dp_active D) (effective st []) inputs tangents)
            (fun in_dev b d s c => chunk_jvp D in_dev b inputs tangents d s c)
            (fun _ => gather_jvp).

  (** DispatchedModel.cpp:168-222 [jacobian], synchronous branch. *)
  Definition sync_jacobian (n : Z) (D : disp) (inputs : vmap) : loop_result (vmap * nmap) :=
    sync_op n D inputs
            (fun st => jac (dp_active D) (effective st []) inputs)
            (fun in_dev b d s c => chunk_jacobian D in_dev b jac inputs d s c)
            (fun _ => gather_jacobian D (l_in (dp_layout D))).

  (** DispatchedModel.cpp:224-281 [param_jacobian], synchronous branch. *)
  Definition sync_param_jacobian (n : Z) (D : disp) (inputs : vmap) : loop_result (vmap * nmap) :=
    sync_op n D inputs
            (fun st => pjac (dp_active D) (effective st []) inputs)
            (fun in_dev b d s c => chunk_jacobian D in_dev b pjac inputs d s c)
            (fun _ => gather_jacobian D (l_param (dp_layout D))).

  (** DispatchedModel.cpp:283-351 [param_vjp], synchronous branch. *)
  Definition sync_param_vjp (n : Z) (D : disp) (inputs cotangents : vmap) : loop_result vmap :=
    sync_op n D inputs
            (fun st => pvjp (dp_active D) (effective st []) inputs cotangents)
            (fun in_dev b d s c => chunk_param_vjp D in_dev b inputs cotangents d s c)
            (fun b => gather_param_vjp D b).
End Dispatch.
Arguments disp V : clear implicits.
Arguments mkDisp {V}.
