(** Parameter derivatives of the eager model: eager/Model.cpp:261-289 with _model.py:407-474 and models/param_ad.py:92-360.
    Definitions only.

    Reverse-mode autograd is a function: the model in Python, run with tensors that track gradients in place of its parameters,
    returns for each output its value and, where the output depends on any of them, what [torch.autograd.grad] gives for a
    cotangent.  Simplifications: a parameter ends in the base shape of its type; a call differentiates with respect to all
    parameters of the model (_model.py:163-175 [_param_names]); all tensors have one dtype. *)
From Verif Require Import Base Tensor Broadcast Pack Implicit Jac EagerModel.
Local Open Scope string_scope.
Local Open Scope list_scope.

Section EagerParam.
  Context {V : Type}.
  Notation vmap := (smap (tensor V)).
  Variables zero one : V.
  Variable add : V -> V -> V.

  (** An output of a run that tracks gradients.  [tr_grad] is [None] when the tensor has no [grad_fn]; else, for a cotangent, one
      gradient per leaf in their order, [None] for a leaf the output does not depend on ([allow_unused=True]). *)
  Record tracked := mkTr { tr_out : wrapper V; tr_grad : option (tensor V -> list (option (tensor V))) }.

  Variable m : emodel V.
  (** [model( *typed_inputs)] with the leaves in place of the parameters (param_ad.py:256, 341). *)
  Variable ad : vmap -> list (wrapper V) -> result (list tracked).

  (** param_ad.py:183-202 [_swapped_parameters]: the leaves are put in, one after the other; the tensors found are put back, also
      when the body raises. *)
  Fixpoint install (P : eparams V) (leaf : vmap) : eparams V :=
    match leaf with
    | [] => P
    | (q, t) :: r =>
        match lookup q P with
        | Some p => install (replace P q (mkEP t (ep_base p) (ep_sub p))) r
        | None => install P r
        end
    end.
  Definition saved_of (P : eparams V) (leaf : vmap) : list (string * eparam V) :=
    flat_map (fun x => match lookup (fst x) P with Some p => [(fst x, p)] | None => [] end) leaf.
  Definition put_back (P : eparams V) (saved : list (string * eparam V)) : eparams V :=
    fold_left (fun P x => replace P (fst x) (snd x)) saved P.
  Definition with_swapped {X} (P : eparams V) (leaf : vmap) (body : eparams V -> result X) : eparams V * result X :=
    let Q := install P leaf in (put_back Q (saved_of P leaf), body Q).

  (** [param_base_shapes[q]] *)
  Definition param_base (p : eparam V) : list nat := skipn (dim (ep_val p) - ep_base p) (t_shape (ep_val p)).
  (** param_ad.py:127-155 [_expanded_leaf_params] *)
  Definition expanded_leaves (P : eparams V) (C : list nat) : result vmap :=
    mapM (fun x => let* t := expand (ep_val (snd x)) (C ++ param_base (snd x)) in Ok (fst x, t)) P.

  (** param_ad.py:270-274: the cotangent of component [k], flat over the batch, viewed at the shape of the output. *)
  Definition unit_row (n k : nat) : list V := map (fun i => if Nat.eqb i k then one else zero) (seq 0 n).
  Definition basis_seed (C : list nat) (n k : nat) (odata : tensor V) : result (tensor V) :=
    reshape (mkT (C ++ [n]) (flat_map (fun _ => unit_row n k) (seq 0 (numel C))) (t_dev odata)) (t_shape odata).
  (** [torch.autograd.grad] of a tensor without a graph *)
  Definition no_graph : exn := StdExn "RuntimeError: element 0 of tensors does not require grad and does not have a grad_fn".
  (** param_ad.py:282-283 [g if g is not None else torch.zeros_like(leaf[q])]; 357-360 likewise. *)
  Definition filled (leaf : vmap) (gs : list (option (tensor V))) : result (list (tensor V)) :=
    if Nat.eqb (length leaf) (length gs)
    then Ok (map (fun x => match snd x with Some g => g | None => zeros zero (t_shape (snd (fst x))) (t_dev (snd (fst x))) end) (combine leaf gs))
    else Err (StdExn "ValueError: zip() arguments of different lengths").
  (** param_ad.py:269-283: one pass per component, one list of gradients per pass. *)
  Definition passes (C : list nat) (n : nat) (leaf : vmap) (tr : tracked) : result (list (list (tensor V))) :=
    mapM (fun k => let* seed := basis_seed C n k (w_data (tr_out tr)) in
                   match tr_grad tr with
                   | None => Err no_graph
                   | Some g => filled leaf (g seed)
                   end) (seq 0 n).
  (** [torch.stack(ts, dim=k)] *)
  Definition stack (ts : list (tensor V)) (k : nat) : result (tensor V) :=
    match ts with
    | [] => Err (StdExn "RuntimeError: stack expects a non-empty TensorList")
    | t :: _ =>
        if Nat.ltb (dim t) k then Err (StdExn "IndexError: Dimension out of range")
        else if forallb (fun u => shape_eqb (t_shape u) (t_shape t) && device_eqb (t_dev u) (t_dev t)) ts then
          let outer := numel (firstn k (t_shape t)) in
          let inner := numel (skipn k (t_shape t)) in
          Ok (mkT (firstn k (t_shape t) ++ length ts :: skipn k (t_shape t))
                  (flat_map (fun b => flat_map (fun u => row_data inner b (t_data u)) ts) (seq 0 outer)) (t_dev t))
        else Err (StdExn "RuntimeError: stack expects each tensor to be equal size")
    end.
  (** The [i]-th gradient of every pass: [cols[q]]. *)
  Definition column (i : nat) (ps : list (list (tensor V))) : list (tensor V) :=
    flat_map (fun gs => match nth_error gs i with Some g => [g] | None => [] end) ps.
  (** param_ad.py:285-291 *)
  Definition param_row (P : eparams V) (C ob : list nat) (ps : list (list (tensor V))) : result vmap :=
    mapM (fun ix => let* s := stack (column (fst ix) ps) (length C) in
                    let* b := reshape s (C ++ ob ++ param_base (snd (snd ix))) in
                    Ok (fst (snd ix), b)) (combine (seq 0 (length P)) P).
  Definition param_rows (P : eparams V) (C : list nat) (leaf : vmap) (trs : list tracked) : result (smap vmap) :=
    if Nat.eqb (length (em_outs m)) (length trs)
    then mapM (fun x => let* ps := passes C (numel (snd (fst x))) leaf (snd x) in
                        let* row := param_row P C (snd (fst x)) ps in
                        Ok (fst (fst x), row)) (combine (em_outs m) trs)
    else Err (StdExn "ValueError: zip() arguments of different lengths").
  (** param_ad.py:205-292 [param_jacobian] *)
  Definition ad_param_jacobian (P : eparams V) (args : list (wrapper V)) : eparams V * result (smap vmap) :=
    match P with
    | [] => (P, Ok (map (fun o => (fst o, [])) (em_outs m)))
    | _ =>
        match (let* C := call_batch P (em_ins m) args in let* leaf := expanded_leaves P C in Ok (C, leaf)) with
        | Err e => (P, Err e)
        | Ok (C, leaf) => with_swapped P leaf (fun Q => let* trs := ad (values Q) args in param_rows P C leaf trs)
        end
    end.
  (** _model.py:407-443 [param_jacobian] *)
  Definition adapter_param_jacobian (P : eparams V) (I : vmap) : eparams V * result (vmap * smap vmap) :=
    match (let* args := typed_args m I in let* (outs, _) := eval m P args None in Ok (args, outs)) with
    | Err e => (P, Err e)
    | Ok (args, outs) => let (P', j) := ad_param_jacobian P args in (P', let* j := j in Ok (unwrap m outs, j))
    end.

  (** param_ad.py:344-349: the cotangent that [(out * w).sum()] hands to the output.  Simplification: a [w] that does not
      broadcast to the shape of the output (it may have more axes) is not modelled: [OtherExn 1]. *)
  Definition term_seed (W : vmap) (o : string) (odata : tensor V) : result (tensor V) :=
    match lookup o W with
    | None => Err (StdExn ("KeyError: " ++ o))
    | Some w =>
        if device_eqb (t_dev w) (t_dev odata) then
          let* s := infer_size (t_shape odata) (t_shape w) in
          if shape_eqb s (t_shape odata) then expand w (t_shape odata) else Err (OtherExn 1)
        else Err (StdExn "RuntimeError: Expected all tensors to be on the same device")
    end.
  (** The gradient of a sum: the gradients of the terms added up. *)
  Definition merge (a b : option (tensor V)) : result (option (tensor V)) :=
    match a, b with
    | Some x, Some y => let* s := zip_same add x y in Ok (Some s)
    | Some x, None => Ok (Some x)
    | None, _ => Ok b
    end.
  Fixpoint accumulate (acc : list (option (tensor V))) (l : list (tracked * tensor V)) : result (list (option (tensor V))) :=
    match l with
    | [] => Ok acc
    | (tr, w) :: r =>
        match tr_grad tr with
        | None => accumulate acc r
        | Some g => let* acc := mapM (fun x => merge (fst x) (snd x)) (combine acc (g w)) in accumulate acc r
        end
    end.
  Definition loss_grad (n : nat) (l : list (tracked * tensor V)) : result (list (option (tensor V))) :=
    if existsb (fun x => match tr_grad (fst x) with Some _ => true | None => false end) l
    then accumulate (repeat None n) l else Err no_graph.
  (** param_ad.py:295-360 [param_vjp] *)
  Definition param_adjoint (leaf : vmap) (W : vmap) (trs : list tracked) : result vmap :=
    if Nat.eqb (length (em_outs m)) (length trs) then
      let* terms := mapM (fun x => let* w := term_seed W (fst (fst x)) (w_data (tr_out (snd x))) in Ok (snd x, w)) (combine (em_outs m) trs) in
      let* gs := loss_grad (length leaf) terms in
      let* gs := filled leaf gs in
      Ok (combine (map fst leaf) gs)
    else Err (StdExn "ValueError: zip() arguments of different lengths").
  Definition ad_param_vjp (P : eparams V) (args : list (wrapper V)) (W : vmap) : eparams V * result vmap :=
    match P with
    | [] => (P, Ok [])
    | _ => let leaf := values P in with_swapped P leaf (fun Q => let* trs := ad (values Q) args in param_adjoint leaf W trs)
    end.
  (** _model.py:445-474 [param_vjp] *)
  Definition adapter_param_vjp (P : eparams V) (I W : vmap) : eparams V * result vmap :=
    match (let* args := typed_args m I in let* _ := eval m P args None in Ok args) with
    | Err e => (P, Err e)
    | Ok args => ad_param_vjp P args W
    end.

  (** Model.cpp:261-275 *)
  Definition eager_param_jacobian (P : eparams V) (I : vmap) : eparams V * result (vmap * smap vmap) :=
    let (P', r) := adapter_param_jacobian P I in
    (P', guarded "param_jacobian" (let* (o, j) := r in Ok (cast_map o, cast_map (map (fun x => (fst x, cast_map (snd x))) j)))).
  (** Model.cpp:277-289 *)
  Definition eager_param_vjp (P : eparams V) (I W : vmap) : eparams V * result vmap :=
    let (P', r) := adapter_param_vjp P I W in (P', guarded "param_vjp" (let* g := r in Ok (cast_map g))).
End EagerParam.
Arguments tracked V : clear implicits.
