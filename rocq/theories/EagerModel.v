(** The eager model: eager/Model.cpp:118-301 and the Python adapter behind it (neml2/eager/_model.py,
    neml2/types/_boundary.py).  Definitions only.

    The model in Python ([ComposedModel]) is a function of the values of its parameters, of the typed arguments and, where
    derivatives are asked for, of the seeds of its chain rule.  Simplifications: the starting of the interpreter and the GIL are
    in Interp.v (C64); param_jacobian() and param_vjp() (reverse-mode autograd) are in EagerParam.v; all tensors have the dtype of
    the model (the check that they do is left out, like the casting of a new parameter value). *)
From Verif Require Import Base Tensor Broadcast Pack Implicit Jac.
Local Open Scope string_scope.
Local Open Scope list_scope.

Section EagerModel.
  Context {V : Type}.
  Notation vmap := (smap (tensor V)).
  Variables zero one : V.
  Variable add : V -> V -> V.

  (** types/_base.py:244-283: a tensor with the number of its sub-batch axes and of its leading seed axes. *)
  Record wrapper := mkW { w_data : tensor V; w_sub : nat; w_k : nat }.
  (** [ChainRuleDict]: by variable, by seed.  Python dicts keep the order of insertion. *)
  Definition chain : Type := smap (smap wrapper).
  (** A parameter: its value, how many base axes its type has, how many sub-batch axes its owner has recorded for it. *)
  Record eparam := mkEP { ep_val : tensor V; ep_base : nat; ep_sub : nat }.
  (** _model.py:118-175: [input_spec] and [output_spec] (names with base shapes), [_device], [_typed_params], [_model]. *)
  Record emodel := mkEM {
    em_ins : list (string * list nat); em_outs : list (string * list nat); em_dev : device;
    em_native : smap (tensor V) -> list wrapper -> option chain -> result (list wrapper * chain)
  }.
  Definition eparams : Type := smap eparam.
  Definition values (P : eparams) : smap (tensor V) := map (fun x => (fst x, ep_val (snd x))) P.

  Variable m : emodel.

  (** ** types/_boundary.py, inbound *)
  (** _boundary.py:57-97 [check_tensor]; no index ([None]) is -1. *)
  Definition same_device (d target : device) : bool :=
    String.eqb (d_type d) (d_type target) && (Z.eqb (d_index target) (-1) || Z.eqb (d_index d) (d_index target)).
  Definition check_tensor (t : tensor V) : result unit :=
    if same_device (t_dev t) (em_dev m) then Ok tt else Err (StdExn "TypeError: EagerModel: device").
  (** _model.py:193-206 [_check_canonical] *)
  Definition check_canonical (base : list nat) (t : tensor V) : result unit :=
    if Nat.ltb (dim t) (length base) || negb (shape_eqb (skipn (dim t - length base) (t_shape t)) base)
    then Err (StdExn "ValueError: EagerModel: non-canonical shape") else Ok tt.
  (** [torch.broadcast_shapes] *)
  Fixpoint broadcast_shapes (d : list nat) (ds : list (list nat)) : result (list nat) :=
    match ds with
    | [] => Ok d
    | s :: r => let* d := infer_size d s in broadcast_shapes d r
    end.
  (** [t.batch_shape] of a tensor without seed axes (_base.py:403-406), [t.shape[:-trail]]. *)
  Definition batch_of (base : list nat) (t : tensor V) : list nat := firstn (dim t - length base) (t_shape t).
  (** _boundary.py:133-151: one input; without sub-batch axes. *)
  Definition lift (common : list nat) (base : list nat) (t : tensor V) : result (tensor V) :=
    if shape_eqb (t_shape t) (common ++ base) then Ok t else expand t (common ++ base).

  (** ** The adapter *)
  (** _model.py:208-237 [_typed_args] with _boundary.py:100-152 [broadcast_to_common_batch]. *)
  Definition typed_args (I : vmap) : result (list wrapper) :=
    if forallb (fun i => match lookup (fst i) I with Some _ => true | None => false end) (em_ins m) then
      let* raw := mapM (fun i => let* t := at_ (fst i) I in
                                 let* _ := check_tensor t in
                                 let* _ := check_canonical (snd i) t in
                                 Ok (snd i, t)) (em_ins m) in
      let* common := broadcast_shapes [] (map (fun x => batch_of (fst x) (snd x)) raw) in
      mapM (fun x => let* t := lift common (fst x) (snd x) in Ok (mkW t 0 0)) raw
    else Err (StdExn "KeyError: EagerModel: missing input(s)").

  (** _model.py:239-276 [_eval], [_reject_sub_batch]. *)
  Definition eval (P : eparams) (args : list wrapper) (v : option chain) : result (list wrapper * chain) :=
    let* (outs, v_out) := em_native m (values P) args v in
    if negb (Nat.eqb (length (em_outs m)) (length outs)) then Err (StdExn "ValueError: zip() arguments of different lengths")
    else if existsb (fun o => Nat.ltb 0 (w_sub o)) outs then Err (StdExn "NotImplementedError: EagerModel: sub-batch axes")
    else Ok (outs, v_out).

  (** _boundary.py:231-247 [unwrap_outputs] *)
  Definition unwrap (outs : list wrapper) : vmap := combine (map fst (em_outs m)) (map w_data outs).

  (** _model.py:278-288 [forward] *)
  Definition adapter_forward (P : eparams) (I : vmap) : result vmap :=
    let* args := typed_args I in
    let* (outs, _) := eval P args None in
    Ok (unwrap outs).

  (** _model.py:311-329: the seeds of the tangents given; [td.unsqueeze(0)]. *)
  Fixpoint tangent_seeds (common : list nat) (ins : list (string * list nat)) (T : vmap) : result chain :=
    match ins with
    | [] => Ok []
    | i :: r =>
        match lookup (fst i) T with
        | None => tangent_seeds common r T
        | Some td =>
            let* _ := check_tensor td in
            let* _ := check_canonical (snd i) td in
            let* td := expand td (common ++ snd i) in
            let* s := tangent_seeds common r T in
            Ok ((fst i, [(fst i, mkW (mkT (1 :: t_shape td) (t_data td) (t_dev td)) 0 0)]) :: s)
        end
    end.
  (** [t.squeeze(0)] *)
  Definition squeeze0 (t : tensor V) : tensor V :=
    match t_shape t with
    | 1 :: r => mkT r (t_data t) (t_dev t)
    | _ => t
    end.
  (** [torch.stack(blocks, 0).sum(0)]; the order of the additions is torch's, here from the left. *)
  Fixpoint sum_blocks (acc : tensor V) (l : list (tensor V)) : result (tensor V) :=
    match l with
    | [] => Ok acc
    | t :: r => let* a := zip_same add acc t in sum_blocks a r
    end.
  Definition contributions (v : chain) (o : string) : smap wrapper := match lookup o v with Some c => c | None => [] end.
  (** _boundary.py:250-278 [assemble_jvp_outputs] *)
  Definition assemble_jvp1 (v : chain) (o : string) (out : wrapper) : result (tensor V) :=
    match map (fun b => squeeze0 (w_data (snd b))) (contributions v o) with
    | [] => Ok (zeros zero (t_shape (w_data out)) (t_dev (w_data out)))
    | b :: r => sum_blocks b r
    end.
  Definition assemble_jvp (v : chain) (outs : list wrapper) : result vmap :=
    mapM (fun x => let* t := assemble_jvp1 v (fst x) (snd x) in Ok (fst x, t)) (combine (map fst (em_outs m)) outs).
  (** _model.py:290-334 [jvp] *)
  Definition adapter_jvp (P : eparams) (I T : vmap) : result (vmap * vmap) :=
    let* args := typed_args I in
    match em_ins m, args with
    | i0 :: _, a0 :: _ =>
        let* seeds := tangent_seeds (batch_of (snd i0) (w_data a0)) (em_ins m) T in
        let* (outs, v) := eval P args (Some seeds) in
        let* j := assemble_jvp v outs in
        Ok (unwrap outs, j)
    | _, _ => Err (StdExn "IndexError: tuple index out of range")
    end.

  (** models/param_ad.py:92-124 [call_batch_shape].  Simplification: a parameter has at least its base and sub-batch axes. *)
  Definition param_batch (p : eparam) : list nat := firstn (dim (ep_val p) - ep_base p - ep_sub p) (t_shape (ep_val p)).
  Definition call_batch (P : eparams) (ins : list (string * list nat)) (args : list wrapper) : result (list nat) :=
    broadcast_shapes [] (map (fun x => batch_of (snd (fst x)) (w_data (snd x))) (combine ins args) ++ map (fun p => param_batch (snd p)) P).
  (** cli/aoti_export.py:177-197 [_leading_k_identity_seed] *)
  Definition identity_seed (base C : list nat) (d : device) : result wrapper :=
    let n := numel base in
    let* e := reshape (eye zero one n d) (n :: repeat 1 (length C) ++ base) in
    let* e := expand e (n :: C ++ base) in
    Ok (mkW e 0 1).
  Definition identity_seeds (C : list nat) (args : list wrapper) : result chain :=
    mapM (fun x => let* w := identity_seed (snd (fst x)) C (t_dev (w_data (snd x))) in Ok (fst (fst x), [(fst (fst x), w)])) (combine (em_ins m) args).
  (** [t.movedim(0, -1)], [t.squeeze(-1)] *)
  Definition movedim0 (t : tensor V) : result (tensor V) :=
    match t_shape t with
    | [] => Err (StdExn "IndexError: movedim")
    | k :: r =>
        Ok (mkT (r ++ [k])
                (flat_map (fun j => flat_map (fun i => match nth_error (t_data t) (i * numel r + j) with Some x => [x] | None => [] end) (seq 0 k)) (seq 0 (numel r)))
                (t_dev t))
    end.
  Definition squeeze_last (t : tensor V) : tensor V :=
    if Nat.eqb (last (t_shape t) 0) 1 then mkT (removelast (t_shape t)) (t_data t) (t_dev t) else t.
  (** cli/aoti_export.py:214-237 [_leading_k_block_to_per_pair] *)
  Definition per_pair (in_base : list nat) (b : wrapper) : result (tensor V) :=
    let* moved := movedim0 (w_data b) in
    match in_base with
    | [] => Ok (squeeze_last moved)
    | _ => reshape moved (removelast (t_shape moved) ++ in_base)
    end.
  (** _boundary.py:281-322 [assemble_jacobian] *)
  Definition pair_of (v : chain) (B : list nat) (d : device) (o i : string * list nat) : result (tensor V) :=
    match lookup (fst i) (contributions v (fst o)) with
    | None => Ok (zeros zero (B ++ snd o ++ snd i) d)
    | Some b => per_pair (snd i) b
    end.
  Definition assemble_jacobian (v : chain) (outs : list wrapper) : result (smap vmap) :=
    match em_outs m, outs with
    | o0 :: _, w0 :: _ =>
        let B := batch_of (snd o0) (w_data w0) in
        mapM (fun o => let* row := mapM (fun i => let* t := pair_of v B (t_dev (w_data w0)) o i in Ok (fst i, t)) (em_ins m) in Ok (fst o, row)) (em_outs m)
    | _, _ => Err (StdExn "IndexError: tuple index out of range")
    end.
  (** _model.py:336-383 [jacobian] *)
  Definition adapter_jacobian (P : eparams) (I : vmap) : result (vmap * smap vmap) :=
    let* args := typed_args I in
    let* C := call_batch P (em_ins m) args in
    let* seeds := identity_seeds C args in
    let* (outs, v) := eval P args (Some seeds) in
    let* j := assemble_jacobian v outs in
    Ok (unwrap outs, j).

  (** _model.py:385-405 [named_parameters], [set_parameter]; models/model.py:1348-1387 [Model.set_parameter]. *)
  Definition set_value (p : eparam) (v : tensor V) : eparam :=
    let v := to_dev (t_dev (ep_val p)) v in
    let fresh := mkEP v (ep_base p) (ep_sub p) in
    match infer_size (t_shape v) (t_shape (ep_val p)) with
    | Ok s => if shape_eqb s (t_shape (ep_val p))
              then match expand v (t_shape (ep_val p)) with Ok u => mkEP u (ep_base p) (ep_sub p) | Err _ => fresh end
              else fresh
    | Err _ => fresh
    end.
  Fixpoint replace (P : eparams) (n : string) (p : eparam) : eparams :=
    match P with
    | [] => []
    | (k, q) :: r => if String.eqb k n then (k, p) :: r else (k, q) :: replace r n p
    end.
  Definition adapter_set_parameter (P : eparams) (n : string) (v : tensor V) : result eparams :=
    match lookup n P with
    | None => Err (StdExn "KeyError: set_parameter: not a registered parameter")
    | Some p => Ok (replace P n (set_value p v))
    end.

  (** ** eager/Model.cpp *)
  (** Model.cpp:69-102 [guarded]: what a Python exception becomes; the texts are in Bridge.v (C62). *)
  Definition guarded {X} (op : string) (r : result X) : result X :=
    match r with
    | Ok x => Ok x
    | Err (Convergence w) => Err (Convergence ("neml2::eager::Model::" ++ op ++ ": " ++ w))
    | Err (StdExn w) | Err (Fatal w) => Err (Fatal ("neml2::eager::Model::" ++ op ++ ": " ++ w))
    | Err (Aggregate _) | Err (OtherExn _) => Err (Fatal ("neml2::eager::Model::" ++ op ++ ": "))
    end.
  (** [out.cast<std::map<...>>()] *)
  Definition cast_map {X} (l : list (string * X)) : smap X := fold_left (fun acc x => set_ (fst x) (snd x) acc) l [].
  (** Model.cpp:193-204 *)
  Definition eager_forward (P : eparams) (I : vmap) : result vmap :=
    guarded "forward" (let* r := adapter_forward P I in Ok (cast_map r)).
  (** Model.cpp:206-219 *)
  Definition eager_jvp (P : eparams) (I T : vmap) : result (vmap * vmap) :=
    guarded "jvp" (let* (o, j) := adapter_jvp P I T in Ok (cast_map o, cast_map j)).
  (** Model.cpp:221-234 *)
  Definition eager_jacobian (P : eparams) (I : vmap) : result (vmap * smap vmap) :=
    guarded "jacobian" (let* (o, j) := adapter_jacobian P I in Ok (cast_map o, cast_map (map (fun x => (fst x, cast_map (snd x))) j))).
  (** Model.cpp:242-253 *)
  Definition eager_named_parameters (P : eparams) : vmap := cast_map (values P).
  (** Model.cpp:255-259 *)
  Definition eager_set_parameter (P : eparams) (n : string) (v : tensor V) : result eparams :=
    guarded "set_parameter" (adapter_set_parameter P n v).
End EagerModel.
Arguments wrapper V : clear implicits.
Arguments chain V : clear implicits.
Arguments eparam V : clear implicits.
Arguments eparams V : clear implicits.
Arguments emodel V : clear implicits.
