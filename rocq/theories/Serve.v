(** A loaded model serving calls: the DispatchedModel that load_model() returns (Bundle.v), the parameters of its Models
    (Params.v) and its forward() (dispatchers/DispatchedModel.cpp:96-124).  Definitions only.

    The packages of a device are given by [graph], what the package of that file name computes there. *)
From Coq Require Import String.
From Verif Require Import Load.
From Verif Require Import Base Tensor Float BatchChunk Dispatch Params Async AsyncOp Rename Substep Mat Jac Runtime Bundle.
Local Open Scope string_scope.
Local Open Scope list_scope.

(** internal.h:149-153 [named_parameters] *)
Definition params_of (m : loaded F) : smap (tensor F) := vmap_ snd (ld_named m).
(** The Model with other values in that map (Model.cpp:1061-1072; DispatchedModel.cpp:430).  The scalar types beside the values
    are not used after loading. *)
Definition with_params (m : loaded F) (P : smap (tensor F)) : loaded F :=
  mkLd (ld_tables m) (ld_inputs m) (ld_offsets m) (ld_total m) (ld_outputs m) (ld_derivs m) (ld_pderivs m)
       (vmap_ (fun t => ("", t)) P) (ld_bases m) (ld_cfg m) (ld_solver m) (ld_krylov m) (ld_segs m).
(** Model.cpp:522-527, internal.h:158-161 [parameter_base_shapes], their ranks *)
Definition param_bases (m : loaded F) : smap nat :=
  vmap_ (@length Z) (if has_aliases (ld_tables m)
                     then fold_left (fun out kb => set_ (translate (param_o2e (ld_tables m)) (fst kb)) (snd kb) out) (ld_bases m) []
                     else ld_bases m).

Section Serve.
  Context {C : Type}.
  Variable fsum rsum : list F -> F.
  Variable edot : list F -> list F -> F.
  Variable tri : list (list F) -> list F -> list F.
  Variable A : arith F.
  Variable graph : device -> string -> list (tensor F) -> result (list (tensor F)).
  Variable capture : bool.                      (* capture_solve_failure_enabled() *)
  Variable D : dispatched (V:=F) (C:=C).

  (** Model.cpp:958-970: forward() of the Model [m] on the device [d], which holds the parameters [P], with the overrides of
      the call. *)
  Definition call_model (m : loaded F) (d : device) (P : smap (tensor F)) (ov : option (smap (tensor F))) : smap (tensor F) -> result (smap (tensor F)) :=
    model_forward fsum rsum edot tri A (graph d) (with_params m P) capture ov.
  (** The same with the overrides put into the parameters, as Dispatch.v has it. *)
  Definition fwd_at (d : device) (P I : smap (tensor F)) : result (smap (tensor F)) :=
    match dm_model D d with Some m => call_model (md_loaded m) d P None I | None => Err (StdExn "map::at") end.

  (** DispatchedModel.cpp:45-69, 665-673: after construction. *)
  Definition fresh_of : pdisp :=
    mkPD (map (fun x => (fst x, params_of (md_loaded (snd x)))) (dm_models D)) (md_device (dm_active D)) false.
  (** What an evaluation uses.  forward() has no use for the base shapes of inputs and outputs. *)
  Definition disp_of (s : pdisp) : disp F := mkDisp (mkLayout [] [] (param_bases (md_loaded (dm_active D)))) (pd_active s) (pd_models s).

  (** DispatchedModel.cpp:96-124 with a synchronous scheduler of batch size [n]; the state afterwards and what is returned. *)
  Definition serve_forward (n : Z) (s : pdisp) (inputs : smap (tensor F)) : pdisp * loop_result (smap (tensor F)) :=
    match inputs with
    | [] => (s, Done (Err (Fatal "DispatchedModel::forward: inputs are empty.")))
    | _ => let (s', r) := sync_params s in
           match r with
           | Err e => (s', Done (Err e))
           | Ok _ => (s', sync_forward fwd_at n (disp_of s') inputs)
           end
    end.
  (** The same with an asynchronous one: the batch and the evaluation of its chunks, which the pool runs (AsyncOp.v). *)
  Definition serve_pool (s : pdisp) (inputs : smap (tensor F)) : pdisp * result (Z * (device -> Z -> Z -> result (smap (tensor F)))) :=
    match inputs with
    | [] => (s, Err (Fatal "DispatchedModel::forward: inputs are empty."))
    | _ => let (s', r) := sync_params s in
           match r with
           | Err e => (s', Err e)
           | Ok _ => (s', async_start (fun in_dev b => chunk_forward fwd_at (disp_of s') in_dev b inputs) inputs)
           end
    end.
End Serve.
