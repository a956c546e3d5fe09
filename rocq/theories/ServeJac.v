(** A loaded model serving derivatives: jvp(), jacobian(), param_jacobian() and param_vjp() of the DispatchedModel that
    load_model() returns (dispatchers/DispatchedModel.cpp:126-351).  Definitions only; as Serve.v. *)
From Coq Require Import String.
From Verif Require Import Load.
From Verif Require Import Base Tensor Float BatchChunk Dispatch Params Async AsyncOp Rename Substep Mat Jac JacModel ParamJac Runtime RuntimeParam Bundle Serve.
Local Open Scope string_scope.
Local Open Scope list_scope.

(** internal.h:133-140, Model.cpp:408-424: a name at the boundary. *)
Definition ext_name (m : loaded F) (tr : smap string) (n : string) : string := if has_aliases (ld_tables m) then translate tr n else n.
(** DispatchedModel.cpp:207-219, 263-270: the ranks of the base shapes by name at the boundary. *)
Definition out_ranks (m : loaded F) : smap nat := fold_left (fun r o => set_ (ext_name m (out_o2e (ld_tables m)) (op_name o)) (length (op_base o)) r) (ld_outputs m) [].
Definition in_ranks (m : loaded F) : smap nat := fold_left (fun r i => set_ (ext_name m (in_o2e (ld_tables m)) (ip_name i)) (length (ip_base i)) r) (ld_inputs m) [].

Section ServeJac.
  Context {C : Type}.
  Variable fsum rsum : list F -> F.
  Variable edot : list F -> list F -> F.
  Variable tri : list (list F) -> list F -> list F.
  Variable A : arith F.
  Variable neg : F -> F.
  Variable dot : list F -> list F -> F.
  Variable psum : list F -> F.
  Variable graph : device -> string -> list (tensor F) -> result (list (tensor F)).
  Variable capture : bool.
  Variable D : dispatched (V:=F) (C:=C).
  Notation vmap := (smap (tensor F)).

  (** Model.cpp:972-1041: the operations of the Model [m] on the device [d], which holds the parameters [P]. *)
  Definition call_jvp (m : loaded F) (d : device) (P : vmap) (ov : option vmap) : vmap -> vmap -> result (vmap * vmap) :=
    model_jvp fsum rsum edot tri A neg dot (graph d) (with_params m P) capture ov.
  Definition call_jacobian (m : loaded F) (d : device) (P : vmap) (ov : option vmap) : vmap -> result (vmap * smap vmap) :=
    model_jacobian fsum rsum edot tri A neg dot (graph d) (with_params m P) capture ov.
  Definition call_param_jacobian (m : loaded F) (d : device) (P : vmap) (ov : option vmap) : vmap -> result (vmap * smap vmap) :=
    model_param_jacobian fsum rsum edot tri A neg dot (graph d) (with_params m P) capture ov.
  Definition call_param_vjp (m : loaded F) (d : device) (P : vmap) (ov : option vmap) : vmap -> vmap -> result vmap :=
    model_param_vjp fsum rsum edot tri A neg dot psum (graph d) (with_params m P) capture ov.

  (** The same with the overrides put into the parameters, as Dispatch.v has it. *)
  Definition at_model {R} (d : device) (f : loaded F -> result R) : result R :=
    match dm_model D d with Some m => f (md_loaded m) | None => Err (StdExn "map::at") end.
  Definition jvp_at (d : device) (P I T : vmap) : result (vmap * vmap) := at_model d (fun m => call_jvp m d P None I T).
  Definition jacobian_at (d : device) (P I : vmap) : result (vmap * smap vmap) := at_model d (fun m => call_jacobian m d P None I).
  Definition param_jacobian_at (d : device) (P I : vmap) : result (vmap * smap vmap) := at_model d (fun m => call_param_jacobian m d P None I).
  Definition param_vjp_at (d : device) (P I W : vmap) : result vmap := at_model d (fun m => call_param_vjp m d P None I W).

  (** What an evaluation uses. *)
  Definition full_disp (s : pdisp) : disp F :=
    mkDisp (mkLayout (out_ranks (md_loaded (dm_active D))) (in_ranks (md_loaded (dm_active D))) (param_bases (md_loaded (dm_active D)))) (pd_active s) (pd_models s).

  (** The beginning that the operations share (130-131, 171-172, 227-228, 286-287), and what follows it. *)
  Definition after_sync {X} (what : string) (fail : exn -> X) (inputs : vmap) (run : disp F -> X) (s : pdisp) : pdisp * X :=
    match inputs with
    | [] => (s, fail (Fatal what))
    | _ => let (s', r) := sync_params s in (s', match r with Err e => fail e | Ok _ => run (full_disp s') end)
    end.

  (** DispatchedModel.cpp:126-166, 168-222, 224-281, 283-351 with a synchronous scheduler of batch size [n]. *)
  Definition serve_jvp (n : Z) (s : pdisp) (I T : vmap) : pdisp * loop_result (vmap * vmap) :=
    after_sync "DispatchedModel::jvp: inputs are empty." (fun e => Done (Err e)) I (fun P => sync_jvp jvp_at n P I T) s.
  Definition serve_jacobian (n : Z) (s : pdisp) (I : vmap) : pdisp * loop_result (vmap * smap vmap) :=
    after_sync "DispatchedModel::jacobian: inputs are empty." (fun e => Done (Err e)) I (fun P => sync_jacobian jacobian_at n P I) s.
  Definition serve_param_jacobian (n : Z) (s : pdisp) (I : vmap) : pdisp * loop_result (vmap * smap vmap) :=
    after_sync "DispatchedModel::param_jacobian: inputs are empty." (fun e => Done (Err e)) I (fun P => sync_param_jacobian param_jacobian_at n P I) s.
  Definition serve_param_vjp (n : Z) (s : pdisp) (I W : vmap) : pdisp * loop_result vmap :=
    after_sync "DispatchedModel::param_vjp: inputs are empty." (fun e => Done (Err e)) I (fun P => sync_param_vjp param_vjp_at (a_add A) n P I W) s.

  (** The same with an asynchronous one: the batch and the evaluation of its chunks, and what becomes of their results. *)
  Definition pool_of {R} (what : string) (chunk : disp F -> device -> Z -> device -> Z -> Z -> result R)
             (gather : disp F -> Z -> result (list (option R)) -> result R) (s : pdisp) (I : vmap)
    : pdisp * result ((Z * (device -> Z -> Z -> result R)) * (result (list (option R)) -> result R)) :=
    after_sync what Err I (fun P => let* st := async_start (chunk P) I in Ok (st, gather P (fst st))) s.
  Definition pool_jvp (s : pdisp) (I T : vmap) :=
    pool_of "DispatchedModel::jvp: inputs are empty." (fun P in_dev b => chunk_jvp jvp_at P in_dev b I T) (fun _ _ => async_jvp) s I.
  Definition pool_jacobian (s : pdisp) (I : vmap) :=
    pool_of "DispatchedModel::jacobian: inputs are empty." (fun P in_dev b => chunk_jacobian P in_dev b jacobian_at I) (fun P _ => async_jacobian P) s I.
  Definition pool_param_jacobian (s : pdisp) (I : vmap) :=
    pool_of "DispatchedModel::param_jacobian: inputs are empty." (fun P in_dev b => chunk_jacobian P in_dev b param_jacobian_at I) (fun P _ => async_param_jacobian P) s I.
  Definition pool_param_vjp (s : pdisp) (I W : vmap) :=
    pool_of "DispatchedModel::param_vjp: inputs are empty." (fun P in_dev b => chunk_param_vjp param_vjp_at P in_dev b I W) (fun P b => async_param_vjp (a_add A) P b) s I.
End ServeJac.
