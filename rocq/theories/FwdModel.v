(** Model::forward (aoti/ops.cpp) over forward, implicit and substepped implicit segments.
    Definitions only. *)
From Verif Require Import Base Tensor BatchChunk Broadcast Pack Implicit Substep Mat Jac SubstepJac JacModel ParamJac.

Section FwdModel.
  Context {V : Type}.
  Notation vmap := (smap (tensor V)).
  Variable A : arith V.
  Variable par : string -> result (tensor V).   (* _resolve_param *)
  Variable base_ndim : smap nat.                (* sizes of _param_base_shapes *)
  Variable capture : bool.                      (* capture_solve_failure_enabled() *)

  (** ops.cpp:168-184: one segment. *)
  Definition value_step (batch : list nat) (sg : jseg V) (st : vmap) : result vmap :=
    match sg with
    | JF f => run_forward_segment par base_ndim (jf_seg f) batch st
    | JI i =>
        let s := ji_seg i in
        if Nat.ltb 0 (ji_level i)
        then fst (run_substepped A (run_implicit_masked (a_zero A) par s) (is_givens s) (is_unknowns s) (ji_level i) st)
        else run_implicit (a_zero A) par capture s st
    end.
  Fixpoint value_steps (batch : list nat) (sgs : list (jseg V)) (st : vmap) : result vmap :=
    match sgs with
    | [] => Ok st
    | sg :: r => let* st := value_step batch sg st in value_steps batch r st
    end.

  (** ops.cpp:153-197 [Model::Impl::forward] (the parameter overrides are in [par]). *)
  Definition forward (infos : list in_info) (sgs : list (jseg V)) (outs : list string) (inputs : vmap) : result vmap :=
    let* st := prepare_inputs infos inputs in
    let* batch := match infos with
                  | [] => Ok []
                  | i :: _ => let* t := at_ (in_name i) st in Ok (batch_shape_of i t)
                  end in
    let* st := value_steps batch sgs st in
    collect outs st [].

  (** The same model as the derivative operations see it. *)
  Definition forward_of (m : jmodel V) : vmap -> result vmap := forward (jm_inputs m) (jm_segs m) (map fst (jm_outs m)).
  Definition value_seg (sg : pseg V) : jseg V := match sg with PF f _ _ _ => JF f | PI i _ _ _ _ => JI i end.
  Definition forward_of_p (m : pmodel V) : vmap -> result vmap := forward (pm_inputs m) (map value_seg (pm_segs m)) (map fst (pm_outs m)).
End FwdModel.
