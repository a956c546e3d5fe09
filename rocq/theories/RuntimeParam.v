(** The parameter derivatives of a loaded model: what param_jacobian() and param_vjp() run (internal.h:195-460, Model.cpp:534-555,
    651-675, 784-815, 1006-1041).  Definitions only; simplifications as in Runtime.v and ParamJac.v. *)
From Verif Require Import Base Tensor Float Rename Krylov KrylovSystem Broadcast Pack Implicit Substep Mat Jac JacModel ParamJac SystemAoti Runtime.
From Verif Require Load.
Local Open Scope string_scope.
Local Open Scope list_scope.

Section RuntimeParam.
  Variable fsum rsum : list F -> F.
  Variable edot : list F -> list F -> F.
  Variable tri : list (list F) -> list F -> list F.
  Variable A : arith F.
  Variable neg : F -> F.
  Variable dot : list F -> list F -> F.
  Variable psum : list F -> F.                                  (* ops.cpp: [sum] *)
  Variable graph : string -> groups -> result groups.

  (** internal.h:342-356 [ParamPairInfo] *)
  Definition ppair_of (p : Load.mppair) : ppair :=
    mkPP (Load.mq_out p) (Load.mq_param p) (sizes (Load.mq_out_base p)) (sizes (Load.mq_base p)) (Z.to_nat (Load.mq_row p)) (Z.to_nat (Load.mq_col p)).

  Section Model.
    Variable m : Load.loaded F.
    (** Model.cpp:522-527 [_param_base_shapes] *)
    Definition base_shapes : smap (list nat) := vmap_ sizes (Load.ld_bases m).

    (** Model.cpp:651-675 (forward), 784-815 (implicit) *)
    Definition psegment_of (s : Load.mseg F) : pseg F :=
      match Load.sg_kind s with
      | Load.MForward w =>
          PF (jfwd_of graph (Load.sg_params s) w) (option_map graph (Load.fw_pjac w)) (map ppair_of (Load.fw_ppairs w))
             (option_map (fun p => (graph p, Load.fw_pvjp_outputs w, Load.fw_pvjp_params w)) (Load.fw_pvjp w))
      | Load.MImplicit w =>
          PI (jimp_of fsum rsum edot tri graph m (Load.sg_params s) w) (option_map graph (Load.im_drdp w)) (option_map graph (Load.im_solve_param w))
             (if String.eqb (Load.im_par_kind w) "krylov" then Some (krylov_solve_dense binary64 rsum edot tri (Load.im_par_krylov w)) else None)
             (map ppair_of (Load.im_ppairs w))
      end.
    Definition pmodel_of : pmodel F :=
      mkPM (map input_of (Load.ld_inputs m)) (map psegment_of (Load.ld_segs m))
           (map (fun o => (Load.op_name o, sizes (Load.op_base o))) (Load.ld_outputs m)) (Load.ld_pderivs m).

    (** Model.cpp:1006-1041 *)
    Definition model_param_jacobian (capture : bool) (ov : option (smap (tensor F))) : smap (tensor F) -> result (smap (tensor F) * smap (smap (tensor F))) :=
      facade_param_jacobian (Load.ld_tables m) (param_jacobian A neg dot (param_of m ov) base_shapes capture pmodel_of).
    Definition model_param_vjp (capture : bool) (ov : option (smap (tensor F))) : smap (tensor F) -> smap (tensor F) -> result (smap (tensor F)) :=
      facade_param_vjp (Load.ld_tables m) (param_vjp A neg dot psum (param_of m ov) base_shapes capture pmodel_of).
  End Model.
End RuntimeParam.
