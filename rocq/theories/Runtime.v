(** The operations of a loaded model: from what the constructor of [Model::Impl] filled in (Load.v) to the
    segments that forward(), jvp() and jacobian() run (internal.h:195-460, 795-815).  Definitions only.

    The packages are given by [graph], what the package of that file name computes (AOTIModelPackageLoader::run).
    Simplifications: sizes that metadata.json may give as negative numbers are read as zero (artifacts with such
    sizes are excluded where it matters); the parameter-derivative graphs are in RuntimeParam.v. *)
From Verif Require Import Base Tensor Float Newton Except Rename Krylov KrylovSystem Broadcast Pack Implicit Substep Mat Jac SubstepJac JacModel FwdModel SystemAoti.
From Verif Require Load.
Local Open Scope string_scope.
Local Open Scope list_scope.

Section Runtime.
  Variable fsum : list F -> F.                                  (* newton.cpp: the reductions *)
  Variable rsum : list F -> F.                                  (* krylov.h: the reductions *)
  Variable edot : list F -> list F -> F.
  Variable tri : list (list F) -> list F -> list F.
  Variable A : arith F.
  Variable neg : F -> F.
  Variable dot : list F -> list F -> F.
  Variable graph : string -> groups -> result groups.

  (** A graph that was not compiled: its loader is null, calling it undefined. *)
  Definition graph_or_null (o : option string) : groups -> result groups :=
    match o with Some p => graph p | None => fun _ => Err (OtherExn 0) end.

  (** internal.h:273-316 [VarInfo], [GroupInfo]; Model.cpp:596-611, 733-746 *)
  Definition sizes (l : list Z) : list nat := map Z.to_nat l.
  Definition var_of (v : Load.mvar) : var_info := mkVar (Load.mv_name v) (sizes (Load.mv_sub v)) (sizes (Load.mv_base v)).
  Definition given_of (v : Load.mvar) : given_info := mkGiven (var_of v) (Load.mv_role v) (Load.mv_pair v).
  Definition group_of (g : Load.mgroup) : group_info :=
    mkGroup (Load.mg_structure g) (sizes (Load.mg_sub g)) (map var_of (Load.mg_vars g)).
  (** internal.h:325-345 [PairInfo] *)
  Definition pair_of (p : Load.mpair) : pair_info :=
    mkPair (Load.mp_out p) (Load.mp_in p) (sizes (Load.mp_out_base p)) (sizes (Load.mp_in_base p)) (sizes (Load.mp_in_sub p))
           (Load.mp_indep p) (Z.to_nat (Load.mp_row p)) (Z.to_nat (Load.mp_col p)).
  (** Model.cpp:824-863; without "predictor_feedback" there are no iterations (internal.h, PredictorFeedback). *)
  Definition feedback_of (f : option Load.mfeedback) : feedback :=
    match f with
    | Some f => mkFb (Load.mf_iterations f) (Load.mf_input f) (Load.mf_output f) (sizes (Load.mf_sub f)) (sizes (Load.mf_base f))
    | None => mkFb 0 "" "" [] []
    end.
  Definition predictor_of (p : Load.mpredictor) : predictor F :=
    mkPred (Load.md_inputs p) (Load.md_params p) (Load.md_outputs p) (feedback_of (Load.md_feedback p)) (graph (Load.md_package p)).

  (** Model.h:50-76 *)
  Definition config_of (c : Load.sconfig F) : config :=
    mkCfg (Load.sc_atol c) (Load.sc_rtol c) (Z.to_nat (Load.sc_miters c)) (Load.sc_ls_type c) (Z.to_nat (Load.sc_ls_max_iters c))
          (Load.sc_ls_cutback c) (Load.sc_ls_c c) (Load.sc_del_tol c).

  Section Model.
    Variable m : Load.loaded F.

    (** solve.cpp:227-250: the system of the segment.  A direct solve dereferences both loaders. *)
    Definition kind_of (i : Load.mimplicit F) : result step_kind :=
      if String.eqb (Load.ld_solver m) "krylov" then
        match Load.im_matvec i with
        | None => Err (Fatal "aoti::Model: solver_kind is 'krylov' but the segment has no matvec graph.")
        | Some mv =>
            Ok (MatrixFree rsum edot tri (Load.ld_krylov m) (graph mv)
                  (match Load.im_precond i with Some (s, p) => Some (graph s, graph p) | None => None end))
        end
      else
        match Load.im_jacobian i, Load.im_solve i with
        | Some j, Some s => Ok (Direct (graph j) (graph s))
        | _, _ => Err (OtherExn 0)
        end.
    Definition solver_of (ps : list string) (i : Load.mimplicit F) (k : step_kind) : solver_seg :=
      mkSseg (map given_of (Load.im_givens i)) (map var_of (Load.im_unknowns i))
             (map group_of (Load.im_ggroups i)) (map group_of (Load.im_ugroups i)) (map group_of (Load.im_rgroups i))
             ps (option_map predictor_of (Load.im_predictor i)) (graph (Load.im_residual i)) k.
    Definition iseg_of (ps : list string) (i : Load.mimplicit F) : iseg F :=
      match kind_of i with
      | Ok k => seg_of fsum (config_of (Load.ld_cfg m)) (solver_of ps i k)
      | Err e =>
          mkIseg (map given_of (Load.im_givens i)) (map var_of (Load.im_unknowns i))
                 (map group_of (Load.im_ggroups i)) (map group_of (Load.im_ugroups i)) ps
                 (option_map predictor_of (Load.im_predictor i)) (fun _ _ _ => Err e) (fun _ _ _ => Err e)
      end.

    (** internal.h:195-460: a segment. *)
    Definition jfwd_of (ps : list string) (f : Load.mforward) : jfwd F :=
      mkJF (mkSeg (Load.fw_inputs f) ps (Load.fw_outputs f) (graph (Load.fw_package f)))
           (option_map graph (Load.fw_jvp f)) (map pair_of (Load.fw_pairs f)).
    Definition jimp_of (ps : list string) (i : Load.mimplicit F) : jimp F :=
      mkJI (iseg_of ps i) (length (Load.im_rgroups i)) (graph_or_null (Load.im_jacobian i))
           (option_map graph (Load.im_given i))
           (if String.eqb (Load.im_in_kind i) "krylov"
            then Iterative (krylov_solve_dense binary64 rsum edot tri (Load.im_in_krylov i))
            else Compiled (graph_or_null (Load.im_solve_ift i)))
           (map pair_of (Load.im_pairs i)) (Z.to_nat (Load.im_level i)).
    Definition segment_of (s : Load.mseg F) : jseg F :=
      match Load.sg_kind s with
      | Load.MForward f => JF (jfwd_of (Load.sg_params s) f)
      | Load.MImplicit i => JI (jimp_of (Load.sg_params s) i)
      end.

    Definition input_of (i : Load.minput) : in_info := mkIn (Load.ip_name i) (sizes (Load.ip_sub i)) (sizes (Load.ip_base i)).
    Definition model_of : jmodel F :=
      mkJM (map input_of (Load.ld_inputs m)) (map segment_of (Load.ld_segs m))
           (map (fun o => (Load.op_name o, sizes (Load.op_base o))) (Load.ld_outputs m)) (Load.ld_derivs m).

    (** Model.cpp:879-899; the stored parameters, the overrides of the call before them. *)
    Definition param_of (ov : option (smap (tensor F))) : string -> result (tensor F) :=
      resolve_param (Load.ld_tables m) ov (vmap_ snd (Load.ld_named m)).
    Definition base_ndims : smap nat := vmap_ (@length Z) (Load.ld_bases m).

    (** Model.cpp:958-1004: the public operations. *)
    Definition model_forward (capture : bool) (ov : option (smap (tensor F))) : smap (tensor F) -> result (smap (tensor F)) :=
      facade_forward (Load.ld_tables m) (forward_of A (param_of ov) base_ndims capture model_of).
    Definition model_jvp (capture : bool) (ov : option (smap (tensor F)))
      : smap (tensor F) -> smap (tensor F) -> result (smap (tensor F) * smap (tensor F)) :=
      facade_jvp (Load.ld_tables m) (jvp A neg dot (param_of ov) base_ndims capture model_of).
    Definition model_jacobian (capture : bool) (ov : option (smap (tensor F)))
      : smap (tensor F) -> result (smap (tensor F) * smap (smap (tensor F))) :=
      facade_jacobian (Load.ld_tables m) (jacobian A neg dot (param_of ov) base_ndims capture model_of).
  End Model.
End Runtime.
