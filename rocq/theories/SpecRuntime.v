(** Vocabulary of the end-to-end property (C69): what an artifact says its public operations compute. *)
From Coq Require Import String.
From Verif Require Import Load SpecLoad.
From Verif Require Import Base SpecMap Tensor Spec SpecRename Float Newton SpecNewton Krylov KrylovSystem Broadcast SpecBroadcast Pack SpecPack Implicit Substep SpecSubstep
     Mat Jac SubstepJac JacModel SpecJac SystemAoti SpecSolved SpecSubSolved SpecIncrement.
Local Open Scope string_scope.
Local Open Scope list_scope.

(** ** Descriptions *)
(** The sizes of metadata.json. *)
Definition sized (l : list Z) (sh : list nat) : Prop := map Z.of_nat sh = l.
Definition var_says (v : mvar) (x : var_info) : Prop :=
  v_name x = mv_name v /\ sized (mv_sub v) (v_sub x) /\ sized (mv_base v) (v_base x).
Definition given_says (v : mvar) (x : given_info) : Prop :=
  var_says v (gv_var x) /\ gv_role x = mv_role v /\ gv_pair x = mv_pair v.
Definition group_says (g : mgroup) (x : group_info) : Prop :=
  g_structure x = mg_structure g /\ sized (mg_sub g) (g_sub x) /\ Forall2 var_says (mg_vars g) (g_vars x).
Definition input_says (i : minput) (x : in_info) : Prop :=
  in_name x = ip_name i /\ sized (ip_sub i) (in_sub x) /\ sized (ip_base i) (in_base x).
Definition settings_say (c : sconfig F) (x : config) : Prop :=
  cf_atol x = sc_atol c /\ cf_rtol x = sc_rtol c /\ Z.of_nat (cf_miters x) = sc_miters c /\
  cf_ls_type x = sc_ls_type c /\ Z.of_nat (cf_ls_max_iters x) = sc_ls_max_iters c /\
  cf_ls_cutback x = sc_ls_cutback c /\ cf_ls_c x = sc_ls_c c /\ cf_del_tol x = sc_del_tol c.

Section Says.
  Variable fsum rsum : list F -> F.
  Variable edot : list F -> list F -> F.
  Variable tri : list (list F) -> list F -> list F.
  Variable A : arith F.
  Variable cast : string -> F -> F.
  (** What the compiled packages compute. *)
  Variable graph : string -> list (tensor F) -> result (list (tensor F)).
  (** The defaults, the scalar type and the device of the model. *)
  Variable sdef : sconfig F.
  Variable leaf : string.
  Variable d : device.
  Variable a : artifact F.
  (** The overrides of the call. *)
  Variable ov : option (smap (tensor F)).

  Definition predictor_says (p : mpredictor) (x : predictor F) : Prop :=
    pr_inputs x = md_inputs p /\ pr_params x = md_params p /\ pr_outputs x = md_outputs p /\ pr_run x = graph (md_package p) /\
    match md_feedback p with
    | None => (fb_iterations (pr_feedback x) <= 0)%Z
    | Some f => fb_iterations (pr_feedback x) = mf_iterations f /\ fb_input (pr_feedback x) = mf_input f /\ fb_output (pr_feedback x) = mf_output f /\
                sized (mf_sub f) (fb_sub (pr_feedback x)) /\ sized (mf_base f) (fb_base (pr_feedback x))
    end.
  Definition says_opt {X Y} (R : X -> Y -> Prop) (x : option X) (y : option Y) : Prop :=
    match x, y with Some x, Some y => R x y | None, None => True | _, _ => False end.
  (** A matrix-free solver steps with the action of the Jacobian, any other with the Jacobian and solve graphs. *)
  Definition kind_says (i : mimplicit F) (k : step_kind) : Prop :=
    match ar_solver a with
    | Some (_, Some kc) =>
        exists mv, im_matvec i = Some mv /\
          k = MatrixFree rsum edot tri kc (graph mv) (option_map (fun p => (graph (fst p), graph (snd p))) (im_precond i))
    | _ => exists j s, im_jacobian i = Some j /\ im_solve i = Some s /\ k = Direct (graph j) (graph s)
    end.
  Definition segment_says (ps : list string) (i : mimplicit F) (s : solver_seg) : Prop :=
    Forall2 given_says (im_givens i) (ss_givens s) /\ Forall2 var_says (im_unknowns i) (ss_unknowns s) /\
    Forall2 group_says (im_ggroups i) (ss_given_groups s) /\ Forall2 group_says (im_ugroups i) (ss_unknown_groups s) /\
    Forall2 group_says (im_rgroups i) (ss_residual_groups s) /\
    ss_params s = ps /\ says_opt predictor_says (im_predictor i) (ss_predictor s) /\
    ss_residual_graph s = graph (im_residual i) /\ kind_says i (ss_kind s).

  (** ** Parameters *)
  (** The value of the parameter [p] in this call: the override of its boundary name, or the stored one, in the scalar type of
      the model unless the artifact gives another. *)
  Definition param_value (p : aparam F) (t : tensor F) : Prop :=
    match (match ov with Some o => lookup (boundary (ar_par a) (ap_name p)) o | None => None end) with
    | Some v => t = v
    | None => t = mkT (ap_shape p) (map (cast (match ap_dtype p with Some s => s | None => leaf end)) (ap_values p)) d
    end.
  Definition params_say (par : string -> result (tensor F)) : Prop :=
    forall p, In p (ar_params a) -> exists t, par (ap_name p) = Ok t /\ param_value p t.
  (** The parameter [n], broadcast to the batch: its base axes are kept. *)
  Definition promoted (batch : list nat) (n : string) (u : tensor F) : Prop :=
    exists p t lead base, In p (ar_params a) /\ ap_name p = n /\ param_value p t /\
      t_shape t = lead ++ base /\ length base = length (ap_base p) /\ broadcastable lead batch /\
      t_shape u = batch ++ base /\ broadcasts t u.

  (** ** Segments *)
  (** Outputs of the graph at the inputs and the promoted parameters. *)
  Definition forward_says (batch : list nat) (ps : list string) (f : mforward) (st st' : smap (tensor F)) : Prop :=
    exists ins us outs, Forall2 (fun n t => lookup n st = Some t) (fw_inputs f) ins /\ Forall2 (promoted batch) ps us /\
      graph (fw_package f) (ins ++ us) = Ok outs /\ Forall2 (fun n t => lookup n st' = Some t) (fw_outputs f) outs /\
      forall n, ~ In n (fw_outputs f) -> lookup n st' = lookup n st.
  (** What an implicit segment may change. *)
  Definition changes (i : mimplicit F) (n : string) : Prop :=
    In n (map mv_name (im_unknowns i)) \/ (exists g, In g (im_ugroups i) /\ In n (map mv_name (mg_vars g))) \/
    exists p, im_predictor i = Some p /\ (In n (md_outputs p) \/ exists f, md_feedback p = Some f /\ n = mf_input f).
  Definition solver_settings_say (cfg : config) : Prop :=
    settings_say (match ar_solver a with Some (s, _) => s | None => sdef end) cfg.
  (** Newton steps of the segment lead from the guess to the unknowns of [st']. *)
  Definition reached (cfg : config) (par : string -> result (tensor F)) (s : solver_seg) (us0 : list (tensor F)) (st' : smap (tensor F)) (d : device) : Prop :=
    exists dyn gs ps us points its, pack_groups st' (ss_given_groups s) = Ok gs /\ mapM par (ss_params s) = Ok ps /\
      pack_groups st' (ss_unknown_groups s) = Ok us /\
      newton_path cfg s (fun _ _ => False) dyn d gs ps us0 points its us /\ length points <= cf_miters cfg - 1.
  (** The residual of the segment is within the tolerances of the artifact; with substepping, in each of the substeps. *)
  Definition implicit_says (par : string -> result (tensor F)) (ps : list string) (i : mimplicit F) (st st' : smap (tensor F)) : Prop :=
    exists cfg s, solver_settings_say cfg /\ segment_says ps i s /\
      (forall n, ~ changes i n -> lookup n st' = lookup n st) /\
      if (im_level i <=? 0)%Z
      then exists us0, guessed fsum cfg (a_zero A) par s st us0 /\ solves fsum cfg par s us0 st' /\
             forall d, SpecIncrement.faithful s d -> reached cfg par s us0 st' d
      else forall d dyn, over d dyn (map gv_var (ss_givens s)) st -> solid dyn (map gv_var (ss_givens s)) ->
        over d dyn (ss_unknowns s) st' /\
        forall k, k < numel dyn -> exists c level, Z.of_nat level = im_level i /\
          advances A (ss_givens s) (ss_unknowns s) (row_solved fsum cfg (a_zero A) par s) (entries (map gv_var (ss_givens s)) st k)
            level (a_zero A) (a_one A) (entries (map gv_var (old_states (ss_givens s))) st k) (entries (ss_unknowns s) st' k) c.

  Inductive run_says (par : string -> result (tensor F)) (batch : list nat) : list (mseg F) -> smap (tensor F) -> smap (tensor F) -> Prop :=
  | says_done st : run_says par batch [] st st
  | says_forward ps f segs st st1 st' :
      forward_says batch ps f st st1 -> run_says par batch segs st1 st' -> run_says par batch (mkMseg ps (MForward f) :: segs) st st'
  | says_implicit ps i segs st st1 st' :
      implicit_says par ps i st st1 -> run_says par batch segs st1 st' -> run_says par batch (mkMseg ps (MImplicit i) :: segs) st st'.

  (** ** The call *)
  (** The inputs broadcast to a common batch, the segments one after the other, and of the final state the declared outputs. *)
  Definition artifact_says (I out : smap (tensor F)) : Prop :=
    exists infos dyn st0 batch par st,
      Forall2 input_says (ar_inputs a) infos /\ acceptable infos I dyn /\ prepared infos I dyn st0 /\
      match infos with
      | [] => batch = []
      | i :: _ => exists t, lookup (in_name i) st0 = Some t /\ t_shape t = batch ++ in_base i
      end /\
      params_say par /\ run_says par batch (ar_segs a) st0 st /\
      forall n, (In n (map op_name (ar_outputs a)) -> exists t, lookup n st = Some t /\ lookup n out = Some t) /\
                (~ In n (map op_name (ar_outputs a)) -> lookup n out = None).

  (** ** Consistent artifacts *)
  Definition nonneg : list Z -> Prop := Forall (Z.le 0).
  Definition var_sizes (v : mvar) : Prop := nonneg (mv_sub v) /\ nonneg (mv_base v).
  Definition group_sizes (g : mgroup) : Prop := nonneg (mg_sub g) /\ Forall var_sizes (mg_vars g).
  Definition feedback_sizes (p : mpredictor) : Prop := match md_feedback p with Some f => nonneg (mf_sub f) /\ nonneg (mf_base f) | None => True end.
  Definition implicit_sizes (i : mimplicit F) : Prop :=
    Forall var_sizes (im_givens i) /\ Forall var_sizes (im_unknowns i) /\
    Forall group_sizes (im_ggroups i) /\ Forall group_sizes (im_ugroups i) /\ Forall group_sizes (im_rgroups i) /\
    match im_predictor i with Some p => feedback_sizes p | None => True end.
  (** The graphs the solver of the artifact needs. *)
  Definition has_graphs (i : mimplicit F) : Prop :=
    match ar_solver a with
    | Some (_, Some _) => im_matvec i <> None
    | _ => im_jacobian i <> None /\ im_solve i <> None
    end.
  Definition segment_consistent (i : mimplicit F) (s : solver_seg) : Prop :=
    SpecSolved.segment_ok s /\
    ((0 < im_level i)%Z -> seg_ok (ss_givens s) (ss_unknowns s) /\ names_ok s /\ SpecSubSolved.predictor_ok s).
  Definition consistent : Prop :=
    Forall (fun i => nonneg (ip_sub i) /\ nonneg (ip_base i)) (ar_inputs a) /\ NoDup (map ip_name (ar_inputs a)) /\
    (0 <= sc_miters (match ar_solver a with Some (s, _) => s | None => sdef end))%Z /\
    (0 <= sc_ls_max_iters (match ar_solver a with Some (s, _) => s | None => sdef end))%Z /\
    clash_free (ar_out a) (map op_name (ar_outputs a)) /\
    forall ps k, In (mkMseg ps k) (ar_segs a) ->
      (forall n, In n ps -> In n (map ap_name (ar_params a))) /\
      match k with
      | MForward f => NoDup (fw_outputs f)
      | MImplicit i => implicit_sizes i /\ has_graphs i /\ forall s, segment_says ps i s -> segment_consistent i s
      end.
  (** Inputs of the declared ranks, whose names stay distinct. *)
  Definition inputs_ok (I : smap (tensor F)) : Prop :=
    sorted I /\ clash_free (ar_in a) (keys I) /\
    forall i t, In i (ar_inputs a) -> lookup (ip_name i) I = Some t -> wf t /\ length (ip_sub i) + length (ip_base i) <= dim t.
  (** ** Derivatives *)
  Definition pair_says (p : mpair) (x : pair_info) : Prop :=
    p_out x = mp_out p /\ p_in x = mp_in p /\ sized (mp_out_base p) (p_out_base x) /\ sized (mp_in_base p) (p_in_base x) /\ sized (mp_in_sub p) (p_in_sub x) /\
    p_indep x = mp_indep p /\ Z.of_nat (p_row x) = mp_row p /\ Z.of_nat (p_col x) = mp_col p.
  (** An implicit segment's sensitivities: with the Krylov settings of the segment, or by a graph. *)
  Definition sens_says (i : mimplicit F) (x : sens F) : Prop :=
    (im_in_kind i = "krylov" -> x = Iterative (krylov_solve_dense binary64 rsum edot tri (im_in_krylov i))) /\
    (im_in_kind i = "direct" -> forall p, im_solve_ift i = Some p -> x = Compiled (graph p)).
  Definition jseg_says (sg : mseg F) (x : jseg F) : Prop :=
    match Load.sg_kind sg, x with
    | MForward f, JF y =>
        sg_in (jf_seg y) = fw_inputs f /\ sg_par (jf_seg y) = Load.sg_params sg /\ sg_out (jf_seg y) = fw_outputs f /\ sg_run (jf_seg y) = graph (fw_package f) /\
        says_opt (fun p g => g = graph p) (fw_jvp f) (jf_jvp y) /\ Forall2 pair_says (fw_pairs f) (jf_pairs y)
    | MImplicit i, JI y =>
        (exists cfg s, solver_settings_say cfg /\ segment_says (Load.sg_params sg) i s /\ ji_seg y = seg_of fsum cfg s) /\
        ji_nres y = length (im_rgroups i) /\ (forall p, im_jacobian i = Some p -> ji_jac y = graph p) /\
        says_opt (fun p g => g = graph p) (im_given i) (ji_given y) /\ sens_says i (ji_sens y) /\
        Forall2 pair_says (im_pairs i) (ji_pairs y) /\ Z.of_nat (ji_level y) = Z.max 0 (im_level i)
    | _, _ => False
    end.
  Definition model_says (jm : jmodel F) : Prop :=
    Forall2 input_says (ar_inputs a) (jm_inputs jm) /\ Forall2 jseg_says (ar_segs a) (jm_segs jm) /\
    Forall2 (fun o x => fst x = op_name o /\ sized (op_base o) (snd x)) (ar_outputs a) (jm_outs jm) /\ jm_derivs jm = ar_derivs a.
  Definition pair_sizes (p : mpair) : Prop :=
    nonneg (mp_out_base p) /\ nonneg (mp_in_base p) /\ nonneg (mp_in_sub p) /\ (0 <= mp_row p)%Z /\ (0 <= mp_col p)%Z.
  Definition derivatives_consistent : Prop :=
    Forall (fun o => nonneg (op_base o)) (ar_outputs a) /\
    forall ps k, In (mkMseg ps k) (ar_segs a) -> Forall pair_sizes (match k with MForward f => fw_pairs f | MImplicit i => im_pairs i end).
  (** The derivative graphs of forward segments return the values of the value graphs first, and what is carried from one
      substep to the next is an unknown. *)
  Definition graphs_agree : Prop :=
    forall ps k, In (mkMseg ps k) (ar_segs a) ->
      match k with
      | MForward f => forall j args l, fw_jvp f = Some j -> graph j args = Ok l -> length l = length (fw_outputs f) + length (fw_pairs f) ->
                        graph (fw_package f) args = Ok (firstn (length (fw_outputs f)) l)
      | MImplicit i => forall g, In g (im_givens i) -> mv_role g = "old_state" -> exists u, In u (im_unknowns i) /\ mv_name u = mv_pair g
      end.

  (** The overrides of the call have as many elements as their shapes say. *)
  Definition overrides_ok : Prop := forall o n t, ov = Some o -> lookup n o = Some t -> wf t.
End Says.
