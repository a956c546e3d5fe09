(** Vocabulary of the properties of implicit segments: predictor rounds (C50) and the initial
    guess (C40). *)
From Verif Require Import Base Tensor Spec Broadcast SpecBroadcast Pack SpecPack Implicit.

Section Predictor.
  Context {V : Type}.

  (** Values by name. *)
  Definition env : Type := string -> option (tensor V).

  Definition reads (ns : list string) (e : env) (ts : list (tensor V)) : Prop :=
    Forall2 (fun n t => e n = Some t) ns ts.

  (** Among the results [outs] of the predictor graph, [t] is the one for name [n], moved to the device. *)
  Definition delivers (p : predictor V) (dev : device) (outs : list (tensor V)) (n : string) (t : tensor V) : Prop :=
    exists i o, nth_error (pr_outputs p) i = Some n /\ nth_error outs i = Some o /\ t = to_dev dev o.

  (** The values after a round with results [outs]: the feedback input has the designated output, the
      outputs have the results, everything else is as before. *)
  Definition round_done (p : predictor V) (dev : device) (outs : list (tensor V)) (e e' : env) : Prop :=
    (exists t, delivers p dev outs (fb_output (pr_feedback p)) t /\ e' (fb_input (pr_feedback p)) = Some t) /\
    (forall n t, n <> fb_input (pr_feedback p) -> delivers p dev outs n t -> e' n = Some t) /\
    (forall n, n <> fb_input (pr_feedback p) -> ~ In n (pr_outputs p) -> e' n = e n).

  (** [k] rounds from the values [e] to the values [e']; [calls] are the argument lists the graph got. *)
  Inductive rounds (p : predictor V) (dev : device) (ps : list (tensor V)) : nat -> env -> list (list (tensor V)) -> env -> Prop :=
  | rounds_none e : rounds p dev ps 0 e [] e
  | rounds_more k e ins outs e1 calls e2 :
      reads (pr_inputs p) e ins -> pr_run p (ins ++ ps) = Ok outs -> length outs = length (pr_outputs p) ->
      round_done p dev outs e e1 -> rounds p dev ps k e1 calls e2 ->
      rounds p dev ps (S k) e ((ins ++ ps) :: calls) e2.

  (** What the constructor of a Model asserts about a predictor with feedback (Model.cpp:839-861). *)
  Definition feedback_ok (p : predictor V) : Prop :=
    (0 < fb_iterations (pr_feedback p))%Z /\ In (fb_input (pr_feedback p)) (pr_inputs p) /\
    In (fb_output (pr_feedback p)) (pr_outputs p).
  Definition no_feedback (p : predictor V) : Prop := fb_iterations (pr_feedback p) = 0%Z.

  (** The graph always returns as many tensors as it has outputs. *)
  Definition total (p : predictor V) : Prop :=
    forall ins, exists outs, pr_run p ins = Ok outs /\ length outs = length (pr_outputs p).
End Predictor.
Arguments env V : clear implicits.

Section Guess.
  Context {V : Type}.

  (** A tensor for variable [v] over the batch [dyn]. *)
  Definition value_for (dyn : list nat) (v : var_info) (t : tensor V) : Prop :=
    wf t /\ t_shape t = dyn ++ v_sub v ++ v_base v.

  (** The packed initial guess [us] has the elements of [t] for variable [v]. *)
  Definition guess_is (groups : list group_info) (us : list (tensor V)) (dyn : list nat) (v : var_info) (t : tensor V) : Prop :=
    forall G0 g G1 before after, groups = G0 ++ g :: G1 -> g_vars g = before ++ v :: after ->
    exists gt, nth_error us (length G0) = Some gt /\
      forall b s x, index_of dyn b -> index_of (v_sub v) s -> index_of (v_base v) x ->
        index_of (t_shape gt) (slot g before v b s x) /\ elem gt (slot g before v b s x) = elem t (b ++ s ++ x).

  Definition predicted (sg : iseg V) (n : string) : Prop :=
    exists p, is_predictor sg = Some p /\ In n (pr_outputs p).

  (** The segment's metadata and the values it gets fit the batch [dyn] on device [d]. *)
  Definition seg_fits (sg : iseg V) (st : smap (tensor V)) (dyn : list nat) (d : device) : Prop :=
    Forall group_ok (is_unknown_groups sg) /\
    (exists g0 gs t0, is_givens sg = g0 :: gs /\ lookup (v_name (gv_var g0)) st = Some t0 /\
       t_dev t0 = d /\ t_shape t0 = dyn ++ v_sub (gv_var g0) ++ v_base (gv_var g0)) /\
    (forall v, In v (flat_map g_vars (is_unknown_groups sg)) -> In v (is_unknowns sg)) /\
    (forall v v', In v (is_unknowns sg) -> In v' (is_unknowns sg) -> v_name v = v_name v' -> v = v') /\
    (forall v t, In v (is_unknowns sg) -> lookup (v_name v) st = Some t -> value_for dyn v t /\ t_dev t = d) /\
    (forall p, is_predictor sg = Some p ->
       NoDup (pr_outputs p) /\ (no_feedback p \/ feedback_ok p) /\
       (forall v, In v (is_unknowns sg) -> v_name v <> fb_input (pr_feedback p))).

  (** What the predictor returns for the unknowns when called with [args] fits the batch. *)
  Definition predicts (sg : iseg V) (dyn : list nat) (args : list (tensor V)) : Prop :=
    forall p outs v i o, is_predictor sg = Some p -> pr_run p args = Ok outs -> In v (is_unknowns sg) ->
      nth_error (pr_outputs p) i = Some (v_name v) -> nth_error outs i = Some o -> value_for dyn v o.
End Guess.
