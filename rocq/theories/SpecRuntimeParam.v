(** Vocabulary of C69 for parameter derivatives: the model an artifact describes to param_jacobian() and param_vjp(). *)
From Coq Require Import String.
From Verif Require Import Load SpecLoad.
From Verif Require Import Base Tensor Float Krylov KrylovSystem Jac JacModel ParamJac SpecRuntime.
Local Open Scope string_scope.
Local Open Scope list_scope.

Section Says.
  Variable fsum rsum : list F -> F.
  Variable edot : list F -> list F -> F.
  Variable tri : list (list F) -> list F -> list F.
  Variable graph : string -> list (tensor F) -> result (list (tensor F)).
  Variable sdef : sconfig F.
  Variable a : artifact F.

  Definition ppair_says (p : mppair) (x : ppair) : Prop :=
    q_out x = mq_out p /\ q_param x = mq_param p /\ sized (mq_out_base p) (q_out_base x) /\ sized (mq_base p) (q_par_base x) /\
    Z.of_nat (q_row x) = mq_row p /\ Z.of_nat (q_col x) = mq_col p.
  (** A segment with the parameter Jacobian and the adjoint graph, or with the graphs of the implicit function theorem. *)
  Definition pseg_says (sg : mseg F) (x : pseg F) : Prop :=
    match Load.sg_kind sg, x with
    | MForward f, PF y pjac ps adj =>
        jseg_says fsum rsum edot tri graph sdef a sg (JF y) /\ says_opt (fun p g => g = graph p) (fw_pjac f) pjac /\ Forall2 ppair_says (fw_ppairs f) ps /\
        says_opt (fun p g => g = (graph p, fw_pvjp_outputs f, fw_pvjp_params f)) (fw_pvjp f) adj
    | MImplicit i, PI y dr solve krylov ps =>
        jseg_says fsum rsum edot tri graph sdef a sg (JI y) /\ says_opt (fun p g => g = graph p) (im_drdp i) dr /\ says_opt (fun p g => g = graph p) (im_solve_param i) solve /\
        (im_par_kind i = "krylov" -> krylov = Some (krylov_solve_dense binary64 rsum edot tri (im_par_krylov i))) /\ (im_par_kind i <> "krylov" -> krylov = None) /\
        Forall2 ppair_says (im_ppairs i) ps
    | _, _ => False
    end.
  Definition pmodel_says (pm : pmodel F) : Prop :=
    Forall2 input_says (ar_inputs a) (pm_inputs pm) /\ Forall2 pseg_says (ar_segs a) (pm_segs pm) /\
    Forall2 (fun o x => fst x = op_name o /\ sized (op_base o) (snd x)) (ar_outputs a) (pm_outs pm) /\ pm_derivs pm = ar_pderivs a.
  (** The base shapes of the parameters. *)
  Definition bases_say (pb : smap (list nat)) : Prop := forall p, In p (ar_params a) -> exists b, lookup (ap_name p) pb = Some b /\ sized (ap_base p) b.

  Definition ppair_sizes (p : mppair) : Prop := nonneg (mq_out_base p) /\ nonneg (mq_base p) /\ (0 <= mq_row p)%Z /\ (0 <= mq_col p)%Z.
  Definition param_derivatives_consistent : Prop :=
    Forall (fun p => nonneg (ap_base p)) (ar_params a) /\
    forall ps k, In (mkMseg ps k) (ar_segs a) -> Forall ppair_sizes (match k with MForward f => fw_ppairs f | MImplicit i => im_ppairs i end).
  (** param_jacobian() solves in one go, and spreads parameters over the dynamic axes of the first input only. *)
  Definition plain_values : Prop :=
    (forall ps i, In (mkMseg ps (MImplicit i)) (ar_segs a) -> (im_level i <= 0)%Z) /\
    forall i rest, ar_inputs a = i :: rest -> ip_sub i = [].
End Says.
