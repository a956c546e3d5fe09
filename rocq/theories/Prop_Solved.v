(** Property C57: what an implicit segment returns solves its equations. *)
From Verif Require Import Base Tensor Spec Float Newton SpecNewton Example_Newton Broadcast Pack SpecPack Implicit Substep Mat Jac SubstepJac JacModel FwdModel SpecJac SpecValue ValueProofs
     SystemAoti SpecSolved SolvedProofs Example_Solved.
Local Open Scope string_scope.
Local Open Scope list_scope.

(** A solved segment: the residual graph, at the unknowns written to the state and the givens and parameters they are
    next to, has every row within tolerance (relative to the same graph at the initial guess), whether the steps come
    from compiled graphs or from Krylov iterations, whatever those return. *)
Theorem C57_segment_solved : forall fsum cfg zero par capture s st st',
  segment_ok s -> run_implicit zero par capture (seg_of fsum cfg s) st = Ok st' ->
  exists st1 gs ps us0 calls, prepare_solve zero par (seg_of fsum cfg s) st = (Ok (st1, gs, ps, us0), calls) /\
    solves fsum cfg par s us0 st' /\ pack_groups st' (ss_given_groups s) = Ok gs /\
    forall n, ~ In n (names (ss_unknown_groups s)) -> lookup n st' = lookup n st1.
Proof. exact segment_solved. Qed.
Print Assumptions C57_segment_solved.

(** In masking mode: in the rows marked as solved. *)
Theorem C57_masked_segment_solved : forall fsum cfg zero par s st st' m,
  segment_ok s -> run_implicit_masked zero par (seg_of fsum cfg s) st = Ok (st', m) ->
  exists st1 gs ps us0 calls, prepare_solve zero par (seg_of fsum cfg s) st = (Ok (st1, gs, ps, us0), calls) /\
    solves_marked fsum cfg par s us0 m st' /\ pack_groups st' (ss_given_groups s) = Ok gs /\
    forall n, ~ In n (names (ss_unknown_groups s)) -> lookup n st' = lookup n st1.
Proof. exact masked_segment_solved. Qed.
Print Assumptions C57_masked_segment_solved.

(** The whole model: forward() returns only after each of its implicit segments (here: one without substepping, at any
    place) was solved at the state the segments before it produced; and the outputs that no later segment writes are the
    ones of the solution. *)
Theorem C57_forward_solved : forall fsum cfg A par base_ndim capture infos outs s i sgs pre post inputs res,
  sgs = pre ++ JI i :: post -> ji_seg i = seg_of fsum cfg s -> ji_level i = 0 -> segment_ok s ->
  forward A par base_ndim capture infos sgs outs inputs = Ok res ->
  exists st0 batch st us0 gs ps st1 calls st',
    prepare_inputs infos inputs = Ok st0 /\ value_steps A par base_ndim capture batch pre st0 = Ok st /\
    prepare_solve (a_zero A) par (seg_of fsum cfg s) st = (Ok (st1, gs, ps, us0), calls) /\
    solves fsum cfg par s us0 st' /\ pack_groups st' (ss_given_groups s) = Ok gs /\
    (forall n, ~ written (JI i) n -> lookup n st' = lookup n st) /\
    forall n, In n outs -> (forall sg, In sg post -> ~ written sg n) -> lookup n res = lookup n st'.
Proof. exact forward_solved. Qed.
Print Assumptions C57_forward_solved.

(** The outputs of jvp() and jacobian() come from solved segments as well. *)
Theorem C57_jvp_solved : forall fsum cfg (A : arith F) neg dot par base_ndim capture m s i pre post (I T outs r : smap (tensor F)),
  coherent (jm_segs m) -> jm_segs m = pre ++ JI i :: post -> ji_seg i = seg_of fsum cfg s -> ji_level i = 0 -> segment_ok s ->
  jvp A neg dot par base_ndim capture m I T = Ok (outs, r) ->
  exists st us0 st', guessed fsum cfg (a_zero A) par s st us0 /\ solves fsum cfg par s us0 st' /\
    (forall n, ~ written (JI i) n -> lookup n st' = lookup n st) /\
    forall n, In n (map fst (jm_outs m)) -> (forall sg, In sg post -> ~ written sg n) -> lookup n outs = lookup n st'.
Proof.
  intros fsum cfg A neg dot par base_ndim capture m s i pre post I T outs r C E Es El Ok_ H. apply jvp_value in H; [|exact C].
  eapply forward_solved in H; [|exact E|exact Es|exact El|exact Ok_].
  destruct H as (st0 & batch & st & us0 & gs & ps & st1 & calls & st' & _ & _ & P & So & _ & Fr & Q).
  exists st, us0, st'. split; [exists st1, gs, ps, calls; exact P|auto].
Qed.
Print Assumptions C57_jvp_solved.

Theorem C57_jacobian_solved : forall fsum cfg (A : arith F) neg dot par base_ndim capture m s i pre post (I outs : smap (tensor F)) jac,
  coherent (jm_segs m) -> jm_segs m = pre ++ JI i :: post -> ji_seg i = seg_of fsum cfg s -> ji_level i = 0 -> segment_ok s ->
  jacobian A neg dot par base_ndim capture m I = Ok (outs, jac) ->
  exists st us0 st', guessed fsum cfg (a_zero A) par s st us0 /\ solves fsum cfg par s us0 st' /\
    (forall n, ~ written (JI i) n -> lookup n st' = lookup n st) /\
    forall n, In n (map fst (jm_outs m)) -> (forall sg, In sg post -> ~ written sg n) -> lookup n outs = lookup n st'.
Proof.
  intros fsum cfg A neg dot par base_ndim capture m s i pre post I outs jac C E Es El Ok_ H.
  apply composed_value in H; [|exact C|intros f g S J; rewrite E in S; destruct pre as [|p [|? ?]]; discriminate S].
  eapply forward_solved in H; [|exact E|exact Es|exact El|exact Ok_].
  destruct H as (st0 & batch & st & us0 & gs & ps & st1 & calls & st' & _ & _ & P & So & _ & Fr & Q).
  exists st, us0, st'. split; [exists st1, gs, ps, calls; exact P|auto].
Qed.
Print Assumptions C57_jacobian_solved.

Example C57_case : segment_ok vx_seg /\
  exists u w, forward vx_arith vx_par [] false vx_infos [JF vx_fwd; JI vx_imp] ["u"; "w"] vx_in = Ok [("u", mkT [2] u cpu); ("w", mkT [2] w cpu)] /\
    w = [fnum 8 0; fnum 50 0] /\ map (fun x => (flt (fnum 4 (-1)) x && flt x (fnum 11 (-1)))%bool) u = [true; true] /\ u <> w /\
    exists m, run_implicit_masked fzero vx_par (seg_of sum0 cfg0 vx_seg) [("w", mkT [3] [fnum 8 0; fopp fone; fnum 50 0] cpu)] = m /\ rmap snd m = Ok [true; false; true].
Proof.
  split; [exact vx_ok|]. do 2 eexists. split; [vm_compute; reflexivity|]. split; [vm_compute; reflexivity|]. split; [vm_compute; reflexivity|].
  split; [intros C; discriminate C|]. eexists. split; vm_compute; reflexivity.
Qed.
Example C57_derivative_case : coherent (jm_segs vx_model) /\ jm_segs vx_model = [] ++ JI vx_imp :: [] /\ ji_seg vx_imp = seg_of sum0 cfg0 vx_seg /\
  exists u d, jvp vx_arith fopp (fun a b => fold_left fadd (map (fun p => fmul (fst p) (snd p)) (combine a b)) fzero) vx_par [] false vx_model vx_w vx_dw
              = Ok ([("u", mkT [2] u cpu)], [("u", mkT [2] d cpu)]) /\
    map (fun x => (flt (fnum 4 (-1)) x && flt x (fnum 11 (-1)))%bool) u = [true; true] /\
    map (fun x => (flt (fnum 3 (-5)) x && flt x (fnum 9 (-6)))%bool) d = [true; true].
Proof.
  split; [intros sg [<-|[]] g I; destruct I as [<-|[]]; intros R; discriminate|]. split; [reflexivity|]. split; [reflexivity|].
  do 2 eexists. split; [vm_compute; reflexivity|]. split; vm_compute; reflexivity.
Qed.
