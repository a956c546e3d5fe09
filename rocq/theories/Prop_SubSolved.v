(** Property C58: what a substepped segment returns was reached by solved substeps. *)
From Verif Require Import Base Tensor Spec Float Newton SpecNewton Example_Newton Broadcast Pack SpecPack Implicit Substep SpecSubstep Mat Jac SubstepJac JacModel FwdModel SpecJac SpecValue ValueProofs
     SystemAoti SpecSolved SolvedProofs SpecSubSolved SubSolvedProofs Example_Solved Example_SubSolved.
Local Open Scope string_scope.
Local Open Scope list_scope.

(** One substepped segment: the step from 0 to 1 of every row of the batch is cut, by halving at most [level] times, into
    pieces; in each the unknowns solve the segment's equations to tolerance, at the forces of the piece's ends and the old state
    the piece before it ended in (the caller's, in the first).  What comes back are the unknowns of the last piece. *)
Theorem C58_substeps_solved : forall fsum cfg zero par d s,
  segment_ok s -> seg_ok (ss_givens s) (ss_unknowns s) -> names_ok s -> predictor_ok s ->
  forall A level (st st' : smap (tensor F)) dyn,
  over d dyn (map gv_var (ss_givens s)) st -> solid dyn (map gv_var (ss_givens s)) ->
  fst (run_substepped A (run_implicit_masked zero par (seg_of fsum cfg s)) (ss_givens s) (ss_unknowns s) level st) = Ok st' ->
  over d dyn (ss_unknowns s) st' /\ (forall n, ~ In n (unknown_names (ss_unknowns s)) -> lookup n st' = lookup n st) /\
  forall i, i < numel dyn -> exists c,
    advances A (ss_givens s) (ss_unknowns s) (row_solved fsum cfg zero par s) (entries (map gv_var (ss_givens s)) st i) level (a_zero A) (a_one A)
      (entries (map gv_var (old_states (ss_givens s))) st i) (entries (ss_unknowns s) st' i) c.
Proof. exact substepped_solved. Qed.
Print Assumptions C58_substeps_solved.

(** The same of any masked solve that answers for all its rows: no row is returned that the solve had not marked. *)
Theorem C58_no_row_unmarked : forall {V} (A : arith V) d givens unknowns masked, seg_ok givens unknowns -> keeps_rows d givens unknowns masked ->
  forall level (st st' : smap (tensor V)) dyn,
  over d dyn (map gv_var givens) st -> solid dyn (map gv_var givens) ->
  fst (run_substepped A masked givens unknowns level st) = Ok st' ->
  over d dyn unknowns st' /\ (forall n, ~ In n (unknown_names unknowns) -> lookup n st' = lookup n st) /\
  forall i, i < numel dyn -> exists c,
    advances A givens unknowns (accepted_by d givens unknowns masked) (entries (map gv_var givens) st i) level (a_zero A) (a_one A)
      (entries (map gv_var (old_states givens)) st i) (entries unknowns st' i) c.
Proof. intros V A d givens unknowns masked. exact (run_paths A d masked givens unknowns). Qed.
Print Assumptions C58_no_row_unmarked.

(** The whole model: for each of its substepped segments, at any place. *)
Theorem C58_forward_solved : forall fsum cfg A par base_ndim capture infos outs s i sgs pre post inputs res,
  sgs = pre ++ JI i :: post -> ji_seg i = seg_of fsum cfg s -> 0 < ji_level i ->
  segment_ok s -> seg_ok (ss_givens s) (ss_unknowns s) -> names_ok s -> predictor_ok s ->
  forward A par base_ndim capture infos sgs outs inputs = Ok res ->
  exists st0 batch st st',
    prepare_inputs infos inputs = Ok st0 /\ value_steps A par base_ndim capture batch pre st0 = Ok st /\
    (forall n, ~ written (JI i) n -> lookup n st' = lookup n st) /\
    (forall n, In n outs -> (forall sg, In sg post -> ~ written sg n) -> lookup n res = lookup n st') /\
    forall d dyn, over d dyn (map gv_var (ss_givens s)) st -> solid dyn (map gv_var (ss_givens s)) ->
      over d dyn (ss_unknowns s) st' /\
      forall k, k < numel dyn -> exists c,
        advances A (ss_givens s) (ss_unknowns s) (row_solved fsum cfg (a_zero A) par s) (entries (map gv_var (ss_givens s)) st k)
          (ji_level i) (a_zero A) (a_one A) (entries (map gv_var (old_states (ss_givens s))) st k) (entries (ss_unknowns s) st' k) c.
Proof. exact forward_substeps_solved. Qed.
Print Assumptions C58_forward_solved.

(** A batch of two: the second row needs quarters of the step, the first does not. *)
Example C58_case : segment_ok ux_seg /\ seg_ok (ss_givens ux_seg) (ss_unknowns ux_seg) /\ names_ok ux_seg /\ predictor_ok ux_seg /\
  over cpu [2] (map gv_var (ss_givens ux_seg)) (ux_in 2 128) /\ solid [2] (map gv_var (ss_givens ux_seg)) /\
  (exists u, ux_run 2 2 128 = Ok [("u", mkT [2] u cpu)] /\
     map (fun p => (flt (fst p) (snd p) && flt (snd p) (fadd (fst p) (fnum 1 (-7))))%bool) (combine [fnum 511 (-8); fnum 2047 (-8)] u) = [true; true]) /\
  match ux_run 1 2 128 with Err _ => True | Ok _ => False end.
Proof.
  split; [exact ux_ok|]. split; [exact ux_seg_ok|]. split; [exact ux_names|]. split; [exact ux_predictor|]. split.
  - intros v I. cbn in I. intuition subst; (eexists; split; [reflexivity|]; split; [reflexivity|]; split; reflexivity).
  - split; [left; reflexivity|]. split; [eexists; split; vm_compute; reflexivity|]. vm_compute. exact I.
Qed.
