(** Property C73: what the substepping drivers say about a call. *)
From Verif Require Import Base Log BaseProofs SpecMap SmapProofs Tensor Spec Broadcast SpecBroadcast Pack Implicit Substep SpecSubstep DriveProofs RowTableProofs
     SubstepProofs SubstepRunProofs Mat Jac SubstepJac JacModel SpecJac SpecAlgebra SpecDyadic SpecSubstepJac SubstepJacProofs SubstepJacRunProofs SubstepIftProofs
     SubstepLog SpecSubstepLog SubstepLogProofs SubstepLogRunProofs SubstepLogContextProofs Example_Substep Example_SubstepJac Example_SubstepLog.

(** Whatever the sink does and whatever the segment answers: at Debug every solve is followed by one line with its
    interval, the halvings that led to it and its numbers of rows; at Info a call that succeeded ends with one line that
    gives the number of rows, how many of them failed the full step, the most halvings, and the number of solves.  If the
    call fails before its line is due, the last solve has none. *)
Theorem C73_said : forall V (A : arith V) say is_on capture masked givens unknowns level st info debug r w,
  is_on Info = Ok info -> is_on Debug = Ok debug ->
  watch_substepped A say is_on capture masked givens unknowns level st watch0 = (r, w) ->
  said A "value" info debug (is_ok r || negb capture) (is_ok r) (w_events w).
Proof. intros V A say is_on capture masked givens unknowns level st info debug r w Ei Ed H. exact (value_said A say is_on capture masked givens unknowns level st info debug r w Ei Ed H). Qed.
Print Assumptions C73_said.
Theorem C73_said_jacobian : forall V (A : arith V) say is_on capture masked ift givens unknowns level st ds info debug r w,
  is_on Info = Ok info -> is_on Debug = Ok debug ->
  watch_substepped_d A say is_on capture masked ift givens unknowns level st ds watch0 = (r, w) ->
  said A "jacobian" info debug (is_ok r || negb capture) (is_ok r) (w_events w).
Proof.
  intros V A say is_on capture masked ift givens unknowns level st ds info debug r w Ei Ed H.
  exact (jac_said A say is_on capture masked ift givens unknowns level st ds info debug r w Ei Ed H).
Qed.
Print Assumptions C73_said_jacobian.

(** With a sink that never throws and without failure capture, a call that is watched does the solves of [run_substepped]
    and gives its result, whatever the segment answers. *)
Theorem C73_same : forall V (A : arith V) say is_on masked givens unknowns level st,
  patient say -> (exists info debug, is_on Info = Ok info /\ is_on Debug = Ok debug) ->
  exists r w, watch_substepped A say is_on false masked givens unknowns level st watch0 = (r, w) /\
    run_substepped A masked givens unknowns level st = (r, solves_of (w_events w)) /\ w_attached w = None.
Proof. intros V A say is_on masked givens unknowns level st P Q. exact (value_same A say is_on false masked givens unknowns P Q level st eq_refl). Qed.
Print Assumptions C73_same.
Theorem C73_same_jacobian : forall V (A : arith V) say is_on masked ift givens unknowns level st ds,
  patient say -> (exists info debug, is_on Info = Ok info /\ is_on Debug = Ok debug) ->
  exists r w, watch_substepped_d A say is_on false masked ift givens unknowns level st ds watch0 = (r, w) /\
    run_substepped_d A masked ift givens unknowns level st ds = (r, solves_of (w_events w)) /\ w_attached w = None.
Proof. intros V A say is_on masked ift givens unknowns level st ds P Q. exact (jac_same A say is_on false masked ift givens unknowns P Q level st ds eq_refl). Qed.
Print Assumptions C73_same_jacobian.

(** On a segment that answers for every row, with capture or without: the same solves and result; a failure names the rows
    left at the last solve and its level, and with capture carries, in the shape of the batch, the unknowns and the mask
    of the full step of the whole batch: not those of the substep that failed. *)
Theorem C73_context : forall V (A : arith V) d say is_on capture masked givens unknowns level (st : smap (tensor V)) dyn,
  patient say -> (exists info debug, is_on Info = Ok info /\ is_on Debug = Ok debug) ->
  seg_ok givens unknowns -> answers d givens unknowns masked ->
  over d dyn (map gv_var givens) st -> solid dyn (map gv_var givens) ->
  exists r w, watch_substepped A say is_on capture masked givens unknowns level st watch0 = (r, w) /\
    run_substepped A masked givens unknowns level st = (r, solves_of (w_events w)) /\
    match r with
    | Ok _ => w_raised w = None /\ w_attached w = None
    | Err e => (exists m, e = Convergence m) /\ exists span span' mask, full_step A d givens st dyn span /\ masked span = Ok (span', mask) /\
        failure A (numel dyn) level (solves_of (w_events w)) mask (w_raised w) /\
        if capture then exists c, w_attached w = Some c /\ context_of d dyn unknowns span' mask c else w_attached w = None
    end.
Proof.
  intros V A d say is_on capture masked givens unknowns level st dyn P Q S An O Sd.
  destruct (value_context A d masked givens unknowns S say is_on capture P Q An level st dyn O Sd) as [r [w [H1 [H2 H3]]]].
  exists r, w. split; [exact H1|]. split; [exact H2|]. destruct r as [x|e]; [exact H3|]. split; [|exact H3].
  destruct (run_outcome A d masked givens unknowns S An level st dyn O Sd) as [r' [l [E [_ R]]]]. rewrite H2 in E. injection E as <- <-.
  destruct R as [m [-> _]]. exists m. reflexivity.
Qed.
Print Assumptions C73_context.
Theorem C73_context_jacobian : forall V (A : arith V) d say is_on capture masked ift givens unknowns M solve_row ift_row level (st ds : smap (tensor V)) dyn,
  patient say -> (exists info debug, is_on Info = Ok info /\ is_on Debug = Ok debug) ->
  seg_ok givens unknowns -> answers_all d givens unknowns masked -> rowwise d givens unknowns masked solve_row ->
  tangents_by_row d givens unknowns M solve_row ift ift_row ->
  over d dyn (map gv_var givens) st -> solid dyn (map gv_var givens) ->
  over d dyn (map (carrier M) (map gv_var givens)) ds -> length dyn = 1 \/ M <> 0 ->
  exists r w, watch_substepped_d A say is_on capture masked ift givens unknowns level st ds watch0 = (r, w) /\
    run_substepped_d A masked ift givens unknowns level st ds = (r, solves_of (w_events w)) /\
    match r with
    | Ok _ => w_raised w = None /\ w_attached w = None
    | Err e => (exists m, e = Convergence m) /\ exists span span' mask, full_step A d givens st dyn span /\ masked span = Ok (span', mask) /\
        failure A (numel dyn) level (solves_of (w_events w)) mask (w_raised w) /\
        if capture then exists c, w_attached w = Some c /\ context_of d dyn unknowns span' mask c else w_attached w = None
    end.
Proof.
  intros V A d say is_on capture masked ift givens unknowns M solve_row ift_row level st ds dyn P Q S An Rw Tr O Sd Od Md.
  destruct (jac_context A d masked ift givens unknowns M S say is_on capture P Q An solve_row Rw ift_row Tr level st ds dyn O Sd Od Md) as [r [w [H1 [H2 H3]]]].
  exists r, w. split; [exact H1|]. split; [exact H2|]. destruct r as [x|e]; [exact H3|]. split; [|exact H3].
  pose proof (run_outcome_d A d masked ift givens unknowns M S An solve_row Rw ift_row Tr level st ds dyn O Sd Od Md) as E. rewrite H2 in E.
  destruct (run_outcome A d masked givens unknowns S (answers_some d masked givens unknowns An) level st dyn O Sd) as [r' [l [E' [_ R]]]].
  rewrite E in E'. injection E' as <- <-. destruct R as [m [-> _]]. exists m. reflexivity.
Qed.
Print Assumptions C73_context_jacobian.

(** Row by row, if the segment treats the rows alone: the captured unknowns and flag of a row are what its own full step gives. *)
Theorem C73_rows : forall V (A : arith V) d say is_on masked givens unknowns solve_row level (st : smap (tensor V)) dyn e w,
  patient say -> (exists info debug, is_on Info = Ok info /\ is_on Debug = Ok debug) ->
  seg_ok givens unknowns -> answers d givens unknowns masked -> rowwise d givens unknowns masked solve_row ->
  over d dyn (map gv_var givens) st -> solid dyn (map gv_var givens) ->
  watch_substepped A say is_on true masked givens unknowns level st watch0 = (Err e, w) ->
  exists c, w_attached w = Some c /\ cx_shape c = dyn /\ length (cx_mask c) = numel dyn /\ over d dyn unknowns (cx_unknowns c) /\
    forall i, i < numel dyn ->
    solve_row (map (row_input A givens (entries (map gv_var givens) st i) (entries (map gv_var (old_states givens)) st i) (a_zero A) (a_one A)) givens) =
      (entries unknowns (cx_unknowns c) i, nth i (cx_mask c) false).
Proof.
  intros V A d say is_on masked givens unknowns solve_row level st dyn e w P Q S An Rw O Sd H.
  destruct (value_context A d masked givens unknowns S say is_on true P Q An level st dyn O Sd) as [r [w' [H1 [_ H3]]]]. rewrite H in H1. injection H1 as <- <-.
  destruct H3 as [span [span' [mask [Hs [Em [_ [c [Hc Cx]]]]]]]]. exists c. split; [exact Hc|]. pose proof Cx as [C1 [C2 [C3 [C4 _]]]].
  split; [exact C1|]. split; [rewrite C2; exact C3|]. split; [exact C4|]. exact (context_rows A d masked givens unknowns solve_row Rw st span span' dyn mask c Hs Em Cx).
Qed.
Print Assumptions C73_rows.

(** Two levels of halving suffice: seven solves, seven lines and the summary. *)
Example C73_case :
  seg_ok sx_givens sx_unknowns /\ answers cpu sx_givens sx_unknowns sx_masked /\ rowwise cpu sx_givens sx_unknowns sx_masked sx_row /\
  over cpu [2; 2] (map gv_var sx_givens) sx_st /\ solid [2; 2] (map gv_var sx_givens) /\ @patient Z sx_say /\
  is_ok (fst (sx_watch sx_say true 2)) = true /\
  w_events (snd (sx_watch sx_say true 2)) =
    [ESolve (0, 8, [0; 1; 2; 3], [true; false; false; true]); ELine Debug (NSpan 0 8 0 4 2 2);
     ESolve (0, 4, [1; 2], [true; false]); ELine Debug (NSpan 0 4 1 2 1 1);
     ESolve (0, 2, [2], [true]); ELine Debug (NSpan 0 2 2 1 1 0);
     ESolve (2, 4, [2], [true]); ELine Debug (NSpan 2 4 2 1 1 0);
     ESolve (4, 8, [1; 2], [true; false]); ELine Debug (NSpan 4 8 1 2 1 1);
     ESolve (4, 6, [2], [true]); ELine Debug (NSpan 4 6 2 1 1 0);
     ESolve (6, 8, [2], [true]); ELine Debug (NSpan 6 8 2 1 1 0);
     ELine Info (NSummary "value" 4 2 2 7)]%Z.
Proof.
  split; [exact sx_seg_ok|]. split; [exact (sx_answers cpu)|]. split; [exact (sx_rowwise cpu)|]. split; [apply sx_over|]. split; [apply sx_over|].
  split; [apply sx_patient|]. split; vm_compute; reflexivity.
Qed.
(** One does not: the error names one row and level 1; what it carries is of the full step, in which two rows failed. *)
Example C73_failure :
  is_ok (fst (sx_watch sx_say true 1)) = false /\ w_raised (snd (sx_watch sx_say true 1)) = Some (1, 1) /\
  w_attached (snd (sx_watch sx_say true 1)) = Some (mkContext [2; 2] [true; false; false; true] [("s"%string, mkT [2; 2; 1] [64; 74; 84; 94]%Z cpu)]).
Proof. vm_compute. repeat split. Qed.
(** A sink that throws: the call ends with its third line. *)
Example C73_sink : fst (sx_watch sx_fussy false 2) = Err (StdExn "sink") /\ length (w_events (snd (sx_watch sx_fussy false 2))) = 6.
Proof. vm_compute. split; reflexivity. Qed.
(** The path with derivatives. *)
Example C73_jacobian_case :
  answers_all cpu sx_givens sx_unknowns (run_implicit_masked (a_zero rationals) qx_par qx_iseg) /\
  rowwise cpu sx_givens sx_unknowns (run_implicit_masked (a_zero rationals) qx_par qx_iseg) qx_row /\
  over cpu [3] (map gv_var sx_givens) qx_st /\ solid [3] (map gv_var sx_givens) /\ over cpu [3] (map (carrier 2) (map gv_var sx_givens)) qx_ds /\
  flat_map counts (w_events (snd (qx_watch true 2))) =
    [[0; 3; 1; 2]; [1; 2; 1; 1]; [2; 1; 1; 0]; [2; 1; 1; 0]; [1; 2; 1; 1]; [2; 1; 1; 0]; [2; 1; 1; 0]; [3; 2; 2; 7]] /\
  w_raised (snd (qx_watch true 1)) = Some (1, 1) /\
  option_map (fun c => (cx_shape c, cx_mask c, shown (lookup "s"%string (cx_unknowns c)))) (w_attached (snd (qx_watch true 1))) =
    Some ([3], [true; false; false], Some ([3; 1], [(6, 1%positive); (6, 1%positive); (6, 1%positive)]%Z)).
Proof.
  split; [exact (qx_answers cpu)|]. split; [exact (qx_rowwise cpu)|]. split; [apply qx_over|]. split; [apply qx_over|]. split; [apply qx_over|].
  split; [vm_compute; reflexivity|]. split; vm_compute; reflexivity.
Qed.
