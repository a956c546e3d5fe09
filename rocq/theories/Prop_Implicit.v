(** Properties C40 (initial guess), C50 (predictor rounds) and C53 (captured failures) of implicit segments. *)
From Verif Require Import Base BaseProofs Tensor Spec TensorProofs Broadcast SpecBroadcast Pack SpecPack PackProofs Implicit SpecImplicit
     ImplicitProofs Substep SubstepGuess Float Newton SpecNewton NewtonProofs MaskedProofs CaptureProofs Example_Newton.

(** * C50: predictor rounds *)

(** With feedback: exactly the configured number of evaluations, from zeros, each with the output of the one before. *)
Theorem C50_feedback_rounds : forall V (zero : V) par sg p dev batch (st st' : smap (tensor V)) calls,
  is_predictor sg = Some p -> feedback_ok p -> NoDup (pr_outputs p) ->
  run_predictor zero par sg dev batch st = (Ok st', calls) ->
  length calls = Z.to_nat (fb_iterations (pr_feedback p)) /\
  exists ps e0, mapM par (pr_params p) = Ok ps /\
    e0 (fb_input (pr_feedback p)) = Some (zeros zero (batch ++ fb_sub (pr_feedback p) ++ fb_base (pr_feedback p)) dev) /\
    (forall n, n <> fb_input (pr_feedback p) -> e0 n = lookup n st) /\
    rounds p dev ps (Z.to_nat (fb_iterations (pr_feedback p))) e0 calls (fun n => lookup n st').
Proof.
  intros V zero par sg p dev batch st st' calls Es Fo N H.
  destruct (run_rounds zero par sg p dev batch st st' calls Es Fo N H) as [ps [e0 [Ep [E0 [E1 R]]]]].
  split; [exact (rounds_length _ _ _ _ _ _ _ R)|]. exists ps, e0. repeat split; assumption.
Qed.
Print Assumptions C50_feedback_rounds.

(** Inputs the predictor does not write are the same in every evaluation. *)
Theorem C50_other_inputs : forall V (p : predictor V) dev ps k e e' calls,
  rounds p dev ps k e calls e' -> forall n, In n (pr_inputs p) -> n <> fb_input (pr_feedback p) -> ~ In n (pr_outputs p) ->
  e' n = e n /\ forall c, In c calls -> exists ins, c = ins ++ ps /\ length ins = length (pr_inputs p) /\
    forall i, nth_error (pr_inputs p) i = Some n -> nth_error ins i = e n.
Proof. intros V. exact rounds_inputs. Qed.
Print Assumptions C50_other_inputs.

(** What is left in the state are the results of the last evaluation. *)
Theorem C50_last_outputs : forall V (p : predictor V) dev ps k e e' calls, rounds p dev ps k e calls e' -> 0 < k ->
  exists c outs, In c calls /\ last calls [] = c /\ pr_run p c = Ok outs /\ length outs = length (pr_outputs p) /\
    forall n t, n <> fb_input (pr_feedback p) -> delivers p dev outs n t -> e' n = Some t.
Proof. intros V. exact rounds_last. Qed.
Print Assumptions C50_last_outputs.

(** Without feedback: one evaluation. *)
Theorem C50_without_feedback : forall V (zero : V) par sg p dev batch (st st' : smap (tensor V)) calls,
  is_predictor sg = Some p -> no_feedback p -> NoDup (pr_outputs p) ->
  run_predictor zero par sg dev batch st = (Ok st', calls) ->
  exists ins ps outs, mapM par (pr_params p) = Ok ps /\ reads (pr_inputs p) (fun n => lookup n st) ins /\
    calls = [ins ++ ps] /\ pr_run p (ins ++ ps) = Ok outs /\ length outs = length (pr_outputs p) /\
    (forall n t, delivers p dev outs n t -> lookup n st' = Some t) /\
    (forall n, ~ In n (pr_outputs p) -> lookup n st' = lookup n st).
Proof. intros V. exact run_once. Qed.
Print Assumptions C50_without_feedback.

(** Never more evaluations, whatever happens. *)
Theorem C50_bounded : forall V (zero : V) par sg p dev batch (st : smap (tensor V)) r calls,
  is_predictor sg = Some p -> run_predictor zero par sg dev batch st = (r, calls) ->
  length calls <= (if (0 <? fb_iterations (pr_feedback p))%Z then Z.to_nat (fb_iterations (pr_feedback p)) else 1).
Proof. intros V. exact run_calls. Qed.
Print Assumptions C50_bounded.

(** And it does run when its inputs are there. *)
Theorem C50_runs : forall V (zero : V) par sg p dev batch ps (st : smap (tensor V)),
  is_predictor sg = Some p -> NoDup (pr_outputs p) -> (no_feedback p \/ feedback_ok p) -> total p ->
  mapM par (pr_params p) = Ok ps ->
  (forall n, In n (pr_inputs p) -> (feedback_ok p /\ n = fb_input (pr_feedback p)) \/ lookup n st <> None) ->
  exists st' calls, run_predictor zero par sg dev batch st = (Ok st', calls).
Proof. intros V. exact predictor_runs. Qed.
Print Assumptions C50_runs.

(** z = x + y, with z fed back into x three times; "u" is an unknown guessed from it, "w" one that is not. *)
Local Open Scope string_scope.
Definition ex50_run (ts : list (tensor Z)) : result (list (tensor Z)) :=
  match ts with
  | [x; y] => Ok [mkT (t_shape y) (map (fun p => (fst p + snd p)%Z) (combine (t_data x) (t_data y))) cpu]
  | _ => Ok [mkT [] [0%Z] cpu]
  end.
Definition ex50_pred (k : Z) := mkPred ["x"; "y"] [] ["u"] (mkFb k "x" "u" [] [1]) ex50_run.
Definition ex50_echo (gs ps us : list (tensor Z)) : result (list (tensor Z)) := Ok us.
Definition ex50_seg (p : option (predictor Z)) :=
  mkIseg [mkGiven (mkVar "y" [] [1]) "" ""] [mkVar "u" [] [1]; mkVar "w" [] [2]] [mkGroup "dense" [] [mkVar "y" [] [1]]]
         [mkGroup "dense" [] [mkVar "u" [] [1]; mkVar "w" [] [2]]] [] p ex50_echo (fun gs ps us => Ok (us, [true; true])).
Definition ex50_par (n : string) : result (tensor Z) := Err (StdExn n).
Definition ex50_st : smap (tensor Z) := [("w", mkT [2; 2] [7; 8; 9; 10]%Z cpu); ("y", mkT [2; 1] [2; 5]%Z cpu)].
Example C50_case :
  feedback_ok (ex50_pred 3) /\ total (ex50_pred 3) /\ NoDup (pr_outputs (ex50_pred 3)) /\ no_feedback (ex50_pred 0) /\
  run_predictor 0%Z ex50_par (ex50_seg (Some (ex50_pred 3))) cpu [2] ex50_st =
    (Ok [("u", mkT [2; 1] [6; 15]%Z cpu); ("w", mkT [2; 2] [7; 8; 9; 10]%Z cpu); ("x", mkT [2; 1] [6; 15]%Z cpu); ("y", mkT [2; 1] [2; 5]%Z cpu)],
     [[mkT [2; 1] [0; 0]%Z cpu; mkT [2; 1] [2; 5]%Z cpu]; [mkT [2; 1] [2; 5]%Z cpu; mkT [2; 1] [2; 5]%Z cpu];
      [mkT [2; 1] [4; 10]%Z cpu; mkT [2; 1] [2; 5]%Z cpu]]) /\
  length (snd (run_predictor 0%Z ex50_par (ex50_seg (Some (ex50_pred 0))) cpu [2]
                             (("x", mkT [2; 1] [1; 1]%Z cpu) :: ex50_st))) = 1.
Proof.
  split; [split; [reflexivity|split; left; reflexivity]|]. split.
  { intros [|x [|y [|z l]]]; eexists; split; reflexivity. }
  split; [repeat constructor; intros []|]. split; [reflexivity|]. split; vm_compute; reflexivity.
Qed.

(** * C40: initial guess *)

(** What holds, for the solve without substepping: the guess has the supplied value of every unknown the caller
    supplied, zeros for one without, and for those a predictor writes its last results.
    Missing for the full property: the substepped solve, where it is false ([C40_substepped_refuted]). *)
Theorem C40_guess_partial : forall V (zero : V) par sg (st st' : smap (tensor V)) dyn d gs ps us calls,
  seg_fits sg st dyn d -> prepare_solve zero par sg st = (Ok (st', gs, ps, us), calls) -> predicts sg dyn (last calls []) ->
  forall v, In v (flat_map g_vars (is_unknown_groups sg)) ->
  (~ predicted sg (v_name v) -> forall t, lookup (v_name v) st = Some t -> guess_is (is_unknown_groups sg) us dyn v t) /\
  (~ predicted sg (v_name v) -> lookup (v_name v) st = None ->
     guess_is (is_unknown_groups sg) us dyn v (zeros zero (dyn ++ v_sub v ++ v_base v) d)) /\
  (forall p, is_predictor sg = Some p -> In (v_name v) (pr_outputs p) ->
     exists outs t, calls <> [] /\ pr_run p (last calls []) = Ok outs /\ delivers p d outs (v_name v) t /\
       guess_is (is_unknown_groups sg) us dyn v t).
Proof. intros V. exact initial_guess. Qed.
Print Assumptions C40_guess_partial.

(** And the solve gets that guess: what is returned is the solve's answer to it, unpacked. *)
Theorem C40_solve_gets_guess : forall V (zero : V) par capture sg (st st' : smap (tensor V)),
  run_implicit zero par capture sg st = Ok st' ->
  exists st1 gs ps us calls u, prepare_solve zero par sg st = (Ok (st1, gs, ps, us), calls) /\ is_solve sg gs ps us = Ok u /\
    unpack_groups u (is_unknown_groups sg) st1 = Ok st'.
Proof. intros V. exact run_implicit_ok. Qed.
Print Assumptions C40_solve_gets_guess.

(** Finding: with substepping nothing but the givens is read, so neither supplied unknowns nor other
    predictor inputs have any effect: states that agree on the givens get the same solves and unknowns. *)
Theorem C40_substepping_ignores_guess : forall V (A : arith V) masked givens unknowns level (st st' : smap (tensor V)),
  (forall n, In n (map (fun g => v_name (gv_var g)) givens) -> lookup n st = lookup n st') ->
  snd (run_substepped A masked givens unknowns level st) = snd (run_substepped A masked givens unknowns level st') /\
  match fst (run_substepped A masked givens unknowns level st), fst (run_substepped A masked givens unknowns level st') with
  | Ok r, Ok r' => forall n, In n (map v_name unknowns) -> lookup n r = lookup n r'
  | Err e, Err e' => e = e'
  | _, _ => False
  end.
Proof. intros V A masked givens unknowns level st st'. exact (substepped_ignores A masked givens unknowns level st st'). Qed.
Print Assumptions C40_substepping_ignores_guess.

Definition ex40_arith : arith Z := mkArith Z.add Z.sub Z.mul 0%Z 1%Z 0%Z.
Definition ex40_st : smap (tensor Z) := ("u", mkT [2; 1] [3; 4]%Z cpu) :: ex50_st.
Theorem C40_substepped_refuted : exists sg (st : smap (tensor Z)) r r',
  seg_fits sg st [2] cpu /\ is_predictor sg = None /\
  run_implicit 0%Z ex50_par false sg st = Ok r /\ lookup "u" r = lookup "u" st /\
  fst (run_substepped ex40_arith (run_implicit_masked 0%Z ex50_par sg) (is_givens sg) (is_unknowns sg) 0 st) = Ok r' /\
  lookup "u" r' = Some (mkT [2; 1] [0; 0]%Z cpu) /\ lookup "u" st = Some (mkT [2; 1] [3; 4]%Z cpu).
Proof.
  exists (ex50_seg None), ex40_st. eexists. eexists. split.
  { split; [repeat constructor; intros H; try discriminate; repeat constructor|].
    split; [eexists; eexists; eexists; repeat split|]. split; [intros v [<-|[<-|[]]]; cbn; tauto|].
    split; [intros v v' [<-|[<-|[]]] [<-|[<-|[]]] H; try reflexivity; discriminate|].
    split; [|discriminate]. intros v t [<-|[<-|[]]] H; injection H as <-; repeat split. }
  split; [reflexivity|]. split; [vm_compute; reflexivity|]. split; [vm_compute; reflexivity|].
  split; [vm_compute; reflexivity|]. split; reflexivity.
Qed.
Print Assumptions C40_substepped_refuted.

(** With a predictor: "u" comes from it, "w" as supplied. *)
Example C40_case :
  seg_fits (ex50_seg (Some (ex50_pred 3))) ex50_st [2] cpu /\
  fst (prepare_solve 0%Z ex50_par (ex50_seg (Some (ex50_pred 3))) ex50_st) =
    Ok ([("u", mkT [2; 1] [6; 15]%Z cpu); ("w", mkT [2; 2] [7; 8; 9; 10]%Z cpu); ("x", mkT [2; 1] [6; 15]%Z cpu); ("y", mkT [2; 1] [2; 5]%Z cpu)],
        [mkT [2; 1] [2; 5]%Z cpu], [], [mkT [2; 3] [6; 7; 8; 15; 9; 10]%Z cpu]) /\
  fst (prepare_solve 0%Z ex50_par (ex50_seg None) (skipn 1 ex50_st)) =
    Ok ([("u", mkT [2; 1] [0; 0]%Z cpu); ("w", mkT [2; 2] [0; 0; 0; 0]%Z cpu); ("y", mkT [2; 1] [2; 5]%Z cpu)],
        [mkT [2; 1] [2; 5]%Z cpu], [], [mkT [2; 3] [0; 0; 0; 0; 0; 0]%Z cpu]).
Proof.
  split; [|split; vm_compute; reflexivity].
  split; [repeat constructor; intros H; try discriminate; repeat constructor|].
  split; [eexists; eexists; eexists; repeat split|]. split; [intros v [<-|[<-|[]]]; cbn; tauto|].
  split; [intros v v' [<-|[<-|[]]] [<-|[<-|[]]] H; try reflexivity; discriminate|].
  split; [intros v t [<-|[<-|[]]] H; [discriminate H|]; injection H as <-; repeat split|].
  intros p E. injection E as <-. split; [repeat constructor; intros []|].
  split; [right; split; [reflexivity|split; left; reflexivity]|].
  intros v [<-|[<-|[]]]; discriminate.
Qed.
Example C40_predicts :
  predicts (ex50_seg (Some (ex50_pred 3))) [2] (last (snd (prepare_solve 0%Z ex50_par (ex50_seg (Some (ex50_pred 3))) ex50_st)) []).
Proof.
  intros p outs v i o E. injection E as <-. intros Hr Iv Hi Ho. vm_compute in Hr. injection Hr as <-.
  destruct i as [|[|i]]; try discriminate. cbn in Hi, Ho. injection Ho as <-. injection Hi as Hi.
  destruct Iv as [<-|[<-|[]]]; [repeat split|discriminate Hi].
Qed.

(** * C53: captured failures *)

(** Capture changes neither a result nor an error of another class, whatever the masked solve does ... *)
Theorem C53_capture_same : forall V (zero : V) par sg (st : smap (tensor V)),
  (forall st', run_implicit zero par true sg st = Ok st' <-> run_implicit zero par false sg st = Ok st') /\
  (forall e, (forall w, e <> Convergence w) -> run_implicit zero par false sg st = Err e -> run_implicit zero par true sg st = Err e).
Proof. intros V. exact capture_same. Qed.
Print Assumptions C53_capture_same.

(** ... and when the masked solve returns an iterate of the system, a failure to converge is the same error too. *)
Theorem C53_capture_transparent : forall V (zero : V) par sg (st : smap (tensor V)),
  Forall group_ok (is_unknown_groups sg) -> NoDup (names (is_unknown_groups sg)) ->
  (forall v, In v (is_unknowns sg) -> In (v_name v) (names (is_unknown_groups sg))) ->
  (forall st1 gs ps us calls, prepare_solve zero par sg st = (Ok (st1, gs, ps, us), calls) ->
     exists us' mask, is_solve_masked sg gs ps us = Ok (us', mask) /\
     Forall2 (fun g gt => exists dyn d, group_tensor g dyn d gt) (is_unknown_groups sg) us') ->
  run_implicit zero par true sg st = run_implicit zero par false sg st.
Proof. intros V. exact capture_transparent. Qed.
Print Assumptions C53_capture_transparent.

Definition ex53_seg : iseg Z :=
  mkIseg [mkGiven (mkVar "y" [] [1]) "" ""] [mkVar "u" [] [1]; mkVar "w" [] [2]] [mkGroup "dense" [] [mkVar "y" [] [1]]]
         [mkGroup "dense" [] [mkVar "u" [] [1]; mkVar "w" [] [2]]] [] None
         (fun _ _ _ => Err (Convergence "did not converge")) (fun gs ps us => Ok (us, [true; false])).
Example C53_hypotheses :
  Forall group_ok (is_unknown_groups ex53_seg) /\ NoDup (names (is_unknown_groups ex53_seg)) /\
  (exists st1 gs ps us calls, prepare_solve 0%Z ex50_par ex53_seg ex50_st = (Ok (st1, gs, ps, us), calls) /\
     Forall2 (fun g gt => exists dyn d, group_tensor g dyn d gt) (is_unknown_groups ex53_seg) us) /\
  run_implicit 0%Z ex50_par true ex53_seg ex50_st = Err (Convergence "did not converge").
Proof.
  split; [repeat constructor; intros H; try discriminate; repeat constructor|].
  split; [cbn; repeat (constructor; [cbn; intuition discriminate|]); constructor|].
  split; [|vm_compute; reflexivity]. do 5 eexists. split; [vm_compute; reflexivity|].
  constructor; [|constructor]. exists [2], cpu. repeat split.
Qed.

(** The mask captured with a failure: for a single row it says that the row did not converge. *)
Theorem C53_one_row_marked : forall fsum cfg s u0 w t x t', length u0 = 1 -> flt fzero (cf_atol cfg) = true ->
  solve fsum cfg s u0 = (Err (Convergence w), t) -> solve_masked fsum cfg s u0 = (Ok x, t') -> snd (fst x) = [false].
Proof. exact capture_one. Qed.
Print Assumptions C53_one_row_marked.
Example C53_one_row_case :
  flt fzero (cf_atol (with_miters 5 cfg0)) = true /\
  is_ok (fst (solve sum0 (with_miters 5 cfg0) (rows_system [1] [slow_sys]) [at1 fone])) = false /\
  rmap (fun x => snd (fst x)) (fst (solve_masked sum0 (with_miters 5 cfg0) (rows_system [1] [slow_sys]) [at1 fone])) = Ok [false].
Proof. split; [reflexivity|]. split; vm_compute; reflexivity. Qed.

(** Finding: for several rows the mask can be all true although the solve failed; the rows solved in
    different iterations are frozen by the masked solve but carried on by the other.  The captured
    context then names no row to blame. *)
Definition ex53_at (lo hi : F) : rowsys :=
  rs1 (fun x => if flt x lo then fone else if flt x hi then fzero else fone) (fun _ => fone).
Theorem C53_some_row_marked_refuted : exists q q' x0 x0' w u k,
  keeps_shape [1] q /\ keeps_shape [1] q' /\
  fst (solve sum0 (with_miters 5 cfg0) (rows_system [1] [q; q']) [x0; x0']) = Err (Convergence w) /\
  fst (solve_masked sum0 (with_miters 5 cfg0) (rows_system [1] [q; q']) [x0; x0']) = Ok (u, [true; true], k).
Proof.
  exists (ex53_at fhalf (fnum 3 (-1))), (ex53_at (fnum 3 (-1)) (fnum 5 (-1))), (at1 fzero), (at1 fzero). do 3 eexists.
  split; [apply rs1_keeps|]. split; [apply rs1_keeps|]. split; vm_compute; reflexivity.
Qed.
Print Assumptions C53_some_row_marked_refuted.
