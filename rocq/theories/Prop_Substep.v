(** Properties C35 (intervals), C36 (rows), C37 (failure) and C38 (interpolation) of adaptive substepping. *)
From Verif Require Import Base BaseProofs SpecMap SmapProofs Tensor Spec Pack Implicit Substep SpecSubstep DriveProofs RowTableProofs
     SubstepProofs SubstepRunProofs SpecDyadic DyadicProofs Float Example_Substep.

(** * C35: the accepted intervals *)

(** In a successful call every row's accepted intervals follow each other from 0 to 1, each got by at most
    [level] halvings; in any call there are fewer than [2 ^ (level + 1)] solves. *)
Theorem C35_tiling : forall V (A : arith V) d masked givens unknowns level (st : smap (tensor V)) dyn,
  seg_ok givens unknowns -> answers d givens unknowns masked -> over d dyn (map gv_var givens) st -> solid dyn (map gv_var givens) ->
  exists r log, run_substepped A masked givens unknowns level st = (r, log) /\ length log < 2 ^ S level /\
    forall st', r = Ok st' -> forall i, i < numel dyn ->
      chain (a_zero A) (a_one A) (accepted (Z.of_nat i) log) /\
      forall x y, In (x, y) (accepted (Z.of_nat i) log) ->
        exists n, n <= level /\ halved (middle A) n (a_zero A) (a_one A) x y.
Proof.
  intros V A d masked givens unknowns level st dyn S An O Sd.
  destruct (run_outcome A d masked givens unknowns S An level st dyn O Sd) as [r [l [E [C R]]]].
  exists r, l. split; [exact E|]. split; [exact C|]. intros st' ->. apply R.
Qed.
Print Assumptions C35_tiling.

(** In exact arithmetic [n] halvings of [0, 1] give an interval from [k / 2^n] to [(k+1) / 2^n]. *)
Theorem C35_dyadic : forall n x y, halved (middle rationals) n (a_zero rationals) (a_one rationals) x y ->
  exists k, (k < 2 ^ n)%nat /\ x = dyadic k n /\ y = dyadic (S k) n.
Proof. exact halved_dyadic. Qed.
Print Assumptions C35_dyadic.

Example C35_case : seg_ok sx_givens sx_unknowns /\ answers cpu sx_givens sx_unknowns sx_masked /\
  over cpu [2; 2] (map gv_var sx_givens) sx_st /\ solid [2; 2] (map gv_var sx_givens) /\
  is_ok (fst (run_substepped fx sx_masked sx_givens sx_unknowns 2 sx_st)) = true /\
  map (fun i => accepted (Z.of_nat i) (snd (run_substepped fx sx_masked sx_givens sx_unknowns 2 sx_st))) (seq 0 4) =
    [[(0, 8)]; [(0, 4); (4, 8)]; [(0, 2); (2, 4); (4, 6); (6, 8)]; [(0, 8)]]%Z /\
  length (snd (run_substepped fx sx_masked sx_givens sx_unknowns 2 sx_st)) = 7.
Proof.
  split; [exact sx_seg_ok|]. split; [exact (sx_answers cpu)|]. split; [apply sx_over|]. split; [apply sx_over|].
  split; [vm_compute; reflexivity|]. split; vm_compute; reflexivity.
Qed.

(** * C36: rows *)

(** When the masked solve treats rows independently, every row ends where it would alone; the call fails only
    if some row fails alone. *)
Theorem C36_rows : forall V (A : arith V) d masked givens unknowns solve_row level (st : smap (tensor V)) dyn,
  seg_ok givens unknowns -> answers d givens unknowns masked -> rowwise d givens unknowns masked solve_row ->
  over d dyn (map gv_var givens) st -> solid dyn (map gv_var givens) ->
  let alone i := advance A givens unknowns solve_row level (a_zero A) (a_one A)
                   (entries (map gv_var givens) st i) (entries (map gv_var (old_states givens)) st i) in
  match fst (run_substepped A masked givens unknowns level st) with
  | Ok st' => (forall i, i < numel dyn -> exists c, alone i = Some (entries unknowns st' i, c)) /\
      over d dyn unknowns st' /\ (forall n, ~ In n (unknown_names unknowns) -> lookup n st' = lookup n st)
  | Err _ => exists i, i < numel dyn /\ alone i = None
  end.
Proof.
  intros V A d masked givens unknowns solve_row level st dyn S An Rw O Sd alone.
  pose proof (run_rows A d masked givens unknowns S An solve_row Rw level st dyn O Sd) as R.
  destruct (run_outcome A d masked givens unknowns S An level st dyn O Sd) as [r [l [E [_ R']]]]. rewrite E in R |- *. cbn [fst] in *.
  destruct r as [st'|e]; [|exact R]. split; [exact R|]. split; apply R'.
Qed.
Print Assumptions C36_rows.

(** The same against the driver itself: a row's result is that of a batch with just this row. *)
Theorem C36_one_row_batch : forall V (A : arith V) d masked givens unknowns solve_row level (st : smap (tensor V)) dyn,
  seg_ok givens unknowns -> answers d givens unknowns masked -> rowwise d givens unknowns masked solve_row ->
  over d dyn (map gv_var givens) st -> solid dyn (map gv_var givens) ->
  let single i st1 := over d [1] (map gv_var givens) st1 /\ entries (map gv_var givens) st1 0 = entries (map gv_var givens) st i in
  match fst (run_substepped A masked givens unknowns level st) with
  | Ok st' => forall i st1, i < numel dyn -> single i st1 -> exists st1',
      fst (run_substepped A masked givens unknowns level st1) = Ok st1' /\ entries unknowns st1' 0 = entries unknowns st' i
  | Err _ => exists i, i < numel dyn /\ forall st1, single i st1 -> exists w,
      fst (run_substepped A masked givens unknowns level st1) = Err (Convergence w)
  end.
Proof. intros V. exact one_row_batch. Qed.
Print Assumptions C36_one_row_batch.

Definition sx_row2 : smap (tensor Z) :=
  [("f", mkT [1; 1] [8]%Z cpu); ("f~1", mkT [1; 1] [0]%Z cpu); ("p", mkT [1; 1] [2]%Z cpu); ("s~1", mkT [1; 1] [20]%Z cpu)]%string.
Example C36_case : rowwise cpu sx_givens sx_unknowns sx_masked sx_row /\
  (exists st', fst (run_substepped fx sx_masked sx_givens sx_unknowns 2 sx_st) = Ok st' /\
     lookup "s" st' = Some (mkT [2; 2; 1] [64; 42; 36; 94]%Z cpu)) /\
  over cpu [1] (map gv_var sx_givens) sx_row2 /\
  entries (map gv_var sx_givens) sx_row2 0 = entries (map gv_var sx_givens) sx_st 2 /\
  (exists st', fst (run_substepped fx sx_masked sx_givens sx_unknowns 2 sx_row2) = Ok st' /\ lookup "s" st' = Some (mkT [1; 1] [36]%Z cpu)).
Proof.
  split; [exact (sx_rowwise cpu)|]. split; [eexists; split; [vm_compute; reflexivity|reflexivity]|]. split.
  { intros v I. cbn in I. intuition subst; eexists; repeat split; reflexivity. }
  split; [reflexivity|]. eexists. split; [vm_compute; reflexivity|reflexivity].
Qed.

(** * C37: failure *)

(** Either the call returns, and every row was advanced to the end, or it raises a convergence error, and a
    solve on an interval halved [level] times had a row that failed. *)
Theorem C37_all_or_raise : forall V (A : arith V) d masked givens unknowns level (st : smap (tensor V)) dyn,
  seg_ok givens unknowns -> answers d givens unknowns masked -> over d dyn (map gv_var givens) st -> solid dyn (map gv_var givens) ->
  match run_substepped A masked givens unknowns level st with
  | (Ok st', log) => over d dyn unknowns st' /\ forall i, i < numel dyn -> chain (a_zero A) (a_one A) (accepted (Z.of_nat i) log)
  | (Err e, log) => (exists w, e = Convergence w) /\
      exists x y rows mask, In (x, y, rows, mask) log /\ halved (middle A) level (a_zero A) (a_one A) x y /\ In false mask
  end.
Proof.
  intros V A d masked givens unknowns level st dyn S An O Sd.
  destruct (run_outcome A d masked givens unknowns S An level st dyn O Sd) as [r [l [-> [_ R]]]]. destruct r as [st'|e].
  - split; [apply R|]. intros i Hi. apply R. exact Hi.
  - destruct R as [w [E R]]. split; [exists w; exact E|exact R].
Qed.
Print Assumptions C37_all_or_raise.

(** A row that fails alone makes the call raise. *)
Theorem C37_failing_row_raises : forall V (A : arith V) d masked givens unknowns solve_row level (st : smap (tensor V)) dyn i,
  seg_ok givens unknowns -> answers d givens unknowns masked -> rowwise d givens unknowns masked solve_row ->
  over d dyn (map gv_var givens) st -> solid dyn (map gv_var givens) -> i < numel dyn ->
  advance A givens unknowns solve_row level (a_zero A) (a_one A)
    (entries (map gv_var givens) st i) (entries (map gv_var (old_states givens)) st i) = None ->
  exists w, fst (run_substepped A masked givens unknowns level st) = Err (Convergence w).
Proof. intros V. exact failing_row_raises. Qed.
Print Assumptions C37_failing_row_raises.

(** Whatever the masked solve raises itself is passed on, and no state comes back. *)
Theorem C37_solve_error_passes : forall V (A : arith V) d masked givens unknowns level (st : smap (tensor V)) dyn e,
  seg_ok givens unknowns -> over d dyn (map gv_var givens) st -> solid dyn (map gv_var givens) ->
  (forall n span, table d n (given_shapes givens) span -> masked span = Err e) ->
  run_substepped A masked givens unknowns level st = (Err e, []).
Proof. intros V. exact solve_error_passes. Qed.
Print Assumptions C37_solve_error_passes.

Example C37_case :
  (exists w, fst (run_substepped fx sx_masked sx_givens sx_unknowns 1 sx_st) = Err (Convergence w)) /\
  advance fx sx_givens sx_unknowns sx_row 1 0%Z 8%Z (entries (map gv_var sx_givens) sx_st 2)
    (entries (map gv_var (old_states sx_givens)) sx_st 2) = None /\
  advance fx sx_givens sx_unknowns sx_row 1 0%Z 8%Z (entries (map gv_var sx_givens) sx_st 1)
    (entries (map gv_var (old_states sx_givens)) sx_st 1) = Some ([[42%Z]], [[42%Z]]).
Proof. split; [eexists; vm_compute; reflexivity|]. split; vm_compute; reflexivity. Qed.

(** * C38: interpolation *)

(** What the solve on [a, b] is given for the batch row [i]. *)
Theorem C38_inputs : forall V (A : arith V) d givens unknowns n (orig ch : smap (tensor V)) a b,
  seg_ok givens unknowns -> table d n (given_shapes givens) orig -> table d n (given_shapes (old_states givens)) ch ->
  exists span, apply_span A givens orig a b ch [] = Ok span /\ table d n (given_shapes givens) span /\
  forall g i, In g givens -> val span (given_name g) i =
    (if String.eqb (gv_role g) "cur_force" then between A (val orig (gv_pair g) i) (val orig (given_name g) i) b
     else if String.eqb (gv_role g) "old_force" then between A (val orig (given_name g) i) (val orig (gv_pair g) i) a
     else if String.eqb (gv_role g) "old_state" then val ch (given_name g) i
     else val orig (given_name g) i).
Proof. intros V. exact span_inputs. Qed.
Print Assumptions C38_inputs.

(** No substep is solved with anything but an accepted state for an old-state input: without one the interpolation raises,
    whatever the caller's inputs hold under that name. *)
Theorem C38_unchained : forall V (A : arith V) givens (orig ch dst span : smap (tensor V)) a b g,
  apply_span A givens orig a b ch dst = Ok span -> In g givens -> gv_role g = "old_state"%string -> lookup (given_name g) ch <> None.
Proof.
  intros V A givens orig ch dst span a b g E I R. revert dst E. induction givens as [|x gs IH]; intros dst E; [destruct I|].
  cbn [apply_span] in E. apply bind_ok in E as (t & Et & E). destruct I as [->|I]; [|exact (IH I _ E)].
  unfold span_entry in Et. rewrite R in Et. cbn [String.eqb Ascii.eqb Bool.eqb] in Et. change (v_name (gv_var g)) with (given_name g) in Et.
  destruct (lookup (given_name g) ch); [discriminate|discriminate Et].
Qed.
Print Assumptions C38_unchained.
Example C38_unchained_case : exists w, apply_span fx sx_givens sx_st 0%Z 8%Z [] [] = Err (Fatal w).
Proof. eexists. vm_compute. reflexivity. Qed.

(** Two consecutive substeps [a, m] and [m, b]: the force at the end of the first is, bit for bit, the old force of the second. *)
Theorem C38_shared_endpoint : forall V (A : arith V) d givens unknowns n (orig ch ch' s1 s2 : smap (tensor V)) a m b g g' i,
  seg_ok givens unknowns -> table d n (given_shapes givens) orig ->
  table d n (given_shapes (old_states givens)) ch -> table d n (given_shapes (old_states givens)) ch' ->
  apply_span A givens orig a m ch [] = Ok s1 -> apply_span A givens orig m b ch' [] = Ok s2 ->
  In g givens -> In g' givens -> gv_role g = "cur_force"%string -> gv_role g' = "old_force"%string ->
  gv_pair g = given_name g' -> gv_pair g' = given_name g ->
  val s1 (given_name g) i = val s2 (given_name g') i.
Proof. intros V. exact shared_endpoint. Qed.
Print Assumptions C38_shared_endpoint.

(** In exact arithmetic the first substep starts at the old force and the last ends at the prescribed one. *)
Theorem C38_ends : forall V (A : arith V) (o w : list V), exact_ends A -> length o = length w ->
  between A o w (a_zero A) = o /\ between A o w (a_one A) = w.
Proof. intros V. exact between_ends. Qed.
Print Assumptions C38_ends.

(** Finding: not so in binary64. A force that goes from 1 to 2^-60 is taken as 0, even in one step. *)
Definition doubles : arith F := mkArith fadd fsub fmul fzero fone fhalf.
Theorem C38_float_end_refuted : exists o w : F, ffinite o = true /\ ffinite w = true /\
  between doubles [o] [w] fone = [fzero] /\ w <> fzero.
Proof. exists fone, (fnum 1 (-60)). split; [reflexivity|]. split; [reflexivity|]. split; [vm_compute; reflexivity|discriminate]. Qed.
Print Assumptions C38_float_end_refuted.
(** Nor is the start always the old force: it becomes NaN when the difference overflows. *)
Theorem C38_float_start_refuted : exists o w : F, ffinite o = true /\ ffinite w = true /\ between doubles [o] [w] fzero = [S754_nan].
Proof. exists (fnum (-1) 1023), (fnum 1 1023). split; [reflexivity|]. split; [reflexivity|]. vm_compute. reflexivity. Qed.
Print Assumptions C38_float_start_refuted.

Example C38_case : exact_ends rationals /\
  between fx [0; 16]%Z [8; 0]%Z 2%Z = [2; 12]%Z /\
  fst (run_substepped fx (fun m => Err (StdExn "x")) sx_givens sx_unknowns 2 sx_st) = Err (StdExn "x").
Proof. split; [exact rationals_exact|]. split; vm_compute; reflexivity. Qed.
