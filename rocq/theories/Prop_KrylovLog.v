(** Property C75: the log of the linear solves. *)
From Coq Require Import QArith Qcanon Reals Lra.
From Verif Require Import Base Tensor Float Newton Krylov SpecKrylov SpecGmres KrylovSystem Log KrylovLog SpecKrylovLog
     KrylovLogProofs KrylovLinesProofs KrylovLogSolveProofs KrylovLogGmresProofs KrylovLogStepProofs
     KrylovDenseProofs Example_Krylov Example_Gmres Example_KrylovLog.
Local Close Scope Q_scope.
Local Close Scope R_scope.
Local Open Scope list_scope.

(** Watching changes nothing: the same calls in the same order and the same answer, unless the sink raises.  Then the
    solve ends with that exception, right after that line, having made the first of the calls. *)
Theorem C75_watched : forall V (N : num V) rsum edot tri vmax say matvec minv hook b cfg r ev,
  log_solve N rsum edot tri vmax say matvec minv hook b cfg [] = (r, ev) ->
  let silent := krylov_solve N rsum edot tri matvec minv b cfg in
  ((r, calls_in ev) = silent \/ (exists e, r = Err e /\ cut_short say [] ev e /\ begins (calls_in ev) (snd silent))) /\
  (accepts say -> (r, calls_in ev) = silent).
Proof.
  intros V N rsum edot tri vmax say matvec minv hook b cfg r ev H. cbv zeta.
  destruct (tracks_solve say N rsum edot tri vmax matvec minv hook b cfg _ _ _ H) as (ev' & E & T). cbn [app] in E. subst ev'.
  destruct (krylov_solve N rsum edot tri matvec minv b cfg) as [rk lk]. cbn [fst snd] in T |- *.
  assert (Q : over (fun x => x) r = r) by (destruct r; reflexivity). rewrite Q in T.
  destruct T as [[-> ->]|T]; [auto|]. split; [right; exact T|]. intros A. destruct T as (e & _ & (bf & l & m & _ & Es) & _).
  rewrite A in Es. discriminate.
Qed.
Print Assumptions C75_watched.

(** A solve without a hook writes nothing. *)
Theorem C75_unwatched : forall V (N : num V) rsum edot tri vmax say matvec minv b cfg r ev,
  log_solve N rsum edot tri vmax say matvec minv false b cfg [] = (r, ev) -> lines_in ev = [].
Proof. intros V N rsum edot tri vmax say matvec minv b cfg r ev H. apply (solve_lines N rsum edot tri vmax say matvec minv false b cfg r ev H). reflexivity. Qed.
Print Assumptions C75_unwatched.

(** With a hook the lines are about the iterations 1, 2, 3, ..., each of them a largest norm and a largest ratio of the
    same norms, one per row; a solve that returns has written one for each iteration it reports. *)
Theorem C75_numbered : forall V (N : num V) rsum edot tri vmax say matvec minv b cfg r ev,
  log_solve N rsum edot tri vmax say matvec minv true b cfg [] = (r, ev) ->
  iterations (lines_in ev) = seq 1 (length (lines_in ev)) /\
  (forall j ln, nth_error (lines_in ev) j = Some ln -> exists es, length es = length b /\ ln = line_says N rsum vmax b (S j) es) /\
  (forall res, r = Ok res -> length (lines_in ev) = kr_iters res).
Proof.
  intros V N rsum edot tri vmax say matvec minv b cfg r ev H.
  destruct (solve_lines N rsum edot tri vmax say matvec minv true b cfg r ev H) as (_ & S2 & S3). cbv zeta in S2, S3. split; [|split].
  - apply (numbered_iterations N rsum edot tri vmax say matvec minv (fun x => x) b). intros j ln E. destruct (S2 j ln E) as (es & _ & Q & _). eauto.
  - intros j ln E. destruct (S2 j ln E) as (es & L & Q & _). exists es. auto.
  - intros res. exact (S3 res eq_refl).
Qed.
Print Assumptions C75_numbered.

(** A line below a tolerance is the last, and the solve returns with every row converged. *)
Theorem C75_last : forall V (N : num V) rsum edot tri vmax say matvec minv hook b cfg r ev i w q,
  bounds_all N vmax ->
  log_solve N rsum edot tri vmax say matvec minv hook b cfg [] = (r, ev) ->
  In (Debug, NIter i w q) (lines_in ev) -> n_lt N w (k_abs_tol cfg) = true \/ n_lt N q (k_rel_tol cfg) = true ->
  i = length (lines_in ev) /\ (forall res, r = Ok res -> Forall (eq true) (kr_converged res)).
Proof.
  intros V N rsum edot tri vmax say matvec minv hook b cfg r ev i w q B H I T.
  destruct (solve_lines N rsum edot tri vmax say matvec minv hook b cfg r ev H) as (_ & S2 & _). cbv zeta in S2.
  apply In_nth_error in I as (j & E). destruct (S2 j _ E) as (es & L & Q & M). unfold line in Q.
  assert (i = S j) by (injection Q; auto). assert (w = vmax es) by (injection Q; auto).
  assert (q = vmax (map2 (n_div N) es (map (bnorm N rsum) b))) by (injection Q; auto). subst i w q.
  destruct (M (below_all_meet N rsum vmax cfg b es B L T)) as [M1 M2]. auto.
Qed.
Print Assumptions C75_last.

Example C75_binary64 : bounds_all binary64 lx_max /\ accepts (lx_say (V := F)) /\
  forall m, In m [BiCGStab; GMRES] ->
  lx_shown (lx_solve lx_say true lx_b lx_rows (kx_cfg m 40 1000)) = ([1; 2], [true; true]) /\
  lx_last_below (lx_solve lx_say true lx_b lx_rows (kx_cfg m 40 1000)) = [false; true] /\
  lines_in (snd (lx_solve lx_say false lx_b lx_rows (kx_cfg m 40 1000))) = [] /\
  fst (lx_solve lx_raise true lx_b lx_rows (kx_cfg m 40 1000)) = Err (StdExn "sink") /\
  iterations (lines_in (snd (lx_solve lx_raise true lx_b lx_rows (kx_cfg m 40 1000)))) = [1; 2].
Proof. split; [exact lx_max_bounds|]. split; [intros l v m; reflexivity|exact lx_runs]. Qed.

(** BiCGStab, in exact arithmetic: line [i] gives the residual norms of the answer to the same solve with a budget of [i]. *)
Theorem C75_bicgstab : forall V (N : num V) rsum edot vmax say n As Ms matvec minv hook b cfg r ev i w q,
  ring_of N -> length As = length b -> length Ms = length b -> all_rows As matvec -> all_rows Ms minv ->
  Forall (linear_op N n) As -> Forall (keeps_width n) Ms -> Forall (fun x => length x = n) b ->
  log_bicgstab N rsum edot vmax say matvec minv hook b cfg [] = (r, ev) ->
  In (Debug, NIter i w q) (lines_in ev) ->
  exists res l, bicgstab N rsum edot matvec minv b (with_budget cfg i) = (Ok res, l) /\ kr_iters res = i /\ i <= Z.to_nat (k_max_its cfg) /\
    (Debug, NIter i w q) = line_says N rsum vmax b i (residual_norms N rsum As b (kr_du res)).
Proof.
  intros V N rsum edot vmax say n As Ms matvec minv hook b cfg r ev i w q R LA LM EA EM FA FM Fb H I.
  destruct (bicgstab_residuals N rsum edot (fun _ g => g) vmax say matvec minv hook n As Ms b cfg r ev _ i w q R LA LM EA EM FA FM Fb H I eq_refl)
    as (res & l & E1 & E2 & E3 & E4).
  exists res, l. split; [exact E1|]. split; [exact E3|]. split; [exact E4|exact E2].
Qed.
Print Assumptions C75_bicgstab.

Example C75_rationals : ring_of qk_num /\ linear_op qk_num 2 qk_mat /\ iterations (lines_in (snd lx_qrun)) = [1; 2].
Proof. split; [exact qk_ring|]. split; [exact qk_mat_linear|]. apply lx_q. Qed.

(** GMRES over the real numbers: line [i] of the first cycle is about the answer [x] to the same solve with one cycle of
    [i].  In a row whose directions were not floored, the norm [e] the line counts is that of the preconditioned residual,
    but for [eps] times [x]. *)
Theorem C75_gmres : forall eps tri vmax say matvec minv hook b cfg r ev i w q,
  (0 < eps)%R -> solves_upper tri -> (0 < k_restart cfg)%Z ->
  log_gmres (reals eps) real_sum real_dot tri vmax say matvec minv hook b cfg [] = (r, ev) ->
  In (Debug, NIter i w q) (lines_in ev) -> (Z.of_nat i <= k_restart cfg)%Z ->
  exists res l es, gmres (reals eps) real_sum real_dot tri matvec minv b (with_cycle cfg i) = (Ok res, l) /\ kr_iters res = i /\
    (Debug, NIter i w q) = line_says (reals eps) real_sum vmax b i es /\ length es = length b /\
    forall n k A M bi x e,
      acts_on k A matvec -> acts_on k M minv -> linear_op (reals eps) n A -> linear_op (reals eps) n M ->
      bounded_below eps n (fun v => M (A v)) ->
      nth_error b k = Some bi -> length bi = n -> nth_error (kr_du res) k = Some x -> nth_error es k = Some e ->
      normalised i k i l ->
      length x = n /\ (0 <= e)%R /\ (square (M (residual_of (reals eps) A bi x)) = e * e + eps * eps * square x)%R.
Proof.
  intros eps tri vmax say matvec minv hook b cfg r ev i w q He ST Hm H I Li.
  destruct (first_cycle_line (reals eps) real_sum real_dot tri vmax say matvec minv hook b cfg r ev i w q Hm H I Li)
    as (rr & st0 & st1 & l1 & res & E1 & E2 & _ & E3 & E4 & E5 & E6 & E7 & E8 & E9 & E10).
  exists res, (CPre b :: l1), (gnorms (reals eps) st1). split; [exact E7|]. split; [exact E9|]. split; [exact E10|].
  split; [unfold gnorms; rewrite map_length; exact E6|].
  intros. eapply (gmres_line_row n eps tri matvec minv b cfg rr st0 st1 l1 res i k A M bi x e); eassumption.
Qed.
Print Assumptions C75_gmres.

(** The hypotheses on the rows are those of [C63_case]. *)
Example C75_reals : lines_in (snd lx_gx) = [(Debug, NIter 1 1%R 1%R); (Debug, NIter 2 0%R 0%R)].
Proof. exact lx_gx_lines. Qed.

(** It is the preconditioned residual, and not [b - A x]: here the norm in the line is a thousandth of the answer's. *)
Theorem C75_true_residual_refuted :
  exists w q rest res l e,
    lines_in (snd lx_pre) = (Debug, NIter 1 w q) :: rest /\ lx_pre_answer = (Ok res, l) /\
    residual_norms binary64 kx_sum [kx_diag 1 2] [kx_ones] (kr_du res) = [e] /\
    SpecFloat.SFltb (fmul (fnum 1000 0) w) e = true.
Proof. exact lx_gap_shown. Qed.
Print Assumptions C75_true_residual_refuted.

(** A logged Newton step is the silent one, unless the sink or the level test raises. *)
Theorem C75_step : forall V (N : num V) rsum edot tri vmax say is_on s u st r st' l ev,
  log_kstep N rsum edot tri vmax say is_on s u st = ((r, st', l), ev) ->
  ((r, st', l) = kstep N rsum edot tri s u st \/
   exists e, r = Err e /\ ((exists lv, is_on lv = Err e) \/ cut_short say [] ev e)) /\
  (accepts say -> (forall lv, exists o, is_on lv = Ok o) -> (r, st', l) = kstep N rsum edot tri s u st).
Proof. intros. split; [eapply step_watched; eassumption|intros; eapply step_silent; eassumption]. Qed.
Print Assumptions C75_step.

(** A step that returns has written a line per iteration if [Debug] is on, and if [Warning] is, the summary of the very
    solve its increment comes from: the rows that failed, counted, or (if [Info] is on) that none did. *)
Theorem C75_summary : forall V (N : num V) rsum edot tri vmax say is_on s u st du b st' l ev,
  log_kstep N rsum edot tri vmax say is_on s u st = ((Ok (du, b), st', l), ev) ->
  exists hook warn rows bf uspec st1 calls res lr iters sum,
    is_on Debug = Ok hook /\ is_on Warning = Ok warn /\
    krylov_solve N rsum edot tri (flat_matvec s u uspec bf) (flat_minv s (st_precond st1) bf) rows (ks_cfg s) = (Ok res, calls) /\
    l = SResidual u :: lr ++ [SSolve (st_precond st1) calls (Ok (kr_iters res))] /\
    unflatten_dense (of_rows bf (kr_du res)) uspec = Ok du /\
    lines_in ev = iters ++ sum /\
    (if hook then iterations iters = seq 1 (kr_iters res) /\ length iters = kr_iters res else iters = []) /\
    (warn = false -> sum = []) /\ (warn = true -> forall info, is_on Info = Ok info -> sums_up info res sum).
Proof. exact (fun V N => step_lines N). Qed.
Print Assumptions C75_summary.

Example C75_step_case :
  lx_notes (lines_in (snd (lx_step lx_all 1))) = [(Debug, (1, None)); (Warning, (1, Some 1))] /\
  lx_notes (lines_in (snd (lx_step lx_all 9))) = [(Debug, (1, None)); (Debug, (2, None)); (Info, (2, Some 0))] /\
  is_ok (fst (fst (fst (lx_step lx_all 1)))) = true /\ is_ok (fst (fst (fst (lx_step lx_all 9)))) = true.
Proof. exact lx_step_runs. Qed.
