(** Properties C09-C15: asynchronous dispatch. *)
From Coq Require Import SpecFloat Permutation.
From Verif Require Import Base Tensor Spec BatchChunk Sched SpecSched Dispatch SpecDispatch Async SpecAsync AsyncOp
     Except SpecExcept SchedProofs ExceptProofs AsyncEnd AsyncLive AsyncOpProofs Example_Dispatch Example_Async.

Local Open Scope Z_scope.

(** Every theorem below is about the pools accepted configurations describe:
    distinct devices, sizes that fit the 64-bit counters. *)
Theorem C10_accepted_pool : forall parse cfg tbl,
  make_hybrid parse cfg = Ok tbl ->
  (forall x y d, In x (cf_devices cfg) -> In y (cf_devices cfg) ->
                 parse x = Ok d -> parse y = Ok d -> x = y) ->
  (forall t, In t tbl -> ds_batch t < 2 ^ 63 /\ ds_cap t + ds_batch t < 2 ^ 64) ->
  pool_ok tbl /\ tbl <> [].
Proof. exact accepted_pool. Qed.
Print Assumptions C10_accepted_pool.

(** * C09 *)

(** A call that ends normally has evaluated ranges that tile the batch, each on a
    pool device and within its batch size, each exactly once, and its results
    are the evaluations' results in batch order. *)
Theorem C09_results_in_batch_order : forall R run tbl k b ls (rs : list (option R)),
  pool_ok tbl -> finished_call run tbl k b ls (Ok rs) ->
  exists l : list (task * R),
    tiles 0 b (map (fun x => (tk_start (fst x), tk_count (fst x))) l) /\
    rs = map (fun x => Some (snd x)) l /\
    Permutation (map (fun x => Ok (snd x)) l) (evaluated ls) /\
    Forall (fun x => chunk_in tbl b (fst x) /\
                     run k (tk_dev (fst x)) (tk_start (fst x)) (tk_count (fst x)) (Ok (snd x))) l.
Proof.
  intros R run tbl k b ls rs Hp (s & o & s' & Hr & Em & -> & Hb & He & Hn & Em').
  exact (call_success run tbl Hp s o b ls s' rs Hr Em Hb He Hn Em').
Qed.
Print Assumptions C09_results_in_batch_order.

(** [fwd] is the Model's forward on a device (equal to [ref] up to where the
    tensors live), [ref] is row-independent ([forward_rows]).  If every chunk
    evaluation that returns, returns what the Model computes, then a dispatched
    call that ends normally returns exactly the undivided call, which does not
    throw; and if moreover evaluations fail only when the Model does and the
    dispatch thread does not run out of memory, the dispatched call throws
    exactly when the undivided call throws.  Whatever the schedule [ls]. *)
Theorem C09_forward : forall V tbl (D : disp V) P I b in_dev fwd ref,
  pool_ok tbl -> pool_call_ok (map ds_dev tbl) D P I b in_dev ->
  (forall d, computes1 fwd on_dev ref d) -> forward_rows (l_param (dp_layout D)) b ref (P, I) ->
  exists bz f,
  async_start (fun in_dev b => chunk_forward fwd D in_dev b I) I = Ok (bz, f) /\
  forall run k ls out, finished_call run tbl k bz ls out ->
  let direct := fwd in_dev (on_dev in_dev P) I in
  (returns_only run k f -> is_ok out = true -> is_ok direct = true /\ async_forward out = direct) /\
  (behaves_as run k f -> dfails ls = [] -> agree_result (async_forward out) direct).
Proof.
  intros V tbl D P I b in_dev fwd ref Hp Hc H1 H2. eexists _, _. split.
  - exact (pool_start _ D P I b in_dev Hc _).
  - intros run k ls out Hf. apply async_forward_agrees with (tbl := tbl) (b := b) (ref := ref); assumption.
Qed.
Print Assumptions C09_forward.

Theorem C09_jvp : forall V tbl (D : disp V) P I T b in_dev jvp ref,
  pool_ok tbl -> pool_call_ok (map ds_dev tbl) D P I b in_dev ->
  conforming b T -> all_on in_dev T ->
  (forall d, computes2 jvp on_pair ref d) -> jvp_rows (l_param (dp_layout D)) b ref (P, I, T) ->
  exists bz f,
  async_start (fun in_dev b => chunk_jvp jvp D in_dev b I T) I = Ok (bz, f) /\
  forall run k ls out, finished_call run tbl k bz ls out ->
  let direct := jvp in_dev (on_dev in_dev P) I T in
  (returns_only run k f -> is_ok out = true -> is_ok direct = true /\ async_jvp out = direct) /\
  (behaves_as run k f -> dfails ls = [] -> agree_result (async_jvp out) direct).
Proof.
  intros V tbl D P I T b in_dev jvp ref Hp Hc H1 H2 H3 H4. eexists _, _. split.
  - exact (pool_start _ D P I b in_dev Hc _).
  - intros run k ls out Hf. apply async_jvp_agrees with (tbl := tbl) (b := b) (ref := ref); assumption.
Qed.
Print Assumptions C09_jvp.

Theorem C09_jacobian : forall V tbl (D : disp V) P I b in_dev jac ref,
  pool_ok tbl -> pool_call_ok (map ds_dev tbl) D P I b in_dev ->
  (forall d, computes1 jac on_jac ref d) ->
  jacobian_rows (l_param (dp_layout D)) b (l_out (dp_layout D)) (l_in (dp_layout D)) ref (P, I) ->
  exists bz f,
  async_start (fun in_dev b => chunk_jacobian D in_dev b jac I) I = Ok (bz, f) /\
  forall run k ls out, finished_call run tbl k bz ls out ->
  let direct := jac in_dev (on_dev in_dev P) I in
  (returns_only run k f -> is_ok out = true -> is_ok direct = true /\ async_jacobian D out = direct) /\
  (behaves_as run k f -> dfails ls = [] -> agree_result (async_jacobian D out) direct).
Proof.
  intros V tbl D P I b in_dev jac ref Hp Hc H1 H2. eexists _, _. split.
  - exact (pool_start _ D P I b in_dev Hc _).
  - intros run k ls out Hf. apply async_jac_agrees with (tbl := tbl) (b := b) (ref := ref); assumption.
Qed.
Print Assumptions C09_jacobian.

Theorem C09_param_jacobian : forall V tbl (D : disp V) P I b in_dev pjac ref,
  pool_ok tbl -> pool_call_ok (map ds_dev tbl) D P I b in_dev ->
  (forall d, computes1 pjac on_jac ref d) ->
  jacobian_rows (l_param (dp_layout D)) b (l_out (dp_layout D)) (l_param (dp_layout D)) ref (P, I) ->
  exists bz f,
  async_start (fun in_dev b => chunk_jacobian D in_dev b pjac I) I = Ok (bz, f) /\
  forall run k ls out, finished_call run tbl k bz ls out ->
  let direct := pjac in_dev (on_dev in_dev P) I in
  (returns_only run k f -> is_ok out = true ->
   is_ok direct = true /\ async_param_jacobian D out = direct) /\
  (behaves_as run k f -> dfails ls = [] -> agree_result (async_param_jacobian D out) direct).
Proof.
  intros V tbl D P I b in_dev jac ref Hp Hc H1 H2. eexists _, _. split.
  - exact (pool_start _ D P I b in_dev Hc _).
  - intros run k ls out Hf. apply async_jac_agrees with (tbl := tbl) (b := b) (ref := ref); assumption.
Qed.
Print Assumptions C09_param_jacobian.

Theorem C09_param_vjp : forall V tbl (D : disp V) P I C b in_dev add pvjp ref,
  pool_ok tbl -> pool_call_ok (map ds_dev tbl) D P I b in_dev ->
  conforming b C -> all_on in_dev C ->
  (forall d, computes2 pvjp on_dev ref d) -> vjp_rows (l_param (dp_layout D)) b add ref (P, I, C) ->
  exists bz f,
  async_start (fun in_dev b => chunk_param_vjp pvjp D in_dev b I C) I = Ok (bz, f) /\
  forall run k ls out, finished_call run tbl k bz ls out ->
  let direct := pvjp in_dev (on_dev in_dev P) I C in
  (returns_only run k f -> is_ok out = true ->
   is_ok direct = true /\ async_param_vjp add D bz out = direct) /\
  (behaves_as run k f -> dfails ls = [] ->
   agree_result (async_param_vjp add D bz out) direct).
Proof.
  intros V tbl D P I C b in_dev add pvjp ref Hp Hc H1 H2 H3 H4. eexists _, _. split.
  - exact (pool_start _ D P I b in_dev Hc _).
  - intros run k ls out Hf. apply async_param_vjp_agrees with (tbl := tbl) (b := b) (ref := ref); assumption.
Qed.
Print Assumptions C09_param_vjp.

(** A two-device pool on which the CPU, holding the last row, finishes first. *)
Example C09_case :
  let f := chunk_forward ex_fwd (ex_aD ex_P) cpu 3 ex_I in
  pool_ok ex_tbl /\ pool_call_ok (map ds_dev ex_tbl) (ex_aD ex_P) ex_P ex_I 3 cpu /\
  (forall d, computes1 ex_fwd on_dev ex_ref d) /\
  forward_rows (l_param (dp_layout (ex_aD ex_P))) 3 ex_ref (ex_P, ex_I) /\
  behaves_as (det f) 1 f /\ returns_only (det f) 1 f /\
  exists ls out, finished_call (det f) ex_tbl 1 (Z.of_nat 3) ls out /\ is_ok out = true /\
    dfails ls = [] /\
    async_forward out = Ok [("y"%string, mkT [3%nat] [11; 22; 33] cpu)] /\
    map (fun r => match r with Ok [(_, t)] => t_data t | _ => [] end) (evaluated ls) = [[33]; [11; 22]].
Proof.
  intros f. split; [exact ex_tbl_ok|]. split; [apply ex_pool_call; apply ex_P_ok|].
  split; [exact ex_fwd_computes|]. split; [exact ex_forward_rows|].
  split; [intros d s c r H; exact H|]. split; [intros d s c v H; symmetry; exact H|].
  destruct (act_run f (new_call (ainit ex_tbl) 3) ex_sched) as [[ls s']|] eqn:E; [|vm_compute in E; discriminate].
  destruct (a_main s') as [[out|]| | | | | | | | | | | |] eqn:Em;
    try (exfalso; vm_compute in E; injection E as _ <-; vm_compute in Em; discriminate).
  exists ls, out. split; [eapply act_finished; [lia|exact E|exact Em]|].
  vm_compute in E. injection E as <- <-. vm_compute in Em. injection Em as <-.
  repeat split; reflexivity.
Qed.

(** * C10 *)

Theorem C10_capacity_respected : forall R run tbl (s : astate R) t,
  pool_ok tbl -> areach run tbl s -> In t tbl -> 0 <= rows_out s (ds_dev t) <= ds_cap t.
Proof. intros R run tbl s t Hp. exact (capacity_respected run tbl Hp s t). Qed.
Print Assumptions C10_capacity_respected.

(** Both devices of the pool full. *)
Example C10_case :
  let f := chunk_forward ex_fwd (ex_aD ex_P) cpu 3 ex_I in
  exists s, areach (det f) ex_tbl s /\ rows_out s cpu = 1 /\ rows_out s (cuda 0) = 2 /\
            schedule_work_impl (a_tbl s) = None.
Proof.
  intros f.
  destruct (act_run f (new_call (ainit ex_tbl) 3) (hand ++ hand)) as [[ls s']|] eqn:E;
    [|vm_compute in E; discriminate].
  exists s'. split; [eapply act_reach; [|exact E]; lia|].
  vm_compute in E. injection E as <- <-. vm_compute. repeat split; reflexivity.
Qed.

(** * C11 *)

Theorem C11_load_exact : forall R run tbl (s : astate R) t,
  pool_ok tbl -> areach run tbl s -> In t tbl ->
  load_is (a_tbl s) (ds_dev t) (rows_out s (ds_dev t)).
Proof. intros R run tbl s t Hp. exact (load_exact run tbl Hp s t). Qed.
Print Assumptions C11_load_exact.

(** Whenever no call is running (so: whenever a call has ended, however it
    ended) every load is zero, every queue empty and every worker outside any
    task. *)
Theorem C11_clean_at_end : forall R run tbl (s : astate R) o,
  pool_ok tbl -> areach run tbl s -> a_main s = MIdle o ->
  (forall t, In t (a_tbl s) -> ds_load t = 0) /\
  (forall w, In w (a_workers s) -> w_queue w = [] /\
     (w_pc w = WIdle \/ w_pc w = WSleep \/ w_pc w = WNotify)).
Proof. intros R run tbl s o Hp. exact (clean_at_end run tbl Hp s o). Qed.
Print Assumptions C11_clean_at_end.

(** No task ever terminates the process: its slot exists and completed_work
    never throws inside the noexcept task. *)
Theorem C11_no_terminate : forall R run tbl (s : astate R) w tk,
  pool_ok tbl -> areach run tbl s -> In w (a_workers s) -> w_pc w <> WCrash tk.
Proof. intros R run tbl s w tk Hp. exact (no_crash run tbl Hp s w tk). Qed.
Print Assumptions C11_no_terminate.

(** A call during which the second enqueue runs out of memory still ends clean. *)
Definition ex_oom : list act :=
  [AMain; AMain; AMain; AMain; AMain; AMain; AMain; AMain; AMain; AMain; AMain; AMain;
   AEnq (StdExn "bad_alloc"); AMain; AMain; AMain] ++ work 1 ++ [AMain].
Example C11_case :
  let f := chunk_forward ex_fwd (ex_aD ex_P) cpu 3 ex_I in
  exists s, areach (det f) ex_tbl s /\ a_main s = MIdle (Some (Err (StdExn "bad_alloc"))) /\
            map ds_load (a_tbl s) = [0; 0].
Proof.
  intros f.
  destruct (act_run f (new_call (ainit ex_tbl) 3) ex_oom) as [[ls s']|] eqn:E;
    [|vm_compute in E; discriminate].
  exists s'. split; [eapply act_reach; [|exact E]; lia|].
  vm_compute in E. injection E as <- <-. vm_compute. repeat split; reflexivity.
Qed.

(** * C12 *)

(** While a call runs some thread can move, without waiting for a spurious
    wake-up.  (Chunk evaluations end.) *)
Theorem C12_no_deadlock : forall R run tbl (s : astate R),
  pool_ok tbl -> tbl <> [] -> (forall d b c k, exists r, run k d b c r) ->
  areach run tbl s -> in_call s ->
  exists l s', astep run s l s' /\ spurious l = false /\ is_call l = false.
Proof. intros R run tbl s Hp. exact (progress run tbl Hp s). Qed.
Print Assumptions C12_no_deadlock.

(** From every state the call can be driven to its end without one. *)
Theorem C12_can_finish : forall R run tbl (s : astate R),
  pool_ok tbl -> tbl <> [] -> (forall d b c k, exists r, run k d b c r) ->
  areach run tbl s ->
  exists ls s' o, aexec run s ls s' /\ no_call ls /\ spurs ls = 0%nat /\ a_main s' = MIdle o.
Proof. intros R run tbl s Hp. exact (can_finish run tbl Hp s). Qed.
Print Assumptions C12_can_finish.

(** The dispatch thread asleep in wait_for_completion, a worker about to report:
    the window in which a wake-up could be lost. *)
Example C12_case :
  let f := chunk_forward ex_fwd (ex_aD ex_P) cpu 3 ex_I in
  pool_ok ex_tbl /\ ex_tbl <> [] /\ (forall d b c k, exists r, det f k d b c r) /\
  exists s, areach (det f) ex_tbl s /\ in_call s /\ a_main s = MSleepW /\
            map w_pc (a_workers s) = [WSleep; WNotify] /\ map ds_load (a_tbl s) = [0; 0].
Proof.
  intros f. split; [exact ex_tbl_ok|]. split; [discriminate|]. split; [apply det_total|].
  destruct (act_run f (new_call (ainit ex_tbl) 3)
              (hand ++ hand ++ [AMain; AMain] ++ work 0 ++ [AW 0; AW 1; AE 1; AW 1; AMain; AW 1]))
    as [[ls s']|] eqn:E; [|vm_compute in E; discriminate].
  exists s'. split; [eapply act_reach; [|exact E]; lia|].
  vm_compute in E. injection E as <- <-. split; [intros o; discriminate|]. vm_compute. repeat split; reflexivity.
Qed.

(** * C13 *)

(** A bound on the number of steps of one call; a spurious wake-up costs two. *)
Theorem C13_call_steps_bounded : forall R run tbl (s : astate R) o b ls s',
  pool_ok tbl -> areach run tbl s -> a_main s = MIdle o -> 0 <= b ->
  aexec run (new_call s b) ls s' -> no_call ls ->
  Z.of_nat (length ls) <=
    (17 + Z.of_nat (length tbl)) * b + 3 * Z.of_nat (length tbl) + 17 + 2 * Z.of_nat (spurs ls).
Proof. intros R run tbl s o b ls s' Hp. exact (call_steps run tbl Hp s o b ls s'). Qed.
Print Assumptions C13_call_steps_bounded.

Example C13_case :
  let f := chunk_forward ex_fwd (ex_aD ex_P) cpu 3 ex_I in
  exists ls s', aexec (det f) (new_call (ainit ex_tbl) 3) ls s' /\ length ls = 30%nat /\
                no_call ls /\ a_main (ainit (R := zmap) ex_tbl) = MIdle None.
Proof.
  intros f.
  destruct (act_run f (new_call (ainit ex_tbl) 3) ex_sched) as [[ls s']|] eqn:E; [|vm_compute in E; discriminate].
  exists ls, s'. split; [eapply act_run_ok, E|]. pose proof (act_no_call _ _ _ _ _ E) as Hn.
  vm_compute in E. injection E as <- <-. split; [reflexivity|]. split; [exact Hn|reflexivity].
Qed.

(** * C14 *)

(** Every failure of a chunk that was run, and of the dispatch thread, is
    reported, ordered by batch position, dispatch failures first; nothing else
    is; one failure is rethrown as it is, several become an AggregateError. *)
Theorem C14_failures_reported : forall R run tbl k b ls (out : result (list (option R))),
  pool_ok tbl -> finished_call run tbl k b ls out ->
  exists l,
    by_position l /\ Permutation (map snd l) (evaluated ls) /\
    Forall (fun x => chunk_in tbl b (fst x) /\
                     run k (tk_dev (fst x)) (tk_start (fst x)) (tk_count (fst x)) (snd x)) l /\
    match out with
    | Ok _ => dfails ls ++ failures l = []
    | Err e => reported (dfails ls ++ failures l) e
    end.
Proof.
  intros R run tbl k b ls out Hp (s & o & s' & Hr & Em & -> & Hb & He & Hn & Em').
  exact (call_failures run tbl Hp s o b ls s' out Hr Em Hb He Hn Em').
Qed.
Print Assumptions C14_failures_reported.

(** ... and what is thrown is recoverable iff every failure is. *)
Theorem C14_recoverable_iff_all : forall es e, reported es e ->
  (recoverable e = true <-> forall x, In x es -> retryable x).
Proof.
  intros es e H. rewrite recoverable_retryable. destruct H as [->|(e1 & e2 & es' & -> & ->)].
  - split; [intros H x [<-|[]]; exact H|intros H; apply H; left; reflexivity].
  - split; [inversion 1; assumption|intros H; constructor; [discriminate|exact H]].
Qed.
Print Assumptions C14_recoverable_iff_all.

(** Both chunks fail; the later rows fail first in time. *)
Definition ex_bad (d : device) (s c : Z) : result zmap :=
  if s =? 0 then Err (Convergence "a") else Err (Fatal "b").
Example C14_case :
  exists ls out, finished_call (det ex_bad) ex_tbl 1 3 ls out /\
    out = Err (Aggregate [Convergence "a"; Fatal "b"]) /\
    evaluated ls = [Err (Fatal "b"); Err (Convergence "a")] /\
    recoverable (Aggregate [Convergence "a"; Fatal "b"]) = false.
Proof.
  destruct (act_run ex_bad (new_call (ainit ex_tbl) 3) ex_sched) as [[ls s']|] eqn:E; [|vm_compute in E; discriminate].
  exists ls, (Err (Aggregate [Convergence "a"; Fatal "b"])).
  split; [eapply act_finished; [lia|exact E|]|].
  - vm_compute in E. injection E as _ <-. reflexivity.
  - vm_compute in E. injection E as <- _. repeat split; reflexivity.
Qed.

(** * C15 *)

(** From the moment a chunk's failure has been recorded, at most one more chunk
    is handed to a worker in this call. *)
Theorem C15_stops_after_failure : forall R run tbl (s : astate R) e ls s' n,
  pool_ok tbl -> areach run tbl s -> In (Some e) (a_errors s) ->
  launches run s ls s' n -> no_call ls -> (n <= 1)%nat.
Proof. intros R run tbl s e ls s' n Hp. exact (stops_after_failure run tbl Hp s e ls s' n). Qed.
Print Assumptions C15_stops_after_failure.

(** The bound is reached: the failure is recorded between the second check of
    the flag and the hand-over. *)
Example C15_case :
  exists s ls s', areach (det ex_bad) ex_tbl s /\ In (Some (Convergence "a")) (a_errors s) /\
                  launches (det ex_bad) s ls s' 1 /\ no_call ls.
Proof.
  destruct (act_run ex_bad (new_call (ainit ex_tbl) 3) (hand ++ [AMain; AMain; AMain] ++ [AW 1; AE 1; AW 1]))
    as [[l1 s]|] eqn:E; [|vm_compute in E; discriminate].
  assert (exists l2 s2, act_run ex_bad s [AMain; AMain; AMain] = Some (l2, s2)) as (l2 & s2 & E2).
  { vm_compute in E. injection E as _ <-. vm_compute. eauto. }
  exists s, l2, s2. split; [eapply act_reach; [|exact E]; lia|].
  split; [vm_compute in E; injection E as _ <-; left; reflexivity|].
  split; [|eapply act_no_call, E2].
  replace 1%nat with (count_launches ex_bad s [AMain; AMain; AMain]).
  - apply act_launches, E2.
  - vm_compute in E. injection E as _ <-. vm_compute. reflexivity.
Qed.
