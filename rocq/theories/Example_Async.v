(** Concrete asynchronous executions, computed. *)
From Coq Require Import SpecFloat.
From Verif Require Import Base Tensor Spec BatchChunk Sched SpecSched Dispatch SpecDispatch Async SpecAsync
     AsyncOp Example_Dispatch.

Section Run.
  Context {R : Type}.
  Variable f : device -> Z -> Z -> result R.

  (** What a schedule says about each step. *)
  Inductive act : Type :=
  | AMain | ARes (e : exn) | AEnq (e : exn) | ASpur | AW (i : nat) | AE (i : nat) | ASpurW (i : nat).

  (** The process in which every evaluation of a chunk behaves as [f]. *)
  Definition det (k : nat) (d : device) (s c : Z) (r : result R) : Prop := r = f d s c.

  Definition act_step (s : astate R) (a : act) : option (alabel R * astate R) :=
    match a with
    | AMain => option_map (fun s' => (LMain, s')) (main_step s)
    | ARes e => match a_main s with
                | MReserve _ _ => Some (LReserveFail e, with_main s (MRecord e))
                | _ => None
                end
    | AEnq e => match a_main s with
                | MEnq tk => Some (LEnqFail e, with_main s (MRollback tk e))
                | _ => None
                end
    | ASpur => match a_main s with
               | MSleepS | MSleepW => Some (LSpurMain, with_main s (wake_main (a_main s)))
               | _ => None
               end
    | AW i => option_map (fun s' => (LWorker i, s')) (worker_step s i)
    | AE i => match nth_error (a_workers s) i with
              | Some w =>
                  match w_pc w with
                  | WRun tk =>
                      let r := f (tk_dev tk) (tk_start tk) (tk_count tk) in
                      Some (LEval i r,
                            set_worker (with_evals s (a_evals s ++ [(tk, r)])) i
                                       (mkWorker (w_dev w) (WRecord tk r) (w_queue w)))
                  | _ => None
                  end
              | None => None
              end
    | ASpurW i => match nth_error (a_workers s) i with
                  | Some w => match w_pc w with
                              | WSleep => Some (LSpurWorker i, set_worker s i (wake_worker w))
                              | _ => None
                              end
                  | None => None
                  end
    end.

  Fixpoint act_run (s : astate R) (l : list act) : option (list (alabel R) * astate R) :=
    match l with
    | [] => Some ([], s)
    | a :: l' =>
        match act_step s a with
        | Some (lb, s1) => match act_run s1 l' with
                           | Some (ls, s2) => Some (lb :: ls, s2)
                           | None => None
                           end
        | None => None
        end
    end.

  Lemma act_step_ok s a lb s' : act_step s a = Some (lb, s') -> astep det s lb s'.
  Proof.
    destruct a; cbn.
    - destruct (main_step s) eqn:E; [|discriminate]. intros H. injection H as <- <-. apply step_main, E.
    - destruct (a_main s) eqn:E; try discriminate. intros H. injection H as <- <-.
      eapply step_reserve_fail, E.
    - destruct (a_main s) eqn:E; try discriminate. intros H. injection H as <- <-.
      eapply step_enq_fail, E.
    - destruct (a_main s) eqn:E; try discriminate; intros H; injection H as <- <-;
        (replace (with_main s _) with (with_main s (wake_main (a_main s))) by (rewrite E; reflexivity));
        apply step_spur_main; auto.
    - destruct (worker_step s i) eqn:E; [|discriminate]. intros H. injection H as <- <-.
      apply step_worker, E.
    - destruct (nth_error (a_workers s) i) as [w|] eqn:E; [|discriminate].
      destruct (w_pc w) eqn:Ew; try discriminate. intros H. injection H as <- <-.
      eapply step_eval; [exact E|exact Ew|reflexivity].
    - destruct (nth_error (a_workers s) i) as [w|] eqn:E; [|discriminate].
      destruct (w_pc w) eqn:Ew; try discriminate. intros H. injection H as <- <-.
      eapply step_spur_worker; [exact E|exact Ew].
  Qed.

  Lemma act_run_ok l : forall s ls s', act_run s l = Some (ls, s') -> aexec det s ls s'.
  Proof.
    induction l as [|a l IH]; intros s ls s'; cbn.
    - intros H. injection H as <- <-. constructor.
    - destruct (act_step s a) as [[lb s1]|] eqn:E; [|discriminate].
      destruct (act_run s1 l) as [[ls1 s2]|] eqn:E2; [|discriminate].
      intros H. injection H as <- <-. econstructor; [eapply act_step_ok, E|apply IH, E2].
  Qed.

  Lemma act_step_no_call s a lb s' : act_step s a = Some (lb, s') -> is_call lb = false.
  Proof.
    destruct a; cbn; unfold option_map;
      repeat match goal with |- context [match ?x with _ => _ end] => destruct x end;
      intros H; inversion H; reflexivity.
  Qed.

  Lemma act_no_call l : forall s ls s', act_run s l = Some (ls, s') -> no_call ls.
  Proof.
    induction l as [|a l IH]; intros s ls s'; cbn.
    - intros H. injection H as <- <-. reflexivity.
    - destruct (act_step s a) as [[lb s1]|] eqn:E; [|discriminate].
      destruct (act_run s1 l) as [[ls1 s2]|] eqn:E2; [|discriminate].
      intros H. injection H as <- <-. unfold no_call. cbn [forallb].
      rewrite (act_step_no_call _ _ _ _ E). cbn. eapply IH, E2.
  Qed.

  (** A finished first call, from its schedule. *)
  Lemma act_finished tbl b l ls s' out :
    (0 <= b)%Z -> act_run (new_call (ainit tbl) b) l = Some (ls, s') ->
    a_main s' = MIdle (Some out) -> finished_call det tbl 1 b ls out.
  Proof.
    intros Hb Hrun Hm. exists (ainit tbl), None, s'. repeat split; try assumption.
    - apply ar_init.
    - eapply act_run_ok, Hrun.
    - eapply act_no_call, Hrun.
  Qed.

  Lemma act_reach tbl b l ls s' :
    (0 <= b)%Z -> act_run (new_call (ainit tbl) b) l = Some (ls, s') -> areach det tbl s'.
  Proof.
    intros Hb H. apply act_run_ok in H.
    assert (areach det tbl (new_call (ainit tbl) b)) as Hr.
    { eapply ar_step; [apply ar_init|]. eapply step_call; [reflexivity|exact Hb]. }
    clear - Hr H. induction H; [exact Hr|]. apply IHaexec. eapply ar_step; eauto.
  Qed.

  Fixpoint count_launches (s : astate R) (l : list act) : nat :=
    match l with
    | [] => 0
    | a :: l' => match act_step s a with
                 | Some (_, s1) => (if Nat.ltb (handed s) (handed s1) then 1 else 0) + count_launches s1 l'
                 | None => 0
                 end
    end.

  Lemma act_launches l : forall s ls s', act_run s l = Some (ls, s') ->
    launches det s ls s' (count_launches s l).
  Proof.
    induction l as [|a l IH]; intros s ls s'; cbn [act_run count_launches].
    - intros H. injection H as <- <-. constructor.
    - destruct (act_step s a) as [[lb s1]|] eqn:E; [|discriminate].
      destruct (act_run s1 l) as [[ls1 s2]|] eqn:E2; [|discriminate].
      intros H. injection H as <- <-. econstructor; [eapply act_step_ok, E|apply IH, E2].
  Qed.

  Lemma det_total : forall d b c k, exists r, det k d b c r.
  Proof. intros d b c k. eexists. reflexivity. Qed.
End Run.

(** Two devices: chunks of two rows (at most four in flight) on the GPU, of one
    row on the CPU; the GPU has the higher priority. *)
Definition ex_tbl : list dstatus :=
  [mkDS cpu 1 1 f64_one 0; mkDS (cuda 0) 2 2 (S754_finite false (2 ^ 52) (-51)) 0]%Z.

Lemma ex_tbl_ok : pool_ok ex_tbl.
Proof.
  split; [split|].
  - apply NoDup_cons; [|apply NoDup_cons; [intros []|apply NoDup_nil]].
    cbn. intros [H|[]]. discriminate.
  - repeat (apply Forall_cons; [cbn; lia|]). apply Forall_nil.
  - repeat (apply Forall_cons; [cbn; lia|]). apply Forall_nil.
Qed.

Definition ex_aD (P : zmap) : disp Z :=
  mkDisp ex_layout (cuda 0) [(cpu, on_dev cpu P); (cuda 0, P)].

Lemma ex_pool_call P : params_ok P -> all_on (cuda 0) P ->
  pool_call_ok (map ds_dev ex_tbl) (ex_aD P) P ex_I 3 cpu.
Proof.
  intros Hp Hd. constructor; try assumption.
  - exact ex_contract.
  - discriminate.
  - repeat constructor.
  - reflexivity.
  - intros d [<-|[<-|[]]]; [reflexivity|]. cbn. f_equal. symmetry.
    clear Hp. unfold on_dev, vmap_. rewrite <- (map_id P) at 2. apply map_ext_in.
    intros [k t] Hin. unfold all_on in Hd. rewrite Forall_forall in Hd. specialize (Hd _ Hin).
    cbn in *. destruct t; cbn in *. subst. reflexivity.
Qed.

(** The dispatcher hands out rows 0-1 to the GPU and row 2 to the CPU; the CPU
    finishes first. *)
Definition hand : list act := [AMain; AMain; AMain; AMain; AMain; AMain; AMain].
Definition work (i : nat) : list act := [AW i; AE i; AW i; AW i; AW i].
Definition ex_sched : list act :=
  [AW 0; AW 1] ++ hand ++ hand ++ [AMain; AMain] ++ work 0 ++ [AMain] ++ work 1 ++ [AMain].
