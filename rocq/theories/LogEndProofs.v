(** Logging from many threads comes to an end. *)
From Verif Require Import Base BaseProofs Shared SharedProofs AsyncProofs2 Log LogThreads SpecLogThreads LogThreadsProofs.

(** A critical section of at most [n] accesses; without [loud] nothing becomes due. *)
Inductive msteps (v : option string) (loud : bool) : nat -> micro -> Prop :=
| ms_fin n r due : (loud = false -> due = None) -> msteps v loud n (Fin r due)
| ms_get n x f : (forall o, msteps v loud n (f o)) -> msteps v loud (S n) (Get x f)
| ms_put n x o m : msteps v loud n m -> msteps v loud (S n) (Put x o m)
| ms_geta n f : (forall o, msteps v loud n (f o)) -> msteps v loud (S n) (GetApplied f)
| ms_puta n m : msteps v loud n m -> msteps v loud (S n) (PutApplied m)
| ms_var n f : msteps v loud n (f v) -> msteps v loud (S n) (GetVar f)
| ms_sink n f : (forall o, msteps v loud n (f o)) -> msteps v loud (S n) (GetSink f)
| ms_puts n s m : msteps v loud n m -> msteps v loud (S n) (PutSink s m).

Section Ends.
  Variable v : option string.

  Lemma ms_more b n m : msteps v b n m -> forall n', (n <= n')%nat -> msteps v b n' m.
  Proof using. intros H. induction H; intros n' L; try (destruct n'; [lia|]); constructor; auto; intros; apply H0 || apply IHmsteps; lia. Qed.

  Lemma ms_entries b n k : msteps v b n k -> forall l, msteps v b (length l + n) (entry_steps l k).
  Proof using.
    intros K. induction l as [|e l IH]; cbn [entry_steps length Nat.add]; [exact K|]. cbv zeta.
    destruct (split_at "=" e) as [[key w]|]; [|apply (ms_more _ _ _ IH); lia].
    destruct (parse_level (trim_lower w)); [|constructor; auto].
    destruct (String.eqb (trim_lower key) "all"); [constructor; exact IH|].
    destruct (parse_channel (trim_lower key)); constructor; auto.
  Qed.
  Definition entries : nat := match v with Some s => length (entries_of s) | None => 0 end.
  Lemma ms_apply b n k : msteps v b n k -> msteps v b (9 + entries + n) (apply_steps k).
  Proof using.
    intros K. unfold apply_steps, put_all_of. cbn [fold_right channels Nat.add]. do 9 constructor. unfold entries.
    pose proof (ms_entries b n k K) as Q. destruct v as [s|]; [apply Q|exact K].
  Qed.
  Lemma ms_resolve b n c k : (forall l, msteps v b n (k l)) -> msteps v b (4 + n) (resolve_steps c k).
  Proof using.
    intros K. unfold resolve_steps. cbn [Nat.add].
    do 4 (constructor; intros [l|]; [apply (ms_more _ _ _ (K l)); lia|]). apply K.
  Qed.
  Lemma ms_effective b n c k : (forall l, msteps v b n (k l)) -> msteps v b (14 + entries + n) (effective_steps c k).
  Proof using.
    intros K. unfold effective_steps. cbn [Nat.add]. constructor. intros []; [apply (ms_more _ (4 + n)); [apply ms_resolve, K|lia]|].
    apply (ms_more _ (9 + entries + (4 + n))); [apply ms_apply, ms_resolve, K|lia].
  Qed.

  Definition accesses : nat := 15 + entries.
  Lemma ms_call b cl : (b = false -> match cl with CEmit _ _ _ => False | _ => True end) -> msteps v b accesses (call_steps cl).
  Proof using.
    intros Q. unfold accesses. destruct cl as [c|c l|c l m|c l|l| | |o| ]; cbn [call_steps].
    - apply (ms_more _ (14 + entries + 0)); [apply ms_effective; intros; constructor; auto|lia].
    - apply (ms_more _ (14 + entries + 0)); [apply ms_effective; intros; constructor; auto|lia].
    - apply (ms_more _ (14 + entries + 1)); [apply ms_effective; intros|lia]. destruct (Nat.leb _ _); constructor; auto. intros; constructor. intros F. destruct (Q F).
    - cbn. do 2 constructor. auto.
    - cbn. do 2 constructor. auto.
    - unfold put_all_of. cbn [fold_right channels Nat.add]. do 8 constructor. auto.
    - apply (ms_more _ (9 + entries + 0)); [apply ms_apply; constructor; auto|lia].
    - cbn. do 2 constructor. auto.
    - cbn. do 2 constructor. auto.
  Qed.

  Variable body : sink -> level -> string -> code.
  Variable B : nat.
  Hypothesis sinks : forall s l line, takes false B (body s l line).

  Definition quiet_cost : nat := accesses + 5.
  Definition wait (b : bool) : nat := if b then B * quiet_cost + 2 else 0.
  Definition cost (b : bool) : nat := quiet_cost + wait b.

  Inductive phase_cost (b : bool) : nat -> phase -> Prop :=
  | pc_run n c : takes b n c -> phase_cost b (n * cost b + 1) (PRun c)
  | pc_gil n c : takes b n c -> phase_cost b (n * cost b + 2) (PGil c)
  | pc_lock n cl k : (b = false -> match cl with CEmit _ _ _ => False | _ => True end) -> (forall r, takes b n (k r)) ->
      phase_cost b (n * cost b + 1 + (accesses + 3 + wait b)) (PLock cl k)
  | pc_crit n j cl m k : msteps v b j m -> (forall r, takes b n (k r)) -> phase_cost b (n * cost b + 1 + (j + 2 + wait b)) (PCrit cl m k)
  | pc_sink n s l line r k : b = true -> (forall r, takes b n (k r)) -> phase_cost b (n * cost b + 1 + (wait b + 1)) (PSink s l line r k)
  | pc_done : phase_cost b 0 PDone.
  Definition thread_cost (n : nat) (t : lthread) : Prop :=
    match t_stack t with
    | [] => phase_cost true n (t_phase t)
    | [f] => exists m p, (forall r, takes true p (f_k f r)) /\ phase_cost false m (t_phase t) /\ n = (m + (p * cost true + 1))%nat
    | _ => False
    end.


  (** A step that does not touch the stack. *)
  Definition moves (ph ph' : phase) : Prop := forall b n, phase_cost b n ph -> exists n', (n' < n)%nat /\ phase_cost b n' ph'.
  Lemma thread_moves t ph' py n : thread_cost n t -> moves (t_phase t) ph' -> exists n', (n' < n)%nat /\ thread_cost n' (mkT ph' py (t_stack t)).
  Proof using.
    unfold thread_cost. cbn [t_stack t_phase]. intros C M. destruct (t_stack t) as [|f [|f2 fs]].
    - exact (M _ _ C).
    - destruct C as (m & p & F & C & ->). destruct (M _ _ C) as (m' & L & C'). exists (m' + (p * cost true + 1))%nat. split; [lia|eauto].
    - destruct C.
  Qed.

  Lemma step_cost g i l g' n t : lg_var (st_log (g_store g)) = v -> nth_error (g_threads g) i = Some t -> gstep body g i = Some (l, g') ->
    thread_cost n t ->
    lg_var (st_log (g_store g')) = v /\ exists t' n', g_threads g' = set_nth i t' (g_threads g) /\ (n' < n)%nat /\ thread_cost n' t'.
  Proof using sinks.
    intros V E H C. unfold gstep in H. rewrite E in H. cbv zeta in H.
    assert (Mv : forall ph' py, moves (t_phase t) ph' -> g_threads g' = set_nth i (mkT ph' py (t_stack t)) (g_threads g) ->
      exists t' n', g_threads g' = set_nth i t' (g_threads g) /\ (n' < n)%nat /\ thread_cost n' t').
    { intros ph' py M T. destruct (thread_moves t ph' py n C M) as (n' & L & C'). eauto 6. }
    destruct (t_phase t) as [c|c|cl k|cl m k|s lv line r k|] eqn:P.
    - destruct c as [r|cl k|c].
      + destruct (t_stack t) as [|f fs] eqn:St; injection H as <- <-; (split; [exact V|]).
        * eapply Mv; [|reflexivity]. intros b q Q. inversion Q; subst. exists 0%nat. split; [lia|constructor].
        * unfold thread_cost in C. rewrite St in C. destruct fs; [|contradiction]. destruct C as (m & p & F & C & ->).
          eexists _, (p * cost true + 1)%nat. split; [reflexivity|]. rewrite P in C. split; [inversion C; subst; lia|]. cbn. constructor. apply F.
      + injection H as <- <-. split; [exact V|]. eapply Mv; [|reflexivity]. intros b q Q. inversion Q; subst.
        match goal with T : takes _ _ _ |- _ => inversion T; subst end.
        eexists. split; [|apply pc_lock; eassumption]. cbn [Nat.mul]. unfold cost at 2, quiet_cost at 1. lia.
      + assert (M1 : moves (PRun (Yield c)) (PGil c)).
        { intros b q Q. inversion Q; subst. match goal with T : takes _ _ _ |- _ => inversion T; subst end.
          eexists. split; [|apply pc_gil; eassumption]. cbn [Nat.mul]. unfold cost at 2, quiet_cost at 1. lia. }
        assert (M2 : moves (PRun (Yield c)) (PRun c)).
        { intros b q Q. inversion Q; subst. match goal with T : takes _ _ _ |- _ => inversion T; subst end.
          eexists. split; [|apply pc_run; eassumption]. cbn [Nat.mul]. unfold cost at 2, quiet_cost at 1. lia. }
        destruct (t_py t); injection H as <- <-; (split; [exact V|]); [eapply (Mv _ _ M1)|eapply (Mv _ _ M2)]; reflexivity.
    - destruct (g_gil g); [discriminate|]. injection H as <- <-. split; [exact V|]. eapply Mv; [|reflexivity].
      intros b q Q. inversion Q; subst. eexists. split; [|apply pc_run; eassumption]. lia.
    - destruct (g_mutex g); [discriminate|]. injection H as <- <-. split; [exact V|]. eapply Mv; [|reflexivity].
      intros b q Q. inversion Q; subst. eexists. split; [|apply pc_crit; [apply ms_call; assumption|eassumption]]. lia.
    - destruct m as [r due|x f|x o m|f|m|f|f|s m]; injection H as <- <-.
      + split; [exact V|]. eapply Mv; [|reflexivity]. intros b q Q. inversion Q; subst.
        match goal with T : msteps _ _ _ _ |- _ => inversion T; subst end. destruct due as [[[s l] line]|].
        * destruct b; [|match goal with D : false = false -> _ |- _ => discriminate (D eq_refl) end].
          eexists. split; [|apply pc_sink; [reflexivity|eassumption]]. lia.
        * eexists. split; [|apply pc_run; eauto]. lia.
      + split; [exact V|]. eapply Mv; [|reflexivity]. intros b q Q. inversion Q; subst. match goal with T : msteps _ _ _ _ |- _ => inversion T; subst end.
        eexists. split; [|apply pc_crit; [eauto|eassumption]]. lia.
      + split; [destruct x; exact V|]. eapply Mv; [|reflexivity]. intros b q Q. inversion Q; subst. match goal with T : msteps _ _ _ _ |- _ => inversion T; subst end.
        eexists. split; [|apply pc_crit; [eauto|eassumption]]. lia.
      + split; [exact V|]. eapply Mv; [|reflexivity]. intros b q Q. inversion Q; subst. match goal with T : msteps _ _ _ _ |- _ => inversion T; subst end.
        eexists. split; [|apply pc_crit; [eauto|eassumption]]. lia.
      + split; [exact V|]. eapply Mv; [|reflexivity]. intros b q Q. inversion Q; subst. match goal with T : msteps _ _ _ _ |- _ => inversion T; subst end.
        eexists. split; [|apply pc_crit; [eauto|eassumption]]. lia.
      + split; [exact V|]. eapply Mv; [|reflexivity]. intros b q Q. inversion Q; subst. match goal with T : msteps _ _ _ _ |- _ => inversion T; subst end.
        eexists. split; [|apply pc_crit; [rewrite V; eauto|eassumption]]. lia.
      + split; [exact V|]. eapply Mv; [|reflexivity]. intros b q Q. inversion Q; subst. match goal with T : msteps _ _ _ _ |- _ => inversion T; subst end.
        eexists. split; [|apply pc_crit; [eauto|eassumption]]. lia.
      + split; [exact V|]. eapply Mv; [|reflexivity]. intros b q Q. inversion Q; subst. match goal with T : msteps _ _ _ _ |- _ => inversion T; subst end.
        eexists. split; [|apply pc_crit; [eauto|eassumption]]. lia.
    - clear Mv. assert (Cs : forall py, exists n', (n' < n)%nat /\ thread_cost n' (mkT (PRun (body s lv line)) py
          (mkFrame (fun e => k match e with Ok _ => r | Err x => Err x end) (t_py t) :: t_stack t))).
      { intros py. unfold thread_cost in *. rewrite P in C. destruct (t_stack t) as [|f fs].
        - inversion C; subst. cbn [t_stack t_phase f_k]. eexists. split; [|exists (B * cost false + 1)%nat, n0; split; [auto|split; [constructor; apply sinks|reflexivity]]].
          assert (Cf : cost false = quiet_cost) by (unfold cost, wait; lia). rewrite Cf. assert (Wt : wait true = (B * quiet_cost + 2)%nat) by reflexivity. lia.
        - exfalso. destruct fs; [|exact C]. destruct C as (m & p & _ & C & _). inversion C. discriminate. }
      assert (Q : exists py, lg_var (st_log (g_store g')) = v /\ g_threads g' = set_nth i (mkT (PRun (body s lv line)) py
          (mkFrame (fun e => k match e with Ok _ => r | Err x => Err x end) (t_py t) :: t_stack t)) (g_threads g)).
      { destruct s; [| |destruct (t_py t); [|destruct (g_gil g); [discriminate|]]]; injection H as <- <-; eexists; (split; [exact V|reflexivity]). }
      destruct Q as (py & V' & T). split; [exact V'|]. destruct (Cs py) as (n' & L & C'). eauto.
    - discriminate.
  Qed.

  Lemma runs_cost v0 programs ls g ns :
    v0 = v -> Forall2 thread_cost ns (g_threads (gstart v0 programs)) -> gexec body (gstart v0 programs) ls g ->
    lg_var (st_log (g_store g)) = v /\ exists ns', Forall2 thread_cost ns' (g_threads g) /\ (length ls + list_sum ns' <= list_sum ns)%nat.
  Proof using sinks.
    intros -> F X. induction X as [|ls g i l g' X (V & ns' & F' & L) H].
    - split; [reflexivity|]. exists ns. cbn. auto.
    - destruct (nth_error (g_threads g) i) as [t|] eqn:E; [|unfold gstep in H; rewrite E in H; discriminate].
      assert (Sp : forall ts ns i t, Forall2 thread_cost ns ts -> nth_error ts i = Some t -> exists n, thread_cost n t /\
        forall t' n', (n' < n)%nat -> thread_cost n' t' -> exists ns2, Forall2 thread_cost ns2 (set_nth i t' ts) /\ (S (list_sum ns2) <= list_sum ns)%nat).
      { clear. intros ts ns i t F. revert i t. induction F as [|n t0 ns ts C F IH]; intros [|i] t E; try discriminate.
        - cbn in E. injection E as <-. exists n. split; [exact C|]. intros t' n' Lt C'. exists (n' :: ns). split; [constructor; auto|]. cbn. lia.
        - cbn in E. destruct (IH i t E) as (m & Cm & R). exists m. split; [exact Cm|]. intros t' n' Lt C'. destruct (R t' n' Lt C') as (ns2 & F2 & L2).
          exists (n :: ns2). split; [constructor; auto|]. unfold list_sum in *; cbn [fold_right] in *. lia. }
      destruct (Sp _ _ i t F' E) as (n & C & R). destruct (step_cost _ _ _ _ _ _ V E H C) as (V' & t' & n' & T & Lt & C').
      split; [exact V'|]. destruct (R t' n' Lt C') as (ns2 & F2 & L2). exists ns2. rewrite T. split; [exact F2|]. rewrite app_length. cbn [length]. lia.
  Qed.
End Ends.

Lemma runs_end v body programs B :
  (forall s l line, takes false B (body s l line)) -> Forall (fun p : bool * code => exists n, takes true n (snd p)) programs ->
  exists N, forall ls g, gexec body (gstart v programs) ls g -> (length ls <= N)%nat.
Proof.
  intros Sk Pr. assert (Q : exists ns, Forall2 (thread_cost v B) ns (g_threads (gstart v programs))).
  { cbn. induction Pr as [|[b c] ps [n T] Pr [ns IH]]; [exists []; constructor|]. cbn [map fst snd] in *.
    exists ((n * cost v B true + if b then 2 else 1)%nat :: ns). constructor; [|exact IH]. unfold thread_cost. cbn. destruct b; constructor; exact T. }
  destruct Q as [ns F]. exists (list_sum ns). intros ls g X. destruct (runs_cost v body B Sk v programs ls g ns eq_refl F X) as (_ & ns' & _ & L). lia.
Qed.
