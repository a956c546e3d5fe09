(** Logging from many threads. *)
From Verif Require Import Base BaseProofs Shared SharedProofs AsyncProofs2 Log LogThreads SpecLogThreads.

(** ** One critical section is one call of [Log.lstep] *)
Fixpoint finish (s : store) (m : micro) : store * (result lout * option (sink * level * string)) :=
  match m with
  | Fin r due => (s, (r, due))
  | Get x f => finish s (f (read (st_log s) x))
  | Put x v m' => finish (mkStore (write (st_log s) x v) (st_sink s)) m'
  | GetApplied f => finish s (f (lg_applied (st_log s)))
  | PutApplied m' => finish (mkStore (mkLog (lg_env (st_log s)) (lg_prog (st_log s)) true (lg_var (st_log s))) (st_sink s)) m'
  | GetVar f => finish s (f (lg_var (st_log s)))
  | GetSink f => finish s (f (st_sink s))
  | PutSink sk m' => finish (mkStore (st_log s) sk) m'
  end.

Definition like_layer (a b : layer) : Prop := (forall c, ly_chan a c = ly_chan b c) /\ ly_all a = ly_all b.
Definition like (a b : lstate) : Prop :=
  like_layer (lg_env a) (lg_env b) /\ like_layer (lg_prog a) (lg_prog b) /\ lg_applied a = lg_applied b /\ lg_var a = lg_var b.
Lemma like_refl a : like a a.
Proof. repeat split. Qed.

Lemma channel_eqb_eq a b : channel_eqb a b = true <-> a = b.
Proof. destruct a, b; cbn; split; intros; try reflexivity; discriminate. Qed.

(** What the critical section [m] does from [s] is what a call answers from [a]: the same answer, and stores alike. *)
Definition does (s : store) (m : micro) (a : lstate) (k : sink) (r : result lout) (due : option (sink * level * string)) : Prop :=
  let '(s', (r', due')) := finish s m in like (st_log s') a /\ st_sink s' = k /\ r' = r /\ due' = due.

Lemma entries_finish l : forall s k y e a,
  apply_entries l a = (y, e) -> like_layer (lg_env (st_log s)) a ->
  match e with
  | Some x => exists s', finish s (entry_steps l k) = (s', (Err x, None)) /\ like_layer (lg_env (st_log s')) y /\
       lg_prog (st_log s') = lg_prog (st_log s) /\ lg_applied (st_log s') = lg_applied (st_log s) /\ lg_var (st_log s') = lg_var (st_log s) /\ st_sink s' = st_sink s
  | None => exists s', finish s (entry_steps l k) = finish s' k /\ like_layer (lg_env (st_log s')) y /\
       lg_prog (st_log s') = lg_prog (st_log s) /\ lg_applied (st_log s') = lg_applied (st_log s) /\ lg_var (st_log s') = lg_var (st_log s) /\ st_sink s' = st_sink s
  end.
Proof.
  induction l as [|en l IH]; intros s k y e a H L.
  { cbn in H. injection H as <- <-. exists s. repeat split; try reflexivity; apply L. }
  cbn [apply_entries entry_steps] in *. destruct (split_at "=" en) as [[key v]|]; [|exact (IH s k y e a H L)]. cbv zeta in *.
  destruct (parse_level (trim_lower v)) as [lv|].
  2:{ injection H as <- <-. exists s. cbn [finish]. repeat split; try reflexivity; apply L. }
  destruct (String.eqb (trim_lower key) "all").
  - cbn [finish]. destruct L as [L1 L2].
    match goal with |- context [finish ?s0 _] => pose proof (IH s0 k y e _ H (conj L1 eq_refl)) as Q end.
    destruct e as [x|]; exact Q.
  - destruct (parse_channel (trim_lower key)) as [c|].
    2:{ injection H as <- <-. exists s. cbn [finish]. repeat split; try reflexivity; apply L. }
    cbn [finish]. destruct L as [L1 L2].
    match goal with |- context [finish ?s0 _] => assert (L' : like_layer (lg_env (st_log s0)) (put_chan a c lv)) by
      (split; [intros c'; cbn; rewrite L1; reflexivity|exact L2]); pose proof (IH s0 k y e _ H L') as Q end.
    destruct e as [x|]; exact Q.
Qed.

Lemma cleared s k : exists s', finish s (put_all_of Env k) = finish s' k /\
  (forall c, ly_chan (lg_env (st_log s')) c = None) /\ ly_all (lg_env (st_log s')) = ly_all (lg_env (st_log s)) /\
  lg_prog (st_log s') = lg_prog (st_log s) /\ lg_applied (st_log s') = lg_applied (st_log s) /\ lg_var (st_log s') = lg_var (st_log s) /\ st_sink s' = st_sink s.
Proof. eexists. split; [reflexivity|]. cbn. split; [intros []; reflexivity|]. repeat split. Qed.
Lemma cleared_prog s k : exists s', finish s (put_all_of Prog k) = finish s' k /\
  (forall c, ly_chan (lg_prog (st_log s')) c = None) /\ 
  lg_env (st_log s') = lg_env (st_log s) /\ lg_applied (st_log s') = lg_applied (st_log s) /\ lg_var (st_log s') = lg_var (st_log s) /\ st_sink s' = st_sink s.
Proof. eexists. split; [reflexivity|]. cbn. split; [intros []; reflexivity|]. repeat split. Qed.

Lemma apply_finish s k a a' e : like (st_log s) a -> apply_env_locked a = (a', e) ->
  exists s', like (st_log s') a' /\ st_sink s' = st_sink s /\
    match e with Some x => finish s (apply_steps k) = (s', (Err x, None)) | None => finish s (apply_steps k) = finish s' k end.
Proof.
  intros (L1 & L2 & L3 & L4) H. unfold apply_steps.
  destruct (cleared s (Put EnvAll None (PutApplied (GetVar (fun v => match v with None => k | Some spec => entry_steps (entries_of spec) k end)))))
    as (s1 & -> & C1 & C2 & C3 & C4 & C5 & C6).
  cbn [finish st_log write lg_env lg_prog lg_applied lg_var st_sink]. unfold apply_env_locked in H. rewrite C5, L4.
  set (s2 := mkStore _ _).
  assert (P2 : like_layer (lg_env (st_log s2)) no_layer) by (split; [exact C1|reflexivity]).
  destruct (lg_var a) as [spec|].
  - destruct (apply_entries (entries_of spec) no_layer) as [y x] eqn:E. injection H as <- <-.
    pose proof (entries_finish (entries_of spec) s2 k y x no_layer E P2) as Q.
    destruct x as [x|]; destruct Q as (s3 & E3 & R1 & R2 & R3 & R4 & R5); exists s3; (split; [|split; [rewrite R5; exact C6|exact E3]]);
      (split; [exact R1|]; split; [rewrite R2; cbn; rewrite C3; exact L2|]; split; [rewrite R3; reflexivity|rewrite R4; cbn; congruence]).
  - injection H as <- <-. exists s2. split; [|split; [exact C6|reflexivity]].
    split; [exact P2|]. split; [cbn; rewrite C3; exact L2|]. split; [reflexivity|]. cbn. congruence.
Qed.

Lemma resolve_finish s c k a : like (st_log s) a -> finish s (resolve_steps c k) = finish s (k (resolve a c)).
Proof.
  intros ([E1 E2] & [P1 P2] & _). unfold resolve_steps, resolve. cbn [finish read]. rewrite E1.
  destruct (ly_chan (lg_env a) c); [reflexivity|]. cbn [finish read]. rewrite E2.
  destruct (ly_all (lg_env a)); [reflexivity|]. cbn [finish read]. rewrite P1.
  destruct (ly_chan (lg_prog a) c); [reflexivity|]. cbn [finish read]. rewrite P2. destruct (ly_all (lg_prog a)); reflexivity.
Qed.

Lemma effective_finish s c k a a' r : like (st_log s) a -> effective_locked a c = (a', r) ->
  exists s', like (st_log s') a' /\ st_sink s' = st_sink s /\
    match r with Err x => finish s (effective_steps c k) = (s', (Err x, None)) | Ok l => finish s (effective_steps c k) = finish s' (k l) end.
Proof.
  intros L H. unfold effective_locked in H. unfold effective_steps. cbn [finish]. assert (L3 : lg_applied (st_log s) = lg_applied a) by apply L. rewrite L3. clear L3.
  destruct (lg_applied a).
  - injection H as <- <-. exists s. split; [exact L|]. split; [reflexivity|]. apply resolve_finish, L.
  - destruct (apply_env_locked a) as [b e] eqn:E.
    destruct (apply_finish s (resolve_steps c k) a b e L E) as (s1 & La & Sk & F). destruct e as [x|].
    + injection H as <- <-. exists s1. auto.
    + injection H as <- <-. exists s1. split; [exact La|]. split; [exact Sk|]. rewrite F. apply resolve_finish, La.
Qed.

(** The call [cl] in the sequential world. *)
Definition answers (a : lstate) (k : sink) (cl : lcall) (a' : lstate) (k' : sink) (r : result lout) (due : option (sink * level * string)) : Prop :=
  match event_of cl with
  | Some ev => lstep a ev = (a', r) /\ k' = k /\
      due = match cl, r with CEmit _ l _, Ok (OutLine (Some line)) => Some (k, l, line) | _, _ => None end
  | None => a' = a /\ r = Ok OutUnit /\ due = None /\
      k' = match cl with CSetSink (Some s) => s | _ => SDefault end
  end.

Lemma call_does s a k cl : like (st_log s) a -> st_sink s = k ->
  exists a' k' r due, answers a k cl a' k' r due /\ does s (call_steps cl) a' k' r due.
Proof.
  intros L Sk. unfold answers, does. destruct cl as [c|c l|c l m|c l|l| | |o| ]; cbn [event_of].
  - destruct (effective_locked a c) as [a' r] eqn:E. unfold call_steps. cbn [lstep]. rewrite E.
    destruct (effective_finish s c (fun e => Fin (Ok (OutLevel e)) None) a a' r L E) as (s' & La & Ss & F).
    exists a', k, (rmap OutLevel r), None. split; [repeat split|]. destruct r as [lv|x]; rewrite F; cbn; repeat split; try apply La; congruence.
  - destruct (effective_locked a c) as [a' r] eqn:E. unfold call_steps. cbn [lstep]. rewrite E.
    destruct (effective_finish s c (fun e => Fin (Ok (OutBool (Nat.leb (level_int l) (level_int e)))) None) a a' r L E) as (s' & La & Ss & F).
    eexists a', k, _, None. split; [repeat split|]. destruct r as [lv|x]; rewrite F; cbn; repeat split; try apply La; congruence.
  - destruct (effective_locked a c) as [a' r] eqn:E. unfold call_steps. cbn [lstep]. rewrite E.
    match goal with |- context [finish ?s0 (effective_steps ?c0 ?k0)] => destruct (effective_finish s0 c0 k0 a a' r L E) as (s' & La & Ss & F) end.
    eexists a', k, _, _. split; [repeat split|].
    destruct r as [lv|x]; rewrite F; cbn; [|repeat split; try apply La; congruence].
    destruct (Nat.leb (level_int l) (level_int lv)); cbn; repeat split; try apply La; congruence.
  - eexists _, k, _, _. split; [split; [reflexivity|]; split; reflexivity|]. cbn. destruct L as ([E1 E2] & [P1 P2] & A & W).
    repeat split; auto; cbn. intros c'. rewrite P1. reflexivity.
  - eexists _, k, _, _. split; [split; [reflexivity|]; split; reflexivity|]. cbn. destruct L as ([E1 E2] & [P1 P2] & A & W).
    repeat split; auto.
  - eexists _, k, _, _. split; [split; [reflexivity|]; split; reflexivity|]. unfold call_steps.
    destruct (cleared_prog s (Put ProgAll None (Fin (Ok OutUnit) None))) as (s1 & -> & C1 & C2 & C3 & C4 & C5). cbn.
    destruct L as ([E1 E2] & [P1 P2] & A & W). rewrite C2. repeat split; auto; cbn; congruence.
  - destruct (apply_env_locked a) as [a' e] eqn:E. destruct (apply_finish s (Fin (Ok OutUnit) None) a a' e L E) as (s' & La & Ss & F).
    unfold call_steps. eexists a', k, _, None. split; [split; [cbn [lstep]; rewrite E; reflexivity|]; split; reflexivity|].
    destruct e as [x|]; rewrite F; cbn; repeat split; try apply La; congruence.
  - eexists a, _, _, _. split; [repeat split|]. cbn. split; [exact L|]. destruct o; repeat split.
  - eexists a, _, _, _. split; [repeat split|]. cbn. split; [exact L|]. repeat split.
Qed.

(** ** One step, in terms of what it does to its thread and to the shared parts *)
Definition in_crit (t : lthread) : bool := match t_phase t with PCrit _ _ _ => true | _ => false end.
Definition has_gil (t : lthread) : bool := match t_phase t with PGil _ | PDone => false | _ => t_py t end.
Definition pend (t : lthread) : list (sink * level * string) := match t_phase t with PSink s l line _ _ => [(s, l, line)] | _ => [] end.
Fixpoint nested (py : bool) (fs : list frame) : Prop :=
  match fs with [] => True | f :: fs' => (f_py f = true -> py = true) /\ nested (f_py f) fs' end.
Definition due_list (d : option (sink * level * string)) := match d with Some x => [x] | None => [] end.

Section Step.
  Variable body : sink -> level -> string -> code.

  Inductive store_step (g g' : gstate) (i : nat) (t t' : lthread) : glabel -> Prop :=
  | ss_out : in_crit t = false -> in_crit t' = false -> g_store g' = g_store g -> store_step g g' i t t' (GTau i)
  | ss_in cl k : in_crit t = false -> g_mutex g = None -> t_phase t' = PCrit cl (call_steps cl) k -> g_store g' = g_store g -> store_step g g' i t t' (GTau i)
  | ss_on cl m m' k : t_phase t = PCrit cl m k -> t_phase t' = PCrit cl m' k -> finish (g_store g) m = finish (g_store g') m' -> store_step g g' i t t' (GTau i)
  | ss_commit cl r due k : t_phase t = PCrit cl (Fin r due) k -> in_crit t' = false -> g_store g' = g_store g -> store_step g g' i t t' (GCommit i cl r due)
  | ss_deliver s l line : in_crit t = false -> in_crit t' = false -> g_store g' = g_store g -> store_step g g' i t t' (GDeliver i s l line).

  Definition okt (t : lthread) : Prop := nested (t_py t) (t_stack t) /\ match t_phase t with PGil _ => t_py t = true | _ => True end.
  Ltac same P := split; [left; split; [reflexivity|unfold in_crit; rewrite P; reflexivity]|].
  Ltac quiet P := split; [left; split; [reflexivity|unfold pend; rewrite P; reflexivity]|].
  Ltac outside P := apply ss_out; [unfold in_crit; rewrite P; reflexivity|reflexivity|reflexivity].
  Ltac keep P := left; split; [reflexivity|unfold has_gil; rewrite P; reflexivity].

  Lemma step_cases g i l g' : gstep body g i = Some (l, g') ->
    exists t t', nth_error (g_threads g) i = Some t /\ g_threads g' = set_nth i t' (g_threads g) /\
    (g_mutex g' = g_mutex g /\ in_crit t' = in_crit t \/
     g_mutex g' = None /\ in_crit t = true /\ in_crit t' = false \/
     g_mutex g' = Some i /\ g_mutex g = None /\ in_crit t' = true) /\
    (okt t ->
     okt t' /\
     (g_gil g' = g_gil g /\ has_gil t' = has_gil t \/
      g_gil g' = None /\ has_gil t = true /\ has_gil t' = false \/
      g_gil g' = Some i /\ g_gil g = None /\ has_gil t' = true)) /\
    (l = GTau i /\ pend t' = pend t \/
     (exists cl r due, l = GCommit i cl r due /\ pend t = [] /\ pend t' = due_list due) \/
     (exists s lv line, l = GDeliver i s lv line /\ pend t = [(s, lv, line)] /\ pend t' = [])) /\
    store_step g g' i t t' l.
  Proof using.
    unfold gstep, okt. intros H. destruct (nth_error (g_threads g) i) as [t|] eqn:E; [|discriminate]. exists t. cbv zeta in H.
    destruct (t_phase t) as [c|c|cl k|cl m k|s lv line r k|] eqn:P.
    - destruct c as [r|cl k|c].
      + destruct (t_stack t) as [|f fs] eqn:St; injection H as <- <-; eexists; (split; [reflexivity|]); (split; [reflexivity|]); same P.
        * split; [|quiet P; outside P]. intros N. split; [split; exact I|]. unfold has_gil. rewrite P. cbn. destruct (t_py t); auto.
        * split; [|quiet P; outside P]. cbn [nested t_py t_stack t_phase g_gil]. intros [[N1 N2] _]. split; [split; [exact N2|exact I]|].
          unfold has_gil. rewrite P. cbn [t_phase t_py]. destruct (t_py t), (f_py f); cbn; auto. discriminate (N1 eq_refl).
      + injection H as <- <-. eexists. split; [reflexivity|]. split; [reflexivity|]. same P. split; [|quiet P; outside P].
        intros [N _]. split; [split; [exact N|exact I]|keep P].
      + destruct (t_py t) eqn:Py; injection H as <- <-; eexists; (split; [reflexivity|]); (split; [reflexivity|]); same P; (split; [|quiet P; outside P]).
        * intros [N _]. split; [split; [exact N|reflexivity]|]. right. left. split; [reflexivity|]. unfold has_gil. rewrite P. auto.
        * intros [N _]. split; [split; [exact N|exact I]|]. left. split; [reflexivity|]. unfold has_gil. rewrite P. symmetry. exact Py.
    - destruct (g_gil g) eqn:G; [discriminate|]. injection H as <- <-. eexists. split; [reflexivity|]. split; [reflexivity|]. same P.
      split; [|quiet P; outside P]. intros [N Q]. split; [split; [exact N|exact I]|]. right. right. split; [reflexivity|]. split; [reflexivity|exact Q].
    - destruct (g_mutex g) eqn:Mx; [discriminate|]. injection H as <- <-. eexists. split; [reflexivity|]. split; [reflexivity|].
      split; [right; right; repeat split|]. split; [|quiet P; apply (ss_in _ _ _ _ _ cl k); [unfold in_crit; rewrite P; reflexivity|exact Mx|reflexivity|reflexivity]].
      intros [N _]. split; [split; [exact N|exact I]|keep P].
    - assert (On : forall s' m', Some (GTau i, mkG s' (g_mutex g) (g_gil g) (set_nth i (mkT (PCrit cl m' k) (t_py t) (t_stack t)) (g_threads g))) = Some (l, g') ->
        finish (g_store g) m = finish s' m' -> exists t' : lthread, Some t = Some t /\ g_threads g' = set_nth i t' (g_threads g) /\
    (g_mutex g' = g_mutex g /\ in_crit t' = in_crit t \/
     g_mutex g' = None /\ in_crit t = true /\ in_crit t' = false \/
     g_mutex g' = Some i /\ g_mutex g = None /\ in_crit t' = true) /\
    (nested (t_py t) (t_stack t) /\ True ->
     (nested (t_py t') (t_stack t') /\ match t_phase t' with PGil _ => t_py t' = true | _ => True end) /\
     (g_gil g' = g_gil g /\ has_gil t' = has_gil t \/
      g_gil g' = None /\ has_gil t = true /\ has_gil t' = false \/
      g_gil g' = Some i /\ g_gil g = None /\ has_gil t' = true)) /\
    (l = GTau i /\ pend t' = pend t \/
     (exists cl r due, l = GCommit i cl r due /\ pend t = [] /\ pend t' = due_list due) \/
     (exists s lv line, l = GDeliver i s lv line /\ pend t = [(s, lv, line)] /\ pend t' = [])) /\
    store_step g g' i t t' l).
      { intros s' m' Q F. injection Q as <- <-. eexists. split; [reflexivity|]. split; [reflexivity|]. same P.
        split; [|quiet P; apply (ss_on _ _ _ _ _ cl m m' k); [exact P|reflexivity|exact F]].
        intros [N _]. split; [split; [exact N|exact I]|keep P]. }
      destruct m as [r due|x f|x v m'|f|m'|f|f|sk m'].
      2-8: exact (On _ _ H eq_refl).
      clear On. injection H as <- <-. eexists. split; [reflexivity|]. split; [reflexivity|].
      assert (Nc : in_crit (mkT match due with Some (sk, l, line) => PSink sk l line r k | None => PRun (k r) end (t_py t) (t_stack t)) = false)
        by (destruct due as [[[? ?] ?]|]; reflexivity).
      split; [right; left; split; [reflexivity|]; split; [unfold in_crit; rewrite P; reflexivity|exact Nc]|].
      split.
      { intros [N _]. split; [split; [exact N|destruct due as [[[? ?] ?]|]; exact I]|]. left. split; [reflexivity|]. unfold has_gil. rewrite P.
        destruct due as [[[? ?] ?]|]; reflexivity. }
      split; [right; left; exists cl, r, due; split; [reflexivity|]; unfold pend; rewrite P; split; [reflexivity|]; destruct due as [[[? ?] ?]|]; reflexivity|].
      apply (ss_commit _ _ _ _ _ cl r due k); [exact P|exact Nc|reflexivity].
    - assert (Cl : forall py gil, Some (GDeliver i s lv line, mkG (g_store g) (g_mutex g) gil (set_nth i (mkT (PRun (body s lv line)) py
          (mkFrame (fun e => k match e with Ok _ => r | Err x => Err x end) (t_py t) :: t_stack t)) (g_threads g))) = Some (l, g') ->
        (t_py t = true -> py = true) ->
        (gil = g_gil g /\ py = t_py t \/ gil = Some i /\ g_gil g = None /\ py = true) ->
        exists t' : lthread, Some t = Some t /\ g_threads g' = set_nth i t' (g_threads g) /\
    (g_mutex g' = g_mutex g /\ in_crit t' = in_crit t \/
     g_mutex g' = None /\ in_crit t = true /\ in_crit t' = false \/
     g_mutex g' = Some i /\ g_mutex g = None /\ in_crit t' = true) /\
    (nested (t_py t) (t_stack t) /\ True ->
     (nested (t_py t') (t_stack t') /\ match t_phase t' with PGil _ => t_py t' = true | _ => True end) /\
     (g_gil g' = g_gil g /\ has_gil t' = has_gil t \/
      g_gil g' = None /\ has_gil t = true /\ has_gil t' = false \/
      g_gil g' = Some i /\ g_gil g = None /\ has_gil t' = true)) /\
    (l = GTau i /\ pend t' = pend t \/
     (exists cl r due, l = GCommit i cl r due /\ pend t = [] /\ pend t' = due_list due) \/
     (exists s lv line, l = GDeliver i s lv line /\ pend t = [(s, lv, line)] /\ pend t' = [])) /\
    store_step g g' i t t' l).
      { intros py gil Q Hp Hg. injection Q as <- <-. eexists. split; [reflexivity|]. split; [reflexivity|]. same P.
        split; [|split; [right; right; exists s, lv, line; unfold pend; rewrite P; auto|]].
        - intros [N _]. split; [split; [split; [exact Hp|exact N]|exact I]|]. unfold has_gil. rewrite P. cbn.
          destruct Hg as [[-> ->]|(-> & G & ->)]; auto.
        - apply ss_deliver; [unfold in_crit; rewrite P; reflexivity|reflexivity|reflexivity]. }
      destruct s as [|n|n].
      + apply (Cl _ _ H); auto.
      + apply (Cl _ _ H); auto.
      + destruct (t_py t) eqn:Py; [apply (Cl _ _ H); auto|]. destruct (g_gil g) eqn:G; [discriminate|]. apply (Cl _ _ H); auto.
    - discriminate.
  Qed.

  (** ** What holds along every execution *)
  Inductive reach : lstate -> sink -> list (lcall * result lout * option (sink * level * string)) -> lstate -> sink -> Prop :=
  | rc_nil a k : reach a k [] a k
  | rc_cons a k cl a1 k1 r due h a2 k2 : answers a k cl a1 k1 r due -> reach a1 k1 h a2 k2 -> reach a k ((cl, r, due) :: h) a2 k2.
  Lemma reach_snoc a k h a1 k1 cl r due a2 k2 : reach a k h a1 k1 -> answers a1 k1 cl a2 k2 r due -> reach a k (h ++ [(cl, r, due)]) a2 k2.
  Proof using. intros R A. induction R; cbn; econstructor; eauto. constructor. Qed.
  Lemma reach_sequential a k h a' k' : reach a k h a' k' -> sequential a k h.
  Proof using.
    intros R. induction R as [|a k cl a1 k1 r due h a2 k2 A R IH]; [constructor|]. unfold answers in A.
    destruct (event_of cl) as [ev|] eqn:E.
    - destruct A as (A1 & -> & ->). eapply sq_log; eauto.
    - destruct A as (-> & -> & -> & ->). destruct cl; try discriminate; constructor; exact IH.
  Qed.

  Definition at_mutex g := forall i, g_mutex g = Some i <-> exists t, nth_error (g_threads g) i = Some t /\ in_crit t = true.
  Definition at_gil g := forall i, g_gil g = Some i <-> exists t, nth_error (g_threads g) i = Some t /\ has_gil t = true.
  Definition all_okt g := forall i t, nth_error (g_threads g) i = Some t -> okt t.
  Definition delivery ls g := forall i, due_of i ls = given_by i ls ++ match nth_error (g_threads g) i with Some t => pend t | None => [] end.
  Definition logged v ls g := exists a k, reach (linit v) SDefault (history ls) a k /\
    (g_mutex g = None -> like (st_log (g_store g)) a /\ st_sink (g_store g) = k) /\
    (forall i t cl m kk, nth_error (g_threads g) i = Some t -> t_phase t = PCrit cl m kk ->
      exists a' k' r due, answers a k cl a' k' r due /\ does (g_store g) m a' k' r due).

  Lemma own_step (own : lthread -> bool) (o o' : option nat) ts i t t' :
    nth_error ts i = Some t ->
    (forall j, o = Some j <-> exists t, nth_error ts j = Some t /\ own t = true) ->
    (o' = o /\ own t' = own t \/ o' = None /\ own t = true /\ own t' = false \/ o' = Some i /\ o = None /\ own t' = true) ->
    forall j, o' = Some j <-> exists t, nth_error (set_nth i t' ts) j = Some t /\ own t = true.
  Proof using.
    intros E I C j. assert (L : (i < length ts)%nat) by (apply nth_error_Some; congruence).
    rewrite nth_error_set_nth by exact L. destruct (Nat.eqb_spec i j) as [<-|Ne].
    - destruct C as [[-> Q]|[(-> & Q1 & Q2)|(-> & Q1 & Q2)]].
      + rewrite I, E. split; intros (x & Hx & Ho); injection Hx as <-; [exists t'|exists t]; split; congruence.
      + split; [discriminate|]. intros (x & Hx & Ho). congruence.
      + split; [|reflexivity]. intros _. eauto.
    - destruct C as [[-> Q]|[(-> & Q1 & Q2)|(-> & Q1 & Q2)]].
      + apply I.
      + split; [discriminate|]. intros X. apply I in X. pose proof (proj2 (I i) (ex_intro _ t (conj E Q1))). congruence.
      + split; [congruence|]. intros X. apply I in X. congruence.
  Qed.

  Lemma nth_set ts i (t t' : lthread) j : nth_error ts i = Some t -> nth_error (set_nth i t' ts) j = if Nat.eqb i j then Some t' else nth_error ts j.
  Proof using. intros E. apply nth_error_set_nth. apply nth_error_Some. congruence. Qed.

  Lemma due_snoc i ls l : due_of i (ls ++ [l]) = due_of i ls ++ due_of i [l].
  Proof using. apply flat_map_app. Qed.
  Lemma given_snoc i ls l : given_by i (ls ++ [l]) = given_by i ls ++ given_by i [l].
  Proof using. apply flat_map_app. Qed.
  Lemma history_snoc ls l : history (ls ++ [l]) = history ls ++ history [l].
  Proof using. apply flat_map_app. Qed.

  Definition inv v ls g := at_mutex g /\ at_gil g /\ all_okt g /\ delivery ls g /\ logged v ls g.

  Lemma crit_phase t : in_crit t = true -> exists cl m k, t_phase t = PCrit cl m k.
  Proof using. unfold in_crit. destruct (t_phase t); try discriminate. eauto. Qed.
  Lemma phase_crit t cl m k : t_phase t = PCrit cl m k -> in_crit t = true.
  Proof using. unfold in_crit. intros ->. reflexivity. Qed.

  Lemma inv_step v ls g i l g' : inv v ls g -> gstep body g i = Some (l, g') -> inv v (ls ++ [l]) g'.
  Proof using.
    intros (Im & Ig & Io & Id & Il) H. destruct (step_cases _ _ _ _ H) as (t & t' & E & T & Cm & Co & Cp & Cs).
    destruct (Co (Io i t E)) as [Ot' Cg]. unfold inv, at_mutex, at_gil, all_okt, delivery, logged. rewrite T.
    split; [exact (own_step in_crit _ _ _ _ _ _ E Im Cm)|].
    split; [exact (own_step has_gil _ _ _ _ _ _ E Ig Cg)|].
    split; [|split].
    - intros j x Hx. rewrite (nth_set _ _ _ _ _ E) in Hx. destruct (Nat.eqb_spec i j); [congruence|]. exact (Io j x Hx).
    - intros j. rewrite due_snoc, given_snoc, (nth_set _ _ _ _ _ E). pose proof (Id j) as Q. rewrite Q.
      destruct Cp as [[-> P]|[(cl & r & due & -> & P1 & P2)|(s & lv & line & -> & P1 & P2)]]; cbn [due_of given_by flat_map app].
      + rewrite !app_nil_r. destruct (Nat.eqb_spec i j) as [<-|]; [rewrite E, P; reflexivity|reflexivity].
      + rewrite app_nil_r. destruct (Nat.eqb_spec i j) as [<-|Ne].
        * rewrite E, P1, P2, app_nil_r. destruct due; cbn; rewrite ?Nat.eqb_refl, ?app_nil_r; reflexivity.
        * assert (Nat.eqb j i = false) by (apply Nat.eqb_neq; congruence). destruct due; rewrite ?H0; cbn; rewrite ?app_nil_r; reflexivity.
      + rewrite app_nil_r. destruct (Nat.eqb_spec i j) as [<-|Ne].
        * rewrite E, P1, P2, Nat.eqb_refl. cbn. rewrite app_nil_r. reflexivity.
        * assert (Nat.eqb j i = false) by (apply Nat.eqb_neq; congruence). rewrite H0. cbn. rewrite app_nil_r. reflexivity.
    - destruct Il as (a & k & R & Free & Crit).
      assert (Out : history (ls ++ [l]) = history ls -> g_store g' = g_store g -> in_crit t' = false -> g_mutex g' = g_mutex g ->
        exists a k, reach (linit v) SDefault (history (ls ++ [l])) a k /\
          (g_mutex g' = None -> like (st_log (g_store g')) a /\ st_sink (g_store g') = k) /\
          (forall j x cl m kk, nth_error (set_nth i t' (g_threads g)) j = Some x -> t_phase x = PCrit cl m kk ->
             exists a' k' r due, answers a k cl a' k' r due /\ does (g_store g') m a' k' r due)).
      { intros Eh Es Ec Em. exists a, k. rewrite Eh, Es, Em. split; [exact R|]. split; [exact Free|].
        intros j x cl m kk Hx Px. rewrite (nth_set _ _ _ _ _ E) in Hx. destruct (Nat.eqb_spec i j) as [<-|Ne].
        - injection Hx as <-. apply phase_crit in Px. congruence.
        - exact (Crit j x cl m kk Hx Px). }
      destruct Cs as [C1 C2 Es|cl kk C1 Mx Pt' Es|cl m m' kk Pt Pt' F|cl r due kk Pt C2 Es|s lv line C1 C2 Es].
      + apply Out; auto. { rewrite history_snoc. apply app_nil_r. } destruct Cm as [[-> _]|[(_ & Q & _)|(_ & _ & Q)]]; congruence.
      + destruct (Free Mx) as [Lk Sk]. exists a, k. rewrite history_snoc. cbn. rewrite app_nil_r. split; [exact R|].
        assert (Mi : g_mutex g' = Some i). { pose proof (phase_crit _ _ _ _ Pt'). destruct Cm as [[_ Q]|[(_ & Q & _)|(Q & _ & _)]]; congruence. }
        split; [congruence|]. rewrite Es. intros j x cl' m kk' Hx Px. rewrite (nth_set _ _ _ _ _ E) in Hx. destruct (Nat.eqb_spec i j) as [<-|Ne].
        * injection Hx as <-. rewrite Pt' in Px. injection Px as <- <- <-. exact (call_does _ _ _ cl Lk Sk).
        * apply phase_crit in Px. pose proof (proj2 (Im j) (ex_intro _ x (conj Hx Px))). congruence.
      + pose proof (phase_crit _ _ _ _ Pt) as Ci. pose proof (proj2 (Im i) (ex_intro _ t (conj E Ci))) as Mi.
        assert (Mi' : g_mutex g' = Some i). { pose proof (phase_crit _ _ _ _ Pt'). destruct Cm as [[Q _]|[(_ & _ & Q)|(Q & _ & _)]]; congruence. }
        exists a, k. rewrite history_snoc. cbn. rewrite app_nil_r. split; [exact R|]. split; [congruence|].
        intros j x cl' m0 kk' Hx Px. rewrite (nth_set _ _ _ _ _ E) in Hx. destruct (Nat.eqb_spec i j) as [<-|Ne].
        * injection Hx as <-. rewrite Pt' in Px. injection Px as <- <- <-. destruct (Crit i t cl m kk E Pt) as (a' & k' & r & due & A & D).
          exists a', k', r, due. split; [exact A|]. unfold does in *. rewrite <- F. exact D.
        * apply phase_crit in Px. pose proof (proj2 (Im j) (ex_intro _ x (conj Hx Px))). congruence.
      + pose proof (phase_crit _ _ _ _ Pt) as Ci. pose proof (proj2 (Im i) (ex_intro _ t (conj E Ci))) as Mi.
        destruct (Crit i t cl _ kk E Pt) as (a' & k' & r' & due' & A & D). unfold does in D. cbn [finish] in D. destruct D as (D1 & D2 & <- & <-).
        exists a', k'. rewrite history_snoc. split; [exact (reach_snoc _ _ _ _ _ _ _ _ _ _ R A)|]. rewrite Es. split; [auto|].
        intros j x cl' m0 kk' Hx Px. rewrite (nth_set _ _ _ _ _ E) in Hx. destruct (Nat.eqb_spec i j) as [<-|Ne].
        * injection Hx as <-. apply phase_crit in Px. congruence.
        * apply phase_crit in Px. pose proof (proj2 (Im j) (ex_intro _ x (conj Hx Px))). congruence.
      + apply Out; auto. { rewrite history_snoc. apply app_nil_r. } destruct Cm as [[-> _]|[(_ & Q & _)|(_ & _ & Q)]]; congruence.
  Qed.

  Lemma start_thread v programs i t : nth_error (g_threads (gstart v programs)) i = Some t ->
    in_crit t = false /\ has_gil t = false /\ okt t /\ pend t = [] /\ t_stack t = [] /\
    exists b c, nth_error programs i = Some (b, c) /\ t = mkT (if b then PGil c else PRun c) b [].
  Proof using.
    cbn [gstart g_threads]. rewrite nth_error_map. destruct (nth_error programs i) as [[b c]|]; [|discriminate].
    cbn. intros E. injection E as <-. destruct b; cbn; repeat split; eauto.
  Qed.

  Lemma inv_exec v programs ls g : gexec body (gstart v programs) ls g -> inv v ls g.
  Proof using.
    intros X. induction X as [|ls g i l g' X IH H].
    - split; [|split; [|split; [|split]]].
      + intros i. split; [discriminate|]. intros (t & Ht & C). apply start_thread in Ht. destruct Ht as (? & _). congruence.
      + intros i. split; [discriminate|]. intros (t & Ht & C). apply start_thread in Ht. destruct Ht as (_ & ? & _). congruence.
      + intros i t Ht. apply start_thread in Ht. apply Ht.
      + intros i. destruct (nth_error _ i) as [t|] eqn:Ht; [|reflexivity]. apply start_thread in Ht. destruct Ht as (_ & _ & _ & -> & _). reflexivity.
      + exists (linit v), SDefault. split; [constructor|]. split; [intros _; split; [apply like_refl|reflexivity]|].
        intros i t cl m kk Ht Px. apply start_thread in Ht. apply phase_crit in Px. destruct Ht as (? & _). congruence.
    - exact (inv_step _ _ _ _ _ _ IH H).
  Qed.

  Lemma free_to_go v programs ls g : gexec body (gstart v programs) ls g -> stopped body g -> ended g.
  Proof using.
    intros X St. destruct (inv_exec _ _ _ _ X) as (Im & Ig & Io & _ & _).
    assert (M : g_mutex g = None).
    { destruct (g_mutex g) as [i|] eqn:Mx; [|reflexivity]. exfalso. destruct (proj1 (Im i) Mx) as (t & Et & C).
      pose proof (St i) as S'. unfold gstep in S'. rewrite Et in S'. apply crit_phase in C. destruct C as (cl & m & k & P). rewrite P in S'.
      destruct m; discriminate. }
    assert (G : g_gil g = None).
    { destruct (g_gil g) as [i|] eqn:Gl; [|reflexivity]. exfalso. destruct (proj1 (Ig i) Gl) as (t & Et & C).
      pose proof (St i) as S'. unfold gstep in S'. rewrite Et, M in S'. unfold has_gil in C. destruct (t_phase t) as [c|c|cl k|cl m k|s lv line r k|] eqn:P; try discriminate.
      - destruct c; [destruct (t_stack t); discriminate|discriminate|destruct (t_py t); discriminate].
      - destruct m; discriminate.
      - destruct s; try discriminate. rewrite C in S'. discriminate. }
    intros t Ht. apply In_nth_error in Ht. destruct Ht as [i Et]. pose proof (St i) as S'. unfold gstep in S'. rewrite Et, M, G in S'.
    destruct (t_phase t) as [c|c|cl k|cl m k|s lv line r k|] eqn:P; try discriminate.
    - destruct c; [destruct (t_stack t); discriminate|discriminate|destruct (t_py t); discriminate].
    - destruct m; discriminate.
    - destruct s; try discriminate. destruct (t_py t); discriminate.
    - reflexivity.
  Qed.

  Lemma sink_call v programs ls g i j s lv line g' : gexec body (gstart v programs) ls g -> gstep body g i = Some (GDeliver j s lv line, g') ->
    j = i /\ g_mutex g' <> Some i /\ ((exists n, s = SPy n) -> g_gil g' = Some i).
  Proof using.
    intros X H. pose proof (inv_exec _ _ _ _ (gx_step _ _ _ _ _ _ _ X H)) as (Im & Ig & Io & _ & _).
    destruct (step_cases _ _ _ _ H) as (t & t' & E & T & _ & _ & _ & Cs).
    assert (Et : nth_error (g_threads g') i = Some t') by (rewrite T, (nth_set _ _ _ _ _ E), Nat.eqb_refl; reflexivity).
    assert (Q : j = i /\ in_crit t' = false) by (inversion Cs; auto). destruct Q as [-> C2]. split; [reflexivity|]. split.
    - intros M. destruct (proj1 (Im i) M) as (x & Ex & C). congruence.
    - intros [n ->]. apply Ig. exists t'. split; [exact Et|]. clear Im Ig Io Cs X. unfold gstep in H. rewrite E in H.
      destruct (t_phase t) as [c|c|cl k|cl m k|s lv' line' r k|] eqn:P.
      + destruct c; [destruct (t_stack t); discriminate|discriminate|destruct (t_py t); discriminate].
      + destruct (g_gil g); discriminate.
      + destruct (g_mutex g); discriminate.
      + destruct m; discriminate.
      + destruct s; try discriminate. destruct (t_py t); [|destruct (g_gil g); [discriminate|]];
          injection H as _ _ _ <-; cbn [g_threads] in Et; rewrite (nth_set _ _ _ _ _ E), Nat.eqb_refl in Et; injection Et as <-; reflexivity.
      + discriminate.
  Qed.

  (** ** Every thread does what its code says *)
  Definition go_on (i : nat) (t : lthread) (tr : list glabel) : Prop :=
    let fs := map f_k (t_stack t) in
    match t_phase t with
    | PRun c | PGil c => acts body i fs c tr
    | PLock cl k | PCrit cl _ k => acts body i fs (Call cl k) tr
    | PSink s l line r k => tr = [] \/ exists tr', tr = GDeliver i s l line :: tr' /\
        acts body i ((fun e => k (match e with Ok _ => r | Err x => Err x end)) :: fs) (body s l line) tr'
    | PDone => tr = []
    end.

  Lemma seen_snoc i ls l : seen_of i (ls ++ [l]) = seen_of i ls ++ seen_of i [l].
  Proof using. apply filter_app. Qed.

  Lemma follows v programs ls g : gexec body (gstart v programs) ls g -> forall i b c t,
    nth_error programs i = Some (b, c) -> nth_error (g_threads g) i = Some t ->
    forall tr, go_on i t tr -> acts body i [] c (seen_of i ls ++ tr).
  Proof using.
    intros X. induction X as [|ls g j l g' X IH H]; intros i b c t Ep Et tr G.
    - apply start_thread in Et. destruct Et as (_ & _ & _ & _ & _ & b' & c' & Ep' & ->). rewrite Ep in Ep'. injection Ep' as <- <-.
      cbn. destruct b; exact G.
    - destruct (nth_error (g_threads g) j) as [u|] eqn:E; [|unfold gstep in H; rewrite E in H; discriminate].
      rewrite seen_snoc, <- app_assoc.
      assert (Ts : exists u', g_threads g' = set_nth j u' (g_threads g) /\ (i <> j -> seen_of i [l] = []) /\ forall tr, go_on j u' tr -> go_on j u (seen_of j [l] ++ tr)).
      { clear - H E. unfold gstep in H. rewrite E in H. cbv zeta in H. unfold go_on.
        assert (Nq : i <> j -> Nat.eqb i j = false) by (apply Nat.eqb_neq).
        destruct (t_phase u) as [c|c|cl k|cl m k|s lv line r k|] eqn:P.
        - destruct c as [r|cl k|c].
          + destruct (t_stack u) as [|f fs] eqn:St; injection H as <- <-; eexists; (split; [reflexivity|]); (split; [reflexivity|]); cbn [t_phase t_stack]; rewrite ?St; cbn.
            * intros tr ->. constructor.
            * intros tr A. constructor. exact A.
          + injection H as <- <-. eexists. split; [reflexivity|]. split; [reflexivity|]. cbn. auto.
          + destruct (t_py u); injection H as <- <-; eexists; (split; [reflexivity|]); (split; [reflexivity|]); cbn; intros; constructor; assumption.
        - destruct (g_gil g); [discriminate|]. injection H as <- <-. eexists. split; [reflexivity|]. split; [reflexivity|]. cbn. auto.
        - destruct (g_mutex g); [discriminate|]. injection H as <- <-. eexists. split; [reflexivity|]. split; [reflexivity|]. cbn. auto.
        - destruct m as [r due|x f|x o m|f|m|f|f|s m]; injection H as <- <-; eexists; (split; [reflexivity|]).
          2-8: split; [reflexivity|]; cbn; auto.
          split; [intros Ne; cbn; rewrite (Nq Ne); reflexivity|]. cbn. rewrite Nat.eqb_refl. cbn. intros tr. destruct due as [[[s l] line]|].
          + intros [->|(tr' & -> & A)]; [apply ac_due|apply ac_sink; exact A].
          + intros A. apply ac_call. exact A.
        - assert (Q : exists py, l = GDeliver j s lv line /\ g_threads g' = set_nth j (mkT (PRun (body s lv line)) py
              (mkFrame (fun e => k match e with Ok _ => r | Err x => Err x end) (t_py u) :: t_stack u)) (g_threads g)).
          { destruct s; [| |destruct (t_py u); [|destruct (g_gil g); [discriminate|]]]; injection H as <- <-; eexists; (split; reflexivity). }
          destruct Q as (py & -> & T). eexists. split; [exact T|]. split; [intros Ne; cbn; rewrite (Nq Ne); reflexivity|].
          cbn. rewrite Nat.eqb_refl. cbn. intros tr A. right. eauto.
        - discriminate. }
      destruct Ts as (u' & T & Ns & Gt). rewrite T, (nth_set _ _ _ _ _ E) in Et. destruct (Nat.eqb_spec j i) as [<-|Ne].
      + injection Et as <-. exact (IH j b c u Ep E _ (Gt tr G)).
      + rewrite (Ns (not_eq_sym Ne)). exact (IH i b c t Ep Et tr G).
  Qed.
  Lemma nothing_left i t : go_on i t [].
  Proof using. unfold go_on. destruct (t_phase t); try constructor; reflexivity. Qed.
  Lemma threads_stay v programs ls g : gexec body (gstart v programs) ls g -> length (g_threads g) = length programs.
  Proof using.
    intros X. induction X as [|ls g j l g' X IH H]; [apply map_length|]. destruct (step_cases _ _ _ _ H) as (? & ? & _ & -> & _).
    rewrite set_nth_length. exact IH.
  Qed.
  Lemma as_coded v programs ls g i b c : gexec body (gstart v programs) ls g -> nth_error programs i = Some (b, c) ->
    acts body i [] c (seen_of i ls).
  Proof using.
    intros X Ep. destruct (nth_error (g_threads g) i) as [t|] eqn:Et.
    - rewrite <- (app_nil_r (seen_of i ls)). exact (follows _ _ _ _ X i b c t Ep Et [] (nothing_left i t)).
    - apply nth_error_None in Et. rewrite (threads_stay _ _ _ _ X) in Et. apply nth_error_None in Et. congruence.
  Qed.
End Step.
