(** The embedded interpreter. *)
From Verif Require Import Base BaseProofs Shared SharedProofs AsyncProofs2 Interp SpecInterp.

Definition in_cs (pc : ipc) : bool :=
  match pc with ITest | IInit | IStdio | IHandback | IMark | IUnlock => true | _ => false end.
Definition has_gil (t : ithread) : bool :=
  match t_pc t with
  | IStdio | IHandback | IBody _ | IFailed => true
  | IYielded _ | IDone => false
  | _ => t_inside t
  end.
(** Steps and pieces of Python to come. *)
Definition left_ops (p : list (list move)) : nat := fold_right (fun ms n => 2 + 2 * length ms + n) 0 p.
Definition left_steps (t : ithread) : nat :=
  match t_pc t with
  | ILock => 9 + left_ops (t_ops t) | ITest => 8 + left_ops (t_ops t) | IInit => 7 + left_ops (t_ops t)
  | IStdio => 6 + left_ops (t_ops t) | IHandback => 5 + left_ops (t_ops t) | IMark => 4 + left_ops (t_ops t)
  | IUnlock => 3 + left_ops (t_ops t) | IEnsure => 2 + left_ops (t_ops t)
  | IBody ms => 3 + 2 * length ms + left_ops (t_ops t)
  | IYielded ms => 4 + 2 * length ms + left_ops (t_ops t)
  | ILeave => 1 | IDone | IFailed => 0
  end.
Definition body_left (pc : ipc) : list move := match pc with IBody ms | IYielded ms => ms | _ => [] end.
Definition early (pc : ipc) : bool := match pc with ILock | ITest | IInit | IStdio => true | _ => false end.
Definition starter (pc : ipc) : bool := match pc with IInit | IStdio | IHandback | IMark | IFailed => true | _ => false end.
Definition total (s : istate) : nat := fold_right (fun t n => left_steps t + n) 0 (i_threads s).

Lemma total_set l i t t' : nth_error l i = Some t ->
  fold_right (fun t n => left_steps t + n) 0 (set_nth i t' l) + left_steps t = fold_right (fun t n => left_steps t + n) 0 l + left_steps t'.
Proof.
  revert i. induction l as [|x l IH]; intros [|i] E; try discriminate; cbn in *.
  - injection E as ->. lia.
  - specialize (IH i E). lia.
Qed.

Lemma nth_moved s i t x j : nth_error (i_threads s) i = Some x ->
  nth_error (moved s i t) j = if Nat.eqb i j then Some t else nth_error (i_threads s) j.
Proof. intros E. unfold moved. apply nth_error_set_nth. apply nth_error_Some. congruence. Qed.

Record inv (stdio hosted : bool) (g0 : option nat) (ls : list ilabel) (s : istate) : Prop := {
  v_mutex : forall i, i_mutex s = Some i <-> exists t, nth_error (i_threads s) i = Some t /\ in_cs (t_pc t) = true;
  v_gil : forall i, i_gil s = Some i <-> exists t, nth_error (i_threads s) i = Some t /\ has_gil t = true;
  v_before : forall i t, nth_error (i_threads s) i = Some t -> i_py s = false -> t_pc t = ILock \/ t_pc t = ITest \/ t_pc t = IInit;
  v_starter : forall i t, nth_error (i_threads s) i = Some t -> starter (t_pc t) = true -> hosted = false /\ t_inside t = false;
  v_init : forall i t, nth_error (i_threads s) i = Some t -> t_pc t = IInit -> i_py s = false;
  v_started : i_started s = true -> i_py s = true;
  v_host : hosted = true -> i_py s = true;
  v_inside : forall i t, nth_error (i_threads s) i = Some t -> t_inside t = true -> hosted = true;
  v_ok : stdio = true -> forall i t, nth_error (i_threads s) i = Some t -> t_pc t <> IFailed;
  v_count : inits ls = if hosted then 0 else if i_py s then 1 else 0;
  v_holder : holder g0 ls = i_gil s }.

Lemma holder_snoc g ls l : holder g (ls ++ [l]) = match l with LInit i | LTake i => Some i | LGive _ => None | LPy _ | LTau _ => holder g ls end.
Proof. unfold holder. rewrite fold_left_app. reflexivity. Qed.
Lemma inits_snoc ls l : inits (ls ++ [l]) = inits ls + if is_init l then 1 else 0.
Proof. unfold inits. rewrite filter_app, app_length. cbn. destruct (is_init l); reflexivity. Qed.

Section Step.
  Variables (stdio hosted : bool) (g0 : option nat).

  (** A step of one thread, in terms of what it does to the thread and to the shared parts. *)
  Lemma gil_free ls s i t : inv stdio hosted g0 ls s -> nth_error (i_threads s) i = Some t -> i_gil s = None -> has_gil t = false.
  Proof using. intros V E H. destruct (has_gil t) eqn:D; [|reflexivity]. assert (i_gil s = Some i) by (apply (v_gil _ _ _ _ _ V); eauto). congruence. Qed.

  Lemma frame ls s i t l mutex py started gil t' :
    inv stdio hosted g0 ls s -> nth_error (i_threads s) i = Some t ->
    (* the mutex *)
    (mutex = i_mutex s /\ in_cs (t_pc t') = in_cs (t_pc t) \/
     mutex = None /\ in_cs (t_pc t) = true /\ in_cs (t_pc t') = false \/
     mutex = Some i /\ i_mutex s = None /\ in_cs (t_pc t') = true) ->
    (* the GIL *)
    (gil = i_gil s /\ has_gil t' = has_gil t \/
     gil = None /\ has_gil t = true /\ has_gil t' = false \/
     gil = Some i /\ i_gil s = None /\ has_gil t' = true) ->
    (py = i_py s \/ py = true /\ i_py s = false /\ hosted = false /\ t_pc t = IInit /\ is_init l = true) ->
    (py = false -> t_pc t' = ILock \/ t_pc t' = ITest \/ t_pc t' = IInit) ->
    (starter (t_pc t') = true -> hosted = false /\ t_inside t' = false) ->
    (t_pc t' = IInit -> py = false) ->
    (started = true -> py = true) ->
    t_inside t' = t_inside t ->
    (stdio = true -> t_pc t' <> IFailed) ->
    (is_init l = true -> i_py s = false /\ py = true) ->
    holder g0 (ls ++ [l]) = gil ->
    inv stdio hosted g0 (ls ++ [l]) (mkI mutex py started gil (moved s i t')).
  Proof using.
    intros V E Hm Hg Hp H3 H4 H5 H6 H8 H9 Hi Hh.
    constructor; cbn [i_mutex i_py i_started i_gil i_threads].
    - intros j. pose proof (v_mutex _ _ _ _ _ V) as M. split.
      + intros Ej. rewrite (nth_moved s i t' t j E). destruct (Nat.eqb_spec i j) as [->|Ne].
        * exists t'. split; [reflexivity|]. destruct Hm as [[-> ->]|[(-> & _)|(_ & _ & Q)]]; [|discriminate|exact Q].
          destruct (proj1 (M j) Ej) as (t2 & E2 & Q2). rewrite E in E2. injection E2 as <-. exact Q2.
        * destruct Hm as [[-> _]|[(-> & _)|(-> & _)]]; [|discriminate|congruence]. apply M, Ej.
      + intros (t2 & E2 & Q2). rewrite (nth_moved s i t' t j E) in E2. destruct (Nat.eqb_spec i j) as [->|Ne].
        * injection E2 as <-. destruct Hm as [[-> Q]|[(_ & _ & Q)|(-> & _)]]; [|congruence|reflexivity].
          apply M. exists t. rewrite <- Q. auto.
        * assert (Mj : i_mutex s = Some j) by (apply M; eauto).
          destruct Hm as [[-> _]|[(-> & Q & _)|(_ & Q & _)]]; [exact Mj| |congruence].
          assert (i_mutex s = Some i) by (apply M; eauto). congruence.
    - intros j. pose proof (v_gil _ _ _ _ _ V) as M. split.
      + intros Ej. rewrite (nth_moved s i t' t j E). destruct (Nat.eqb_spec i j) as [->|Ne].
        * exists t'. split; [reflexivity|]. destruct Hg as [[-> ->]|[(-> & _)|(_ & _ & Q)]]; [|discriminate|exact Q].
          destruct (proj1 (M j) Ej) as (t2 & E2 & Q2). rewrite E in E2. injection E2 as <-. exact Q2.
        * destruct Hg as [[-> _]|[(-> & _)|(-> & _)]]; [|discriminate|congruence]. apply M, Ej.
      + intros (t2 & E2 & Q2). rewrite (nth_moved s i t' t j E) in E2. destruct (Nat.eqb_spec i j) as [->|Ne].
        * injection E2 as <-. destruct Hg as [[-> Q]|[(_ & _ & Q)|(-> & _)]]; [|congruence|reflexivity].
          apply M. exists t. rewrite <- Q. auto.
        * assert (Mj : i_gil s = Some j) by (apply M; eauto).
          destruct Hg as [[-> _]|[(-> & Q & _)|(_ & Q & _)]]; [exact Mj| |congruence].
          assert (i_gil s = Some i) by (apply M; eauto). congruence.
    - intros j t2 E2 P. rewrite (nth_moved s i t' t j E) in E2. destruct (Nat.eqb_spec i j) as [->|Ne].
      + injection E2 as <-. auto.
      + apply (v_before _ _ _ _ _ V j t2 E2). destruct Hp as [->|(-> & _)]; [exact P|discriminate].
    - intros j t2 E2 P. rewrite (nth_moved s i t' t j E) in E2. destruct (Nat.eqb_spec i j) as [->|Ne].
      + injection E2 as <-. auto.
      + exact (v_starter _ _ _ _ _ V j t2 E2 P).
    - intros j t2 E2 P. rewrite (nth_moved s i t' t j E) in E2. destruct (Nat.eqb_spec i j) as [->|Ne].
      + injection E2 as <-. auto.
      + destruct Hp as [->|(-> & _ & _ & Q & _)]; [exact (v_init _ _ _ _ _ V j t2 E2 P)|]. exfalso.
        pose proof (v_mutex _ _ _ _ _ V) as M.
        assert (i_mutex s = Some i) by (apply M; exists t; rewrite Q; auto).
        assert (i_mutex s = Some j) by (apply M; exists t2; rewrite P; auto). congruence.
    - exact H6.
    - intros P. pose proof (v_host _ _ _ _ _ V P). destruct Hp as [->|(-> & _)]; auto.
    - intros j t2 E2 P. rewrite (nth_moved s i t' t j E) in E2. destruct (Nat.eqb_spec i j) as [->|Ne].
      + injection E2 as <-. rewrite H8 in P. exact (v_inside _ _ _ _ _ V j t E P).
      + exact (v_inside _ _ _ _ _ V j t2 E2 P).
    - intros P j t2 E2. rewrite (nth_moved s i t' t j E) in E2. destruct (Nat.eqb_spec i j) as [->|Ne].
      + injection E2 as <-. auto.
      + exact (v_ok _ _ _ _ _ V P j t2 E2).
    - rewrite inits_snoc, (v_count _ _ _ _ _ V). destruct Hp as [->|(-> & P1 & P2 & _ & P3)].
      + destruct (is_init l) eqn:D; [|lia]. destruct (Hi eq_refl). congruence.
      + rewrite P1, P2, P3. reflexivity.
    - exact Hh.
  Qed.

  Ltac go := first [reflexivity | assumption | discriminate | congruence | tauto | (intros; discriminate) | (intros; congruence) | auto; fail].

  Lemma step_inv ls s i l s' : inv stdio hosted g0 ls s -> istep stdio s i = Some (l, s') -> inv stdio hosted g0 (ls ++ [l]) s'.
  Proof using.
    intros V H. unfold istep in H. destruct (nth_error (i_threads s) i) as [t|] eqn:E; [|discriminate].
    pose proof (v_holder _ _ _ _ _ V) as Hh. pose proof (v_started _ _ _ _ _ V) as Hs.
    pose proof (v_before _ _ _ _ _ V i t E) as Hb. pose proof (v_starter _ _ _ _ _ V i t E) as Ht.
    pose proof (v_init _ _ _ _ _ V i t E) as Hn. pose proof (gil_free ls s i t V E) as Hf.
    pose proof (v_inside _ _ _ _ _ V i t E) as Hins.
    assert (Hos : hosted = true -> i_py s = true) by exact (v_host _ _ _ _ _ V).
    cbv zeta in H. unfold has_gil in Hf.
    destruct (t_pc t) as [| | | | | | | | [|[|] ms] | ms | | |] eqn:P; try discriminate; cbn [starter] in Ht.
    - destruct (i_mutex s) eqn:Mx; [discriminate|]. injection H as <- <-.
      eapply frame; try exact E; try exact V; cbn [t_pc t_inside t_ops has_gil in_cs is_init]; unfold has_gil; cbn [t_pc t_inside]; rewrite ?P, ?holder_snoc; try go.
    - destruct (i_started s || i_py s) eqn:D; injection H as <- <-.
      + assert (Py : i_py s = true) by (apply orb_prop in D as [D|D]; auto).
        eapply frame; try exact E; try exact V; cbn [t_pc t_inside t_ops has_gil in_cs is_init]; unfold has_gil; cbn [t_pc t_inside]; rewrite ?P, ?holder_snoc; try go.
      + apply orb_false_elim in D as [D1 D2].
        eapply frame; try exact E; try exact V; cbn [t_pc t_inside t_ops has_gil in_cs is_init]; unfold has_gil; cbn [t_pc t_inside]; rewrite ?P, ?holder_snoc; try go.
        intros _. destruct hosted; [rewrite Hos in D2 by reflexivity; discriminate|]. split; [reflexivity|].
        destruct (t_inside t); [discriminate Hins; reflexivity|reflexivity].
    - specialize (Hn eq_refl). rewrite Hn in H. injection H as <- <-. destruct (Ht eq_refl) as [Q1 Q2].
      assert (Gn : i_gil s = None).
      { destruct (i_gil s) as [j|] eqn:G; [|reflexivity]. exfalso.
        destruct (proj1 (v_gil _ _ _ _ _ V j) G) as (t2 & E2 & Q).
        pose proof (v_inside _ _ _ _ _ V j t2 E2) as I2. pose proof (v_before _ _ _ _ _ V j t2 E2 Hn) as B2.
        unfold has_gil in Q. destruct B2 as [B2|[B2|B2]]; rewrite B2 in Q; specialize (I2 Q); congruence. }
      eapply frame; try exact E; try exact V; cbn [t_pc t_inside t_ops has_gil in_cs is_init]; unfold has_gil; cbn [t_pc t_inside]; rewrite ?P, ?holder_snoc; try go.
    - assert (Py1 : i_py s = true) by (destruct (i_py s); [reflexivity|]; destruct (Hb eq_refl) as [X|[X|X]]; discriminate).
      destruct (Bool.bool_dec stdio true) as [Sd|Sd]; [|apply Bool.not_true_is_false in Sd]; rewrite Sd in H; injection H as <- <-;
      (eapply frame; try exact E; try exact V; cbn [t_pc t_inside t_ops has_gil in_cs is_init]; unfold has_gil; cbn [t_pc t_inside]; rewrite ?P, ?holder_snoc; try go).
    - assert (Py1 : i_py s = true) by (destruct (i_py s); [reflexivity|]; destruct (Hb eq_refl) as [X|[X|X]]; discriminate).
      injection H as <- <-. destruct (Ht eq_refl) as [Q1 Q2].
      eapply frame; try exact E; try exact V; cbn [t_pc t_inside t_ops has_gil in_cs is_init]; unfold has_gil; cbn [t_pc t_inside]; rewrite ?P, ?holder_snoc; try go.
    - assert (Py1 : i_py s = true) by (destruct (i_py s); [reflexivity|]; destruct (Hb eq_refl) as [X|[X|X]]; discriminate).
      injection H as <- <-.
      eapply frame; try exact E; try exact V; cbn [t_pc t_inside t_ops has_gil in_cs is_init]; unfold has_gil; cbn [t_pc t_inside]; rewrite ?P, ?holder_snoc; try go.
    - assert (Py1 : i_py s = true) by (destruct (i_py s); [reflexivity|]; destruct (Hb eq_refl) as [X|[X|X]]; discriminate).
      injection H as <- <-.
      eapply frame; try exact E; try exact V; cbn [t_pc t_inside t_ops has_gil in_cs is_init]; unfold has_gil; cbn [t_pc t_inside]; rewrite ?P, ?holder_snoc; try go.
    - assert (Py1 : i_py s = true) by (destruct (i_py s); [reflexivity|]; destruct (Hb eq_refl) as [X|[X|X]]; discriminate).
      destruct (t_ops t) as [|ms ops].
      { injection H as <- <-.
        eapply frame; try exact E; try exact V; cbn [t_pc t_inside t_ops has_gil in_cs is_init]; unfold has_gil; cbn [t_pc t_inside]; rewrite ?P, ?holder_snoc; try go. }
      destruct (t_inside t) eqn:In.
      { injection H as <- <-.
        eapply frame; try exact E; try exact V; cbn [t_pc t_inside t_ops has_gil in_cs is_init]; unfold has_gil; cbn [t_pc t_inside]; rewrite ?P, ?holder_snoc; try go. }
      destruct (i_gil s) eqn:G; [discriminate|]. injection H as <- <-.
      eapply frame; try exact E; try exact V; cbn [t_pc t_inside t_ops has_gil in_cs is_init]; unfold has_gil; cbn [t_pc t_inside]; rewrite ?P, ?holder_snoc; try go.
    - assert (Py1 : i_py s = true) by (destruct (i_py s); [reflexivity|]; destruct (Hb eq_refl) as [X|[X|X]]; discriminate).
      destruct (t_inside t) eqn:In; injection H as <- <-;
      (eapply frame; try exact E; try exact V; cbn [t_pc t_inside t_ops has_gil in_cs is_init]; unfold has_gil; cbn [t_pc t_inside]; rewrite ?P, ?holder_snoc; try go).
    - assert (Py1 : i_py s = true) by (destruct (i_py s); [reflexivity|]; destruct (Hb eq_refl) as [X|[X|X]]; discriminate).
      injection H as <- <-.
      eapply frame; try exact E; try exact V; cbn [t_pc t_inside t_ops has_gil in_cs is_init]; unfold has_gil; cbn [t_pc t_inside]; rewrite ?P, ?holder_snoc; try go.
    - assert (Py1 : i_py s = true) by (destruct (i_py s); [reflexivity|]; destruct (Hb eq_refl) as [X|[X|X]]; discriminate).
      injection H as <- <-.
      eapply frame; try exact E; try exact V; cbn [t_pc t_inside t_ops has_gil in_cs is_init]; unfold has_gil; cbn [t_pc t_inside]; rewrite ?P, ?holder_snoc; try go.
    - assert (Py1 : i_py s = true) by (destruct (i_py s); [reflexivity|]; destruct (Hb eq_refl) as [X|[X|X]]; discriminate).
      destruct (i_gil s) eqn:G; [discriminate|]. injection H as <- <-.
      eapply frame; try exact E; try exact V; cbn [t_pc t_inside t_ops has_gil in_cs is_init]; unfold has_gil; cbn [t_pc t_inside]; rewrite ?P, ?holder_snoc; try go.
    - assert (Py1 : i_py s = true) by (destruct (i_py s); [reflexivity|]; destruct (Hb eq_refl) as [X|[X|X]]; discriminate).
      destruct (t_inside t) eqn:In; injection H as <- <-;
      (eapply frame; try exact E; try exact V; cbn [t_pc t_inside t_ops has_gil in_cs is_init]; unfold has_gil; cbn [t_pc t_inside]; rewrite ?P, ?holder_snoc; try go).
  Qed.
End Step.

Lemma nth_istart hosted inside ps i t : nth_error (i_threads (istart hosted inside ps)) i = Some t ->
  exists p, nth_error ps i = Some p /\
    t = mkT ILock (match inside with Some j => hosted && Nat.eqb i j | None => false end) p.
Proof.
  cbn [istart i_threads]. rewrite nth_error_map. destruct (nth_error (combine _ ps) i) as [[k p]|] eqn:E; [|discriminate].
  cbn [option_map fst snd]. intros Q. injection Q as <-.
  assert (H : k = i /\ nth_error ps i = Some p).
  { assert (G : forall (l : list (list (list move))) n i k p, nth_error (combine (seq n (length l)) l) i = Some (k, p) -> k = n + i /\ nth_error l i = Some p).
    { induction l as [|x l IH]; intros n [|i'] k' p' Q; cbn in Q; try discriminate.
      - injection Q as <- <-. split; [lia|reflexivity].
      - apply IH in Q as [-> Q]. split; [lia|exact Q]. }
    apply G in E. cbn in E. exact E. }
  destruct H as [-> H]. exists p. auto.
Qed.

Lemma istart_nth hosted inside ps i p : nth_error ps i = Some p ->
  nth_error (i_threads (istart hosted inside ps)) i = Some (mkT ILock (match inside with Some j => hosted && Nat.eqb i j | None => false end) p).
Proof.
  intros E. destruct (nth_error (i_threads (istart hosted inside ps)) i) as [t|] eqn:Et.
  - apply nth_istart in Et as (p' & E' & ->). rewrite E in E'. injection E' as <-. reflexivity.
  - exfalso. apply nth_error_None in Et. cbn [istart i_threads] in Et. rewrite map_length, combine_length, seq_length in Et.
    assert (i < length ps) by (apply nth_error_Some; congruence). lia.
Qed.

Lemma start_inv stdio hosted inside ps : inv stdio hosted (i_gil (istart hosted inside ps)) [] (istart hosted inside ps).
Proof.
  constructor.
  - intros i. split; [discriminate|]. intros (t & E & Q). apply nth_istart in E as (p & _ & ->). discriminate.
  - intros i. split.
    + intros G. cbn [istart i_gil] in G. destruct inside as [j|]; [|discriminate].
      destruct (hosted && (j <? length ps)) eqn:D; [|discriminate]. injection G as ->.
      apply andb_prop in D as [D1 D2]. apply Nat.ltb_lt in D2. destruct (nth_error ps i) as [p|] eqn:Ep.
      2:{ apply nth_error_None in Ep. lia. }
      exists (mkT ILock true p). rewrite (istart_nth hosted (Some i) ps i p Ep). rewrite D1, Nat.eqb_refl. auto.
    + intros (t & E & Q). pose proof E as E'. apply nth_istart in E as (p & Ep & ->). cbn in Q. destruct inside as [j|]; [|discriminate].
      apply andb_prop in Q as [Q1 Q2]. apply Nat.eqb_eq in Q2. subst j. cbn [istart i_gil]. rewrite Q1. cbn [andb].
      destruct (Nat.ltb_spec i (length ps)); [reflexivity|]. assert (i < length ps) by (apply nth_error_Some; congruence). lia.
  - intros i t E _. apply nth_istart in E as (p & _ & ->). auto.
  - intros i t E Q. apply nth_istart in E as (p & _ & ->). discriminate.
  - intros i t E Q. apply nth_istart in E as (p & _ & ->). discriminate.
  - discriminate.
  - intros H. exact H.
  - intros i t E Q. apply nth_istart in E as (p & _ & ->). cbn in Q. destruct inside; [|discriminate]. apply andb_prop in Q. tauto.
  - intros _ i t E. apply nth_istart in E as (p & _ & ->). discriminate.
  - cbn. destruct hosted; reflexivity.
  - reflexivity.
Qed.

Lemma left_cons ms p : left_ops (ms :: p) = 2 + 2 * length ms + left_ops p.
Proof. reflexivity. Qed.

Section Runs.
  Variables (stdio hosted : bool) (inside : option nat) (ps : list (list (list move))).
  Let s0 := istart hosted inside ps.
  Let g0 := i_gil s0.

  Lemma exec_inv ls s : iexec stdio s0 ls s -> inv stdio hosted g0 ls s.
  Proof using. induction 1; [apply start_inv|eapply step_inv; eassumption]. Qed.

  Lemma step_label ls s i l s' : inv stdio hosted g0 ls s -> istep stdio s i = Some (l, s') ->
    match l with
    | LInit _ => hosted = false /\ inits ls = 0 /\ holder g0 ls = None
    | LTake _ => holder g0 ls = None /\ (hosted = true \/ inits ls = 1)
    | LGive j => holder g0 ls = Some j
    | LPy j => holder g0 ls = Some j /\ (hosted = true \/ inits ls = 1)
    | LTau _ => True
    end.
  Proof using.
    intros V H. pose proof (step_inv _ _ _ ls s i l s' V H) as V'.
    assert (Hup : i_py s = true -> hosted = true \/ inits ls = 1).
    { intros Q. rewrite (v_count _ _ _ _ _ V), Q. destruct hosted; auto. }
    unfold istep in H. destruct (nth_error (i_threads s) i) as [t|] eqn:E; [|discriminate]. cbv zeta in H.
    assert (Hg : has_gil t = true -> i_gil s = Some i) by (intros Q; apply (v_gil _ _ _ _ _ V); eauto).
    pose proof (v_before _ _ _ _ _ V i t E) as Hb. rewrite (v_holder _ _ _ _ _ V).
    unfold has_gil in Hg.
    destruct (t_pc t) as [| | | | | | | | [|[|] ms] | ms | | |] eqn:P; try discriminate;
      try (assert (Py1 : i_py s = true) by (destruct (i_py s); [reflexivity|]; destruct (Hb eq_refl) as [X|[X|X]]; discriminate)).
    - destruct (i_mutex s); [discriminate|]. injection H as <- <-. exact I.
    - injection H as <- <-. exact I.
    - pose proof (v_init _ _ _ _ _ V i t E P) as Q. rewrite Q in H. injection H as <- <-.
      destruct (v_starter _ _ _ _ _ V i t E) as [Q1 Q2]; [rewrite P; reflexivity|].
      split; [exact Q1|]. split; [rewrite (v_count _ _ _ _ _ V), Q, Q1; reflexivity|].
      destruct (i_gil s) as [j|] eqn:G; [|reflexivity]. exfalso.
      destruct (proj1 (v_gil _ _ _ _ _ V j) G) as (t2 & E2 & Q3).
      pose proof (v_inside _ _ _ _ _ V j t2 E2) as I2. pose proof (v_before _ _ _ _ _ V j t2 E2 Q) as B2.
      unfold has_gil in Q3. destruct B2 as [B2|[B2|B2]]; rewrite B2 in Q3; specialize (I2 Q3); congruence.
    - destruct stdio; injection H as <- <-; auto.
    - injection H as <- <-. auto.
    - injection H as <- <-. exact I.
    - injection H as <- <-. exact I.
    - destruct (t_ops t); [injection H as <- <-; exact I|]. destruct (t_inside t); [injection H as <- <-; exact I|].
      destruct (i_gil s); [discriminate|]. injection H as <- <-. auto.
    - destruct (t_inside t); injection H as <- <-; auto.
    - injection H as <- <-. auto.
    - injection H as <- <-. auto.
    - destruct (i_gil s); [discriminate|]. injection H as <- <-. auto.
    - destruct (t_inside t) eqn:In; injection H as <- <-; auto.
  Qed.

  Lemma exec_disciplined ls s : iexec stdio s0 ls s -> disciplined hosted g0 ls.
  Proof using.
    induction 1 as [|ls s i l s' R IH H]; intros l1 x l2 E.
    - destruct l1; discriminate.
    - destruct l2 as [|y l2] using rev_ind.
      + apply app_inj_tail in E as [<- <-]. exact (step_label ls s i l s' (exec_inv _ _ R) H).
      + clear IHl2. rewrite app_comm_cons, app_assoc in E. apply app_inj_tail in E as [-> _]. apply (IH l1 x l2 eq_refl).
  Qed.
  Lemma exec_inits ls s : iexec stdio s0 ls s -> inits ls <= 1.
  Proof using. intros R. rewrite (v_count _ _ _ _ _ (exec_inv _ _ R)). destruct hosted, (i_py s); lia. Qed.

  (** Every step is one less. *)
  Lemma step_less s i l s' : istep stdio s i = Some (l, s') -> S (total s') <= total s.
  Proof.
    intros H. unfold istep in H. destruct (nth_error (i_threads s) i) as [t|] eqn:E; [|discriminate]. cbv zeta in H.
    assert (G : forall t', left_steps t' < left_steps t -> forall m p st g, S (total (mkI m p st g (moved s i t'))) <= total s).
    { intros t' L m p st g. unfold total, moved. cbn [i_threads]. pose proof (total_set _ i t t' E). lia. }
    unfold left_steps in G.
    destruct (t_pc t) as [| | | | | | | | [|[|] ms] | ms | | |] eqn:P; try discriminate;
      repeat match type of H with
             | context [match ?x with _ => _ end] => destruct x eqn:?; try discriminate
             end; injection H as _ <-; apply G; cbn [t_pc t_ops length]; try lia;
      rewrite left_cons; lia.
  Qed.
  Lemma exec_less ls s : iexec stdio s0 ls s -> length ls + total s <= total s0.
  Proof.
    induction 1 as [|ls s i l s' R IH H]; [cbn; lia|]. rewrite app_length. cbn [length]. pose proof (step_less s i l s' H). lia.
  Qed.

  Lemma exec_threads ls s : iexec stdio s0 ls s -> length (i_threads s) = length ps.
  Proof.
    induction 1 as [|ls s i l s' R IH H].
    - unfold s0. cbn [istart i_threads]. rewrite map_length, combine_length, seq_length. lia.
    - rewrite <- IH. clear - H. unfold istep in H. destruct (nth_error (i_threads s) i) as [t|] eqn:E; [|discriminate]. cbv zeta in H.
      destruct (t_pc t) as [| | | | | | | | [|[|] ms] | ms | | |]; try discriminate;
      repeat match type of H with
             | context [match ?x with _ => _ end] => destruct x; try discriminate
             end; injection H as _ <-; cbn [i_threads]; unfold moved; apply set_nth_length.
  Qed.

  Lemma total_work : total s0 = work ps.
  Proof.
    assert (L : forall p, left_ops p = list_sum (map (fun ms => 2 + 2 * length ms) p)).
    { induction p as [|ms p IH]; [reflexivity|]. rewrite left_cons, IH. reflexivity. }
    unfold total, s0, work. cbn [istart i_threads]. generalize 0 at 2. induction ps as [|p l IH]; intros n; [reflexivity|].
    cbn [length seq combine map fold_right list_sum]. rewrite IH. unfold left_steps at 1. cbn [t_pc t_ops fst snd]. rewrite L. reflexivity.
  Qed.

  (** Nobody waits for ever. *)
  Lemma stuck_finished ls s : stdio = true -> iexec stdio s0 ls s -> stuck stdio s ->
    finished s /\ i_mutex s = None /\ i_gil s = None.
  Proof.
    intros Ok R St. pose proof (exec_inv _ _ R) as V.
    assert (Blocked : forall i t, nth_error (i_threads s) i = Some t ->
              t_pc t = IDone \/ (t_pc t = ILock /\ i_mutex s <> None) \/ (has_gil t = false /\ i_gil s <> None /\ in_cs (t_pc t) = false)).
    { intros i t E. specialize (St i). unfold istep in St. rewrite E in St. cbv zeta in St.
      destruct (t_pc t) as [| | | | | | | | [|[|] ms] | ms | | |] eqn:P; try discriminate.
      - destruct (i_mutex s); [right; left; split; [reflexivity|discriminate]|discriminate].
      - destruct (i_py s); discriminate.
      - destruct stdio; discriminate.
      - destruct (t_ops t); [discriminate|]. destruct (t_inside t) eqn:In; [discriminate|].
        destruct (i_gil s); [|discriminate]. right; right. unfold has_gil. rewrite P. split; [exact In|]. split; [discriminate|reflexivity].
      - destruct (t_inside t); discriminate.
      - destruct (i_gil s); [|discriminate]. right; right. unfold has_gil. rewrite P. split; [reflexivity|]. split; [discriminate|reflexivity].
      - destruct (t_inside t); discriminate.
      - left. reflexivity.
      - exfalso. exact (v_ok _ _ _ _ _ V Ok i t E P). }
    assert (Mx : i_mutex s = None).
    { destruct (i_mutex s) as [j|] eqn:Mj; [|reflexivity]. exfalso.
      destruct (proj1 (v_mutex _ _ _ _ _ V j) Mj) as (t & E & Q).
      destruct (Blocked j t E) as [B|[[B _]|(_ & _ & B)]]; rewrite ?B in Q; try discriminate; congruence. }
    assert (Gl : i_gil s = None).
    { destruct (i_gil s) as [j|] eqn:Gj; [|reflexivity]. exfalso.
      destruct (proj1 (v_gil _ _ _ _ _ V j) Gj) as (t & E & Q).
      destruct (Blocked j t E) as [B|[[_ B]|(B & _)]]; [|congruence|congruence]. unfold has_gil in Q. rewrite B in Q. discriminate. }
    split; [|auto]. intros t I. apply In_nth_error in I as (i & E).
    destruct (Blocked i t E) as [B|[[_ B]|(_ & B & _)]]; [exact B|congruence|congruence].
  Qed.

  (** The Python a thread still has to run. *)
  Definition py_left (t : ithread) : nat :=
    python_in (body_left (t_pc t) :: t_ops t) + (match t_pc t with IStdio => 1 | _ => 0 end).
  Lemma python_cons ms p : python_in (ms :: p) = python_in [ms] + python_in p.
  Proof. unfold python_in. cbn [concat]. rewrite app_nil_r, filter_app, app_length. reflexivity. Qed.
  Lemma python_snoc i ls l : python_of i (ls ++ [l]) = python_of i ls + match l with LPy j => if Nat.eqb i j then 1 else 0 | _ => 0 end.
  Proof. unfold python_of. rewrite filter_app, app_length. cbn. destruct l; try reflexivity. destruct (Nat.eqb i i0); reflexivity. Qed.
  Lemma started_snoc i ls l : started_by i (ls ++ [l]) = started_by i ls + match l with LInit j => if Nat.eqb i j then 1 else 0 | _ => 0 end.
  Proof. unfold started_by. rewrite filter_app, app_length. cbn. destruct l; try reflexivity. destruct (Nat.eqb i i0); reflexivity. Qed.

  Lemma exec_python ls s i p : stdio = true -> iexec stdio s0 ls s -> nth_error ps i = Some p ->
    exists t, nth_error (i_threads s) i = Some t /\ python_of i ls + py_left t = python_in p + started_by i ls.
  Proof.
    intros Ok R Ep. induction R as [|ls s j l s' R IH H].
    - exists (mkT ILock (match inside with Some j => hosted && Nat.eqb i j | None => false end) p).
      split; [apply istart_nth; exact Ep|]. unfold py_left. cbn. unfold python_in. cbn. lia.
    - destruct IH as (t & Et & IH). rewrite python_snoc, started_snoc.
      unfold istep in H. destruct (nth_error (i_threads s) j) as [u|] eqn:E; [|discriminate]. cbv zeta in H.
      assert (Other : forall k, l = LTau k \/ l = LTake k \/ l = LGive k -> forall u' m py st g, s' = mkI m py st g (moved s j u') -> py_left u' = py_left u ->
                exists t', nth_error (i_threads s') i = Some t' /\
                  python_of i ls + (match l with LPy k => if Nat.eqb i k then 1 else 0 | _ => 0 end) + py_left t' =
                  python_in p + (started_by i ls + match l with LInit k => if Nat.eqb i k then 1 else 0 | _ => 0 end)).
      { intros k Hl u' m py st g -> Q. cbn [i_threads].
        assert (Z1 : match l with LPy k => if Nat.eqb i k then 1 else 0 | _ => 0 end = 0) by (destruct Hl as [->|[->| ->]]; reflexivity).
        assert (Z2 : match l with LInit k => if Nat.eqb i k then 1 else 0 | _ => 0 end = 0) by (destruct Hl as [->|[->| ->]]; reflexivity).
        rewrite Z1, Z2. rewrite (nth_moved s j u' u i E). destruct (Nat.eqb_spec j i) as [->|Ne].
        - exists u'. split; [reflexivity|]. rewrite E in Et. injection Et as <-. lia.
        - exists t. split; [exact Et|]. lia. }
      unfold py_left in Other at 1 2.
      destruct (t_pc u) as [| | | | | | | | [|[|] ms] | ms | | |] eqn:P; try discriminate.
      + destruct (i_mutex s); [discriminate|]. injection H as <- <-. eapply Other; [left; reflexivity|reflexivity|reflexivity].
      + injection H as <- <-. eapply Other; [left; reflexivity|reflexivity|]. destruct (i_started s || i_py s); reflexivity.
      + destruct (i_py s).
        { injection H as <- <-. eapply Other; [left; reflexivity|reflexivity|reflexivity]. }
        injection H as <- <-. cbn [i_threads]. rewrite (nth_moved s j _ u i E). destruct (Nat.eqb_spec j i) as [->|Ne].
        * eexists. split; [reflexivity|]. rewrite Nat.eqb_refl. rewrite E in Et. injection Et as <-.
          unfold py_left in *. rewrite P in IH. cbn [t_pc t_ops body_left] in *. lia.
        * exists t. split; [exact Et|]. destruct (Nat.eqb_spec i j); [congruence|]. lia.
      + rewrite Ok in H. injection H as <- <-. cbn [i_threads]. rewrite (nth_moved s j _ u i E). destruct (Nat.eqb_spec j i) as [->|Ne].
        * eexists. split; [reflexivity|]. rewrite Nat.eqb_refl. rewrite E in Et. injection Et as <-.
          unfold py_left in *. rewrite P in IH. cbn [t_pc t_ops body_left] in *. lia.
        * exists t. split; [exact Et|]. destruct (Nat.eqb_spec i j); [congruence|]. lia.
      + injection H as <- <-. eapply Other; [right; right; reflexivity|reflexivity|reflexivity].
      + injection H as <- <-. eapply Other; [left; reflexivity|reflexivity|reflexivity].
      + injection H as <- <-. eapply Other; [left; reflexivity|reflexivity|reflexivity].
      + destruct (t_ops u) as [|ms ops] eqn:Ops.
        { injection H as <- <-. eapply Other; [left; reflexivity|reflexivity|]. cbn [t_pc t_ops body_left]. reflexivity. }
        assert (Q : python_in ([] :: ms :: ops) = python_in (ms :: ops)) by reflexivity.
        destruct (t_inside u); [|destruct (i_gil s); [discriminate|]]; injection H as <- <-;
          (eapply Other; [auto|reflexivity|]); cbn [t_pc t_ops body_left]; rewrite ?Q; reflexivity.
      + destruct (t_inside u); injection H as <- <-; (eapply Other; [auto|reflexivity|reflexivity]).
      + injection H as <- <-. cbn [i_threads]. rewrite (nth_moved s j _ u i E). destruct (Nat.eqb_spec j i) as [->|Ne].
        * eexists. split; [reflexivity|]. rewrite Nat.eqb_refl. rewrite E in Et. injection Et as <-.
          unfold py_left in *. rewrite P in IH. cbn [t_pc t_ops body_left] in *.
          assert (Q : python_in ((Py :: ms) :: t_ops u) = S (python_in (ms :: t_ops u))) by reflexivity. lia.
        * exists t. split; [exact Et|]. destruct (Nat.eqb_spec i j); [congruence|]. lia.
      + injection H as <- <-. eapply Other; [right; right; reflexivity|reflexivity|reflexivity].
      + destruct (i_gil s); [discriminate|]. injection H as <- <-. eapply Other; [right; left; reflexivity|reflexivity|reflexivity].
      + destruct (t_inside u); injection H as <- <-; (eapply Other; [auto|reflexivity|reflexivity]).
  Qed.

  Lemma exec_ops ls s i t : iexec stdio s0 ls s -> nth_error (i_threads s) i = Some t ->
    t_pc t = ILeave \/ t_pc t = IDone -> t_ops t = [].
  Proof.
    intros R. revert i t. induction R as [|ls s j l s' R IH H]; intros i t E P.
    - apply nth_istart in E as (p & _ & ->). destruct P; discriminate.
    - unfold istep in H. destruct (nth_error (i_threads s) j) as [u|] eqn:Eu; [|discriminate]. cbv zeta in H.
      assert (G : forall u' m py st g, s' = mkI m py st g (moved s j u') -> (t_pc u' = ILeave \/ t_pc u' = IDone -> t_ops u' = []) -> t_ops t = []).
      { intros u' m py st g -> Q. cbn [i_threads] in E. rewrite (nth_moved s j u' u i Eu) in E. destruct (Nat.eqb_spec j i).
        - injection E as <-. auto.
        - exact (IH i t E P). }
      pose proof (IH j u Eu) as IHu.
      destruct (t_pc u) as [| | | | | | | | [|[|] ms] | ms | | |] eqn:Pu; try discriminate;
      repeat match type of H with
             | context [match ?x with _ => _ end] => destruct x eqn:?; try discriminate
             end; injection H as _ <-; (eapply G; [reflexivity|]); cbn [t_pc t_ops]; intros [X|X]; try discriminate; auto.
  Qed.

  Lemma finished_python ls s i p : stdio = true -> iexec stdio s0 ls s -> stuck stdio s -> nth_error ps i = Some p ->
    python_of i ls = python_in p + started_by i ls.
  Proof.
    intros Ok R St Ep. destruct (exec_python ls s i p Ok R Ep) as (t & Et & Q).
    destruct (stuck_finished ls s Ok R St) as (F & _).
    pose proof (F t (nth_error_In _ _ Et)) as D. unfold py_left in Q. rewrite D, (exec_ops ls s i t R Et (or_intror D)) in Q. cbn in Q. lia.
  Qed.
End Runs.
