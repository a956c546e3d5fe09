(** Lemmas about implicit segments (Implicit.v): predictor rounds and the initial guess. *)
From Verif Require Import Base BaseProofs SmapProofs Tensor Spec TensorProofs Broadcast SpecBroadcast BroadcastProofs
     Pack SpecPack PackProofs Implicit SpecImplicit.

Lemma Forall2_length {A B} (R : A -> B -> Prop) l l' : Forall2 R l l' -> length l = length l'.
Proof. intros F. induction F; cbn; congruence. Qed.

Lemma mapM_Forall2 {A B} (f : A -> result B) l ys : mapM f l = Ok ys -> Forall2 (fun x y => f x = Ok y) l ys.
Proof.
  revert ys. induction l as [|x l IH]; intros ys H; cbn [mapM] in H.
  - injection H as <-. constructor.
  - destruct (f x) as [y|] eqn:E; [|discriminate]. cbn [bind] in H. destruct (mapM f l) as [zs|]; [|discriminate].
    cbn [bind] in H. injection H as <-. constructor; [exact E|apply IH; reflexivity].
Qed.
Lemma Forall2_mapM {A B} (f : A -> result B) l ys : Forall2 (fun x y => f x = Ok y) l ys -> mapM f l = Ok ys.
Proof. intros F. induction F as [|x y l ys E F IH]; [reflexivity|]. cbn [mapM]. rewrite E. cbn [bind]. rewrite IH. reflexivity. Qed.

Section Pred.
  Context {V : Type}.
  Variable zero : V.
  Variable par : string -> result (tensor V).
  Notation vmap := (smap (tensor V)).

  Lemma set_all_other ns n : ~ In n ns -> forall ts (st : vmap), lookup n (set_all ns ts st) = lookup n st.
  Proof.
    induction ns as [|k ns IH]; intros I [|t ts] st; try reflexivity. cbn [set_all]. rewrite IH by (intros J; apply I; right; exact J).
    apply lookup_set_other. intros ->. apply I. left. reflexivity.
  Qed.
  Lemma set_all_nth ns : NoDup ns -> forall i n (ts : list (tensor V)) t st, nth_error ns i = Some n -> nth_error ts i = Some t ->
    lookup n (set_all ns ts st) = Some t.
  Proof.
    intros N. induction N as [|k ns I N IH]; intros [|i] n [|u ts] t st A B; cbn [nth_error] in *; try discriminate.
    - injection A as ->. injection B as ->. cbn [set_all]. rewrite set_all_other by exact I. apply lookup_set_same.
    - cbn [set_all]. eapply IH; eassumption.
  Qed.

  Lemma reads_ok (st : vmap) ns ins :
    mapM (fun n => match lookup n st with
                   | Some t => Ok t
                   | None => Err (Fatal "aoti::Model: implicit segment predictor needs input")
                   end) ns = Ok ins <-> reads ns (fun n => lookup n st) ins.
  Proof.
    split.
    - intros H. apply mapM_Forall2 in H. unfold reads. induction H as [|n t ns ins E H IH]; constructor; [|exact IH].
      destruct (lookup n st); [injection E as ->; reflexivity|discriminate].
    - intros H. apply Forall2_mapM. unfold reads in H. induction H as [|n t ns ins E H IH]; constructor; [|exact IH].
      rewrite E. reflexivity.
  Qed.

  Lemma pass_ok p dev (st st' : vmap) l : predictor_pass par p dev st = (Ok st', l) ->
    exists ins ps outs, reads (pr_inputs p) (fun n => lookup n st) ins /\ mapM par (pr_params p) = Ok ps /\
      pr_run p (ins ++ ps) = Ok outs /\ length outs = length (pr_outputs p) /\
      l = [ins ++ ps] /\ st' = set_all (pr_outputs p) (map (to_dev dev) outs) st.
  Proof.
    unfold predictor_pass. destruct (mapM _ (pr_inputs p)) as [ins|] eqn:E; [|intros H; discriminate].
    destruct (mapM par (pr_params p)) as [ps|] eqn:Ep; [|intros H; discriminate]. intros H. injection H as H <-.
    apply reads_ok in E. destruct (pr_run p (ins ++ ps)) as [outs|] eqn:R; [|discriminate]. cbn [bind] in H.
    destruct (Nat.eqb (length outs) (length (pr_outputs p))) eqn:L; [|discriminate]. cbn [assert_ bind] in H. injection H as <-.
    exists ins, ps, outs. repeat split; try assumption. apply Nat.eqb_eq. exact L.
  Qed.

  Lemma pass_calls p dev (st : vmap) r l : predictor_pass par p dev st = (r, l) -> length l <= 1.
  Proof.
    unfold predictor_pass. destruct (mapM _ (pr_inputs p)); [|intros H; injection H as <- <-; cbn; lia].
    destruct (mapM par (pr_params p)); intros H; injection H as <- <-; cbn; lia.
  Qed.
  Lemma loop_calls p dev it k : forall (st : vmap) r l, predictor_loop par p dev it k st = (r, l) -> length l <= k.
  Proof.
    induction k as [|k IH]; intros st r l H; cbn [predictor_loop] in H; [injection H as <- <-; cbn; lia|].
    destruct (predictor_pass par p dev st) as [r1 l1] eqn:E. pose proof (pass_calls _ _ _ _ _ E) as A.
    destruct (let* st := r1 in if it then feed (pr_feedback p) st else Ok st) as [st1|e].
    - destruct (predictor_loop par p dev it k st1) as [r2 l2] eqn:E2. injection H as <- <-. rewrite app_length.
      apply IH in E2. lia.
    - injection H as <- <-. lia.
  Qed.

  (** ** With feedback *)
  Lemma delivers_out p dev outs n : NoDup (pr_outputs p) -> length outs = length (pr_outputs p) -> In n (pr_outputs p) ->
    exists t, delivers p dev outs n t /\ forall st : vmap, lookup n (set_all (pr_outputs p) (map (to_dev dev) outs) st) = Some t.
  Proof.
    intros N L I. apply In_nth_error in I as [i Hi].
    destruct (nth_error outs i) as [o|] eqn:Ho.
    2:{ apply nth_error_None in Ho. assert (i < length (pr_outputs p)) by (apply nth_error_Some; congruence). lia. }
    exists (to_dev dev o). split; [exists i, o; repeat split; assumption|]. intros st. eapply set_all_nth; [exact N|exact Hi|].
    apply map_nth_error. exact Ho.
  Qed.
  Lemma delivers_lookup p dev outs n t (st : vmap) : NoDup (pr_outputs p) -> delivers p dev outs n t ->
    lookup n (set_all (pr_outputs p) (map (to_dev dev) outs) st) = Some t.
  Proof.
    intros N [i [o [Hi [Ho ->]]]]. eapply set_all_nth; [exact N|exact Hi|]. apply map_nth_error. exact Ho.
  Qed.

  Lemma loop_rounds p dev ps k : NoDup (pr_outputs p) -> In (fb_output (pr_feedback p)) (pr_outputs p) ->
    mapM par (pr_params p) = Ok ps -> forall (st st' : vmap) calls, predictor_loop par p dev true k st = (Ok st', calls) ->
    rounds p dev ps k (fun n => lookup n st) calls (fun n => lookup n st').
  Proof.
    intros N If Ep. induction k as [|k IH]; intros st st' calls H; cbn [predictor_loop] in H.
    - injection H as <- <-. constructor.
    - destruct (predictor_pass par p dev st) as [[st1|e] l1] eqn:E; [|cbn [bind] in H; discriminate]. cbn [bind] in H.
      destruct (pass_ok _ _ _ _ _ E) as [ins [ps' [outs [R [Ep' [Hr [Ln [-> ->]]]]]]]]. rewrite Ep in Ep'. injection Ep' as <-.
      destruct (delivers_out p dev outs _ N Ln If) as [t [D Lk]]. unfold feed in H. rewrite Lk in H.
      destruct (predictor_loop par p dev true k _) as [r2 l2] eqn:E2. injection H as -> <-. apply IH in E2.
      cbn [app]. eapply rounds_more; [exact R|exact Hr|exact Ln| |exact E2].
      split; [exists t; split; [exact D|apply lookup_set_same]|]. split.
      + intros n u Hn Du. rewrite lookup_set_other by exact Hn. apply delivers_lookup; assumption.
      + intros n Hn Hi. rewrite lookup_set_other by exact Hn. apply set_all_other. exact Hi.
  Qed.

  Lemma run_rounds sg p dev batch (st st' : vmap) calls : is_predictor sg = Some p -> feedback_ok p -> NoDup (pr_outputs p) ->
    run_predictor zero par sg dev batch st = (Ok st', calls) ->
    exists ps e0, mapM par (pr_params p) = Ok ps /\
      e0 (fb_input (pr_feedback p)) = Some (zeros zero (batch ++ fb_sub (pr_feedback p) ++ fb_base (pr_feedback p)) dev) /\
      (forall n, n <> fb_input (pr_feedback p) -> e0 n = lookup n st) /\
      rounds p dev ps (Z.to_nat (fb_iterations (pr_feedback p))) e0 calls (fun n => lookup n st').
  Proof.
    intros Es [Hi [_ If]] N H. unfold run_predictor in H. rewrite Es in H.
    replace (0 <? fb_iterations (pr_feedback p))%Z with true in H by lia.
    set (st0 := set_ (fb_input (pr_feedback p)) _ st) in H.
    assert (P : exists ps, mapM par (pr_params p) = Ok ps).
    { destruct (Z.to_nat (fb_iterations (pr_feedback p))) as [|k] eqn:K; [lia|]. cbn [predictor_loop] in H.
      destruct (predictor_pass par p dev st0) as [[st1|e] l1] eqn:E; [|cbn [bind] in H; discriminate].
      destruct (pass_ok _ _ _ _ _ E) as [ins [ps [outs [R [Ep _]]]]]. exists ps. exact Ep. }
    destruct P as [ps Ep]. exists ps, (fun n => lookup n st0). split; [exact Ep|]. split; [apply lookup_set_same|].
    split; [intros n Hn; apply lookup_set_other; exact Hn|]. apply loop_rounds; assumption.
  Qed.

  Lemma rounds_length p dev ps k (e e' : env V) calls : rounds p dev ps k e calls e' -> length calls = k.
  Proof. intros R. induction R; cbn; congruence. Qed.

  (** Inputs that the predictor does not itself write stay as they are. *)
  Lemma rounds_inputs p dev ps k (e e' : env V) calls : rounds p dev ps k e calls e' ->
    forall n, In n (pr_inputs p) -> n <> fb_input (pr_feedback p) -> ~ In n (pr_outputs p) ->
    e' n = e n /\ forall c, In c calls -> exists ins, c = ins ++ ps /\ length ins = length (pr_inputs p) /\
      forall i, nth_error (pr_inputs p) i = Some n -> nth_error ins i = e n.
  Proof.
    intros R n I F O. induction R as [e|k e ins outs e1 calls e2 Rd Hr Ln A R [IH1 IH2]].
    - split; [reflexivity|]. intros c [].
    - destruct A as [_ [_ A]]. specialize (A n F O). split; [congruence|]. intros c [<-|Hc].
      + exists ins. split; [reflexivity|]. pose proof (Forall2_length _ _ _ Rd) as Le. split; [symmetry; exact Le|].
        clear - Rd. intros i Hi. revert i Hi. unfold reads in Rd. induction Rd as [|m t ns ts E Rd IH]; intros [|i] Hi; cbn [nth_error] in *; try discriminate.
        * injection Hi as ->. symmetry. exact E.
        * apply IH. exact Hi.
      + destruct (IH2 c Hc) as [ins' [Q1 [Q2 Q3]]]. exists ins'. split; [exact Q1|]. split; [exact Q2|]. rewrite <- A. exact Q3.
  Qed.

  (** The outputs after at least one round are those of the last call. *)
  Lemma rounds_last p dev ps k (e e' : env V) calls : rounds p dev ps k e calls e' -> 0 < k ->
    exists c outs, In c calls /\ last calls [] = c /\ pr_run p c = Ok outs /\ length outs = length (pr_outputs p) /\
      forall n t, n <> fb_input (pr_feedback p) -> delivers p dev outs n t -> e' n = Some t.
  Proof.
    intros R. induction R as [e|k e ins outs e1 calls e2 Rd Hr Ln A R IH]; intros K; [lia|].
    destruct k as [|k].
    - inversion R; subst. exists (ins ++ ps), outs. split; [left; reflexivity|]. split; [reflexivity|]. split; [exact Hr|]. split; [exact Ln|].
      destruct A as [_ [A _]]. exact A.
    - destruct IH as [c [o [I [L Q]]]]; [lia|]. exists c, o. split; [right; exact I|]. split; [|exact Q].
      destruct calls as [|c0 calls]; [contradiction|]. exact L.
  Qed.
  Lemma rounds_other p dev ps k (e e' : env V) calls : rounds p dev ps k e calls e' ->
    forall n, n <> fb_input (pr_feedback p) -> ~ In n (pr_outputs p) -> e' n = e n.
  Proof.
    intros R. induction R as [e|k e ins outs e1 calls e2 Rd Hr Ln A R IH]; intros n F O; [reflexivity|].
    rewrite IH by assumption. destruct A as [_ [_ A]]. apply A; assumption.
  Qed.

  (** ** Without feedback *)
  Lemma run_once sg p dev batch (st st' : vmap) calls : is_predictor sg = Some p -> no_feedback p -> NoDup (pr_outputs p) ->
    run_predictor zero par sg dev batch st = (Ok st', calls) ->
    exists ins ps outs, mapM par (pr_params p) = Ok ps /\ reads (pr_inputs p) (fun n => lookup n st) ins /\
      calls = [ins ++ ps] /\ pr_run p (ins ++ ps) = Ok outs /\ length outs = length (pr_outputs p) /\
      (forall n t, delivers p dev outs n t -> lookup n st' = Some t) /\
      (forall n, ~ In n (pr_outputs p) -> lookup n st' = lookup n st).
  Proof.
    intros Es Nf N H. unfold run_predictor in H. rewrite Es in H. unfold no_feedback in Nf. rewrite Nf in H. cbn [Z.ltb Z.compare predictor_loop] in H.
    destruct (predictor_pass par p dev st) as [[st1|e] l1] eqn:E; [|cbn [bind] in H; discriminate]. cbn [bind] in H. injection H as <- <-.
    destruct (pass_ok _ _ _ _ _ E) as [ins [ps [outs [R [Ep [Hr [Ln [-> ->]]]]]]]].
    exists ins, ps, outs. repeat split; try assumption.
    - intros n t D. apply delivers_lookup; assumption.
    - intros n I. apply set_all_other. exact I.
  Qed.

  Lemma run_calls sg p dev batch (st : vmap) r calls : is_predictor sg = Some p ->
    run_predictor zero par sg dev batch st = (r, calls) ->
    length calls <= (if (0 <? fb_iterations (pr_feedback p))%Z then Z.to_nat (fb_iterations (pr_feedback p)) else 1).
  Proof.
    intros Es H. unfold run_predictor in H. rewrite Es in H. apply loop_calls in H. exact H.
  Qed.
  Lemma run_no_predictor sg dev batch (st : vmap) : is_predictor sg = None -> run_predictor zero par sg dev batch st = (Ok st, []).
  Proof. intros E. unfold run_predictor. rewrite E. reflexivity. Qed.

  (** ** It runs whenever its inputs are there *)
  Lemma lookup_set_some {T} k (v : T) m n : lookup n m <> None -> lookup n (set_ k v m) <> None.
  Proof.
    destruct (String.eqb_spec n k) as [->|H]; [rewrite lookup_set_same; discriminate|]. rewrite lookup_set_other by exact H. exact (fun x => x).
  Qed.
  Lemma lookup_set_all_some ns n : forall ts (st : vmap), lookup n st <> None -> lookup n (set_all ns ts st) <> None.
  Proof.
    induction ns as [|k ns IH]; intros [|t ts] st H; try exact H. cbn [set_all]. apply IH. apply lookup_set_some. exact H.
  Qed.
  Lemma reads_exist ns (st : vmap) : (forall n, In n ns -> lookup n st <> None) -> exists ins, reads ns (fun n => lookup n st) ins.
  Proof.
    induction ns as [|n ns IH]; intros H; [exists []; constructor|].
    destruct IH as [ins R]; [intros m I; apply H; right; exact I|].
    destruct (lookup n st) as [t|] eqn:E; [|exfalso; apply (H n); [left; reflexivity|exact E]].
    exists (t :: ins). constructor; assumption.
  Qed.
  Lemma loop_runs p dev it ps k : NoDup (pr_outputs p) -> (it = true -> In (fb_output (pr_feedback p)) (pr_outputs p)) -> total p ->
    mapM par (pr_params p) = Ok ps -> forall st : vmap, (forall n, In n (pr_inputs p) -> lookup n st <> None) ->
    exists st' calls, predictor_loop par p dev it k st = (Ok st', calls).
  Proof.
    intros N If T Ep. induction k as [|k IH]; intros st H; [eexists; eexists; reflexivity|]. cbn [predictor_loop].
    destruct (reads_exist _ _ H) as [ins R]. destruct (T (ins ++ ps)) as [outs [Hr Ln]].
    assert (E : predictor_pass par p dev st = (Ok (set_all (pr_outputs p) (map (to_dev dev) outs) st), [ins ++ ps])).
    { unfold predictor_pass. apply reads_ok in R. rewrite R, Ep, Hr. cbn [bind]. rewrite Ln, Nat.eqb_refl. reflexivity. }
    rewrite E. cbn [bind]. destruct it.
    - destruct (delivers_out p dev outs _ N Ln (If eq_refl)) as [t [_ Lk]]. unfold feed. rewrite Lk.
      destruct (IH (set_ (fb_input (pr_feedback p)) t (set_all (pr_outputs p) (map (to_dev dev) outs) st))) as [st' [calls ->]].
      { intros n I. apply lookup_set_some, lookup_set_all_some, H, I. }
      eexists; eexists; reflexivity.
    - destruct (IH (set_all (pr_outputs p) (map (to_dev dev) outs) st)) as [st' [calls ->]].
      { intros n I. apply lookup_set_all_some, H, I. }
      eexists; eexists; reflexivity.
  Qed.
  Lemma predictor_runs sg p dev batch ps (st : vmap) : is_predictor sg = Some p -> NoDup (pr_outputs p) ->
    (no_feedback p \/ feedback_ok p) -> total p -> mapM par (pr_params p) = Ok ps ->
    (forall n, In n (pr_inputs p) -> (feedback_ok p /\ n = fb_input (pr_feedback p)) \/ lookup n st <> None) ->
    exists st' calls, run_predictor zero par sg dev batch st = (Ok st', calls).
  Proof.
    intros Es N Fb T Ep H. unfold run_predictor. rewrite Es. destruct Fb as [Nf|Fo].
    - unfold no_feedback in Nf. rewrite Nf. cbn [Z.ltb Z.compare]. apply (loop_runs p dev false ps); try assumption; [discriminate|].
      intros n I. destruct (H n I) as [[[K _] _]|K]; [lia|exact K].
    - destruct (Fo) as [Hi [_ Io]]. replace (0 <? fb_iterations (pr_feedback p))%Z with true by lia.
      apply (loop_runs p dev true ps); try assumption; [intros _; exact Io|].
      intros n I. destruct (H n I) as [[_ ->]|K]; [rewrite lookup_set_same; discriminate|apply lookup_set_some; exact K].
  Qed.
End Pred.

(** ** The initial guess *)
Section GuessProofs.
  Context {V : Type}.
  Variable zero : V.
  Variable par : string -> result (tensor V).
  Notation vmap := (smap (tensor V)).

  Lemma zeros_value dyn v d : value_for dyn v (zeros zero (dyn ++ v_sub v ++ v_base v) d).
  Proof. split; [unfold wf, zeros; cbn [t_data t_shape]; apply repeat_length|reflexivity]. Qed.

  Lemma seed_some vs d dyn n t : forall st : vmap, lookup n st = Some t -> lookup n (seed_unknowns zero vs d dyn st) = Some t.
  Proof.
    induction vs as [|v vs IH]; intros st H; [exact H|]. cbn [seed_unknowns]. apply IH.
    destruct (lookup (v_name v) st) eqn:E; [exact H|]. rewrite lookup_set_other; [exact H|]. intros ->. congruence.
  Qed.
  Lemma seed_not_unknown vs d dyn n : ~ In n (map v_name vs) -> forall st : vmap, lookup n (seed_unknowns zero vs d dyn st) = lookup n st.
  Proof.
    induction vs as [|v vs IH]; intros I st; [reflexivity|]. cbn [seed_unknowns]. rewrite IH by (intros J; apply I; right; exact J).
    destruct (lookup (v_name v) st) eqn:E; [reflexivity|]. apply lookup_set_other. intros ->. apply I. left. reflexivity.
  Qed.
  Lemma seed_none vs d dyn v : (forall v', In v' vs -> v_name v = v_name v' -> v = v') -> In v vs ->
    forall st : vmap, lookup (v_name v) st = None ->
    lookup (v_name v) (seed_unknowns zero vs d dyn st) = Some (zeros zero (dyn ++ v_sub v ++ v_base v) d).
  Proof.
    intros U I. induction vs as [|w vs IH]; intros st H; [contradiction|]. cbn [seed_unknowns].
    destruct (String.eqb_spec (v_name v) (v_name w)) as [E|E].
    - rewrite <- (U w (or_introl eq_refl) E). rewrite H. apply seed_some. apply lookup_set_same.
    - destruct I as [->|I]; [contradiction E; reflexivity|]. apply IH; [intros v' J; apply U; right; exact J|exact I|].
      destruct (lookup (v_name w) st) eqn:Ew; [exact H|]. rewrite lookup_set_other by exact E. exact H.
  Qed.

  (** What the packed guess holds for each variable of a state that fits. *)
  Lemma mapM_nth {A B} (f : A -> result B) l ys x i : mapM f l = Ok ys -> nth_error l i = Some x ->
    exists y, nth_error ys i = Some y /\ f x = Ok y.
  Proof.
    intros H. apply mapM_Forall2 in H. revert i. induction H as [|a b l ys E F IH]; intros [|i] Hi; cbn [nth_error] in *; try discriminate.
    - injection Hi as ->. exists b. split; [reflexivity|exact E].
    - apply IH. exact Hi.
  Qed.
  Lemma packed_guess groups (st : vmap) dyn d us v t : Forall group_ok groups ->
    (forall w, In w (flat_map g_vars groups) -> exists u, lookup (v_name w) st = Some u /\ value_for dyn w u /\ t_dev u = d) ->
    pack_groups st groups = Ok us -> lookup (v_name v) st = Some t -> guess_is groups us dyn v t.
  Proof.
    intros G H Pk L G0 g G1 before after E Ev. unfold pack_groups in Pk.
    assert (Ig : nth_error groups (length G0) = Some g) by (rewrite E, nth_error_app2, Nat.sub_diag by lia; reflexivity).
    destruct (mapM_nth _ _ _ _ _ Pk Ig) as [gt [Hn Pg]]. exists gt. split; [exact Hn|]. intros b s x Ib Is Ix.
    assert (Gg : group_ok g) by (rewrite Forall_forall in G; apply G; rewrite E; apply in_elt).
    assert (Hd : holds st dyn d g).
    { intros w Iw. destruct (H w) as [u [Lu [[Wu Su] Du]]].
      - apply in_flat_map. exists g. split; [rewrite E; apply in_elt|exact Iw].
      - exists u. repeat split; assumption. }
    destruct (pack_slots g st dyn d gt before v after b s x Gg Hd Pg Ev Ib Is Ix) as [t' [L' Q]].
    rewrite L in L'. injection L' as <-. exact Q.
  Qed.

  (** After the predictor: supplied and zero values stay unless predicted. *)
  Lemma predictor_unknowns sg p dev batch (st st' : vmap) calls : is_predictor sg = Some p -> NoDup (pr_outputs p) ->
    (no_feedback p \/ feedback_ok p) -> run_predictor zero par sg dev batch st = (Ok st', calls) ->
    exists c outs, last calls [] = c /\ calls <> [] /\ pr_run p c = Ok outs /\ length outs = length (pr_outputs p) /\
      (forall n t, n <> fb_input (pr_feedback p) -> delivers p dev outs n t -> lookup n st' = Some t) /\
      (forall n, n <> fb_input (pr_feedback p) -> ~ In n (pr_outputs p) -> lookup n st' = lookup n st).
  Proof.
    intros Es N [Nf|Fo] H.
    - destruct (run_once zero par sg p dev batch st st' calls Es Nf N H) as [ins [ps [outs [_ [_ [-> [Hr [Ln [A B]]]]]]]]].
      exists (ins ++ ps), outs. split; [reflexivity|]. split; [discriminate|]. split; [exact Hr|]. split; [exact Ln|]. split; [|intros n _; apply B].
      intros n t _. apply A.
    - destruct (run_rounds zero par sg p dev batch st st' calls Es Fo N H) as [ps [e0 [Ep [E0 [E1 R]]]]].
      assert (K : 0 < Z.to_nat (fb_iterations (pr_feedback p))) by (destruct Fo; lia).
      destruct (rounds_last _ _ _ _ _ _ _ R K) as [c [outs [I [L [Hr [Ln A]]]]]]. exists c, outs. split; [exact L|].
      split; [intros ->; contradiction|]. split; [exact Hr|]. split; [exact Ln|]. split; [exact A|].
      intros n F O. rewrite (rounds_other _ _ _ _ _ _ _ R n F O). apply E1. exact F.
  Qed.

  Lemma initial_guess sg (st st' : vmap) dyn d gs ps us calls : seg_fits sg st dyn d ->
    prepare_solve zero par sg st = (Ok (st', gs, ps, us), calls) -> predicts sg dyn (last calls []) ->
    forall v, In v (flat_map g_vars (is_unknown_groups sg)) ->
    (~ predicted sg (v_name v) -> forall t, lookup (v_name v) st = Some t -> guess_is (is_unknown_groups sg) us dyn v t) /\
    (~ predicted sg (v_name v) -> lookup (v_name v) st = None ->
       guess_is (is_unknown_groups sg) us dyn v (zeros zero (dyn ++ v_sub v ++ v_base v) d)) /\
    (forall p, is_predictor sg = Some p -> In (v_name v) (pr_outputs p) ->
       exists outs t, calls <> [] /\ pr_run p (last calls []) = Ok outs /\ delivers p d outs (v_name v) t /\
         guess_is (is_unknown_groups sg) us dyn v t).
  Proof.
    intros [G [[g0 [gr [t0 [Eg [L0 [D0 S0]]]]]] [Iu [Un [Fs Fp]]]]] H Fo v Iv. unfold prepare_solve in H. rewrite Eg, L0 in H.
    assert (Hd : dim t0 = length dyn + (length (v_sub (gv_var g0)) + length (v_base (gv_var g0))))
      by (unfold dim; rewrite S0, !app_length; lia).
    replace (Nat.ltb (dim t0) (length (v_sub (gv_var g0)) + length (v_base (gv_var g0)))) with false in H
      by (symmetry; apply Nat.ltb_ge; lia).
    assert (Eb : firstn (dim t0 - (length (v_sub (gv_var g0)) + length (v_base (gv_var g0)))) (t_shape t0) = dyn)
      by (rewrite Hd, Nat.add_sub, S0; rewrite firstn_app, Nat.sub_diag, firstn_all; cbn [firstn]; apply app_nil_r).
    rewrite Eb, D0 in H.
    set (st1 := seed_unknowns zero (is_unknowns sg) d dyn st) in H.
    destruct (run_predictor zero par sg d dyn st1) as [[st2|e] l] eqn:E; [|cbn [bind] in H; discriminate]. cbn [bind] in H.
    destruct (pack_groups st2 (is_given_groups sg)) as [gs'|]; [|discriminate]. cbn [bind] in H.
    destruct (pack_groups st2 (is_unknown_groups sg)) as [us'|] eqn:Pu; [|discriminate]. cbn [bind] in H.
    destruct (mapM par (is_params sg)) as [ps'|]; [|discriminate]. cbn [bind] in H. injection H as <- <- <- <- <-.
    (* the seeded state *)
    assert (Sd : forall w, In w (is_unknowns sg) -> exists u, lookup (v_name w) st1 = Some u /\ value_for dyn w u /\ t_dev u = d /\
      (forall t, lookup (v_name w) st = Some t -> u = t) /\
      (lookup (v_name w) st = None -> u = zeros zero (dyn ++ v_sub w ++ v_base w) d)).
    { intros w Iw. destruct (lookup (v_name w) st) as [t|] eqn:Lw.
      - exists t. destruct (Fs w t Iw Lw) as [F1 F2]. split; [apply seed_some; exact Lw|]. split; [exact F1|]. split; [exact F2|].
        split; [intros u Hu; congruence|discriminate].
      - exists (zeros zero (dyn ++ v_sub w ++ v_base w) d). split; [apply seed_none; [intros w' Iw'; apply Un; assumption|exact Iw|exact Lw]|].
        split; [apply zeros_value|]. split; [reflexivity|]. split; [discriminate|reflexivity]. }
    (* the state after the predictor *)
    destruct (is_predictor sg) as [p|] eqn:Ep.
    - destruct (Fp p eq_refl) as [N [Fb Fi]].
      destruct (predictor_unknowns sg p d dyn st1 st2 l Ep N Fb E) as [c [outs [Lc [Nc [Hr [Ln [A B]]]]]]].
      assert (St : forall w, In w (is_unknowns sg) -> exists u, lookup (v_name w) st2 = Some u /\ value_for dyn w u /\ t_dev u = d /\
        (~ In (v_name w) (pr_outputs p) -> lookup (v_name w) st2 = lookup (v_name w) st1) /\
        (In (v_name w) (pr_outputs p) -> delivers p d outs (v_name w) u)).
      { intros w Iw. destruct (in_dec string_dec (v_name w) (pr_outputs p)) as [O|O].
        - destruct (delivers_out par p d outs _ N Ln O) as [u [Du _]]. exists u. split; [apply A; [apply Fi; exact Iw|exact Du]|].
          destruct Du as [i [o [Hi [Ho Eu]]]]. subst u. split; [rewrite Lc in Fo; apply (Fo p outs w i o Ep Hr Iw Hi Ho)|]. split; [reflexivity|].
          split; [intros K; contradiction|]. intros _. exists i, o. repeat split; assumption.
        - destruct (Sd w Iw) as [u [Lu [F1 [F2 _]]]]. exists u. rewrite (B _ (Fi w Iw) O). repeat split; try assumption; try apply F1. intros K; contradiction. }
      assert (Pk : forall u, lookup (v_name v) st2 = Some u -> guess_is (is_unknown_groups sg) us' dyn v u).
      { intros u Lu. apply (packed_guess (is_unknown_groups sg) st2 dyn d us' v u G); [|exact Pu|exact Lu]. intros w Iw.
        destruct (St w (Iu w Iw)) as [u' [Q1 [Q2 [Q3 _]]]]. exists u'. repeat split; try assumption; apply Q2. }
      destruct (St v (Iu v Iv)) as [u [Lu [_ [_ [Q1 Q2]]]]]. destruct (Sd v (Iu v Iv)) as [u1 [Lu1 [_ [_ [S1 S2]]]]].
      split; [|split].
      + intros Np t Lt. apply Pk. rewrite Q1, Lu1; [f_equal; apply S1; exact Lt|]. intros O. apply Np. exists p. split; [exact Ep|exact O].
      + intros Np Lt. apply Pk. rewrite Q1, Lu1; [f_equal; apply S2; exact Lt|]. intros O. apply Np. exists p. split; [exact Ep|exact O].
      + intros p' Ep' O. injection Ep' as <-. exists outs, u. split; [exact Nc|]. split; [rewrite Lc; exact Hr|].
        split; [apply Q2; exact O|apply Pk; exact Lu].
    - rewrite (run_no_predictor zero par sg d dyn st1 Ep) in E. injection E as <- <-.
      assert (Pk : forall u, lookup (v_name v) st1 = Some u -> guess_is (is_unknown_groups sg) us' dyn v u).
      { intros u Lu. apply (packed_guess (is_unknown_groups sg) st1 dyn d us' v u G); [|exact Pu|exact Lu]. intros w Iw.
        destruct (Sd w (Iu w Iw)) as [u' [Q1 [Q2 [Q3 _]]]]. exists u'. repeat split; try assumption; apply Q2. }
      destruct (Sd v (Iu v Iv)) as [u1 [Lu1 [_ [_ [S1 S2]]]]]. split; [|split].
      + intros _ t Lt. apply Pk. rewrite Lu1. f_equal. apply S1. exact Lt.
      + intros _ Lt. apply Pk. rewrite Lu1. f_equal. apply S2. exact Lt.
      + discriminate.
  Qed.

  (** The solve's results come back unpacked; the error of a failed one is passed on whatever capture does. *)
  Lemma run_implicit_ok capture sg (st st' : vmap) : run_implicit zero par capture sg st = Ok st' ->
    exists st1 gs ps us calls u, prepare_solve zero par sg st = (Ok (st1, gs, ps, us), calls) /\ is_solve sg gs ps us = Ok u /\
      unpack_groups u (is_unknown_groups sg) st1 = Ok st'.
  Proof.
    unfold run_implicit. destruct (prepare_solve zero par sg st) as [[[[[st1 gs] ps] us]|e] calls]; [|cbn; discriminate]. cbn [fst bind].
    destruct (is_solve sg gs ps us) as [u|[w|w|w|w|w]] eqn:E; try discriminate.
    - intros H. exists st1, gs, ps, us, calls, u. repeat split; assumption.
    - destruct capture; [|discriminate]. destruct (is_solve_masked sg gs ps us) as [um|]; [|discriminate]. cbn [bind].
      destruct (unpack_groups (fst um) _ st1) as [st2|]; [|discriminate]. cbn [bind]. destruct (mapM _ (is_unknowns sg)); discriminate.
  Qed.
End GuessProofs.

(** ** Capture *)
Section Capture.
  Context {V : Type}.
  Variable zero : V.
  Variable par : string -> result (tensor V).
  Notation vmap := (smap (tensor V)).

  Lemma capture_transparent sg (st : vmap) : Forall group_ok (is_unknown_groups sg) -> NoDup (names (is_unknown_groups sg)) ->
    (forall v, In v (is_unknowns sg) -> In (v_name v) (names (is_unknown_groups sg))) ->
    (forall st1 gs ps us calls, prepare_solve zero par sg st = (Ok (st1, gs, ps, us), calls) ->
       exists us' mask, is_solve_masked sg gs ps us = Ok (us', mask) /\
       Forall2 (fun g gt => exists dyn d, group_tensor g dyn d gt) (is_unknown_groups sg) us') ->
    run_implicit zero par true sg st = run_implicit zero par false sg st.
  Proof.
    intros G N I M. unfold run_implicit. destruct (prepare_solve zero par sg st) as [[[[[st1 gs] ps] us]|e] calls] eqn:Ec; [|reflexivity].
    cbn [bind fst].
    destruct (is_solve sg gs ps us) as [u|[w|w|w|w|w]]; try reflexivity.
    destruct (M st1 gs ps us calls eq_refl) as [us' [mask [-> F]]]. cbn [bind fst].
    destruct (unpack_pack_groups (is_unknown_groups sg) us' st1 G N F) as [st2 [-> [Pk _]]]. cbn [bind].
    destruct (mapM (fun v => at_ (v_name v) st2) (is_unknowns sg)) as [l|e] eqn:E; [reflexivity|]. exfalso.
    apply mapM_err_inv in E as [v [Iv E]]. unfold at_ in E. destruct (lookup (v_name v) st2) as [t|] eqn:L; [discriminate|].
    apply I in Iv. unfold names in Iv. apply in_map_iff in Iv as [x [Ew Iw]]. apply in_flat_map in Iw as [g [Ig Iw]].
    rewrite <- Ew in L. destruct (pack_missing st2 _ g x Ig Iw L) as [e' P]. congruence.
  Qed.
  (** Without anything known about the masked solve. *)
  Lemma capture_same sg (st : vmap) :
    (forall st', run_implicit zero par true sg st = Ok st' <-> run_implicit zero par false sg st = Ok st') /\
    (forall e, (forall w, e <> Convergence w) -> run_implicit zero par false sg st = Err e -> run_implicit zero par true sg st = Err e).
  Proof.
    unfold run_implicit. destruct (fst (prepare_solve zero par sg st)) as [[[[st1 gs] ps] us]|e]; cbn [bind]; [|split; [tauto|intros e' _ H; exact H]].
    destruct (is_solve sg gs ps us) as [u|[w|w|w|w|w]]; try (split; [tauto|intros e' _ H; exact H]). split.
    - intros st'. split; [|discriminate]. destruct (is_solve_masked sg gs ps us) as [um|]; [|discriminate]. cbn [bind].
      destruct (unpack_groups (fst um) _ st1) as [st2|]; [|discriminate]. cbn [bind]. destruct (mapM _ (is_unknowns sg)); discriminate.
    - intros e Ne H. injection H as <-. contradiction (Ne w eq_refl).
  Qed.
End Capture.
