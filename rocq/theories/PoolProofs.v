From Verif Require Import Base Tensor Shared Pool SpecPool BaseProofs TensorProofs SharedProofs.

Section P.
  Context {T : Type}.
  Variable devs : list device.
  Hypothesis Hnd : NoDup devs.
  Notation st := (pstate T).

  Definition cur (w : pworker T) : list T := match pw_pc w with PRun t => [t] | _ => [] end.

  Definition stopping (o : owner_pc) : Prop :=
    match o with OFree | ONotify => False | _ => True end.

  Record pinv (ls : list (plabel T)) (s : st) : Prop :=
    { I_devs : map pw_dev (p_workers s) = devs;
      I_log : forall i w, nth_error (p_workers s) i = Some w ->
                accepted (pw_dev w) ls = ran i ls ++ cur w ++ pw_queue w;
      I_sleep : forall w, In w (p_workers s) -> pw_pc w = PSleep ->
                  (pw_queue w = [] \/ p_owner s = ONotify) /\
                  (p_stop s = false \/ p_owner s = OStopNotify);
      I_exit : forall w, In w (p_workers s) -> pw_pc w = PExit ->
                  pw_queue w = [] /\ p_stop s = true;
      I_stop : devs <> [] -> (p_stop s = true <-> stopping (p_owner s));
      I_join : forall n i w, p_owner s = OJoin n -> i < n -> nth_error (p_workers s) i = Some w ->
                 pw_pc w = PExit;
      I_joinle : forall n, p_owner s = OJoin n -> n <= length (p_workers s);
      I_done : p_owner s = ODone -> forall w, In w (p_workers s) -> pw_pc w = PExit }.

  Lemma accepted_snoc d ls (l : plabel T) :
    accepted d (ls ++ [l]) = accepted d ls ++ accepted d [l].
  Proof. unfold accepted. apply flat_map_app. Qed.
  Lemma ran_snoc i ls (l : plabel T) : ran i (ls ++ [l]) = ran i ls ++ ran i [l].
  Proof. unfold ran. apply flat_map_app. Qed.

  Lemma pinit_inv : pinv [] (pinit devs).
  Proof.
    constructor; cbn.
    - rewrite map_map. apply map_id.
    - intros i w H. apply nth_error_In, in_map_iff in H as (d & <- & _). reflexivity.
    - intros w H. apply in_map_iff in H as (d & <- & _). discriminate.
    - intros w H. apply in_map_iff in H as (d & <- & _). discriminate.
    - intros _. split; [discriminate|intros []].
    - discriminate.
    - discriminate.
    - discriminate.
  Qed.

  (** Pushing keeps every worker but appends to one queue. *)
  Lemma ppush_spec d (t : T) : forall ws ws', ppush d t ws = Some ws' ->
    exists k w, nth_error ws k = Some w /\ pw_dev w = d /\
      ws' = set_nth k (mkPW (pw_dev w) (pw_pc w) (pw_queue w ++ [t])) ws.
  Proof.
    induction ws as [|w ws IH]; intros ws' H; cbn in H; [discriminate|].
    destruct (device_eqb (pw_dev w) d) eqn:E.
    - injection H as <-. exists 0, w. split; [reflexivity|]. split; [apply device_eqb_eq, E|reflexivity].
    - destruct (ppush d t ws) as [r|] eqn:Er; [|discriminate]. injection H as <-.
      destruct (IH r eq_refl) as (k & w' & Hk & Hd & ->). exists (S k), w'. auto.
  Qed.

  Lemma nth_set {A} k (x : A) : forall l i, i < length l ->
    nth_error (set_nth k x l) i = if Nat.eqb i k then Some x else nth_error l i.
  Proof.
    revert k. intros k l. revert k. induction l as [|a l IH]; intros [|k] [|i] Hi; cbn in *; try lia; try reflexivity.
    apply IH. lia.
  Qed.

  Lemma nth_set_inv {A} k (x : A) l i y : nth_error (set_nth k x l) i = Some y ->
    (i = k /\ y = x) \/ (i <> k /\ nth_error l i = Some y).
  Proof.
    intros H. assert (i < length l) as Hi.
    { rewrite <- (set_nth_length l k x). apply nth_error_Some. congruence. }
    rewrite nth_set in H by exact Hi. destruct (Nat.eqb_spec i k); [left; split; congruence|right; auto].
  Qed.

  Lemma in_set {A} k (x : A) l y : In y (set_nth k x l) -> y = x \/ In y l.
  Proof.
    intros H. apply In_nth_error in H as [i H]. apply nth_set_inv in H as [[_ ->]|[_ H]]; [left; reflexivity|].
    right. eapply nth_error_In, H.
  Qed.

  Lemma map_set_same {A B} (f : A -> B) k w' : forall l w,
    nth_error l k = Some w -> f w' = f w -> map f (set_nth k w' l) = map f l.
  Proof.
    revert k. intros k l. revert k. induction l as [|a l IH]; intros [|k] w Hk Hf; cbn in *; try discriminate.
    - injection Hk as ->. rewrite Hf. reflexivity.
    - rewrite (IH k w Hk Hf). reflexivity.
  Qed.

  Lemma dev_at (s : st) ls i w : pinv ls s -> nth_error (p_workers s) i = Some w ->
    nth_error devs i = Some (pw_dev w).
  Proof. intros H Hi. rewrite <- (I_devs _ _ H). apply map_nth_error, Hi. Qed.

  Lemma dev_inj i j d : nth_error devs i = Some d -> nth_error devs j = Some d -> i = j.
  Proof.
    intros Hi Hj. apply (proj1 (NoDup_nth_error devs) Hnd); [apply nth_error_Some; congruence|congruence].
  Qed.

  Lemma map_pwake_dev (ws : list (pworker T)) : map pw_dev (map pwake ws) = map pw_dev ws.
  Proof.
    rewrite map_map. apply map_ext. intros w. unfold pwake. destruct (pw_pc w); reflexivity.
  Qed.

  Lemma nth_pwake (ws : list (pworker T)) i w : nth_error (map pwake ws) i = Some w ->
    exists w0, nth_error ws i = Some w0 /\ w = pwake w0.
  Proof.
    intros H. rewrite nth_error_map in H. destruct (nth_error ws i) as [w0|]; [|discriminate].
    injection H as <-. eauto.
  Qed.

  Lemma pwake_queue (w : pworker T) : pw_queue (pwake w) = pw_queue w /\ cur (pwake w) = cur w /\
    pw_dev (pwake w) = pw_dev w /\ pw_pc (pwake w) <> PSleep /\
    (pw_pc (pwake w) = PExit <-> pw_pc w = PExit).
  Proof.
    unfold pwake, cur. destruct (pw_pc w) eqn:E; cbn; rewrite ?E; repeat split; congruence.
  Qed.

  Lemma pstep_inv ls s l s' : pinv ls s -> pstep s l s' -> pinv (ls ++ [l]) s'.
  Proof.
    intros H Hs. destruct H as [Hd Hl Hsl Hx Hst Hj Hjl Hdn].
    assert (forall i w, nth_error (p_workers s) i = Some w -> nth_error devs i = Some (pw_dev w)) as Hat.
    { intros i w Hi. rewrite <- Hd. apply map_nth_error, Hi. }
    destruct Hs as [s d t ws Ho Hp|s d t Ho Hp|s Ho|s Ho Hne|s Ho He|s Ho|s n w Ho Hn Hw|s n Ho Hn
                   |s i w Hi Hw|s i w t Hi Hw|s i w Hi Hw].
    - (* enqueue *)
      destruct (ppush_spec d t _ _ Hp) as (k & w0 & Hk & <- & ->).
      constructor; cbn [p_workers p_owner p_stop].
      + rewrite <- Hd. eapply map_set_same; [exact Hk|reflexivity].
      + intros i w Hi. rewrite accepted_snoc, ran_snoc. cbn [accepted ran flat_map app].
        rewrite !app_nil_r. apply nth_set_inv in Hi as [[-> ->]|[Hne Hi]].
        * cbn [pw_dev pw_queue]. rewrite device_eqb_refl. rewrite (Hl k w0 Hk).
          unfold cur. cbn [pw_pc]. rewrite <- !app_assoc. reflexivity.
        * destruct (device_eqb (pw_dev w0) (pw_dev w)) eqn:E.
          -- exfalso. apply device_eqb_eq in E. apply Hne.
             apply (dev_inj i k (pw_dev w)); [apply Hat, Hi|rewrite <- E; apply Hat, Hk].
          -- rewrite app_nil_r. apply Hl, Hi.
      + intros w Hin Hpc. apply in_set in Hin as [->|Hin].
        * cbn in Hpc. destruct (Hsl w0 (nth_error_In _ _ Hk) Hpc) as [_ [Hf|Hf]];
            [|congruence]. split; [right; reflexivity|left; exact Hf].
        * destruct (Hsl w Hin Hpc) as [_ [Hf|Hf]]; [|congruence]. split; [right; reflexivity|left; exact Hf].
      + intros w Hin Hpc. assert (p_stop s = false) as Hf.
        { destruct (p_stop s) eqn:E; [|reflexivity]. exfalso.
          assert (devs <> []) as Hdn0. { intros E0. rewrite E0 in *. destruct (p_workers s); [destruct k; discriminate|discriminate]. }
          pose proof (proj1 (Hst Hdn0) eq_refl) as E1. rewrite Ho in E1. exact E1. }
        exfalso. apply in_set in Hin as [->|Hin].
        * cbn in Hpc. destruct (Hx w0 (nth_error_In _ _ Hk) Hpc). congruence.
        * destruct (Hx w Hin Hpc). congruence.
      + intros H. rewrite (Hst H), Ho. reflexivity.
      + discriminate.
      + discriminate.
      + discriminate.
    - (* refused enqueue *)
      constructor; try assumption.
      intros i w Hi. rewrite accepted_snoc, ran_snoc. cbn. rewrite !app_nil_r. apply Hl, Hi.
    - (* notify *)
      constructor; cbn [p_workers p_owner p_stop].
      + rewrite map_pwake_dev. exact Hd.
      + intros i w Hi. rewrite accepted_snoc, ran_snoc. cbn [accepted ran flat_map app]. rewrite !app_nil_r.
        apply nth_pwake in Hi as (w0 & Hi & ->). destruct (pwake_queue w0) as (-> & -> & -> & _). apply Hl, Hi.
      + intros w Hin Hpc. apply in_map_iff in Hin as (w0 & <- & _).
        destruct (pwake_queue w0) as (_ & _ & _ & Hn & _). congruence.
      + intros w Hin Hpc. apply in_map_iff in Hin as (w0 & <- & Hin).
        destruct (pwake_queue w0) as (-> & _ & _ & _ & He). apply Hx; [exact Hin|apply He, Hpc].
      + intros H. rewrite (Hst H), Ho. reflexivity.
      + discriminate.
      + discriminate.
      + discriminate.
    - (* stop *)
      constructor; cbn [p_workers p_owner p_stop]; try assumption.
      + intros i w Hi. rewrite accepted_snoc, ran_snoc. cbn. rewrite !app_nil_r. apply Hl, Hi.
      + intros w Hin Hpc. destruct (Hsl w Hin Hpc) as [[Hq|Hq] _]; [|congruence].
        split; [left; exact Hq|right; reflexivity].
      + intros w Hin Hpc. split; [apply (Hx w Hin Hpc)|reflexivity].
      + intros _. split; [intros _; exact I|reflexivity].
      + discriminate.
      + discriminate.
      + discriminate.
    - (* stop, no threads *)
      constructor; cbn [p_workers p_owner p_stop].
      + rewrite <- Hd, He. reflexivity.
      + intros [|i] w Hi; discriminate.
      + intros w [].
      + intros w [].
      + intros Hne. exfalso. apply Hne. rewrite <- Hd, He. reflexivity.
      + discriminate.
      + discriminate.
      + intros _ w [].
    - (* stop notify *)
      constructor; cbn [p_workers p_owner p_stop].
      + rewrite map_pwake_dev. exact Hd.
      + intros i w Hi. rewrite accepted_snoc, ran_snoc. cbn [accepted ran flat_map app]. rewrite !app_nil_r.
        apply nth_pwake in Hi as (w0 & Hi & ->). destruct (pwake_queue w0) as (-> & -> & -> & _). apply Hl, Hi.
      + intros w Hin Hpc. apply in_map_iff in Hin as (w0 & <- & _).
        destruct (pwake_queue w0) as (_ & _ & _ & Hn & _). congruence.
      + intros w Hin Hpc. apply in_map_iff in Hin as (w0 & <- & Hin).
        destruct (pwake_queue w0) as (-> & _ & _ & _ & He). apply Hx; [exact Hin|apply He, Hpc].
      + intros H. rewrite (Hst H), Ho. reflexivity.
      + intros n i w E. injection E as <-. lia.
      + intros n E. injection E as <-. lia.
      + discriminate.
    - (* join *)
      constructor; cbn [p_workers p_owner p_stop]; try assumption.
      + intros i w0 Hi. rewrite accepted_snoc, ran_snoc. cbn. rewrite !app_nil_r. apply Hl, Hi.
      + intros w0 Hin Hpc. destruct (Hsl w0 Hin Hpc) as [[Hq|Hq] [Hf|Hf]]; try congruence. auto.
      + intros H. rewrite (Hst H), Ho. reflexivity.
      + intros m i w0 E Hlt Hi. injection E as <-. assert (i < n \/ i = n) as [Hlt'| ->] by lia.
        * eapply Hj; [exact Ho|exact Hlt'|exact Hi].
        * congruence.
      + intros m E. injection E as <-. apply nth_error_Some. congruence.
      + discriminate.
    - (* joined all *)
      constructor; cbn [p_workers p_owner p_stop]; try assumption.
      + intros i w0 Hi. rewrite accepted_snoc, ran_snoc. cbn. rewrite !app_nil_r. apply Hl, Hi.
      + intros w0 Hin Hpc. destruct (Hsl w0 Hin Hpc) as [[Hq|Hq] [Hf|Hf]]; try congruence. auto.
      + intros H. rewrite (Hst H), Ho. reflexivity.
      + discriminate.
      + discriminate.
      + intros _ w Hin. apply In_nth_error in Hin as [i Hi]. eapply Hj; [exact Ho| |exact Hi].
        apply nth_error_None in Hn. assert (i < length (p_workers s)); [|lia].
        apply nth_error_Some. congruence.
    - (* worker takes a task, sleeps or exits *)
      assert (pw_dev (pwork (p_stop s) w) = pw_dev w) as Edev by (unfold pwork; destruct (pw_queue w); reflexivity).
      constructor; cbn [p_workers p_owner p_stop].
      + rewrite <- Hd. eapply map_set_same; [exact Hi|exact Edev].
      + intros j w' Hj'. rewrite accepted_snoc, ran_snoc. cbn [accepted ran flat_map app]. rewrite !app_nil_r.
        apply nth_set_inv in Hj' as [[-> ->]|[Hne Hj']]; [|apply Hl, Hj'].
        rewrite Edev, (Hl i w Hi). unfold cur at 1. rewrite Hw. cbn [app]. f_equal.
        unfold pwork, cur. destruct (pw_queue w); [destruct (p_stop s)|]; reflexivity.
      + intros w' Hin Hpc. apply in_set in Hin as [->|Hin]; [|apply Hsl; assumption].
        unfold pwork in *. destruct (pw_queue w) as [|t q]; [|discriminate].
        cbn in *. destruct (p_stop s); [discriminate|]. auto.
      + intros w' Hin Hpc. apply in_set in Hin as [->|Hin]; [|apply Hx; assumption].
        unfold pwork in *. destruct (pw_queue w) as [|t q]; [|discriminate].
        cbn in *. destruct (p_stop s); [auto|discriminate].
      + exact Hst.
      + intros n j w' Ho Hlt Hj'. apply nth_set_inv in Hj' as [[-> ->]|[Hne Hj']].
        * exfalso. pose proof (Hj n i w Ho Hlt Hi). congruence.
        * eapply Hj; eassumption.
      + rewrite set_nth_length. exact Hjl.
      + intros Ho w' Hin. apply in_set in Hin as [->|Hin]; [|apply Hdn; assumption].
        exfalso. pose proof (Hdn Ho w (nth_error_In _ _ Hi)). congruence.
    - (* task done *)
      constructor; cbn [p_workers p_owner p_stop].
      + rewrite <- Hd. eapply map_set_same; [exact Hi|reflexivity].
      + intros j w' Hj'. rewrite accepted_snoc, ran_snoc. cbn [accepted ran flat_map]. rewrite !app_nil_r.
        apply nth_set_inv in Hj' as [[-> ->]|[Hne Hj']].
        * rewrite Nat.eqb_refl. cbn [pw_dev pw_queue]. rewrite (Hl i w Hi). unfold cur. rewrite Hw.
          cbn [pw_pc app]. rewrite <- app_assoc. reflexivity.
        * destruct (Nat.eqb_spec i j); [congruence|]. rewrite app_nil_r. apply Hl, Hj'.
      + intros w' Hin Hpc. apply in_set in Hin as [->|Hin]; [discriminate|apply Hsl; assumption].
      + intros w' Hin Hpc. apply in_set in Hin as [->|Hin]; [discriminate|apply Hx; assumption].
      + exact Hst.
      + intros n j w' Ho Hlt Hj'. apply nth_set_inv in Hj' as [[-> ->]|[Hne Hj']].
        * exfalso. pose proof (Hj n i w Ho Hlt Hi). congruence.
        * eapply Hj; eassumption.
      + rewrite set_nth_length. exact Hjl.
      + intros Ho w' Hin. apply in_set in Hin as [->|Hin]; [|apply Hdn; assumption].
        exfalso. pose proof (Hdn Ho w (nth_error_In _ _ Hi)). congruence.
    - (* spurious wake-up *)
      destruct (pwake_queue w) as (Eq & Ec & Edev & Ens & Eex).
      constructor; cbn [p_workers p_owner p_stop].
      + rewrite <- Hd. eapply map_set_same; [exact Hi|exact Edev].
      + intros j w' Hj'. rewrite accepted_snoc, ran_snoc. cbn [accepted ran flat_map app]. rewrite !app_nil_r.
        apply nth_set_inv in Hj' as [[-> ->]|[Hne Hj']]; [|apply Hl, Hj'].
        rewrite Edev, Ec, Eq. apply Hl, Hi.
      + intros w' Hin Hpc. apply in_set in Hin as [->|Hin]; [congruence|apply Hsl; assumption].
      + intros w' Hin Hpc. apply in_set in Hin as [->|Hin]; [|apply Hx; assumption].
        exfalso. apply Eex in Hpc. congruence.
      + exact Hst.
      + intros n j w' Ho Hlt Hj'. apply nth_set_inv in Hj' as [[-> ->]|[Hne Hj']].
        * exfalso. pose proof (Hj n i w Ho Hlt Hi). congruence.
        * eapply Hj; eassumption.
      + rewrite set_nth_length. exact Hjl.
      + intros Ho w' Hin. apply in_set in Hin as [->|Hin]; [|apply Hdn; assumption].
        exfalso. pose proof (Hdn Ho w (nth_error_In _ _ Hi)). congruence.
  Qed.

  Lemma pexec_inv (ls : list (plabel T)) s : pexec (pinit devs) ls s -> pinv ls s.
  Proof.
    intros H. remember (pinit devs) as s0 eqn:E. induction H as [s|s ls s1 l s2 H IH Hs]; subst.
    - apply pinit_inv.
    - eapply pstep_inv; [apply IH; reflexivity|exact Hs].
  Qed.

  (** Every accepted task is run at most once, in order, by its own worker. *)
  Lemma pool_fifo (ls : list (plabel T)) s i d : pexec (pinit devs) ls s -> nth_error devs i = Some d ->
    exists rest, accepted d ls = ran i ls ++ rest.
  Proof.
    intros H Hi. apply pexec_inv in H. rewrite <- (I_devs _ _ H) in Hi.
    rewrite nth_error_map in Hi. destruct (nth_error (p_workers s) i) as [w|] eqn:E; [|discriminate].
    injection Hi as <-. rewrite (I_log _ _ H i w E). eauto.
  Qed.

  (** When stop_pool has returned, every accepted task has been run. *)
  Lemma pool_drained (ls : list (plabel T)) s i d : pexec (pinit devs) ls s -> p_owner s = ODone ->
    nth_error devs i = Some d -> ran i ls = accepted d ls.
  Proof.
    intros H Ho Hi. apply pexec_inv in H. rewrite <- (I_devs _ _ H) in Hi.
    rewrite nth_error_map in Hi. destruct (nth_error (p_workers s) i) as [w|] eqn:E; [|discriminate].
    injection Hi as <-. rewrite (I_log _ _ H i w E).
    pose proof (I_done _ _ H Ho w (nth_error_In _ _ E)) as Hpc.
    destruct (I_exit _ _ H w (nth_error_In _ _ E) Hpc) as [Hq _].
    unfold cur. rewrite Hpc, Hq. rewrite app_nil_r. reflexivity.
  Qed.

  (** ... and every worker has exited. *)
  Lemma pool_exited (ls : list (plabel T)) s w : pexec (pinit devs) ls s -> p_owner s = ODone ->
    In w (p_workers s) -> pw_pc w = PExit /\ pw_queue w = [].
  Proof.
    intros H Ho Hw. apply pexec_inv in H. pose proof (I_done _ _ H Ho w Hw) as Hpc.
    split; [exact Hpc|apply (I_exit _ _ H w Hw Hpc)].
  Qed.

  (** Progress: while a pool function is running, or a task waits, someone can move. *)
  Lemma pool_progress (ls : list (plabel T)) s : pexec (pinit devs) ls s ->
    ((p_owner s <> OFree /\ p_owner s <> ODone) \/
     (exists w, In w (p_workers s) /\ (pw_queue w <> [] \/ exists t, pw_pc w = PRun t))) ->
    exists l s', pstep s l s' /\ p_spurious l = false /\ l <> PStop /\ (forall d t, l <> PEnq d t /\ l <> PEnqBad d t).
  Proof.
    intros H Hcase. apply pexec_inv in H.
    assert (forall l s', pstep s l s' ->
              match l with POwner | PWorker _ | PTask _ _ => True | _ => False end ->
              exists l s', pstep s l s' /\ p_spurious l = false /\ l <> PStop /\
                           (forall d t, l <> PEnq d t /\ l <> PEnqBad d t)) as Hgo.
    { intros l s' Hs Hl. exists l, s'. destruct l; try destruct Hl; repeat split; auto; intros; discriminate. }
    assert (forall i w, nth_error (p_workers s) i = Some w ->
              (pw_pc w = PIdle \/ exists t, pw_pc w = PRun t) ->
              exists l s', pstep s l s' /\ p_spurious l = false /\ l <> PStop /\
                           (forall d t, l <> PEnq d t /\ l <> PEnqBad d t)) as Hw.
    { intros i w Hi [Hpc|[t Hpc]].
      - eapply Hgo; [eapply ps_worker; eassumption|exact I].
      - eapply Hgo; [eapply ps_task; eassumption|exact I]. }
    destruct (p_owner s) as [| | |n|] eqn:Eo.
    - (* free *)
      destruct Hcase as [[Hc _]|(w & Hin & Hc)]; [congruence|].
      apply In_nth_error in Hin as Hi. destruct Hi as [i Hi].
      apply (Hw i w Hi). destruct (pw_pc w) as [| |t|] eqn:Epc; eauto.
      + destruct Hc as [Hc|[t Hc]]; [|discriminate].
        destruct (I_sleep _ _ H w Hin Epc) as [[Hq|Hq] _]; [congruence|rewrite Eo in Hq; discriminate].
      + destruct Hc as [Hc|[t Hc]]; [|discriminate]. destruct (I_exit _ _ H w Hin Epc). congruence.
    - eapply Hgo; [apply ps_notify; exact Eo|exact I].
    - eapply Hgo; [apply ps_stop_notify; exact Eo|exact I].
    - destruct (nth_error (p_workers s) n) as [w|] eqn:En.
      + pose proof (nth_error_In _ _ En) as Hin. destruct (pw_pc w) as [| |t|] eqn:Epc.
        * eapply Hw; eauto.
        * assert (devs <> []) as Hdv. { intros E. pose proof (I_devs _ _ H) as Hd. rewrite E in Hd.
            destruct (p_workers s); [destruct n; discriminate|discriminate]. }
          destruct (I_sleep _ _ H w Hin Epc) as [_ [Hf|Hf]].
          -- pose proof (proj2 (I_stop _ _ H Hdv)) as Hst. rewrite Eo in Hst. specialize (Hst I). congruence.
          -- rewrite Eo in Hf. discriminate.
        * eapply Hw; eauto.
        * eapply Hgo; [eapply ps_join; eassumption|exact I].
      + eapply Hgo; [eapply ps_join_end; eassumption|exact I].
    - destruct Hcase as [[_ Hc]|(w & Hin & Hc)]; [congruence|].
      pose proof (I_done _ _ H Eo w Hin) as Epc.
      destruct Hc as [Hc|[t Hc]]; [|congruence]. destruct (I_exit _ _ H w Hin Epc). congruence.
  Qed.

  (** ** Shutdown takes boundedly many steps *)

  Definition pw_rank (w : pworker T) : nat :=
    2 * length (pw_queue w) + match pw_pc w with PIdle => 1 | PSleep => 0 | PRun _ => 2 | PExit => 0 end.
  Fixpoint sumn (l : list nat) : nat := match l with [] => 0 | x :: l' => x + sumn l' end.
  Definition o_rank (s : st) : nat :=
    match p_owner s with
    | OStopNotify => 2 * length (p_workers s) + 3
    | OJoin n => S (length (p_workers s)) - n
    | _ => 0
    end.
  Definition prank (s : st) : nat := sumn (map pw_rank (p_workers s)) + o_rank s.

  Lemma sumn_set i (w' : pworker T) : forall ws (w : pworker T), nth_error ws i = Some w ->
    sumn (map pw_rank (set_nth i w' ws)) + pw_rank w = sumn (map pw_rank ws) + pw_rank w'.
  Proof.
    intros ws. revert i. induction ws as [|a ws IH]; intros [|i] w H; cbn in *; try discriminate.
    - injection H as ->. lia.
    - specialize (IH i w H). lia.
  Qed.

  Lemma sumn_pwake (ws : list (pworker T)) :
    sumn (map pw_rank (map pwake ws)) <= sumn (map pw_rank ws) + length ws.
  Proof.
    induction ws as [|w ws IH]; [cbn; lia|]. cbn [map sumn length].
    assert (pw_rank (pwake w) <= pw_rank w + 1); [|lia].
    unfold pw_rank, pwake. destruct (pw_pc w) eqn:E; cbn; rewrite ?E; lia.
  Qed.

  Lemma prank_step ls s l s' : pinv ls s -> p_owner s <> OFree -> p_owner s <> ONotify -> p_stop s = true ->
    pstep s l s' ->
    prank s' + 1 <= prank s + (if p_spurious l then 2 else 0) /\
    p_owner s' <> OFree /\ p_owner s' <> ONotify /\ p_stop s' = true.
  Proof.
    intros H H1 H2 Hst Hs.
    destruct Hs as [s d t ws Ho Hp|s d t Ho Hp|s Ho|s Ho Hne|s Ho He|s Ho|s n w Ho Hn Hw|s n Ho Hn
                   |s i w Hi Hw|s i w t Hi Hw|s i w Hi Hw]; try congruence;
      unfold prank, o_rank; cbn [p_workers p_owner p_stop p_spurious]; repeat split; try congruence; try assumption.
    - rewrite Ho. pose proof (sumn_pwake (p_workers s)). rewrite map_length. lia.
    - rewrite Ho. assert (n < length (p_workers s)) by (apply nth_error_Some; congruence). lia.
    - rewrite Ho. apply nth_error_None in Hn.
      pose proof (I_joinle _ _ H n Ho) as Hle.
      lia.
    - pose proof (sumn_set i (pwork (p_stop s) w) _ w Hi) as Hsum.
      assert (pw_rank (pwork (p_stop s) w) + 1 <= pw_rank w) as Hr.
      { unfold pwork, pw_rank. rewrite Hw. destruct (pw_queue w); cbn; [rewrite Hst|]; cbn; lia. }
      rewrite set_nth_length. destruct (p_owner s); lia.
    - pose proof (sumn_set i (mkPW (pw_dev w) PIdle (pw_queue w)) _ w Hi) as Hsum.
      assert (pw_rank (mkPW (pw_dev w) PIdle (pw_queue w)) + 1 <= pw_rank w)
        by (unfold pw_rank; rewrite Hw; cbn; lia).
      rewrite set_nth_length. destruct (p_owner s); lia.
    - pose proof (sumn_set i (pwake w) _ w Hi) as Hsum.
      assert (pw_rank (pwake w) <= pw_rank w + 1)
        by (unfold pw_rank, pwake; rewrite Hw; cbn; lia).
      rewrite set_nth_length. destruct (p_owner s); lia.
  Qed.

  (** Executions, from their first step. *)
  Lemma stop_bound (ls1 : list (plabel T)) s1 : pexec (pinit devs) ls1 s1 -> p_stop s1 = true -> devs <> [] ->
    forall ls s2, pexec s1 ls s2 -> length ls + prank s2 <= prank s1 + 2 * p_spurs ls.
  Proof.
    intros H1 Hst Hdv. pose proof (pexec_inv _ _ H1) as HI.
    assert (forall ls s2, pexec s1 ls s2 ->
              pinv (ls1 ++ ls) s2 /\ p_owner s2 <> OFree /\ p_owner s2 <> ONotify /\ p_stop s2 = true /\
              length ls + prank s2 <= prank s1 + 2 * p_spurs ls) as Hall.
    { intros ls s2 H. induction H as [s|s ls s2 l s3 H IH Hs].
      - rewrite app_nil_r. pose proof (proj1 (I_stop _ _ HI Hdv) Hst) as Hsp.
        split; [exact HI|]. unfold stopping in Hsp. cbn. destruct (p_owner s); try destruct Hsp;
          repeat split; try discriminate; try assumption; lia.
      - destruct (IH H1 Hst HI) as (I2 & O1 & O2 & S2 & B2).
        destruct (prank_step _ _ _ _ I2 O1 O2 S2 Hs) as (B3 & O3 & O4 & S3).
        split; [rewrite app_assoc; eapply pstep_inv; eassumption|]. repeat split; try assumption.
        unfold p_spurs in *. rewrite filter_app, !app_length. cbn [length filter].
        destruct (p_spurious l); cbn [length]; lia. }
    intros ls s2 H. apply (Hall ls s2 H).
  Qed.

  Lemma pw_rank_le (w : pworker T) : pw_rank w <= 2 * length (pw_queue w) + 2.
  Proof. unfold pw_rank. destruct (pw_pc w); lia. Qed.

  (** After shutdown is requested, at most this many steps. *)
  Lemma shutdown_bound (ls1 : list (plabel T)) s1 ls s2 :
    pexec (pinit devs) ls1 s1 -> p_stop s1 = true -> pexec s1 ls s2 ->
    length ls <= 4 * length devs + 2 * length (flat_map pw_queue (p_workers s1)) + 3 + 2 * p_spurs ls.
  Proof.
    intros H1 Hst H2. pose proof (pexec_inv _ _ H1) as HI.
    assert (length (p_workers s1) = length devs) as Hlen
        by (rewrite <- (I_devs _ _ HI), map_length; reflexivity).
    assert (devs <> []) as Hdv.
    { intros E. clear - H1 Hst E. exfalso. rewrite E in H1.
      assert (forall ls (s : st), pexec (pinit []) ls s -> p_stop s = false /\ p_workers s = []) as Hn.
      { clear. intros ls s H. remember (pinit []) as s0 eqn:E0.
        induction H as [s|s ls s1 l s2 H IH Hs]; [subst; auto|]. destruct (IH E0) as [Hf Hw]. clear IH E0 H.
        destruct Hs; cbn; rewrite ?Hw in *; try (split; [assumption|reflexivity]); try congruence;
          try (destruct i; discriminate); try (split; assumption).
        - discriminate. }
      destruct (Hn ls1 s1 H1). congruence. }
    pose proof (stop_bound ls1 s1 H1 Hst Hdv ls s2 H2) as Hb.
    assert (prank s1 <= 4 * length devs + 2 * length (flat_map pw_queue (p_workers s1)) + 3) as Hp.
    { unfold prank. assert (sumn (map pw_rank (p_workers s1)) <=
                            2 * length (p_workers s1) + 2 * length (flat_map pw_queue (p_workers s1))) as Hs.
      { clear. induction (p_workers s1) as [|w ws IH]; [cbn; lia|]. cbn [map sumn length flat_map]. rewrite app_length.
        pose proof (pw_rank_le w). lia. }
      assert (o_rank s1 <= 2 * length (p_workers s1) + 3) as Ho by (unfold o_rank; destruct (p_owner s1); lia).
      lia. }
    lia.
  Qed.
End P.
