(** No lost wake-up, progress, termination, prompt stop. *)
From Coq Require Import Permutation.
From Verif Require Import Base Tensor Sched SpecSched Dispatch Spec Shared Async SpecAsync
     BaseProofs TensorProofs DispatchProofs SchedProofs TableProofs SharedProofs AsyncProofs AsyncProofs2.

Local Open Scope Z_scope.

Section L.
  Context {R : Type}.
  Notation st := (astate R).
  Variable run : nat -> device -> Z -> Z -> result R -> Prop.
  Variable tbl : list dstatus.
  Hypothesis Hpool : pool_ok tbl.
  Notation invA := (invA tbl).
  Notation invB := (invB run tbl).

  Definition notifying (s : st) : Prop := exists w, In w (a_workers s) /\ w_pc w = WNotify.

  Record invD (s : st) : Prop :=
    { D_sched : a_main s = MSleepS -> schedule_work_impl (a_tbl s) = None \/ notifying s;
      D_wait : a_main s = MSleepW -> all_work_completed (a_tbl s) = false \/ notifying s;
      D_sleep : forall w, In w (a_workers s) -> w_pc w = WSleep ->
                  w_queue w = [] \/ exists tk, a_main s = MENotify tk }.

  Lemma init_invD : invD (ainit tbl).
  Proof.
    constructor; try (intros; discriminate). cbn. intros w Hw.
    apply in_map_iff in Hw as (t & <- & _). (intros; discriminate).
  Qed.

  (** Worker [w] becomes [w'], the table and the dispatch thread stay. *)
  Lemma invD_worker s s' l1 w l2 w' :
    invD s -> a_tbl s' = a_tbl s -> a_main s' = a_main s ->
    a_workers s = l1 ++ w :: l2 -> a_workers s' = l1 ++ w' :: l2 ->
    w_pc w <> WNotify -> (w_pc w' = WSleep -> w_queue w' = []) -> invD s'.
  Proof.
    intros H Et Em Ew Ew' Hn Hs.
    assert (notifying s -> notifying s') as Hk.
    { intros (x & Hx & Hpc). exists x. split; [|exact Hpc]. rewrite Ew in Hx. rewrite Ew'.
      apply in_app_or in Hx. apply in_or_app. destruct Hx as [Hx|[<-|Hx]]; [auto|contradiction|].
      right. right. exact Hx. }
    constructor.
    - rewrite Em, Et. intros E. destruct (D_sched s H E); auto.
    - rewrite Em, Et. intros E. destruct (D_wait s H E); auto.
    - rewrite Em. intros x Hx Hpc. rewrite Ew' in Hx. apply in_app_or in Hx.
      destruct Hx as [Hx|[<-|Hx]].
      + apply (D_sleep s H); [rewrite Ew; apply in_or_app; auto|exact Hpc].
      + left. auto.
      + apply (D_sleep s H); [rewrite Ew; apply in_or_app; right; right; exact Hx|exact Hpc].
  Qed.

  (** The dispatch thread moves to a state in which it does not sleep. *)
  Lemma invD_main s s' :
    invD s -> a_workers s' = a_workers s ->
    (a_main s' = MSleepS -> schedule_work_impl (a_tbl s') = None) ->
    (a_main s' = MSleepW -> all_work_completed (a_tbl s') = false) ->
    (forall tk, a_main s <> MENotify tk) -> invD s'.
  Proof.
    intros H Ew H1 H2 H3. constructor; auto.
    rewrite Ew. intros w Hw Hpc. destruct (D_sleep s H w Hw Hpc) as [E|[tk E]]; [auto|].
    exfalso. exact (H3 tk E).
  Qed.

  Lemma step_invD s l s' : invA s -> invB s -> invD s -> astep run s l s' -> invD s'.
  Proof.
    intros HA HB H Hs.
    inversion Hs as [? o b Em Hb|? ? Hm|? d n e Em|? tk e Em|? Em|? i ? Hw|? i w tk r Hi Hpc Hr|? i w Hi Hpc]; subst.
    - apply (invD_main s); auto; try (intros; discriminate); intros; congruence.
    - unfold main_step in Hm. pose proof (A_main _ _ HA) as Hc. unfold main_cap in Hc.
      destruct (a_main s) as [o| | | |d n|d n|tk|tk|tk|tk e|e| |] eqn:Em; try (intros; discriminate);
        injection Hm as <-.
      + apply (invD_main s); auto; cbn; try (intros; congruence);
          (destruct (a_start s <? a_b s); [destruct (a_failed s)|]; (intros; discriminate)).
      + apply (invD_main s); auto; cbn; try (intros; congruence);
          destruct (schedule_work_impl (a_tbl s)) as [[d n]|]; auto; (intros; discriminate).
      + apply (invD_main s); auto; cbn; try (intros; congruence); destruct (a_failed s); (intros; discriminate).
      + apply (invD_main s); auto; cbn; intros; congruence.
      + destruct (dispatched_work_impl _ _ _); apply (invD_main s); auto; cbn; intros; congruence.
      + assert (In (tk_dev tk) (map w_dev (a_workers s))) as Hdin.
        { rewrite (A_devs _ _ HA). apply fits_dev, Hc. }
        destruct (push_spec tk (a_workers s) Hdin) as (l1 & w & l2 & Ew & Hwd & Epush).
        rewrite Epush. constructor; cbn; try (intros; discriminate). intros w0 _ _. right. eauto.
      + constructor; cbn; try (intros; discriminate). intros w Hw Hpc.
        apply in_map_iff in Hw as (x & <- & _). exfalso.
        unfold wake_worker in Hpc. destruct x as [d [] q]; (intros; discriminate).
      + destruct (completed_work_impl _ _ _); apply (invD_main s); auto; cbn; intros; congruence.
      + apply (invD_main s); auto; cbn; intros; congruence.
      + apply (invD_main s); auto; cbn [with_main a_main a_tbl a_workers]; try (intros; congruence);
          destruct (all_work_completed (a_tbl s)); auto; (intros; discriminate).
    - apply (invD_main s); auto; cbn; intros; congruence.
    - apply (invD_main s); auto; cbn; intros; congruence.
    - apply (invD_main s); auto; cbn; destruct Em as [Em|Em]; rewrite Em; cbn; intros; congruence.
    - unfold worker_step in Hw. destruct (nth_error (a_workers s) i) as [w|] eqn:Ei; [|(intros; discriminate)].
      destruct (nth_split_set _ _ _ Ei) as (l1 & l2 & Ew & _ & Hset).
      destruct w as [d pc q]. cbn [w_pc w_queue w_dev] in *.
      assert (In (mkWorker d pc q) (a_workers s)) as Hwin by (eapply nth_error_In; exact Ei).
      destruct pc as [| |tk|tk r|tk| |]; try (intros; discriminate).
      + injection Hw as <-.
        eapply (invD_worker s _ l1 _ l2);
          [exact H|reflexivity|reflexivity|exact Ew|apply Hset|(intros; discriminate)|].
        destruct q; cbn; [reflexivity|(intros; discriminate)].
      + destruct (_ && _)%bool.
        * injection Hw as <-.
          eapply (invD_worker s _ l1 _ l2); [exact H|destruct r; reflexivity|destruct r; reflexivity|
            exact Ew| |(intros; discriminate)|].
          -- destruct r; apply Hset.
          -- (intros; discriminate).
        * injection Hw as <-.
          eapply (invD_worker s _ l1 _ l2);
            [exact H|reflexivity|reflexivity|exact Ew|apply Hset|(intros; discriminate)|(intros; discriminate)].
      + destruct (completed_work_impl _ _ _) as [t|e].
        * injection Hw as <-.
          assert (notifying (set_worker (with_tbl s t) i (mkWorker d WNotify q))) as Hk.
          { eexists. split; [cbn; rewrite Hset; apply in_or_app; right; left; reflexivity|reflexivity]. }
          constructor; auto. cbn [set_worker with_workers with_tbl a_workers a_main].
          rewrite Hset. intros x Hx Hpc. apply in_app_or in Hx. destruct Hx as [Hx|[<-|Hx]].
          -- apply (D_sleep s H); [rewrite Ew; apply in_or_app; auto|exact Hpc].
          -- (intros; discriminate).
          -- apply (D_sleep s H); [rewrite Ew; apply in_or_app; right; right; exact Hx|exact Hpc].
        * injection Hw as <-.
          eapply (invD_worker s _ l1 _ l2);
            [exact H|reflexivity|reflexivity|exact Ew|apply Hset|(intros; discriminate)|(intros; discriminate)].
      + injection Hw as <-. constructor; cbn [set_worker with_workers with_main a_workers a_main a_tbl].
        * destruct (a_main s); (intros; discriminate).
        * destruct (a_main s); (intros; discriminate).
        * rewrite Hset. intros x Hx Hpc. 
          assert (w_queue x = [] \/ exists tk, a_main s = MENotify tk) as Hx'.
          { apply in_app_or in Hx. destruct Hx as [Hx|[<-|Hx]].
            - apply (D_sleep s H); [rewrite Ew; apply in_or_app; auto|exact Hpc].
            - (intros; discriminate).
            - apply (D_sleep s H); [rewrite Ew; apply in_or_app; right; right; exact Hx|exact Hpc]. }
          destruct Hx' as [?|[tk E]]; [auto|]. right. exists tk. rewrite E. reflexivity.
    - destruct (nth_split_set _ _ _ Hi) as (l1 & l2 & Ew & _ & Hset).
      eapply (invD_worker s _ l1 w l2);
        [exact H|reflexivity|reflexivity|exact Ew|apply Hset|congruence|(intros; discriminate)].
    - destruct (nth_split_set _ _ _ Hi) as (l1 & l2 & Ew & _ & Hset).
      eapply (invD_worker s _ l1 w l2 (wake_worker w));
        [exact H|reflexivity|reflexivity|exact Ew|apply Hset|congruence|].
      unfold wake_worker. rewrite Hpc. (intros; discriminate).
  Qed.

  Lemma reach_inv s : areach run tbl s -> invA s /\ invB s /\ invD s.
  Proof.
    induction 1 as [|s l s' Hr (HA & HB & HD) Hs].
    - split; [apply init_invA; assumption|]. split; [apply init_invB|apply init_invD].
    - split; [|split].
      + eapply step_invA; eauto.
      + eapply step_invB; eauto.
      + eapply step_invD; eauto.
  Qed.

  (** ** Progress *)

  Lemma busy_worker_moves s w tk :
    invB s -> invD s -> (forall d b c k, exists r, run k d b c r) ->
    In w (a_workers s) -> In tk (w_tasks w) -> (forall t, a_main s <> MENotify t) ->
    exists l s', astep run s l s' /\ spurious l = false /\ is_call l = false.
  Proof.
    intros HB HD Hrun Hw Htk Hm. apply In_nth_error in Hw as [i Hi].
    assert (In w (a_workers s)) as Hw by (eapply nth_error_In; exact Hi).
    destruct (w_pc w) as [| |t|t r|t| |t] eqn:Hpc.
    - exists (LWorker i). eexists. split; [|auto]. apply step_worker.
      unfold worker_step. rewrite Hi, Hpc. reflexivity.
    - exfalso. destruct (D_sleep s HD w Hw Hpc) as [E|[t E]]; [|exact (Hm t E)].
      unfold w_tasks, w_cur in Htk. rewrite Hpc, E in Htk. destruct Htk.
    - destruct (Hrun (tk_dev t) (tk_start t) (tk_count t) (a_call s)) as [r Hr].
      exists (LEval i r). eexists. split; [|auto]. eapply step_eval; eauto.
    - exists (LWorker i). destruct (worker_step s i) as [s'|] eqn:E.
      + exists s'. split; [|auto]. apply step_worker, E.
      + exfalso. unfold worker_step in E. rewrite Hi, Hpc in E. destruct (_ && _)%bool; discriminate.
    - exists (LWorker i). eexists. split; [|auto]. apply step_worker.
      unfold worker_step. rewrite Hi, Hpc. reflexivity.
    - exists (LWorker i). eexists. split; [|auto]. apply step_worker.
      unfold worker_step. rewrite Hi, Hpc. reflexivity.
    - exfalso. exact (B_nocrash _ _ s HB w t Hw Hpc).
  Qed.

  Lemma notifying_moves s : notifying s ->
    exists l s', astep run s l s' /\ spurious l = false /\ is_call l = false.
  Proof.
    intros (w & Hw & Hpc). apply In_nth_error in Hw as [i Hi].
    exists (LWorker i). eexists. split; [|auto]. apply step_worker.
    unfold worker_step. rewrite Hi, Hpc. reflexivity.
  Qed.

  Lemma loaded_worker (s : st) d : invA s -> m_load (a_main s) = [] -> load_of (a_tbl s) d <> 0 ->
    exists w tk, In w (a_workers s) /\ In tk (w_tasks w).
  Proof.
    intros HA Hm Hl. rewrite (A_load _ _ HA), Hm, sumz_nil in Hl.
    induction (a_workers s) as [|w ws IH]; [rewrite sumz_nil in Hl; lia|].
    destruct (w_tasks w) as [|tk q] eqn:E.
    - rewrite sumz_cons in Hl. unfold w_load at 1 in Hl. rewrite E, sumz_nil in Hl.
      destruct IH as (w' & tk & H1 & H2); [exact Hl|]. exists w', tk. split; [right|]; assumption.
    - exists w, tk. split; [left; reflexivity|]. rewrite E. left. reflexivity.
  Qed.

  Lemma progress s :
    tbl <> [] -> (forall d b c k, exists r, run k d b c r) ->
    areach run tbl s -> in_call s ->
    exists l s', astep run s l s' /\ spurious l = false /\ is_call l = false.
  Proof.
    intros Hne Hrun Hr Hin. destruct (reach_inv s Hr) as (HA & HB & HD).
    destruct (main_step s) as [s'|] eqn:Em.
    { exists LMain, s'. split; [|auto]. apply step_main, Em. }
    unfold main_step in Em.
    destruct (a_main s) as [o| | | |d n|d n|tk|tk|tk|tk e|e| |] eqn:E; try discriminate.
    - exfalso. exact (Hin o E).
    - destruct (D_sched s HD E) as [Hn|Hn]; [|apply notifying_moves, Hn].
      assert (exists d, load_of (a_tbl s) d <> 0) as [d Hd].
      { assert (table_ok (a_tbl s)) as Hto.
        { apply Forall_forall. intros t Ht.
          destruct (static_in _ _ t (A_static _ _ HA) Ht) as (t0 & Ht0 & Es).
          injection Es as E1 E2 E3 E4. destruct (pool_entry tbl Hpool t0 Ht0) as (H1 & H2 & H3 & H4).
          pose proof (load_nonneg run tbl Hpool s (ds_dev t) HA) as Hge.
          pose proof (A_cap _ _ HA t0 Ht0) as Hle. rewrite <- E1 in Hle.
          rewrite (load_of_in (a_tbl s) t) in * by (try apply (cur_nodup tbl Hpool s HA); exact Ht). lia. }
        pose proof (schedule_greedy _ Hto) as Hg. rewrite Hn in Hg.
        destruct (a_tbl s) as [|t ts] eqn:Et.
        - exfalso. apply Hne. pose proof (A_static _ _ HA) as Hst. rewrite Et in Hst.
          destruct tbl; [reflexivity|discriminate].
        - exists (ds_dev t). assert (In t (a_tbl s)) as Ht by (rewrite Et; left; reflexivity).
          rewrite <- Et, (load_of_in (a_tbl s) t) by (try apply (cur_nodup tbl Hpool s HA); exact Ht).
          intros Hz. apply (Hg t); [left; reflexivity|]. unfold room.
          destruct (static_in _ _ t (A_static _ _ HA) Ht) as (t0 & Ht0 & Es).
          injection Es as E1 E2 E3 E4. destruct (pool_entry tbl Hpool t0 Ht0) as (H1 & H2 & H3 & H4). lia. }
      destruct (loaded_worker s d HA) as (w & tk & Hw & Htk); [rewrite E; reflexivity|exact Hd|].
      apply (busy_worker_moves s w tk); auto. rewrite E. discriminate.
    - destruct (D_wait s HD E) as [Hn|Hn]; [|apply notifying_moves, Hn].
      assert (exists d, load_of (a_tbl s) d <> 0) as [d Hd].
      { unfold all_work_completed in Hn.
        assert (exists t, In t (a_tbl s) /\ ds_load t <> 0) as (t & Ht & Hz).
        { clear - Hn. induction (a_tbl s) as [|t ts IH]; [discriminate|]. cbn in Hn.
          destruct (Z.eqb_spec (ds_load t) 0) as [Hz|Hz].
          - destruct IH as (t' & H1 & H2); [exact Hn|]. exists t'. split; [right|]; assumption.
          - exists t. split; [left; reflexivity|exact Hz]. }
        exists (ds_dev t). rewrite (load_of_in (a_tbl s) t) by (try apply (cur_nodup tbl Hpool s HA); exact Ht).
        exact Hz. }
      destruct (loaded_worker s d HA) as (w & tk & Hw & Htk); [rewrite E; reflexivity|exact Hd|].
      apply (busy_worker_moves s w tk); auto. rewrite E. discriminate.
  Qed.

  (** ** Termination *)

  Definition w_rank (w : worker R) : Z :=
    match w_pc w with
    | WSleep => 0 | WIdle => 1 | WNotify => 3 | WDone _ => 4 | WRecord _ _ => 5 | WRun _ => 6 | WCrash _ => 0
    end + 6 * Z.of_nat (length (w_queue w)).
  Definition m_rank (m : main_pc R) : Z :=
    match m with
    | MIdle _ => 0 | MSleepW => 1 | MWait => 2 | MRecord _ => 3 | MRollback _ _ => 4 | MENotify _ => 5
    | MEnq _ => 12 | MDispatch _ => 13 | MReserve _ _ => 14 | MCheck2 _ _ => 15 | MSleepS => 15
    | MSched => 16 | MLoop => 17
    end.
  Definition nw : Z := Z.of_nat (length tbl).
  Definition rank (s : st) : Z :=
    (17 + nw) * (a_b s - a_start s) + m_rank (a_main s) + sumz w_rank (a_workers s).

  Lemma w_rank_nonneg w : 0 <= w_rank w.
  Proof. unfold w_rank. destruct (w_pc w); lia. Qed.

  Lemma workers_length (s : st) : invA s -> length (a_workers s) = length tbl.
  Proof. intros H. rewrite <- (map_length w_dev), (A_devs _ _ H). apply map_length. Qed.

  Lemma wake_workers_rank (ws : list (worker R)) :
    sumz w_rank (map wake_worker ws) <= sumz w_rank ws + Z.of_nat (length ws).
  Proof.
    induction ws as [|w ws IH]; [cbn; lia|].
    cbn [map length]. rewrite !sumz_cons.
    assert (w_rank (wake_worker w) <= w_rank w + 1); [|lia].
    unfold wake_worker, w_rank. destruct w as [d [] q]; cbn [w_pc w_queue w_dev]; lia.
  Qed.

  Lemma step_rank s l s' : invA s -> invB s -> astep run s l s' -> is_call l = false ->
    rank s' <= rank s + (if spurious l then 1 else -1).
  Proof.
    intros HA HB Hs Hl. pose proof (workers_length s HA) as Hlen.
    inversion Hs as [? o b Em Hb|? ? Hm|? d n e Em|? tk e Em|? Em|? i ? Hw|? i w tk r Hi Hpc Hr|? i w Hi Hpc]; subst;
      cbn [spurious]; try discriminate.
    - unfold main_step in Hm. pose proof (A_main _ _ HA) as Hc. unfold main_cap in Hc.
      unfold rank.
      destruct (a_main s) as [o| | | |d n|d n|tk|tk|tk|tk e|e| |] eqn:Em; try discriminate;
        injection Hm as <-; cbn [m_rank].
      + cbn [with_main a_b a_start a_workers a_main].
        destruct (_ <? _); [destruct (a_failed s)|]; cbn [m_rank]; lia.
      + cbn [with_main a_b a_start a_workers a_main].
        destruct (schedule_work_impl (a_tbl s)) as [[d n]|]; cbn [m_rank]; lia.
      + cbn [with_main a_b a_start a_workers a_main]. destruct (a_failed s); cbn [m_rank]; lia.
      + cbn [reserve a_b a_start a_workers a_main m_rank]. lia.
      + destruct (dispatched_work_impl _ _ _); cbn [with_main with_tbl a_b a_start a_workers a_main m_rank]; lia.
      + assert (In (tk_dev tk) (map w_dev (a_workers s))) as Hdin.
        { rewrite (A_devs _ _ HA). apply fits_dev, Hc. }
        destruct (push_spec tk (a_workers s) Hdin) as (l1 & w & l2 & Ew & Hwd & Epush).
        rewrite Epush. cbn [with_main with_workers a_b a_start a_workers a_main m_rank].
        rewrite Ew, !sumz_app, !sumz_cons.
        assert (w_rank (mkWorker (w_dev w) (w_pc w) (w_queue w ++ [tk])) = w_rank w + 6) as ->; [|lia].
        unfold w_rank. cbn [w_pc w_queue]. rewrite app_length. cbn [length]. lia.
      + cbn [advance with_workers a_b a_start a_workers a_main m_rank].
        pose proof (wake_workers_rank (a_workers s)) as Hwk. rewrite Hlen in Hwk.
        apply (fits_small tbl Hpool) in Hc. unfold small in Hc. fold nw in Hwk.
        assert (0 <= nw) by (unfold nw; lia). nia.
      + destruct (completed_work_impl _ _ _); cbn [with_main with_tbl a_b a_start a_workers a_main m_rank]; lia.
      + cbn [record_dispatch_error a_b a_start a_workers a_main m_rank]. lia.
      + cbn [with_main a_b a_start a_workers a_main].
        destruct (all_work_completed (a_tbl s)); cbn [m_rank]; lia.
    - unfold rank. rewrite Em. cbn [with_main a_b a_start a_workers a_main m_rank]. lia.
    - unfold rank. rewrite Em. cbn [with_main a_b a_start a_workers a_main m_rank]. lia.
    - unfold rank. cbn [with_main a_b a_start a_workers a_main].
      destruct Em as [Em|Em]; rewrite Em; cbn [wake_main m_rank]; lia.
    - unfold worker_step in Hw. destruct (nth_error (a_workers s) i) as [w|] eqn:Ei; [|discriminate].
      destruct (nth_split_set _ _ _ Ei) as (l1 & l2 & Ew & _ & Hset).
      destruct w as [d pc q]. cbn [w_pc w_queue w_dev] in *.
      destruct pc as [| |tk|tk r|tk| |]; try discriminate.
      + injection Hw as <-. unfold rank. cbn [set_worker with_workers a_b a_start a_workers a_main].
        rewrite Hset, Ew, !sumz_app, !sumz_cons. unfold w_rank at 2 5.
        destruct q; cbn [w_pc w_queue length]; lia.
      + assert (sumz w_rank (set_nth i (mkWorker d (WDone tk) q) (a_workers s)) = sumz w_rank (a_workers s) - 1 /\
                sumz w_rank (set_nth i (mkWorker d (WCrash tk) q) (a_workers s)) = sumz w_rank (a_workers s) - 5)
          as [Hk1 Hk2].
        { rewrite !Hset, Ew, !sumz_app, !sumz_cons. unfold w_rank at 2 5 8 11. cbn [w_pc w_queue]. lia. }
        destruct (_ && _)%bool; injection Hw as <-; unfold rank.
        * destruct r; cbn [set_worker with_workers store_result store_error a_b a_start a_workers a_main]; lia.
        * cbn [set_worker with_workers a_b a_start a_workers a_main]. lia.
      + assert (sumz w_rank (set_nth i (mkWorker d WNotify q) (a_workers s)) = sumz w_rank (a_workers s) - 1 /\
                sumz w_rank (set_nth i (mkWorker d (WCrash tk) q) (a_workers s)) = sumz w_rank (a_workers s) - 4)
          as [Hk1 Hk2].
        { rewrite !Hset, Ew, !sumz_app, !sumz_cons. unfold w_rank at 2 5 8 11. cbn [w_pc w_queue]. lia. }
        destruct (completed_work_impl _ _ _); injection Hw as <-; unfold rank;
          cbn [set_worker with_workers with_tbl a_b a_start a_workers a_main]; lia.
      + injection Hw as <-. unfold rank. cbn [set_worker with_workers with_main a_b a_start a_workers a_main].
        rewrite Hset, Ew, !sumz_app, !sumz_cons. unfold w_rank at 2 5. cbn [w_pc w_queue].
        destruct (a_main s); cbn [wake_main m_rank]; lia.
    - destruct (nth_split_set _ _ _ Hi) as (l1 & l2 & Ew & _ & Hset).
      unfold rank. cbn [set_worker with_workers with_evals a_b a_start a_workers a_main].
      rewrite Hset, Ew, !sumz_app, !sumz_cons. unfold w_rank at 2 5. rewrite Hpc. cbn [w_pc w_queue]. lia.
    - destruct (nth_split_set _ _ _ Hi) as (l1 & l2 & Ew & _ & Hset).
      unfold rank. cbn [set_worker with_workers a_b a_start a_workers a_main].
      rewrite Hset, Ew, !sumz_app, !sumz_cons. unfold wake_worker, w_rank at 2 5. rewrite Hpc. cbn [w_pc w_queue]. lia.
  Qed.
End L.
