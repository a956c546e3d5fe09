(** Invariants of the asynchronous dispatcher (Async.v). *)
From Verif Require Import Base Tensor Sched SpecSched Dispatch Spec Shared Async
     BaseProofs TensorProofs TableProofs SharedProofs.

Local Open Scope Z_scope.

Lemma sumz_app {A} (m : A -> Z) l1 l2 : sumz m (l1 ++ l2) = sumz m l1 + sumz m l2.
Proof. induction l1 as [|x l1 IH]; cbn; [reflexivity|]. unfold sumz in *. rewrite IH. lia. Qed.
Lemma sumz_cons {A} (m : A -> Z) x l : sumz m (x :: l) = m x + sumz m l.
Proof. reflexivity. Qed.
Lemma sumz_nil {A} (m : A -> Z) : sumz m [] = 0.
Proof. reflexivity. Qed.

Lemma nth_split_set {A} (l : list A) : forall i w, nth_error l i = Some w ->
  exists l1 l2, l = l1 ++ w :: l2 /\ length l1 = i /\ forall x, set_nth i x l = l1 ++ x :: l2.
Proof.
  induction l as [|a l IH]; intros [|i] w H; cbn in *; try discriminate.
  - injection H as ->. exists [], l. auto.
  - destruct (IH i w H) as (l1 & l2 & -> & Hl & Hs). exists (a :: l1), l2.
    repeat split; [cbn; congruence|]. intros x. cbn. f_equal. apply Hs.
Qed.

Section A.
  Context {R : Type}.
  Notation st := (astate R).
  Variable run : nat -> device -> Z -> Z -> result R -> Prop.
  Variable tbl : list dstatus.
  Hypothesis Hpool : pool_ok tbl.

  (** Tasks a worker accounts for; those whose outcome is not recorded yet. *)
  Definition w_cur (w : worker R) : list task :=
    match w_pc w with WRun tk | WRecord tk _ | WDone tk | WCrash tk => [tk] | _ => [] end.
  Definition w_tasks (w : worker R) : list task := w_cur w ++ w_queue w.
  Definition w_open (w : worker R) : list task :=
    match w_pc w with WRun tk | WRecord tk _ => [tk] | _ => [] end ++ w_queue w.
  (** Task whose load the dispatch thread accounts for; task it has reserved a
      slot for and not handed over. *)
  Definition m_load (m : main_pc R) : list task :=
    match m with MEnq tk | MRollback tk _ => [tk] | _ => [] end.
  Definition m_pend (m : main_pc R) : list task :=
    match m with MDispatch tk | MEnq tk | MRollback tk _ => [tk] | _ => [] end.

  Definition on_task (d : device) (tk : task) : Z :=
    if device_eqb (tk_dev tk) d then tk_count tk else 0.
  Definition w_load (d : device) (w : worker R) : Z := sumz (on_task d) (w_tasks w).

  Definition small (tk : task) : Prop := 0 < tk_count tk < 2 ^ 63.
  Definition fits (tk : task) : Prop :=
    exists t, In t tbl /\ ds_dev t = tk_dev tk /\ 0 < tk_count tk <= ds_batch t.

  Definition main_cap (s : st) : Prop :=
    match a_main s with
    | MIdle _ => forall w, In w (a_workers s) -> w_tasks w = []
    | MSched | MSleepS => a_start s < a_b s
    | MCheck2 d n | MReserve d n =>
        a_start s < a_b s /\
        exists t, In t tbl /\ ds_dev t = d /\ ds_batch t = n /\ load_of (a_tbl s) d + n <= ds_cap t
    | MDispatch tk =>
        exists t, In t tbl /\ ds_dev t = tk_dev tk /\ 0 < tk_count tk <= ds_batch t /\
                  load_of (a_tbl s) (tk_dev tk) + tk_count tk <= ds_cap t
    | MEnq tk | MRollback tk _ | MENotify tk => fits tk
    | _ => True
    end.

  Record invA (s : st) : Prop :=
    { A_static : map static (a_tbl s) = map static tbl;
      A_devs : map w_dev (a_workers s) = map ds_dev tbl;
      A_load : forall d, load_of (a_tbl s) d
                 = sumz (on_task d) (m_load (a_main s)) + sumz (w_load d) (a_workers s);
      A_tasks : forall w tk, In w (a_workers s) -> In tk (w_tasks w) ->
                  tk_dev tk = w_dev w /\ small tk;
      A_cap : forall t, In t tbl -> load_of (a_tbl s) (ds_dev t) <= ds_cap t;
      A_main : main_cap s }.

  Lemma pool_nodup : NoDup (devs tbl).
  Proof. destruct Hpool as [[H _] _]. exact H. Qed.
  Lemma pool_entry t : In t tbl ->
    ds_load t = 0 /\ 0 < ds_batch t <= ds_cap t /\ ds_cap t + ds_batch t < 2 ^ 64 /\ ds_batch t < 2 ^ 63.
  Proof.
    destruct Hpool as [[_ H] H']. rewrite Forall_forall in H, H'. intros Hin.
    specialize (H t Hin). specialize (H' t Hin). destruct H as (? & ? & H). rewrite Z.mul_1_l in H. lia.
  Qed.

  Lemma fits_small tk : fits tk -> small tk.
  Proof. intros (t & Hin & _ & H). destruct (pool_entry t Hin). unfold small. lia. Qed.
  Lemma fits_dev tk : fits tk -> In (tk_dev tk) (devs tbl).
  Proof. intros (t & Hin & <- & _). apply in_map, Hin. Qed.

  Lemma init_load d : load_of tbl d = 0.
  Proof.
    apply all_completed_iff; [exact pool_nodup|]. apply forallb_forall. intros t Ht.
    destruct (pool_entry t Ht) as [H _]. rewrite H. reflexivity.
  Qed.

  Lemma init_invA : invA (ainit tbl).
  Proof.
    constructor; cbn [ainit a_tbl a_workers a_main].
    - reflexivity.
    - rewrite map_map. reflexivity.
    - intros d. rewrite init_load. cbn [m_load]. rewrite sumz_nil. symmetry.
      assert (forall l : list dstatus, sumz (w_load d) (map (fun t => mkWorker (ds_dev t) WIdle []) l) = 0) as H.
      { induction l as [|t l IH]; [reflexivity|]. cbn [map]. rewrite sumz_cons, IH. reflexivity. }
      rewrite H. reflexivity.
    - intros w tk Hw. apply in_map_iff in Hw as (t & <- & _). intros [].
    - intros t Ht. rewrite init_load. destruct (pool_entry t Ht). lia.
    - unfold main_cap. cbn. intros w Hw. apply in_map_iff in Hw as (t & <- & _). reflexivity.
  Qed.

  Lemma load_nonneg s d : invA s -> 0 <= load_of (a_tbl s) d.
  Proof.
    intros H. rewrite (A_load s H). 
    assert (0 <= sumz (w_load d) (a_workers s)).
    { apply sumz_nonneg. intros w Hw. apply sumz_nonneg. intros tk Htk.
      destruct (A_tasks s H w tk Hw Htk) as [_ Hs]. unfold on_task, small in *.
      destruct (device_eqb _ _); lia. }
    assert (0 <= sumz (on_task d) (m_load (a_main s))).
    { pose proof (A_main s H) as Hm. unfold main_cap in Hm.
      destruct (a_main s); cbn [m_load]; rewrite ?sumz_nil; try lia;
      rewrite sumz_cons, sumz_nil; apply fits_small in Hm; unfold on_task, small in *;
      destruct (device_eqb _ _); lia. }
    lia.
  Qed.

  Lemma cur_nodup s : invA s -> NoDup (devs (a_tbl s)).
  Proof. intros H. eapply nodup_static; [exact pool_nodup|apply A_static, H]. Qed.
  Lemma cur_devs s : invA s -> devs (a_tbl s) = devs tbl.
  Proof. intros H. apply static_devs, A_static, H. Qed.

  (** A load-holding task's count is part of its device's load. *)
  Lemma held_le s w tk : invA s -> In w (a_workers s) -> In tk (w_tasks w) ->
    tk_count tk <= load_of (a_tbl s) (tk_dev tk).
  Proof.
    intros H Hw Htk. pose proof (A_load s H (tk_dev tk)) as Hl.
    assert (forall w', In w' (a_workers s) -> forall x, In x (w_tasks w') -> 0 <= on_task (tk_dev tk) x) as Hp.
    { intros w' Hw' x Hx. destruct (A_tasks s H w' x Hw' Hx) as [_ Hs]. unfold on_task, small in *.
      destruct (device_eqb _ _); lia. }
    assert (tk_count tk <= w_load (tk_dev tk) w).
    { unfold w_load. assert (on_task (tk_dev tk) tk = tk_count tk) as E.
      { unfold on_task. rewrite device_eqb_refl. reflexivity. }
      rewrite <- E at 1. apply sumz_member; [|exact Htk]. intros x Hx. exact (Hp w Hw x Hx). }
    assert (w_load (tk_dev tk) w <= sumz (w_load (tk_dev tk)) (a_workers s)).
    { apply sumz_member; [|exact Hw]. intros w' Hw'. apply sumz_nonneg. intros x Hx. exact (Hp w' Hw' x Hx). }
    assert (0 <= sumz (on_task (tk_dev tk)) (m_load (a_main s))).
    { pose proof (A_main s H) as Hm. unfold main_cap in Hm.
      destruct (a_main s); cbn [m_load]; rewrite ?sumz_nil; try lia;
      rewrite sumz_cons, sumz_nil; apply fits_small in Hm; unfold on_task, small in *;
      destruct (device_eqb _ _); lia. }
    lia.
  Qed.

  (** completed_work on a load-holding task cannot throw. *)
  Lemma complete_ok s tk : invA s -> In (tk_dev tk) (devs tbl) -> small tk ->
    tk_count tk <= load_of (a_tbl s) (tk_dev tk) ->
    completed_work_impl (a_tbl s) (tk_dev tk) (to_size (tk_count tk))
    = Ok (set_load (a_tbl s) (tk_dev tk) (load_of (a_tbl s) (tk_dev tk) - tk_count tk)).
  Proof.
    intros H Hd Hs Hle. unfold small in Hs. unfold to_size. rewrite Z.mod_small by lia.
    apply completed_ok; [apply cur_nodup, H|rewrite cur_devs by exact H; exact Hd|exact Hle].
  Qed.

  Lemma push_spec tk (ws : list (worker R)) : In (tk_dev tk) (map w_dev ws) ->
    exists l1 w l2, ws = l1 ++ w :: l2 /\ w_dev w = tk_dev tk /\
      push tk ws = Some (l1 ++ mkWorker (w_dev w) (w_pc w) (w_queue w ++ [tk]) :: l2).
  Proof.
    induction ws as [|w ws IH]; intros H; cbn in *; [contradiction|].
    destruct (device_eqb (w_dev w) (tk_dev tk)) eqn:E.
    - apply device_eqb_eq in E. exists [], w, ws. auto.
    - destruct H as [H|H]; [apply device_eqb_neq in E; congruence|].
      destruct (IH H) as (l1 & w' & l2 & -> & Hd & Hp). exists (w :: l1), w', l2.
      rewrite Hp. auto.
  Qed.

  Lemma wake_worker_tasks (w : worker R) : w_tasks (wake_worker w) = w_tasks w.
  Proof. unfold wake_worker, w_tasks, w_cur. destruct w as [d [] q]; reflexivity. Qed.
  Lemma wake_worker_open (w : worker R) : w_open (wake_worker w) = w_open w.
  Proof. unfold wake_worker, w_open. destruct w as [d [] q]; reflexivity. Qed.
  Lemma wake_worker_dev (w : worker R) : w_dev (wake_worker w) = w_dev w.
  Proof. unfold wake_worker. destruct w as [d [] q]; reflexivity. Qed.

  (** Replacing worker [w] by [w'] with the same tasks keeps the invariant. *)
  Lemma invA_set_worker s l1 w l2 w' m :
    invA s -> a_workers s = l1 ++ w :: l2 ->
    w_dev w' = w_dev w -> w_tasks w' = w_tasks w ->
    m_load m = m_load (a_main s) ->
    forall s', a_tbl s' = a_tbl s -> a_workers s' = l1 ++ w' :: l2 -> a_main s' = m ->
               main_cap s' -> invA s'.
  Proof.
    intros H Ew Hd Ht Hm s' Et Ew' Em Hc. constructor.
    - rewrite Et. apply A_static, H.
    - rewrite Ew', <- (A_devs s H), Ew, !map_app. cbn. rewrite Hd. reflexivity.
    - intros d. rewrite Et, (A_load s H), Em, Hm, Ew, Ew', !sumz_app, !sumz_cons.
      unfold w_load at 2 5. rewrite Ht. reflexivity.
    - intros x tk Hx Htk. rewrite Ew' in Hx. apply in_app_or in Hx.
      destruct Hx as [Hx|[<-|Hx]].
      + apply (A_tasks s H); [rewrite Ew; apply in_or_app; auto|exact Htk].
      + rewrite Hd. rewrite Ht in Htk.
        apply (A_tasks s H); [rewrite Ew; apply in_or_app; right; left; reflexivity|exact Htk].
      + apply (A_tasks s H); [rewrite Ew; apply in_or_app; right; right; exact Hx|exact Htk].
    - intros t Hin. rewrite Et. apply (A_cap s H t Hin).
    - exact Hc.
  Qed.

  (** The same when only the dispatch thread changes. *)
  Lemma invA_main s m : invA s -> m_load m = m_load (a_main s) ->
    forall s', a_tbl s' = a_tbl s -> a_workers s' = a_workers s -> a_main s' = m -> main_cap s' ->
    invA s'.
  Proof.
    intros H Hm s' Et Ew Em Hc. constructor.
    - rewrite Et. apply A_static, H.
    - rewrite Ew. apply A_devs, H.
    - intros d. rewrite Et, Ew, Em, Hm. apply A_load, H.
    - rewrite Ew. apply (A_tasks s H).
    - intros t Hin. rewrite Et. apply (A_cap s H t Hin).
    - exact Hc.
  Qed.

  Lemma completed_nothing s : invA s -> all_work_completed (a_tbl s) = true ->
    forall w, In w (a_workers s) -> w_tasks w = [].
  Proof.
    intros H Ha w Hw.
    destruct (w_tasks w) as [|tk q] eqn:E; [reflexivity|exfalso].
    assert (In tk (w_tasks w)) as Hin by (rewrite E; left; reflexivity).
    pose proof (held_le s w tk H Hw Hin) as Hle.
    destruct (A_tasks s H w tk Hw Hin) as [_ Hs]. unfold small in Hs.
    pose proof (proj1 (all_completed_iff (a_tbl s) (cur_nodup s H)) Ha (tk_dev tk)). lia.
  Qed.

  Lemma main_cap_workers s s' : main_cap s -> a_main s' = a_main s -> a_tbl s' = a_tbl s ->
    a_start s' = a_start s -> a_b s' = a_b s ->
    (forall o, a_main s = MIdle o -> forall w, In w (a_workers s') -> w_tasks w = []) ->
    main_cap s'.
  Proof.
    unfold main_cap. intros H Em Et Es Eb Hi. rewrite Em, ?Et, ?Es, ?Eb.
    destruct (a_main s); auto. apply (Hi o). reflexivity.
  Qed.

  Lemma step_invA s l s' : invA s -> astep run s l s' -> invA s'.
  Proof.
    intros H Hs. inversion Hs as [? o b Em Hb|? ? Hm|? d n e Em|? tk e Em|? Em|? i ? Hw|? i w tk r Hi Hpc Hr|? i w Hi Hpc]; subst.
    - (* LCall *)
      eapply (invA_main s _ H); [|reflexivity|reflexivity|reflexivity|]; [rewrite Em; reflexivity|exact I].
    - (* LMain *)
      unfold main_step in Hm. pose proof (A_main s H) as Hc. unfold main_cap in Hc.
      destruct (a_main s) as [o| | | |d n|d n|tk|tk|tk|tk e|e| |] eqn:Em; try discriminate;
        injection Hm as <-.
      + (* MLoop *)
        eapply (invA_main s _ H); [|reflexivity|reflexivity|reflexivity|].
        * rewrite Em. cbn. destruct (_ <? _); [destruct (a_failed s)|]; reflexivity.
        * unfold main_cap. cbn. destruct (Z.ltb_spec (a_start s) (a_b s));
            [destruct (a_failed s)|]; auto.
      + (* MSched *)
        eapply (invA_main s _ H); [|reflexivity|reflexivity|reflexivity|].
        * rewrite Em. destruct (schedule_work_impl (a_tbl s)) as [[d n]|]; reflexivity.
        * unfold main_cap. cbn.
          destruct (schedule_work_impl (a_tbl s)) as [[d n]|] eqn:Es; [|exact Hc].
          split; [exact Hc|].
          destruct (schedule_some _ _ _ Es) as (t & Htin & Hd & Hn & Hroom).
          destruct (static_in _ _ _ (A_static s H) Htin) as (t0 & Ht0 & Hs0).
          unfold static in Hs0. injection Hs0 as E1 E2 E3 E4.
          exists t0. split; [exact Ht0|]. split; [congruence|]. split; [congruence|].
          unfold has_room, add64 in Hroom.
          rewrite <- (load_of_in _ _ (cur_nodup s H) Htin), Hd in Hroom.
          destruct (pool_entry t0 Ht0) as (_ & Hb & Hbig & _).
          pose proof (A_cap s H t0 Ht0) as Hcap. pose proof (load_nonneg s d H).
          rewrite <- E1, Hd in Hcap.
          rewrite Z.mod_small in Hroom by lia. lia.
      + (* MCheck2 *)
        eapply (invA_main s _ H); [|reflexivity|reflexivity|reflexivity|].
        * rewrite Em. destruct (a_failed s); reflexivity.
        * unfold main_cap. cbn. destruct (a_failed s); auto.
      + (* MReserve *)
        eapply (invA_main s _ H); [|reflexivity|reflexivity|reflexivity|]; [rewrite Em; reflexivity|].
        unfold main_cap. cbn [reserve a_main]. destruct Hc as (Hlt & t & Hin & Hd & Hn & Hl).
        exists t. cbn [tk_dev tk_count reserve a_tbl]. destruct (pool_entry t Hin) as (_ & Hb & Hbig & H63).
        assert (to_int64 n = n) as ->.
        { unfold to_int64. rewrite Z.mod_small by lia.
          destruct (Z.ltb_spec n (2 ^ 63)); lia. }
        split; [exact Hin|]. split; [exact Hd|]. split; lia.
      + (* MDispatch *)
        destruct Hc as (t & Hin & Hd & Hcnt & Hl). destruct (pool_entry t Hin) as (_ & Hb & Hbig & H63).
        assert (In (tk_dev tk) (devs (a_tbl s))) as Hdin.
        { rewrite cur_devs by exact H. rewrite <- Hd. apply in_map, Hin. }
        pose proof (load_nonneg s (tk_dev tk) H) as Hp.
        unfold to_size. rewrite (Z.mod_small (tk_count tk)) by lia.
        rewrite dispatched_ok; [|apply cur_nodup, H|exact Hdin].
        assert (add64 (load_of (a_tbl s) (tk_dev tk)) (tk_count tk)
                = load_of (a_tbl s) (tk_dev tk) + tk_count tk) as ->
            by (unfold add64; apply Z.mod_small; lia).
        constructor; cbn [with_main with_tbl a_tbl a_workers a_main].
        * rewrite static_set_load. apply A_static, H.
        * apply A_devs, H.
        * intros d'. rewrite load_of_set by exact Hdin. rewrite (A_load s H). rewrite Em.
          cbn [m_load]. rewrite sumz_cons, !sumz_nil. rewrite (A_load s H), Em. cbn [m_load].
          rewrite sumz_nil. unfold on_task.
          destruct (device_eqb (tk_dev tk) d') eqn:E; [apply device_eqb_eq in E; subst d'|]; lia.
        * apply (A_tasks s H).
        * intros t' Hin'. rewrite load_of_set by exact Hdin.
          destruct (device_eqb (tk_dev tk) (ds_dev t')) eqn:E; [|apply (A_cap s H t' Hin')].
          apply device_eqb_eq in E.
          assert (t' = t) by (apply (dev_unique tbl); auto using pool_nodup; congruence). subst t'. lia.
        * exists t. auto.
      + (* MEnq *)
        assert (In (tk_dev tk) (map w_dev (a_workers s))) as Hdin.
        { rewrite (A_devs s H). apply fits_dev, Hc. }
        destruct (push_spec tk (a_workers s) Hdin) as (l1 & w & l2 & Ew & Hwd & ->).
        constructor; cbn [with_main with_workers a_tbl a_workers a_main].
        * apply A_static, H.
        * rewrite <- (A_devs s H), Ew, !map_app. reflexivity.
        * intros d'. rewrite (A_load s H), Em, Ew. cbn [m_load].
          rewrite !sumz_app, !sumz_cons, !sumz_nil.
          unfold w_load at 2 5, w_tasks, w_cur. cbn [w_pc w_queue].
          rewrite !sumz_app, sumz_cons, sumz_nil. lia.
        * intros x tk' Hx Htk. apply in_app_or in Hx.
          assert (In w (a_workers s)) as Hwin by (rewrite Ew; apply in_or_app; right; left; reflexivity).
          destruct Hx as [Hx|[<-|Hx]].
          -- apply (A_tasks s H); [rewrite Ew; apply in_or_app; auto|exact Htk].
          -- unfold w_tasks in Htk. cbn [w_queue w_cur w_pc] in Htk. rewrite app_assoc in Htk.
             apply in_app_or in Htk. cbn [w_dev]. destruct Htk as [Htk|[<-|[]]].
             ++ apply (A_tasks s H w tk' Hwin). exact Htk.
             ++ split; [congruence|]. apply fits_small, Hc.
          -- apply (A_tasks s H); [rewrite Ew; apply in_or_app; right; right; exact Hx|exact Htk].
        * apply (A_cap s H).
        * exact Hc.
      + (* MENotify *)
        constructor; cbn [advance with_workers a_tbl a_workers a_main].
        * apply A_static, H.
        * rewrite <- (A_devs s H), map_map. apply map_ext, wake_worker_dev.
        * intros d'. rewrite (A_load s H), Em. cbn [m_load]. f_equal.
          generalize (a_workers s) as ws. induction ws as [|w ws IH]; [reflexivity|].
          cbn [map]. rewrite !sumz_cons, IH. f_equal. unfold w_load. rewrite wake_worker_tasks. reflexivity.
        * intros x tk' Hx Htk. apply in_map_iff in Hx as (w & <- & Hw).
          rewrite wake_worker_tasks in Htk. rewrite wake_worker_dev. exact (A_tasks s H w tk' Hw Htk).
        * apply (A_cap s H).
        * exact I.
      + (* MRollback *)
        pose proof (fits_dev _ Hc) as Hdin. pose proof (fits_small _ Hc) as Hsm.
        assert (tk_count tk <= load_of (a_tbl s) (tk_dev tk)) as Hle.
        { rewrite (A_load s H), Em. cbn [m_load]. rewrite sumz_cons, sumz_nil.
          unfold on_task at 1. rewrite device_eqb_refl.
          assert (0 <= sumz (w_load (tk_dev tk)) (a_workers s)); [|lia].
          apply sumz_nonneg. intros w Hw. apply sumz_nonneg. intros x Hx.
          destruct (A_tasks s H w x Hw Hx) as [_ Hsx]. unfold on_task, small in *.
          destruct (device_eqb _ _); lia. }
        rewrite (complete_ok s tk H Hdin Hsm Hle).
        assert (In (tk_dev tk) (devs (a_tbl s))) as Hdin'.
        { rewrite cur_devs by exact H. exact Hdin. }
        constructor; cbn [with_main with_tbl a_tbl a_workers a_main].
        * rewrite static_set_load. apply A_static, H.
        * apply A_devs, H.
        * intros d'. rewrite load_of_set by exact Hdin'. rewrite !(A_load s H), Em.
          cbn [m_load]. rewrite !sumz_cons, !sumz_nil. unfold on_task.
          rewrite device_eqb_refl.
          destruct (device_eqb (tk_dev tk) d') eqn:E; [apply device_eqb_eq in E; subst d'|]; lia.
        * apply (A_tasks s H).
        * intros t' Hin'. rewrite load_of_set by exact Hdin'. unfold small in Hsm.
          destruct (device_eqb (tk_dev tk) (ds_dev t')) eqn:E; [|apply (A_cap s H t' Hin')].
          apply device_eqb_eq in E. rewrite E. pose proof (A_cap s H t' Hin'). lia.
        * exact I.
      + (* MRecord *)
        eapply (invA_main s _ H); [|reflexivity|reflexivity|reflexivity|]; [rewrite Em; reflexivity|exact I].
      + (* MWait *)
        eapply (invA_main s _ H); [|reflexivity|reflexivity|reflexivity|].
        * rewrite Em. destruct (all_work_completed (a_tbl s)); reflexivity.
        * unfold main_cap. cbn. destruct (all_work_completed (a_tbl s)) eqn:Ea; [|exact I].
          apply completed_nothing; assumption.
    - (* LReserveFail *)
      eapply (invA_main s _ H); [|reflexivity|reflexivity|reflexivity|]; [rewrite Em; reflexivity|exact I].
    - (* LEnqFail *)
      eapply (invA_main s _ H); [|reflexivity|reflexivity|reflexivity|]; [rewrite Em; reflexivity|].
      pose proof (A_main s H) as Hc. unfold main_cap in *. rewrite Em in Hc. exact Hc.
    - (* LSpurMain *)
      eapply (invA_main s _ H); [|reflexivity|reflexivity|reflexivity|].
      + cbn. destruct Em as [Em|Em]; rewrite Em; reflexivity.
      + pose proof (A_main s H) as Hc. unfold main_cap in *. cbn.
        destruct Em as [Em|Em]; rewrite Em in *; cbn; auto.
    - (* LWorker *)
      unfold worker_step in Hw. destruct (nth_error (a_workers s) i) as [w|] eqn:Ei; [|discriminate].
      destruct (nth_split_set _ _ _ Ei) as (l1 & l2 & Ew & _ & Hset).
      pose proof (A_main s H) as Hc.
      destruct w as [d pc q]. cbn [w_pc w_queue w_dev] in *.
      assert (In (mkWorker d pc q) (a_workers s)) as Hwin by (eapply nth_error_In; exact Ei).
      destruct pc as [| |tk|tk r|tk| |]; try discriminate.
      + (* WIdle *)
        injection Hw as <-.
        eapply (invA_set_worker s l1 _ l2 _ (a_main s) H Ew); [| | |reflexivity|apply Hset|reflexivity|].
        * destruct q; reflexivity.
        * destruct q; reflexivity.
        * reflexivity.
        * apply (main_cap_workers s); try reflexivity; [exact Hc|]. intros o Eo x Hx.
          cbn in Hx. rewrite Hset in Hx. unfold main_cap in Hc. rewrite Eo in Hc.
          specialize (Hc _ Hwin) as Hq. unfold w_tasks in Hq. cbn in Hq. subst q.
          apply in_app_or in Hx. destruct Hx as [Hx|[<-|Hx]]; [|reflexivity|];
            apply Hc; rewrite Ew; apply in_or_app; [left|right; right]; exact Hx.
      + (* WRecord *)
        assert (forall o, a_main s <> MIdle o) as Hni.
        { intros o Eo. unfold main_cap in Hc. rewrite Eo in Hc. specialize (Hc _ Hwin). discriminate. }
        destruct (_ && _) in Hw; injection Hw as <-.
        * eapply (invA_set_worker s l1 _ l2 (mkWorker d (WDone tk) q) (a_main s) H Ew);
            [reflexivity|reflexivity|reflexivity|destruct r; reflexivity|destruct r; apply Hset
            |destruct r; reflexivity|].
          apply (main_cap_workers s); try (destruct r; reflexivity); try assumption.
          intros o Eo. destruct (Hni o Eo).
        * eapply (invA_set_worker s l1 _ l2 (mkWorker d (WCrash tk) q) (a_main s) H Ew);
            try reflexivity; [apply Hset|].
          apply (main_cap_workers s); try reflexivity; try assumption.
          intros o Eo. destruct (Hni o Eo).
      + (* WDone *)
        assert (forall o, a_main s <> MIdle o) as Hni.
        { intros o Eo. unfold main_cap in Hc. rewrite Eo in Hc. specialize (Hc _ Hwin). discriminate. }
        assert (In tk (w_tasks (mkWorker d (WDone tk) q))) as Htin by (left; reflexivity).
        destruct (A_tasks s H _ _ Hwin Htin) as [Hd Hsm]. cbn [w_dev] in Hd.
        assert (In (tk_dev tk) (devs tbl)) as Hdin.
        { unfold devs. rewrite <- (A_devs s H), Hd. apply (in_map w_dev _ _ Hwin). }
        rewrite (complete_ok s tk H Hdin Hsm (held_le s _ tk H Hwin Htin)) in Hw.
        injection Hw as <-.
        assert (In (tk_dev tk) (devs (a_tbl s))) as Hdin'.
        { rewrite cur_devs by exact H. exact Hdin. }
        constructor; cbn [set_worker with_workers with_tbl a_tbl a_workers a_main]; rewrite ?Hset.
        * rewrite static_set_load. apply A_static, H.
        * rewrite <- (A_devs s H), Ew, !map_app. reflexivity.
        * intros d'. rewrite load_of_set by exact Hdin'.
          assert (forall d0, load_of (a_tbl s) d0 = sumz (on_task d0) (m_load (a_main s)) +
                    (sumz (w_load d0) l1 + (on_task d0 tk + sumz (on_task d0) q + sumz (w_load d0) l2)))
            as Hl.
          { intros d0. rewrite (A_load s H), Ew, sumz_app, sumz_cons. reflexivity. }
          rewrite !Hl, sumz_app, sumz_cons.
          change (w_load d' (mkWorker d WNotify q)) with (sumz (on_task d') q).
          unfold on_task at 2 5. rewrite device_eqb_refl.
          destruct (device_eqb (tk_dev tk) d') eqn:E; [apply device_eqb_eq in E; subst d'|]; lia.
        * intros x tk' Hx Htk. apply in_app_or in Hx. destruct Hx as [Hx|[<-|Hx]].
          -- apply (A_tasks s H); [rewrite Ew; apply in_or_app; auto|exact Htk].
          -- apply (A_tasks s H _ _ Hwin). right. exact Htk.
          -- apply (A_tasks s H); [rewrite Ew; apply in_or_app; right; right; exact Hx|exact Htk].
        * intros t' Hin'. rewrite load_of_set by exact Hdin'. unfold small in Hsm.
          destruct (device_eqb (tk_dev tk) (ds_dev t')) eqn:E; [|apply (A_cap s H t' Hin')].
          apply device_eqb_eq in E. rewrite E. pose proof (A_cap s H t' Hin'). lia.
        * unfold main_cap in *. cbn [a_main a_tbl a_start a_b set_worker with_workers with_tbl].
          unfold small in Hsm.
          assert (forall d', load_of (set_load (a_tbl s) (tk_dev tk)
                     (load_of (a_tbl s) (tk_dev tk) - tk_count tk)) d' <= load_of (a_tbl s) d') as Hle.
          { intros d'. rewrite load_of_set by exact Hdin'.
            destruct (device_eqb (tk_dev tk) d') eqn:E; [apply device_eqb_eq in E; subst d'|]; lia. }
          destruct (a_main s) as [o| | | |d0 n0|d0 n0|tk0|tk0|tk0|tk0 e0|e0| |] eqn:Em; auto.
          -- destruct (Hni o eq_refl).
          -- destruct Hc as (? & t & ? & ? & ? & ?). split; auto. exists t. specialize (Hle d0).
             repeat split; auto. lia.
          -- destruct Hc as (? & t & ? & ? & ? & ?). split; auto. exists t. specialize (Hle d0).
             repeat split; auto. lia.
          -- destruct Hc as (t & ? & ? & ? & ?). exists t. specialize (Hle (tk_dev tk0)).
             repeat split; auto; lia.
      + (* WNotify *)
        injection Hw as <-.
        eapply (invA_set_worker s l1 _ l2 (mkWorker d WIdle q) (wake_main (a_main s)) H Ew);
          try reflexivity; [destruct (a_main s); reflexivity|apply Hset|].
        unfold main_cap in *. cbn [a_main a_tbl a_start a_b a_workers set_worker with_workers with_main].
        rewrite Hset.
        destruct (a_main s) as [o| | | |d0 n0|d0 n0|tk0|tk0|tk0|tk0 e0|e0| |] eqn:Em; cbn; auto.
        intros x Hx. rewrite Ew in Hc.
        apply in_app_or in Hx. destruct Hx as [Hx|[<-|Hx]].
        * apply Hc. apply in_or_app; left; exact Hx.
        * apply (Hc (mkWorker d WNotify q)). apply in_or_app; right; left; reflexivity.
        * apply Hc. apply in_or_app; right; right; exact Hx.
    - (* LEval *)
      destruct (nth_split_set _ _ _ Hi) as (l1 & l2 & Ew & _ & Hset).
      assert (In w (a_workers s)) as Hwin by (eapply nth_error_In; exact Hi).
      pose proof (A_main s H) as Hc.
      eapply (invA_set_worker s l1 _ l2 (mkWorker (w_dev w) (WRecord tk r) (w_queue w)) (a_main s) H Ew);
        try reflexivity; [unfold w_tasks, w_cur; rewrite Hpc; reflexivity|apply Hset|].
      apply (main_cap_workers s); try reflexivity; try assumption. intros o Eo.
      unfold main_cap in Hc. rewrite Eo in Hc. specialize (Hc _ Hwin). unfold w_tasks, w_cur in Hc.
      rewrite Hpc in Hc. discriminate.
    - (* LSpurWorker *)
      destruct (nth_split_set _ _ _ Hi) as (l1 & l2 & Ew & _ & Hset).
      assert (In w (a_workers s)) as Hwin by (eapply nth_error_In; exact Hi).
      pose proof (A_main s H) as Hc.
      eapply (invA_set_worker s l1 _ l2 (wake_worker w) (a_main s) H Ew);
        try reflexivity; [apply wake_worker_dev|apply wake_worker_tasks|apply Hset|].
      apply (main_cap_workers s); try reflexivity; try assumption. intros o Eo x Hx.
      unfold main_cap in Hc. rewrite Eo in Hc. cbn in Hx. rewrite Hset in Hx.
      apply in_app_or in Hx. destruct Hx as [Hx|[<-|Hx]].
      + apply Hc. rewrite Ew. apply in_or_app; left; exact Hx.
      + rewrite wake_worker_tasks. apply Hc. exact Hwin.
      + apply Hc. rewrite Ew. apply in_or_app; right; right; exact Hx.
  Qed.

  Lemma reach_invA s : areach run tbl s -> invA s.
  Proof. induction 1 as [|s l s' Hr IH Hs]; [exact init_invA|eapply step_invA; eauto]. Qed.
End A.
