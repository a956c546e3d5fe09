(** What an asynchronous call has done when it returns. *)
From Coq Require Import Permutation.
From Verif Require Import Base Tensor Sched SpecSched Dispatch Spec Shared Async SpecAsync
     BaseProofs TensorProofs DispatchProofs SchedProofs TableProofs SharedProofs AsyncProofs AsyncProofs2
     AsyncLive.

Local Open Scope Z_scope.

Section E.
  Context {R : Type}.
  Notation st := (astate R).
  Variable run : nat -> device -> Z -> Z -> result R -> Prop.
  Variable tbl : list dstatus.
  Hypothesis Hpool : pool_ok tbl.
  Notation invA := (invA tbl).
  Notation invB := (invB run tbl).

  Lemma aexec_reach s ls s' : areach run tbl s -> aexec run s ls s' -> areach run tbl s'.
  Proof. intros Hr He. induction He; [exact Hr|]. apply IHHe. eapply ar_step; eauto. Qed.

  (** ** Loads *)

  Lemma rows_on_sumz d l : rows_on d l = sumz (on_task d) l.
  Proof. induction l as [|tk l IH]; [reflexivity|]. cbn [rows_on]. rewrite sumz_cons, IH. reflexivity. Qed.

  Lemma outstanding_tasks (w : worker R) : outstanding w = w_tasks w.
  Proof. unfold outstanding, w_tasks, w_cur. destruct (w_pc w); reflexivity. Qed.

  Lemma rows_out_load (s : st) d : invA s -> rows_out s d = load_of (a_tbl s) d.
  Proof.
    intros H. rewrite (A_load _ _ H). unfold rows_out. rewrite rows_on_sumz, sumz_app.
    change (handing (a_main s)) with (m_load (a_main s)). f_equal.
    induction (a_workers s) as [|w ws IH]; [reflexivity|].
    cbn [flat_map]. rewrite sumz_app, sumz_cons, IH, outstanding_tasks. reflexivity.
  Qed.

  Lemma load_is_of (s : st) d : invA s -> In d (devs tbl) -> load_is (a_tbl s) d (load_of (a_tbl s) d).
  Proof.
    intros H Hd. rewrite <- (cur_devs tbl s H) in Hd. unfold devs in Hd.
    apply in_map_iff in Hd as (t & <- & Ht). exists t. split; [exact Ht|]. split; [reflexivity|].
    symmetry. apply load_of_in; [apply (cur_nodup tbl Hpool s H)|exact Ht].
  Qed.

  Lemma capacity_respected s t : areach run tbl s -> In t tbl -> 0 <= rows_out s (ds_dev t) <= ds_cap t.
  Proof.
    intros Hr Ht. pose proof (reach_invA run tbl Hpool s Hr) as H. rewrite rows_out_load by exact H.
    split; [apply (load_nonneg run tbl Hpool s _ H)|apply (A_cap _ _ H), Ht].
  Qed.

  Lemma load_exact s t : areach run tbl s -> In t tbl ->
    load_is (a_tbl s) (ds_dev t) (rows_out s (ds_dev t)).
  Proof.
    intros Hr Ht. pose proof (reach_invA run tbl Hpool s Hr) as H. rewrite rows_out_load by exact H.
    apply load_is_of; [exact H|]. apply in_map, Ht.
  Qed.

  Lemma clean_at_end s o : areach run tbl s -> a_main s = MIdle o ->
    (forall t, In t (a_tbl s) -> ds_load t = 0) /\
    (forall w, In w (a_workers s) -> w_queue w = [] /\
       (w_pc w = WIdle \/ w_pc w = WSleep \/ w_pc w = WNotify)).
  Proof.
    intros Hr Em. pose proof (reach_invA run tbl Hpool s Hr) as H.
    pose proof (A_main _ _ H) as Hc. unfold main_cap in Hc. rewrite Em in Hc. split.
    - intros t Ht. rewrite <- (load_of_in (a_tbl s) t) by (try apply (cur_nodup tbl Hpool s H); exact Ht).
      rewrite <- rows_out_load by exact H. unfold rows_out. rewrite Em. cbn [handing app].
      assert (flat_map outstanding (a_workers s) = []) as ->; [|reflexivity].
      clear - Hc. induction (a_workers s) as [|w ws IH]; [reflexivity|]. cbn [flat_map].
      rewrite outstanding_tasks, (Hc w (or_introl eq_refl)). apply IH. intros x Hx. apply Hc. right. exact Hx.
    - intros w Hw. specialize (Hc w Hw). unfold w_tasks, w_cur in Hc.
      destruct (w_pc w); try discriminate; cbn in Hc; auto.
  Qed.

  (** ** Steps *)

  Lemma rank_bound ls s s' : areach run tbl s -> aexec run s ls s' -> no_call ls ->
    rank tbl s' + Z.of_nat (length ls) <= rank tbl s + 2 * Z.of_nat (spurs ls).
  Proof.
    intros Hr He. induction He as [s|s l s1 ls s2 Hs He IH]; intros Hn.
    - unfold spurs. cbn. lia.
    - unfold no_call in Hn. cbn [forallb] in Hn. apply andb_prop in Hn as [Hl Hn].
      specialize (IH (ar_step _ _ _ _ _ Hr Hs) Hn).
      destruct (reach_inv run tbl Hpool s Hr) as (HA & HB & _).
      apply negb_true_iff in Hl.
      pose proof (step_rank run tbl Hpool s l s1 HA HB Hs Hl) as Hk.
      unfold spurs in *. cbn [filter]. destruct (spurious l); cbn [length] in *; lia.
  Qed.

  Lemma rank_nonneg s : invB s -> 0 <= rank tbl s.
  Proof.
    intros HB. destruct (B_range _ _ s HB) as [[H1 H2] _]. unfold rank.
    assert (0 <= sumz w_rank (a_workers s)) by (apply sumz_nonneg; intros; apply w_rank_nonneg).
    assert (0 <= m_rank (a_main s)) by (destruct (a_main s); cbn; lia).
    assert (0 <= nw tbl) by (unfold nw; lia). nia.
  Qed.

  Lemma idle_rank (ws : list (worker R)) :
    (forall w, In w ws -> w_tasks w = []) -> sumz w_rank ws <= 3 * Z.of_nat (length ws).
  Proof.
    induction ws as [|w ws IH]; intros H; [cbn; lia|]. rewrite sumz_cons. cbn [length].
    assert (w_rank w <= 3).
    { specialize (H w (or_introl eq_refl)). unfold w_tasks, w_cur in H. unfold w_rank.
      destruct (w_pc w); try discriminate; cbn in H; rewrite H; cbn [length]; lia. }
    specialize (IH (fun x Hx => H x (or_intror Hx))). lia.
  Qed.

  Lemma call_steps s o b ls s' :
    areach run tbl s -> a_main s = MIdle o -> 0 <= b ->
    aexec run (new_call s b) ls s' -> no_call ls ->
    Z.of_nat (length ls) <=
      (17 + Z.of_nat (length tbl)) * b + 3 * Z.of_nat (length tbl) + 17 + 2 * Z.of_nat (spurs ls).
  Proof.
    intros Hr Em Hb He Hn.
    assert (areach run tbl (new_call s b)) as Hr1 by (eapply ar_step; [exact Hr|]; eapply step_call; eauto).
    pose proof (rank_bound ls _ _ Hr1 He Hn) as Hk.
    destruct (reach_inv run tbl Hpool s' (aexec_reach _ _ _ Hr1 He)) as (_ & HB' & _).
    pose proof (rank_nonneg s' HB') as Hge.
    pose proof (reach_invA run tbl Hpool s Hr) as HA.
    pose proof (A_main _ _ HA) as Hc. unfold main_cap in Hc. rewrite Em in Hc.
    pose proof (idle_rank _ Hc) as Hi. rewrite (workers_length tbl s HA) in Hi.
    unfold rank in Hk at 2. cbn [new_call a_b a_start a_main m_rank a_workers] in Hk. unfold nw in Hk. lia.
  Qed.

  (** From every point of a call the threads can finish it. *)
  Lemma can_finish s :
    tbl <> [] -> (forall d b c k, exists r, run k d b c r) -> areach run tbl s ->
    exists ls s' o, aexec run s ls s' /\ no_call ls /\ spurs ls = 0%nat /\ a_main s' = MIdle o.
  Proof.
    intros Hne Hrun. remember (Z.to_nat (rank tbl s)) as n eqn:En. revert s En.
    induction n as [n IH] using (well_founded_induction lt_wf). intros s En Hr.
    assert ((exists o, a_main s = MIdle o) \/ in_call s) as [[o Ho]|Hin].
    { unfold in_call. destruct (a_main s); [left; eauto|..]; right; discriminate. }
    - exists [], s, o. repeat split; auto. apply ex_nil.
    - destruct (progress run tbl Hpool s Hne Hrun Hr Hin) as (l & s1 & Hs & Hsp & Hc).
      assert (areach run tbl s1) as Hr1 by (eapply ar_step; eauto).
      destruct (reach_inv run tbl Hpool s Hr) as (HA & HB & _).
      destruct (reach_inv run tbl Hpool s1 Hr1) as (_ & HB1 & _).
      pose proof (step_rank run tbl Hpool s l s1 HA HB Hs Hc) as Hk. rewrite Hsp in Hk.
      pose proof (rank_nonneg s1 HB1) as Hge.
      destruct (IH (Z.to_nat (rank tbl s1)) ltac:(lia) s1 eq_refl Hr1) as (ls & s' & o & He & Hn & Hspn & Ho).
      exists (l :: ls), s', o. split; [eapply ex_cons; eauto|]. repeat split; auto.
      + unfold no_call in *. cbn. rewrite Hc. exact Hn.
      + unfold spurs in *. cbn. rewrite Hsp. exact Hspn.
  Qed.

  (** ** After a failure *)

  Definition pot (s : st) : nat :=
    match a_main s with MReserve _ _ | MDispatch _ | MEnq _ => 1 | _ => 0 end.

  Lemma flat_map_length_set {A B} (f : A -> list B) l1 w l2 w' :
    (length (flat_map f (l1 ++ w' :: l2)) + length (f w) = length (flat_map f (l1 ++ w :: l2)) + length (f w'))%nat.
  Proof. rewrite !flat_map_app, !app_length. cbn. rewrite !app_length. lia. Qed.

  Ltac fcbn := cbn [with_main with_tbl with_workers with_evals reserve advance record_dispatch_error set_worker a_workers a_main a_failed].

  Lemma launch_step s l s' : invA s -> a_failed s = true -> astep run s l s' -> is_call l = false ->
    a_failed s' = true /\
    ((if Nat.ltb (handed s) (handed s') then 1 else 0) + pot s' <= pot s)%nat.
  Proof.
    intros HA Hf Hs Hl.
    inversion Hs as [? o b Em Hb|? ? Hm|? d n e Em|? tk e Em|? Em|? i ? Hw|? i w tk r Hi Hpc Hr|? i w Hi Hpc]; subst;
      try discriminate.
    - unfold main_step in Hm. pose proof (A_main _ _ HA) as Hc. unfold main_cap in Hc. unfold pot at 2.
      destruct (a_main s) as [o| | | |d n|d n|tk|tk|tk|tk e|e| |] eqn:Em; try discriminate;
        injection Hm as <-.
      + split; [exact Hf|]. unfold pot, handed. fcbn. rewrite Nat.ltb_irrefl.
        destruct (_ <? _); rewrite ?Hf; cbn; lia.
      + split; [exact Hf|]. unfold pot, handed. fcbn. rewrite Nat.ltb_irrefl.
        destruct (schedule_work_impl (a_tbl s)) as [[d n]|]; cbn; lia.
      + split; [exact Hf|]. unfold pot, handed. fcbn. rewrite Nat.ltb_irrefl, Hf. cbn. lia.
      + split; [exact Hf|]. unfold pot, handed. fcbn. rewrite Nat.ltb_irrefl. lia.
      + unfold pot, handed. destruct (dispatched_work_impl _ _ _); fcbn; rewrite Nat.ltb_irrefl; split; auto.
      + assert (In (tk_dev tk) (map w_dev (a_workers s))) as Hdin.
        { rewrite (A_devs _ _ HA). apply fits_dev, Hc. }
        destruct (push_spec tk (a_workers s) Hdin) as (l1 & w & l2 & Ew & Hwd & Epush).
        rewrite Epush. split; [exact Hf|]. unfold pot. fcbn. destruct (Nat.ltb _ _); lia.
      + split; [exact Hf|]. unfold pot, handed. fcbn.
        assert (flat_map outstanding (map wake_worker (a_workers s)) = flat_map outstanding (a_workers s)) as ->.
        { generalize (a_workers s). induction l as [|w ws IH]; [reflexivity|]. cbn.
          rewrite IH, !outstanding_tasks, wake_worker_tasks. reflexivity. }
        rewrite Nat.ltb_irrefl. lia.
      + unfold pot, handed. destruct (completed_work_impl _ _ _); fcbn; rewrite Nat.ltb_irrefl; split; auto.
      + unfold pot, handed. fcbn. rewrite Nat.ltb_irrefl. split; auto.
      + unfold pot, handed. cbn [with_main a_failed a_main a_workers]. rewrite Nat.ltb_irrefl.
        split; [exact Hf|]. destruct (all_work_completed (a_tbl s)); cbn; lia.
    - unfold pot, handed. fcbn. rewrite Nat.ltb_irrefl. split; [exact Hf|lia].
    - unfold pot, handed. fcbn. rewrite Nat.ltb_irrefl. split; [exact Hf|lia].
    - unfold pot, handed. fcbn. rewrite Nat.ltb_irrefl. split; [exact Hf|].
      destruct Em as [Em|Em]; rewrite Em; cbn; lia.
    - unfold worker_step in Hw. destruct (nth_error (a_workers s) i) as [w|] eqn:Ei; [|discriminate].
      destruct (nth_split_set _ _ _ Ei) as (l1 & l2 & Ew & _ & Hset).
      assert (forall w' s1, a_workers s1 = l1 ++ w' :: l2 -> (length (outstanding w') <= length (outstanding w))%nat ->
                (handed s1 <= handed s)%nat) as Hle.
      { intros w' s1 E1 Hlen. unfold handed. rewrite E1, Ew.
        pose proof (flat_map_length_set outstanding l1 w l2 w'). lia. }
      destruct w as [d pc q]. cbn [w_pc w_queue w_dev] in *.
      assert (a_failed s' = true /\ (handed s' <= handed s)%nat /\ (pot s' <= pot s)%nat) as (G1 & G2 & G3).
      { destruct pc as [| |tk|tk r|tk| |]; try discriminate.
        + injection Hw as <-. split; [exact Hf|]. split; [|unfold pot; cbn; lia].
          eapply Hle; [apply Hset|]. destruct q; cbn; lia.
        + destruct (_ && _)%bool; injection Hw as <-.
          * split; [destruct r; cbn; auto|]. split; [|unfold pot; destruct r; cbn; destruct (a_main s); lia].
            eapply Hle; [destruct r; apply Hset|]. cbn. lia.
          * split; [exact Hf|]. split; [|unfold pot; cbn; destruct (a_main s); lia]. eapply Hle; [apply Hset|]. cbn. lia.
        + destruct (completed_work_impl _ _ _); injection Hw as <-.
          * split; [exact Hf|]. split; [|unfold pot; cbn; destruct (a_main s); lia]. eapply Hle; [apply Hset|]. cbn. lia.
          * split; [exact Hf|]. split; [|unfold pot; cbn; destruct (a_main s); lia]. eapply Hle; [apply Hset|]. cbn. lia.
        + injection Hw as <-. split; [exact Hf|]. split.
          * eapply Hle; [apply Hset|]. cbn. lia.
          * unfold pot. cbn. destruct (a_main s); cbn; lia. }
      split; [exact G1|]. destruct (Nat.ltb_spec (handed s) (handed s')); lia.
    - destruct (nth_split_set _ _ _ Hi) as (l1 & l2 & Ew & _ & Hset).
      split; [exact Hf|]. unfold handed. cbn [set_worker with_workers with_evals a_workers].
      rewrite Hset. pose proof (flat_map_length_set outstanding l1 w l2 (mkWorker (w_dev w) (WRecord tk r) (w_queue w))) as Hk.
      rewrite <- Ew in Hk. unfold outstanding in Hk at 2 4. rewrite Hpc in Hk. cbn [w_pc w_queue length] in Hk.
      destruct (Nat.ltb_spec (length (flat_map outstanding (a_workers s)))
        (length (flat_map outstanding (l1 ++ mkWorker (w_dev w) (WRecord tk r) (w_queue w) :: l2)))); [lia|].
      unfold pot. cbn. lia.
    - destruct (nth_split_set _ _ _ Hi) as (l1 & l2 & Ew & _ & Hset).
      split; [exact Hf|]. unfold handed. cbn [set_worker with_workers with_evals a_workers].
      rewrite Hset. pose proof (flat_map_length_set outstanding l1 w l2 (wake_worker w)) as Hk.
      rewrite <- Ew in Hk. rewrite !(outstanding_tasks (wake_worker w)), wake_worker_tasks, <- outstanding_tasks in Hk.
      destruct (Nat.ltb_spec (length (flat_map outstanding (a_workers s)))
        (length (flat_map outstanding (l1 ++ wake_worker w :: l2)))); [lia|].
      unfold pot. cbn. lia.
  Qed.

  Lemma few_launches s ls s' n :
    areach run tbl s -> a_failed s = true -> launches run s ls s' n -> no_call ls ->
    (n + pot s' <= pot s)%nat.
  Proof.
    intros Hr Hf He. induction He as [s|s l s1 ls s2 n Hs He IH]; intros Hn; [lia|].
    unfold no_call in Hn. cbn [forallb] in Hn. apply andb_prop in Hn as [Hl Hn]. apply negb_true_iff in Hl.
    destruct (launch_step s l s1 (reach_invA run tbl Hpool s Hr) Hf Hs Hl) as [Hf1 Hk].
    specialize (IH (ar_step _ _ _ _ _ Hr Hs) Hf1 Hn). lia.
  Qed.

  Lemma stops_after_failure s e ls s' n :
    areach run tbl s -> In (Some e) (a_errors s) -> launches run s ls s' n -> no_call ls -> (n <= 1)%nat.
  Proof.
    intros Hr Hin He Hn. destruct (reach_inv run tbl Hpool s Hr) as (_ & HB & _).
    assert (a_failed s = true) as Hf.
    { apply (B_failed _ _ s HB). right. apply In_nth_error in Hin as [i Hi]. eauto. }
    pose proof (few_launches s ls s' n Hr Hf He Hn). unfold pot in *. destruct (a_main s); lia.
  Qed.

  (** ** Outcomes *)

  (** The recorded outcomes in slot order. *)
  Fixpoint merge (slots : list task) (rs : list (option R)) (es : list (option exn))
    : list (task * result R) :=
    match slots, rs, es with
    | tk :: slots', r :: rs', e :: es' =>
        match r, e with
        | Some v, _ => [(tk, Ok v)]
        | None, Some x => [(tk, Err x)]
        | None, None => []
        end ++ merge slots' rs' es'
    | _, _, _ => []
    end.

  Lemma merge_in : forall slots rs es tk r,
    length rs = length slots -> length es = length slots ->
    (forall i v e, nth_error rs i = Some (Some v) -> nth_error es i = Some (Some e) -> False) ->
    In (tk, r) (merge slots rs es) <->
    exists i, nth_error slots i = Some tk /\
              match r with
              | Ok v => nth_error rs i = Some (Some v)
              | Err e => nth_error es i = Some (Some e)
              end.
  Proof.
    induction slots as [|t slots IH]; intros [|o rs] [|e es] tk r H1 H2 Hex; try discriminate.
    - cbn. split; [intros []|]. intros ([|i] & Hi & _); discriminate.
    - cbn [merge]. rewrite in_app_iff, IH; [|cbn in *; lia|cbn in *; lia|intros i v x Ha Hb; exact (Hex (S i) v x Ha Hb)].
      split.
      + intros [Hin|(i & Hi & Hr)].
        * exists 0%nat. destruct o as [v|]; [|destruct e as [x|]]; cbn in Hin;
            [destruct Hin as [Hin|[]]|destruct Hin as [Hin|[]]|destruct Hin];
            injection Hin as <- <-; split; reflexivity.
        * exists (S i). split; [exact Hi|]. destruct r; exact Hr.
      + intros ([|i] & Hi & Hr).
        * left. cbn in Hi. injection Hi as <-. destruct r as [v|x]; cbn in Hr; injection Hr as ->.
          -- left. reflexivity.
          -- destruct o as [v|]; [|left; reflexivity]. exfalso. exact (Hex 0%nat v x eq_refl eq_refl).
        * right. exists i. split; [exact Hi|]. destruct r; exact Hr.
  Qed.

  Lemma merge_sub : forall slots rs es x, In x (merge slots rs es) -> In (fst x) slots.
  Proof.
    induction slots as [|t slots IH]; intros [|o rs] [|e es] x; cbn [merge]; try (intros []).
    rewrite in_app_iff. intros [Hin|Hin]; [|right; eapply IH; exact Hin]. left.
    destruct o as [v|]; [|destruct e as [y|]]; cbn in Hin;
      [destruct Hin as [Hin|[]]|destruct Hin as [Hin|[]]|destruct Hin]; subst x; reflexivity.
  Qed.

  Lemma merge_nodup : forall slots rs es, NoDup slots -> NoDup (map fst (merge slots rs es)).
  Proof.
    induction slots as [|t slots IH]; intros [|o rs] [|e es] Hnd; cbn [merge]; try apply NoDup_nil.
    inversion Hnd as [|? ? Hni Hnd']; subst.
    assert (~ In t (map fst (merge slots rs es))) as Hn.
    { intros Hin. apply in_map_iff in Hin as (x & <- & Hx). apply Hni. eapply merge_sub; exact Hx. }
    rewrite map_app. destruct o as [v|]; [|destruct e as [y|]]; cbn; auto;
      (apply NoDup_cons; [exact Hn|apply IH; exact Hnd']).
  Qed.

  Lemma tiles_after s e l x : tiles s e l -> In x l -> s <= fst x.
  Proof.
    induction 1 as [b|s c b l Hc Ht IH]; intros Hx; [destruct Hx|].
    destruct Hx as [<-|Hx]; [cbn; lia|]. specialize (IH Hx). lia.
  Qed.

  Lemma merge_positions : forall slots rs es s e,
    tiles s e (map rng slots) -> by_position (merge slots rs es).
  Proof.
    induction slots as [|t slots IH]; intros [|o rs] [|x es] s e Ht; cbn [merge]; try exact I.
    cbn [map] in Ht. inversion Ht as [|? c ? l Hc Ht' E1 E2]; subst.
    assert (by_position (merge slots rs es)) as Hp by (eapply IH; exact Ht').
    assert (forall r : result R, by_position ([(t, r)] ++ merge slots rs es)) as Hcons.
    { intros r. cbn. split; [|exact Hp]. apply Forall_forall. intros y Hy.
      apply merge_sub in Hy. pose proof (tiles_after _ _ _ (rng (fst y)) Ht') as Hk.
      specialize (Hk (in_map rng _ _ Hy)). unfold rng in *. cbn in *. lia. }
    destruct o as [v|]; [|destruct x as [y|]]; auto.
  Qed.

  Lemma merge_failures : forall slots rs es,
    length rs = length slots -> length es = length slots ->
    (forall i v e, nth_error rs i = Some (Some v) -> nth_error es i = Some (Some e) -> False) ->
    failures (merge slots rs es) = somes es.
  Proof.
    induction slots as [|t slots IH]; intros [|o rs] [|e es] H1 H2 Hex; try discriminate; [reflexivity|].
    cbn [merge]. unfold failures in *. rewrite flat_map_app, IH;
      [|cbn in *; lia|cbn in *; lia|intros i v x Ha Hb; exact (Hex (S i) v x Ha Hb)].
    destruct o as [v|]; [|destruct e as [y|]]; cbn; try reflexivity.
    destruct e as [y|]; [|reflexivity]. exfalso. exact (Hex 0%nat v y eq_refl eq_refl).
  Qed.

  Lemma slots_nodup s : invB s -> NoDup (a_slots s).
  Proof.
    intros HB. apply NoDup_nth_error. intros i j Hi E.
    destruct (nth_error (a_slots s) i) as [tk|] eqn:Ei; [|apply nth_error_Some in Hi; congruence].
    destruct (B_idx _ _ s HB i tk Ei) as [<- _]. symmetry in E.
    destruct (B_idx _ _ s HB j tk E) as [<- _]. reflexivity.
  Qed.

  Lemma recorded_once s i v e : invB s ->
    nth_error (a_results s) i = Some (Some v) -> nth_error (a_errors s) i = Some (Some e) -> False.
  Proof.
    intros HB H1 H2.
    destruct (B_from _ _ s HB i (Ok v) H1) as (t1 & I1 & E1).
    destruct (B_from _ _ s HB i (Err e) H2) as (t2 & I2 & E2).
    pose proof (B_once _ _ s HB) as Hnd.
    assert (forall l, NoDup (map (fun x : task * result R => tk_idx (fst x)) l) ->
              In (t1, Ok v) l -> In (t2, Err e) l -> False) as Hk.
    { clear - E1 E2. induction l as [|x l IH]; [intros _ []|]. cbn. intros Hnd.
      inversion Hnd as [|? ? Hni Hnd']; subst. intros [Ha|Ha] [Hb|Hb].
      - congruence.
      - subst x. apply Hni. cbn. rewrite <- E2. apply (in_map (fun x => tk_idx (fst x)) _ _ Hb).
      - subst x. apply Hni. cbn. rewrite E2. apply (in_map (fun x => tk_idx (fst x)) _ _ Ha).
      - auto. }
    exact (Hk _ Hnd I1 I2).
  Qed.

  (** At rest every evaluation has been recorded. *)
  Lemma idle_merge s o : invA s -> invB s -> a_main s = MIdle o ->
    Permutation (merge (a_slots s) (a_results s) (a_errors s)) (a_evals s).
  Proof.
    intros HA HB Em.
    pose proof (A_main _ _ HA) as Hc. unfold main_cap in Hc. rewrite Em in Hc.
    apply NoDup_Permutation.
    - eapply NoDup_map_inv, merge_nodup, slots_nodup, HB.
    - pose proof (B_once _ _ s HB) as Hnd. eapply NoDup_map_inv, Hnd.
    - intros [tk r]. rewrite merge_in;
        [|apply (B_len_r _ _ s HB)|apply (B_len_e _ _ s HB)|intros i v e; apply recorded_once, HB].
      split.
      + intros (i & Hi & Hr). destruct (B_from _ _ s HB i r) as (t & Ht & Et); [destruct r; exact Hr|].
        destruct (B_sound _ _ s HB t r Ht) as [Hn _]. rewrite Et, Hi in Hn. injection Hn as ->. exact Ht.
      + intros Hin. exists (tk_idx tk). split; [apply (B_sound _ _ s HB tk r Hin)|].
        destruct (B_fate _ _ s HB tk r Hin) as [Hr|(w & Hw & Hpc)]; [destruct r; exact Hr|].
        exfalso. specialize (Hc w Hw). unfold w_tasks, w_cur in Hc. rewrite Hpc in Hc. discriminate.
  Qed.

  (** What the thread leaving MWait reports is what it gathered. *)
  Definition outcome_ok (s : st) : Prop :=
    forall o, a_main s = MIdle (Some o) -> o = gather (a_derr s) (a_errors s) (a_results s).

  Lemma wake_main_idle (m : main_pc R) o : wake_main m = MIdle o <-> m = MIdle o.
  Proof. destruct m; cbn; split; congruence. Qed.

  Lemma step_outcome s l s' : invA s -> outcome_ok s -> astep run s l s' -> outcome_ok s'.
  Proof.
    intros HA H Hs. unfold outcome_ok in *.
    inversion Hs as [? o b Em Hb|? ? Hm|? d n e Em|? tk e Em|? Em|? i ? Hw|? i w tk r Hi Hpc Hr|? i w Hi Hpc]; subst;
      try (cbn; discriminate).
    - unfold main_step in Hm.
      destruct (a_main s) as [o| | | |d n|d n|tk|tk|tk|tk e|e| |] eqn:Em; try discriminate;
        injection Hm as <-; try (cbn; discriminate).
      + cbn. intros o. destruct (_ <? _); [destruct (a_failed s)|]; discriminate.
      + cbn. intros o. destruct (schedule_work_impl (a_tbl s)) as [[d n]|]; discriminate.
      + cbn. intros o. destruct (a_failed s); discriminate.
      + destruct (dispatched_work_impl _ _ _); discriminate.
      + destruct (push _ _); discriminate.
      + destruct (completed_work_impl _ _ _); discriminate.
      + cbn [with_main a_main a_derr a_errors a_results]. intros o.
        destruct (all_work_completed (a_tbl s)); [|discriminate]. intros E. injection E as <-. reflexivity.
    - cbn. intros o E. destruct Em as [Em|Em]; rewrite Em in E; discriminate.
    - unfold worker_step in Hw. destruct (nth_error (a_workers s) i) as [w|] eqn:Ei; [|discriminate].
      assert (In w (a_workers s)) as Hwin by (eapply nth_error_In; exact Ei).
      destruct w as [d pc q]. cbn [w_pc w_queue w_dev] in *.
      destruct pc as [| |tk|tk r|tk| |]; try discriminate.
      + injection Hw as <-. exact H.
      + assert (forall o, a_main s <> MIdle o) as Hni.
        { intros o Em. pose proof (A_main _ _ HA) as Hc. unfold main_cap in Hc. rewrite Em in Hc.
          specialize (Hc _ Hwin). discriminate. }
        intros o E. exfalso. apply (Hni (Some o)). destruct (_ && _)%bool; injection Hw as <-; [destruct r|]; exact E.
      + destruct (completed_work_impl _ _ _); injection Hw as <-; exact H.
      + injection Hw as <-. intros o E. apply (wake_main_idle (a_main s)) in E. exact (H o E).
    - exact H.
    - exact H.
  Qed.

  Lemma reach_outcome s : areach run tbl s -> outcome_ok s.
  Proof.
    induction 1 as [|s l s' Hr IH Hs]; [intros o; discriminate|].
    eapply step_outcome; eauto. eapply reach_invA; eauto.
  Qed.

  Lemma gather_reported (derr : option exn) errs (rs : list (option R)) :
    let es := (match derr with Some e => [e] | None => [] end) ++ somes errs in
    match gather derr errs rs with
    | Ok rs' => es = [] /\ rs' = rs
    | Err e => reported es e
    end.
  Proof.
    intros es. unfold gather. fold es. destruct es as [|e [|e2 es']]; [auto|left; reflexivity|].
    right. exists e, e2, es'. auto.
  Qed.

  (** Failures injected into the dispatch thread. *)
  Definition pend_err (m : main_pc R) : list exn :=
    match m with MRollback _ e | MRecord e => [e] | _ => [] end.
  Definition known (s : st) : list exn :=
    (match a_derr s with Some e => [e] | None => [] end) ++ pend_err (a_main s).

  Lemma rollback_ok (s : st) tk e : invA s -> a_main s = MRollback tk e ->
    exists t, completed_work_impl (a_tbl s) (tk_dev tk) (to_size (tk_count tk)) = Ok t.
  Proof.
    intros HA Em. pose proof (A_main _ _ HA) as Hc. unfold main_cap in Hc. rewrite Em in Hc.
    eexists. apply (complete_ok tbl Hpool s tk HA (fits_dev tbl tk Hc) (fits_small tbl Hpool tk Hc)).
    rewrite (A_load _ _ HA), Em. cbn [m_load]. rewrite sumz_cons, sumz_nil.
    assert (0 <= sumz (w_load (tk_dev tk)) (a_workers s)).
    { apply sumz_nonneg. intros w Hw. apply sumz_nonneg. intros x Hx.
      destruct (A_tasks _ _ HA w x Hw Hx) as [_ Hs]. unfold on_task, small in *.
      destruct (device_eqb _ _); lia. }
    unfold on_task. rewrite device_eqb_refl. lia.
  Qed.

  Lemma step_known s l s' : invA s -> invB s -> astep run s l s' -> is_call l = false ->
    known s' = known s ++ dfails [l].
  Proof.
    intros HA HB Hs Hl. unfold known, dfails.
    inversion Hs as [? o b Em Hb|? ? Hm|? d n e Em|? tk e Em|? Em|? i ? Hw|? i w tk r Hi Hpc Hr|? i w Hi Hpc]; subst;
      try discriminate; cbn [flat_map app].
    - rewrite app_nil_r. unfold main_step in Hm.
      pose proof (A_main _ _ HA) as Hc. unfold main_cap in Hc.
      destruct (a_main s) as [o| | | |d n|d n|tk|tk|tk|tk e|e| |] eqn:Em; try discriminate;
        injection Hm as <-; try reflexivity.
      + cbn. destruct (_ <? _); [destruct (a_failed s)|]; reflexivity.
      + cbn. destruct (schedule_work_impl (a_tbl s)) as [[d n]|]; reflexivity.
      + cbn. destruct (a_failed s); reflexivity.
      + destruct Hc as (t & Hin & Hd & Hcnt & Hld).
        rewrite dispatched_ok; [reflexivity|apply (cur_nodup tbl Hpool s HA)|].
        rewrite (cur_devs tbl s HA), <- Hd. apply in_map, Hin.
      + assert (In (tk_dev tk) (map w_dev (a_workers s))) as Hdin.
        { rewrite (A_devs _ _ HA). apply fits_dev, Hc. }
        destruct (push_spec tk (a_workers s) Hdin) as (l1 & w & l2 & Ew & Hwd & Epush).
        rewrite Epush. reflexivity.
      + destruct (rollback_ok s tk e HA Em) as [t ->]. reflexivity.
      + cbn. destruct (a_derr s) as [x|] eqn:Ed; [|reflexivity]. exfalso.
        assert (a_derr s <> None) as Hd by congruence.
        pose proof (B_derr _ _ s HB Hd) as Hx. rewrite Em in Hx.
        destruct Hx as [E|[E|[o E]]]; discriminate.
      + cbn [with_main a_main a_derr]. destruct (all_work_completed (a_tbl s)); reflexivity.
    - rewrite Em. cbn. rewrite app_nil_r. reflexivity.
    - rewrite Em. cbn. rewrite app_nil_r. reflexivity.
    - rewrite app_nil_r. cbn. destruct Em as [Em|Em]; rewrite Em; reflexivity.
    - rewrite app_nil_r. unfold worker_step in Hw.
      destruct (nth_error (a_workers s) i) as [w|] eqn:Ei; [|discriminate].
      destruct w as [d pc q]. cbn [w_pc w_queue w_dev] in *.
      destruct pc as [| |tk|tk r|tk| |]; try discriminate.
      + injection Hw as <-. reflexivity.
      + destruct (_ && _)%bool; injection Hw as <-; [destruct r|]; reflexivity.
      + destruct (completed_work_impl _ _ _); injection Hw as <-; reflexivity.
      + injection Hw as <-. cbn. destruct (a_main s); reflexivity.
    - rewrite app_nil_r. reflexivity.
    - rewrite app_nil_r. reflexivity.
  Qed.

  Lemma exec_known ls : forall s s', areach run tbl s -> aexec run s ls s' -> no_call ls ->
    known s' = known s ++ dfails ls.
  Proof.
    induction ls as [|l ls IH]; intros s s' Hr He Hn; inversion He as [|? ? s1 ? ? Hs He']; subst.
    - rewrite app_nil_r. reflexivity.
    - unfold no_call in Hn. cbn [forallb] in Hn. apply andb_prop in Hn as [Hl Hn]. apply negb_true_iff in Hl.
      destruct (reach_inv run tbl Hpool s Hr) as (HA & HB & _).
      rewrite (IH s1 s' (ar_step _ _ _ _ _ Hr Hs) He' Hn), (step_known s l s1 HA HB Hs Hl).
      unfold dfails. cbn [flat_map]. rewrite app_nil_r, app_assoc. reflexivity.
  Qed.

  (** The evaluations of an execution, in the order in which they happened. *)
  Lemma step_evals s l s' : astep run s l s' -> is_call l = false ->
    map snd (a_evals s') = map snd (a_evals s) ++ evaluated [l] /\ a_b s' = a_b s /\ a_call s' = a_call s.
  Proof.
    intros Hs Hl. unfold evaluated.
    inversion Hs as [? o b Em Hb|? ? Hm|? d n e Em|? tk e Em|? Em|? i ? Hw|? i w tk r Hi Hpc Hr|? i w Hi Hpc]; subst;
      try discriminate; cbn [flat_map app]; rewrite ?app_nil_r; auto.
    - unfold main_step in Hm.
      destruct (a_main s) as [o| | | |d n|d n|tk|tk|tk|tk e|e| |] eqn:Em; try discriminate;
        injection Hm as <-; auto.
      + destruct (dispatched_work_impl _ _ _); auto.
      + destruct (push _ _); auto.
      + destruct (completed_work_impl _ _ _); auto.
    - unfold worker_step in Hw. destruct (nth_error (a_workers s) i) as [w|] eqn:Ei; [|discriminate].
      destruct w as [d pc q]. cbn [w_pc w_queue w_dev] in *.
      destruct pc as [| |tk|tk r|tk| |]; try discriminate.
      + injection Hw as <-. auto.
      + destruct (_ && _)%bool; injection Hw as <-; [destruct r|]; auto.
      + destruct (completed_work_impl _ _ _); injection Hw as <-; auto.
      + injection Hw as <-. auto.
    - cbn. rewrite map_app. auto.
  Qed.

  Lemma exec_evals ls : forall s s', aexec run s ls s' -> no_call ls ->
    map snd (a_evals s') = map snd (a_evals s) ++ evaluated ls /\ a_b s' = a_b s /\ a_call s' = a_call s.
  Proof.
    induction ls as [|l ls IH]; intros s s' He Hn; inversion He as [|? ? s1 ? ? Hs He']; subst.
    - rewrite app_nil_r. auto.
    - unfold no_call in Hn. cbn [forallb] in Hn. apply andb_prop in Hn as [Hl Hn]. apply negb_true_iff in Hl.
      destruct (IH s1 s' He' Hn) as (E1 & E2 & E3). destruct (step_evals s l s1 Hs Hl) as (F1 & F2 & F3).
      rewrite E1, F1, E2, E3. unfold evaluated. cbn [flat_map]. rewrite app_nil_r, app_assoc. auto.
  Qed.

  (** The failures of a finished call. *)
  Lemma call_failures s o b ls s' out :
    areach run tbl s -> a_main s = MIdle o -> 0 <= b ->
    aexec run (new_call s b) ls s' -> no_call ls -> a_main s' = MIdle (Some out) ->
    exists l,
      by_position l /\ Permutation (map snd l) (evaluated ls) /\
      Forall (fun x => chunk_in tbl b (fst x) /\
                       run (S (a_call s)) (tk_dev (fst x)) (tk_start (fst x)) (tk_count (fst x)) (snd x)) l /\
      match out with
      | Ok _ => dfails ls ++ failures l = []
      | Err e => reported (dfails ls ++ failures l) e
      end.
  Proof.
    intros Hr Em Hb He Hn Em'.
    assert (areach run tbl (new_call s b)) as Hr1 by (eapply ar_step; [exact Hr|]; eapply step_call; eauto).
    assert (areach run tbl s') as Hr' by (eapply aexec_reach; eauto).
    destruct (reach_inv run tbl Hpool s' Hr') as (HA & HB & _).
    destruct (exec_evals ls _ _ He Hn) as (E1 & E2 & E3). cbn in E1, E2, E3.
    pose proof (idle_merge s' _ HA HB Em') as Hp.
    exists (merge (a_slots s') (a_results s') (a_errors s')).
    destruct (B_range _ _ s' HB) as [_ (e & Ht & Hle & _)].
    split; [eapply merge_positions; exact Ht|].
    split; [rewrite <- E1; apply Permutation_map, Hp|]. split.
    { apply Forall_forall. intros [tk r] Hin. apply (Permutation_in _ Hp) in Hin.
      destruct (B_sound _ _ s' HB tk r Hin) as [Hsl Hrun]. rewrite E3 in Hrun. split; [|exact Hrun].
      destruct (B_idx _ _ s' HB _ _ Hsl) as [_ Hfit]. cbn [fst].
      destruct Hfit as (t & Ht0 & Hd0 & Hc0). exists t. rewrite E2 in Hle.
      apply nth_error_In in Hsl. apply (in_map rng) in Hsl.
      pose proof (tiles_bounds _ _ _ _ Ht Hsl) as Hbd. unfold rng in Hbd. cbn in Hbd.
      repeat split; try assumption; lia. }
    rewrite merge_failures;
      [|apply (B_len_r _ _ s' HB)|apply (B_len_e _ _ s' HB)|intros i v x; apply recorded_once, HB].
    pose proof (exec_known ls _ _ Hr1 He Hn) as Hk. unfold known in Hk. rewrite Em' in Hk. cbn in Hk.
    rewrite app_nil_r in Hk. rewrite (reach_outcome s' Hr' out Em').
    pose proof (gather_reported (a_derr s') (a_errors s') (a_results s')) as Hg. cbn zeta in Hg.
    rewrite Hk in Hg. destruct (gather _ _ _) as [rs|x]; [apply Hg|exact Hg].
  Qed.

  Lemma somes_nil {A} (l : list (option A)) : somes l = [] -> forall i x, nth_error l i <> Some (Some x).
  Proof.
    induction l as [|[a|] l IH]; intros H [|i] x; cbn in *; try discriminate; auto.
  Qed.

  (** A call that returns normally has evaluated ranges tiling the batch, and
      returns their results in order. *)
  Lemma call_success s o b ls s' rs :
    areach run tbl s -> a_main s = MIdle o -> 0 <= b ->
    aexec run (new_call s b) ls s' -> no_call ls -> a_main s' = MIdle (Some (Ok rs)) ->
    exists l : list (task * R),
      tiles 0 b (map (fun x => (tk_start (fst x), tk_count (fst x))) l) /\
      rs = map (fun x => Some (snd x)) l /\
      Permutation (map (fun x => Ok (snd x)) l) (evaluated ls) /\
      Forall (fun x => chunk_in tbl b (fst x) /\
                       run (S (a_call s)) (tk_dev (fst x)) (tk_start (fst x)) (tk_count (fst x)) (Ok (snd x))) l.
  Proof.
    intros Hr Em Hb He Hn Em'.
    assert (areach run tbl (new_call s b)) as Hr1 by (eapply ar_step; [exact Hr|]; eapply step_call; eauto).
    assert (areach run tbl s') as Hr' by (eapply aexec_reach; eauto).
    destruct (reach_inv run tbl Hpool s' Hr') as (HA & HB & _).
    destruct (exec_evals ls _ _ He Hn) as (E1 & E2 & E3). cbn in E1, E2, E3.
    pose proof (gather_reported (a_derr s') (a_errors s') (a_results s')) as Hg. cbn zeta in Hg.
    rewrite <- (reach_outcome s' Hr' _ Em') in Hg. destruct Hg as [Hes ->].
    apply app_eq_nil in Hes as [Hd Herr].
    assert (a_derr s' = None) as Hd' by (destruct (a_derr s'); [discriminate|reflexivity]).
    assert (a_failed s' = false) as Hf.
    { destruct (a_failed s') eqn:Ef; [|reflexivity]. apply (B_failed _ _ s' HB) in Ef.
      destruct Ef as [Ef|(i & x & Ef)]; [congruence|]. exfalso. exact (somes_nil _ Herr i x Ef). }
    pose proof (A_main _ _ HA) as Hc. unfold main_cap in Hc. rewrite Em' in Hc.
    assert (forall i, (i < length (a_slots s'))%nat -> exists v, nth_error (a_results s') i = Some (Some v)) as Hall.
    { intros i Hi. destruct (nth_error (a_results s') i) as [[v|]|] eqn:Ei.
      - eauto.
      - exfalso. assert (nth_error (a_errors s') i = Some None) as Ei'.
        { destruct (nth_error (a_errors s') i) as [[x|]|] eqn:Ei2; [|reflexivity|].
          - exfalso. exact (somes_nil _ Herr i x Ei2).
          - apply nth_error_None in Ei2. rewrite (B_len_e _ _ s' HB) in Ei2. lia. }
        destruct (B_closed _ _ s' HB i Ei Ei') as [Ho|[[x Ho]|Ho]]; [|congruence|congruence].
        unfold open in Ho. rewrite Em' in Ho. cbn [m_pend app] in Ho.
        apply in_map_iff in Ho as (tk & _ & Ho). apply in_flat_map in Ho as (w & Hw & Ho).
        specialize (Hc w Hw). unfold w_tasks, w_cur, w_open in *.
        destruct (w_pc w); try discriminate; cbn in Hc; rewrite Hc in Ho; destruct Ho.
      - exfalso. apply nth_error_None in Ei. rewrite (B_len_r _ _ s' HB) in Ei. lia. }
    assert (exists vs, a_results s' = map Some vs) as [vs Hvs].
    { rewrite <- (B_len_r _ _ s' HB) in Hall. clear - Hall.
      induction (a_results s') as [|x rs IH]; [exists []; reflexivity|].
      destruct (Hall 0%nat) as [v Hv]; [cbn; lia|]. cbn in Hv. injection Hv as ->.
      destruct IH as [vs ->]; [intros i Hi; apply (Hall (S i)); cbn; lia|]. exists (v :: vs). reflexivity. }
    assert (length vs = length (a_slots s')) as Hlen.
    { rewrite <- (B_len_r _ _ s' HB), Hvs, map_length. reflexivity. }
    set (l := combine (a_slots s') vs).
    assert (map fst l = a_slots s') as Hl1.
    { unfold l; clear - Hlen. revert vs Hlen. induction (a_slots s') as [|t sl IH]; intros [|v vs] H; try discriminate; [reflexivity|].
      cbn. rewrite IH; [reflexivity|]. cbn in H. lia. }
    assert (map snd l = vs) as Hl2.
    { unfold l; clear - Hlen. revert vs Hlen. induction (a_slots s') as [|t sl IH]; intros [|v vs] H; try discriminate; [reflexivity|].
      cbn. rewrite IH; [reflexivity|]. cbn in H. lia. }
    assert (merge (a_slots s') (a_results s') (a_errors s') = map (fun x => (fst x, Ok (snd x))) l) as Hm.
    { rewrite Hvs. unfold l. pose proof (B_len_e _ _ s' HB) as Hle. clear - Hlen Hle.
      revert vs Hlen. generalize dependent (a_errors s').
      induction (a_slots s') as [|t sl IH]; intros [|e es] Hle [|v vs] H; try discriminate; [reflexivity|].
      cbn. rewrite IH; [reflexivity|cbn in *; lia|cbn in *; lia]. }
    pose proof (idle_merge s' _ HA HB Em') as Hp. rewrite Hm in Hp.
    exists l. split; [|split; [|split]].
    - destruct (B_range _ _ s' HB) as [_ (e & Ht & _ & Hend)]. unfold end_of in Hend. rewrite Em' in Hend.
      destruct Hend as [Hend|Hend]; [congruence|]. subst e. rewrite E2 in Ht.
      rewrite <- Hl1, map_map in Ht. exact Ht.
    - rewrite Hvs, <- Hl2, map_map. reflexivity.
    - rewrite <- E1. apply (Permutation_map snd) in Hp. rewrite map_map in Hp. exact Hp.
    - apply Forall_forall. intros [tk v] Hin. cbn [fst snd].
      assert (In (tk, Ok v) (a_evals s')) as Hev.
      { eapply Permutation_in; [exact Hp|]. apply (in_map (fun x => (fst x, Ok (snd x))) _ _ Hin). }
      destruct (B_sound _ _ s' HB tk (Ok v) Hev) as [Hn' Hrun]. rewrite E3 in Hrun. split; [|exact Hrun].
      destruct (B_idx _ _ s' HB _ _ Hn') as [_ Hfit]. destruct Hfit as (t & Ht0 & Hd0 & Hc0). exists t.
      destruct (B_range _ _ s' HB) as [_ (e & Ht & Hle & _)]. rewrite E2 in Hle.
      apply nth_error_In in Hn'. apply (in_map rng) in Hn'.
      pose proof (tiles_bounds _ _ _ _ Ht Hn') as Hbd. unfold rng in Hbd. cbn in Hbd.
      repeat split; try assumption; lia.
  Qed.

  (** No task ever terminates the process. *)
  Lemma no_crash s w tk : areach run tbl s -> In w (a_workers s) -> w_pc w <> WCrash tk.
  Proof. intros Hr. destruct (reach_inv run tbl Hpool s Hr) as (_ & HB & _). apply (B_nocrash _ _ s HB). Qed.
End E.
