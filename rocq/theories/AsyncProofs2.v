(** Slots, outcomes and evaluations of the asynchronous dispatcher. *)
From Coq Require Import Permutation.
From Verif Require Import Base Tensor Sched SpecSched Dispatch Spec Shared Async
     BaseProofs TensorProofs DispatchProofs TableProofs SharedProofs AsyncProofs.

Local Open Scope Z_scope.

Lemma nth_error_set_nth {A} (l : list A) : forall i j x, (i < length l)%nat ->
  nth_error (set_nth i x l) j = if Nat.eqb i j then Some x else nth_error l j.
Proof.
  induction l as [|a l IH]; intros [|i] [|j] x H; cbn in *; try lia; auto.
  apply IH. lia.
Qed.

Lemma tiles_snoc s e l c : tiles s e l -> 0 < c -> tiles s (e + c) (l ++ [(e, c)]).
Proof.
  induction 1 as [b|s c' b l Hc Ht IH]; intros H; cbn.
  - apply tiles_cons; [exact H|apply tiles_nil].
  - apply tiles_cons; auto.
Qed.

Section B.
  Context {R : Type}.
  Notation st := (astate R).
  Variable run : nat -> device -> Z -> Z -> result R -> Prop.
  Variable tbl : list dstatus.
  Hypothesis Hpool : pool_ok tbl.
  Notation invA := (invA tbl).

  Definition rng (tk : task) : Z * Z := (tk_start tk, tk_count tk).
  Definition w_unrun (w : worker R) : list task :=
    match w_pc w with WRun tk => [tk] | _ => [] end ++ w_queue w.
  Definition open (s : st) : list task := m_pend (a_main s) ++ flat_map w_open (a_workers s).
  Definition unrun (s : st) : list task := m_pend (a_main s) ++ flat_map w_unrun (a_workers s).
  Definition dropped (s : st) : Prop := (exists e, a_main s = MRecord e) \/ a_derr s <> None.

  Definition end_of (s : st) (e : Z) : Prop :=
    match a_main s with
    | MLoop | MSched | MSleepS | MCheck2 _ _ | MReserve _ _ => e = a_start s
    | MDispatch tk | MEnq tk | MENotify tk | MRollback tk _ => e = a_start s + tk_count tk
    | MRecord _ => True
    | MWait | MSleepW | MIdle _ => a_failed s = true \/ e = a_b s
    end.
  Definition range_ok (s : st) : Prop :=
    0 <= a_start s <= a_b s /\ exists e, tiles 0 e (map rng (a_slots s)) /\ e <= a_b s /\ end_of s e.

  Definition recorded (s : st) (i : nat) (r : result R) : Prop :=
    match r with
    | Ok v => nth_error (a_results s) i = Some (Some v)
    | Err e => nth_error (a_errors s) i = Some (Some e)
    end.

  Record invB (s : st) : Prop :=
    { B_len_r : length (a_results s) = length (a_slots s);
      B_len_e : length (a_errors s) = length (a_slots s);
      B_idx : forall i tk, nth_error (a_slots s) i = Some tk -> tk_idx tk = i /\ fits tbl tk;
      B_range : range_ok s;
      B_open : forall w tk, In w (a_workers s) -> In tk (w_tasks w) ->
                 nth_error (a_slots s) (tk_idx tk) = Some tk;
      B_pend : forall tk, In tk (m_pend (a_main s)) -> exists l, a_slots s = l ++ [tk];
      B_nodup : NoDup (map tk_idx (open s));
      B_rec : forall i r, recorded s i r -> ~ In i (map tk_idx (open s));
      B_closed : forall i, nth_error (a_results s) i = Some None ->
                   nth_error (a_errors s) i = Some None ->
                   In i (map tk_idx (open s)) \/ dropped s;
      B_failed : a_failed s = true <->
                 (a_derr s <> None \/ exists i e, nth_error (a_errors s) i = Some (Some e));
      B_derr : a_derr s <> None ->
               a_main s = MWait \/ a_main s = MSleepW \/ exists o, a_main s = MIdle o;
      B_sound : forall tk r, In (tk, r) (a_evals s) ->
                  nth_error (a_slots s) (tk_idx tk) = Some tk /\
                  run (a_call s) (tk_dev tk) (tk_start tk) (tk_count tk) r;
      B_once : NoDup (map (fun x => tk_idx (fst x)) (a_evals s));
      B_from : forall i r, recorded s i r -> exists tk, In (tk, r) (a_evals s) /\ tk_idx tk = i;
      B_recing : forall w tk r, In w (a_workers s) -> w_pc w = WRecord tk r -> In (tk, r) (a_evals s);
      B_fate : forall tk r, In (tk, r) (a_evals s) ->
                 recorded s (tk_idx tk) r \/
                 exists w, In w (a_workers s) /\ w_pc w = WRecord tk r;
      B_fresh : forall tk, In tk (unrun s) ->
                  ~ In (tk_idx tk) (map (fun x => tk_idx (fst x)) (a_evals s));
      B_nocrash : forall w tk, In w (a_workers s) -> w_pc w <> WCrash tk }.

  Lemma init_invB : invB (ainit tbl).
  Proof.
    assert (forall (f : worker R -> list task) (l : list dstatus),
              (forall d, f (mkWorker d WIdle []) = []) ->
              flat_map f (map (fun t => mkWorker (ds_dev t) WIdle []) l) = []) as Hfm.
    { intros f l Hf. induction l as [|t l IH]; [reflexivity|]. cbn. rewrite Hf, IH. reflexivity. }
    assert (open (ainit tbl) = []) as Ho by (unfold open; cbn; apply Hfm; reflexivity).
    assert (unrun (ainit tbl) = []) as Hu by (unfold unrun; cbn; apply Hfm; reflexivity).
    constructor; try (cbn; reflexivity).
    - intros [|i] tk H; discriminate.
    - split; [cbn; lia|]. exists 0. cbn. repeat split; [apply tiles_nil|lia|right; reflexivity].
    - intros w tk Hw. cbn in Hw. apply in_map_iff in Hw as (t & <- & _). intros [].
    - intros tk [].
    - rewrite Ho. apply NoDup_nil.
    - rewrite Ho. intros i r _ [].
    - intros [|i] H; discriminate.
    - cbn. split; [discriminate|]. intros [H|([|i] & e & H)]; [congruence|discriminate|discriminate].
    - cbn. congruence.
    - intros tk r [].
    - apply NoDup_nil.
    - intros [|i] [v|e] H; discriminate.
    - intros w tk r Hw. cbn in Hw. apply in_map_iff in Hw as (t & <- & _). discriminate.
    - intros tk r [].
    - rewrite Hu. intros tk [].
    - intros w tk Hw. cbn in Hw. apply in_map_iff in Hw as (t & <- & _). discriminate.
  Qed.

  (** Steps that leave slots, outcomes and evaluations alone. *)
  Lemma invB_frame s s' :
    invB s ->
    a_slots s' = a_slots s -> a_results s' = a_results s -> a_errors s' = a_errors s ->
    a_failed s' = a_failed s -> a_derr s' = a_derr s -> a_evals s' = a_evals s ->
    a_call s' = a_call s ->
    range_ok s' ->
    (exists x, Permutation (map tk_idx (open s)) (x ++ map tk_idx (open s')) /\
               (x = [] \/ dropped s')) ->
    (forall w tk, In w (a_workers s') -> In tk (w_tasks w) ->
       (exists w0, In w0 (a_workers s) /\ In tk (w_tasks w0)) \/ In tk (m_pend (a_main s))) ->
    (forall tk r, (exists w, In w (a_workers s') /\ w_pc w = WRecord tk r) <->
                  (exists w, In w (a_workers s) /\ w_pc w = WRecord tk r)) ->
    incl (unrun s') (unrun s) ->
    (forall tk, In tk (m_pend (a_main s')) -> In tk (m_pend (a_main s))) ->
    (a_derr s <> None -> a_main s' = MWait \/ a_main s' = MSleepW \/ exists o, a_main s' = MIdle o) ->
    ((exists e, a_main s = MRecord e) -> dropped s') ->
    (forall w tk, In w (a_workers s') -> w_pc w <> WCrash tk) ->
    invB s'.
  Proof.
    intros H Esl Er Ee Ef Ed Eev Ec Hrng (x & Hperm & Hx) Htasks Hrec Hunrun Hpend Hderr Hdrop Hnc.
    assert (forall i r, recorded s' i r <-> recorded s i r) as Hrr
        by (intros i [v|e]; cbn; rewrite ?Er, ?Ee; reflexivity).
    assert (forall i, In i (map tk_idx (open s')) -> In i (map tk_idx (open s))) as Hin.
    { intros i Hi. eapply Permutation_in; [apply Permutation_sym, Hperm|]. apply in_or_app. auto. }
    constructor.
    - rewrite Er, Esl. apply B_len_r, H.
    - rewrite Ee, Esl. apply B_len_e, H.
    - rewrite Esl. apply B_idx, H.
    - exact Hrng.
    - intros w tk Hw Htk. rewrite Esl. destruct (Htasks w tk Hw Htk) as [(w0 & Hw0 & Ht0)|Hp].
      + exact (B_open s H w0 tk Hw0 Ht0).
      + destruct (B_pend s H tk Hp) as [l El].
        assert (nth_error (a_slots s) (length l) = Some tk) as Hn.
        { rewrite El, nth_error_app2, Nat.sub_diag by lia. reflexivity. }
        destruct (B_idx s H _ _ Hn) as [-> _]. exact Hn.
    - intros tk Htk. rewrite Esl. apply (B_pend s H), Hpend, Htk.
    - pose proof (Permutation_NoDup Hperm (B_nodup s H)) as Hnd.
      clear - Hnd. induction x; [exact Hnd|]. inversion Hnd; auto.
    - intros i r Hr Hi. apply Hrr in Hr. exact (B_rec s H i r Hr (Hin i Hi)).
    - intros i H1 H2. rewrite Er in H1. rewrite Ee in H2.
      destruct (B_closed s H i H1 H2) as [Hi|[Hd|Hd]].
      + destruct Hx as [->|Hx]; [|right; exact Hx]. left.
        exact (Permutation_in _ Hperm Hi).
      + right. apply Hdrop, Hd.
      + right. right. rewrite Ed. exact Hd.
    - rewrite Ef, Ed, Ee. apply B_failed, H.
    - rewrite Ed. exact Hderr.
    - rewrite Eev, Esl, Ec. apply B_sound, H.
    - rewrite Eev. apply B_once, H.
    - intros i r Hr. apply Hrr in Hr. rewrite Eev. exact (B_from s H i r Hr).
    - intros w tk r Hw Hpc. rewrite Eev.
      destruct (proj1 (Hrec tk r)) as (w0 & Hw0 & Hpc0); [eauto|]. exact (B_recing s H w0 tk r Hw0 Hpc0).
    - intros tk r Hin'. rewrite Eev in Hin'. destruct (B_fate s H tk r Hin') as [Hr|Hr].
      + left. apply Hrr, Hr.
      + right. apply Hrec, Hr.
    - intros tk Htk. rewrite Eev. apply (B_fresh s H), Hunrun, Htk.
    - exact Hnc.
  Qed.

  (** The frame lemma when the workers do not move. *)
  Lemma invB_main s s' :
    invB s ->
    a_slots s' = a_slots s -> a_results s' = a_results s -> a_errors s' = a_errors s ->
    a_failed s' = a_failed s -> a_derr s' = a_derr s -> a_evals s' = a_evals s ->
    a_call s' = a_call s -> a_workers s' = a_workers s ->
    range_ok s' ->
    m_pend (a_main s') = m_pend (a_main s) ->
    (a_derr s <> None -> a_main s' = MWait \/ a_main s' = MSleepW \/ exists o, a_main s' = MIdle o) ->
    ((exists e, a_main s = MRecord e) -> dropped s') ->
    invB s'.
  Proof.
    intros H E1 E2 E3 E4 E5 E6 E7 E8 Hr Hp Hd Hdr.
    apply (invB_frame s s'); auto.
    - exists []. split; [|auto]. unfold open. rewrite Hp, E8. reflexivity.
    - intros w tk Hw Htk. left. rewrite E8 in Hw. eauto.
    - intros tk r. rewrite E8. reflexivity.
    - unfold unrun. rewrite Hp, E8. apply incl_refl.
    - rewrite Hp. auto.
    - rewrite E8. apply B_nocrash, H.
  Qed.

  (** The frame lemma when worker [w] becomes [w'] keeping its unrecorded tasks. *)
  Lemma invB_worker s s' l1 w l2 w' :
    invB s ->
    a_slots s' = a_slots s -> a_results s' = a_results s -> a_errors s' = a_errors s ->
    a_failed s' = a_failed s -> a_derr s' = a_derr s -> a_evals s' = a_evals s ->
    a_call s' = a_call s -> a_b s' = a_b s -> a_start s' = a_start s ->
    a_workers s = l1 ++ w :: l2 -> a_workers s' = l1 ++ w' :: l2 ->
    (a_main s' = a_main s \/ a_main s' = wake_main (a_main s)) ->
    w_open w' = w_open w -> w_unrun w' = w_unrun w -> incl (w_tasks w') (w_tasks w) ->
    (forall tk r, w_pc w' = WRecord tk r <-> w_pc w = WRecord tk r) ->
    (forall tk, w_pc w' <> WCrash tk) ->
    invB s'.
  Proof.
    intros H E1 E2 E3 E4 E5 E6 E7 E8 E9 Ew Ew' Hm Ho Hu Ht Hrec Hnc.
    assert (m_pend (a_main s') = m_pend (a_main s)) as Hp.
    { destruct Hm as [->| ->]; [reflexivity|]. destruct (a_main s); reflexivity. }
    assert (forall f : worker R -> list task, f w' = f w ->
              flat_map f (a_workers s') = flat_map f (a_workers s)) as Hfm.
    { intros f Hf. rewrite Ew, Ew', !flat_map_app. cbn. rewrite Hf. reflexivity. }
    apply (invB_frame s s'); auto.
    - destruct (B_range s H) as [H0 (e & Ht1 & Ht2 & Ht3)]. split; [rewrite E8, E9; exact H0|].
      exists e. rewrite E1, E8. repeat split; auto. unfold end_of in *. rewrite E4, E9, E8.
      destruct Hm as [->| ->]; [exact Ht3|]. destruct (a_main s); exact Ht3.
    - exists []. split; [|auto]. unfold open. rewrite Hp, Hfm by exact Ho. reflexivity.
    - intros x tk Hx Htk. left. rewrite Ew' in Hx. apply in_app_or in Hx.
      destruct Hx as [Hx|[<-|Hx]].
      + exists x. split; [rewrite Ew; apply in_or_app; auto|exact Htk].
      + exists w. split; [rewrite Ew; apply in_or_app; right; left; reflexivity|apply Ht, Htk].
      + exists x. split; [rewrite Ew; apply in_or_app; right; right; exact Hx|exact Htk].
    - intros tk r. rewrite Ew, Ew'. split; intros (x & Hx & Hpc); apply in_app_or in Hx;
        destruct Hx as [Hx|[<-|Hx]].
      + exists x. split; [apply in_or_app; auto|exact Hpc].
      + exists w. split; [apply in_or_app; right; left; reflexivity|apply Hrec, Hpc].
      + exists x. split; [apply in_or_app; right; right; exact Hx|exact Hpc].
      + exists x. split; [apply in_or_app; auto|exact Hpc].
      + exists w'. split; [apply in_or_app; right; left; reflexivity|apply Hrec, Hpc].
      + exists x. split; [apply in_or_app; right; right; exact Hx|exact Hpc].
    - unfold unrun. rewrite Hp, Hfm by exact Hu. apply incl_refl.
    - rewrite Hp. auto.
    - intros Hd. destruct (B_derr s H Hd) as [E|[E|[o E]]]; destruct Hm as [Hm|Hm]; rewrite Hm, E; cbn; eauto.
    - intros [e E]. left. exists e. destruct Hm as [Hm|Hm]; rewrite Hm, E; reflexivity.
    - intros x tk Hx. rewrite Ew' in Hx. apply in_app_or in Hx. destruct Hx as [Hx|[<-|Hx]].
      + apply (B_nocrash s H). rewrite Ew. apply in_or_app; auto.
      + apply Hnc.
      + apply (B_nocrash s H). rewrite Ew. apply in_or_app; right; right; exact Hx.
  Qed.

  Lemma step_invB s l s' : invA s -> invB s -> astep run s l s' -> invB s'.
  Proof.
    intros HA H Hs. pose proof (step_invA run tbl Hpool s l s' HA Hs) as HA'.
    inversion Hs as [? o b Em Hb|? ? Hm|? d n e Em|? tk e Em|? Em|? i ? Hw|? i w tk r Hi Hpc Hr|? i w Hi Hpc]; subst.
    - (* LCall *)
      pose proof (A_main _ _ HA) as Hc. unfold main_cap in Hc. rewrite Em in Hc.
      assert (forall w, In w (a_workers s) -> w_open w = [] /\ w_unrun w = []) as Hempty.
      { intros w Hw. specialize (Hc w Hw). unfold w_tasks, w_cur, w_open, w_unrun in *.
        destruct w as [d [| |t|t r|t| |t] q]; cbn in *; try discriminate; subst; auto. }
      assert (forall f : worker R -> list task, (forall w, In w (a_workers s) -> f w = []) ->
                flat_map f (a_workers s) = []) as Hfm.
      { intros f Hf. clear - Hf. induction (a_workers s) as [|w ws IH]; [reflexivity|].
        cbn. rewrite Hf by (left; reflexivity). apply IH. intros x Hx. apply Hf. right. exact Hx. }
      constructor; unfold open, unrun; cbn [new_call a_slots a_results a_errors a_main a_workers
        a_failed a_derr a_evals a_call m_pend app].
      + reflexivity.
      + reflexivity.
      + intros [|i] tk Hn; discriminate.
      + split; [cbn; lia|]. exists 0. cbn. repeat split; [apply tiles_nil|lia].
      + intros w tk Hw Htk. rewrite (Hc w Hw) in Htk. destruct Htk.
      + intros tk [].
      + rewrite Hfm by (intros w Hw; apply Hempty, Hw). apply NoDup_nil.
      + intros i r Hr. destruct r, i; discriminate.
      + intros [|i] Hn; discriminate.
      + split; [discriminate|]. intros [Hd|([|i] & e & Hn)]; [congruence|discriminate|discriminate].
      + congruence.
      + intros tk r [].
      + apply NoDup_nil.
      + intros i r Hr. destruct r, i; discriminate.
      + intros w tk r Hw Hpc. specialize (Hc w Hw). unfold w_tasks, w_cur in Hc. rewrite Hpc in Hc.
        discriminate.
      + intros tk r [].
      + rewrite Hfm by (intros w Hw; apply Hempty, Hw). intros tk [].
      + apply B_nocrash, H.
    - (* LMain *)
      unfold main_step in Hm. pose proof (A_main _ _ HA) as Hc. unfold main_cap in Hc.
      pose proof (B_range s H) as [H0 (e0 & Ht1 & Ht2 & Ht3)]. unfold end_of in Ht3.
      destruct (a_main s) as [o| | | |d n|d n|tk|tk|tk|tk e|e| |] eqn:Em; try discriminate;
        injection Hm as <-.
      + (* MLoop *)
        apply (invB_main s); try reflexivity; [exact H| | | |].
        * split; [exact H0|]. exists e0. split; [exact Ht1|]. split; [exact Ht2|].
          unfold end_of. cbn. destruct (Z.ltb_spec (a_start s) (a_b s));
            [destruct (a_failed s)|]; auto. right. lia.
        * rewrite Em. cbn. destruct (_ <? _); [destruct (a_failed s)|]; reflexivity.
        * intros Hd. pose proof (B_derr s H Hd) as Hx. rewrite Em in Hx.
          destruct Hx as [E|[E|[o E]]]; discriminate.
        * intros [e E]. congruence.
      + (* MSched *)
        apply (invB_main s); try reflexivity; [exact H| | | |].
        * split; [exact H0|]. exists e0. split; [exact Ht1|]. split; [exact Ht2|].
          unfold end_of. cbn. destruct (schedule_work_impl (a_tbl s)) as [[d n]|]; exact Ht3.
        * rewrite Em. cbn. destruct (schedule_work_impl (a_tbl s)) as [[d n]|]; reflexivity.
        * intros Hd. pose proof (B_derr s H Hd) as Hx. rewrite Em in Hx.
          destruct Hx as [E|[E|[o E]]]; discriminate.
        * intros [e E]. congruence.
      + (* MCheck2 *)
        apply (invB_main s); try reflexivity; [exact H| | | |].
        * split; [exact H0|]. exists e0. split; [exact Ht1|]. split; [exact Ht2|].
          unfold end_of. cbn. destruct (a_failed s); auto.
        * rewrite Em. cbn. destruct (a_failed s); reflexivity.
        * intros Hd. pose proof (B_derr s H Hd) as Hx. rewrite Em in Hx.
          destruct Hx as [E|[E|[o E]]]; discriminate.
        * intros [e E]. congruence.
      + (* MReserve *)
        set (tk := mkTask d (a_start s) (Z.min (to_int64 n) (a_b s - a_start s)) (length (a_results s))) in *.
        pose proof (A_main _ _ HA') as Hc'. unfold main_cap in Hc'. cbn [reserve a_main] in Hc'.
        destruct Hc' as (t & Hin & Hd & Hcnt & Hld).
        assert (fits tbl tk) as Hfit by (exists t; auto).
        assert (forall x, nth_error (a_results s ++ [None]) x = Some None ->
                  nth_error (a_results s) x = Some None \/ x = length (a_slots s)) as Hlast_r.
        { intros x Hx. destruct (lt_dec x (length (a_results s))) as [Hlt|Hge].
          - rewrite nth_error_app1 in Hx by exact Hlt. auto.
          - right. rewrite nth_error_app2 in Hx by lia. rewrite <- (B_len_r s H).
            destruct (x - length (a_results s))%nat as [|k] eqn:Ek; [lia|]. destruct k; discriminate. }
        assert (forall (A : Type) (l : list (option A)) x v,
                  nth_error (l ++ [None]) x = Some (Some v) <-> nth_error l x = Some (Some v)) as Hsome.
        { intros A l x v. destruct (lt_dec x (length l)) as [Hlt|Hge].
          - rewrite nth_error_app1 by exact Hlt. reflexivity.
          - rewrite nth_error_app2 by lia. rewrite (proj2 (nth_error_None l x)) by lia.
            split; intros Hx; [|discriminate].
            destruct (x - length l)%nat as [|k]; [discriminate|destruct k; discriminate]. }
        assert (forall i r, recorded (reserve s tk) i r <-> recorded s i r) as Hrr
            by (intros i [v|e]; cbn [recorded reserve a_results a_errors]; apply Hsome).
        assert (forall x, In x (flat_map w_open (a_workers s)) ->
                  (tk_idx x < length (a_slots s))%nat) as Hlt.
        { intros x Hx. apply in_flat_map in Hx as (w & Hw & Hx).
          apply nth_error_Some.
          rewrite (B_open s H w x Hw); [discriminate|].
          unfold w_tasks, w_cur, w_open in *. destruct (w_pc w); cbn in *; auto. }
        assert (forall x, In x (flat_map w_unrun (a_workers s)) ->
                  (tk_idx x < length (a_slots s))%nat) as Hltu.
        { intros x Hx. apply Hlt. apply in_flat_map in Hx as (w & Hw & Hx).
          apply in_flat_map. exists w. split; [exact Hw|].
          unfold w_unrun, w_open in *. destruct (w_pc w); cbn in *; auto. }
        assert (tk_idx tk = length (a_slots s)) as Htki by (cbn; apply (B_len_r s H)).
        constructor.
        * cbn [reserve a_results a_slots]. rewrite !app_length, (B_len_r s H). reflexivity.
        * cbn [reserve a_errors a_slots]. rewrite !app_length, (B_len_e s H). reflexivity.
        * cbn [reserve a_slots]. intros i x Hx.
          destruct (lt_dec i (length (a_slots s))) as [Hi|Hi].
          -- rewrite nth_error_app1 in Hx by exact Hi. apply (B_idx s H _ _ Hx).
          -- rewrite nth_error_app2 in Hx by lia.
             destruct (i - length (a_slots s))%nat as [|k] eqn:Ek; [|destruct k; discriminate].
             injection Hx as <-. split; [lia|exact Hfit].
        * split; [exact H0|]. exists (e0 + tk_count tk). cbn [reserve a_slots a_b].
          rewrite map_app. split; [|split].
          -- cbn [map]. replace (rng tk) with (e0, tk_count tk) by (unfold rng; cbn; rewrite Ht3; reflexivity).
             apply tiles_snoc; [exact Ht1|lia].
          -- cbn. lia.
          -- cbn. rewrite Ht3. reflexivity.
        * cbn [reserve a_workers a_slots]. intros w x Hw Hx.
          pose proof (B_open s H w x Hw Hx) as Hn.
          rewrite nth_error_app1; [exact Hn|]. apply nth_error_Some. rewrite Hn. discriminate.
        * cbn. intros x [<-|[]]. exists (a_slots s). reflexivity.
        * unfold open. cbn [reserve a_main a_workers m_pend app map]. apply NoDup_cons.
          -- intros Hx. apply in_map_iff in Hx as (x & Ex & Hx). specialize (Hlt x Hx). lia.
          -- pose proof (B_nodup s H) as Hnd. unfold open in Hnd. rewrite Em in Hnd. exact Hnd.
        * intros i r Hr. unfold open. cbn [reserve a_main a_workers m_pend app map].
          apply Hrr in Hr. intros [Hx|Hx].
          -- assert (i < length (a_slots s))%nat; [|lia].
             destruct r; cbn in Hr; [rewrite <- (B_len_r s H)|rewrite <- (B_len_e s H)];
               apply nth_error_Some; congruence.
          -- apply (B_rec s H i r Hr). unfold open. rewrite Em. exact Hx.
        * intros i Hi1 Hi2. cbn [reserve a_results a_errors] in Hi1, Hi2. left. unfold open.
          cbn [reserve a_main a_workers m_pend app map].
          destruct (Hlast_r i Hi1) as [Hi|Hi]; [|left; lia]. right.
          assert (nth_error (a_errors s) i = Some None) as Hi'.
          { rewrite nth_error_app1 in Hi2; [exact Hi2|]. rewrite (B_len_e s H), <- (B_len_r s H).
            apply nth_error_Some. congruence. }
          destruct (B_closed s H i Hi Hi') as [Ho|[[e E]|Hd']].
          -- unfold open in Ho. rewrite Em in Ho. exact Ho.
          -- congruence.
          -- pose proof (B_derr s H Hd') as Hx. rewrite Em in Hx.
             destruct Hx as [E|[E|[o E]]]; discriminate.
        * cbn [reserve a_failed a_derr a_errors]. rewrite (B_failed s H).
          split; (intros [Hx|(i & e & Hx)]; [left; exact Hx|right; exists i, e; apply Hsome; exact Hx]).
        * cbn [reserve a_derr]. intros Hd'. pose proof (B_derr s H Hd') as Hx. rewrite Em in Hx.
          destruct Hx as [E|[E|[o E]]]; discriminate.
        * cbn [reserve a_evals a_slots a_call]. intros x r Hx. destruct (B_sound s H x r Hx) as [Hn Hrun].
          split; [|exact Hrun]. rewrite nth_error_app1; [exact Hn|]. apply nth_error_Some. congruence.
        * apply (B_once s H).
        * intros i r Hr. apply Hrr in Hr. exact (B_from s H i r Hr).
        * apply (B_recing s H).
        * intros x r Hx. destruct (B_fate s H x r Hx) as [Hr|Hr]; [left; apply Hrr, Hr|right; exact Hr].
        * intros x Hx. unfold unrun in Hx. cbn [reserve a_main a_workers m_pend app] in Hx.
          cbn [reserve a_evals]. destruct Hx as [<-|Hx].
          -- intros Hin'. apply in_map_iff in Hin' as ([y r] & Ey & Hy). cbn [fst] in Ey.
             destruct (B_sound s H y r Hy) as [Hn _].
             assert (tk_idx y < length (a_slots s))%nat by (apply nth_error_Some; congruence).
             lia.
          -- apply (B_fresh s H). unfold unrun. rewrite Em. exact Hx.
        * apply (B_nocrash s H).
      + (* MDispatch *)
        destruct (dispatched_work_impl _ _ _) as [t|e] eqn:Edisp.
        * apply (invB_main s); try reflexivity; [exact H| | | |].
          -- split; [exact H0|]. exists e0. auto.
          -- rewrite Em. reflexivity.
          -- intros Hd. pose proof (B_derr s H Hd) as Hx. rewrite Em in Hx.
             destruct Hx as [E|[E|[o E]]]; discriminate.
          -- intros [e E]. congruence.
        * exfalso. destruct Hc as (t & Hin & Hd & Hcnt & Hl).
          rewrite dispatched_ok in Edisp; [discriminate|apply (cur_nodup tbl Hpool s HA)|].
          rewrite (cur_devs tbl s HA), <- Hd. apply in_map, Hin.
      + (* MEnq *)
        assert (In (tk_dev tk) (map w_dev (a_workers s))) as Hdin.
        { rewrite (A_devs _ _ HA). apply fits_dev, Hc. }
        destruct (push_spec tk (a_workers s) Hdin) as (l1 & w & l2 & Ew & Hwd & Epush).
        rewrite Epush.
        assert (forall f g : worker R -> list task,
                  f = (fun w => g w ++ w_queue w) ->
                  (forall d p q q', g (mkWorker d p q) = g (mkWorker d p q')) ->
                  Permutation (tk :: flat_map f (a_workers s))
                    (flat_map f (l1 ++ mkWorker (w_dev w) (w_pc w) (w_queue w ++ [tk]) :: l2))) as Hpm.
        { intros f g -> Hg. rewrite Ew, !flat_map_app. cbn [flat_map w_queue].
          rewrite (Hg (w_dev w) (w_pc w) _ (w_queue w)).
          replace (mkWorker (w_dev w) (w_pc w) (w_queue w)) with w by (destruct w; reflexivity).
          rewrite <- !app_assoc. cbn [app].
          set (a := flat_map _ l1). set (c := flat_map _ l2). set (q := w_queue w).
          rewrite !app_assoc. apply Permutation_middle. }
        apply (invB_frame s); try reflexivity; [exact H| | | | | | | | |].
        * split; [exact H0|]. exists e0. auto.
        * exists []. split; [|auto]. cbn [app]. apply Permutation_map. unfold open. rewrite Em.
          cbn [with_main with_workers a_main a_workers m_pend app].
          apply (Hpm w_open (fun w => match w_pc w with WRun tk | WRecord tk _ => [tk] | _ => [] end));
            reflexivity.
        * cbn [with_main with_workers a_workers]. intros x y Hx Hy. rewrite Em.
          apply in_app_or in Hx. destruct Hx as [Hx|[<-|Hx]].
          -- left. exists x. split; [rewrite Ew; apply in_or_app; auto|exact Hy].
          -- unfold w_tasks in Hy. cbn [w_queue w_cur w_pc] in Hy. rewrite app_assoc in Hy.
             apply in_app_or in Hy. destruct Hy as [Hy|Hy]; [|right; exact Hy].
             left. exists w. split; [rewrite Ew; apply in_or_app; right; left; reflexivity|exact Hy].
          -- left. exists x. split; [rewrite Ew; apply in_or_app; right; right; exact Hx|exact Hy].
        * cbn [with_main with_workers a_workers]. intros y r. rewrite Ew.
          split; intros (x & Hx & Hpc); apply in_app_or in Hx; destruct Hx as [Hx|[<-|Hx]].
          -- exists x. split; [apply in_or_app; auto|exact Hpc].
          -- exists w. split; [apply in_or_app; right; left; reflexivity|exact Hpc].
          -- exists x. split; [apply in_or_app; right; right; exact Hx|exact Hpc].
          -- exists x. split; [apply in_or_app; auto|exact Hpc].
          -- eexists. split; [apply in_or_app; right; left; reflexivity|exact Hpc].
          -- exists x. split; [apply in_or_app; right; right; exact Hx|exact Hpc].
        * unfold unrun. rewrite Em. cbn [with_main with_workers a_main a_workers m_pend app].
          intros x Hx. eapply Permutation_in; [|exact Hx]. apply Permutation_sym.
          apply (Hpm w_unrun (fun w => match w_pc w with WRun tk => [tk] | _ => [] end)); reflexivity.
        * intros x [].
        * intros Hd. pose proof (B_derr s H Hd) as Hx. rewrite Em in Hx.
          destruct Hx as [E|[E|[o E]]]; discriminate.
        * intros [e E]. congruence.
        * cbn [with_main with_workers a_workers]. intros x y Hx. apply in_app_or in Hx.
          destruct Hx as [Hx|[<-|Hx]].
          -- apply (B_nocrash s H). rewrite Ew. apply in_or_app; auto.
          -- cbn. apply (B_nocrash s H). rewrite Ew. apply in_or_app; right; left; reflexivity.
          -- apply (B_nocrash s H). rewrite Ew. apply in_or_app; right; right; exact Hx.
      + (* MENotify *)
        assert (forall f : worker R -> list task, (forall w, f (wake_worker w) = f w) ->
                  flat_map f (map wake_worker (a_workers s)) = flat_map f (a_workers s)) as Hfm.
        { intros f Hf. generalize (a_workers s). induction l as [|w ws IH]; [reflexivity|].
          cbn. rewrite Hf, IH. reflexivity. }
        apply (invB_frame s); try reflexivity; [exact H| | | | | | | | |].
        * unfold range_ok, end_of. cbn. split; [|exists e0; auto].
          apply fits_small in Hc; [|exact Hpool]. unfold small in Hc. cbn in Ht3. lia.
        * exists []. split; [|auto]. unfold open. rewrite Em. cbn [advance with_workers a_main a_workers m_pend app].
          rewrite Hfm by apply wake_worker_open. reflexivity.
        * cbn [advance with_workers a_workers]. intros x y Hx Hy. left.
          apply in_map_iff in Hx as (w & <- & Hw). rewrite wake_worker_tasks in Hy. eauto.
        * cbn [advance with_workers a_workers]. intros y r. split; intros (x & Hx & Hpc).
          -- apply in_map_iff in Hx as (w & <- & Hw). exists w. split; [exact Hw|].
             unfold wake_worker in Hpc. destruct w as [d [] q]; cbn in *; congruence.
          -- exists (wake_worker x). split; [apply in_map, Hx|].
             unfold wake_worker. destruct x as [d [] q]; cbn in *; congruence.
        * unfold unrun. rewrite Em. cbn [advance with_workers a_main a_workers m_pend app].
          rewrite Hfm; [apply incl_refl|]. intros w. unfold wake_worker, w_unrun.
          destruct w as [d [] q]; reflexivity.
        * intros x [].
        * intros Hd. pose proof (B_derr s H Hd) as Hx. rewrite Em in Hx.
          destruct Hx as [E|[E|[o E]]]; discriminate.
        * intros [e E]. congruence.
        * cbn [advance with_workers a_workers]. intros x y Hx. apply in_map_iff in Hx as (w & <- & Hw).
          pose proof (B_nocrash s H w y Hw) as Hn. unfold wake_worker.
          destruct w as [d [] q]; cbn in *; congruence.
      + (* MRollback *)
        assert (exists t e', match completed_work_impl (a_tbl s) (tk_dev tk) (to_size (tk_count tk)) with
              | Ok t => with_main (with_tbl s t) (MRecord e)
              | Err e' => with_main s (MRecord e')
              end = with_main (with_tbl s t) (MRecord e')) as (t & e' & ->).
        { destruct (completed_work_impl _ _ _) as [t|e']; [eauto|].
          exists (a_tbl s), e'. destruct s; reflexivity. }
        apply (invB_frame s); try reflexivity; [exact H| | | | | | | |].
        * split; [exact H0|]. exists e0. unfold end_of. cbn. auto.
        * exists [tk_idx tk]. split; [|right; left; eexists; reflexivity].
          unfold open. rewrite Em. reflexivity.
        * intros w x Hw Hx. left. eauto.
        * unfold unrun. rewrite Em. cbn [with_main with_tbl a_main a_workers m_pend app].
          apply incl_tl, incl_refl.
        * intros x [].
        * intros Hd. pose proof (B_derr s H Hd) as Hx. rewrite Em in Hx.
          destruct Hx as [E|[E|[o E]]]; discriminate.
        * intros [e1 E]. congruence.
        * apply (B_nocrash s H).
      + (* MRecord *)
        assert (a_derr s = None) as Ed.
        { destruct (a_derr s) eqn:Ed; [|reflexivity].
          assert (a_derr s <> None) as Hd by congruence.
          pose proof (B_derr s H Hd) as Hx. rewrite Em in Hx.
          destruct Hx as [E|[E|[o E]]]; discriminate. }
        destruct H as [h1 h2 h3 h4 h5 h6 h7 h8 h9 h10 h11 h12 h13 h14 h15 h16 h17 h18].
        unfold open, unrun in *. rewrite Em in *.
        constructor; unfold open, unrun;
          cbn [record_dispatch_error a_slots a_results a_errors a_main a_workers
               a_failed a_derr a_evals a_call m_pend app] in *; auto.
        * split; [exact H0|]. exists e0. unfold end_of. cbn. auto.
        * intros i Hi1 Hi2. right. right. cbn. rewrite Ed. discriminate.
        * rewrite Ed. split; [intros _; left; discriminate|reflexivity].
      + (* MWait *)
        apply (invB_main s); try reflexivity; [exact H| | | |].
        * split; [exact H0|]. exists e0. split; [exact Ht1|]. split; [exact Ht2|].
          unfold end_of. cbn. destruct (all_work_completed (a_tbl s)); exact Ht3.
        * rewrite Em. cbn. destruct (all_work_completed (a_tbl s)); reflexivity.
        * intros _. cbn. destruct (all_work_completed (a_tbl s)); eauto.
        * intros [e E]. congruence.
    - (* LReserveFail *)
      pose proof (B_range s H) as [H0 (e0 & Ht1 & Ht2 & Ht3)].
      apply (invB_main s); try reflexivity; [exact H| | | |].
      * split; [exact H0|]. exists e0. unfold end_of. cbn. auto.
      * rewrite Em. reflexivity.
      * intros Hd. pose proof (B_derr s H Hd) as Hx. rewrite Em in Hx.
        destruct Hx as [E|[E|[o E]]]; discriminate.
      * intros [e1 E]. congruence.
    - (* LEnqFail *)
      pose proof (B_range s H) as [H0 (e0 & Ht1 & Ht2 & Ht3)]. unfold end_of in Ht3. rewrite Em in Ht3.
      apply (invB_main s); try reflexivity; [exact H| | | |].
      * split; [exact H0|]. exists e0. unfold end_of. cbn. auto.
      * rewrite Em. reflexivity.
      * intros Hd. pose proof (B_derr s H Hd) as Hx. rewrite Em in Hx.
        destruct Hx as [E|[E|[o E]]]; discriminate.
      * intros [e1 E]. congruence.
    - (* LSpurMain *)
      pose proof (B_range s H) as [H0 (e0 & Ht1 & Ht2 & Ht3)]. unfold end_of in Ht3.
      apply (invB_main s); try reflexivity; [exact H| | | |].
      * split; [exact H0|]. exists e0. unfold end_of. cbn.
        destruct Em as [Em|Em]; rewrite Em in *; cbn; auto.
      * cbn. destruct Em as [Em|Em]; rewrite Em; reflexivity.
      * intros Hd. pose proof (B_derr s H Hd) as Hx. cbn.
        destruct Em as [Em|Em]; rewrite Em in *; cbn; auto.
        destruct Hx as [E|[E|[o E]]]; discriminate.
      * intros [e1 E]. destruct Em; congruence.
    - (* LWorker *)
      unfold worker_step in Hw. destruct (nth_error (a_workers s) i) as [w|] eqn:Ei; [|discriminate].
      destruct (nth_split_set _ _ _ Ei) as (l1 & l2 & Ew & _ & Hset).
      destruct w as [d pc q]. cbn [w_pc w_queue w_dev] in *.
      assert (In (mkWorker d pc q) (a_workers s)) as Hwin by (eapply nth_error_In; exact Ei).
      destruct pc as [| |tk|tk r|tk| |]; try discriminate.
      + (* WIdle *)
        injection Hw as <-.
        eapply (invB_worker s _ l1 _ l2);
          [exact H|reflexivity|reflexivity|reflexivity|reflexivity|reflexivity|reflexivity|reflexivity|reflexivity|reflexivity|exact Ew|apply Hset|left; reflexivity| | | | |].
        * destruct q; reflexivity.
        * destruct q; reflexivity.
        * destruct q; apply incl_refl.
        * intros x r. destruct q; cbn; split; discriminate.
        * intros x. destruct q; cbn; discriminate.
      + (* WRecord *)
        assert (nth_error (a_slots s) (tk_idx tk) = Some tk) as Hslot.
        { apply (B_open s H _ _ Hwin). left. reflexivity. }
        assert (tk_idx tk < length (a_slots s))%nat as Hlt by (apply nth_error_Some; congruence).
        rewrite (B_len_r s H), (B_len_e s H) in Hw.
        destruct (Nat.ltb_spec (tk_idx tk) (length (a_slots s))); [|lia]. cbn [andb] in Hw.
        assert (In (tk, r) (a_evals s)) as Hev by (apply (B_recing s H _ _ _ Hwin); reflexivity).
        set (s1 := match r with Ok v => store_result s (tk_idx tk) v
                           | Err e => store_error s (tk_idx tk) e end) in *.
        injection Hw as <-.
        assert (a_slots s1 = a_slots s /\ a_main s1 = a_main s /\ a_workers s1 = a_workers s /\
                a_derr s1 = a_derr s /\ a_evals s1 = a_evals s /\ a_call s1 = a_call s /\
                a_b s1 = a_b s /\ a_start s1 = a_start s /\
                length (a_results s1) = length (a_results s) /\
                length (a_errors s1) = length (a_errors s))
          as (F1 & F2 & F3 & F4 & F5 & F6 & F7 & F8 & F9 & F10).
        { unfold s1. destruct r; cbn; rewrite ?set_nth_length; repeat split. }
        set (w' := mkWorker d (WDone tk) q) in *.
        assert (Permutation (open s) (tk :: open (set_worker s1 i w'))) as Hperm.
        { unfold open. cbn [set_worker with_workers a_main a_workers]. rewrite F2, F3, Hset, Ew.
          rewrite !flat_map_app. cbn [flat_map]. change (w_open w') with q. change (w_open (mkWorker d (WRecord tk r) q)) with (tk :: q).
          cbn [app]. rewrite <- !Permutation_middle. reflexivity. }
        assert (forall j r', recorded (set_worker s1 i w') j r' <->
                  (j = tk_idx tk /\ r' = r) \/ (recorded s j r')) as Hrr.
        { assert (~ In (tk_idx tk) (map tk_idx (open s)) -> False) as Hopen.
          { intros Hn. apply Hn. apply in_map. unfold open. apply in_or_app. right.
            apply in_flat_map. eexists. split; [exact Hwin|]. left. reflexivity. }
          intros j r'. unfold s1. destruct r as [v|e]; destruct r' as [v'|e'];
            cbn [recorded set_worker with_workers a_results a_errors store_result store_error].
          - rewrite nth_error_set_nth by (rewrite (B_len_r s H); exact Hlt).
            destruct (Nat.eqb_spec (tk_idx tk) j) as [<-|Hne].
            + split; [intros E; injection E as <-; auto|]. intros [[_ E]|E]; [congruence|].
              exfalso. apply Hopen. exact (B_rec s H (tk_idx tk) (Ok v') E).
            + split; [auto|]. intros [[E _]|E]; [congruence|exact E].
          - split; [auto|]. intros [[_ E]|E]; [discriminate|exact E].
          - split; [auto|]. intros [[_ E]|E]; [discriminate|exact E].
          - rewrite nth_error_set_nth by (rewrite (B_len_e s H); exact Hlt).
            destruct (Nat.eqb_spec (tk_idx tk) j) as [<-|Hne].
            + split; [intros E; injection E as <-; auto|]. intros [[_ E]|E]; [congruence|].
              exfalso. apply Hopen. exact (B_rec s H (tk_idx tk) (Err e') E).
            + split; [auto|]. intros [[E _]|E]; [congruence|exact E]. }
        assert (NoDup (map tk_idx (tk :: open (set_worker s1 i w')))) as Hnd.
        { eapply Permutation_NoDup; [apply Permutation_map, Hperm|apply (B_nodup s H)]. }
        cbn [map] in Hnd. inversion Hnd as [|? ? Hni Hnd']; subst.
        constructor.
        * cbn. rewrite F9, F1. apply B_len_r, H.
        * cbn. rewrite F10, F1. apply B_len_e, H.
        * cbn. rewrite F1. apply B_idx, H.
        * destruct (B_range s H) as [Hz0 (e0 & Ht1 & Ht2 & Ht3)]. split; [cbn; rewrite F7, F8; exact Hz0|].
          exists e0. cbn [set_worker with_workers a_slots a_b]. rewrite F1, F7.
          split; [exact Ht1|]. split; [exact Ht2|]. unfold end_of in *.
          cbn [set_worker with_workers a_main a_start a_b a_failed]. rewrite F2, F7, F8.
          destruct (a_main s); auto; destruct Ht3 as [Ht3|Ht3]; auto; left;
            unfold s1; destruct r; cbn; auto.
        * cbn [set_worker with_workers a_workers a_slots]. rewrite F3, F1, Hset. intros x y Hx Hy.
          apply in_app_or in Hx. destruct Hx as [Hx|[<-|Hx]].
          -- apply (B_open s H x y); [rewrite Ew; apply in_or_app; auto|exact Hy].
          -- apply (B_open s H _ y Hwin). exact Hy.
          -- apply (B_open s H x y); [rewrite Ew; apply in_or_app; right; right; exact Hx|exact Hy].
        * cbn [set_worker with_workers a_main a_slots]. rewrite F1, F2. apply B_pend, H.
        * exact Hnd'.
        * intros j r' Hr. apply Hrr in Hr. destruct Hr as [[-> ->]|Hr]; [exact Hni|].
          intros Hj. apply (B_rec s H j r' Hr). eapply Permutation_in.
          -- apply Permutation_sym, Permutation_map, Hperm.
          -- right. exact Hj.
        * intros j Hj1 Hj2.
          assert (j <> tk_idx tk) as Hne.
          { intros ->. pose proof (proj2 (Hrr (tk_idx tk) r) (or_introl (conj eq_refl eq_refl))) as Hr.
            destruct r; cbn [recorded] in Hr; congruence. }
          assert (nth_error (a_results s) j = Some None /\ nth_error (a_errors s) j = Some None) as [K1 K2].
          { cbn [set_worker with_workers a_results a_errors] in Hj1, Hj2. unfold s1 in Hj1, Hj2.
            destruct r; cbn [store_result store_error a_results a_errors] in Hj1, Hj2.
            - rewrite nth_error_set_nth in Hj1 by (rewrite (B_len_r s H); exact Hlt).
              destruct (Nat.eqb_spec (tk_idx tk) j); [discriminate|auto].
            - rewrite nth_error_set_nth in Hj2 by (rewrite (B_len_e s H); exact Hlt).
              destruct (Nat.eqb_spec (tk_idx tk) j); [discriminate|auto]. }
          destruct (B_closed s H j K1 K2) as [Hj|Hj].
          -- left. apply (Permutation_in _ (Permutation_map tk_idx Hperm)) in Hj.
             destruct Hj as [Hj|Hj]; [congruence|exact Hj].
          -- right. unfold dropped in *. cbn [set_worker with_workers a_main a_derr]. rewrite F2, F4. exact Hj.
        * cbn [set_worker with_workers a_failed a_derr a_errors]. rewrite F4. unfold s1.
          destruct r as [v|e]; cbn [store_result store_error a_failed a_errors]; [apply (B_failed s H)|].
          split; [intros _|reflexivity]. right. exists (tk_idx tk), e.
          rewrite nth_error_set_nth by (rewrite (B_len_e s H); exact Hlt). rewrite Nat.eqb_refl. reflexivity.
        * cbn [set_worker with_workers a_main a_derr]. rewrite F2, F4. apply B_derr, H.
        * cbn [set_worker with_workers a_evals a_slots a_call]. rewrite F1, F5, F6. apply B_sound, H.
        * cbn [set_worker with_workers a_evals]. rewrite F5. apply B_once, H.
        * intros j r' Hr. cbn [set_worker with_workers a_evals]. rewrite F5. apply Hrr in Hr.
          destruct Hr as [[-> ->]|Hr]; [eauto|]. exact (B_from s H j r' Hr).
        * cbn [set_worker with_workers a_evals a_workers]. rewrite F5, F3, Hset. intros x y r' Hx Hpc.
          apply in_app_or in Hx. destruct Hx as [Hx|[<-|Hx]].
          -- apply (B_recing s H x); [rewrite Ew; apply in_or_app; auto|exact Hpc].
          -- discriminate.
          -- apply (B_recing s H x); [rewrite Ew; apply in_or_app; right; right; exact Hx|exact Hpc].
        * intros y r' Hy. cbn [set_worker with_workers a_evals] in Hy. rewrite F5 in Hy.
          destruct (B_fate s H y r' Hy) as [Hr|(x & Hx & Hpc)]; [left; apply Hrr; auto|].
          rewrite Ew in Hx. apply in_app_or in Hx. destruct Hx as [Hx|[<-|Hx]].
          -- right. exists x. cbn [set_worker with_workers a_workers]. rewrite F3, Hset.
             split; [apply in_or_app; auto|exact Hpc].
          -- left. cbn in Hpc. injection Hpc as <- <-. apply Hrr. auto.
          -- right. exists x. cbn [set_worker with_workers a_workers]. rewrite F3, Hset.
             split; [apply in_or_app; right; right; exact Hx|exact Hpc].
        * intros y Hy. cbn [set_worker with_workers a_evals]. rewrite F5. apply (B_fresh s H).
          unfold unrun in *. cbn [set_worker with_workers a_workers a_main] in Hy.
          rewrite F2, F3, Hset in Hy. rewrite Ew. rewrite !flat_map_app in *. exact Hy.
        * cbn [set_worker with_workers a_workers]. rewrite F3, Hset. intros x y Hx.
          apply in_app_or in Hx. destruct Hx as [Hx|[<-|Hx]].
          -- apply (B_nocrash s H). rewrite Ew. apply in_or_app; auto.
          -- discriminate.
          -- apply (B_nocrash s H). rewrite Ew. apply in_or_app; right; right; exact Hx.
      + (* WDone *)
        assert (In tk (w_tasks (mkWorker d (WDone tk) q : worker R))) as Htin by (left; reflexivity).
        destruct (A_tasks _ _ HA _ _ Hwin Htin) as [Hd Hsm]. cbn [w_dev] in Hd.
        assert (In (tk_dev tk) (devs tbl)) as Hdin.
        { unfold devs. rewrite <- (A_devs _ _ HA), Hd. apply (in_map w_dev _ _ Hwin). }
        rewrite (complete_ok tbl Hpool s tk HA Hdin Hsm (held_le run tbl Hpool s _ tk HA Hwin Htin)) in Hw.
        injection Hw as <-.
        eapply (invB_worker s _ l1 _ l2);
          [exact H|reflexivity|reflexivity|reflexivity|reflexivity|reflexivity|reflexivity|reflexivity|reflexivity|reflexivity|exact Ew|apply Hset|left; reflexivity| | | | |]; try reflexivity.
        * intros x Hx. right. exact Hx.
        * cbn. split; discriminate.
        * cbn. discriminate.
      + (* WNotify *)
        injection Hw as <-.
        eapply (invB_worker s _ l1 _ l2);
          [exact H|reflexivity|reflexivity|reflexivity|reflexivity|reflexivity|reflexivity|reflexivity|reflexivity|reflexivity|exact Ew|apply Hset|right; reflexivity| | | | |]; try reflexivity.
        * apply incl_refl.
        * cbn. split; discriminate.
        * cbn. discriminate.
    - (* LEval *)
      destruct (nth_split_set _ _ _ Hi) as (l1 & l2 & Ew & _ & Hset).
      assert (In w (a_workers s)) as Hwin by (eapply nth_error_In; exact Hi).
      assert (In tk (w_tasks w)) as Htin by (unfold w_tasks, w_cur; rewrite Hpc; left; reflexivity).
      pose proof (B_open s H w tk Hwin Htin) as Hslot.
      set (w' := mkWorker (w_dev w) (WRecord tk r) (w_queue w)).
      assert (w_open w' = w_open w) as Ho by (unfold w_open, w'; rewrite Hpc; reflexivity).
      assert (open (set_worker (with_evals s (a_evals s ++ [(tk, r)])) i w') = open s) as Hopen.
      { unfold open. cbn [set_worker with_workers with_evals a_main a_workers]. rewrite Hset, Ew.
        rewrite !flat_map_app. cbn [flat_map]. rewrite Ho. reflexivity. }
      assert (Permutation (unrun s) (tk :: unrun (set_worker (with_evals s (a_evals s ++ [(tk, r)])) i w'))) as Hun.
      { unfold unrun. cbn [set_worker with_workers with_evals a_main a_workers]. rewrite Hset, Ew.
        rewrite !flat_map_app. cbn [flat_map]. change (w_unrun w') with (w_queue w).
        replace (w_unrun w) with (tk :: w_queue w) by (unfold w_unrun; rewrite Hpc; reflexivity).
        cbn [app]. rewrite <- !Permutation_middle. reflexivity. }
      assert (In tk (unrun s)) as Htun by (eapply Permutation_in; [apply Permutation_sym, Hun|left; reflexivity]).
      assert (NoDup (map tk_idx (unrun s))) as Hndu.
      { assert (forall ws : list (worker R), exists x, Permutation (flat_map w_open ws) (x ++ flat_map w_unrun ws)) as Hsub.
        { induction ws as [|v ws [x IH]]; [exists []; reflexivity|].
          exists ((match w_pc v with WRecord t _ => [t] | _ => [] end) ++ x). cbn.
          assert (Permutation (w_open v) ((match w_pc v with WRecord t _ => [t] | _ => [] end) ++ w_unrun v)) as Hv.
          { unfold w_open, w_unrun. destruct (w_pc v); reflexivity. }
          rewrite Hv, IH. rewrite <- !app_assoc. apply Permutation_app_head.
          rewrite !app_assoc. apply Permutation_app_tail. apply Permutation_app_comm. }
        destruct (Hsub (a_workers s)) as [x Hx]. pose proof (B_nodup s H) as Hnd. unfold open in Hnd.
        assert (Permutation (m_pend (a_main s) ++ flat_map w_open (a_workers s)) (x ++ unrun s)) as Hp.
        { unfold unrun. rewrite Hx. rewrite !app_assoc. apply Permutation_app_tail, Permutation_app_comm. }
        apply (Permutation_map tk_idx) in Hp. apply (Permutation_NoDup Hp) in Hnd.
        rewrite map_app in Hnd. clear - Hnd. induction (map tk_idx x); [exact Hnd|]. inversion Hnd; auto. }
      pose proof (Permutation_NoDup (Permutation_map tk_idx Hun) Hndu) as Hnd2. cbn [map] in Hnd2.
      inversion Hnd2 as [|? ? Hni _]; subst.
      destruct H as [h1 h2 h3 h4 h5 h6 h7 h8 h9 h10 h11 h12 h13 h14 h15 h16 h17 h18].
      constructor; rewrite ?Hopen; cbn [set_worker with_workers with_evals a_slots a_results a_errors a_main a_workers
               a_failed a_derr a_evals a_call] in *; auto.
      + rewrite Hset. intros x y Hx Hy. apply in_app_or in Hx. destruct Hx as [Hx|[<-|Hx]].
        * apply (h5 x y); [rewrite Ew; apply in_or_app; auto|exact Hy].
        * apply (h5 w y Hwin). unfold w_tasks, w_cur in *. rewrite Hpc. exact Hy.
        * apply (h5 x y); [rewrite Ew; apply in_or_app; right; right; exact Hx|exact Hy].
      + intros x r' Hx. apply in_app_or in Hx. destruct Hx as [Hx|[Hx|[]]]; [exact (h12 x r' Hx)|].
        injection Hx as <- <-. auto.
      + rewrite map_app. cbn [map fst].
        apply (Permutation_NoDup (Permutation_app_comm [tk_idx tk] _)). cbn [app].
        apply NoDup_cons; [|exact h13]. exact (h17 tk Htun).
      + intros j r' Hr'. destruct (h14 j r' Hr') as (x & Hx & Ex). exists x.
        split; [apply in_or_app; auto|exact Ex].
      + rewrite Hset. intros x y r' Hx Hpc'. apply in_or_app. apply in_app_or in Hx.
        destruct Hx as [Hx|[<-|Hx]].
        * left. apply (h15 x); [rewrite Ew; apply in_or_app; auto|exact Hpc'].
        * right. left. cbn in Hpc'. congruence.
        * left. apply (h15 x); [rewrite Ew; apply in_or_app; right; right; exact Hx|exact Hpc'].
      + rewrite Hset. intros x r' Hx. apply in_app_or in Hx. destruct Hx as [Hx|[Hx|[]]].
        * destruct (h16 x r' Hx) as [Hr'|(v & Hv & Hpv)]; [left; exact Hr'|]. right.
          rewrite Ew in Hv. apply in_app_or in Hv. destruct Hv as [Hv|[<-|Hv]].
          -- exists v. split; [apply in_or_app; auto|exact Hpv].
          -- congruence.
          -- exists v. split; [apply in_or_app; right; right; exact Hv|exact Hpv].
        * injection Hx as <- <-. right. exists w'. split; [apply in_or_app; right; left; reflexivity|reflexivity].
      + intros x Hx. rewrite map_app. intros Hin. apply in_app_or in Hin.
        destruct Hin as [Hin|[Hin|[]]].
        * apply (h17 x); [|exact Hin]. eapply Permutation_in; [apply Permutation_sym, Hun|right; exact Hx].
        * cbn in Hin. apply Hni. rewrite Hin. apply in_map, Hx.
      + rewrite Hset. intros x y Hx. apply in_app_or in Hx. destruct Hx as [Hx|[<-|Hx]].
        * apply h18. rewrite Ew. apply in_or_app; auto.
        * discriminate.
        * apply h18. rewrite Ew. apply in_or_app; right; right; exact Hx.
    - (* LSpurWorker *)
      destruct (nth_split_set _ _ _ Hi) as (l1 & l2 & Ew & _ & Hset).
      eapply (invB_worker s _ l1 w l2 (wake_worker w));
          [exact H|reflexivity|reflexivity|reflexivity|reflexivity|reflexivity|reflexivity|reflexivity|reflexivity|reflexivity|exact Ew|apply Hset|left; reflexivity|apply wake_worker_open| | | |].
      + unfold wake_worker, w_unrun. rewrite Hpc. reflexivity.
      + rewrite wake_worker_tasks. apply incl_refl.
      + intros x r. unfold wake_worker. rewrite Hpc. cbn. split; discriminate.
      + intros x. unfold wake_worker. rewrite Hpc. cbn. discriminate.
  Qed.

  Lemma reach_invB s : areach run tbl s -> invB s.
  Proof.
    induction 1 as [|s l s' Hr IH Hs]; [exact init_invB|].
    eapply step_invB; eauto. eapply reach_invA; eauto.
  Qed.
End B.
