(** Several callers on one scheduler: exact accounting and the load bound. *)
From Coq Require Import SpecFloat.
From Verif Require Import Base Tensor Sched SpecSched Shared BaseProofs TensorProofs TableProofs.

Local Open Scope Z_scope.

Section Sums.
  Context {A : Type} (m : A -> Z).
  Definition sumz (l : list A) : Z := fold_right (fun x a => m x + a) 0 l.
  Lemma sumz_set_nth l : forall i x y, nth_error l i = Some y ->
    sumz (set_nth i x l) = sumz l - m y + m x.
  Proof.
    induction l as [|a l IH]; intros [|i] x y H; cbn in *; try discriminate.
    - injection H as ->. lia.
    - fold (sumz (set_nth i x l)). fold (sumz l). rewrite (IH i x y H). lia.
  Qed.
  Lemma sumz_remove_nth l : forall i y, nth_error l i = Some y ->
    sumz (remove_nth i l) = sumz l - m y.
  Proof.
    induction l as [|a l IH]; intros [|i] y H; cbn in *; try discriminate.
    - injection H as ->. lia.
    - fold (sumz (remove_nth i l)). fold (sumz l). rewrite (IH i y H). lia.
  Qed.
  Lemma sumz_nonneg l : (forall x, In x l -> 0 <= m x) -> 0 <= sumz l.
  Proof.
    induction l as [|a l IH]; intros H; cbn; [lia|]. fold (sumz l).
    assert (0 <= m a) by (apply H; left; reflexivity).
    assert (0 <= sumz l) by (apply IH; intros x Hx; apply H; right; exact Hx). lia.
  Qed.
  Lemma sumz_member l : (forall x, In x l -> 0 <= m x) -> forall x, In x l -> m x <= sumz l.
  Proof.
    induction l as [|a l IH]; intros H x Hx; cbn; [contradiction|]. fold (sumz l).
    assert (0 <= m a) by (apply H; left; reflexivity).
    assert (0 <= sumz l) by (apply sumz_nonneg; intros y Hy; apply H; right; exact Hy).
    destruct Hx as [->|Hx]; [lia|].
    assert (m x <= sumz l) by (apply IH; auto; intros y Hy; apply H; right; exact Hy). lia.
  Qed.
  Lemma sumz_upper l B : (forall x, In x l -> m x <= B) -> sumz l <= Z.of_nat (length l) * B.
  Proof.
    induction l as [|a l IH]; intros H; cbn [sumz fold_right length]; [lia|].
    assert (m a <= B) by (apply H; left; reflexivity).
    assert (sumz l <= Z.of_nat (length l) * B) by (apply IH; intros x Hx; apply H; right; exact Hx).
    unfold sumz in *. lia.
  Qed.
End Sums.

Lemma set_nth_length {A} (l : list A) : forall i x, length (set_nth i x l) = length l.
Proof. induction l; intros [|i] x; cbn; auto. Qed.
Lemma in_set_nth {A} (l : list A) : forall i x y, In y (set_nth i x l) -> y = x \/ In y l.
Proof.
  induction l as [|a l IH]; intros [|i] x y H; cbn in *; auto.
  - destruct H; auto.
  - destruct H as [H|H]; [auto|]. destruct (IH i x y H); auto.
Qed.
Lemma in_remove_nth {A} (l : list A) : forall i y, In y (remove_nth i l) -> In y l.
Proof.
  induction l as [|a l IH]; intros [|i] y H; cbn in *; auto.
  destruct H as [H|H]; auto. right. eapply IH; eauto.
Qed.

(** Rows of [c] in flight on [d]; whether it is about to dispatch there. *)
Definition held_on (d : device) (x : device * Z) : Z := if device_eqb (fst x) d then snd x else 0.
Definition c_rows (d : device) (c : caller) : Z := sumz (held_on d) (c_held c).
Definition c_waits (d : device) (c : caller) : Z :=
  match c_pend c with Some (d', _) => if device_eqb d' d then 1 else 0 | None => 0 end.

Record shared_inv (tbl : list dstatus) (k : nat) (s : shared) : Prop :=
  { si_static : map static (sh_tbl s) = map static tbl;
    si_len : length (sh_callers s) = k;
    si_load : forall d, load_of (sh_tbl s) d = sumz (c_rows d) (sh_callers s);
    si_held : forall c x, In c (sh_callers s) -> In x (c_held c) ->
              0 <= snd x /\ In (fst x) (devs tbl);
    si_pend : forall c d n, In c (sh_callers s) -> c_pend c = Some (d, n) ->
              exists t, In t tbl /\ ds_dev t = d /\ ds_batch t = n;
    si_bound : forall t, In t tbl ->
       load_of (sh_tbl s) (ds_dev t) + sumz (c_waits (ds_dev t)) (sh_callers s) * ds_batch t
       <= ds_cap t + (Z.of_nat k - 1) * ds_batch t }.

Lemma nodup_static tbl t : NoDup (devs tbl) -> map static t = map static tbl -> NoDup (devs t).
Proof. intros H E. rewrite (static_devs _ _ E). exact H. Qed.

Lemma shared_init_inv tbl k : idle_table tbl k -> shared_inv tbl k (shared_init tbl k).
Proof.
  intros [Hnd Ht]. rewrite Forall_forall in Ht.
  assert (forall d c, In c (repeat (mkCaller None []) k) -> c_rows d c = 0 /\ c_waits d c = 0) as Hc.
  { intros d c Hc. apply repeat_spec in Hc. subst. split; reflexivity. }
  assert (forall f, (forall c, In c (repeat (mkCaller None []) k) -> f c = 0) ->
            sumz f (repeat (mkCaller None []) k) = 0) as Hs.
  { clear. induction k as [|k IH]; intros f Hf; cbn in *; [reflexivity|].
    rewrite Hf by (left; reflexivity). fold (sumz f (repeat (mkCaller None []) k)).
    rewrite IH; [reflexivity|]. intros c H. apply Hf. right. exact H. }
  assert (forall d, load_of tbl d = 0) as Hl.
  { apply all_completed_iff; [exact Hnd|]. unfold all_work_completed. apply forallb_forall.
    intros t H. destruct (Ht t H) as (H0 & _). rewrite H0. reflexivity. }
  constructor; cbn [shared_init sh_tbl sh_callers].
  - reflexivity.
  - apply repeat_length.
  - intros d. rewrite Hl, Hs; [reflexivity|]. intros c H. apply Hc, H.
  - intros c x H. apply repeat_spec in H. subst c. intros [].
  - intros c d n H. apply repeat_spec in H. subst c. discriminate.
  - intros t Hin. rewrite Hl, Hs by (intros c H; apply Hc, H).
    destruct (Ht t Hin) as (_ & H1 & _). nia.
Qed.

Lemma c_waits_range d c : 0 <= c_waits d c <= 1.
Proof. unfold c_waits. destruct (c_pend c) as [[d' n]|]; [destruct (device_eqb d' d)|]; lia. Qed.

Lemma dev_unique tbl a b : NoDup (devs tbl) -> In a tbl -> In b tbl -> ds_dev a = ds_dev b -> a = b.
Proof.
  intros Hnd Ha Hb E. induction tbl as [|x tbl IH]; [contradiction|].
  cbn in Hnd. inversion Hnd as [|? ? Hni Hnd']; subst.
  destruct Ha as [->|Ha], Hb as [->|Hb]; auto.
  - exfalso. apply Hni. rewrite E. apply in_map, Hb.
  - exfalso. apply Hni. rewrite <- E. apply in_map, Ha.
Qed.

Lemma shared_step_inv tbl k s l : idle_table tbl k -> shared_inv tbl k s ->
  match shared_step s l with
  | Some (Ok s') => shared_inv tbl k s'
  | Some (Err _) => False
  | None => True
  end.
Proof.
  intros [Hnd Ht] [Hst Hlen Hload Hheld Hpend Hbound]. rewrite Forall_forall in Ht.
  pose proof (nodup_static _ _ Hnd Hst) as Hnd'. pose proof (static_devs _ _ Hst) as Hdev.
  assert (forall d, 0 <= load_of (sh_tbl s) d) as Hpos.
  { intros d. rewrite Hload. apply sumz_nonneg. intros c Hc. apply sumz_nonneg.
    intros x Hx. unfold held_on. destruct (device_eqb (fst x) d); [|lia]. apply (Hheld c x Hc Hx). }
  destruct l as [i|i cnt|i|i j]; cbn [shared_step].
  - destruct (nth_error (sh_callers s) i) as [[[?|] held]|] eqn:Ei; auto.
    destruct (schedule_work_impl (sh_tbl s)) as [[d n]|] eqn:Es; auto.
    pose proof (nth_error_In _ _ Ei) as Hin.
    destruct (schedule_some _ _ _ Es) as (t & Htin & Hd & Hn & Hroom).
    destruct (static_in _ _ _ Hst Htin) as (t0 & Ht0 & Hs0).
    assert (ds_dev t0 = d /\ ds_batch t0 = n /\ ds_cap t0 = ds_cap t) as (Ed & En & Ec).
    { unfold static in Hs0. injection Hs0 as E1 E2 E3 E4. repeat split; congruence. }
    constructor; cbn [sh_tbl sh_callers]; auto.
    + rewrite set_nth_length. exact Hlen.
    + intros d'. rewrite (sumz_set_nth _ _ _ _ _ Ei). rewrite Hload. unfold c_rows. cbn [c_held]. lia.
    + intros c x Hc. apply in_set_nth in Hc as [->|Hc]; [|eauto]. cbn [c_held]. intros Hx.
      exact (Hheld _ x Hin Hx).
    + intros c d' n' Hc. apply in_set_nth in Hc as [->|Hc]; [|eauto]. cbn [c_pend].
      intros E. injection E as <- <-. eauto.
    + intros t1 Ht1. rewrite (sumz_set_nth _ _ _ _ _ Ei).
      unfold c_waits at 2 3. cbn [c_pend].
      destruct (device_eqb d (ds_dev t1)) eqn:E.
      * apply device_eqb_eq in E.
        assert (t1 = t0) by (apply (dev_unique tbl); auto; congruence). subst t1.
        assert (sumz (c_waits (ds_dev t0)) (sh_callers s) <= Z.of_nat k - 1) as Hw.
        { assert (sumz (c_waits (ds_dev t0)) (set_nth i (mkCaller (Some (d, n)) held) (sh_callers s))
                  <= Z.of_nat k) as Hub.
          { rewrite <- Hlen. rewrite <- (set_nth_length _ i (mkCaller (Some (d, n)) held)).
            rewrite <- (Z.mul_1_r (Z.of_nat _)). apply sumz_upper. intros x _. apply c_waits_range. }
          rewrite (sumz_set_nth _ _ _ _ _ Ei) in Hub. unfold c_waits at 2 3 in Hub. cbn [c_pend] in Hub.
          assert (device_eqb d (ds_dev t0) = true) as E' by (apply device_eqb_eq; congruence).
          rewrite E' in Hub. lia. }
        unfold has_room, add64 in Hroom.
        rewrite <- (load_of_in _ _ Hnd' Htin), Hd in Hroom.
        destruct (Ht t0 Ht0) as (_ & Hbc & Hsmall).
        pose proof (Hbound t0 Ht0) as Hb0. specialize (Hpos d).
        rewrite <- E in Hb0 |- *.
        assert (0 <= sumz (c_waits d) (sh_callers s)) as Hw0.
        { apply sumz_nonneg. intros x _. apply c_waits_range. }
        rewrite <- E in Hw.
        rewrite Z.mod_small in Hroom by nia. nia.
      * specialize (Hbound t1 Ht1). lia.
  - destruct (nth_error (sh_callers s) i) as [[[[d n]|] held]|] eqn:Ei; auto.
    destruct ((0 <=? cnt) && (cnt <=? n)) eqn:Ec; auto.
    apply andb_prop in Ec as [Ec1 Ec2]. apply Z.leb_le in Ec1, Ec2.
    pose proof (nth_error_In _ _ Ei) as Hin.
    destruct (Hpend _ _ _ Hin eq_refl) as (t & Htin & Hd & Hn).
    assert (In d (devs tbl)) as Hdin. { rewrite <- Hd. apply in_map, Htin. }
    rewrite dispatched_ok; [|exact Hnd'|rewrite Hdev; exact Hdin]. cbn [bind].
    assert (add64 (load_of (sh_tbl s) d) cnt = load_of (sh_tbl s) d + cnt) as Eadd.
    { unfold add64. apply Z.mod_small. split; [specialize (Hpos d); lia|].
      pose proof (Hbound t Htin) as Hb. destruct (Ht t Htin) as (_ & Hbc & Hsmall). rewrite Hd in Hb.
      assert (1 <= sumz (c_waits d) (sh_callers s)) as Hw.
      { assert (c_waits d (mkCaller (Some (d, n)) held) = 1) as E1.
        { unfold c_waits. cbn. rewrite device_eqb_refl. reflexivity. }
        rewrite <- E1. apply sumz_member; [|exact Hin]. intros x _. apply c_waits_range. }
      nia. }
    rewrite Eadd.
    constructor; cbn [sh_tbl sh_callers].
    + rewrite static_set_load. exact Hst.
    + rewrite set_nth_length. exact Hlen.
    + intros d'. rewrite load_of_set by (rewrite Hdev; exact Hdin).
      rewrite (sumz_set_nth _ _ _ _ _ Ei). rewrite <- Hload.
      unfold c_rows. cbn [c_held sumz fold_right]. unfold held_on at 2. cbn [fst snd].
      destruct (device_eqb d d') eqn:E; [apply device_eqb_eq in E; subst d'|]; unfold sumz; lia.
    + intros c x Hc. apply in_set_nth in Hc as [->|Hc]; [|eauto]. cbn [c_held].
      intros [<-|Hx]; [cbn; auto|]. exact (Hheld _ x Hin Hx).
    + intros c d' n' Hc. apply in_set_nth in Hc as [->|Hc]; [discriminate|eauto].
    + intros t1 Ht1. rewrite load_of_set by (rewrite Hdev; exact Hdin).
      rewrite (sumz_set_nth _ _ _ _ _ Ei). unfold c_waits at 2 3. cbn [c_pend].
      specialize (Hbound t1 Ht1).
      destruct (device_eqb d (ds_dev t1)) eqn:E.
      * apply device_eqb_eq in E.
        assert (t1 = t) by (apply (dev_unique tbl); auto; congruence). subst t1.
        rewrite <- E in *. nia.
      * lia.
  - destruct (nth_error (sh_callers s) i) as [[[[d n]|] held]|] eqn:Ei; auto.
    pose proof (nth_error_In _ _ Ei) as Hin.
    constructor; cbn [sh_tbl sh_callers]; auto.
    + rewrite set_nth_length. exact Hlen.
    + intros d'. rewrite (sumz_set_nth _ _ _ _ _ Ei). rewrite Hload. unfold c_rows. cbn [c_held]. lia.
    + intros c x Hc. apply in_set_nth in Hc as [->|Hc]; [|eauto]. cbn [c_held]. intros Hx.
      exact (Hheld _ x Hin Hx).
    + intros c d' n' Hc. apply in_set_nth in Hc as [->|Hc]; [discriminate|eauto].
    + intros t1 Ht1. rewrite (sumz_set_nth _ _ _ _ _ Ei). unfold c_waits at 2 3. cbn [c_pend].
      specialize (Hbound t1 Ht1). destruct (Ht t1 Ht1) as (_ & Hbc & _).
      destruct (device_eqb d (ds_dev t1)); nia.
  - destruct (nth_error (sh_callers s) i) as [[p held]|] eqn:Ei; auto.
    destruct (nth_error held j) as [[d c]|] eqn:Ej; auto.
    pose proof (nth_error_In _ _ Ei) as Hin. pose proof (nth_error_In _ _ Ej) as Hjin.
    destruct (Hheld _ _ Hin Hjin) as [Hc0 Hdin]. cbn [fst snd] in Hc0, Hdin.
    assert (forall d x, In x held -> 0 <= held_on d x) as Hnn.
    { intros d0 x Hx. unfold held_on. destruct (device_eqb (fst x) d0); [|lia].
      apply (Hheld _ x Hin Hx). }
    assert (c <= load_of (sh_tbl s) d) as Hle.
    { rewrite Hload. apply Z.le_trans with (c_rows d (mkCaller p held)).
      - unfold c_rows. cbn [c_held]. assert (held_on d (d, c) = c) as E.
        { unfold held_on. cbn. rewrite device_eqb_refl. reflexivity. }
        rewrite <- E at 1. apply sumz_member; auto.
      - apply sumz_member; [|exact Hin]. intros x Hx. apply sumz_nonneg. intros y Hy.
        unfold held_on. destruct (device_eqb (fst y) d); [|lia]. apply (Hheld x y Hx Hy). }
    rewrite completed_ok; [|exact Hnd'|rewrite Hdev; exact Hdin|exact Hle]. cbn [bind].
    constructor; cbn [sh_tbl sh_callers].
    + rewrite static_set_load. exact Hst.
    + rewrite set_nth_length. exact Hlen.
    + intros d'. rewrite load_of_set by (rewrite Hdev; exact Hdin).
      rewrite (sumz_set_nth _ _ _ _ _ Ei). rewrite <- Hload.
      unfold c_rows. cbn [c_held]. rewrite (sumz_remove_nth _ _ _ _ Ej).
      unfold held_on at 3. cbn [fst snd].
      destruct (device_eqb d d') eqn:E; [apply device_eqb_eq in E; subst d'|]; unfold sumz; lia.
    + intros c' x Hc. apply in_set_nth in Hc as [->|Hc]; [|eauto]. cbn [c_held].
      intros Hx. apply in_remove_nth in Hx. exact (Hheld _ x Hin Hx).
    + intros c' d' n' Hc. apply in_set_nth in Hc as [->|Hc]; [|eauto]. cbn [c_pend].
      intros E. exact (Hpend _ _ _ Hin E).
    + intros t1 Ht1. rewrite load_of_set by (rewrite Hdev; exact Hdin).
      rewrite (sumz_set_nth _ _ _ _ _ Ei). unfold c_waits at 2 3. cbn [c_pend].
      specialize (Hbound t1 Ht1).
      destruct (device_eqb d (ds_dev t1)) eqn:E; [apply device_eqb_eq in E; rewrite <- E in *|]; lia.
Qed.

Lemma shared_reach_inv tbl k s : idle_table tbl k -> shared_reach tbl k s -> shared_inv tbl k s.
Proof.
  intros Hi H. induction H as [|s l s' Hr IH Hs].
  - apply shared_init_inv, Hi.
  - pose proof (shared_step_inv tbl k s l Hi IH) as H. rewrite Hs in H. exact H.
Qed.

(** Load bound with [k] callers; the scheduler's own assertions never fire. *)
Lemma shared_load_bound tbl k s : idle_table tbl k -> shared_reach tbl k s ->
  (forall t, In t (sh_tbl s) -> 0 <= ds_load t <= ds_cap t + (Z.of_nat k - 1) * ds_batch t) /\
  (forall l e, shared_step s l <> Some (Err e)).
Proof.
  intros Hi Hr. pose proof (shared_reach_inv _ _ _ Hi Hr) as Hinv. split.
  - intros t Hin. destruct Hinv as [Hst Hlen Hload Hheld Hpend Hbound]. destruct Hi as [Hnd Ht].
    pose proof (nodup_static _ _ Hnd Hst) as Hnd'.
    destruct (static_in _ _ _ Hst Hin) as (t0 & Ht0 & Hs0).
    assert (ds_dev t0 = ds_dev t /\ ds_batch t0 = ds_batch t /\ ds_cap t0 = ds_cap t) as (Ed & En & Ec).
    { unfold static in Hs0. injection Hs0 as E1 E2 E3 E4. repeat split; congruence. }
    specialize (Hbound t0 Ht0). rewrite Ed, En, Ec in Hbound. rewrite (load_of_in _ _ Hnd' Hin) in Hbound.
    rewrite Forall_forall in Ht. destruct (Ht t0 Ht0) as (_ & Hb & _).
    assert (0 <= sumz (c_waits (ds_dev t)) (sh_callers s)).
    { apply sumz_nonneg. intros x _. apply c_waits_range. }
    split; [|nia]. rewrite <- (load_of_in _ _ Hnd' Hin), Hload. apply sumz_nonneg. intros c Hc.
    apply sumz_nonneg. intros x Hx. unfold held_on. destruct (device_eqb (fst x) _); [|lia].
    apply (Hheld c x Hc Hx).
  - intros l e H. pose proof (shared_step_inv tbl k s l Hi Hinv) as H'. rewrite H in H'. exact H'.
Qed.
