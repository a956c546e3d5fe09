(** The scheduler's device table under dispatched_work / completed_work. *)
From Coq Require Import SpecFloat.
From Verif Require Import Base Tensor Sched SpecSched BaseProofs TensorProofs.

Local Open Scope Z_scope.

Definition devs (tbl : list dstatus) : list device := map ds_dev tbl.

(** Load on device [d] (0 for a device not in the table). *)
Fixpoint load_of (tbl : list dstatus) (d : device) : Z :=
  match tbl with
  | [] => 0
  | s :: tbl' => if device_eqb (ds_dev s) d then ds_load s else load_of tbl' d
  end.

(** The table with the load of [d] replaced. *)
Definition set_load (tbl : list dstatus) (d : device) (l : Z) : list dstatus :=
  map (fun s => if device_eqb (ds_dev s) d then with_load s l else s) tbl.

Lemma devs_set_load tbl d l : devs (set_load tbl d l) = devs tbl.
Proof.
  unfold devs, set_load. rewrite map_map. apply map_ext. intros s.
  destruct (device_eqb (ds_dev s) d); reflexivity.
Qed.

Lemma load_of_set tbl d l d' : In d (devs tbl) ->
  load_of (set_load tbl d l) d' = if device_eqb d d' then l else load_of tbl d'.
Proof.
  intros Hin. induction tbl as [|s tbl IH]; cbn in *; [contradiction|].
  destruct (device_eqb (ds_dev s) d) eqn:E; cbn.
  - apply device_eqb_eq in E. subst d. destruct (device_eqb (ds_dev s) d') eqn:E'; [reflexivity|].
    clear - E'. induction tbl as [|t tbl IH]; [reflexivity|]. cbn.
    destruct (device_eqb (ds_dev t) (ds_dev s)) eqn:E; cbn.
    + apply device_eqb_eq in E. rewrite E, E'. exact IH.
    + destruct (device_eqb (ds_dev t) d'); [reflexivity|exact IH].
  - destruct Hin as [Hin|Hin]; [subst; rewrite device_eqb_refl in E; discriminate|].
    destruct (device_eqb (ds_dev s) d') eqn:E'.
    + apply device_eqb_eq in E'. subst d'.
      assert (device_eqb d (ds_dev s) = false) as ->; [|reflexivity].
      apply device_eqb_neq. apply device_eqb_neq in E. congruence.
    + apply IH, Hin.
Qed.

Lemma set_load_notin tbl d l : ~ In d (devs tbl) -> set_load tbl d l = tbl.
Proof.
  intros H. unfold set_load. rewrite <- (map_id tbl) at 2. apply map_ext_in. intros s Hs.
  assert (device_eqb (ds_dev s) d = false) as ->; [|reflexivity].
  apply device_eqb_neq. intros <-. apply H. apply in_map, Hs.
Qed.

Lemma dispatched_ok tbl d n : NoDup (devs tbl) -> In d (devs tbl) ->
  dispatched_work_impl tbl d n = Ok (set_load tbl d (add64 (load_of tbl d) n)).
Proof.
  intros Hnd Hin. induction tbl as [|s tbl IH]; cbn in *; [contradiction|].
  inversion Hnd as [|? ? Hni Hnd']; subst.
  destruct (device_eqb (ds_dev s) d) eqn:E; cbn.
  - apply device_eqb_eq in E. subst d. f_equal. f_equal. symmetry. apply (set_load_notin tbl). exact Hni.
  - destruct Hin as [Hin|Hin]; [subst; rewrite device_eqb_refl in E; discriminate|].
    rewrite IH by assumption. reflexivity.
Qed.

Lemma completed_ok tbl d n : NoDup (devs tbl) -> In d (devs tbl) -> n <= load_of tbl d ->
  completed_work_impl tbl d n = Ok (set_load tbl d (load_of tbl d - n)).
Proof.
  intros Hnd Hin Hle. induction tbl as [|s tbl IH]; cbn in *; [contradiction|].
  inversion Hnd as [|? ? Hni Hnd']; subst.
  destruct (device_eqb (ds_dev s) d) eqn:E; cbn.
  - apply device_eqb_eq in E. subst d. unfold assert_.
    destruct (Z.leb_spec n (ds_load s)); [|lia]. cbn. f_equal. f_equal. symmetry.
    apply (set_load_notin tbl). exact Hni.
  - destruct Hin as [Hin|Hin]; [subst; rewrite device_eqb_refl in E; discriminate|].
    rewrite IH by assumption. reflexivity.
Qed.

(** Everything but loads. *)
Definition static (s : dstatus) := (ds_dev s, ds_batch s, ds_cap s, ds_prio s).
Lemma static_set_load tbl d l : map static (set_load tbl d l) = map static tbl.
Proof.
  unfold set_load. rewrite map_map. apply map_ext. intros s.
  destruct (device_eqb (ds_dev s) d); reflexivity.
Qed.

Lemma load_of_in tbl s : NoDup (devs tbl) -> In s tbl -> load_of tbl (ds_dev s) = ds_load s.
Proof.
  intros Hnd Hin. induction tbl as [|t tbl IH]; cbn in *; [contradiction|].
  inversion Hnd as [|? ? Hni Hnd']; subst. destruct Hin as [->|Hin].
  - rewrite device_eqb_refl. reflexivity.
  - destruct (device_eqb (ds_dev t) (ds_dev s)) eqn:E; [|auto].
    apply device_eqb_eq in E. exfalso. apply Hni. rewrite E. apply in_map, Hin.
Qed.

Lemma all_completed_iff tbl : NoDup (devs tbl) ->
  all_work_completed tbl = true <-> forall d, load_of tbl d = 0.
Proof.
  intros Hnd. unfold all_work_completed. rewrite forallb_forall. split.
  - intros H d. induction tbl as [|s tbl IH]; cbn; [reflexivity|].
    inversion Hnd; subst. destruct (device_eqb (ds_dev s) d).
    + specialize (H s (or_introl eq_refl)). lia.
    + apply IH; auto. intros x Hx. apply H. right. exact Hx.
  - intros H s Hs. rewrite <- (load_of_in tbl s) by assumption. rewrite H. reflexivity.
Qed.

Lemma static_devs t t' : map static t = map static t' -> devs t = devs t'.
Proof.
  intros H. apply (f_equal (map (fun x => fst (fst (fst x))))) in H.
  rewrite !map_map in H. exact H.
Qed.

(** An entry of a table with the same static part as [t0]. *)
Lemma static_in t t0 s : map static t = map static t0 -> In s t ->
  exists s0, In s0 t0 /\ static s = static s0.
Proof.
  intros H Hin. assert (In (static s) (map static t0)) as Hs by (rewrite <- H; apply in_map, Hin).
  apply in_map_iff in Hs as (s0 & E & Hs0). eauto.
Qed.

Lemma select_in tbl : forall best s, select best tbl = Some s ->
  (In s tbl /\ has_room s = true) \/ best = Some s.
Proof.
  induction tbl as [|y tbl IH]; intros best s Hs; cbn in Hs; [auto|].
  assert (forall bst, select bst tbl = Some s -> (bst = best \/ (bst = Some y /\ has_room y = true)) ->
            (In s (y :: tbl) /\ has_room s = true) \/ best = Some s) as Hc.
  { intros bst Hb Hor. destruct (IH _ _ Hb) as [[? ?]|H]; [left; split; [right|]; assumption|].
    destruct Hor as [->|[-> Hy]]; [auto|]. injection H as <-. left; split; [left; reflexivity|exact Hy]. }
  apply (Hc _ Hs). destruct (has_room y) eqn:Ey; [|left; reflexivity].
  destruct best as [b|]; [|right; auto]. destruct (SFltb _ _); [right; auto|left; reflexivity].
Qed.

(** What schedule_work's answer says about the table. *)
Lemma schedule_some tbl d n : schedule_work_impl tbl = Some (d, n) ->
  exists s, In s tbl /\ ds_dev s = d /\ ds_batch s = n /\ has_room s = true.
Proof.
  unfold schedule_work_impl. destruct (select None tbl) as [s|] eqn:E; [|discriminate].
  intros H. injection H as <- <-. exists s.
  destruct (select_in tbl None s E) as [[H1 H2]|H]; [auto|discriminate].
Qed.
