(** Proofs about promoted parameters. *)
From Verif Require Import Base BaseProofs Tensor TensorProofs Spec BatchChunk Dispatch Params SpecParams.

Section P.
  Context {V : Type}.
  Notation tens := (tensor V).
  Notation vmap := (smap (tensor V)).
  Notation pdisp := (pdisp (V := V)).

  Lemma move_to_dev d (t : tens) : move d t = to_dev d t.
  Proof.
    unfold move. destruct (device_eqb (t_dev t) d) eqn:E; [|reflexivity].
    apply device_eqb_eq in E. destruct t. cbn in *. subst. reflexivity.
  Qed.

  Lemma keys_assign_slot k (v : tens) m : keys (assign_slot k v m) = keys m.
  Proof.
    unfold keys, assign_slot. rewrite map_map. apply map_ext. intros [a t]. cbn.
    destruct (String.eqb k a); reflexivity.
  Qed.

  Lemma lookup_assign_slot j k (v : tens) m :
    lookup j (assign_slot k v m)
    = if String.eqb j k then (match lookup j m with Some _ => Some v | None => None end)
      else lookup j m.
  Proof.
    induction m as [|[a t] m IH]; [cbn; destruct (String.eqb j k); reflexivity|].
    change (assign_slot k v ((a, t) :: m))
      with ((if String.eqb k a then (a, v) else (a, t)) :: assign_slot k v m).
    destruct (String.eqb_spec k a) as [->|N]; cbn [lookup]; rewrite IH.
    - destruct (String.eqb_spec j a); reflexivity.
    - destruct (String.eqb_spec j a) as [->|M].
      + destruct (String.eqb_spec a k); [congruence|reflexivity].
      + reflexivity.
  Qed.

  Lemma keys_assign_params dev (master dst : vmap) :
    keys (fst (assign_params dev master dst)) = keys dst.
  Proof.
    revert dst. induction master as [|[k v] m IH]; intros dst; cbn; [reflexivity|].
    destruct (lookup k dst); [|reflexivity]. rewrite IH. apply keys_assign_slot.
  Qed.

  Lemma assign_params_ok dev (master dst : vmap) :
    NoDup (keys master) -> snd (assign_params dev master dst) = Ok tt ->
    (forall k v, lookup k master = Some v ->
       lookup k (fst (assign_params dev master dst)) = Some (to_dev dev v)) /\
    (forall k, lookup k master = None ->
       lookup k (fst (assign_params dev master dst)) = lookup k dst).
  Proof.
    revert dst. induction master as [|[k v] m IH]; intros dst N; cbn [assign_params].
    - cbn. split; [discriminate|auto].
    - cbn in N. inversion N as [|? ? N1 N2]; subst.
      destruct (lookup k dst) eqn:L; cbn [snd]; [|discriminate]. intros H.
      destruct (IH _ N2 H) as [H1 H2]. split.
      + intros j w. cbn [lookup]. destruct (String.eqb_spec j k) as [->|J].
        * intros E. injection E as <-. rewrite H2 by (apply lookup_none; exact N1).
          rewrite lookup_assign_slot, String.eqb_refl, L, move_to_dev. reflexivity.
        * apply H1.
      + intros j. cbn [lookup]. destruct (String.eqb_spec j k) as [->|J]; [discriminate|].
        intros E. rewrite (H2 j E), lookup_assign_slot.
        apply String.eqb_neq in J. rewrite J. reflexivity.
  Qed.

  Lemma assign_params_total dev (master dst : vmap) :
    (forall k, In k (keys master) -> In k (keys dst)) -> snd (assign_params dev master dst) = Ok tt.
  Proof.
    revert dst. induction master as [|[k v] m IH]; intros dst H; cbn; [reflexivity|].
    destruct (lookup_some_key k dst) as [w ->]; [apply H; left; reflexivity|].
    apply IH. intros j I. rewrite keys_assign_slot. apply H. right. exact I.
  Qed.

  (** Same keys in the same order and pointwise equal: equal. *)
  Lemma smap_ext {T} (m1 m2 : smap T) :
    keys m1 = keys m2 -> NoDup (keys m1) -> (forall k, In k (keys m1) -> lookup k m1 = lookup k m2) -> m1 = m2.
  Proof.
    revert m2. induction m1 as [|[k v] m IH]; intros [|[k' v'] m2] K N L; cbn in K; try discriminate;
      [reflexivity|].
    injection K as -> K. cbn in N. inversion N as [|? ? N1 N2]; subst. f_equal.
    - specialize (L k' (or_introl eq_refl)). cbn in L. rewrite String.eqb_refl in L. congruence.
    - apply IH; [exact K|exact N2|]. intros j I. specialize (L j (or_intror I)). cbn in L.
      destruct (String.eqb j k') eqn:J; [|exact L]. apply String.eqb_eq in J. subst j. contradiction.
  Qed.

  Lemma assign_params_exact dev (master dst : vmap) :
    keys dst = keys master -> NoDup (keys master) ->
    fst (assign_params dev master dst) = on_dev dev master.
  Proof.
    intros K N. apply smap_ext.
    - rewrite keys_assign_params. unfold on_dev. rewrite keys_vmap. exact K.
    - rewrite keys_assign_params, K. exact N.
    - intros k I. rewrite keys_assign_params, K in I.
      destruct (assign_params_ok dev master dst N) as [H _].
      { apply assign_params_total. rewrite K. auto. }
      apply lookup_some_key in I as [v E]. rewrite (H k v E). unfold on_dev.
      rewrite lookup_vmap, E. reflexivity.
  Qed.

  (** ** The device table *)
  Lemma store_of_in d (l : list (device * vmap)) p : store_of d l = Some p -> In (d, p) l.
  Proof.
    induction l as [|[e q] l IH]; cbn; [discriminate|].
    destruct (device_eqb d e) eqn:E.
    - intros H. injection H as ->. apply device_eqb_eq in E. subst. left. reflexivity.
    - intros H. right. apply IH. exact H.
  Qed.

  Lemma store_of_nodup d (l : list (device * vmap)) p :
    NoDup (map fst l) -> In (d, p) l -> store_of d l = Some p.
  Proof.
    induction l as [|[e q] l IH]; cbn; intros N I; [contradiction|].
    inversion N as [|? ? N1 N2]; subst. destruct I as [E|I].
    - injection E as -> ->. rewrite device_eqb_refl. reflexivity.
    - destruct (device_eqb d e) eqn:E.
      + apply device_eqb_eq in E. subst. exfalso. apply N1. apply (in_map fst) in I. exact I.
      + apply IH; assumption.
  Qed.

  Lemma devices_set_model d p (l : list (device * vmap)) : map fst (set_model d p l) = map fst l.
  Proof.
    unfold set_model. rewrite map_map. apply map_ext. intros [e q]. cbn.
    destruct (device_eqb d e); reflexivity.
  Qed.

  Lemma store_of_set_model d e p (l : list (device * vmap)) :
    store_of d (set_model e p l)
    = if device_eqb d e then (match store_of d l with Some _ => Some p | None => None end)
      else store_of d l.
  Proof.
    induction l as [|[f q] l IH]; [cbn; destruct (device_eqb d e); reflexivity|].
    change (set_model e p ((f, q) :: l))
      with ((if device_eqb e f then (f, p) else (f, q)) :: set_model e p l).
    destruct (device_eqb e f) eqn:E; cbn [store_of]; rewrite IH.
    - apply device_eqb_eq in E. subst f. destruct (device_eqb d e); reflexivity.
    - destruct (device_eqb d f) eqn:F; [|reflexivity].
      apply device_eqb_eq in F. subst f. destruct (device_eqb d e) eqn:G; [|reflexivity].
      apply device_eqb_eq in G. subst. rewrite device_eqb_refl in E. discriminate.
  Qed.

  Lemma devices_sync active master (l : list (device * vmap)) :
    map fst (fst (sync_models active master l)) = map fst l.
  Proof.
    induction l as [|[d p] l IH]; cbn; [reflexivity|].
    destruct (device_eqb d active).
    - destruct (sync_models active master l) as [l' r]. cbn in *. rewrite IH. reflexivity.
    - destruct (assign_params d master p) as [p' [u|e]]; cbn; [|reflexivity].
      destruct (sync_models active master l) as [l' r]. cbn in *. rewrite IH. reflexivity.
  Qed.

  (** What syncing does to the copy on one device. *)
  Lemma store_sync active master (l : list (device * vmap)) d :
    snd (sync_models active master l) = Ok tt ->
    store_of d (fst (sync_models active master l))
    = match store_of d l with
      | None => None
      | Some p => if device_eqb d active then Some p else Some (fst (assign_params d master p))
      end /\
    (forall p, store_of d l = Some p -> device_eqb d active = false ->
               snd (assign_params d master p) = Ok tt).
  Proof.
    induction l as [|[e q] l IH]; cbn; [intros _; split; [reflexivity|discriminate]|].
    destruct (device_eqb e active) eqn:E.
    - destruct (sync_models active master l) as [l' r]. cbn in *. intros ->.
      destruct (IH eq_refl) as [I1 I2]. destruct (device_eqb d e) eqn:F.
      + apply device_eqb_eq in F. subst e. rewrite E. split; [reflexivity|congruence].
      + split; assumption.
    - destruct (assign_params e master q) as [q' [u|x]] eqn:A; cbn; [|discriminate].
      destruct (sync_models active master l) as [l' r]. cbn in *. intros ->.
      destruct (IH eq_refl) as [I1 I2]. destruct (device_eqb d e) eqn:F.
      + apply device_eqb_eq in F. subst e. rewrite E, A. cbn. split; [reflexivity|].
        intros p H _. injection H as <-. rewrite A. destruct u. reflexivity.
      + split; assumption.
  Qed.

  Lemma sync_total active master (l : list (device * vmap)) :
    (forall d p, In (d, p) l -> device_eqb d active = false ->
       forall k, In k (keys master) -> In k (keys p)) ->
    snd (sync_models active master l) = Ok tt.
  Proof.
    induction l as [|[e q] l IH]; cbn; [reflexivity|]. intros H.
    assert (IH' : snd (sync_models active master l) = Ok tt)
      by (apply IH; intros d p I; apply H; right; exact I).
    destruct (device_eqb e active) eqn:E.
    - destruct (sync_models active master l) as [l' r]. exact IH'.
    - pose proof (assign_params_total e master q (H e q (or_introl eq_refl) E)) as A.
      destruct (assign_params e master q) as [q' r]. cbn in A. subst r.
      destruct (sync_models active master l) as [l' r]. exact IH'.
  Qed.

  (** ** Histories *)
  (** Everything but parameter contents: the device table. *)
  Definition shape_ok (s : pdisp) : Prop :=
    NoDup (devices_of s) /\ In (pd_active s) (devices_of s).

  Lemma visible_some (s : pdisp) : shape_ok s -> exists m, visible s = Some m.
  Proof.
    intros [N I]. unfold devices_of in I. apply in_map_iff in I as ([d p] & E & I). cbn in E. subst d.
    exists p. apply store_of_nodup; assumption.
  Qed.

  Lemma sync_params_shape (s : pdisp) :
    devices_of (fst (sync_params s)) = devices_of s /\ pd_active (fst (sync_params s)) = pd_active s.
  Proof.
    unfold sync_params. destruct (negb _ || _); [split; reflexivity|].
    destruct (store_of _ _) as [m|]; [|split; reflexivity].
    pose proof (devices_sync (pd_active s) m (pd_models s)) as D.
    destruct (sync_models _ m _) as [l r]. cbn in *. split; [exact D|reflexivity].
  Qed.

  Lemma step_shape (s : pdisp) o :
    devices_of (pstep_ s o) = devices_of s /\ pd_active (pstep_ s o) = pd_active s.
  Proof.
    unfold pstep_. destruct (store_of _ _) as [m|]; [|split; reflexivity].
    destruct o as [n v|f|f|]; cbn.
    - destruct (lookup n m); [|split; reflexivity]. unfold devices_of. cbn.
      rewrite devices_set_model. split; reflexivity.
    - unfold devices_of. cbn. rewrite devices_set_model. split; reflexivity.
    - unfold devices_of. cbn. rewrite devices_set_model. split; reflexivity.
    - apply sync_params_shape.
  Qed.

  Lemma store_sync_error active master (l : list (device * vmap)) :
    store_of active (fst (sync_models active master l)) = store_of active l.
  Proof.
    induction l as [|[e q] l IH]; cbn; [reflexivity|].
    destruct (device_eqb e active) eqn:E.
    - apply device_eqb_eq in E. subst e.
      destruct (sync_models active master l) as [l' r]. cbn. rewrite device_eqb_refl. reflexivity.
    - assert (E' : device_eqb active e = false).
      { apply not_true_is_false. intros F. apply device_eqb_eq in F. subst.
        rewrite device_eqb_refl in E. discriminate. }
      destruct (assign_params e master q) as [q' [u|x]]; cbn [fst store_of].
      + destruct (sync_models active master l) as [l' r]. cbn [fst store_of] in *. rewrite E'. exact IH.
      + cbn [store_of]. rewrite E'. reflexivity.
  Qed.

  (** Syncing leaves the master alone. *)
  Lemma visible_sync (s : pdisp) : visible (fst (sync_params s)) = visible s.
  Proof.
    unfold sync_params. destruct (negb _ || _) eqn:B; [reflexivity|].
    destruct (store_of (pd_active s) (pd_models s)) as [m|] eqn:E; [|reflexivity].
    pose proof (store_sync_error (pd_active s) m (pd_models s)) as L.
    destruct (sync_models (pd_active s) m (pd_models s)) as [l r].
    unfold visible. cbn in *. exact L.
  Qed.

  (** A clean dispatcher's copies are up to date. *)
  Definition clean_inv (s : pdisp) : Prop :=
    shape_ok s /\ (forall m, visible s = Some m -> NoDup (keys m)) /\
    (pd_dirty s = false -> forall d, up_to_date s d).

  Lemma single_active (s : pdisp) d p :
    shape_ok s -> Nat.leb (length (pd_models s)) 1 = true ->
    store_of d (pd_models s) = Some p -> d = pd_active s.
  Proof.
    intros [N I] L S. apply store_of_in in S. apply (in_map fst) in S. cbn in S.
    unfold devices_of in I. apply Nat.leb_le in L.
    destruct (pd_models s) as [|x [|y l]]; cbn in *; [contradiction| |lia].
    destruct I as [I|[]]. destruct S as [S|[]]. congruence.
  Qed.

  Lemma sync_up_to_date (s : pdisp) :
    clean_inv s -> snd (sync_params s) = Ok tt ->
    clean_inv (fst (sync_params s)) /\ pd_dirty (fst (sync_params s)) = false.
  Proof.
    intros (Sh & N & U) R.
    assert (Sh' : shape_ok (fst (sync_params s))).
    { destruct (sync_params_shape s) as [E1 E2]. unfold shape_ok. rewrite E1, E2. exact Sh. }
    assert (D : pd_dirty (fst (sync_params s)) = false).
    { revert R. unfold sync_params. destruct (negb _ || _); [reflexivity|].
      destruct (store_of _ _); [|discriminate]. destruct (sync_models _ _ _) as [l [u|e]]; cbn;
        [reflexivity|discriminate]. }
    split; [|exact D]. split; [exact Sh'|]. split.
    - intros m. rewrite visible_sync. apply N.
    - intros _ d m p k v Vm Sp Dn Lk. rewrite visible_sync in Vm.
      destruct (sync_params_shape s) as [_ E2]. rewrite E2 in Dn.
      revert R Sp. unfold sync_params. destruct (negb (pd_dirty s)) eqn:B; cbn [orb].
      + intros _ Sp. apply negb_true_iff in B. exact (U B d m p k v Vm Sp Dn Lk).
      + destruct (Nat.leb (length (pd_models s)) 1) eqn:L; cbn [fst snd pd_models].
        * intros _ Sp. exfalso. apply Dn. eapply single_active; eassumption.
        * unfold visible in Vm. rewrite Vm.
          destruct (sync_models (pd_active s) m (pd_models s)) as [l r] eqn:E.
          cbn [fst snd pd_models]. intros -> Sp.
          destruct (store_sync (pd_active s) m (pd_models s) d) as [G1 G2].
          { rewrite E. reflexivity. }
          rewrite E in G1. cbn [fst] in G1. rewrite Sp in G1.
          destruct (store_of d (pd_models s)) as [p0|] eqn:S0; [|discriminate].
          destruct (device_eqb d (pd_active s)) eqn:F.
          { exfalso. apply Dn. apply device_eqb_eq. exact F. }
          injection G1 as ->. specialize (G2 p0 eq_refl eq_refl).
          apply (assign_params_ok d m p0 (N m Vm) G2). exact Lk.
  Qed.

  (** Edits that keep a map a map. *)
  Definition keeps_map (h : list (pop V)) : Prop :=
    forall f, In (PMut f) h -> forall m, NoDup (keys m) -> NoDup (keys (f m)).

  Lemma step_clean (s : pdisp) o :
    (forall f, o = PMut f -> forall m, NoDup (keys m) -> NoDup (keys (f m))) ->
    (forall f, o <> PLate f) -> clean_inv s -> clean_inv (pstep_ s o).
  Proof.
    intros Kf Nl I. pose proof I as (Sh & N & U).
    assert (Sh' : shape_ok (pstep_ s o)).
    { destruct (step_shape s o) as [E1 E2]. unfold shape_ok. rewrite E1, E2. exact Sh. }
    destruct (visible_some s Sh) as [m Vm]. pose proof Vm as Vm'. unfold visible in Vm'.
    unfold pstep_ in *. rewrite Vm' in *.
    assert (Edit : forall m', NoDup (keys m') ->
              clean_inv (mkPD (set_model (pd_active s) m' (pd_models s)) (pd_active s) true)).
    { intros m' N'. split; [|split].
      - unfold shape_ok, devices_of. cbn. rewrite devices_set_model. exact Sh.
      - intros x. unfold visible. cbn. rewrite store_of_set_model, device_eqb_refl, Vm'. congruence.
      - cbn. discriminate. }
    destruct o as [n v|f|f|].
    - destruct (lookup n m); [|exact I]. apply Edit. rewrite keys_assign_slot. apply N. exact Vm.
    - apply Edit. apply (Kf f eq_refl). apply N. exact Vm.
    - exfalso. apply (Nl f). reflexivity.
    - destruct (snd (sync_params s)) as [[]|e] eqn:R.
      + apply sync_up_to_date; assumption.
      + split; [exact Sh'|]. split.
        * intros x. rewrite visible_sync. apply N.
        * intros D. exfalso. revert R D. unfold sync_params.
          destruct (negb _ || _); [discriminate|]. rewrite Vm'.
          destruct (sync_models _ _ _) as [l [u|x]]; cbn; [discriminate|discriminate].
  Qed.

  Lemma fresh_clean (s : pdisp) P : fresh_disp s P -> clean_inv s.
  Proof.
    intros (N & I & NP & H & On). split; [split; assumption|]. split.
    - intros m Vm. unfold visible in Vm. apply store_of_in in Vm. apply H in Vm. subst m.
      unfold on_dev. rewrite keys_vmap. exact NP.
    - intros _ d m p k v Vm Sp Dn Lk. apply store_of_in in Vm, Sp. apply H in Vm, Sp. subst m p.
      unfold on_dev in *. rewrite lookup_vmap in *. destruct (lookup k P) as [t|]; [|discriminate].
      cbn in *. injection Lk as <-. reflexivity.
  Qed.

  Lemma prun_clean h (s : pdisp) :
    keeps_map h -> no_late h -> clean_inv s -> clean_inv (prun s h).
  Proof.
    unfold prun. revert s. induction h as [|o h IH]; intros s K L I; [exact I|]. cbn. apply IH.
    - intros f F. apply K. right. exact F.
    - intros f F. apply (L f). right. exact F.
    - apply step_clean; [|intros f ->; apply (L f); left; reflexivity|exact I].
      intros f -> m. apply K. left. reflexivity.
  Qed.

  (** After any history without late writes, an evaluation that gets past
      parameter synchronisation sees the visible values on every device. *)
  Lemma history_up_to_date (s : pdisp) P h :
    fresh_disp s P -> keeps_map h -> no_late h ->
    snd (sync_params (prun s h)) = Ok tt ->
    forall d, up_to_date (fst (sync_params (prun s h))) d.
  Proof.
    intros F K L R. pose proof (prun_clean h s K L (fresh_clean s P F)) as I.
    destruct (sync_up_to_date _ I R) as [(_ & _ & U) D]. apply U. exact D.
  Qed.

  (** ** Histories that keep the key set *)
  Definition key_inv (K : list string) (s : pdisp) : Prop :=
    shape_ok s /\ NoDup K /\ (forall d p, In (d, p) (pd_models s) -> keys p = K) /\
    (pd_dirty s = false -> forall m, visible s = Some m ->
       forall d p, store_of d (pd_models s) = Some p -> d <> pd_active s -> p = on_dev d m).

  Lemma key_sync K (s : pdisp) :
    key_inv K s -> snd (sync_params s) = Ok tt /\ key_inv K (fst (sync_params s)) /\
                   pd_dirty (fst (sync_params s)) = false.
  Proof.
    intros (Sh & NK & HK & U). destruct (visible_some s Sh) as [m Vm]. pose proof Vm as Vm'.
    unfold visible in Vm'.
    assert (Km : keys m = K) by (eapply HK; apply store_of_in; exact Vm').
    assert (R : snd (sync_params s) = Ok tt).
    { unfold sync_params. destruct (negb _ || _); [reflexivity|]. rewrite Vm'.
      assert (T : snd (sync_models (pd_active s) m (pd_models s)) = Ok tt).
      { apply sync_total. intros d p I _ k. rewrite Km, (HK d p I). auto. }
      destruct (sync_models _ _ _) as [l r]. exact T. }
    assert (Sh' : shape_ok (fst (sync_params s))).
    { destruct (sync_params_shape s) as [E1 E2]. unfold shape_ok. rewrite E1, E2. exact Sh. }
    split; [exact R|].
    assert (D : pd_dirty (fst (sync_params s)) = false).
    { revert R. unfold sync_params. destruct (negb _ || _); [reflexivity|].
      destruct (store_of _ _); [|discriminate]. destruct (sync_models _ _ _) as [l [u|e]]; cbn;
        [reflexivity|discriminate]. }
    assert (Copies : forall d p, store_of d (pd_models (fst (sync_params s))) = Some p ->
              (d = pd_active s /\ p = m) \/ (d <> pd_active s /\ p = on_dev d m)).
    { intros d p. revert R. unfold sync_params. destruct (negb (pd_dirty s)) eqn:B; cbn [orb].
      - intros _ Sp. cbn [fst pd_models] in Sp. apply negb_true_iff in B.
        destruct (device_eqb d (pd_active s)) eqn:F.
        + apply device_eqb_eq in F. subst d. left. split; [reflexivity|congruence].
        + assert (d <> pd_active s) by (intros ->; rewrite device_eqb_refl in F; discriminate).
          right. split; [assumption|]. eapply U; eassumption.
      - destruct (Nat.leb (length (pd_models s)) 1) eqn:L; cbn [fst pd_models].
        + intros _ Sp. left. assert (d = pd_active s) by (eapply single_active; eassumption).
          subst d. split; [reflexivity|congruence].
        + rewrite Vm'. destruct (sync_models (pd_active s) m (pd_models s)) as [l r] eqn:E.
          cbn [fst snd pd_models]. intros -> Sp.
          destruct (store_sync (pd_active s) m (pd_models s) d) as [G1 _].
          { rewrite E. reflexivity. }
          rewrite E in G1. cbn [fst] in G1. rewrite Sp in G1.
          destruct (store_of d (pd_models s)) as [p0|] eqn:S0; [|discriminate].
          destruct (device_eqb d (pd_active s)) eqn:F.
          * apply device_eqb_eq in F. subst d. left. split; [reflexivity|congruence].
          * right. split; [intros ->; rewrite device_eqb_refl in F; discriminate|].
            injection G1 as ->. apply assign_params_exact; [|rewrite Km; exact NK].
            rewrite Km. eapply HK. apply store_of_in. exact S0. }
    split; [|exact D]. split; [exact Sh'|]. split; [exact NK|]. split.
    - intros d p I. apply store_of_nodup in I; [|apply Sh'].
      destruct (Copies d p I) as [[_ ->]|[_ ->]]; [exact Km|].
      unfold on_dev. rewrite keys_vmap. exact Km.
    - intros _ m' Vm2 d p Sp Dn. rewrite visible_sync, Vm in Vm2. injection Vm2 as <-.
      destruct (sync_params_shape s) as [_ E2]. rewrite E2 in Dn.
      destruct (Copies d p Sp) as [[E _]|[_ E]]; [contradiction|exact E].
  Qed.

  Lemma step_keys K (s : pdisp) o :
    (forall f, o = PMut f -> forall m, keys (f m) = keys m) ->
    (forall f, o <> PLate f) -> key_inv K s -> key_inv K (pstep_ s o).
  Proof.
    intros Kf Nl I. pose proof I as (Sh & NK & HK & U).
    destruct (visible_some s Sh) as [m Vm]. pose proof Vm as Vm'. unfold visible in Vm'.
    unfold pstep_. rewrite Vm'.
    assert (Km : keys m = K) by (eapply HK; apply store_of_in; exact Vm').
    assert (Edit : forall m', keys m' = K ->
              key_inv K (mkPD (set_model (pd_active s) m' (pd_models s)) (pd_active s) true)).
    { intros m' N'. split; [|split; [exact NK|split]].
      - unfold shape_ok, devices_of. cbn. rewrite devices_set_model. exact Sh.
      - cbn. intros d p Ip. unfold set_model in Ip. apply in_map_iff in Ip as ([e q] & E & Iq).
        cbn in E. destruct (device_eqb (pd_active s) e).
        + injection E as <- <-. exact N'.
        + injection E as <- <-. eapply HK. exact Iq.
      - cbn. discriminate. }
    destruct o as [n v|f|f|].
    - destruct (lookup n m); [|exact I]. apply Edit. rewrite keys_assign_slot. exact Km.
    - apply Edit. rewrite (Kf f eq_refl). exact Km.
    - exfalso. apply (Nl f). reflexivity.
    - apply key_sync. exact I.
  Qed.

  Lemma prun_keys K h (s : pdisp) : keeps_keys h -> no_late h -> key_inv K s -> key_inv K (prun s h).
  Proof.
    unfold prun. revert s. induction h as [|o h IH]; intros s Kh L I; [exact I|]. cbn. apply IH.
    - intros f F. apply Kh. right. exact F.
    - intros f F. apply (L f). right. exact F.
    - apply step_keys; [|intros f ->; apply (L f); left; reflexivity|exact I].
      intros f -> m. apply Kh. left. reflexivity.
  Qed.

  Lemma fresh_keys (s : pdisp) P : fresh_disp s P -> key_inv (keys P) s.
  Proof.
    intros (N & I & NP & H & On). split; [split; assumption|]. split; [exact NP|]. split.
    - intros d p Ip. apply H in Ip. subst p. unfold on_dev. apply keys_vmap.
    - intros _ m Vm d p Sp Dn. unfold visible in Vm. apply store_of_in in Vm, Sp.
      apply H in Vm, Sp. subst m p. unfold on_dev. rewrite vmap_vmap. apply vmap_ext.
      reflexivity.
  Qed.

  (** With value-only edits the evaluation never fails for its parameters and every
      device holds exactly the visible map, moved there. *)
  Lemma history_exact (s : pdisp) P h :
    fresh_disp s P -> keeps_keys h -> no_late h ->
    let s' := fst (sync_params (prun s h)) in
    snd (sync_params (prun s h)) = Ok tt /\
    exists m, visible s' = Some m /\ visible (prun s h) = Some m /\ keys m = keys P /\
      forall d, In d (devices_of s) ->
        store_of d (pd_models s') = Some (if device_eqb d (pd_active s) then m else on_dev d m).
  Proof.
    intros F K L s'. pose proof (prun_keys (keys P) h s K L (fresh_keys s P F)) as I.
    destruct (key_sync _ _ I) as (R & (Sh & NK & HK & U) & D). fold s' in Sh, HK, U, D.
    split; [exact R|].
    assert (Dev : devices_of (prun s h) = devices_of s /\ pd_active (prun s h) = pd_active s).
    { clear. unfold prun. revert s. induction h as [|o h IH]; intros s; [split; reflexivity|]. cbn.
      destruct (IH (pstep_ s o)) as [E1 E2]. destruct (step_shape s o) as [E3 E4].
      split; congruence. }
    destruct Dev as [E1 E2]. destruct (sync_params_shape (prun s h)) as [E3 E4]. fold s' in E3, E4.
    destruct (visible_some s' Sh) as [m Vm]. exists m. split; [exact Vm|].
    split; [unfold s' in Vm; rewrite visible_sync in Vm; exact Vm|].
    split; [eapply HK; apply store_of_in; exact Vm|].
    intros d Id. rewrite <- E1, <- E3 in Id. unfold devices_of in Id.
    apply in_map_iff in Id as ([d' p] & Ed & Ip). cbn in Ed. subst d'.
    apply store_of_nodup in Ip; [|apply Sh]. rewrite Ip.
    destruct (device_eqb d (pd_active s)) eqn:G.
    - apply device_eqb_eq in G. subst d. unfold visible in Vm. rewrite E4, E2 in Vm. congruence.
    - rewrite (U D m Vm d p Ip); [reflexivity|]. rewrite E4, E2. intros ->.
      rewrite device_eqb_refl in G. discriminate.
  Qed.

  (** ** Overrides *)
  Fixpoint sufs (c : list vmap) : list (list vmap) :=
    match c with [] => [] | _ :: c' => c' :: sufs c' end.

  Lemma orun_scope (l : list (oevent V)) : forall s calls acc,
    o_cell s = scope calls -> o_guards s = map scope (sufs calls) ->
    open_calls l calls = Some acc ->
    exists s', orun s l = Some s' /\ o_cell s' = scope acc.
  Proof.
    induction l as [|e l IH]; intros s calls acc C G O.
    - cbn in *. injection O as <-. exists s. split; [reflexivity|exact C].
    - destruct e as [ov|]; cbn [open_calls orun ostep] in *.
      + apply (IH _ (ov :: calls)).
        * cbn. destruct ov; [exact C|reflexivity].
        * cbn. rewrite C, G. reflexivity.
        * exact O.
      + destruct calls as [|ov calls]; [discriminate|]. rewrite G. cbn [sufs map].
        apply (IH _ calls); [reflexivity|reflexivity|exact O].
  Qed.

  Lemma override_scoped (l : list (oevent V)) acc :
    open_calls l [] = Some acc ->
    exists s', orun (mkO None []) l = Some s' /\ o_cell s' = scope acc.
  Proof. intros H. apply (orun_scope l (mkO None []) [] acc); [reflexivity|reflexivity|exact H]. Qed.
End P.
