(** Map-level laws of batch_chunk.h: slice/cat and index_select/scatter. *)
From Verif Require Import Base Tensor Spec BatchChunk BaseProofs TensorProofs DispatchProofs.

Section S.
  Context {V : Type}.
  Notation tens := (tensor V).
  Notation vmap := (smap (tensor V)).

  Lemma slice_cat_roundtrip b (m : vmap) l :
    1 <= b -> full_map b m -> tiles 0 (Z.of_nat b) l ->
    exists chunks,
      mapM (fun x => slice_batch m (fst x) (snd x)) l = Ok chunks /\
      length chunks = length l /\ cat_batch chunks = Ok m.
  Proof.
    intros Hb Hm Hl. exists (map (chunk_at b m) l). split; [|split].
    - apply mapM_ok_map. intros x Hx.
      destruct (tiles_bounds _ _ _ _ Hl Hx) as (H1 & H2 & H3).
      apply slice_batch_chunk; auto. apply full_map_conforming; auto.
    - apply map_length.
    - apply cat_batch_chunks; auto. eapply tiles_nonempty; eauto. lia.
  Qed.

  Lemma slice_entries b (m : vmap) s c :
    1 <= b -> conforming b m -> (0 <= s)%Z -> (0 < c)%Z -> (s + c <= Z.of_nat b)%Z ->
    exists sl, slice_batch m s c = Ok sl /\ keys sl = keys m /\
      forall k t, lookup k m = Some t ->
        exists u, lookup k sl = Some u /\
          (batched b t -> is_rows (Z.to_nat s) (Z.to_nat c) t u) /\
          (~ batched b t -> u = t).
  Proof.
    intros Hb Hm H1 H2 H3. eexists. split; [apply slice_batch_chunk; eauto|].
    split; [apply keys_vmap|]. intros k t Hk.
    eexists. split; [unfold chunk_map; rewrite lookup_vmap, Hk; reflexivity|].
    unfold chunk_of. split; intros Hbt.
    - rewrite has_lead_batched by assumption. apply rows_of_is_rows with b; auto; [|lia].
      unfold conforming in Hm. rewrite Forall_forall in Hm.
      exact (proj1 (Hm _ (lookup_in _ _ _ Hk))).
    - destruct (has_lead b t) eqn:E; [|reflexivity].
      exfalso. apply Hbt, has_lead_true, E.
  Qed.



  Lemma idx_ok_forallb b idx : idx_ok b idx ->
    forallb (fun i => (0 <=? i)%Z && (i <? Z.of_nat b)%Z) idx = true.
  Proof. intros H. apply forallb_forall. unfold idx_ok in H. rewrite Forall_forall in H.
         intros i Hi. specialize (H i Hi). lia. Qed.

  Lemma idx_ok_nat b idx : idx_ok b idx -> Forall (fun i => i < b) (map Z.to_nat idx).
  Proof. intros H. apply Forall_map. eapply Forall_impl; [|exact H]. cbn. intros; lia. Qed.

  Definition sel (idx : list Z) (t : tens) : tens :=
    mkT (length idx :: tl (t_shape t))
        (flat_map (fun i => row_data (numel (tl (t_shape t))) (Z.to_nat i) (t_data t)) idx)
        (t_dev t).

  Lemma index_select0_ok b t idx : batched b t -> idx_ok b idx ->
    index_select0 t idx = Ok (sel idx t).
  Proof.
    intros [r Hr] Hi. unfold index_select0, sel. rewrite Hr.
    rewrite idx_ok_forallb by assumption. reflexivity.
  Qed.

  Lemma flat_map_map {A B C} (f : B -> list C) (g : A -> B) l :
    flat_map f (map g l) = flat_map (fun x => f (g x)) l.
  Proof. induction l; cbn; congruence. Qed.

  Lemma index_select_batch_ok b (m : vmap) idx :
    full_map b m -> idx_ok b idx -> index_select_batch m idx = Ok (vmap_ (sel idx) m).
  Proof.
    intros [_ Hm] Hi. apply vmapM_ok. intros k t Hin.
    rewrite Forall_forall in Hm. destruct (Hm _ Hin) as [_ Hb]. cbn in Hb.
    destruct Hb as [r Hr]. unfold dim. rewrite Hr. cbn [length Nat.leb].
    apply index_select0_ok with b; auto. exists r; auto.
  Qed.



  Lemma sel_rows b (t : tens) idx k i :
    wf t -> batched b t -> idx_ok b idx -> nth_error idx k = Some i ->
    row (sel idx t) k = row t (Z.to_nat i).
  Proof.
    intros Hw Hb Hi Hk. unfold row, sel. cbn [t_shape t_data tl].
    rewrite <- (flat_map_map (fun j => row_data (numel (tl (t_shape t))) j (t_data t)) Z.to_nat).
    apply row_flat_map with b.
    - apply wf_batched; auto.
    - apply idx_ok_nat; auto.
    - rewrite nth_error_map, Hk. reflexivity.
  Qed.

  Definition put (idx : list Z) (src t : tens) : tens :=
    mkT (t_shape t)
        (put_rows (numel (tl (t_shape t))) (map Z.to_nat idx) (t_data src) (t_data t)) (t_dev t).

  Lemma index_copy0_ok b (t src : tens) idx :
    batched b t -> t_shape src = length idx :: tl (t_shape t) -> idx_ok b idx ->
    index_copy0 t idx src = Ok (put idx src t).
  Proof.
    intros [r Hr] Hs Hi. unfold index_copy0, put. rewrite Hs, Hr. cbn [tl].
    rewrite shape_eqb_refl, Nat.eqb_refl, idx_ok_forallb by assumption. reflexivity.
  Qed.

  Definition put_map (idx : list Z) (sub dst : vmap) : vmap :=
    map (fun kt => (fst kt, match lookup (fst kt) sub with
                            | Some s => put idx s (snd kt)
                            | None => snd kt
                            end)) dst.

  Lemma scatter_batch_ok b (dst sub : vmap) idx :
    Forall (fun kt => batched b (snd kt)) dst -> idx_ok b idx ->
    (forall k t s, In (k, t) dst -> lookup k sub = Some s ->
       t_shape s = length idx :: tl (t_shape t)) ->
    scatter_batch dst idx sub = Ok (put_map idx sub dst).
  Proof.
    intros Hd Hi. induction dst as [|[k t] dst IH]; intros Hs; [reflexivity|].
    inversion Hd as [|? ? Hb Hd']; subst. cbn [scatter_batch put_map map fst snd].
    cbn [snd] in Hb.
    assert (Nat.leb 1 (dim t) = true) as Hdim.
    { destruct Hb as [r Hr]. unfold dim. rewrite Hr. reflexivity. }
    rewrite IH; auto; [|intros; eapply Hs; [right; eassumption|eassumption]].
    destruct (lookup k sub) as [s|] eqn:E; cbn [bind]; [|reflexivity].
    rewrite Hdim.
    rewrite (index_copy0_ok b t s idx Hb (Hs k t s (or_introl eq_refl) E) Hi). reflexivity.
  Qed.

  (** Selecting and scattering back restores the map. *)
  Lemma select_scatter_self b (m : vmap) idx :
    full_map b m -> idx_ok b idx ->
    exists sub, index_select_batch m idx = Ok sub /\ scatter_batch m idx sub = Ok m.
  Proof.
    intros Hm Hi. exists (vmap_ (sel idx) m). split; [apply index_select_batch_ok with b; auto|].
    pose proof Hm as [Hn Hf].
    rewrite (scatter_batch_ok b); auto.
    - f_equal. unfold put_map. rewrite <- (map_id m) at 2. apply map_ext_in.
      intros [k t] Hin. cbn [fst snd].
      rewrite lookup_vmap, (lookup_nodup _ _ _ Hn Hin). cbn [option_map].
      f_equal. unfold put, sel. cbn [t_data].
      rewrite <- (flat_map_map (fun j => row_data (numel (tl (t_shape t))) j (t_data t)) Z.to_nat).
      rewrite put_rows_select_self with (n := b).
      + destruct t; reflexivity.
      + rewrite Forall_forall in Hf. destruct (Hf _ Hin). apply wf_batched; auto.
      + apply idx_ok_nat; auto.
    - rewrite Forall_forall in *. intros x Hx. apply Hf, Hx.
    - intros k t s Hin Hl. rewrite lookup_vmap, (lookup_nodup _ _ _ Hn Hin) in Hl.
      cbn in Hl. injection Hl as <-. reflexivity.
  Qed.

  (** Selecting from [src] and scattering into [dst]: exactly the chosen rows
      of [dst] become those of [src]. *)
  Lemma select_scatter_rows b (src dst : vmap) idx :
    full_map b src -> full_map b dst -> idx_ok b idx -> NoDup idx ->
    (forall k t s, lookup k dst = Some t -> lookup k src = Some s -> t_shape t = t_shape s) ->
    exists sub dst',
      index_select_batch src idx = Ok sub /\ scatter_batch dst idx sub = Ok dst' /\
      keys dst' = keys dst /\
      forall k t t', lookup k dst = Some t -> lookup k dst' = Some t' ->
        t_shape t' = t_shape t /\
        match lookup k src with
        | None => t' = t
        | Some s =>
            (forall i, In i idx -> row t' (Z.to_nat i) = row s (Z.to_nat i)) /\
            (forall i, i < b -> ~ In (Z.of_nat i) idx -> row t' i = row t i)
        end.
  Proof.
    intros Hsrc Hdst Hi Hnd Hsh.
    pose proof Hsrc as [Hns Hfs]. pose proof Hdst as [Hnd' Hfd].
    exists (vmap_ (sel idx) src), (put_map idx (vmap_ (sel idx) src) dst).
    assert (scatter_batch dst idx (vmap_ (sel idx) src)
            = Ok (put_map idx (vmap_ (sel idx) src) dst)) as Hsc.
    { apply scatter_batch_ok with b; auto.
      - eapply Forall_impl; [|exact Hfd]. intros x [_ H]; exact H.
      - intros k t s Hin Hl. rewrite lookup_vmap in Hl.
        destruct (lookup k src) as [s0|] eqn:E; [|discriminate]. cbn in Hl. injection Hl as <-.
        unfold sel. cbn [t_shape].
        rewrite (Hsh k t s0); auto. apply lookup_nodup; auto. }
    split; [apply index_select_batch_ok with b; auto|]. split; [exact Hsc|].
    split.
    { unfold keys, put_map. rewrite map_map. reflexivity. }
    intros k t t' Hk Hk'.
    assert (lookup k (put_map idx (vmap_ (sel idx) src) dst)
            = option_map (fun t => match lookup k (vmap_ (sel idx) src) with
                                   | Some s => put idx s t | None => t end) (lookup k dst)) as Hput.
    { clear. induction dst as [|[k0 t0] dst IH]; [reflexivity|]. cbn.
      destruct (String.eqb_spec k k0) as [->|]; [reflexivity|exact IH]. }
    rewrite Hput, Hk, lookup_vmap in Hk'. cbn [option_map] in Hk'.
    destruct (lookup k src) as [s|] eqn:E; cbn [option_map] in Hk'; injection Hk' as <-;
      [|split; reflexivity].
    split; [reflexivity|].
    assert (wf t /\ batched b t) as [Hwt Hbt].
    { rewrite Forall_forall in Hfd. exact (Hfd _ (lookup_in _ _ _ Hk)). }
    assert (wf s /\ batched b s) as [Hws Hbs].
    { rewrite Forall_forall in Hfs. exact (Hfs _ (lookup_in _ _ _ E)). }
    pose proof (Hsh _ _ _ Hk E) as Hshape.
    assert (NoDup (map Z.to_nat idx)) as Hndn.
    { clear - Hi Hnd. induction idx as [|i idx IH]; cbn; constructor.
      - inversion Hnd; inversion Hi; subst. intros Hin. apply in_map_iff in Hin.
        destruct Hin as (j & Hj & Hjin).
        assert ((0 <= j < Z.of_nat b)%Z) by (rewrite Forall_forall in *; auto).
        assert (j = i) by lia. subst. contradiction.
      - inversion Hnd; inversion Hi; subst. apply IH; auto. }
    assert (length (t_data t) = b * numel (tl (t_shape t))) as Hlt by (apply wf_batched; auto).
    assert (length (t_data (sel idx s)) = length (map Z.to_nat idx) * numel (tl (t_shape t))) as Hls.
    { unfold sel. cbn [t_data].
      rewrite <- (flat_map_map (fun j => row_data (numel (tl (t_shape s))) j (t_data s)) Z.to_nat).
      rewrite Hshape. apply flat_map_length_rows with b; [apply wf_batched; auto|].
      apply idx_ok_nat; auto. }
    split.
    - intros i Hin. apply In_nth_error in Hin. destruct Hin as [n Hn].
      change (row (put idx (sel idx s) t) (Z.to_nat i))
        with (row_data (numel (tl (t_shape t))) (Z.to_nat i)
                (put_rows (numel (tl (t_shape t))) (map Z.to_nat idx)
                   (t_data (sel idx s)) (t_data t))).
      rewrite put_rows_same with (n := b) (k := n); auto.
      + rewrite Hshape. exact (sel_rows b s idx n i Hws Hbs Hi Hn).
      + apply idx_ok_nat; auto.
      + rewrite nth_error_map, Hn. reflexivity.
    - intros i Hib Hnin.
      apply (put_rows_other (numel (tl (t_shape t))) b); auto.
      + apply idx_ok_nat; auto.
      + intros Hin. apply Hnin. apply in_map_iff in Hin. destruct Hin as (j & Hj & Hjin).
        unfold idx_ok in Hi. rewrite Forall_forall in Hi. specialize (Hi j Hjin). 
        replace (Z.of_nat i) with j by lia. exact Hjin.
  Qed.
End S.
