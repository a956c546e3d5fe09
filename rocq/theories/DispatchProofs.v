(** Proofs about batch_chunk.h and the synchronous dispatcher. *)
From Verif Require Import Base Tensor Spec BatchChunk Dispatch BaseProofs TensorProofs.

(** ** Integer facts about the chunk loop *)

Lemma to_int64_small n : (0 <= n < 2 ^ 63)%Z -> to_int64 n = n.
Proof.
  intros H. unfold to_int64. rewrite Z.mod_small by lia.
  destruct (Z.ltb_spec n (2 ^ 63)); lia.
Qed.

Lemma chunk_extent_pos n b : (0 <= n < 2 ^ 63)%Z -> (1 <= b)%Z ->
  (1 <= chunk_extent n b <= b)%Z /\
  chunk_extent n b = (if (n =? 0)%Z then b else Z.min n b).
Proof.
  intros Hn Hb. unfold chunk_extent. rewrite to_int64_small by exact Hn.
  destruct (Z.eqb_spec n 0); cbn [orb]; [lia|].
  destruct (Z.leb_spec b n); lia.
Qed.

(** Ranges visited by the loop. *)
Fixpoint ranges (fuel : nat) (chunk b s : Z) : list (Z * Z) :=
  if (s <? b)%Z then
    match fuel with
    | O => []
    | S f => (s, Z.min chunk (b - s)) :: ranges f chunk b (s + chunk)
    end
  else [].

Lemma ranges_tiles fuel chunk b s :
  (1 <= chunk)%Z -> (b - s <= Z.of_nat fuel)%Z -> (s <= b)%Z ->
  tiles s b (ranges fuel chunk b s).
Proof.
  intro Hc. revert s. induction fuel as [|f IH]; intros s Hf Hs; cbn [ranges].
  - destruct (Z.ltb_spec s b); [lia|]. replace s with b by lia. constructor.
  - destruct (Z.ltb_spec s b); [|replace s with b by lia; constructor].
    constructor; [lia|].
    destruct (Z.le_gt_cases chunk (b - s)).
    + rewrite Z.min_l by lia. apply IH; lia.
    + rewrite Z.min_r by lia. replace (s + (b - s))%Z with b by lia.
      destruct f; cbn [ranges]; destruct (Z.ltb_spec (s + chunk) b); try lia; constructor.
Qed.



Lemma ranges_full fuel chunk b s :
  (1 <= chunk)%Z -> full_but_last chunk (ranges fuel chunk b s).
Proof.
  intro Hc. revert s. induction fuel as [|f IH]; intros s l1 x l2 Heq Hne; cbn [ranges] in Heq.
  - destruct (s <? b)%Z; destruct l1; discriminate.
  - destruct (Z.ltb_spec s b); [|destruct l1; discriminate].
    destruct l1 as [|y l1]; cbn [app] in Heq.
    + injection Heq as Hx Hl. subst x. cbn. destruct (Z.le_gt_cases chunk (b - s)); [lia|].
      exfalso. apply Hne. rewrite <- Hl.
      destruct f; cbn [ranges]; destruct (Z.ltb_spec (s + chunk) b); try lia; reflexivity.
    + injection Heq as _ Heq. eapply IH; eassumption.
Qed.

Lemma ranges_le fuel chunk b s x :
  In x (ranges fuel chunk b s) -> (snd x <= chunk)%Z.
Proof.
  revert s. induction fuel as [|f IH]; intros s Hin; cbn [ranges] in Hin.
  - destruct (s <? b)%Z; destruct Hin.
  - destruct (s <? b)%Z; [|destruct Hin].
    destruct Hin as [<-|Hin]; cbn; [lia|]. eapply IH; exact Hin.
Qed.

Lemma sync_loop_mapM {R} fuel (f : Z -> Z -> result R) chunk b s :
  (1 <= chunk)%Z -> (b - s <= Z.of_nat fuel)%Z ->
  sync_loop fuel f chunk b s = Done (mapM (fun x => f (fst x) (snd x)) (ranges fuel chunk b s)).
Proof.
  intro Hc. revert s. induction fuel as [|k IH]; intros s Hf; cbn [sync_loop ranges].
  - destruct (Z.ltb_spec s b); [lia|reflexivity].
  - destruct (Z.ltb_spec s b); [|reflexivity].
    cbn [mapM fst snd]. destruct (f s (Z.min chunk (b - s))); cbn [bind]; [|reflexivity].
    rewrite IH by lia.
    destruct (mapM _ (ranges k chunk b (s + chunk))); reflexivity.
Qed.

(** C01. *)
Lemma sync_chunks_tile n b :
  (0 <= n < 2 ^ 63)%Z -> (1 <= b)%Z ->
  exists l, tiles 0 b l /\
    (forall x, In x l -> (snd x <= (if (n =? 0)%Z then b else n))%Z) /\
    full_but_last (if (n =? 0)%Z then b else Z.min n b) l /\
    (forall R (f : Z -> Z -> result R),
        sync_chunks n b f = Done (mapM (fun x => f (fst x) (snd x)) l)).
Proof.
  intros Hn Hb. destruct (chunk_extent_pos n b Hn Hb) as [[H1 H2] H3].
  exists (ranges (Z.to_nat b) (chunk_extent n b) b 0). split; [|split; [|split]].
  - apply ranges_tiles; lia.
  - intros x Hx. apply ranges_le in Hx. destruct (Z.eqb_spec n 0); lia.
  - rewrite <- H3. apply ranges_full. exact H1.
  - intros R f. apply sync_loop_mapM; lia.
Qed.

(** ** Maps *)
Section M.
  Context {V : Type}.
  Notation tens := (tensor V).
  Notation vmap := (smap (tensor V)).
  Notation nmap := (smap (smap (tensor V))).

  Lemma move_to_dev d (t : tens) : move d t = to_dev d t.
  Proof.
    unfold move. destruct (device_eqb (t_dev t) d) eqn:E; [|reflexivity].
    apply device_eqb_eq in E. subst d. symmetry. apply to_dev_same.
  Qed.

  Lemma to_device_on_dev (m : vmap) d : to_device m d = on_dev d m.
  Proof. unfold to_device, on_dev. apply vmap_ext. intros. apply move_to_dev. Qed.

  Lemma on_dev_idem (m : vmap) d d' : on_dev d (on_dev d' m) = on_dev d m.
  Proof. unfold on_dev. rewrite vmap_vmap. reflexivity. Qed.

  Lemma on_dev_all_on (m : vmap) d : all_on d m -> on_dev d m = m.
  Proof.
    intro H. apply vmap_id. intros k t Hin.
    unfold all_on in H. rewrite Forall_forall in H. specialize (H _ Hin). cbn in H.
    rewrite <- H. apply to_dev_same.
  Qed.

  Lemma on_dev_chunk_map (m : vmap) d b s c :
    on_dev d (chunk_map b s c m) = chunk_map b s c (on_dev d m).
  Proof.
    unfold on_dev, chunk_map. rewrite !vmap_vmap. apply vmap_ext. intros k t _.
    unfold chunk_of, has_lead. cbn [to_dev t_shape].
    destruct (t_shape t) as [|n r]; [reflexivity|]. destruct (n =? b); reflexivity.
  Qed.

  Lemma infer_ge (m : vmap) b0 :
    (b0 <= fold_left (fun b kt => if Nat.leb 1 (dim (snd kt))
                           then Z.max b (Z.of_nat (lead (snd kt))) else b) m b0)%Z.
  Proof.
    revert b0. induction m as [|[k t] m IH]; intro b0; cbn [fold_left snd]; [lia|].
    etransitivity; [|apply IH]. destruct (1 <=? dim t); lia.
  Qed.

  Lemma infer_upper (m : vmap) b0 B :
    (b0 <= B)%Z -> Forall (fun kt => (Z.of_nat (lead (snd kt)) <= B)%Z) m ->
    (fold_left (fun b kt => if Nat.leb 1 (dim (snd kt))
                           then Z.max b (Z.of_nat (lead (snd kt))) else b) m b0 <= B)%Z.
  Proof.
    intros Hb Hf. revert b0 Hb. induction Hf as [|[k t] m Hx Hf IH]; intros b0 Hb;
      cbn [fold_left snd]; [lia|].
    apply IH. cbn in Hx. destruct (1 <=? dim t); lia.
  Qed.

  Lemma infer_lower (m : vmap) b0 x :
    In x m -> 1 <= dim (snd x) ->
    (Z.of_nat (lead (snd x)) <=
     fold_left (fun b kt => if Nat.leb 1 (dim (snd kt))
                           then Z.max b (Z.of_nat (lead (snd kt))) else b) m b0)%Z.
  Proof.
    revert b0. induction m as [|[k t] m IH]; intros b0 Hin Hd; [destruct Hin|].
    cbn [fold_left snd]. destruct Hin as [<-|Hin].
    - cbn [snd] in *. destruct (Nat.leb_spec 1 (dim t)); [|lia].
      etransitivity; [|apply infer_ge]. lia.
    - apply IH; assumption.
  Qed.

  Lemma infer_batch_size_contract b (m : vmap) :
    contract b m -> infer_batch_size m = Z.of_nat b.
  Proof.
    intros (Hb & Hc & He). unfold infer_batch_size. apply Z.le_antisymm.
    - apply infer_upper; [lia|]. unfold conforming in Hc.
      eapply Forall_impl; [|exact Hc]. intros [k t] [_ H]; cbn in *. unfold lead.
      destruct H as [-> | [[r ->] | [r ->]]]; lia.
    - destruct He as [->|He].
      + etransitivity; [|apply infer_ge]. lia.
      + apply Exists_exists in He. destruct He as [[k t] [Hin [r Hr]]]. cbn in Hr.
        assert (Z.of_nat b = Z.of_nat (lead t)) as -> by (unfold lead; rewrite Hr; reflexivity).
        apply (infer_lower m 1 (k, t) Hin). cbn. unfold dim. rewrite Hr. cbn. lia.
  Qed.

  Lemma slice_batch_chunk b (m : vmap) s c :
    1 <= b -> conforming b m -> (0 <= s)%Z -> (0 < c)%Z -> (s + c <= Z.of_nat b)%Z ->
    slice_batch m s c = Ok (chunk_map b (Z.to_nat s) (Z.to_nat c) m).
  Proof.
    intros Hb Hc Hs Hcp Hsc. unfold slice_batch, chunk_map. apply vmapM_ok.
    intros k t Hin. unfold conforming in Hc. rewrite Forall_forall in Hc.
    specialize (Hc _ Hin). cbn in Hc. destruct Hc as [Hw Hcase].
    unfold slice_entry, chunk_of, has_lead, dim, lead.
    destruct Hcase as [-> | [[r Hr] | [r Hr]]].
    - reflexivity.
    - rewrite Hr. cbn [length Nat.leb Nat.eqb negb andb].
      destruct b as [|[|b]]; cbn [Nat.eqb]; try reflexivity.
      replace (Z.to_nat s) with 0 by lia. replace (Z.to_nat c) with 1 by lia.
      rewrite rows_of_all; [reflexivity|exact Hw|exists r; exact Hr].
    - rewrite Hr. cbn [length Nat.leb andb]. rewrite Nat.eqb_refl.
      destruct (Nat.eqb_spec b 1) as [->|Hne]; cbn [negb].
      + replace (Z.to_nat s) with 0 by lia. replace (Z.to_nat c) with 1 by lia.
        rewrite rows_of_all; [reflexivity|exact Hw|exists r; exact Hr].
      + apply (narrow0_rows b); [exists r; exact Hr|lia|lia|lia].
  Qed.

  Lemma chunk_map_all b (m : vmap) : conforming b m -> chunk_map b 0 b m = m.
  Proof.
    intro Hc. apply vmap_id. intros k t Hin.
    unfold conforming in Hc. rewrite Forall_forall in Hc. specialize (Hc _ Hin). cbn in Hc.
    destruct Hc as [Hw _]. unfold chunk_of, has_lead.
    destruct (t_shape t) as [|n r] eqn:E; [reflexivity|].
    destruct (Nat.eqb_spec n b) as [->|]; [|reflexivity].
    apply rows_of_all; [exact Hw|exists r; exact E].
  Qed.

  Lemma full_map_conforming b (m : vmap) : full_map b m -> conforming b m.
  Proof.
    intros [_ H]. eapply Forall_impl; [|exact H]. intros kt [Hw Hb]. auto.
  Qed.

  Definition chunk_at (b : nat) (m : vmap) (x : Z * Z) : vmap :=
    chunk_map b (Z.to_nat (fst x)) (Z.to_nat (snd x)) m.

  Lemma parts_of_chunks b (m : vmap) k t l :
    lookup k m = Some t -> has_lead b t = true ->
    parts_of k (map (chunk_at b m) l) = Ok (map (piece t) l).
  Proof.
    intros Hl Hb. unfold parts_of. rewrite mapM_map. apply mapM_ok_map. intros x _.
    unfold chunk_at, chunk_map. rewrite lookup_vmap, Hl. cbn [option_map].
    unfold chunk_of. rewrite Hb. reflexivity.
  Qed.

  Lemma has_lead_batched b (t : tens) : batched b t -> has_lead b t = true.
  Proof. intros [r Hr]. unfold has_lead. rewrite Hr. apply Nat.eqb_refl. Qed.

  Lemma cat_batch_chunks b (m : vmap) l :
    full_map b m -> tiles 0 (Z.of_nat b) l -> l <> [] ->
    cat_batch (map (chunk_at b m) l) = Ok m.
  Proof.
    intros Hfull Ht Hne. destruct l as [|x [|y l]]; [congruence| |].
    - cbn [map cat_batch]. inversion Ht as [|s c b' l' Hc Ht']; subst.
      inversion Ht'; subst. f_equal. unfold chunk_at; cbn [fst snd].
      replace (Z.to_nat c) with b by lia. cbn [Z.to_nat].
      apply chunk_map_all. apply full_map_conforming. exact Hfull.
    - set (l0 := x :: y :: l) in *. set (cs := map (chunk_at b m) l0).
      assert (cat_batch cs =
              mapM (fun kt => let* parts := parts_of (fst kt) cs in
                              let* t := cat0 parts in Ok (fst kt, t)) (chunk_at b m x)) as ->
          by reflexivity.
      unfold chunk_at at 1, chunk_map, vmap_. rewrite mapM_map. cbn [fst snd].
      transitivity (@Ok vmap (map (fun kt => kt) m)); [|rewrite map_id; reflexivity].
      apply mapM_ok_map. intros [k t] Hin. cbn [fst].
      destruct Hfull as [Hnd Hf]. rewrite Forall_forall in Hf.
      destruct (Hf _ Hin) as [Hw Hb]; cbn in Hw, Hb.
      unfold cs. rewrite (parts_of_chunks b m k t);
        [|apply lookup_nodup; assumption | apply has_lead_batched; exact Hb].
      cbn [bind]. rewrite (cat0_tiling t b l0 Hw Hb Ht) by exact Hne. reflexivity.
  Qed.

  Lemma full_map_on_dev b (m : vmap) d : full_map b m -> full_map b (on_dev d m).
  Proof.
    intros [Hnd Hf]. split.
    - unfold on_dev. rewrite keys_vmap. exact Hnd.
    - unfold on_dev, vmap_. apply Forall_map. eapply Forall_impl; [|exact Hf].
      intros kt H. exact H.
  Qed.

  Lemma on_dev_chunk_at b (m : vmap) d x : on_dev d (chunk_at b m x) = chunk_at b (on_dev d m) x.
  Proof. apply on_dev_chunk_map. Qed.

  (** ** Parameters *)

  Lemma param_batched_spec nds b q (t : tens) : 1 <= b ->
    param_batched nds (Z.of_nat b) q t =
    Nat.leb (base_nd nds q + 1) (dim t) && has_lead b t.
  Proof.
    intro Hb. unfold param_batched, has_lead, lead, dim.
    destruct (t_shape t) as [|n r]; cbn [length].
    - rewrite andb_false_r. destruct (Z.ltb_spec (Z.of_nat 0 - Z.of_nat (base_nd nds q)) 1); [|lia].
      reflexivity.
    - destruct (Nat.eqb_spec n b) as [->|Hne].
      + rewrite Z.eqb_refl. cbn [negb]. rewrite orb_false_r, andb_true_r.
        destruct (Z.ltb_spec (Z.of_nat (S (length r)) - Z.of_nat (base_nd nds q)) 1);
          destruct (Nat.leb_spec (base_nd nds q + 1) (S (length r))); cbn; lia.
      + rewrite andb_false_r. destruct (Z.eqb_spec (Z.of_nat n) (Z.of_nat b)); [lia|].
        cbn [negb]. rewrite orb_true_r. reflexivity.
  Qed.

  Definition ov_of (nds : smap nat) (P : vmap) (b s c : nat) (d : device) : vmap :=
    flat_map (fun kt => if Nat.leb (base_nd nds (fst kt) + 1) (dim (snd kt)) && has_lead b (snd kt)
                        then [(fst kt, to_dev d (rows_of s c (snd kt)))] else []) P.

  Lemma has_lead_true b (t : tens) : has_lead b t = true -> batched b t.
  Proof.
    unfold has_lead. destruct (t_shape t) as [|n r] eqn:E; [discriminate|].
    intro H. apply Nat.eqb_eq in H. subst n. exists r. exact E.
  Qed.

  Lemma chunk_param_overrides_ok nds (P : vmap) b s c d :
    1 <= b -> (0 <= s)%Z -> (0 <= c)%Z -> (s + c <= Z.of_nat b)%Z ->
    chunk_param_overrides nds P s c (Z.of_nat b) d
    = Ok (ov_of nds P b (Z.to_nat s) (Z.to_nat c) d).
  Proof.
    intros Hb Hs Hc Hsc. induction P as [|[q t] P IH]; [reflexivity|].
    cbn [chunk_param_overrides]. rewrite param_batched_spec by exact Hb.
    unfold ov_of. cbn [flat_map fst snd].
    destruct (Nat.leb (base_nd nds q + 1) (dim t) && has_lead b t) eqn:E.
    - apply andb_true_iff in E. destruct E as [_ E]. apply has_lead_true in E.
      rewrite (narrow0_rows b) by (try assumption; lia). cbn [bind].
      rewrite IH. cbn [bind app]. rewrite move_to_dev. reflexivity.
    - rewrite IH. reflexivity.
  Qed.

  Lemma lookup_ov nds (P : vmap) b s c d q t :
    NoDup (keys P) -> In (q, t) P ->
    lookup q (ov_of nds P b s c d) =
    if Nat.leb (base_nd nds q + 1) (dim t) && has_lead b t
    then Some (to_dev d (rows_of s c t)) else None.
  Proof.
    induction P as [|[q' t'] P IH]; intros Hnd Hin; [destruct Hin|].
    cbn [keys map fst] in Hnd. inversion Hnd as [|? ? Hnin Hnd']; subst.
    unfold ov_of. cbn [flat_map fst snd]. destruct Hin as [Heq|Hin].
    - injection Heq as -> ->.
      destruct (Nat.leb (base_nd nds q + 1) (dim t) && has_lead b t).
      + cbn [app lookup]. rewrite String.eqb_refl. reflexivity.
      + cbn [app]. apply lookup_none. intro Hk. apply Hnin.
        clear - Hk. unfold keys in *. apply in_map_iff in Hk. destruct Hk as [[k u] [Hk Hu]].
        cbn in Hk. subst k. apply in_flat_map in Hu. destruct Hu as [[k v] [Hv Hu]].
        cbn in Hu. destruct (_ && _) in Hu; [|destruct Hu].
        destruct Hu as [Hu|[]]. injection Hu as -> _.
        change q with (fst (q, v)). apply in_map. exact Hv.
    - assert (q <> q') as Hne.
      { intro; subst q'. apply Hnin. change q with (fst (q, t)). apply in_map. exact Hin. }
      destruct (Nat.leb (base_nd nds q' + 1) (dim t') && has_lead b t').
      + cbn [app lookup]. destruct (String.eqb_spec q q'); [congruence|]. apply IH; assumption.
      + cbn [app]. apply IH; assumption.
  Qed.

  Lemma effective_overrides nds (P : vmap) b s c d :
    NoDup (keys P) ->
    effective (on_dev d P) (ov_of nds P b s c d) = on_dev d (chunk_params b s c nds P).
  Proof.
    intro Hnd. unfold effective, on_dev, vmap_, chunk_params. rewrite !map_map.
    apply map_ext_in. intros [q t] Hin. cbn [fst snd].
    rewrite (lookup_ov nds P b s c d q t Hnd Hin).
    unfold chunk_param. fold (base_nd nds q).
    destruct (Nat.leb (base_nd nds q + 1) (dim t) && has_lead b t); reflexivity.
  Qed.

  Lemma effective_nil (P : vmap) : effective P [] = P.
  Proof.
    unfold effective. cbn [lookup]. rewrite <- (map_id P) at 2. apply map_ext.
    intros [k t]. reflexivity.
  Qed.

  Lemma chunk_params_all nds (P : vmap) b :
    params_ok P -> chunk_params b 0 b nds P = P.
  Proof.
    intros [_ Hw]. unfold chunk_params. rewrite <- (map_id P) at 2. apply map_ext_in.
    intros [q t] Hin. cbn [fst snd]. f_equal. unfold chunk_param.
    destruct (Nat.leb _ (dim t) && has_lead b t) eqn:E; [|reflexivity].
    apply andb_true_iff in E. destruct E as [_ E]. apply has_lead_true in E.
    rewrite Forall_forall in Hw. apply rows_of_all; [apply (Hw _ Hin)|exact E].
  Qed.

  Lemma on_dev_chunk_params nds (P : vmap) d b s c :
    on_dev d (chunk_params b s c nds P) = chunk_params b s c nds (on_dev d P).
  Proof.
    unfold on_dev, chunk_params, vmap_. rewrite !map_map. apply map_ext.
    intros [q t]. cbn [fst snd]. f_equal. unfold chunk_param, dim, has_lead.
    cbn [to_dev t_shape]. destruct (_ && _); reflexivity.
  Qed.

  (** What parameter values a chunk sees. *)
  Lemma chunk_parameters nds (P : vmap) b s c d :
    params_ok P -> 1 <= b -> (0 <= s)%Z -> (0 <= c)%Z -> (s + c <= Z.of_nat b)%Z ->
    exists ov, chunk_param_overrides nds P s c (Z.of_nat b) d = Ok ov /\
      forall q t, lookup q P = Some t ->
        exists u, lookup q (effective (on_dev d P) ov) = Some u /\
          (batched b t -> base_nd nds q < dim t ->
             is_rows (Z.to_nat s) (Z.to_nat c) (to_dev d t) u) /\
          (~ (batched b t /\ base_nd nds q < dim t) -> u = to_dev d t).
  Proof.
    intros [Hn Hw] Hb Hs Hc Hsc. eexists. split; [apply chunk_param_overrides_ok; auto|].
    intros q t Hq. pose proof (lookup_in _ _ _ Hq) as Hin.
    assert (lookup q (effective (on_dev d P) (ov_of nds P b (Z.to_nat s) (Z.to_nat c) d))
            = Some (match lookup q (ov_of nds P b (Z.to_nat s) (Z.to_nat c) d) with
                    | Some u => u | None => to_dev d t end)) as He.
    { generalize (ov_of nds P b (Z.to_nat s) (Z.to_nat c) d). intros ov.
      clear - Hq. induction P as [|[k v] P IH]; [discriminate|].
      cbn in Hq |- *. destruct (String.eqb_spec q k) as [->|].
      - injection Hq as ->. reflexivity.
      - apply IH, Hq. }
    eexists. split; [exact He|]. rewrite (lookup_ov _ _ _ _ _ _ _ t Hn Hin).
    rewrite Forall_forall in Hw. specialize (Hw _ Hin). cbn in Hw. split.
    - intros Hbt Hd. rewrite has_lead_batched by assumption.
      replace (Nat.leb (base_nd nds q + 1) (dim t)) with true by (symmetry; apply Nat.leb_le; lia).
      cbn [andb]. rewrite to_dev_rows_of. apply rows_of_is_rows with b; [apply to_dev_wf; auto| |lia].
      destruct Hbt as [r Hr]. exists r. exact Hr.
    - intros Hnb. destruct (Nat.leb _ _ && has_lead b t) eqn:E; [|reflexivity].
      exfalso. apply Hnb. apply andb_prop in E as [E1 E2].
      split; [apply has_lead_true, E2|]. apply Nat.leb_le in E1. lia.
  Qed.
End M.
