(** The synchronous dispatcher equals the undivided evaluation. *)
From Verif Require Import Base Tensor Spec BatchChunk Dispatch SpecDispatch BaseProofs TensorProofs DispatchProofs.



Section S.
  Context {V : Type}.
  Notation tens := (tensor V).
  Notation vmap := (smap (tensor V)).
  Notation nmap := (smap (smap (tensor V))).

  (** What a chunked evaluation needs: a chunk on any device [d] holding the
      parameters evaluates [ref] on its rows, the gather puts the rows of a
      result back together, and the whole fails only if some chunk does. *)
  Record chunked {A R} (b : nat) (devs : device -> Prop) (chunk_fn : device -> Z -> Z -> result R)
         (gather : list R -> result R)
         (ref : A -> result R) (a : A) (ch : nat -> nat -> A -> A) (post : R -> R) : Prop :=
    { ck_chunk : forall d s c, devs d -> (0 <= s)%Z -> (0 < c)%Z -> (s + c <= Z.of_nat b)%Z ->
        chunk_fn d s c = rmap post (ref (ch (Z.to_nat s) (Z.to_nat c) a));
      ck_gather : forall r, ref a = Ok r ->
        exists g : nat -> nat -> R,
         (forall s c, valid_range b s c -> ref (ch s c a) = Ok (g s c)) /\
         forall l, tiles 0 (Z.of_nat b) l -> l <> [] ->
           gather (map (fun x => post (g (Z.to_nat (fst x)) (Z.to_nat (snd x)))) l)
           = Ok (post r);
      ck_new : no_new_error b ch ref a }.

  Lemma sync_op_generic {A R} n (D : disp V) (inputs : vmap) b in_dev direct chunk_fn gather
        (ref : A -> result R) (a : A) (ch : nat -> nat -> A -> A) (post : R -> R) (devs : device -> Prop) :
    (0 <= n < 2 ^ 63)%Z -> 1 <= b -> infer_batch_size inputs = Z.of_nat b ->
    input_device inputs = Ok in_dev ->
    (dp_active D = in_dev ->
     (let* st := model_at D (dp_active D) in direct st) = rmap post (ref a)) ->
    devs (dp_active D) ->
    chunked b devs (chunk_fn in_dev (Z.of_nat b)) (gather (Z.of_nat b)) ref a ch post ->
    agrees (sync_op n D inputs direct chunk_fn gather) (rmap post (ref a)).
  Proof.
    intros Hn Hb Hinf Hdev Hfast Hda [Hchunk0 Hgather Hnew]. pose proof (fun s c => Hchunk0 _ s c Hda) as Hchunk.
    unfold sync_op.
    rewrite Hdev, Hinf.
    destruct ((Z.of_nat b <=? chunk_extent n (Z.of_nat b))%Z && device_eqb (dp_active D) in_dev)
      eqn:Efast.
    - apply andb_true_iff in Efast. destruct Efast as [_ Ed]. apply device_eqb_eq in Ed.
      eexists. split; [reflexivity|]. rewrite (Hfast Ed).
      destruct (ref a); cbn; [reflexivity|eauto].
    - clear Efast.
      destruct (sync_chunks_tile n (Z.of_nat b) Hn ltac:(lia)) as (l & Htl & _ & _ & Hrun).
      rewrite Hrun. clear Hrun.
      assert (l <> []) as Hne by (eapply tiles_nonempty; [exact Htl|lia]).
      set (f := fun x => ref (ch (Z.to_nat (fst x)) (Z.to_nat (snd x)) a)).
      rewrite (mapM_ext _ (fun x => rmap post (f x))).
      2:{ intros x Hx. pose proof (tiles_bounds _ _ _ _ Htl Hx) as (H1 & H2 & H3).
          apply Hchunk; lia. }
      destruct (ref a) as [r|e] eqn:Er.
      + destruct (Hgather r eq_refl) as (g & Hg & Hcat).
        rewrite (mapM_ok_map _ (fun x => post (g (Z.to_nat (fst x)) (Z.to_nat (snd x))))).
        2:{ intros x Hx. pose proof (tiles_bounds _ _ _ _ Htl Hx) as (H1 & H2 & H3).
            unfold f. rewrite Hg by (unfold valid_range; lia). reflexivity. }
        cbn [lbind]. rewrite Hcat by assumption. eexists; split; [reflexivity|]. reflexivity.
      + destruct (mapM (fun x => rmap post (f x)) l) as [rs|e'] eqn:Em.
        * exfalso. apply mapM_Forall2 in Em.
          assert (Forall (fun x => is_ok (f x) = true) l) as Hall.
          { clear - Em. induction Em as [|x y l rs Hxy Em IH]; constructor; [|exact IH].
            destruct (f x); [reflexivity|discriminate]. }
          specialize (Hnew l Htl Hall). rewrite Er in Hnew. discriminate.
        * cbn [lbind rmap]. eexists; split; [reflexivity|]. cbn. eauto.
  Qed.

  (** ** Nested maps *)

  Lemma to_device_nested_full b onds inds (j : nmap) d :
    full_nested b onds inds j -> to_device_nested j d = on_nested d j.
  Proof.
    intros [_ Hf]. unfold to_device_nested, on_nested, vmap_.
    induction Hf as [|[o row] j (Hne & _) Hf IH]; [reflexivity|].
    cbn [flat_map map fst snd] in *. destruct row as [|x row]; [congruence|].
    rewrite IH. cbn [app]. f_equal. f_equal.
    apply (to_device_on_dev (x :: row) d).
  Qed.

  Lemma to_device_nested_on_nested (j : nmap) d d' :
    to_device_nested (on_nested d' j) d = to_device_nested j d.
  Proof.
    unfold to_device_nested, on_nested, vmap_.
    induction j as [|[o row] j IH]; [reflexivity|].
    cbn [flat_map map fst snd]. rewrite IH. f_equal.
    destruct row as [|x row]; [reflexivity|].
    cbn [on_dev vmap_ map]. f_equal. f_equal.
    change (map (fun kv => (fst kv, move d (snd kv)))
                (on_dev d' (x :: row)) = map (fun kv => (fst kv, move d (snd kv))) (x :: row)).
    change (to_device (on_dev d' (x :: row)) d = to_device (x :: row) d).
    rewrite !to_device_on_dev. apply on_dev_idem.
  Qed.

  Lemma on_nested_chunk onds inds s c (j : nmap) d :
    on_nested d (chunk_nested onds inds s c j) = chunk_nested onds inds s c (on_nested d j).
  Proof.
    unfold on_nested, chunk_nested, vmap_. rewrite !map_map. apply map_ext.
    intros [o row]. cbn [fst snd]. f_equal. unfold on_dev, vmap_. rewrite !map_map.
    apply map_ext. intros [i t]. cbn [fst snd]. f_equal. unfold chunk_block, dim.
    cbn [to_dev t_shape]. destruct (_ =? _); reflexivity.
  Qed.

  Lemma full_nested_chunk b onds inds s c (j : nmap) : valid_range b s c ->
    full_nested b onds inds j -> full_nested c onds inds (chunk_nested onds inds s c j).
  Proof.
    intros Hv [Hnd Hf]. split.
    - unfold chunk_nested, keys. rewrite map_map. exact Hnd.
    - unfold chunk_nested. apply Forall_map. eapply Forall_impl; [|exact Hf].
      intros [o row] (Hne & Hndr & Ho & Hr). cbn [fst snd] in *. repeat split.
      + destruct row; [congruence|discriminate].
      + unfold keys. rewrite map_map. exact Hndr.
      + exact Ho.
      + apply Forall_map. eapply Forall_impl; [|exact Hr].
        intros [i t] (Hi & Hw & Hcase). cbn [fst snd] in *. unfold chunk_block.
        destruct (Nat.eqb_spec (dim t) (trail_of onds inds o i)) as [He|Hn].
        * repeat split; auto.
        * destruct Hcase as [He|Hb]; [congruence|]. repeat split; auto.
          -- destruct Hv. eapply rows_of_wf; [exact Hw|exact Hb|lia].
          -- right. apply rows_of_batched.
  Qed.

  Lemma full_nested_on b onds inds (j : nmap) d :
    full_nested b onds inds j -> full_nested b onds inds (on_nested d j).
  Proof.
    intros [Hnd Hf]. unfold on_nested, vmap_. split.
    - unfold keys. rewrite map_map. exact Hnd.
    - apply Forall_map. eapply Forall_impl; [|exact Hf].
      intros [o row] (Hne & Hndr & Ho & Hr). cbn [fst snd] in *. repeat split.
      + destruct row; [congruence|discriminate].
      + unfold on_dev. rewrite keys_vmap. exact Hndr.
      + exact Ho.
      + unfold on_dev, vmap_. apply Forall_map. eapply Forall_impl; [|exact Hr].
        intros [i t] (Hi & Hw & Hcase). exact (conj Hi (conj Hw Hcase)).
  Qed.

  Lemma chunk_nested_all b onds inds (j : nmap) :
    full_nested b onds inds j -> chunk_nested onds inds 0 b j = j.
  Proof.
    intros [_ Hf]. unfold chunk_nested. rewrite <- (map_id j) at 2. apply map_ext_in.
    intros [o row] Hin. rewrite Forall_forall in Hf. destruct (Hf _ Hin) as (_ & _ & _ & Hr).
    cbn [fst snd] in *. f_equal. rewrite <- (map_id row) at 2. apply map_ext_in.
    intros [i t] Hit. rewrite Forall_forall in Hr. destruct (Hr _ Hit) as (_ & Hw & Hcase).
    cbn [fst snd] in *. f_equal. unfold chunk_block.
    destruct (Nat.eqb_spec (dim t) (trail_of onds inds o i)); [reflexivity|].
    destruct Hcase; [congruence|]. apply rows_of_all; assumption.
  Qed.

  Definition nchunk_at (onds inds : smap nat) (j : nmap) (x : Z * Z) : nmap :=
    chunk_nested onds inds (Z.to_nat (fst x)) (Z.to_nat (snd x)) j.

  Definition chunk_row (onds inds : smap nat) (s c : nat) (o : string) (row : vmap) : vmap :=
    map (fun it => (fst it, chunk_block (trail_of onds inds o (fst it)) s c (snd it))) row.

  Lemma lookup_chunk_nested onds inds s c o (j : nmap) :
    lookup o (chunk_nested onds inds s c j)
    = option_map (chunk_row onds inds s c o) (lookup o j).
  Proof.
    unfold chunk_nested. induction j as [|[o' row] j IH]; [reflexivity|].
    cbn [map lookup fst snd]. destruct (String.eqb_spec o o') as [->|]; [reflexivity|exact IH].
  Qed.

  Lemma lookup_chunk_row onds inds s c o i (row : vmap) :
    lookup i (chunk_row onds inds s c o row)
    = option_map (chunk_block (trail_of onds inds o i) s c) (lookup i row).
  Proof.
    unfold chunk_row. induction row as [|[i' t] row IH]; [reflexivity|].
    cbn [map lookup fst snd]. destruct (String.eqb_spec i i') as [->|]; [reflexivity|exact IH].
  Qed.

  Lemma nparts_of_chunks onds inds (j : nmap) o row i t l :
    lookup o j = Some row -> lookup i row = Some t -> dim t <> trail_of onds inds o i ->
    nparts_of o i (map (nchunk_at onds inds j) l) = Ok (map (piece t) l).
  Proof.
    intros Ho Hi Hd. unfold nparts_of. rewrite mapM_map. apply mapM_ok_map. intros x _.
    unfold nchunk_at. rewrite lookup_chunk_nested, Ho. cbn [option_map].
    rewrite lookup_chunk_row, Hi. cbn [option_map]. unfold chunk_block.
    destruct (Nat.eqb_spec (dim t) (trail_of onds inds o i)); [congruence|reflexivity].
  Qed.

  Lemma filter_all {A} (p : A -> bool) l : Forall (fun x => p x = true) l -> filter p l = l.
  Proof.
    induction 1 as [|x l Hx Hl IH]; [reflexivity|]. cbn. rewrite Hx, IH. reflexivity.
  Qed.

  Lemma cat_batch_nested_chunks b onds inds (j : nmap) l :
    full_nested b onds inds j -> tiles 0 (Z.of_nat b) l -> l <> [] ->
    cat_batch_nested (map (nchunk_at onds inds j) l) onds inds = Ok j.
  Proof.
    intros Hfull Ht Hne. destruct l as [|x [|y l]]; [congruence| |].
    - cbn [map cat_batch_nested]. inversion Ht as [|s c b' l' Hc Ht']; subst.
      inversion Ht'; subst. f_equal. unfold nchunk_at; cbn [fst snd].
      replace (Z.to_nat c) with b by lia. cbn [Z.to_nat].
      apply chunk_nested_all. exact Hfull.
    - set (l0 := x :: y :: l) in *. set (cs := map (nchunk_at onds inds j) l0).
      assert (cat_batch_nested cs onds inds =
              let* rows :=
                mapM (fun orow =>
                        let* row := mapM (fun it =>
                                      let* t := cat_block cs onds inds
                                                  (fst orow) (fst it) (snd it) in
                                      Ok (fst it, t)) (snd orow) in
                        Ok (fst orow, row)) (nchunk_at onds inds j x) in
              Ok (filter (fun orow => match snd orow with [] => false | _ => true end) rows))
        as -> by reflexivity.
      unfold nchunk_at at 1, chunk_nested. rewrite mapM_map. cbn [fst snd].
      destruct Hfull as [Hnd Hf]. pose proof Hf as Hf0. rewrite Forall_forall in Hf.
      rewrite (mapM_ok_map _ (fun orow => orow)).
      + cbn [bind]. rewrite map_id. f_equal. apply filter_all.
        eapply Forall_impl; [|exact Hf0]. intros [o row] (Hr & _). cbn in *.
        destruct row; [congruence|reflexivity].
      + intros [o row] Hin. destruct (Hf _ Hin) as (_ & Hndr & Ho & Hr). cbn [fst snd] in *.
        rewrite mapM_map. cbn [fst snd].
        rewrite (mapM_ok_map _ (fun it => it)); [cbn [bind]; rewrite map_id; reflexivity|].
        intros [i t] Hit. cbn [fst snd]. rewrite Forall_forall in Hr.
        destruct (Hr _ Hit) as (Hi & Hw & Hcase). cbn [fst snd] in *.
        unfold cat_block, at_.
        destruct (lookup_some_key _ _ Ho) as [no Eno].
        destruct (lookup_some_key _ _ Hi) as [ni Eni].
        rewrite Eno, Eni. cbn [bind].
        assert (trail_of onds inds o i = no + ni) as Htr
            by (unfold trail_of; rewrite Eno, Eni; reflexivity).
        unfold chunk_block. rewrite Htr.
        destruct (Nat.eqb_spec (dim t) (no + ni)) as [He|Hnt].
        * rewrite He, Nat.eqb_refl. reflexivity.
        * destruct Hcase as [Hc|Hb]; [congruence|].
          assert (dim (rows_of (Z.to_nat (fst x)) (Z.to_nat (snd x)) t) = dim t) as ->.
          { destruct Hb as [r Hrr]. unfold rows_of, dim. cbn. rewrite Hrr. reflexivity. }
          destruct (Nat.eqb_spec (dim t) (no + ni)); [congruence|].
          unfold cs. rewrite (nparts_of_chunks onds inds j o row i t).
          -- cbn [bind]. rewrite (cat0_tiling t b l0 Hw Hb Ht) by exact Hne. reflexivity.
          -- apply lookup_nodup; assumption.
          -- apply lookup_nodup; assumption.
          -- rewrite Htr. exact Hnt.
  Qed.



  Section Call.
    Variables (n : Z) (D : disp V) (P I : vmap) (b : nat) (in_dev : device).
    Hypothesis H : call_ok n D P I b in_dev.
    Let nds := l_param (dp_layout D).

    Lemma call_input_device : input_device I = Ok in_dev.
    Proof.
      pose proof (co_nonempty _ _ _ _ _ _ H) as Hne. pose proof (co_on _ _ _ _ _ _ H) as Hon.
      destruct I as [|[k t] I']; [congruence|]. inversion Hon as [|? ? Hd _]; subst. reflexivity.
    Qed.

    Lemma call_model_at : model_at D (dp_active D) = Ok P.
    Proof. unfold model_at. rewrite (co_store _ _ _ _ _ _ H). reflexivity. Qed.

    Lemma call_b : 1 <= b.
    Proof. apply (co_contract _ _ _ _ _ _ H). Qed.

    Lemma call_conf : conforming b I.
    Proof. apply (co_contract _ _ _ _ _ _ H). Qed.

    (** The devices that hold the parameters of this call. *)
    Definition holds (d : device) : Prop := store_of d (dp_stores D) = Some (on_dev d P).

    Lemma holds_active : holds (dp_active D).
    Proof.
      unfold holds. rewrite (on_dev_all_on P) by apply (co_pdev _ _ _ _ _ _ H).
      apply (co_store _ _ _ _ _ _ H).
    Qed.

    Lemma holds_model_at d : holds d -> model_at D d = Ok (on_dev d P).
    Proof. unfold holds, model_at. intros ->. reflexivity. Qed.

    Lemma call_overrides d s c :
      (0 <= s)%Z -> (0 < c)%Z -> (s + c <= Z.of_nat b)%Z ->
      overrides_for D (Z.of_nat b) d s c
      = Ok (ov_of nds P b (Z.to_nat s) (Z.to_nat c) d).
    Proof.
      intros Hs Hc Hsc. unfold overrides_for, master. rewrite call_model_at. cbn [bind].
      apply chunk_param_overrides_ok; lia.
    Qed.

    Lemma call_effective d s c :
      effective (on_dev d P) (ov_of nds P b s c d) = on_dev d (chunk_params b s c nds P).
    Proof. apply effective_overrides. apply (co_params _ _ _ _ _ _ H). Qed.

    Lemma call_whole1 : ch1 nds b 0 b (P, I) = (P, I).
    Proof.
      unfold ch1. cbn [fst snd]. rewrite chunk_params_all by apply (co_params _ _ _ _ _ _ H).
      rewrite chunk_map_all by apply call_conf. reflexivity.
    Qed.

    Lemma forward_chunked fwd ref :
      (forall d, computes1 fwd on_dev ref d) ->
      forward_rows nds b ref (P, I) ->
      chunked b holds (chunk_forward fwd D in_dev (Z.of_nat b) I) (cat_batch) ref (P, I) (ch1 nds b) (on_dev in_dev).
    Proof.
      intros Hcomp [Hrows Hnew].
      constructor.
      - intros d s c Hd Hs Hc Hsc. unfold chunk_forward.
        rewrite (slice_batch_chunk b) by first [assumption | apply call_b | apply call_conf].
        cbn [bind]. rewrite call_overrides by assumption. cbn [bind].
        rewrite (holds_model_at d Hd). cbn [bind].
        rewrite call_effective, to_device_on_dev, Hcomp. unfold ch1. cbn [fst snd].
        match goal with |- _ = rmap _ (ref ?x) => destruct (ref x) as [o|e] end; cbn [rmap bind]; [|reflexivity].
        rewrite to_device_on_dev, on_dev_idem. reflexivity.
      - intros out Hout. destruct (Hrows out Hout) as [Hfull Hch].
        exists (fun s c => chunk_map b s c out). split; [exact Hch|].
        intros l Htl Hne.
        rewrite (map_ext _ (chunk_at b (on_dev in_dev out)))
          by (intro x; apply on_dev_chunk_at).
        apply cat_batch_chunks; [apply full_map_on_dev; exact Hfull|exact Htl|exact Hne].
      - exact Hnew.
    Qed.

    (** C03 (and C06 for forward). *)
    Lemma sync_forward_agrees fwd ref :
      (forall d, computes1 fwd on_dev ref d) ->
      forward_rows nds b ref (P, I) ->
      agrees (sync_forward fwd n D I) (fwd in_dev (on_dev in_dev P) I).
    Proof.
      intros Hcomp [Hrows Hnew].
      rewrite <- (on_dev_all_on I in_dev) at 2 by apply (co_on _ _ _ _ _ _ H).
      rewrite Hcomp. unfold sync_forward.
      apply (sync_op_generic n D I b in_dev _ _ _ ref (P, I) (ch1 nds b) (on_dev in_dev) holds).
      - apply (co_n _ _ _ _ _ _ H).
      - apply call_b.
      - apply infer_batch_size_contract. apply (co_contract _ _ _ _ _ _ H).
      - apply call_input_device.
      - intro Ed. rewrite call_model_at. cbn [bind]. rewrite effective_nil, Ed.
        rewrite <- (on_dev_all_on P in_dev) at 1 by (rewrite <- Ed; apply (co_pdev _ _ _ _ _ _ H)).
        rewrite <- (on_dev_all_on I in_dev) at 1 by apply (co_on _ _ _ _ _ _ H).
        apply Hcomp.
      - apply holds_active.
      - apply forward_chunked; first [assumption | split; assumption].
    Qed.

    Lemma jvp_chunked jvp ref T :
      conforming b T ->
      (forall d, computes2 jvp on_pair ref d) ->
      jvp_rows nds b ref (P, I, T) ->
      chunked b holds (chunk_jvp jvp D in_dev (Z.of_nat b) I T) (gather_jvp) ref (P, I, T) (ch2 nds b) (on_pair in_dev).
    Proof.
      intros HcT Hcomp [Hrows Hnew].
      constructor.
      - intros d s c Hd Hs Hc Hsc. unfold chunk_jvp.
        rewrite (slice_batch_chunk b I) by first [assumption | apply call_b | apply call_conf].
        cbn [bind].
        rewrite (slice_batch_chunk b T) by first [assumption | apply call_b].
        cbn [bind]. rewrite call_overrides by assumption. cbn [bind].
        rewrite (holds_model_at d Hd). cbn [bind].
        rewrite call_effective, !to_device_on_dev, Hcomp. unfold ch2. cbn [fst snd].
        match goal with |- _ = rmap _ (ref ?x) => destruct (ref x) as [[o j]|e] end; cbn [rmap bind]; [|reflexivity].
        unfold on_pair. cbn [fst snd]. rewrite !to_device_on_dev, !on_dev_idem. reflexivity.
      - intros [out jout] Hout. destruct (Hrows out jout Hout) as (Hfull & Hfullj & Hch).
        exists (fun s c => (chunk_map b s c out, chunk_map b s c jout)). split; [exact Hch|].
        intros l Htl Hne. unfold gather_jvp. rewrite !map_map. cbn [fst snd on_pair].
        rewrite (map_ext _ (chunk_at b (on_dev in_dev out)))
          by (intro x; apply on_dev_chunk_at).
        rewrite (map_ext (fun x => on_dev in_dev (chunk_map b _ _ jout))
                         (chunk_at b (on_dev in_dev jout)))
          by (intro x; apply on_dev_chunk_at).
        rewrite !cat_batch_chunks by first [assumption | apply full_map_on_dev; assumption].
        reflexivity.
      - exact Hnew.
    Qed.

    (** C04. *)
    Lemma sync_jvp_agrees jvp ref T :
      conforming b T -> all_on in_dev T ->
      (forall d, computes2 jvp on_pair ref d) ->
      jvp_rows nds b ref (P, I, T) ->
      agrees (sync_jvp jvp n D I T) (jvp in_dev (on_dev in_dev P) I T).
    Proof.
      intros HcT HdT Hcomp [Hrows Hnew].
      rewrite <- (on_dev_all_on I in_dev) at 2 by apply (co_on _ _ _ _ _ _ H).
      rewrite <- (on_dev_all_on T in_dev) at 2 by exact HdT.
      rewrite Hcomp. unfold sync_jvp.
      apply (sync_op_generic n D I b in_dev _ _ _ ref (P, I, T) (ch2 nds b) (on_pair in_dev) holds).
      - apply (co_n _ _ _ _ _ _ H).
      - apply call_b.
      - apply infer_batch_size_contract. apply (co_contract _ _ _ _ _ _ H).
      - apply call_input_device.
      - intro Ed. rewrite call_model_at. cbn [bind]. rewrite effective_nil, Ed.
        rewrite <- (on_dev_all_on P in_dev) at 1 by (rewrite <- Ed; apply (co_pdev _ _ _ _ _ _ H)).
        rewrite <- (on_dev_all_on I in_dev) at 1 by apply (co_on _ _ _ _ _ _ H).
        rewrite <- (on_dev_all_on T in_dev) at 1 by exact HdT.
        apply Hcomp.
      - apply holds_active.
      - apply jvp_chunked; first [assumption | split; assumption].
    Qed.



    Lemma jac_chunked jac ref inds :
      (forall d, computes1 jac on_jac ref d) ->
      jacobian_rows nds b (l_out (dp_layout D)) inds ref (P, I) ->
      chunked b holds (chunk_jacobian D in_dev (Z.of_nat b) jac I) (gather_jacobian D inds) ref (P, I) (ch1 nds b) (fun p : vmap * nmap => (on_dev in_dev (fst p), to_device_nested (snd p) in_dev)).
    Proof.
      intros Hcomp [Hrows Hnew]. set (onds := l_out (dp_layout D)) in *.
      set (post := fun p : vmap * nmap => (on_dev in_dev (fst p), to_device_nested (snd p) in_dev)).
      constructor.
      - intros d s c Hd Hs Hc Hsc. unfold chunk_jacobian.
        rewrite (slice_batch_chunk b) by first [assumption | apply call_b | apply call_conf].
        cbn [bind]. rewrite call_overrides by assumption. cbn [bind].
        rewrite (holds_model_at d Hd). cbn [bind].
        rewrite call_effective, to_device_on_dev, Hcomp. unfold ch1. cbn [fst snd].
        match goal with |- _ = rmap _ (ref ?x) => destruct (ref x) as [[o j]|e] end;
          cbn [rmap bind]; [|reflexivity].
        unfold on_jac, post. cbn [fst snd].
        rewrite to_device_on_dev, on_dev_idem, to_device_nested_on_nested. reflexivity.
      - intros [out j] Hout. destruct (Hrows out j Hout) as (Hfull & Hfj & Hch).
        exists (fun s c => (chunk_map b s c out, chunk_nested onds inds s c j)).
        split; [exact Hch|].
        intros l Htl Hne. unfold gather_jacobian. rewrite !map_map. unfold post. cbn [fst snd].
        rewrite (map_ext _ (chunk_at b (on_dev in_dev out)))
          by (intro x; apply on_dev_chunk_at).
        rewrite cat_batch_chunks by first [assumption | apply full_map_on_dev; assumption].
        cbn [bind].
        rewrite (map_ext_in (fun x => to_device_nested (chunk_nested onds inds _ _ j) in_dev)
                            (nchunk_at onds inds (on_nested in_dev j))).
        2:{ intros x Hx. pose proof (tiles_bounds _ _ _ _ Htl Hx) as (H1 & H2 & H3).
            rewrite (to_device_nested_full (Z.to_nat (snd x)) onds inds).
            - apply on_nested_chunk.
            - apply (full_nested_chunk b); [unfold valid_range; lia|exact Hfj]. }
        fold onds.
        rewrite (cat_batch_nested_chunks b)
          by first [assumption | apply full_nested_on; assumption].
        cbn [bind]. rewrite (to_device_nested_full b onds inds) by exact Hfj. reflexivity.
      - exact Hnew.
    Qed.

    (** C05 with [jac] and the input base ranks, C06 with [pjac] and the
        parameter base ranks. *)
    Lemma sync_jac_agrees jac ref inds :
      (forall d, computes1 jac on_jac ref d) ->
      jacobian_rows nds b (l_out (dp_layout D)) inds ref (P, I) ->
      agrees (sync_op n D I
                (fun st => jac (dp_active D) (effective st []) I)
                (fun in_dev b d s c => chunk_jacobian D in_dev b jac I d s c)
                (fun _ => gather_jacobian D inds))
             (jac in_dev (on_dev in_dev P) I).
    Proof.
      intros Hcomp [Hrows Hnew]. set (onds := l_out (dp_layout D)) in *.
      set (post := fun p : vmap * nmap => (on_dev in_dev (fst p), to_device_nested (snd p) in_dev)).
      assert (rmap (on_jac in_dev) (ref (P, I)) = rmap post (ref (P, I))) as Hpost.
      { destruct (ref (P, I)) as [[o j]|e] eqn:Er; [|reflexivity].
        destruct (Hrows o j eq_refl) as (_ & Hfj & _). cbn [rmap]. unfold on_jac, post.
        cbn [fst snd]. rewrite (to_device_nested_full b onds inds) by exact Hfj. reflexivity. }
      replace (jac in_dev (on_dev in_dev P) I) with (rmap post (ref (P, I))).
      2:{ rewrite <- (on_dev_all_on I in_dev) at 2 by apply (co_on _ _ _ _ _ _ H).
          rewrite Hcomp, Hpost. reflexivity. }
      apply (sync_op_generic n D I b in_dev _ _ _ ref (P, I) (ch1 nds b) post holds).
      - apply (co_n _ _ _ _ _ _ H).
      - apply call_b.
      - apply infer_batch_size_contract. apply (co_contract _ _ _ _ _ _ H).
      - apply call_input_device.
      - intro Ed. rewrite call_model_at. cbn [bind]. rewrite effective_nil, Ed, <- Hpost.
        rewrite <- (on_dev_all_on P in_dev) at 1 by (rewrite <- Ed; apply (co_pdev _ _ _ _ _ _ H)).
        rewrite <- (on_dev_all_on I in_dev) at 1 by apply (co_on _ _ _ _ _ _ H).
        apply Hcomp.
      - apply holds_active.
      - apply jac_chunked; first [assumption | split; assumption].
    Qed.

    (** C07. *)
    Lemma sum_parts_tiles add (g : nat -> nat -> vmap) q r0 :
      (forall s c1 c2, 0 < c1 -> 0 < c2 -> s + c1 + c2 <= b ->
         exists x y z, lookup q (g s c1) = Some x /\ lookup q (g (s + c1) c2) = Some y /\
                       lookup q (g s (c1 + c2)) = Some z /\ is_sum add x y z) ->
      lookup q (g 0 b) = Some r0 ->
      forall l s, tiles s (Z.of_nat b) l -> (0 < s)%Z ->
      forall acc, lookup q (g 0 (Z.to_nat s)) = Some acc ->
      forall parts,
        mapM (fun x => match lookup q (g (Z.to_nat (fst x)) (Z.to_nat (snd x))) with
                       | Some t => Ok (to_dev in_dev t)
                       | None => Err (Fatal "param_vjp: key missing from a chunk.")
                       end) l = Ok parts ->
        sum_parts add (to_dev in_dev acc) parts = Ok (to_dev in_dev r0).
    Proof.
      intros Hadd Hr l. induction l as [|[s' c] l IH]; intros s Ht Hs acc Hacc parts Hp.
      - inversion Ht; subst. cbn in Hp. injection Hp as <-. cbn [sum_parts].
        rewrite Nat2Z.id in Hacc. congruence.
      - inversion Ht as [|s0 c0 b0 l0 Hc Ht']; subst s0 c0 b0 l0 s'.
        cbn [mapM fst snd] in Hp.
        pose proof (tiles_le _ _ _ Ht') as Hle.
        destruct (Hadd 0 (Z.to_nat s) (Z.to_nat c)) as (x & y & z & Hx & Hy & Hz & Hsum); try lia.
        cbn [Nat.add] in Hy. rewrite Hacc in Hx. injection Hx as <-.
        rewrite Hy in Hp. cbn [bind] in Hp.
        destruct (mapM _ l) as [ps|e] eqn:Em; cbn [bind] in Hp; [|discriminate].
        injection Hp as <-. cbn [sum_parts]. unfold zip_same. cbn [to_dev t_shape t_data t_dev].
        destruct Hsum as (Hsh & Hsz & Hd). rewrite <- Hsh, shape_eqb_refl, device_eqb_refl.
        cbn [andb bind].
        replace (mkT (t_shape acc) _ in_dev) with (to_dev in_dev z)
          by (unfold to_dev; rewrite Hsz, Hd; reflexivity).
        eapply (IH (s + c)%Z Ht'); [lia| |reflexivity].
        replace (Z.to_nat (s + c)) with (Z.to_nat s + Z.to_nat c) by lia. exact Hz.
    Qed.

    Lemma param_batched_per_element q t :
      lookup q P = Some t ->
      (param_batched nds (Z.of_nat b) q t = true <-> per_element nds b P q).
    Proof.
      intro Hl. rewrite param_batched_spec by apply call_b.
      unfold per_element. fold (base_nd nds q). rewrite andb_true_iff, Nat.leb_le. split.
      - intros [Hd Hb]. exists t. repeat split; [exact Hl|apply has_lead_true; exact Hb|lia].
      - intros (t' & Hl' & Hb & Hd). assert (t' = t) by congruence. subst t'.
        split; [lia|apply has_lead_batched; exact Hb].
    Qed.

    Lemma param_vjp_chunked add pvjp ref C :
      conforming b C ->
      (forall d, computes2 pvjp on_dev ref d) ->
      vjp_rows nds b add ref (P, I, C) ->
      chunked b holds (chunk_param_vjp pvjp D in_dev (Z.of_nat b) I C) (gather_param_vjp add D (Z.of_nat b)) ref (P, I, C) (ch2 nds b) (on_dev in_dev).
    Proof.
      intros HcC Hcomp [Hrows Hnew].
      constructor.
      - intros d s c Hd Hs Hc Hsc. unfold chunk_param_vjp.
        rewrite (slice_batch_chunk b I) by first [assumption | apply call_b | apply call_conf].
        cbn [bind].
        rewrite (slice_batch_chunk b C) by first [assumption | apply call_b].
        cbn [bind]. rewrite call_overrides by assumption. cbn [bind].
        rewrite (holds_model_at d Hd). cbn [bind].
        rewrite call_effective, !to_device_on_dev, Hcomp. unfold ch2. cbn [fst snd].
        match goal with |- _ = rmap _ (ref ?x) => destruct (ref x) as [o|e] end;
          cbn [rmap bind]; [|reflexivity].
        rewrite !to_device_on_dev, !on_dev_idem. reflexivity.
      - intros r Hr. destruct (Hrows r Hr) as (Hnd & g & Hg & Hg0 & Hq).
        exists g. split; [intros s c Hv; apply (Hg s c Hv)|].
        intros l Htl Hne.
        assert (forall x, In x l -> keys (on_dev in_dev (g (Z.to_nat (fst x)) (Z.to_nat (snd x))))
                                    = keys r) as Hkeys.
        { intros x Hx. pose proof (tiles_bounds _ _ _ _ Htl Hx) as (H1 & H2 & H3).
          unfold on_dev. rewrite keys_vmap. apply Hg. unfold valid_range. lia. }
        destruct l as [|x [|y l]]; [congruence| |].
        { cbn [map gather_param_vjp]. inversion Htl as [|s c b' l' Hc Ht']; subst s b' l' x.
          inversion Ht' as [b'' Hb''|]; subst.
          cbn [fst snd Z.to_nat]. replace (Z.to_nat c) with b by lia. reflexivity. }
        set (l0 := x :: y :: l) in *.
        set (cs := map (fun x => on_dev in_dev (g (Z.to_nat (fst x)) (Z.to_nat (snd x)))) l0).
        assert (gather_param_vjp add D (Z.of_nat b) cs =
                let* params := master D in
                mapM (fun kt => let* t := stitch_one add D (Z.of_nat b) params cs (fst kt) in
                                Ok (fst kt, t))
                     (on_dev in_dev (g (Z.to_nat (fst x)) (Z.to_nat (snd x))))) as ->
            by reflexivity.
        unfold master. rewrite call_model_at. cbn [bind].
        transitivity (mapM (fun k => let* t := stitch_one add D (Z.of_nat b) P cs k in Ok (k, t))
                           (keys r)).
        { rewrite <- (Hkeys x) by (left; reflexivity). unfold keys. rewrite mapM_map. reflexivity. }
        assert (on_dev in_dev r = map (fun kt => (fst kt, to_dev in_dev (snd kt))) r) as ->
            by reflexivity.
        unfold keys. rewrite mapM_map. apply mapM_ok_map. intros [q t] Hin. cbn [fst snd].
        pose proof (lookup_nodup _ _ _ Hnd Hin) as Hlq.
        destruct (Hq q t Hlq) as [Hper Hglob].
        assert (forall z, In z l0 -> exists u,
                  lookup q (g (Z.to_nat (fst z)) (Z.to_nat (snd z))) = Some u) as Hpres.
        { intros z Hz. apply lookup_some_key. specialize (Hkeys z Hz).
          unfold on_dev in Hkeys. rewrite keys_vmap in Hkeys. rewrite Hkeys.
          apply (lookup_key_some _ _ _ Hlq). }
        assert (mapM (fun c => match lookup q c with
                               | Some t => Ok t
                               | None => Err (Fatal "param_vjp: key missing from a chunk.")
                               end) cs
                = mapM (fun x => match lookup q (g (Z.to_nat (fst x)) (Z.to_nat (snd x))) with
                       | Some t => Ok (to_dev in_dev t)
                       | None => Err (Fatal "param_vjp: key missing from a chunk.")
                       end) l0) as Hparts.
        { unfold cs. rewrite mapM_map. apply mapM_ext. intros z Hz.
          unfold on_dev. rewrite lookup_vmap.
          destruct (lookup q (g (Z.to_nat (fst z)) (Z.to_nat (snd z)))); reflexivity. }
        unfold stitch_one. rewrite Hparts.
        destruct (match lookup q P with
                  | Some t0 => param_batched (l_param (dp_layout D)) (Z.of_nat b) q t0
                  | None => false end) eqn:Eb.
        + (* per batch element *)
          destruct (lookup q P) as [t0|] eqn:E0; [|discriminate].
          assert (per_element nds b P q) as Hpe
              by (apply (param_batched_per_element q t0 E0); exact Eb).
          destruct (Hper Hpe) as (Hw & Hbt & Hsl).
          rewrite (mapM_ok_map _ (piece (to_dev in_dev t))).
          2:{ intros z Hz. pose proof (tiles_bounds _ _ _ _ Htl Hz) as (H1 & H2 & H3).
              destruct (Hsl (Z.to_nat (fst z)) (Z.to_nat (snd z))) as (u & Hu & Hcpu);
                [unfold valid_range; lia|].
              rewrite Hu. f_equal. unfold piece.
              rewrite <- to_dev_rows_of.
              rewrite <- (to_dev_to_dev in_dev cpu u), Hcpu. reflexivity. }
          cbn [bind].
          rewrite (cat0_tiling (to_dev in_dev t) b l0) by assumption. reflexivity.
        + (* global *)
          assert (~ per_element nds b P q) as Hnpe.
          { intro Hpe. pose proof Hpe as (t0 & E0 & _). rewrite E0 in Eb.
            apply (param_batched_per_element q t0 E0) in Hpe. unfold nds in Hpe. congruence. }
          specialize (Hglob Hnpe).
          destruct (mapM _ l0) as [parts|e] eqn:Em.
          2:{ exfalso. apply mapM_err_inv in Em. destruct Em as (z & Hz & Hze).
              destruct (Hpres z Hz) as [u Hu]. rewrite Hu in Hze. discriminate. }
          unfold l0 in Em. cbn [mapM] in Em.
          inversion Htl as [|s c b' l' Hc Ht']; subst s b' l' x. cbn [fst snd Z.to_nat] in *.
          destruct (Hpres (0, c)%Z) as [u Hu]; [left; reflexivity|].
          cbn [fst snd Z.to_nat] in Hu. rewrite Hu in Em. cbn [bind] in Em.
          match type of Em with bind ?m _ = _ => destruct m as [ps|e] eqn:Ep end;
            cbn [bind] in Em; [|discriminate].
          injection Em as <-. cbn [bind].
          rewrite (sum_parts_tiles add g q t Hglob ltac:(rewrite Hg0; exact Hlq)
                                   (y :: l) c Ht' Hc u Hu ps).
          * reflexivity.
          * cbn [mapM]. exact Ep.
      - exact Hnew.
    Qed.

    Lemma sync_param_vjp_agrees add pvjp ref C :
      conforming b C -> all_on in_dev C ->
      (forall d, computes2 pvjp on_dev ref d) ->
      vjp_rows nds b add ref (P, I, C) ->
      agrees (sync_param_vjp pvjp add n D I C) (pvjp in_dev (on_dev in_dev P) I C).
    Proof.
      intros HcC HdC Hcomp [Hrows Hnew].
      rewrite <- (on_dev_all_on I in_dev) at 2 by apply (co_on _ _ _ _ _ _ H).
      rewrite <- (on_dev_all_on C in_dev) at 2 by exact HdC.
      rewrite Hcomp. unfold sync_param_vjp.
      apply (sync_op_generic n D I b in_dev _ _ _ ref (P, I, C) (ch2 nds b) (on_dev in_dev) holds).
      - apply (co_n _ _ _ _ _ _ H).
      - apply call_b.
      - apply infer_batch_size_contract. apply (co_contract _ _ _ _ _ _ H).
      - apply call_input_device.
      - intro Ed. rewrite call_model_at. cbn [bind]. rewrite effective_nil, Ed.
        rewrite <- (on_dev_all_on P in_dev) at 1 by (rewrite <- Ed; apply (co_pdev _ _ _ _ _ _ H)).
        rewrite <- (on_dev_all_on I in_dev) at 1 by apply (co_on _ _ _ _ _ _ H).
        rewrite <- (on_dev_all_on C in_dev) at 1 by exact HdC.
        apply Hcomp.
      - apply holds_active.
      - apply param_vjp_chunked; first [assumption | split; assumption].
    Qed.
  End Call.
End S.
