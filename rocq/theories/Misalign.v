(** Inputs whose leading sizes do not agree are refused by the dispatcher, or the call
    is not divided. *)
From Verif Require Import Base BaseProofs Tensor Spec TensorProofs BatchChunk Dispatch DispatchProofs.

Lemma tiles_last s b l : tiles s b l -> (s < b)%Z -> exists x, In x l /\ (fst x + snd x)%Z = b.
Proof.
  induction 1 as [b|s c b l Hc T IH]; intros Lt; [lia|].
  destruct (Z.eq_dec (s + c) b) as [E|E]; [exists (s, c); split; [left; reflexivity|exact E]|].
  pose proof (tiles_le _ _ _ T). destruct IH as (x & Ix & Ex); [lia|]. exists x. split; [right; exact Ix|exact Ex].
Qed.

Section Misalign.
  Context {V : Type}.
  Notation vmap := (smap (tensor V)).

  Lemma infer_ge_one (m : vmap) : (1 <= infer_batch_size m)%Z.
  Proof. unfold infer_batch_size. apply infer_ge. Qed.

  Lemma slice_bad (m : vmap) k t s c :
    In (k, t) m -> 1 <= dim t -> lead t <> 1 -> (Z.of_nat (lead t) < s + c)%Z -> (0 < c)%Z -> (0 <= s)%Z ->
    exists e, slice_batch m s c = Err e.
  Proof.
    intros I D L H Hc Hs. unfold slice_batch. induction m as [|[k' t'] m IH]; [destruct I|]. cbn [vmapM].
    destruct I as [E|I].
    - injection E as -> ->. unfold slice_entry.
      destruct (Nat.leb_spec 1 (dim t)); [|lia]. destruct (Nat.eqb_spec (lead t) 1) as [|_]; [congruence|]. cbn [negb andb].
      unfold lead, dim in *. unfold narrow0. destruct (t_shape t) as [|n0 r]; [cbn in D; lia|].
      destruct (Z.ltb_spec c 0); [cbn; eauto|]. destruct (_ || _); [cbn; eauto|].
      destruct (Z.ltb_spec s 0); [lia|]. destruct (Z.leb_spec s (Z.of_nat n0 - c)); [lia|]. cbn. eauto.
    - destruct (slice_entry s c t'); cbn [bind]; [|eauto]. destruct (IH I) as [e ->]. cbn. eauto.
  Qed.

  Lemma sync_op_misaligned {R} n (D : disp V) (I : vmap) direct
        (chunk_fn : device -> Z -> device -> Z -> Z -> result R) gather k t k' t' :
    (0 <= n < 2 ^ 63)%Z ->
    In (k, t) I -> 1 <= dim t -> lead t <> 1 -> In (k', t') I -> 1 <= dim t' -> lead t < lead t' ->
    (forall in_dev b d s c e, slice_batch I s c = Err e -> exists e', chunk_fn in_dev b d s c = Err e') ->
    (exists e, sync_op n D I direct chunk_fn gather = Done (Err e)) \/
    sync_op n D I direct chunk_fn gather = Done (let* st := model_at D (dp_active D) in direct st).
  Proof.
    intros Hn I1 D1 L1 I2 D2 Lt Hf. unfold sync_op. destruct (input_device I) as [in_dev|e] eqn:Ed; [|eauto].
    destruct (_ && _); [right; reflexivity|left].
    pose proof (infer_ge_one I) as B1.
    assert (Bt : (Z.of_nat (lead t) < infer_batch_size I)%Z).
    { pose proof (infer_lower I 1 (k', t') I2 D2) as Q. cbn [snd] in Q. unfold infer_batch_size. lia. }
    destruct (sync_chunks_tile n (infer_batch_size I) Hn B1) as (l & T & _ & _ & Hl).
    rewrite Hl. destruct (tiles_last _ _ _ T) as (x & Ix & Ex); [lia|].
    pose proof (tiles_bounds _ _ _ _ T Ix) as Bx.
    destruct (slice_bad I k t (fst x) (snd x) I1 D1 L1) as [e E]; [lia|lia|lia|].
    destruct (Hf in_dev (infer_batch_size I) (dp_active D) (fst x) (snd x) e E) as [e' E'].
    destruct (mapM_err_in (fun x => chunk_fn in_dev (infer_batch_size I) (dp_active D) (fst x) (snd x)) l x e' Ix E') as [e'' ->]. cbn. eauto.
  Qed.

  (** The five operations. *)
  Definition raises_or_undivided {R} (x : loop_result R) (direct : result R) : Prop :=
    (exists e, x = Done (Err e)) \/ x = Done direct.

  Lemma misaligned_all n (D : disp V) (I T : vmap) fwd jvp jac pjac pvjp add k t k' t' :
    (0 <= n < 2 ^ 63)%Z ->
    In (k, t) I -> 1 <= dim t -> lead t <> 1 -> In (k', t') I -> 1 <= dim t' -> lead t < lead t' ->
    let at_home {R} (f : vmap -> result R) := let* st := model_at D (dp_active D) in f (effective st []) in
    raises_or_undivided (sync_forward fwd n D I) (at_home (fun P => fwd (dp_active D) P I)) /\
    raises_or_undivided (sync_jvp jvp n D I T) (at_home (fun P => jvp (dp_active D) P I T)) /\
    raises_or_undivided (sync_jacobian jac n D I) (at_home (fun P => jac (dp_active D) P I)) /\
    raises_or_undivided (sync_param_jacobian pjac n D I) (at_home (fun P => pjac (dp_active D) P I)) /\
    raises_or_undivided (sync_param_vjp pvjp add n D I T) (at_home (fun P => pvjp (dp_active D) P I T)).
  Proof.
    intros Hn I1 D1 L1 I2 D2 Lt. cbv zeta. unfold raises_or_undivided.
    split; [|split; [|split; [|split]]];
      (eapply sync_op_misaligned; [exact Hn|exact I1|exact D1|exact L1|exact I2|exact D2|exact Lt|]);
      intros in_dev b d s c e E;
      unfold chunk_forward, chunk_jvp, chunk_jacobian, chunk_param_vjp; rewrite E; cbn; eauto.
  Qed.
End Misalign.
