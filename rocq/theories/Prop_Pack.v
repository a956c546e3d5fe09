(** Property C41: packing variables into group tensors and back. *)
From Verif Require Import Base BaseProofs Tensor Spec TensorProofs Broadcast SpecBroadcast BroadcastProofs Pack SpecPack PackProofs.

(** Variables held by the state are packed, and unpacking into any map gives every one of them back. *)
Theorem C41_pack_unpack : forall V (st : smap (tensor V)) groups,
  Forall group_ok groups -> Forall (fun g => exists dyn d, holds st dyn d g) groups ->
  exists gts, pack_groups st groups = Ok gts /\
    Forall2 (fun g gt => exists dyn d, holds st dyn d g /\ group_tensor g dyn d gt) groups gts /\
    forall st', exists st'', unpack_groups gts groups st' = Ok st'' /\
      (forall n, In n (names groups) -> lookup n st'' = lookup n st) /\
      (forall n, ~ In n (names groups) -> lookup n st'' = lookup n st').
Proof. intros V. exact pack_unpack_lookup. Qed.
Print Assumptions C41_pack_unpack.

(** Group tensors are unpacked, and packing again gives them back. *)
Theorem C41_unpack_pack : forall V groups gts (st : smap (tensor V)),
  Forall group_ok groups -> NoDup (names groups) ->
  Forall2 (fun g gt => exists dyn d, group_tensor g dyn d gt) groups gts ->
  exists st', unpack_groups gts groups st = Ok st' /\ pack_groups st' groups = Ok gts /\
    forall n, ~ In n (names groups) -> lookup n st' = lookup n st.
Proof. intros V. exact unpack_pack_groups. Qed.
Print Assumptions C41_unpack_pack.

(** Each element is in its slot ... *)
Theorem C41_slots : forall V g (st : smap (tensor V)) dyn d gt before v after b s x,
  group_ok g -> holds st dyn d g -> pack_group st g = Ok gt -> g_vars g = before ++ v :: after ->
  index_of dyn b -> index_of (v_sub v) s -> index_of (v_base v) x ->
  exists t, lookup (v_name v) st = Some t /\
    index_of (t_shape gt) (slot g before v b s x) /\ elem gt (slot g before v b s x) = elem t (b ++ s ++ x).
Proof. intros V. exact pack_slots. Qed.
Print Assumptions C41_slots.

(** ... no two elements of the group share one ... *)
Theorem C41_slots_disjoint : forall g dyn b1 v1 a1 i1 s1 x1 b2 v2 a2 i2 s2 x2, group_ok g ->
  g_vars g = b1 ++ v1 :: a1 -> g_vars g = b2 ++ v2 :: a2 ->
  index_of dyn i1 -> index_of (v_sub v1) s1 -> index_of (v_base v1) x1 ->
  index_of dyn i2 -> index_of (v_sub v2) s2 -> index_of (v_base v2) x2 ->
  slot g b1 v1 i1 s1 x1 = slot g b2 v2 i2 s2 x2 ->
  b1 = b2 /\ v1 = v2 /\ i1 = i2 /\ s1 = s2 /\ x1 = x2.
Proof. exact slots_disjoint. Qed.
Print Assumptions C41_slots_disjoint.

(** ... and there is nothing else in a group tensor. *)
Theorem C41_slots_cover : forall g dyn idx, group_ok g -> index_of (axes g dyn ++ [width_of g (g_vars g)]) idx ->
  exists b v a i s x, g_vars g = b ++ v :: a /\ index_of dyn i /\ index_of (v_sub v) s /\ index_of (v_base v) x /\
    idx = slot g b v i s x.
Proof. exact slots_cover. Qed.
Print Assumptions C41_slots_cover.

Theorem C41_missing_raises : forall V (st : smap (tensor V)) groups g v,
  In g groups -> In v (g_vars g) -> lookup (v_name v) st = None -> exists e, pack_groups st groups = Err e.
Proof. intros V. exact pack_missing. Qed.
Print Assumptions C41_missing_raises.

(** A dense group of "a" (base 2) and "c" (sub-batch 2, base 1) and a block group of "p" (sub-batch 2, base 2)
    and "q" (sub-batch 2, base 1), over a batch of 2. *)
Local Open Scope string_scope.
Definition ex41_dense := mkGroup "dense" [] [mkVar "a" [] [2]; mkVar "c" [2] [1]].
Definition ex41_block := mkGroup "block" [2] [mkVar "p" [2] [2]; mkVar "q" [2] [1]].
Definition ex41_st : smap (tensor Z) :=
  [("a", mkT [2; 2] [1; 2; 3; 4]%Z cpu); ("c", mkT [2; 2; 1] [10; 20; 30; 40]%Z cpu);
   ("p", mkT [2; 2; 2] [51; 52; 53; 54; 55; 56; 57; 58]%Z cpu); ("q", mkT [2; 2; 1] [61; 62; 63; 64]%Z cpu);
   ("z", mkT [1] [0]%Z cpu)].
Local Close Scope string_scope.
Lemma ex41_ok : Forall group_ok [ex41_dense; ex41_block].
Proof.
  apply Forall_cons; [|apply Forall_cons; [|apply Forall_nil]]; (split; [discriminate|]); intros H; [discriminate H|].
  repeat constructor.
Qed.
Lemma ex41_holds : Forall (fun g => holds ex41_st [2] cpu g) [ex41_dense; ex41_block].
Proof.
  apply Forall_cons; [|apply Forall_cons; [|apply Forall_nil]]; intros v [<-|[<-|[]]]; eexists; repeat split.
Qed.
Example C41_hypotheses : Forall group_ok [ex41_dense; ex41_block] /\
  Forall (fun g => exists dyn d, holds ex41_st dyn d g) [ex41_dense; ex41_block] /\ NoDup (names [ex41_dense; ex41_block]) /\
  index_of [2] [1] /\ slot ex41_dense [mkVar "a" [] [2]] (mkVar "c" [2] [1]) [1] [1] [0] = [1; 3] /\
  slot ex41_block [mkVar "p" [2] [2]] (mkVar "q" [2] [1]) [1] [0] [0] = [1; 0; 2].
Proof.
  split; [exact ex41_ok|]. split.
  { eapply Forall_impl; [|exact ex41_holds]. intros g H. exists [2], cpu. exact H. }
  split; [cbn; repeat (constructor; [cbn; intuition discriminate|]); constructor|]. split; [repeat constructor|]. split; reflexivity.
Qed.
Example C41_packed : pack_groups ex41_st [ex41_dense; ex41_block] =
  Ok [mkT [2; 4] [1; 2; 10; 20; 3; 4; 30; 40]%Z cpu;
      mkT [2; 2; 3] [51; 52; 61; 53; 54; 62; 55; 56; 63; 57; 58; 64]%Z cpu].
Proof. vm_compute. reflexivity. Qed.
Example C41_missing : pack_groups (skipn 1 ex41_st) [ex41_dense; ex41_block] =
  Err (Fatal "aoti::Model::_pack_groups: state missing variable").
Proof. reflexivity. Qed.
