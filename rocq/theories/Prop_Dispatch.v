(** Properties C01-C07 (C08 is in Prop_Forward.v): the synchronous dispatcher. *)
From Coq Require Import SpecFloat.
From Verif Require Import Base Tensor Spec BatchChunk Dispatch SpecDispatch
     DispatchProofs SelectProofs SyncProofs Example_Dispatch.

(** * C01 *)

(** One synchronous call evaluates the chunk function on ranges that tile the
    batch, none longer than the scheduler's batch size (0 = no limit), all but
    the last of exactly that size; the loop ends. *)
Theorem C01_sync_chunks_tile : forall n b,
  (0 <= n < 2 ^ 63)%Z -> (1 <= b)%Z ->
  exists l, tiles 0 b l /\
    (forall x, In x l -> (snd x <= (if (n =? 0)%Z then b else n))%Z) /\
    full_but_last (if (n =? 0)%Z then b else Z.min n b) l /\
    (forall R (f : Z -> Z -> result R),
        sync_chunks n b f = Done (mapM (fun x => f (fst x) (snd x)) l)).
Proof. exact sync_chunks_tile. Qed.
Print Assumptions C01_sync_chunks_tile.

Example C01_case :
  sync_chunks 3 8 (fun s c => Ok (s, c)) = Done (Ok [(0, 3); (3, 3); (6, 2)]%Z).
Proof. vm_compute. reflexivity. Qed.

(** Finding: the property's "every size_t batch size" is false.  From 2^63 on,
    the cast to int64 makes the chunk length negative: the very first range
    handed to the Model is (0, n - 2^64), and no tiling is ever evaluated. *)
Theorem C01_huge_batch_size_refuted :
  exists n b, (0 <= n < 2 ^ 64)%Z /\ (1 <= b)%Z /\
    (forall l, tiles 0 b l -> sync_chunks n b (fun s c => Ok (s, c)) <> Done (Ok l)) /\
    (forall R (f : Z -> Z -> result R) e,
        f 0%Z (n - 2 ^ 64)%Z = Err e -> sync_chunks n b f = Done (Err e)).
Proof.
  exists (2 ^ 63)%Z, 4%Z. split; [lia|]. split; [lia|]. split.
  - intros l _. vm_compute. discriminate.
  - intros R f e H. vm_compute in H. vm_compute.
    rewrite H. reflexivity.
Qed.
Print Assumptions C01_huge_batch_size_refuted.

(** * C02 *)

Theorem C02_slice_cat : forall V b (m : smap (tensor V)) l,
  1 <= b -> full_map b m -> tiles 0 (Z.of_nat b) l ->
  exists chunks,
    mapM (fun x => slice_batch m (fst x) (snd x)) l = Ok chunks /\
    length chunks = length l /\ cat_batch chunks = Ok m.
Proof. intros V. exact slice_cat_roundtrip. Qed.
Print Assumptions C02_slice_cat.

(** What a chunk sees of a conforming map. *)
Theorem C02_slice_entries : forall V b (m : smap (tensor V)) s c,
  1 <= b -> conforming b m -> (0 <= s)%Z -> (0 < c)%Z -> (s + c <= Z.of_nat b)%Z ->
  exists sl, slice_batch m s c = Ok sl /\ keys sl = keys m /\
    forall k t, lookup k m = Some t ->
      exists u, lookup k sl = Some u /\
        (batched b t -> is_rows (Z.to_nat s) (Z.to_nat c) t u) /\
        (~ batched b t -> u = t).
Proof. intros V. exact slice_entries. Qed.
Print Assumptions C02_slice_entries.

Theorem C02_select_scatter_self : forall V b (m : smap (tensor V)) idx,
  full_map b m -> idx_ok b idx ->
  exists sub, index_select_batch m idx = Ok sub /\ scatter_batch m idx sub = Ok m.
Proof. intros V. exact select_scatter_self. Qed.
Print Assumptions C02_select_scatter_self.

Theorem C02_select_scatter_rows : forall V b (src dst : smap (tensor V)) idx,
  full_map b src -> full_map b dst -> idx_ok b idx -> NoDup idx ->
  (forall k t s, lookup k dst = Some t -> lookup k src = Some s -> t_shape t = t_shape s) ->
  exists sub dst',
    index_select_batch src idx = Ok sub /\ scatter_batch dst idx sub = Ok dst' /\
    keys dst' = keys dst /\
    forall k t t', lookup k dst = Some t -> lookup k dst' = Some t' ->
      t_shape t' = t_shape t /\
      match lookup k src with
      | None => t' = t
      | Some s =>
          (forall i, In i idx -> row t' (Z.to_nat i) = row s (Z.to_nat i)) /\
          (forall i, i < b -> ~ In (Z.of_nat i) idx -> row t' i = row t i)
      end.
Proof. intros V. exact select_scatter_rows. Qed.
Print Assumptions C02_select_scatter_rows.

Definition ex_A : smap (tensor Z) := [("a"%string, mkT [3; 2] [1; 2; 3; 4; 5; 6]%Z cpu)].
Definition ex_B : smap (tensor Z) := [("a"%string, mkT [3; 2] [10; 20; 30; 40; 50; 60]%Z cpu)].
Example C02_hypotheses : full_map 3 ex_A /\ full_map 3 ex_B /\ idx_ok 3 [2; 0]%Z /\
                         tiles 0 3 [(0, 2); (2, 1)]%Z /\ conforming 3 ex_I.
Proof.
  assert (forall l : list Z, length l = 6 -> full_map 3 [("a"%string, mkT [3; 2] l cpu)]) as H.
  { intros l Hl. split; [nodup|]. apply Forall_cons; [|apply Forall_nil].
    split; [exact Hl|apply batched1]. }
  split; [apply H; reflexivity|]. split; [apply H; reflexivity|].
  split; [repeat constructor; lia|]. split; [|apply ex_contract].
  apply tiles_cons; [lia|]. apply tiles_cons; [lia|]. apply tiles_nil.
Qed.
Example C02_case :
  (let* sub := index_select_batch ex_A [2; 0]%Z in scatter_batch ex_B [2; 0]%Z sub)
  = Ok [("a"%string, mkT [3; 2] [1; 2; 30; 40; 5; 6]%Z cpu)].
Proof. vm_compute. reflexivity. Qed.

(** * C03 -- forward.  [fwd d P I] is the Model loaded on device [d] evaluated
    with parameters [P]; [ref] is what it computes, device aside; the only
    hypothesis on it is that batch rows do not interact ([forward_rows]). *)
Theorem C03_forward : forall V n (D : disp V) P I b in_dev fwd ref,
  call_ok n D P I b in_dev ->
  (forall d, computes1 fwd on_dev ref d) ->
  forward_rows (l_param (dp_layout D)) b ref (P, I) ->
  agrees (sync_forward fwd n D I) (fwd in_dev (on_dev in_dev P) I).
Proof. intros V n D P I b in_dev fwd ref H. exact (sync_forward_agrees n D P I b in_dev H fwd ref). Qed.
Print Assumptions C03_forward.

Example C03_hypotheses :
  call_ok 2 (ex_D ex_P) ex_P ex_I 3 cpu /\ (forall d, computes1 ex_fwd on_dev ex_ref d) /\
  forward_rows (l_param (dp_layout (ex_D ex_P))) 3 ex_ref (ex_P, ex_I).
Proof. split; [apply ex_call_ok; apply ex_P_ok|]. split; [exact ex_fwd_computes|exact ex_forward_rows]. Qed.
Example C03_case :
  sync_forward ex_fwd 2 (ex_D ex_P) ex_I
  = Done (Ok [("y"%string, mkT [3] [11; 22; 33]%Z cpu)]).
Proof. vm_compute. reflexivity. Qed.

(** * C04 -- jvp *)
Theorem C04_jvp : forall V n (D : disp V) P I b in_dev jvp ref T,
  call_ok n D P I b in_dev ->
  conforming b T -> all_on in_dev T ->
  (forall d, computes2 jvp on_pair ref d) ->
  jvp_rows (l_param (dp_layout D)) b ref (P, I, T) ->
  agrees (sync_jvp jvp n D I T) (jvp in_dev (on_dev in_dev P) I T).
Proof. intros V n D P I b in_dev jvp ref T H. exact (sync_jvp_agrees n D P I b in_dev H jvp ref T). Qed.
Print Assumptions C04_jvp.

Example C04_hypotheses :
  call_ok 2 (ex_D ex_P) ex_P ex_I 3 cpu /\ conforming 3 ex_T /\ all_on cpu ex_T /\
  (forall d, computes2 ex_jvp on_pair ex_tref d) /\
  jvp_rows (l_param (dp_layout (ex_D ex_P))) 3 ex_tref (ex_P, ex_I, ex_T).
Proof.
  split; [apply ex_call_ok; apply ex_P_ok|].
  split; [apply Forall_cons; [|apply Forall_nil]; split; [reflexivity|right; right; apply batched1]|].
  split; [repeat constructor|]. split; [exact ex_jvp_computes|exact ex_jvp_rows].
Qed.
Example C04_case :
  sync_jvp ex_jvp 2 (ex_D ex_P) ex_I ex_T
  = Done (Ok ([("y"%string, mkT [3] [11; 22; 33]%Z cpu)], [("y"%string, mkT [3] [4; 5; 6]%Z cpu)])).
Proof. vm_compute. reflexivity. Qed.

(** * C05 -- jacobian *)
Theorem C05_jacobian : forall V n (D : disp V) P I b in_dev jac ref,
  call_ok n D P I b in_dev ->
  (forall d, computes1 jac on_jac ref d) ->
  jacobian_rows (l_param (dp_layout D)) b (l_out (dp_layout D)) (l_in (dp_layout D)) ref (P, I) ->
  agrees (sync_jacobian jac n D I) (jac in_dev (on_dev in_dev P) I).
Proof. intros V n D P I b in_dev jac ref H. exact (sync_jac_agrees n D P I b in_dev H jac ref _). Qed.
Print Assumptions C05_jacobian.

Example C05_hypotheses :
  call_ok 2 (ex_D ex_P) ex_P ex_I 3 cpu /\ (forall d, computes1 ex_jac on_jac ex_jref d) /\
  jacobian_rows (l_param (dp_layout (ex_D ex_P))) 3 (l_out (dp_layout (ex_D ex_P)))
                (l_in (dp_layout (ex_D ex_P))) ex_jref (ex_P, ex_I).
Proof. split; [apply ex_call_ok; apply ex_P_ok|]. split; [exact ex_jac_computes|exact ex_jac_rows]. Qed.
(** The batch-independent block comes back once. *)
Example C05_case :
  sync_jacobian ex_jac 2 (ex_D ex_P) ex_I
  = Done (Ok ([("y"%string, mkT [3] [11; 22; 33]%Z cpu)],
              [("y"%string, [("x"%string, mkT [] [1]%Z cpu)])])).
Proof. vm_compute. reflexivity. Qed.

(** * C06 -- parameters stored per batch element; [forward_rows] (C03) already
    quantifies over the rows of such parameters, here is param_jacobian. *)
Theorem C06_param_jacobian : forall V n (D : disp V) P I b in_dev pjac ref,
  call_ok n D P I b in_dev ->
  (forall d, computes1 pjac on_jac ref d) ->
  jacobian_rows (l_param (dp_layout D)) b (l_out (dp_layout D)) (l_param (dp_layout D)) ref (P, I) ->
  agrees (sync_param_jacobian pjac n D I) (pjac in_dev (on_dev in_dev P) I).
Proof. intros V n D P I b in_dev pjac ref H. exact (sync_jac_agrees n D P I b in_dev H pjac ref _). Qed.
Print Assumptions C06_param_jacobian.

(** The parameter values a chunk is evaluated with. *)
Theorem C06_chunk_parameters : forall V nds (P : smap (tensor V)) b s c d,
  params_ok P -> 1 <= b -> (0 <= s)%Z -> (0 <= c)%Z -> (s + c <= Z.of_nat b)%Z ->
  exists ov, chunk_param_overrides nds P s c (Z.of_nat b) d = Ok ov /\
    forall q t, lookup q P = Some t ->
      exists u, lookup q (effective (on_dev d P) ov) = Some u /\
        (batched b t -> base_nd nds q < dim t ->
           is_rows (Z.to_nat s) (Z.to_nat c) (to_dev d t) u) /\
        (~ (batched b t /\ base_nd nds q < dim t) -> u = to_dev d t).
Proof. intros V. exact chunk_parameters. Qed.
Print Assumptions C06_chunk_parameters.

Example C06_hypotheses :
  call_ok 2 (ex_D ex_P) ex_P ex_I 3 cpu /\ (forall d, computes1 ex_pjac on_jac ex_pjref d) /\
  jacobian_rows (l_param (dp_layout (ex_D ex_P))) 3 (l_out (dp_layout (ex_D ex_P)))
                (l_param (dp_layout (ex_D ex_P))) ex_pjref (ex_P, ex_I).
Proof. split; [apply ex_call_ok; apply ex_P_ok|]. split; [exact ex_pjac_computes|exact ex_pjac_rows]. Qed.
Example C06_case :
  chunk_param_overrides [("p"%string, 0%nat)] ex_P 1 2 3 cpu
  = Ok [("p"%string, mkT [2] [20; 30]%Z cpu)].
Proof. vm_compute. reflexivity. Qed.

(** * C07 -- param_vjp.  Per-element gradients are concatenated, the others
    summed; [vjp_rows] asks the Model's gradient of a parameter that is not per
    element to be additive over adjacent ranges for the addition [add]. *)
Theorem C07_param_vjp : forall V n (D : disp V) P I b in_dev add pvjp ref C,
  call_ok n D P I b in_dev ->
  conforming b C -> all_on in_dev C ->
  (forall d, computes2 pvjp on_dev ref d) ->
  vjp_rows (l_param (dp_layout D)) b add ref (P, I, C) ->
  agrees (sync_param_vjp pvjp add n D I C) (pvjp in_dev (on_dev in_dev P) I C).
Proof. intros V n D P I b in_dev add pvjp ref C H. exact (sync_param_vjp_agrees n D P I b in_dev H add pvjp ref C). Qed.
Print Assumptions C07_param_vjp.

Lemma ex_C_ok : conforming 3 ex_C /\ all_on cpu ex_C.
Proof.
  split; [apply Forall_cons; [|apply Forall_nil]; split; [reflexivity|right; right; apply batched1]|].
  repeat constructor.
Qed.
Example C07_hypotheses :
  (forall d, computes2 ex_pvjp on_dev ex_vref d) /\
  call_ok 2 (ex_D ex_P) ex_P ex_I 3 cpu /\
  vjp_rows (l_param (dp_layout (ex_D ex_P))) 3 Z.add ex_vref (ex_P, ex_I, ex_C) /\
  call_ok 2 (ex_D ex_Pg) ex_Pg ex_I 3 cpu /\
  vjp_rows (l_param (dp_layout (ex_D ex_Pg))) 3 Z.add ex_vref (ex_Pg, ex_I, ex_C).
Proof.
  split; [exact ex_pvjp_computes|]. split; [apply ex_call_ok; apply ex_P_ok|].
  split; [exact ex_vjp_rows_elem|]. split; [apply ex_call_ok; apply ex_Pg_ok|].
  exact ex_vjp_rows_global.
Qed.
Example C07_case :
  sync_param_vjp ex_pvjp Z.add 2 (ex_D ex_P) ex_I ex_C
  = Done (Ok [("p"%string, mkT [3] [4; 5; 6]%Z cpu)]) /\
  sync_param_vjp ex_pvjp Z.add 2 (ex_D ex_Pg) ex_I ex_C
  = Done (Ok [("p"%string, mkT [] [15]%Z cpu)]).
Proof. split; vm_compute; reflexivity. Qed.

(** Finding: the two "is it batched" rules disagree.  The Model keeps the
    gradient per element as soon as the stored parameter has an axis beyond its
    base (aoti/ops.cpp:397-413); the dispatcher concatenates only when that axis
    has the call's batch size and sums otherwise.  A parameter stored with a
    leading axis of size 1 falls between: chunk gradients of shape (2) are
    added, and the answer has the wrong shape, silently. *)
Definition ex_P1 : zmap := [("p"%string, mkT [1] [10]%Z (cuda 0))].
Definition ex_I4 : zmap := [("x"%string, mkT [4] [1; 2; 3; 4]%Z cpu)].
Definition ex_C4 : zmap := [("y"%string, mkT [4] [4; 5; 6; 7]%Z cpu)].
Theorem C07_size_one_parameter_refuted :
  call_ok 2 (ex_D ex_P1) ex_P1 ex_I4 4 cpu /\ conforming 4 ex_C4 /\ all_on cpu ex_C4 /\
  (forall d, computes2 ex_pvjp on_dev ex_vref d) /\
  ex_pvjp cpu (on_dev cpu ex_P1) ex_I4 ex_C4
  = Ok [("p"%string, mkT [4] [4; 5; 6; 7]%Z cpu)] /\
  sync_param_vjp ex_pvjp Z.add 2 (ex_D ex_P1) ex_I4 ex_C4
  = Done (Ok [("p"%string, mkT [2] [10; 12]%Z cpu)]).
Proof.
  assert (forall k (l : list Z), length l = 4 -> conforming 4 [(k, mkT [4] l cpu)]) as Hc.
  { intros k l Hl. apply Forall_cons; [|apply Forall_nil].
    split; [exact Hl|right; right; apply batched1]. }
  split; [constructor|].
  - lia.
  - split; [lia|]. split; [apply Hc; reflexivity|]. right. apply Exists_cons_hd. apply batched1.
  - discriminate.
  - repeat constructor.
  - reflexivity.
  - repeat constructor.
  - split; [nodup|]. repeat constructor.
  - split; [apply Hc; reflexivity|]. split; [repeat constructor|].
    split; [exact ex_pvjp_computes|]. split; vm_compute; reflexivity.
Qed.
Print Assumptions C07_size_one_parameter_refuted.

(** Finding: with binary64 addition the sum over chunks is regrouped, so even
    for a Model that is row-independent the gradient of a global parameter
    depends on the chunk size: ((2^53 + 0) + 1) + 1 rounds back to 2^53 while
    (2^53 + 0) + (1 + 1) is 2^53 + 2. *)
Definition f64_add := SFadd 53 1024.
Definition f64 (z : Z) : spec_float := binary_normalize 53 1024 z 0 false.
Definition fx_P : smap (tensor spec_float) := [("p"%string, mkT [] [f64 10] (cuda 0))].
Definition fx_I : smap (tensor spec_float) :=
  [("x"%string, mkT [4] [f64 1; f64 2; f64 3; f64 4] cpu)].
Definition fx_C : smap (tensor spec_float) :=
  [("y"%string, mkT [4] [f64 (2 ^ 53); f64 0; f64 1; f64 1] cpu)].
Definition fx_D : disp spec_float := mkDisp ex_layout (cuda 0) [(cuda 0, fx_P)].
Theorem C07_binary64_regrouping_refuted :
  let pvjp := gv_pvjp f64_add (f64 0) in
  (forall d, computes2 pvjp on_dev (gv_ref f64_add (f64 0)) d) /\
  pvjp cpu (on_dev cpu fx_P) fx_I fx_C = Ok [("p"%string, mkT [] [f64 (2 ^ 53)] cpu)] /\
  sync_param_vjp pvjp f64_add 2 fx_D fx_I fx_C
  = Done (Ok [("p"%string, mkT [] [f64 (2 ^ 53 + 2)] cpu)]) /\
  f64 (2 ^ 53) <> f64 (2 ^ 53 + 2).
Proof.
  split; [exact (gv_pvjp_computes f64_add (f64 0))|].
  split; [vm_compute; reflexivity|]. split; [vm_compute; reflexivity|].
  vm_compute. discriminate.
Qed.
Print Assumptions C07_binary64_regrouping_refuted.
