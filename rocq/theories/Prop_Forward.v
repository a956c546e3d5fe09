(** Properties C08, C24, C25: input preparation, row independence of Model::forward
    and what happens outside the batch contract. *)
From Verif Require Import Base BaseProofs Tensor Spec TensorProofs BatchChunk Dispatch SpecDispatch DispatchProofs
     SyncProofs Example_Dispatch Broadcast SpecBroadcast BroadcastProofs FwdRows Misalign.

(** * C24 *)

(** Inputs with a common batch are all brought to it, element by element ... *)
Theorem C24_prepares : forall V infos (I : smap (tensor V)) dyn,
  NoDup (map in_name infos) -> ranks_ok infos I -> acceptable infos I dyn ->
  exists st, prepare_inputs infos I = Ok st /\ prepared infos I dyn st.
Proof. intros V. exact prepare_ok. Qed.
Print Assumptions C24_prepares.

(** ... preparation succeeds for no others ... *)
Theorem C24_only_acceptable : forall V infos (I : smap (tensor V)) st,
  NoDup (map in_name infos) -> ranks_ok infos I -> prepare_inputs infos I = Ok st ->
  exists dyn, acceptable infos I dyn /\ prepared infos I dyn st.
Proof. intros V. exact prepare_only. Qed.
Print Assumptions C24_only_acceptable.

Theorem C24_one_batch : forall ds d d', broadcast_of ds d -> broadcast_of ds d' -> d = d'.
Proof. exact broadcast_unique. Qed.
Print Assumptions C24_one_batch.

(** ... a missing input and a wrong base shape raise whatever the rest ... *)
Theorem C24_missing_or_wrong_raises : forall V infos (I : smap (tensor V)) i,
  In i infos ->
  (lookup (in_name i) I = None \/
   exists t, lookup (in_name i) I = Some t /\ forall pre, t_shape t <> pre ++ in_base i) ->
  exists e, prepare_inputs infos I = Err e.
Proof. intros V. exact prepare_bad. Qed.
Print Assumptions C24_missing_or_wrong_raises.

Theorem C24_incompatible_raises : forall V infos (I : smap (tensor V)),
  ranks_ok infos I -> (forall dyn, ~ acceptable infos I dyn) -> exists e, prepare_inputs infos I = Err e.
Proof. intros V. exact prepare_err. Qed.
Print Assumptions C24_incompatible_raises.

(** ... and undeclared inputs do not matter. *)
Theorem C24_extras_ignored : forall V infos (I I' : smap (tensor V)),
  (forall i, In i infos -> lookup (in_name i) I = lookup (in_name i) I') ->
  prepare_inputs infos I = prepare_inputs infos I'.
Proof. intros V. exact prepare_ignores. Qed.
Print Assumptions C24_extras_ignored.

(** x of shape (2, 1 | 2) and y of shape (3 | 2), base (2): common batch (2, 3). *)
Local Open Scope string_scope.
Definition ex24_infos : list in_info := [mkIn "x" [] [2]; mkIn "y" [] [2]].
Definition ex24_I : smap (tensor Z) :=
  [("x", mkT [2; 1; 2] [1; 2; 3; 4]%Z cpu); ("y", mkT [3; 2] [10; 20; 30; 40; 50; 60]%Z cpu);
   ("z", mkT [7] [0; 0; 0; 0; 0; 0; 0]%Z cpu)].
Local Close Scope string_scope.
Example C24_hypotheses :
  NoDup (map in_name ex24_infos) /\ ranks_ok ex24_infos ex24_I /\ acceptable ex24_infos ex24_I [2; 3].
Proof.
  split; [cbn; nodup|]. split.
  - intros i t [<-|[<-|[]]] E; cbn in E; injection E as <-; split; vm_compute; lia.
  - exists [[2; 1]; [3]]. split.
    + apply Forall2_cons; [|apply Forall2_cons; [|apply Forall2_nil]].
      * exists (mkT [2; 1; 2] [1; 2; 3; 4]%Z cpu), []. split; [reflexivity|split; reflexivity].
      * exists (mkT [3; 2] [10; 20; 30; 40; 50; 60]%Z cpu), []. split; [reflexivity|split; reflexivity].
    + apply infer_all_iff. reflexivity.
Qed.
Example C24_case :
  prepare_inputs ex24_infos ex24_I
  = Ok [("x"%string, mkT [2; 3; 2] [1; 2; 1; 2; 1; 2; 3; 4; 3; 4; 3; 4]%Z cpu);
        ("y"%string, mkT [2; 3; 2] [10; 20; 30; 40; 50; 60; 10; 20; 30; 40; 50; 60]%Z cpu)].
Proof. vm_compute. reflexivity. Qed.

(** Finding: the rank hypothesis is needed.  An input declared with a sub-batch axis but
    given without it is not refused: [t.size(d)] with [d] = -1 wraps, the base axis is
    taken twice and the tensor is silently broadcast along a made-up axis. *)
Theorem C24_missing_sub_axis_refuted :
  exists infos (I : smap (tensor Z)) i t st u,
    NoDup (map in_name infos) /\ In i infos /\ lookup (in_name i) I = Some t /\ wf t /\
    (forall dyn sub, ~ splits i t dyn sub) /\
    prepare_inputs infos I = Ok st /\ lookup (in_name i) st = Some u /\ t_shape u = [3; 3].
Proof.
  exists [mkIn "x" [4] [3]], [("x"%string, mkT [3] [1; 2; 3]%Z cpu)], (mkIn "x" [4] [3]),
         (mkT [3] [1; 2; 3]%Z cpu), [("x"%string, mkT [3; 3] [1; 2; 3; 1; 2; 3; 1; 2; 3]%Z cpu)],
         (mkT [3; 3] [1; 2; 3; 1; 2; 3; 1; 2; 3]%Z cpu).
  split; [cbn; nodup|]. split; [left; reflexivity|]. split; [reflexivity|]. split; [reflexivity|].
  split; [|split; [vm_compute; reflexivity|split; reflexivity]].
  intros dyn sub [S L]. cbn in S, L. apply (f_equal (@length nat)) in S.
  rewrite !app_length, L in S. cbn in S. lia.
Qed.
Print Assumptions C24_missing_sub_axis_refuted.

(** * C25 *)

(** Model::forward over any chain of forward segments whose graphs act row by row acts
    row by row: this is [forward_rows], the hypothesis of C03 and C09. *)
Theorem C25_forward_rows : forall V nds b infos sgs outs (P I : smap (tensor V)) r,
  1 <= b -> NoDup (map in_name infos) -> aligned b r infos I ->
  params_aligned b (param_brank r infos) nds P ->
  Forall (fun sg => graph_rows b (sg_run sg)) sgs ->
  forward_rows nds b
    (fun a => model_forward (fun p => at_ p (fst a)) nds infos sgs outs (snd a)) (P, I).
Proof. intros V nds b infos sgs outs P I r Hb. exact (forward_rows_ok nds b Hb infos sgs outs P I r). Qed.
Print Assumptions C25_forward_rows.

(** The Models of all devices compute the same function. *)
Theorem C25_devices : forall V nds infos outs (segs : device -> list (fseg V)) sgs d,
  Forall2 (seg_on d) (segs d) sgs ->
  computes1 (fun d P I => model_forward (fun p => at_ p P) nds infos (segs d) outs I) on_dev
            (fun a => model_forward (fun p => at_ p (fst a)) nds infos sgs outs (snd a)) d.
Proof.
  intros V nds infos outs segs sgs d H P I. cbn [fst snd]. exact (forward_dev d P I nds infos outs (segs d) sgs H).
Qed.
Print Assumptions C25_devices.

(** C03 with the hypothesis on the Model discharged: dispatching Model::forward
    synchronously in chunks returns what Model::forward returns. *)
Theorem C25_dispatched_forward : forall V n (D : disp V) P I b in_dev infos outs segs sgs r,
  call_ok n D P I b in_dev ->
  NoDup (map in_name infos) -> aligned b r infos I ->
  params_aligned b (param_brank r infos) (l_param (dp_layout D)) P ->
  Forall (fun sg => graph_rows b (sg_run sg)) sgs ->
  (forall d, Forall2 (seg_on d) (segs d) sgs) ->
  let fwd := fun d P I => model_forward (fun p => at_ p P) (l_param (dp_layout D)) infos (segs d) outs I in
  agrees (sync_forward fwd n D I) (fwd in_dev (on_dev in_dev P) I).
Proof.
  intros V n D P I b in_dev infos outs segs sgs r C N A PA G S fwd.
  refine (sync_forward_agrees n D P I b in_dev C fwd _ (fun d => C25_devices V _ infos outs segs sgs d (S d)) _).
  apply (C25_forward_rows V _ b infos sgs outs P I r); try assumption.
  destruct (co_contract _ _ _ _ _ _ C) as [Hb _]. exact Hb.
Qed.
Print Assumptions C25_dispatched_forward.

(** A two-segment model: z = x + p, then y = z + x. *)
Definition ex_add (ins : list (tensor Z)) : result (list (tensor Z)) :=
  match ins with
  | [x; p] =>
      if shape_eqb (t_shape x) (t_shape p)
      then Ok [mkT (t_shape x) (map (fun ab => (fst ab + snd ab)%Z) (combine (t_data x) (t_data p))) (t_dev x)]
      else Err (Fatal "shapes")
  | _ => Err (Fatal "arity")
  end.

Lemma skipn_combine {A B} n : forall (l : list A) (l' : list B),
  skipn n (combine l l') = combine (skipn n l) (skipn n l').
Proof.
  induction n as [|n IH]; intros [|x l] [|y l']; cbn; try reflexivity; [|apply IH].
  destruct (skipn n l); reflexivity.
Qed.

Lemma ex_add_rows b : 1 <= b -> graph_rows b ex_add.
Proof.
  intros Hb ins F. destruct ins as [|x [|p [|]]];
    try (split; [intros outs E; discriminate|intros rr T H; exfalso;
         destruct rr; [apply (tiles_nonempty _ _ _ T); [lia|reflexivity]|inversion H; discriminate]]).
  inversion F as [|? ? [Wx [rx Sx]] F']; subst. inversion F' as [|? ? [Wp [rp Sp]] _]; subst.
  unfold ex_add. cbn [map]. unfold rows_of. cbn [t_shape t_data t_dev]. rewrite Sx, Sp. cbn [tl shape_eqb].
  rewrite !Nat.eqb_refl. cbn [andb]. destruct (shape_eqb rx rp) eqn:E.
  - apply shape_eqb_eq in E. subst rp. split.
    + intros outs H. injection H as <-. split.
      * constructor; [|constructor]. split; [|exists rx; reflexivity].
        unfold wf in *. cbn [t_data t_shape]. rewrite map_length, combine_length, Wx, Wp, Sx, Sp. apply Nat.min_id.
      * intros s c [Vc Vs]. rewrite Nat.eqb_refl. cbn [andb map t_shape t_data t_dev tl].
        f_equal. f_equal. f_equal. rewrite <- combine_firstn, <- skipn_combine, skipn_map, firstn_map. reflexivity.
    + reflexivity.
  - split; [discriminate|]. intros l T H. destruct l as [|y l]; [exfalso; apply (tiles_nonempty _ _ _ T); [lia|reflexivity]|].
    inversion H as [|? ? H1 _]; subst. rewrite Nat.eqb_refl in H1. discriminate.
Qed.

Local Open Scope string_scope.
Definition ex25_seg1 : fseg Z := mkSeg ["x"] ["p"] ["z"] ex_add.
Definition ex25_seg2 : fseg Z := mkSeg ["z"; "x"] [] ["y"] ex_add.
Definition ex25_infos := [mkIn "x" [] []].
Definition ex25_model (a : zmap * zmap) : result zmap :=
  model_forward (fun p => at_ p (fst a)) [("p", 0)] ex25_infos [ex25_seg1; ex25_seg2] ["y"] (snd a).
Definition ex25_P : zmap := [("p", mkT [3] [10; 20; 30]%Z cpu)].
Definition ex25_I : zmap := [("x", mkT [3] [1; 2; 3]%Z cpu)].
Local Close Scope string_scope.
Example C25_hypotheses :
  NoDup (map in_name ex25_infos) /\ aligned 3 0 ex25_infos ex25_I /\
  params_aligned 3 (param_brank 0 ex25_infos) [("p"%string, 0)] ex25_P /\
  Forall (fun sg => graph_rows 3 (sg_run sg)) [ex25_seg1; ex25_seg2].
Proof.
  split; [cbn; nodup|]. split; [|split].
  - split.
    + intros i t [<-|[]] E. cbn in E. injection E as <-. split; [reflexivity|]. split; [cbn; lia|].
      left. split; [reflexivity|right; reflexivity].
    + eexists _, _. split; [left; reflexivity|]. split; [reflexivity|]. split; reflexivity.
  - intros q t nd E N. cbn in E. destruct (String.eqb q "p") eqn:Q; [|discriminate]. injection E as <-.
    cbn in N. rewrite Q in N. injection N as <-. split; [reflexivity|]. split; [intros _; right; reflexivity|].
    cbn. lia.
  - apply Forall_cons; [apply ex_add_rows; lia|]. apply Forall_cons; [apply ex_add_rows; lia|]. apply Forall_nil.
Qed.
Example C25_case :
  ex25_model (ex25_P, ex25_I) = Ok [("y"%string, mkT [3] [12; 24; 36]%Z cpu)] /\
  ex25_model (ch1 [("p"%string, 0)] 3 1 2 (ex25_P, ex25_I)) = Ok [("y"%string, mkT [2] [24; 36]%Z cpu)].
Proof. split; vm_compute; reflexivity. Qed.

Definition ex25_D : disp Z := mkDisp (mkLayout [("y"%string, 0)] [("x"%string, 0)] [("p"%string, 0)]) cpu [(cpu, ex25_P)].
Definition ex25_segs (d : device) : list (fseg Z) :=
  [mkSeg ["x"%string] ["p"%string] ["z"%string] (fun ins => rmap (map (to_dev d)) (ex_add ins));
   mkSeg ["z"%string; "x"%string] [] ["y"%string] (fun ins => rmap (map (to_dev d)) (ex_add ins))].
Lemma ex_add_dev d ins : rmap (map (to_dev d)) (ex_add (map (to_dev d) ins)) = rmap (map (to_dev d)) (ex_add ins).
Proof.
  destruct ins as [|x [|p [|]]]; try reflexivity. cbn [map ex_add to_dev t_shape t_data].
  destruct (shape_eqb (t_shape x) (t_shape p)); reflexivity.
Qed.
Example C25_dispatched_hypotheses :
  call_ok 2 ex25_D ex25_P ex25_I 3 cpu /\ (forall d, Forall2 (seg_on d) (ex25_segs d) [ex25_seg1; ex25_seg2]).
Proof.
  split.
  - constructor; try reflexivity; try lia.
    + split; [lia|]. split; [|right; apply Exists_cons_hd; eexists; reflexivity].
      apply Forall_cons; [|apply Forall_nil]. split; [reflexivity|right; right; eexists; reflexivity].
    + discriminate.
    + repeat constructor.
    + repeat constructor.
    + split; [cbn; nodup|repeat constructor].
  - intros d. repeat (apply Forall2_cons; [repeat (split; [reflexivity|]); intros ins; apply ex_add_dev|]).
    apply Forall2_nil.
Qed.

(** * C08 *)

(** The property as stated is false: x of shape (2, 2) and y of shape (2), both leading
    with the batch size, no graph mixing rows.  The Model aligns shapes at the end, so y is
    broadcast over rows; sliced in chunks of one row, y becomes one number per chunk.  No
    error is raised and the dispatched answer is another one. *)
Local Open Scope string_scope.
Definition ex08_segs : list (fseg Z) := [mkSeg ["x"; "y"] [] ["z"] ex_add].
Definition ex08_fwd (d : device) (P I : zmap) : result zmap :=
  model_forward (fun p => at_ p P) [] [mkIn "x" [] []; mkIn "y" [] []] ex08_segs ["z"] I.
Definition ex08_D : disp Z := mkDisp (mkLayout [("z", 0)] [("x", 0); ("y", 0)] []) cpu [(cpu, [])].
Definition ex08_I : zmap := [("x", mkT [2; 2] [1; 2; 3; 4]%Z cpu); ("y", mkT [2] [10; 20]%Z cpu)].
Local Close Scope string_scope.

Theorem C08_lower_rank_refuted :
  exists n (D : disp Z) (I : zmap) fwd r r',
    (forall b sg, 1 <= b -> In sg ex08_segs -> graph_rows b (sg_run sg)) /\
    fwd = ex08_fwd /\ contract 2 I /\
    sync_forward fwd n D I = Done (Ok r) /\ fwd cpu [] I = Ok r' /\ r <> r'.
Proof.
  exists 1%Z, ex08_D, ex08_I, ex08_fwd,
         [("z"%string, mkT [2; 2] [11; 12; 23; 24]%Z cpu)], [("z"%string, mkT [2; 2] [11; 22; 13; 24]%Z cpu)].
  split; [intros b sg Hb [<-|[]]; apply ex_add_rows; exact Hb|]. split; [reflexivity|]. split.
  - split; [lia|]. split; [|right; apply Exists_cons_hd; eexists; reflexivity].
    repeat (apply Forall_cons; [split; [reflexivity|right; right; eexists; reflexivity]|]). apply Forall_nil.
  - split; [vm_compute; reflexivity|]. split; [vm_compute; reflexivity|discriminate].
Qed.
Print Assumptions C08_lower_rank_refuted.

(** What does hold, for all five operations: when leading sizes other than 1 differ the
    call raises, or it was not divided at all.
    Missing for the full property: maps whose leading sizes agree but whose ranks do
    not, see [C08_lower_rank_refuted]; C25 shows that [aligned] is enough. *)
Theorem C08_leading_sizes_partial : forall V n (D : disp V) (I T : smap (tensor V)) fwd jvp jac pjac pvjp add k t k' t',
  (0 <= n < 2 ^ 63)%Z ->
  In (k, t) I -> 1 <= dim t -> lead t <> 1 -> In (k', t') I -> 1 <= dim t' -> lead t < lead t' ->
  let at_home {R} (f : smap (tensor V) -> result R) :=
    let* st := model_at D (dp_active D) in f (effective st []) in
  raises_or_undivided (sync_forward fwd n D I) (at_home (fun P => fwd (dp_active D) P I)) /\
  raises_or_undivided (sync_jvp jvp n D I T) (at_home (fun P => jvp (dp_active D) P I T)) /\
  raises_or_undivided (sync_jacobian jac n D I) (at_home (fun P => jac (dp_active D) P I)) /\
  raises_or_undivided (sync_param_jacobian pjac n D I) (at_home (fun P => pjac (dp_active D) P I)) /\
  raises_or_undivided (sync_param_vjp pvjp add n D I T) (at_home (fun P => pvjp (dp_active D) P I T)).
Proof. intros V. exact misaligned_all. Qed.
Print Assumptions C08_leading_sizes_partial.

Example C08_case :
  let I := [("x"%string, mkT [3] [1; 2; 3]%Z cpu); ("y"%string, mkT [2] [10; 20]%Z cpu)] in
  In ("y"%string, mkT [2] [10; 20]%Z cpu) I /\
  exists e, sync_forward ex08_fwd 1 ex08_D I = Done (Err e).
Proof. split; [right; left; reflexivity|]. eexists. vm_compute. reflexivity. Qed.
