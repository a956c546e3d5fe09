(** Property C80: what a captured failure carries, and where it comes from. *)
From Coq Require Import String Permutation.
From Verif Require Import Base Tensor Spec Float Newton SpecNewton Example_Newton BatchChunk Broadcast Pack SpecPack Implicit Substep Mat Jac SubstepJac JacModel FwdModel
     SystemAoti SpecSolved SolvedProofs Example_Solved Sched SpecSched Dispatch DispatchProofs TensorProofs Async SpecAsync AsyncEnd FailContext SpecFailContext FailContextProofs.
Local Open Scope string_scope.
Local Open Scope list_scope.

(** The model with contexts is the model without them: for any model when nothing is captured (nothing is attached then),
    for models without substepping also when failures are captured; and so is its dispatcher. *)
Theorem C80_same : forall V (A : arith V) par nds capture infos sgs outs I,
  (capture = false \/ Forall unstepped sgs -> fst (try_forward A par nds capture infos sgs outs I) = forward A par nds capture infos sgs outs I) /\
  snd (try_forward A par nds false infos sgs outs I) = None.
Proof. intros V A par nds capture infos sgs outs I. split; [apply try_forward_same|apply forward_none]. Qed.
Print Assumptions C80_same.
Theorem C80_same_dispatched : forall V (fwd : device -> smap (tensor V) -> smap (tensor V) -> attempt V (smap (tensor V))) n D I,
  sync_forward (fun d P I => fst (fwd d P I)) n D I = match try_dispatched fwd n D I with Some x => Done (fst x) | None => Unfinished end.
Proof. intros V. exact dispatched_same. Qed.
Print Assumptions C80_same_dispatched.

(** Only a failed solve carries a context.  It is the first one to fail, of the state the segments before it produced; the
    context is what the same segment answers in masking mode on that state: its mask and all of its unknowns, no other
    variable. *)
Theorem C80_context : forall V (A : arith V) par nds capture infos sgs outs I e c,
  Forall unstepped sgs -> try_forward A par nds capture infos sgs outs I = (Err e, Some c) ->
  capture = true /\ exists w pre i post batch st0 st st1 gs ps us calls st',
    e = Convergence w /\ sgs = pre ++ JI i :: post /\ prepare_inputs infos I = Ok st0 /\ value_steps A par nds capture batch pre st0 = Ok st /\
    prepare_solve (a_zero A) par (ji_seg i) st = (Ok (st1, gs, ps, us), calls) /\ is_solve (ji_seg i) gs ps us = Err (Convergence w) /\
    run_implicit_masked (a_zero A) par (ji_seg i) st = Ok (st', fc_mask c) /\ shows (is_unknowns (ji_seg i)) st' c.
Proof.
  intros V A par nds capture infos sgs outs I e c F H. destruct (forward_context A par nds capture infos sgs outs I e c F H) as (pre & i & post & batch & st0 & st & E & P & Vs & T).
  destruct (implicit_context A par capture (ji_seg i) st e c T) as (-> & w & st1 & gs & ps & us & calls & st' & -> & Pr & S & M & Sh). split; [reflexivity|].
  exists w, pre, i, post, batch, st0, st, st1, gs, ps, us, calls, st'. repeat (split; [assumption || reflexivity|]). exact Sh.
Qed.
Print Assumptions C80_context.

(** What the segment throws is what forward() throws, with its context if it has one. *)
Theorem C80_thrown : forall V (A : arith V) par nds capture infos pre i post outs I st0 batch st e c,
  Forall unstepped pre -> ji_level i = 0 -> prepare_inputs infos I = Ok st0 ->
  match infos with [] => Ok [] | x :: _ => let* t := at_ (in_name x) st0 in Ok (batch_shape_of x t) end = Ok batch ->
  value_steps A par nds capture batch pre st0 = Ok st -> try_implicit A par capture (ji_seg i) st = (Err e, c) ->
  try_forward A par nds capture infos (pre ++ JI i :: post) outs I = (Err e, c).
Proof.
  intros V A par nds capture infos pre i post outs I st0 batch st e c F L P B Vs T. unfold try_forward. rewrite P. cbn [plain abind]. rewrite B. cbn [plain abind].
  rewrite (steps_throw A par nds capture batch pre i post e c st0 st F L Vs T). reflexivity.
Qed.
Print Assumptions C80_thrown.

(** The context thrown by a model of compiled segments: its mask has one entry per batch row, and where it is set the
    residual of the package of one of the model's segments, at the unknowns attached and the givens next to them, meets the
    masked tolerances. *)
Theorem C80_true : forall fsum cfg A par nds capture infos sgs outs I e c,
  Forall unstepped sgs -> (forall i, In (JI i) sgs -> exists s, segment_ok s /\ ji_seg i = seg_of fsum cfg s) ->
  try_forward A par nds capture infos sgs outs I = (Err e, Some c) ->
  exists i s st st' us0, In (JI i) sgs /\ ji_seg i = seg_of fsum cfg s /\
    guessed fsum cfg (a_zero A) par s st us0 /\ solves_marked fsum cfg par s us0 (fc_mask c) st' /\
    forall v, In v (ss_unknowns s) -> lookup (v_name v) (fc_unknowns c) = lookup (v_name v) st'.
Proof.
  intros fsum cfg A par nds capture infos sgs outs I e c F Sg T.
  destruct (C80_context _ A par nds capture infos sgs outs I e c F T)
    as (_ & w & pre & i & post & batch & st0 & st & st1 & gs & ps & us & calls & st' & _ & Es & _ & _ & _ & _ & M & Sh).
  assert (In_ : In (JI i) sgs) by (rewrite Es; apply in_or_app; right; left; reflexivity).
  destruct (Sg i In_) as (s & Ok_ & E). rewrite E in M, Sh.
  destruct (masked_segment_solved fsum cfg (a_zero A) par s st st' (fc_mask c) Ok_ M) as (st2 & gs2 & ps2 & us0 & calls2 & P & So & _).
  exists i, s, st, st', us0. split; [exact In_|]. split; [exact E|]. split; [exists st2, gs2, ps2, calls2; exact P|].
  split; [exact So|]. intros v Iv. apply Sh. apply in_map. exact Iv.
Qed.
Print Assumptions C80_true.

(** A failed solve is never reported without its context when failures are captured and the segment answers in masking
    mode. *)
Theorem C80_always : forall V (A : arith V) par sg (st : smap (tensor V)) e c,
  Forall group_ok (is_unknown_groups sg) -> NoDup (names (is_unknown_groups sg)) ->
  (forall v, In v (is_unknowns sg) -> In (v_name v) (names (is_unknown_groups sg))) ->
  (forall st1 gs ps us calls, prepare_solve (a_zero A) par sg st = (Ok (st1, gs, ps, us), calls) ->
     exists us' mask, is_solve_masked sg gs ps us = Ok (us', mask) /\
     Forall2 (fun g gt => exists dyn d, group_tensor g dyn d gt) (is_unknown_groups sg) us') ->
  (exists st1 gs ps us calls w, prepare_solve (a_zero A) par sg st = (Ok (st1, gs, ps, us), calls) /\ is_solve sg gs ps us = Err (Convergence w)) ->
  try_implicit A par true sg st = (e, c) -> exists c', c = Some c'.
Proof. intros V. exact implicit_always. Qed.
Print Assumptions C80_always.

(** Dispatched synchronously, an error with a context is the one of the whole batch, or of the first range of the tiling
    whose rows the model does not get through; it arrives as thrown, with the context of those rows. *)
Theorem C80_dispatched : forall V (fwd : device -> smap (tensor V) -> smap (tensor V) -> attempt V (smap (tensor V))) n D I b e c,
  (0 <= n < 2 ^ 63)%Z -> contract b I -> try_dispatched fwd n D I = Some (Err e, Some c) ->
  let d := dp_active D in
  (exists P, model_at D d = Ok P /\ fwd d (effective P []) I = (Err e, Some c)) \/
  exists in_dev l s k, tiles 0 (Z.of_nat b) l /\ (forall y, In y l -> (snd y <= (if (n =? 0)%Z then Z.of_nat b else n))%Z) /\
    first_bad (fun x => try_chunk fwd D in_dev (Z.of_nat b) I d (fst x) (snd x)) l (s, k) e (Some c) /\
    at_rows fwd D b I d s k (Err e, Some c).
Proof.
  intros V fwd n D I b e c Hn C H d. unfold try_dispatched in H. destruct (input_device I) as [in_dev|]; [|discriminate].
  rewrite (infer_batch_size_contract b I C) in H. destruct C as (Hb & Cf & _).
  destruct ((Z.of_nat b <=? chunk_extent n (Z.of_nat b))%Z && device_eqb (dp_active D) in_dev).
  - left. injection H as H. apply plain_some in H as (P & M & H). exists P. auto.
  - right. destruct (try_chunks n (Z.of_nat b) (try_chunk fwd D in_dev (Z.of_nat b) I (dp_active D))) as [x|] eqn:T; [|discriminate].
    injection H as H. apply abind_some in H as [-> |(rs & c' & _ & H)]; [|discriminate].
    destruct (chunks_bad n (Z.of_nat b) _ e (Some c) Hn ltac:(lia) T) as (l & [s k] & Tl & Bd & Fb).
    pose proof Fb as (pre & post & El & _ & X). cbn [fst snd] in X.
    destruct (chunk_raises fwd D in_dev (Z.of_nat b) I (dp_active D) s k e c X) as (sl & ov & P & Sl & Ov & M & F).
    assert (Ix : In (s, k) l) by (rewrite El; apply in_or_app; right; left; reflexivity).
    destruct (tiles_bounds _ _ _ _ Tl Ix) as (H1 & H2 & H3). rewrite (slice_batch_chunk b I s k Hb Cf H1 H2 H3) in Sl. injection Sl as <-.
    rewrite to_device_on_dev in F. exists in_dev, l, s, k. split; [exact Tl|]. split; [exact Bd|]. split; [exact Fb|]. exists P, ov. auto.
Qed.
Print Assumptions C80_dispatched.

(** And it always arrives, with its context if it has one. *)
Theorem C80_arrives : forall V (fwd : device -> smap (tensor V) -> smap (tensor V) -> attempt V (smap (tensor V))) n D I b in_dev,
  (0 <= n < 2 ^ 63)%Z -> contract b I -> input_device I = Ok in_dev ->
  (~ divided n D b in_dev -> forall P r, model_at D (dp_active D) = Ok P -> fwd (dp_active D) (effective P []) I = r -> try_dispatched fwd n D I = Some r) /\
  (divided n D b in_dev -> exists l, tiles 0 (Z.of_nat b) l /\ (forall y, In y l -> (snd y <= (if (n =? 0)%Z then Z.of_nat b else n))%Z) /\
    forall pre s k post e c, l = pre ++ (s, k) :: post ->
      (forall y, In y pre -> exists r c', at_rows fwd D b I (dp_active D) (fst y) (snd y) (Ok r, c')) ->
      at_rows fwd D b I (dp_active D) s k (Err e, c) -> try_dispatched fwd n D I = Some (Err e, c)).
Proof.
  intros V fwd n D I b in_dev Hn C Hd. split; [|exact (dispatched_arrives fwd n D I b in_dev Hn C Hd)].
  intros Nd P r M F. exact (dispatched_whole fwd n D I b in_dev P r Hn C Hd Nd M F).
Qed.
Print Assumptions C80_arrives.

(** On a pool, whatever the schedule: the failures of the chunks that were run, in batch order, each with its own context;
    one is thrown as it is, several inside an aggregate. *)
Theorem C80_pool : forall V R run tbl k b ls (out : result (list (option R))) (f : device -> Z -> Z -> attempt V R) e,
  pool_ok tbl -> finished_call run tbl k b ls out -> behaves_as run k (fun d s c => fst (f d s c)) -> dfails ls = [] -> out = Err e ->
  exists l x, by_position l /\ Permutation (map snd l) (evaluated ls) /\
    Forall (fun y => chunk_in tbl b (fst y) /\ snd y = fst (f (tk_dev (fst y)) (tk_start (fst y)) (tk_count (fst y)))) l /\
    leave (thrown_by f l) = Some x /\
    dynamic x = e.
Proof.
  intros V R run tbl k b ls out f e Hp (s & o & s' & Hr & Em & -> & Hb & He & Hn & Em') Bh Df ->.
  destruct (call_failures run tbl Hp s o b ls s' (Err e) Hr Em Hb He Hn Em') as (l & Bp & Pm & Fl & Rp). rewrite Df in Rp. cbn [app] in Rp.
  set (fs := thrown_by f l).
  assert (Fl' : Forall (fun y => chunk_in tbl b (fst y) /\ snd y = fst (f (tk_dev (fst y)) (tk_start (fst y)) (tk_count (fst y)))) l)
    by (eapply Forall_impl; [|exact Fl]; intros y [Hc Hy]; split; [exact Hc|exact (Bh _ _ _ _ Hy)]).
  assert (E : map fst fs = failures l).
  { unfold fs, thrown_by, failures. clear - Fl'. induction Fl' as [|y l [_ Hy] _ IH]; [reflexivity|]. cbn [flat_map]. rewrite map_app, IH, Hy.
    destruct (f (tk_dev (fst y)) (tk_start (fst y)) (tk_count (fst y))) as [[r|x] c]; reflexivity. }
  rewrite <- E in Rp. exists l. destruct Rp as [Rp|(e1 & e2 & es & Rp & Re)].
  - subst fs. destruct (thrown_by f l) as [|[e0 c] [|]] eqn:Q; try discriminate. injection Rp as ->. exists (One e c). repeat (split; [assumption|]). split; reflexivity.
  - exists (Several fs). split; [exact Bp|]. split; [exact Pm|]. split; [exact Fl'|]. split.
    + fold fs. destruct fs as [|[? ?] [|? ?]]; try discriminate. reflexivity.
    + cbn [dynamic]. rewrite Re, Rp. reflexivity.
Qed.
Print Assumptions C80_pool.

(** Nothing is lost on the way out: what leaves holds all failures with their contexts.  But [converged_mask()] and
    [unknowns()] can only be asked of a lone failure. *)
Theorem C80_leaves : forall V (l : list (exn * option (fcontext V))) x, leave l = Some x ->
  held x = l /\ forall c, readable x = Some c <-> exists w, l = [(Convergence w, Some c)].
Proof.
  intros V l x H. destruct l as [|[e c0] [|y l]]; cbn in H; [discriminate| |]; injection H as <-; (split; [reflexivity|]); intros c; cbn [readable].
  - split; [destruct e; try discriminate; intros ->; eexists; reflexivity|intros (w & E); injection E as -> ->; reflexivity].
  - split; [discriminate|intros (w & E); discriminate].
Qed.
Print Assumptions C80_leaves.

(** c u^2 = w, four updates allowed: enough for x = 2, not for x = 25. *)
Definition fcx_imp : jimp F :=
  mkJI (seg_of sum0 (with_miters 5 cfg0) vx_seg) 1 (fun _ => Err (StdExn "not used")) None (Compiled (fun _ => Err (StdExn "not used"))) [] 0.
Definition fcx_model (I : smap (tensor F)) := try_forward vx_arith vx_par [] true vx_infos [JF vx_fwd; JI fcx_imp] ["u"] I.
Definition fcx_in (l : list F) : smap (tensor F) := [("x", mkT [length l] l cpu)].
Definition fcx_D (d : device) : disp F := mkDisp (mkLayout [("u", 0)] [("x", 0)] []) d [(d, [])].
Definition fcx_mask (x : attempt F (smap (tensor F))) : option (list bool) := match snd x with Some c => Some (fc_mask c) | None => None end.

Example C80_case : Forall unstepped [JF vx_fwd; JI fcx_imp] /\ segment_ok vx_seg /\
  (exists w c t, fcx_model (fcx_in [fnum 2 0; fnum 25 0]) = (Err (Convergence w), Some c) /\ fc_mask c = [true; false] /\ lookup "u" (fc_unknowns c) = Some t /\ t_shape t = [2]) /\
  is_ok (fst (fcx_model (fcx_in [fnum 2 0; fnum 2 0]))) = true /\
  (exists w c, try_dispatched (fun _ _ => fcx_model) 2 (fcx_D cpu) (fcx_in [fnum 2 0; fnum 2 0; fnum 2 0; fnum 25 0; fnum 25 0]) = Some (Err (Convergence w), Some c) /\
     fc_mask c = [true; false]).
Proof.
  split; [repeat constructor|]. split; [exact vx_ok|]. split; [do 3 eexists; vm_compute; auto|]. split; [vm_compute; reflexivity|]. do 2 eexists. vm_compute. auto.
Qed.

Example C80_arrives_case : let I := fcx_in [fnum 2 0; fnum 2 0; fnum 2 0; fnum 25 0; fnum 25 0] in
  contract 5 I /\ input_device I = Ok cpu /\ divided 2 (fcx_D cpu) 5 cpu /\ ~ divided 5 (fcx_D cpu) 5 cpu /\
  (exists r c', at_rows (fun _ _ => fcx_model) (fcx_D cpu) 5 I cpu 0 2 (Ok r, c')) /\ (exists e c, at_rows (fun _ _ => fcx_model) (fcx_D cpu) 5 I cpu 2 2 (Err e, Some c)).
Proof.
  intros I. split; [|split; [reflexivity|]].
  - split; [lia|]. split; [|right; left; exists []; reflexivity]. constructor; [|constructor]. split; [reflexivity|]. right. right. exists []. reflexivity.
  - split; [left; lia|]. split; [intros [[_ H]|H]; [lia|apply H; reflexivity]|].
    split; do 2 eexists; exists [], []; (split; [reflexivity|]); (split; [reflexivity|]); vm_compute; reflexivity.
Qed.

(** Finding: the context does not say which rows of the batch it is about.  Dispatched in chunks of one row, a batch whose
    first row fails and one whose second row fails end in the same exception, though the masks of the undivided batches
    differ; both masks have one entry, not two. *)
Theorem C80_where_refuted : exists I I' w c,
  contract 2 I /\ contract 2 I' /\
  try_dispatched (fun _ _ => fcx_model) 1 (fcx_D cpu) I = Some (Err (Convergence w), Some c) /\
  try_dispatched (fun _ _ => fcx_model) 1 (fcx_D cpu) I' = Some (Err (Convergence w), Some c) /\ fc_mask c = [false] /\
  fcx_mask (fcx_model I) = Some [false; true] /\ fcx_mask (fcx_model I') = Some [true; false].
Proof.
  exists (fcx_in [fnum 25 0; fnum 2 0]), (fcx_in [fnum 2 0; fnum 25 0]). do 2 eexists.
  assert (C : forall x y, contract 2 (fcx_in [x; y])).
  { intros x y. split; [lia|]. split; [|right; left; exists []; reflexivity]. constructor; [|constructor]. split; [reflexivity|]. right. right. exists []. reflexivity. }
  split; [apply C|]. split; [apply C|]. split; [vm_compute; reflexivity|]. split; [vm_compute; reflexivity|]. split; [reflexivity|]. split; vm_compute; reflexivity.
Qed.
Print Assumptions C80_where_refuted.

(** Finding: results come back to the device of the inputs, contexts stay on the device of the chunk. *)
Theorem C80_device_refuted : exists I w c t,
  all_on cpu I /\ contract 1 I /\ try_dispatched (fun _ _ => fcx_model) 0 (fcx_D (cuda 0)) I = Some (Err (Convergence w), Some c) /\
  lookup "u" (fc_unknowns c) = Some t /\ t_dev t = cuda 0.
Proof.
  exists (fcx_in [fnum 25 0]). do 3 eexists. split; [repeat constructor|].
  split; [split; [lia|]; split; [|left; reflexivity]; constructor; [|constructor]; split; [reflexivity|right; left; exists []; reflexivity]|].
  split; [vm_compute; reflexivity|]. split; vm_compute; reflexivity.
Qed.
Print Assumptions C80_device_refuted.

(** Finding: when several chunks of a pool fail no context can be read from what is thrown (cf. [AggregateError::errors]). *)
Theorem C80_several_refuted : exists (l : list (exn * option (fcontext F))) x w w' c c',
  l = [(Convergence w, Some c); (Convergence w', Some c')] /\ leave l = Some x /\ readable x = None.
Proof.
  do 2 eexists. exists "a", "b", (mkFc [false] []), (mkFc [false] []). split; [reflexivity|]. split; reflexivity.
Qed.
Print Assumptions C80_several_refuted.
