(** Lemmas about the failure context. *)
From Coq Require Import String.
From Verif Require Import Base BaseProofs SmapProofs Tensor Spec BatchChunk Broadcast Pack SpecPack PackProofs Implicit ImplicitProofs Substep Mat Jac SubstepJac JacModel
     Log SubstepLog SpecSubstepLog SubstepLogProofs SubstepLogRunProofs FwdModel Dispatch DispatchProofs TensorProofs FailContext SpecFailContext.
Local Open Scope list_scope.

Lemma fst_abind {V X Y} (m : attempt V X) (f : X -> attempt V Y) : fst (abind m f) = bind (fst m) (fun x => fst (f x)).
Proof. destruct m as [[x|e] c]; reflexivity. Qed.

Lemma abind_some {V X Y} (m : attempt V X) (f : X -> attempt V Y) e c : abind m f = (Err e, Some c) ->
  m = (Err e, Some c) \/ exists x c', m = (Ok x, c') /\ f x = (Err e, Some c).
Proof. destruct m as [[x|e'] c']; cbn; intros H; [right; exists x, c'; auto|left; injection H as -> ->; reflexivity]. Qed.

Lemma plain_some {V X Y} (r : result X) (f : X -> attempt V Y) e c : abind (plain r) f = (Err e, Some c) -> exists x, r = Ok x /\ f x = (Err e, Some c).
Proof. intros H. apply abind_some in H as [H|(x & c' & E & H)]; [discriminate|]. injection E as -> _. exists x. auto. Qed.

Section Model.
  Context {V : Type}.
  Variable A : arith V.
  Variable par : string -> result (tensor V).
  Variable base_ndim : smap nat.
  Notation vmap := (smap (tensor V)).

  Lemma stuck_gives vs (st : vmap) : forall acc us, stuck vs st acc = Ok us ->
    forall n, (In n (map v_name vs) -> lookup n us = lookup n st /\ lookup n st <> None) /\ (~ In n (map v_name vs) -> lookup n us = lookup n acc).
  Proof.
    induction vs as [|v vs IH]; intros acc us H n; cbn [stuck map] in *.
    - injection H as <-. split; [intros []|reflexivity].
    - unfold at_ in H. destruct (lookup (v_name v) st) as [t|] eqn:L; [|discriminate]. cbn [bind] in H.
      destruct (IH _ _ H n) as [Yes No]. split.
      + intros I. destruct (in_dec String.string_dec n (map v_name vs)) as [Iv|N]; [exact (Yes Iv)|].
        destruct I as [E|Iv]; [|contradiction]. subst n. rewrite (No N), lookup_set_same, L. split; [reflexivity|discriminate].
      + intros N. rewrite No by (intros I; apply N; right; exact I). apply lookup_set_other. intros ->. apply N. left. reflexivity.
  Qed.

  Lemma stuck_same vs (st : vmap) : forall acc, bind (stuck vs st acc) (fun _ => Ok tt) = bind (mapM (fun v => at_ (v_name v) st) vs) (fun _ => Ok tt).
  Proof.
    induction vs as [|v vs IH]; intros acc; cbn [stuck mapM]; [reflexivity|].
    destruct (at_ (v_name v) st) as [t|e]; cbn [bind]; [|reflexivity]. rewrite IH. destruct (mapM _ vs); reflexivity.
  Qed.

  (** The model of the segment without its context. *)
  Lemma try_implicit_same capture sg (st : vmap) : fst (try_implicit A par capture sg st) = run_implicit (a_zero A) par capture sg st.
  Proof.
    unfold try_implicit, run_implicit. rewrite fst_abind. cbn [fst plain]. destruct (fst (prepare_solve (a_zero A) par sg st)) as [[[[st1 gs] ps] us]|e]; [|reflexivity].
    cbn [bind]. destruct (is_solve sg gs ps us) as [u|[w|w|w|w|w]]; try reflexivity. destruct capture; [|reflexivity].
    rewrite fst_abind. cbn [fst plain]. destruct (is_solve_masked sg gs ps us) as [um|e]; [|reflexivity]. cbn [bind].
    rewrite fst_abind. cbn [fst plain]. destruct (unpack_groups (fst um) (is_unknown_groups sg) st1) as [st2|e]; [|reflexivity]. cbn [bind].
    rewrite fst_abind. cbn [fst plain]. pose proof (stuck_same (is_unknowns sg) st2 []) as E.
    destruct (stuck (is_unknowns sg) st2 []) as [x|x], (mapM (fun v => at_ (v_name v) st2) (is_unknowns sg)) as [y|y]; cbn [bind] in *; congruence.
  Qed.

  Lemma quiet : patient (V := V) (fun _ _ _ => Ok tt). Proof. intros l lev m. reflexivity. Qed.

  Lemma try_step_same capture batch sg (st : vmap) : capture = false \/ unstepped sg ->
    fst (try_step A par base_ndim capture batch sg st) = value_step A par base_ndim capture batch sg st.
  Proof.
    destruct sg as [f|i]; [reflexivity|]. cbn [try_step value_step unstepped]. intros H. destruct (Nat.ltb 0 (ji_level i)) eqn:L; [|apply try_implicit_same].
    destruct H as [-> | H]; [|rewrite H in L; discriminate]. unfold try_substepped.
    destruct (value_same A (fun _ _ _ => Ok tt) (fun _ => Ok false) false (run_implicit_masked (a_zero A) par (ji_seg i)) (is_givens (ji_seg i)) (is_unknowns (ji_seg i)) quiet
               ltac:(exists false, false; auto) (ji_level i) st eq_refl) as (r & w & -> & -> & _). reflexivity.
  Qed.

  Lemma try_steps_same capture batch sgs : forall (st : vmap), capture = false \/ Forall unstepped sgs ->
    fst (try_steps A par base_ndim capture batch sgs st) = value_steps A par base_ndim capture batch sgs st.
  Proof.
    induction sgs as [|sg sgs IH]; intros st H; cbn [try_steps value_steps]; [reflexivity|]. rewrite fst_abind, try_step_same.
    - destruct (value_step A par base_ndim capture batch sg st); [|reflexivity]. cbn [bind]. apply IH.
      destruct H as [H|H]; [left; exact H|right; inversion H; assumption].
    - destruct H as [H|H]; [left; exact H|right; inversion H; assumption].
  Qed.

  Lemma try_forward_same capture infos sgs outs (I : vmap) : capture = false \/ Forall unstepped sgs ->
    fst (try_forward A par base_ndim capture infos sgs outs I) = forward A par base_ndim capture infos sgs outs I.
  Proof.
    intros H. unfold try_forward, forward. rewrite fst_abind. cbn [fst plain]. destruct (prepare_inputs infos I) as [st|]; [|reflexivity]. cbn [bind].
    rewrite fst_abind. cbn [fst plain]. destruct (match infos with [] => _ | _ => _ end) as [batch|]; [|reflexivity]. cbn [bind].
    rewrite fst_abind, try_steps_same by exact H. reflexivity.
  Qed.

  (** Without capture nothing is attached. *)
  Lemma implicit_none sg (st : vmap) : snd (try_implicit A par false sg st) = None.
  Proof.
    unfold try_implicit. destruct (fst (prepare_solve (a_zero A) par sg st)) as [[[[st1 gs] ps] us]|e]; [|reflexivity].
    cbn [abind plain]. destruct (is_solve sg gs ps us) as [u|[w|w|w|w|w]]; reflexivity.
  Qed.
  Lemma substepped_none i level (st : vmap) : snd (try_substepped A par false i level st) = None.
  Proof.
    unfold try_substepped.
    destruct (value_same A (fun _ _ _ => Ok tt) (fun _ => Ok false) false (run_implicit_masked (a_zero A) par i) (is_givens i) (is_unknowns i) quiet
               ltac:(exists false, false; auto) level st eq_refl) as (r & w & -> & _ & ->). reflexivity.
  Qed.
  Lemma steps_none batch sgs : forall (st : vmap), snd (try_steps A par base_ndim false batch sgs st) = None.
  Proof.
    induction sgs as [|sg sgs IH]; intros st; cbn [try_steps]; [reflexivity|].
    assert (N : snd (try_step A par base_ndim false batch sg st) = None).
    { destruct sg as [f|i]; [reflexivity|]. cbn [try_step]. destruct (Nat.ltb 0 (ji_level i)); [apply substepped_none|apply implicit_none]. }
    destruct (try_step A par base_ndim false batch sg st) as [[st'|e] c]; cbn [abind snd] in *; [apply IH|exact N].
  Qed.
  Lemma forward_none infos sgs outs (I : vmap) : snd (try_forward A par base_ndim false infos sgs outs I) = None.
  Proof.
    unfold try_forward. destruct (prepare_inputs infos I) as [st|]; [|reflexivity]. cbn [abind plain].
    destruct (match infos with [] => _ | _ => _ end) as [batch|]; [|reflexivity]. cbn [abind plain].
    pose proof (steps_none batch sgs st) as N. destruct (try_steps A par base_ndim false batch sgs st) as [[st'|e] c]; cbn [abind snd] in *; [reflexivity|exact N].
  Qed.

  (** What a segment attaches. *)
  Lemma implicit_context capture sg (st : vmap) e c : try_implicit A par capture sg st = (Err e, Some c) ->
    capture = true /\ exists w st1 gs ps us calls st', e = Convergence w /\ prepare_solve (a_zero A) par sg st = (Ok (st1, gs, ps, us), calls) /\
      is_solve sg gs ps us = Err (Convergence w) /\ run_implicit_masked (a_zero A) par sg st = Ok (st', fc_mask c) /\ shows (is_unknowns sg) st' c.
  Proof.
    unfold try_implicit, run_implicit_masked. intros H. apply plain_some in H as ([[[st1 gs] ps] us] & P & H).
    destruct (prepare_solve (a_zero A) par sg st) as [p calls]. cbn [fst] in P. subst p. cbn [fst bind].
    destruct (is_solve sg gs ps us) as [u|[w|w|w|w|w]] eqn:S; try discriminate. destruct capture; [|discriminate]. split; [reflexivity|].
    apply plain_some in H as ([u m] & M & H). apply plain_some in H as (st2 & U & H). apply plain_some in H as (stk & K & H). injection H as <- <-.
    exists w, st1, gs, ps, us, calls, st2. cbn [fst snd] in *. rewrite M. cbn [bind]. rewrite U. cbn [bind fc_mask fc_unknowns]. repeat (split; [reflexivity || assumption|]).
    intros n. exact (stuck_gives _ _ _ _ K n).
  Qed.

  Lemma steps_context capture batch sgs : forall (st : vmap) e c, Forall unstepped sgs -> try_steps A par base_ndim capture batch sgs st = (Err e, Some c) ->
    exists pre i post st0, sgs = pre ++ JI i :: post /\ value_steps A par base_ndim capture batch pre st = Ok st0 /\
      try_implicit A par capture (ji_seg i) st0 = (Err e, Some c).
  Proof.
    induction sgs as [|sg sgs IH]; intros st e c F H; cbn [try_steps] in H; [discriminate|].
    pose proof (Forall_inv F) as U. pose proof (Forall_inv_tail F) as F'. apply abind_some in H as [H|(st' & c' & E & H)].
    - destruct sg as [f|i]; [discriminate|]. cbn [try_step unstepped] in *. rewrite U in H. exists [], i, sgs, st. auto.
    - destruct (IH st' e c F' H) as (pre & i & post & st0 & -> & V0 & T). exists (sg :: pre), i, post, st0. split; [reflexivity|]. split; [|exact T].
      cbn [value_steps]. pose proof (try_step_same capture batch sg st (or_intror U)) as S. rewrite E in S. cbn [fst] in S. rewrite <- S. exact V0.
  Qed.

  Lemma forward_context capture infos sgs outs (I : vmap) e c : Forall unstepped sgs -> try_forward A par base_ndim capture infos sgs outs I = (Err e, Some c) ->
    exists pre i post batch st0 st, sgs = pre ++ JI i :: post /\ prepare_inputs infos I = Ok st0 /\ value_steps A par base_ndim capture batch pre st0 = Ok st /\
      try_implicit A par capture (ji_seg i) st = (Err e, Some c).
  Proof.
    intros F H. unfold try_forward in H. apply plain_some in H as (st0 & P & H). apply plain_some in H as (batch & B & H).
    apply abind_some in H as [H|(x & c' & _ & H)]; [|discriminate].
    destruct (steps_context capture batch sgs st0 e c F H) as (pre & i & post & st & E & V0 & T). exists pre, i, post, batch, st0, st. auto.
  Qed.

  (** What a segment throws is what forward() throws. *)
  Lemma steps_throw capture batch pre i post e c : forall (st st0 : vmap), Forall unstepped pre -> ji_level i = 0 ->
    value_steps A par base_ndim capture batch pre st = Ok st0 -> try_implicit A par capture (ji_seg i) st0 = (Err e, c) ->
    try_steps A par base_ndim capture batch (pre ++ JI i :: post) st = (Err e, c).
  Proof.
    induction pre as [|sg pre IH]; intros st st0 F L Vs T; cbn [app try_steps value_steps] in *.
    - injection Vs as ->. cbn [try_step]. rewrite L. cbn [Nat.ltb Nat.leb]. rewrite T. reflexivity.
    - pose proof (try_step_same capture batch sg st (or_intror (Forall_inv F))) as S.
      destruct (value_step A par base_ndim capture batch sg st) as [st'|]; [|discriminate]. cbn [bind] in Vs.
      destruct (try_step A par base_ndim capture batch sg st) as [r c']. cbn [fst] in S. subst r. cbn [abind]. exact (IH st' st0 (Forall_inv_tail F) L Vs T).
  Qed.

  (** A failed solve of a system that answers is never reported without its context. *)
  Lemma implicit_always sg (st : vmap) e c : Forall group_ok (is_unknown_groups sg) -> NoDup (names (is_unknown_groups sg)) ->
    (forall v, In v (is_unknowns sg) -> In (v_name v) (names (is_unknown_groups sg))) ->
    (forall st1 gs ps us calls, prepare_solve (a_zero A) par sg st = (Ok (st1, gs, ps, us), calls) ->
       exists us' mask, is_solve_masked sg gs ps us = Ok (us', mask) /\
       Forall2 (fun g gt => exists dyn d, group_tensor g dyn d gt) (is_unknown_groups sg) us') ->
    (exists st1 gs ps us calls w, prepare_solve (a_zero A) par sg st = (Ok (st1, gs, ps, us), calls) /\ is_solve sg gs ps us = Err (Convergence w)) ->
    try_implicit A par true sg st = (e, c) -> exists c', c = Some c'.
  Proof.
    intros G N I M (st1 & gs & ps & us & calls & w & P & S) H.
    pose proof (capture_transparent (a_zero A) par sg st G N I M) as T. rewrite <- try_implicit_same in T.
    unfold run_implicit in T. unfold try_implicit in H, T. rewrite P in H, T. cbn [fst plain abind bind] in H, T. rewrite S in H, T.
    destruct (M _ _ _ _ _ P) as (us' & m & E & F). rewrite E in H, T. cbn [plain abind fst] in H, T.
    destruct (unpack_pack_groups (is_unknown_groups sg) us' st1 G N F) as [st2 [U _]]. rewrite U in H, T. cbn [plain abind] in H, T.
    destruct (stuck (is_unknowns sg) st2 []) as [x|x] eqn:K; cbn [plain abind fst] in H, T.
    - injection H as _ <-. eexists. reflexivity.
    - exfalso. injection T as T. revert K. generalize (@nil (string * tensor V)). subst x. generalize (is_unknowns sg).
      induction l as [|v l IH]; intros acc K; cbn [stuck] in K; [discriminate|]. unfold at_ in K. destruct (lookup (v_name v) st2); [|discriminate]. exact (IH _ K).
  Qed.
End Model.

(** The chunk loop. *)
Lemma loop_same {V R} fuel (f : Z -> Z -> attempt V R) chunk b : forall s,
  sync_loop fuel (fun s c => fst (f s c)) chunk b s = match try_loop fuel f chunk b s with Some x => Done (fst x) | None => Unfinished end.
Proof.
  induction fuel as [|k IH]; intros s; cbn [sync_loop try_loop]; destruct (s <? b)%Z; try reflexivity.
  destruct (f s (Z.min chunk (b - s))) as [[r|e] c]; cbn [fst]; [|reflexivity]. rewrite IH. destruct (try_loop k f chunk b (s + chunk)) as [[[rs|e] c']|]; reflexivity.
Qed.

Lemma loop_bad {V R} fuel (f : Z -> Z -> attempt V R) chunk b : forall s e c, (1 <= chunk)%Z -> (b - s <= Z.of_nat fuel)%Z -> try_loop fuel f chunk b s = Some (Err e, c) ->
  exists x, first_bad (fun x => f (fst x) (snd x)) (ranges fuel chunk b s) x e c.
Proof.
  induction fuel as [|k IH]; intros s e c Hc Hf H; cbn [try_loop ranges] in *.
  - destruct (s <? b)%Z; discriminate.
  - destruct (Z.ltb_spec s b) as [L|L]; [|discriminate]. destruct (f s (Z.min chunk (b - s))) as [[r|e'] c'] eqn:E.
    + destruct (try_loop k f chunk b (s + chunk)) as [[[rs|e''] c'']|] eqn:T; cbn [abind plain] in H; try discriminate.
      injection H as -> ->. assert (Hf' : (b - (s + chunk) <= Z.of_nat k)%Z) by lia. destruct (IH _ _ _ Hc Hf' T) as (x & pre & post & -> & Pre & X).
      exists x, ((s, Z.min chunk (b - s)) :: pre), post. split; [reflexivity|]. split; [|exact X].
      intros y [<-|Iy]; [|exact (Pre y Iy)]. cbn [fst snd]. rewrite E. exists r. reflexivity.
    + injection H as -> ->. exists (s, Z.min chunk (b - s)), [], (ranges k chunk b (s + chunk)). split; [reflexivity|]. split; [intros y []|exact E].
Qed.

Lemma chunks_bad {V R} n b (f : Z -> Z -> attempt V R) e c : (0 <= n < 2 ^ 63)%Z -> (1 <= b)%Z -> try_chunks n b f = Some (Err e, c) ->
  exists l x, tiles 0 b l /\ (forall y, In y l -> (snd y <= (if (n =? 0)%Z then b else n))%Z) /\ first_bad (fun x => f (fst x) (snd x)) l x e c.
Proof.
  intros Hn Hb H. destruct (chunk_extent_pos n b Hn Hb) as [[H1 H2] H3]. unfold try_chunks in H.
  assert (Hf : (b - 0 <= Z.of_nat (Z.to_nat b))%Z) by lia. destruct (loop_bad _ _ _ _ _ _ _ H1 Hf H) as (x & X). exists (ranges (Z.to_nat b) (chunk_extent n b) b 0), x. split; [apply ranges_tiles; lia|]. split; [|exact X].
  intros y Hy. apply ranges_le in Hy. destruct (Z.eqb_spec n 0); lia.
Qed.

Lemma loop_first {V R} fuel (f : Z -> Z -> attempt V R) chunk b : forall s pre x post e c, (1 <= chunk)%Z -> ranges fuel chunk b s = pre ++ x :: post ->
  (forall y, In y pre -> exists r c', f (fst y) (snd y) = (Ok r, c')) -> f (fst x) (snd x) = (Err e, c) -> try_loop fuel f chunk b s = Some (Err e, c).
Proof.
  induction fuel as [|k IH]; intros s pre x post e c Hc E Pre X; cbn [try_loop ranges] in *.
  - destruct (s <? b)%Z; destruct pre; discriminate.
  - destruct (Z.ltb_spec s b) as [L|L]; [|destruct pre; discriminate]. destruct pre as [|y pre]; cbn [app] in E; injection E as E0 E1.
    + subst x. cbn [fst snd] in X. rewrite X. reflexivity.
    + destruct (Pre y (or_introl eq_refl)) as (r & c' & Y). subst y. cbn [fst snd] in Y. rewrite Y.
      rewrite (IH _ pre x post e c Hc E1 (fun y Hy => Pre y (or_intror Hy)) X). reflexivity.
Qed.

Section Dispatched.
  Context {V : Type}.
  Notation vmap := (smap (tensor V)).
  Variable fwd : device -> vmap -> vmap -> attempt V vmap.

  Lemma chunk_same D in_dev b (I : vmap) d s c :
    fst (try_chunk fwd D in_dev b I d s c) = chunk_forward (fun d P I => fst (fwd d P I)) D in_dev b I d s c.
  Proof.
    unfold try_chunk, chunk_forward. rewrite fst_abind. cbn [fst plain]. destruct (slice_batch I s c); [|reflexivity]. cbn [bind].
    rewrite fst_abind. cbn [fst plain]. destruct (overrides_for D b d s c); [|reflexivity]. cbn [bind].
    rewrite fst_abind. cbn [fst plain]. destruct (model_at D d); [|reflexivity]. cbn [bind]. rewrite fst_abind. reflexivity.
  Qed.

  Lemma sync_loop_ext {R} fuel (f g : Z -> Z -> result R) chunk b : (forall s c, f s c = g s c) -> forall s, sync_loop fuel f chunk b s = sync_loop fuel g chunk b s.
  Proof. intros E. induction fuel as [|k IH]; intros s; cbn [sync_loop]; [reflexivity|]. rewrite E, IH. reflexivity. Qed.

  Lemma dispatched_same n D (I : vmap) :
    sync_forward (fun d P I => fst (fwd d P I)) n D I = match try_dispatched fwd n D I with Some x => Done (fst x) | None => Unfinished end.
  Proof.
    unfold sync_forward, sync_op, try_dispatched. destruct (input_device I) as [in_dev|e]; [|reflexivity].
    destruct ((infer_batch_size I <=? chunk_extent n (infer_batch_size I))%Z && device_eqb (dp_active D) in_dev).
    - f_equal. rewrite fst_abind. reflexivity.
    - unfold sync_chunks, try_chunks.
      rewrite (sync_loop_ext _ _ (fun s c => fst (try_chunk fwd D in_dev (infer_batch_size I) I (dp_active D) s c))) by (intros; symmetry; apply chunk_same).
      rewrite loop_same. destruct (try_loop _ _ _ _ 0) as [[[rs|e] c]|]; reflexivity.
  Qed.

  Lemma chunk_raises D in_dev b (I : vmap) d s c e k : try_chunk fwd D in_dev b I d s c = (Err e, Some k) ->
    exists sl ov st, slice_batch I s c = Ok sl /\ overrides_for D b d s c = Ok ov /\ model_at D d = Ok st /\ fwd d (effective st ov) (to_device sl d) = (Err e, Some k).
  Proof.
    intros H. unfold try_chunk in H. apply plain_some in H as (sl & S & H). apply plain_some in H as (ov & O & H). apply plain_some in H as (st & M & H).
    apply abind_some in H as [H|(x & c' & _ & H)]; [|discriminate]. exists sl, ov, st. auto.
  Qed.

  Lemma chunk_at D in_dev b (I : vmap) d s k r : 1 <= b -> conforming b I -> (0 <= s)%Z -> (0 < k)%Z -> (s + k <= Z.of_nat b)%Z -> at_rows fwd D b I d s k r ->
    try_chunk fwd D in_dev (Z.of_nat b) I d s k = abind r (fun out => plain (Ok (to_device out in_dev))).
  Proof.
    intros Hb Cf H1 H2 H3 (P & ov & M & Ov & F). unfold try_chunk. rewrite (slice_batch_chunk b I s k Hb Cf H1 H2 H3). cbn [plain abind].
    rewrite Ov. cbn [plain abind]. rewrite M. cbn [plain abind]. rewrite to_device_on_dev, F. reflexivity.
  Qed.

  Lemma dispatched_arrives n D (I : vmap) b in_dev : (0 <= n < 2 ^ 63)%Z -> contract b I -> input_device I = Ok in_dev -> divided n D b in_dev ->
    exists l, tiles 0 (Z.of_nat b) l /\ (forall y, In y l -> (snd y <= (if (n =? 0)%Z then Z.of_nat b else n))%Z) /\
      forall pre s k post e c, l = pre ++ (s, k) :: post ->
        (forall y, In y pre -> exists r c', at_rows fwd D b I (dp_active D) (fst y) (snd y) (Ok r, c')) ->
        at_rows fwd D b I (dp_active D) s k (Err e, c) -> try_dispatched fwd n D I = Some (Err e, c).
  Proof.
    intros Hn C Hd Dv. pose proof (infer_batch_size_contract b I C) as Eb. destruct C as (Hb & Cf & _). destruct (chunk_extent_pos n (Z.of_nat b) Hn ltac:(lia)) as [[H1 H2] H3].
    assert (Tl : tiles 0 (Z.of_nat b) (ranges (Z.to_nat (Z.of_nat b)) (chunk_extent n (Z.of_nat b)) (Z.of_nat b) 0)) by (apply ranges_tiles; lia).
    exists (ranges (Z.to_nat (Z.of_nat b)) (chunk_extent n (Z.of_nat b)) (Z.of_nat b) 0). split; [exact Tl|]. split.
    { intros y Hy. apply ranges_le in Hy. destruct (Z.eqb_spec n 0); lia. }
    intros pre s k post e c El Pre X. unfold try_dispatched. rewrite Hd, Eb.
    assert (Nf : (Z.of_nat b <=? chunk_extent n (Z.of_nat b))%Z && device_eqb (dp_active D) in_dev = false).
    { apply andb_false_iff. destruct Dv as [[D1 D2]|Dv]; [left|right; destruct (device_eqb (dp_active D) in_dev) eqn:E; [|reflexivity]; apply device_eqb_eq in E; contradiction].
      apply Z.leb_gt. rewrite H3. destruct (Z.eqb_spec n 0); lia. }
    rewrite Nf. unfold try_chunks. assert (Bd : forall y, In y (pre ++ (s, k) :: post) -> (0 <= fst y)%Z /\ (0 < snd y)%Z /\ (fst y + snd y <= Z.of_nat b)%Z).
    { intros [u v] Hy. rewrite <- El in Hy. exact (tiles_bounds _ _ _ _ Tl Hy). }
    rewrite (loop_first _ _ _ _ _ pre (s, k) post e c H1 El); [reflexivity| |].
    - intros y Hy. destruct (Pre y Hy) as (r & c' & Y). destruct (Bd y ltac:(apply in_or_app; left; exact Hy)) as (B1 & B2 & B3).
      rewrite (chunk_at D in_dev b I (dp_active D) (fst y) (snd y) _ Hb Cf B1 B2 B3 Y). eexists. eexists. reflexivity.
    - destruct (Bd (s, k) ltac:(apply in_or_app; right; left; reflexivity)) as (B1 & B2 & B3). exact (chunk_at D in_dev b I (dp_active D) s k _ Hb Cf B1 B2 B3 X).
  Qed.

  Lemma dispatched_whole n D (I : vmap) b in_dev P r : (0 <= n < 2 ^ 63)%Z -> contract b I -> input_device I = Ok in_dev -> ~ divided n D b in_dev ->
    model_at D (dp_active D) = Ok P -> fwd (dp_active D) (effective P []) I = r -> try_dispatched fwd n D I = Some r.
  Proof.
    intros Hn C Hd Nd M F. unfold try_dispatched. rewrite Hd, (infer_batch_size_contract b I C). destruct C as (Hb & _). destruct (chunk_extent_pos n (Z.of_nat b) Hn ltac:(lia)) as [_ H3].
    assert (Y : (Z.of_nat b <=? chunk_extent n (Z.of_nat b))%Z && device_eqb (dp_active D) in_dev = true).
    { apply andb_true_iff. split.
      - apply Z.leb_le. rewrite H3. destruct (Z.eqb_spec n 0); [lia|]. destruct (Z.lt_ge_cases n (Z.of_nat b)); [|lia]. exfalso. apply Nd. left. lia.
      - destruct (device_eqb (dp_active D) in_dev) eqn:E; [reflexivity|]. exfalso. apply Nd. right. intros E'. apply device_eqb_eq in E'. congruence. }
    rewrite Y, M. cbn [plain abind]. rewrite F. reflexivity.
  Qed.
End Dispatched.
