(** Proofs about a loaded model serving calls. *)
From Coq Require Import String Permutation.
From Verif Require Import Load SpecLoad LoadProofs.
From Verif Require Import Base Tensor Spec SpecMap SpecRename Float Krylov BatchChunk Dispatch SpecDispatch Params SpecParams Sched SpecSched Async SpecAsync AsyncOp Rename Broadcast Pack Implicit Substep Mat Jac JacModel FwdModel Runtime Bundle
     Serve SpecServe SpecRuntime.
From Verif Require Import BaseProofs SmapProofs TensorProofs DispatchProofs RenameProofs SyncProofs AsyncOpProofs ParamsProofs RuntimeProofs SpecBundle BundleProofs.
Local Open Scope list_scope.

(** ** Only the values of the parameters matter *)
Section Ext.
  Context {V : Type}.
  Variable A : arith V.
  Variables par par' : string -> result (tensor V).
  Hypothesis same : forall n, par n = par' n.

  Lemma pass_same p dev st : predictor_pass par p dev st = predictor_pass par' p dev st.
  Proof. unfold predictor_pass. rewrite (mapM_ext par par') by (intros; apply same). reflexivity. Qed.
  Lemma loop_same p dev it k : forall st, predictor_loop par p dev it k st = predictor_loop par' p dev it k st.
  Proof.
    induction k as [|k IH]; intros st; [reflexivity|]. cbn [predictor_loop]. rewrite pass_same. destruct (predictor_pass par' p dev st) as [r l].
    destruct (let* st := r in _) as [st'|]; [rewrite IH|]; reflexivity.
  Qed.
  Lemma prepare_same z sg st : prepare_solve z par sg st = prepare_solve z par' sg st.
  Proof.
    unfold prepare_solve, run_predictor. destruct (is_givens sg) as [|g0 gs]; [reflexivity|]. destruct (lookup _ st) as [t0|]; [|reflexivity]. destruct (Nat.ltb _ _); [reflexivity|].
    rewrite (mapM_ext par par') by (intros; apply same). destruct (is_predictor sg) as [p|]; [rewrite loop_same|]; reflexivity.
  Qed.
  Lemma implicit_same z capture sg st : run_implicit z par capture sg st = run_implicit z par' capture sg st.
  Proof. unfold run_implicit. rewrite prepare_same. reflexivity. Qed.
  Lemma masked_same z sg st : run_implicit_masked z par sg st = run_implicit_masked z par' sg st.
  Proof. unfold run_implicit_masked. rewrite prepare_same. reflexivity. Qed.

  Lemma solve_to_same masked masked' gs us orig : (forall st, masked st = masked' st) ->
    forall n a b act bufs, solve_to A masked gs us orig n a b act bufs = solve_to A masked' gs us orig n a b act bufs.
  Proof.
    intros M. assert (Sp : forall a b act ch, solve_span A masked gs orig a b act ch = solve_span A masked' gs orig a b act ch).
    { intros. unfold solve_span. repeat (match goal with |- bind ?x _ = bind ?x _ => destruct x; cbn [bind]; [|reflexivity] end). apply M. }
    induction n as [|n IH]; intros a b act bufs; cbn [solve_to]; rewrite Sp; destruct (solve_span A masked' gs orig a b act (snd bufs)) as [[sp mask]|]; try reflexivity.
    destruct (store _ _ _ _ _ _) as [bufs'|]; [|reflexivity]. destruct (positions false 0 mask); [reflexivity|]. destruct (pick act _) as [fg|]; [|reflexivity].
    rewrite IH. destruct (solve_to A masked' gs us orig n a _ fg bufs') as [[b1|] l1]; [rewrite IH|]; reflexivity.
  Qed.
  Lemma substepped_same masked masked' gs us n st : (forall st, masked st = masked' st) -> run_substepped A masked gs us n st = run_substepped A masked' gs us n st.
  Proof.
    intros M. unfold run_substepped. destruct gs as [|g0 gs]; [reflexivity|]. destruct (at_ _ st) as [t0|]; [|reflexivity]. destruct (Nat.ltb _ _); [reflexivity|].
    match goal with |- match ?x with _ => _ end = _ => destruct x as [[[[orig B] res] ch]|]; [|reflexivity] end. rewrite (solve_to_same masked masked') by exact M. reflexivity.
  Qed.
  Lemma segment_same nds sg batch st : run_forward_segment par nds sg batch st = run_forward_segment par' nds sg batch st.
  Proof.
    unfold run_forward_segment. rewrite (mapM_ext (fun p => let* t := par p in _) (fun p => let* t := par' p in let* nd := at_ p nds in broadcast_param t batch nd));
      [reflexivity|]. intros x _. rewrite same. reflexivity.
  Qed.
  Lemma step_same nds capture batch sg st : value_step A par nds capture batch sg st = value_step A par' nds capture batch sg st.
  Proof.
    destruct sg as [f|i]; cbn [value_step]; [apply segment_same|]. destruct (Nat.ltb 0 (ji_level i)); [|apply implicit_same].
    rewrite (substepped_same _ (run_implicit_masked (a_zero A) par' (ji_seg i))); [reflexivity|]. intros s. apply masked_same.
  Qed.
  Lemma forward_same nds capture m I : forward_of A par nds capture m I = forward_of A par' nds capture m I.
  Proof.
    unfold forward_of, forward. destruct (prepare_inputs _ _) as [st|]; cbn [bind]; [|reflexivity].
    match goal with |- bind ?x _ = _ => destruct x as [batch|]; cbn [bind]; [|reflexivity] end.
    assert (H : forall l s, value_steps A par nds capture batch l s = value_steps A par' nds capture batch l s).
    { induction l as [|sg l IH]; intros s; [reflexivity|]. cbn [value_steps]. rewrite step_same. destruct (value_step _ _ _ _ _ _ _); cbn [bind]; [apply IH|reflexivity]. }
    rewrite H. reflexivity.
  Qed.
End Ext.

Lemma facade_same {T} t (f g : smap T -> result (smap T)) I : (forall I, f I = g I) -> facade_forward t f I = facade_forward t g I.
Proof. intros H. unfold facade_forward. destruct (has_aliases t); rewrite H; reflexivity. Qed.

(** ** The parameters of a Model *)
Lemma stored_params (P : smap (tensor F)) : vmap_ snd (vmap_ (fun t => (EmptyString, t)) P) = P.
Proof. unfold vmap_. rewrite map_map. cbn [fst snd]. rewrite <- (map_id P) at 2. apply map_ext. intros [k t]. reflexivity. Qed.

Section Call.
  Variable fsum rsum : list F -> F.
  Variable edot : list F -> list F -> F.
  Variable tri : list (list F) -> list F -> list F.
  Variable A : arith F.
  Variable graph : device -> string -> list (tensor F) -> result (list (tensor F)).
  Variable capture : bool.
  Notation call := (call_model fsum rsum edot tri A graph capture).

  Lemma keys_effective (P ov : smap (tensor F)) : keys (effective P ov) = keys P.
  Proof. unfold effective, keys. rewrite map_map. reflexivity. Qed.
  Lemma lookup_effective (P ov : smap (tensor F)) k : lookup k (effective P ov) =
    match lookup k P with None => None | Some v => match lookup k ov with Some t => Some t | None => Some v end end.
  Proof.
    induction P as [|[q t] P IH]; [reflexivity|]. cbn [effective map fst snd]. cbn [lookup]. destruct (String.eqb_spec k q) as [->|N]; [|exact IH].
    destruct (lookup q ov); reflexivity.
  Qed.

  (** Dispatch.v puts the overrides into the parameters; Model::forward() looks there first. *)
  Lemma overrides_effective m d P ov I : incl (keys ov) (keys P) -> call m d P (Some ov) I = call m d (effective P ov) None I.
  Proof.
    intros H. unfold call_model, model_forward. apply facade_same. intros J. apply forward_same. intros n. unfold param_of, resolve_param. cbn [ld_tables ld_named with_params].
    rewrite !stored_params, lookup_effective. destruct (lookup _ ov) as [v|] eqn:E.
    - destruct (lookup _ P) eqn:E'; [reflexivity|]. apply lookup_none in E'. destruct E'. apply H. eapply lookup_in in E. apply (in_map fst) in E. exact E.
    - destruct (lookup _ P); reflexivity.
  Qed.
  (** All parameters overridden: the stored ones do not matter. *)
  Lemma all_overridden m d P I : keys P = keys (params_of m) -> call m d P None I = model_forward fsum rsum edot tri A (graph d) m capture (Some P) I.
  Proof.
    intros H. unfold call_model, model_forward. change (ld_tables (with_params m P)) with (ld_tables m). apply facade_same. intros J.
    change (model_of fsum rsum edot tri (graph d) (with_params m P)) with (model_of fsum rsum edot tri (graph d) m). change (base_ndims (with_params m P)) with (base_ndims m).
    apply forward_same. intros n. unfold param_of, resolve_param. cbn [ld_tables ld_named with_params]. rewrite stored_params. fold (params_of m).
    destruct (lookup (translate (param_o2e (ld_tables m)) n) P) eqn:E; [reflexivity|]. apply lookup_none in E. rewrite H in E. apply lookup_none in E. rewrite E. reflexivity.
  Qed.
End Call.

(** ** Putting results together *)
Section Stitch.
  Context {V : Type}.
  Notation tens := (tensor V).
  Notation vmap := (smap (tensor V)).

  Lemma cut_back rest d : forall l (us : list tens) s b pre, tiles s b l -> (0 <= s)%Z -> Forall2 (fun x u => wf u /\ t_shape u = Z.to_nat (snd x) :: rest /\ t_dev u = d) l us ->
    length pre = Z.to_nat s * numel rest ->
    Forall2 (fun x u => rows_of (Z.to_nat (fst x)) (Z.to_nat (snd x)) (mkT (Z.to_nat b :: rest) (pre ++ concat (map t_data us)) d) = u) l us.
  Proof.
    intros l us s b pre T. revert us pre. induction T as [b|s c b l Hc T IH]; intros us pre Hs H L; inversion H as [|x u l' us' (W & Sh & Dv) H']; subst; [constructor|].
    cbn [fst snd] in *. constructor.
    - unfold rows_of. cbn [fst snd t_shape tl t_data t_dev]. rewrite <- L. cbn [map concat]. assert (Lu : length (t_data u) = Z.to_nat c * numel rest) by (rewrite W, Sh; reflexivity).
      rewrite skipn_app, skipn_all, Nat.sub_diag. cbn [app skipn]. rewrite <- Lu, firstn_app, firstn_all, Nat.sub_diag. cbn [firstn]. rewrite app_nil_r, <- Sh. destruct u; reflexivity.
    - cbn [map concat]. rewrite app_assoc. apply IH; [lia|exact H'|]. rewrite app_length, L, W, Sh. cbn [numel fold_right]. fold (numel rest).
      rewrite Z2Nat.inj_add by lia. lia.
  Qed.

  Lemma cat0_in_place d b l (us : list tens) t : tiles 0 (Z.of_nat b) l -> cat0 (map (to_dev d) us) = Ok t ->
    t_dev t = d /\
    (Forall2 (fun x u => wf u /\ batched (Z.to_nat (snd x)) u) l us ->
     wf t /\ batched b t /\ Forall2 (fun x u => is_rows (Z.to_nat (fst x)) (Z.to_nat (snd x)) (to_dev d t) (to_dev d u)) l us).
  Proof.
    intros T E. destruct us as [|u0 us]; [discriminate|]. unfold cat0 in E. cbn [map] in E. destruct (t_shape (to_dev d u0)) as [|n0 rest] eqn:S0; [discriminate|].
    change (to_dev d u0 :: map (to_dev d) us) with (map (to_dev d) (u0 :: us)) in E. destruct (forallb _ _) eqn:Fb; [|discriminate].
    assert (Et : t = mkT (fold_right Nat.add 0 (map lead (map (to_dev d) (u0 :: us))) :: rest) (concat (map t_data (map (to_dev d) (u0 :: us)))) d) by (injection E as <-; reflexivity).
    clear E. subst t. split; [reflexivity|]. intros H.
    assert (H' : Forall2 (fun x u => wf u /\ t_shape u = Z.to_nat (snd x) :: rest /\ t_dev u = d) l (map (to_dev d) (u0 :: us))).
    { rewrite forallb_forall in Fb. clear S0 n0. revert Fb H. generalize (u0 :: us). clear T. induction l as [|x l IH]; intros l0 Fb H; inversion H as [|? u ? us' (W & (r & Sh)) H']; subst; [constructor|].
      cbn [map]. constructor.
      - assert (Fc := Fb (to_dev d u) (or_introl eq_refl)). unfold cat_compat in Fc. cbn [to_dev t_shape t_dev] in Fc |- *. rewrite Sh in *. apply andb_true_iff in Fc as [Fc _].
        apply shape_eqb_eq in Fc as ->. split; [apply (to_dev_wf d u W)|split; reflexivity].
      - apply IH; [intros y Hy; apply Fb; right; exact Hy|exact H']. }
    assert (Sum : fold_right Nat.add 0 (map lead (map (to_dev d) (u0 :: us))) = b).
    { pose proof (sum_counts _ _ _ T) as Sc. rewrite Z.sub_0_r, Nat2Z.id in Sc. rewrite <- Sc. clear - H'. revert H'. generalize (map (to_dev d) (u0 :: us)). clear.
      induction l as [|x l IH]; intros l0 H'; inversion H' as [|? u ? us' (_ & Sh & _) H'']; subst; [reflexivity|]. cbn [map fold_right]. rewrite (IH us' H''). unfold lead. rewrite Sh. reflexivity. }
    rewrite Sum. set (parts := map (to_dev d) (u0 :: us)) in *.
    pose proof (cut_back rest d l parts 0 (Z.of_nat b) [] T (Z.le_refl 0) H' eq_refl) as Cut. cbn [app] in Cut. rewrite Nat2Z.id in Cut.
    assert (Lc : length (concat (map t_data parts)) = b * numel rest).
    { rewrite <- Sum. clear - H'. revert H'. generalize parts. clear. induction l as [|x l IH]; intros p H'; inversion H' as [|? u ? us' (W & Sh & _) H'']; subst; [reflexivity|].
      cbn [map concat fold_right]. rewrite app_length, (IH us' H''). unfold lead at 2. rewrite W, Sh. cbn [numel fold_right]. fold (numel rest). lia. }
    assert (Wt : wf (mkT (b :: rest) (concat (map t_data parts)) d)) by exact Lc. assert (Bt : batched b (mkT (b :: rest) (concat (map t_data parts)) d)) by (exists rest; reflexivity).
    split; [exact Wt|]. split; [exact Bt|].
    change (to_dev d {| t_shape := b :: rest; t_data := concat (map t_data parts); t_dev := d |}) with (mkT (b :: rest) (concat (map t_data parts)) d).
    set (t := mkT (b :: rest) (concat (map t_data parts)) d) in *.
    assert (Bd : forall x, In x l -> Z.to_nat (fst x) + Z.to_nat (snd x) <= b) by (intros x Hx; pose proof (tiles_bounds _ _ _ _ T Hx); lia).
    assert (Cut' : Forall2 (fun x u => rows_of (Z.to_nat (fst x)) (Z.to_nat (snd x)) t = to_dev d u) l (u0 :: us)).
    { clear - Cut. clearbody t. unfold parts in Cut. clear parts. remember (u0 :: us) as l0 eqn:El. clear El. revert l Cut. induction l0 as [|u l0 IH]; intros l Cut; inversion Cut; subst; constructor; auto. }
    clearbody t. clear - Cut' Bd Wt Bt. remember (u0 :: us) as l0 eqn:El. clear El. induction Cut' as [|x u l us' E Cut IH]; [constructor|]; constructor; [|apply IH; intros y Hy; apply Bd; right; exact Hy].
    rewrite <- E. apply (rows_of_is_rows b); [exact Wt|exact Bt|apply Bd; left; reflexivity].
  Qed.
  Lemma lookup_move d (m : vmap) n : lookup n (to_device m d) = option_map (to_dev d) (lookup n m).
  Proof. rewrite to_device_on_dev. apply lookup_vmap. Qed.

  Lemma mapM_keyed (f : string -> result tens) : forall (c out : vmap), mapM (fun kt => let* t := f (fst kt) in Ok (fst kt, t)) c = Ok out ->
    forall n, (lookup n out = None <-> lookup n c = None) /\ forall t, lookup n out = Some t -> f n = Ok t.
  Proof.
    induction c as [|[k v] c IH]; intros out E n.
    - injection E as <-. split; [split; auto|discriminate].
    - cbn [mapM fst] in E. destruct (f k) as [t|] eqn:Ef; cbn [bind] in E; [|discriminate]. destruct (mapM _ c) as [r|] eqn:Er; cbn [bind] in E; [|discriminate]. injection E as <-.
      cbn [lookup]. destruct (String.eqb_spec n k) as [->|Nk]; [split; [split; discriminate|congruence]|]. apply (IH r eq_refl).
  Qed.

  Lemma cat_batch_in_place in_dev b l (rs : list vmap) out : tiles 0 (Z.of_nat b) l -> length l = length rs -> (forall r r' n, In r rs -> In r' rs -> lookup n r = None -> lookup n r' = None) ->
    cat_batch (map (fun r => to_device r in_dev) rs) = Ok out -> in_place in_dev b l rs out.
  Proof.
    intros T L K E. destruct rs as [|r0 [|r1 rs]]; [discriminate| |].
    - cbn [map cat_batch] in E. injection E as <-. destruct l as [|x [|]]; try discriminate. inversion T as [|s c b' l' Hc T']; subst. assert (Cb : c = Z.of_nat b) by (inversion T'; lia). clear T T'. subst c.
      split.
      + intros r n [<-|[]]. rewrite lookup_move. destruct (lookup n r0); cbn; split; congruence.
      + intros n t Lt. rewrite lookup_move in Lt. destruct (lookup n r0) as [u|] eqn:Lu; [|discriminate]. cbn [option_map] in Lt. injection Lt as <-.
        exists [u]. split; [repeat constructor; exact Lu|]. split; [|left; reflexivity]. cbn [fst snd] in *. intros H. inversion H as [|? ? ? ? (W & B) _]; subst.
        cbn [snd] in B. rewrite Nat2Z.id in B.
        split; [apply to_dev_wf, W|]. split; [exact B|]. constructor; [|constructor]. cbn [fst snd]. rewrite Nat2Z.id.
        rewrite <- (rows_of_all b (to_dev in_dev u)) at 2 by (try apply to_dev_wf; assumption).
        apply (rows_of_is_rows b); [apply to_dev_wf, W|exact B|cbn; lia].
    - set (rs0 := r0 :: r1 :: rs) in *. set (cs := map (fun r => to_device r in_dev) rs0) in *.
      change (cat_batch cs) with (mapM (fun kt => let* parts := parts_of (fst kt) cs in let* t := cat0 parts in Ok (fst kt, t)) (to_device r0 in_dev)) in E.
      assert (E' : mapM (fun kt => let* t := (let* parts := parts_of (fst kt) cs in cat0 parts) in Ok (fst kt, t)) (to_device r0 in_dev) = Ok out).
      { rewrite <- E. apply mapM_ext. intros x _. destruct (parts_of (fst x) cs); reflexivity. }
      pose proof (mapM_keyed (fun n => let* parts := parts_of n cs in cat0 parts) _ _ E') as Q. clear E E'.
      assert (N0 : forall n, lookup n out = None <-> lookup n r0 = None).
      { intros n. destruct (Q n) as [Q1 _]. rewrite Q1, lookup_move. destruct (lookup n r0); cbn; split; congruence. }
      split.
      + intros r n Hr. rewrite N0. split; intros H; [apply (K r0 r n); [left; reflexivity|exact Hr|exact H]|apply (K r r0 n); [exact Hr|left; reflexivity|exact H]].
      + intros n t Lt. destruct (Q n) as [_ Q2]. specialize (Q2 t Lt). unfold parts_of in Q2. destruct (mapM _ cs) as [ps|] eqn:Ep; cbn [bind] in Q2; [|discriminate].
        assert (Us : exists us, Forall2 (fun r u => lookup n r = Some u) rs0 us /\ ps = map (to_dev in_dev) us).
        { unfold cs in Ep. rewrite mapM_map in Ep. apply mapM_Forall2 in Ep. clear - Ep. induction Ep as [|r p rs0 ps E Ep (us & F & ->)]; [exists []; split; [constructor|reflexivity]|].
          rewrite lookup_move in E. destruct (lookup n r) as [u|] eqn:Lr; [|discriminate]. cbn [option_map] in E. injection E as <-. exists (u :: us). split; [constructor; assumption|reflexivity]. }
        destruct Us as (us & F & ->). exists us. split; [exact F|]. destruct (cat0_in_place in_dev b l us t T Q2) as [Dv Ro]. split; [exact Ro|left; exact Dv].
  Qed.
  Lemma whole_in_place in_dev b (out : vmap) : in_place in_dev b [(0, Z.of_nat b)%Z] [out] out.
  Proof.
    split.
    - intros r n [<-|[]]. reflexivity.
    - intros n t L. exists [t]. split; [repeat constructor; exact L|]. split; [|right; reflexivity]. intros Hf. inversion Hf as [|? ? ? ? (W & B) _]; subst. cbn [snd] in B. rewrite Nat2Z.id in B.
      split; [exact W|]. split; [exact B|]. constructor; [|constructor]. cbn [fst snd]. rewrite Nat2Z.id.
      rewrite <- (rows_of_all b (to_dev in_dev t)) at 2 by (try apply to_dev_wf; assumption).
      apply (rows_of_is_rows b); [apply to_dev_wf, W|exact B|cbn; lia].
  Qed.
End Stitch.

(** ** One call of the dispatcher *)
Section Disp.
  Context {V : Type}.
  Notation tens := (tensor V).
  Notation vmap := (smap (tensor V)).
  Variable fwd : device -> vmap -> vmap -> result vmap.
  Variables (D : disp V) (P I : vmap) (b : nat) (in_dev : device).
  Let nds := l_param (dp_layout D).
  (** The rows of a range on a device. *)
  Definition piece_call (d : device) (x : Z * Z) : result vmap :=
    fwd d (on_dev d (chunk_params b (Z.to_nat (fst x)) (Z.to_nat (snd x)) nds P)) (on_dev d (chunk_map b (Z.to_nat (fst x)) (Z.to_nat (snd x)) I)).

  Lemma chunk_forward_is n d s c : call_ok n D P I b in_dev -> SyncProofs.holds D P d -> (0 <= s)%Z -> (0 < c)%Z -> (s + c <= Z.of_nat b)%Z ->
    chunk_forward fwd D in_dev (Z.of_nat b) I d s c = rmap (fun r => to_device r in_dev) (piece_call d (s, c)).
  Proof.
    intros H Hd Hs Hc Hsc. unfold chunk_forward.
    rewrite (slice_batch_chunk b) by first [assumption | eapply call_b; eassumption | eapply call_conf; eassumption].
    cbn [bind]. rewrite (call_overrides n D P I b in_dev H) by assumption. cbn [bind].
    rewrite (holds_model_at D P d Hd). cbn [bind].
    rewrite (call_effective n D P I b in_dev H), to_device_on_dev. unfold piece_call. cbn [fst snd]. fold nds. destruct (fwd d _ _); reflexivity.
  Qed.

  Lemma sync_inv n out : call_ok n D P I b in_dev -> sync_forward fwd n D I = Done (Ok out) ->
    exists l rs, tiles 0 (Z.of_nat b) l /\ (forall x, In x l -> (snd x <= (if (n =? 0)%Z then Z.of_nat b else n))%Z) /\
      Forall2 (fun x r => piece_call (dp_active D) x = Ok r) l rs /\ ((l = [(0, Z.of_nat b)]%Z /\ rs = [out]) \/ cat_batch (map (fun r => to_device r in_dev) rs) = Ok out).
  Proof.
    intros H E. unfold sync_forward, sync_op in E. rewrite (call_input_device n D P I b in_dev H) in E. cbn zeta in E.
    rewrite (infer_batch_size_contract b I) in E by apply (co_contract _ _ _ _ _ _ H).
    assert (Hb : 1 <= b) by (eapply call_b; eassumption).
    destruct (sync_chunks_tile n (Z.of_nat b) (co_n _ _ _ _ _ _ H) ltac:(lia)) as (l & Tl & Bd & _ & Run).
    destruct ((Z.of_nat b <=? chunk_extent n (Z.of_nat b))%Z && device_eqb (dp_active D) in_dev)%bool eqn:Ef.
    - apply andb_true_iff in Ef as [Eb Ed]. apply device_eqb_eq in Ed. rewrite (call_model_at n D P I b in_dev H) in E. cbn [bind] in E. rewrite effective_nil in E.
      assert (E' : fwd (dp_active D) P I = Ok out) by congruence. clear E Run Tl Bd l.
      exists [(0, Z.of_nat b)%Z], [out]. split; [|split; [|split]].
      + apply tiles_cons; [lia|]. rewrite Z.add_0_l. apply tiles_nil.
      + intros x [<-|[]]. cbn [snd]. destruct (chunk_extent_pos n (Z.of_nat b) (co_n _ _ _ _ _ _ H) ltac:(lia)) as [_ Ex]. apply Z.leb_le in Eb. destruct (n =? 0)%Z; lia.
      + constructor; [|constructor]. unfold piece_call. cbn [fst snd Z.to_nat]. rewrite Nat2Z.id, chunk_params_all by apply (co_params _ _ _ _ _ _ H).
        rewrite chunk_map_all by (eapply call_conf; eassumption). rewrite on_dev_all_on by apply (co_pdev _ _ _ _ _ _ H).
        rewrite on_dev_all_on by (rewrite Ed; apply (co_on _ _ _ _ _ _ H)). exact E'.
      + left. split; reflexivity.
    - clear Ef. rewrite Run in E. clear Run. exists l.
      assert (Hc : mapM (fun x => chunk_forward fwd D in_dev (Z.of_nat b) I (dp_active D) (fst x) (snd x)) l
                   = mapM (fun x => rmap (fun r => to_device r in_dev) (piece_call (dp_active D) x)) l).
      { apply mapM_ext. intros [s c] Hx. pose proof (tiles_bounds _ _ _ _ Tl Hx) as (H1 & H2 & H3). cbn [fst snd] in *.
        apply (chunk_forward_is n); first [assumption | eapply holds_active; eassumption | lia]. }
      rewrite Hc in E. clear Hc. destruct (mapM _ l) as [cs|] eqn:Em; [|discriminate]. cbn [lbind] in E. assert (E' : cat_batch cs = Ok out) by congruence. clear E.
      apply mapM_Forall2 in Em. assert (Rs : exists rs, Forall2 (fun x r => piece_call (dp_active D) x = Ok r) l rs /\ cs = map (fun r => to_device r in_dev) rs).
      { clear - Em. induction Em as [|x c l cs E Em (rs & F & ->)]; [exists []; split; [constructor|reflexivity]|]. destruct (piece_call (dp_active D) x) as [r|] eqn:Ep; [|discriminate].
        exists (r :: rs). split; [constructor; assumption|]. cbn [rmap] in E. injection E as <-. reflexivity. }
      destruct Rs as (rs & F & ->). exists rs. split; [exact Tl|]. split; [exact Bd|]. split; [exact F|right; exact E'].
  Qed.

  Lemma pool_inv tbl run k ls rs0 out : pool_ok tbl -> pool_call_ok (map ds_dev tbl) D P I b in_dev ->
    finished_call run tbl k (Z.of_nat b) ls (Ok rs0) -> returns_only run k (chunk_forward fwd D in_dev (Z.of_nat b) I) -> async_forward (Ok rs0) = Ok out ->
    exists (l : list (device * (Z * Z))) rs, tiles 0 (Z.of_nat b) (map snd l) /\
      (forall x, In x l -> exists t, In t tbl /\ ds_dev t = fst x /\ (snd (snd x) <= ds_batch t)%Z) /\
      Forall2 (fun x r => piece_call (fst x) (snd x) = Ok r) l rs /\ cat_batch (map (fun r => to_device r in_dev) rs) = Ok out.
  Proof.
    intros Hp H (s & o & s' & Hr & Em & -> & Hb & He & Hn & Em') Ro E.
    destruct (AsyncEnd.call_success run tbl Hp s o (Z.of_nat b) ls s' rs0 Hr Em Hb He Hn Em') as (l & Tl & -> & _ & Fl). pose proof (pool_call_call tbl D P I b in_dev H) as Hc.
    exists (map (fun x => (tk_dev (fst x), (tk_start (fst x), tk_count (fst x)))) l).
    unfold async_forward, async_op in E. cbn [bind] in E. rewrite map_map in E.
    assert (Rs : exists rs, Forall2 (fun x r => piece_call (tk_dev (fst x)) (tk_start (fst x), tk_count (fst x)) = Ok r) l rs /\ map snd l = map (fun r => to_device r in_dev) rs).
    { clear - Fl Ro Hc H. induction Fl as [|x l ((t & It & Dt & Ct & St & Et) & Rx) Fl (rs & F & Em)]; [exists []; split; [constructor|reflexivity]|]. apply Ro in Rx.
      rewrite (chunk_forward_is 0) in Rx; try lia; [|exact Hc|rewrite <- Dt; eapply pool_holds; eassumption].
      destruct (piece_call _ _) as [r|] eqn:Ep; [|discriminate]. exists (r :: rs). split; [constructor; assumption|]. cbn [map]. rewrite <- Em. cbn [rmap] in Rx. congruence. }
    destruct Rs as (rs & F & Ec). exists rs. rewrite map_map. cbn [snd]. split; [exact Tl|]. split; [|split].
    - intros x Hx. apply in_map_iff in Hx as (y & <- & Hy). rewrite Forall_forall in Fl. destruct (Fl y Hy) as [(t & It & Dt & Ct & _) _]. exists t. cbn [fst snd]. split; [exact It|]. split; [exact Dt|lia].
    - clear - F. induction F; cbn [map]; constructor; assumption.
    - rewrite <- Ec. exact E.
  Qed.
End Disp.

Lemma nodup_map {X Y} (f : X -> Y) l : NoDup l -> (forall x y, In x l -> In y l -> f x = f y -> x = y) -> NoDup (map f l).
Proof.
  induction 1 as [|x l Nx Nl IH]; intros J; cbn [map]; constructor.
  - intros I. apply in_map_iff in I as (y & E & I). apply J in E; [subst; contradiction|right; exact I|left; reflexivity].
  - apply IH. intros y z Iy Iz. apply J; right; assumption.
Qed.
Lemma nodup_map_inj {X Y} (f : X -> Y) l : NoDup (map f l) -> forall x y, In x l -> In y l -> f x = f y -> x = y.
Proof.
  induction l as [|z l IH]; intros Nd x y Ix Iy E; [destruct Ix|]. cbn [map] in Nd. inversion Nd as [|? ? Nz Nd']; subst.
  destruct Ix as [->|Ix], Iy as [->|Iy]; [reflexivity| | |apply IH; assumption].
  - destruct Nz. rewrite E. apply in_map, Iy.
  - destruct Nz. rewrite <- E. apply in_map, Ix.
Qed.

Lemma f2_length {X Y} (R : X -> Y -> Prop) l rs : Forall2 R l rs -> length l = length rs.
Proof. induction 1; cbn; congruence. Qed.
Lemma f2_in {X Y} (R : X -> Y -> Prop) l rs y : Forall2 R l rs -> In y rs -> exists x, In x l /\ R x y.
Proof. induction 1 as [|x z l rs E F IH]; intros I; [destruct I|]. destruct I as [->|I]; [exists x; split; [left; reflexivity|exact E]|]. destruct (IH I) as (w & Iw & Rw). exists w. split; [right; exact Iw|exact Rw]. Qed.

(** ** The models of a dispatcher *)
Section Loaded.
  Context {C H N : Type}.
  Variable of_int : Z -> F.
  Variable trunc : F -> result Z.
  Variable cast : string -> F -> F.
  Variable sdef : sconfig F.
  Variable kdef : kconfig F.
  Variable parse_json : C -> result (json F).
  Variable open_pkg : C -> device -> result unit.
  Variable parse_hit : C -> result H.
  Variable find_node : H -> string -> option N.
  Variable param : N -> string -> result (option string).
  Variable fs : location -> option (node C).
  Variable cwd : location.
  Notation load_model := (load_model of_int trunc cast sdef kdef parse_json open_pkg parse_hit find_node param fs cwd).

  Lemma open_models_nodup root dtype devs : forall acc ms, open_models of_int trunc cast sdef kdef parse_json open_pkg fs cwd root dtype devs acc = Ok ms ->
    NoDup (map fst acc) -> NoDup (map fst ms).
  Proof.
    induction devs as [|d devs IH]; intros acc ms E Nd; cbn [open_models] in E; [injection E as <-; exact Nd|].
    apply bind_ok in E as (m & _ & E). apply IH in E; [exact E|]. destruct (existsb _ acc) eqn:Ex; [exact Nd|].
    rewrite map_app. cbn [map fst]. apply (NoDup_Add (a := d) (l := map fst acc)); [rewrite <- (app_nil_r (map fst acc)) at 1; apply Add_app|].
    split; [exact Nd|]. intros I. apply in_map_iff in I as (e & E1 & I). assert (T : existsb (fun e => device_eqb d (fst e)) acc = true).
    { apply existsb_exists. exists e. split; [exact I|]. rewrite E1. apply device_eqb_refl. } rewrite T in Ex. discriminate.
  Qed.
  Lemma load_model_nodup p name s D : load_model p name s = Ok D -> NoDup (map fst (dm_models D)).
  Proof.
    unfold Bundle.load_model. intros E. apply bind_ok in E as (h & _ & E). destruct (find_node _ _) as [n|]; [|discriminate]. apply bind_ok in E as (ty & _ & E).
    apply bind_ok in E as (? & _ & E). apply bind_ok in E as (path & _ & E). apply bind_ok in E as (? & _ & E). unfold open_dispatched in E.
    apply bind_ok in E as (? & _ & E). apply bind_ok in E as (? & _ & E). apply bind_ok in E as (ms & Em & E).
    apply open_models_nodup in Em; [|constructor]. destruct ms as [|[d m] ms]; [discriminate|]. injection E as <-. exact Em.
  Qed.

  Variable a : artifact F.
  Notation loaded_at d m := (load of_int trunc cast (fun _ => Ok tt) sdef kdef "float64" d true (write a) = Ok m).
  Hypothesis ok : artifact_ok kdef (opens (fun _ => Ok tt)) a.

  Definition stored_at (d : device) (n : string) : option (tensor F) :=
    match find (fun p => String.eqb n (boundary (ar_par a) (ap_name p))) (ar_params a) with
    | Some p => Some (mkT (ap_shape p) (map (cast (match ap_dtype p with Some s => s | None => "float64" end)) (ap_values p)) d)
    | None => None
    end.
  Lemma loaded_params d m : loaded_at d m -> sorted (params_of m) /\ forall n, lookup n (params_of m) = stored_at d n.
  Proof.
    intros E. destruct (load_write of_int trunc cast (fun _ => Ok tt) sdef kdef "float64" d a ok) as (m' & E' & Fa & _ & So & _). rewrite E' in E. injection E as <-.
    split; [unfold sorted, params_of; rewrite keys_vmap; exact So|]. intros n. unfold params_of. rewrite lookup_vmap. unfold stored_at.
    destruct Fa as (_ & _ & _ & _ & _ & _ & _ & _ & _ & _ & Fp & Fn & _). destruct (find _ _) as [p|] eqn:Ef.
    - apply find_some in Ef as [Ip En]. apply String.eqb_eq in En. subst n. destruct (Fp p Ip) as [Q _]. exact (f_equal (option_map snd) Q).
    - destruct (lookup n (ld_named m')) as [v|] eqn:L; [|exact (f_equal (option_map snd) L)]. destruct (Fn n) as (p & Ip & ->); [rewrite L; discriminate|].
      pose proof (find_none _ _ Ef p Ip) as X. cbn beta in X. rewrite String.eqb_refl in X. discriminate.
  Qed.
  Lemma params_moved d d' m m' : loaded_at d m -> loaded_at d' m' -> params_of m' = on_dev d' (params_of m).
  Proof.
    intros E E'. destruct (loaded_params d m E) as [S1 L1], (loaded_params d' m' E') as [S2 L2]. apply sorted_ext; [exact S2|unfold sorted, on_dev; rewrite keys_vmap; exact S1|].
    intros n. rewrite L2. unfold on_dev. rewrite lookup_vmap, L1. unfold stored_at. destruct (find _ _); reflexivity.
  Qed.
  Lemma params_all_on d m : loaded_at d m -> all_on d (params_of m).
  Proof.
    intros E. destruct (loaded_params d m E) as [S1 L1]. apply Forall_forall. intros [n t] I. cbn [snd]. apply (lookup_nodup _ _ _ (sorted_nodup _ S1)) in I. rewrite L1 in I. unfold stored_at in I.
    destruct (find _ _); [|discriminate]. injection I as <-. reflexivity.
  Qed.

  Lemma param_bases_is d m : loaded_at d m -> ranks_of a (param_bases m).
  Proof.
    intros E. destruct (load_write of_int trunc cast (fun _ => Ok tt) sdef kdef "float64" d a ok) as (m' & E' & Fa & Tm & _ & Sb & Lb). rewrite E' in E. injection E as <-.
    pose proof ok as (_ & _ & Dp & _ & _ & _ & _ & _ & Np & Nb & _). intros p Ip. unfold param_bases. rewrite lookup_vmap.
    assert (Fp : find (fun q => String.eqb (ap_name p) (ap_name q)) (ar_params a) = Some p).
    { clear - Np Ip. induction (ar_params a) as [|x l IH]; [destruct Ip|]. cbn [map] in Np. inversion Np as [|? ? Nx Np']; subst. cbn [find]. destruct Ip as [->|Ip]; [rewrite String.eqb_refl; reflexivity|].
      destruct (String.eqb_spec (ap_name p) (ap_name x)) as [E|]; [|apply IH; assumption]. destruct Nx. rewrite <- E. apply in_map, Ip. }
    assert (Lp := Lb (ap_name p)). rewrite Fp in Lp. rewrite Tm.
    assert (Nt : NoDup (map (fun kb : string * list Z => translate (param_o2e (load_tables (mkAliases (ar_in a) (ar_out a) (ar_par a)))) (fst kb)) (ld_bases m'))).
    { apply nodup_map.
      - apply sorted_nodup in Sb. unfold keys in Sb. apply NoDup_map_inv in Sb. exact Sb.
      - intros [k1 v1] [k2 v2] I1 I2 Ek. cbn [fst] in Ek. rewrite !(param_boundary _ _ _ _ Dp) in Ek.
        pose proof (Lb k1) as A1. pose proof (Lb k2) as A2. rewrite (lookup_nodup _ _ _ (sorted_nodup _ Sb) I1) in A1. rewrite (lookup_nodup _ _ _ (sorted_nodup _ Sb) I2) in A2.
        destruct (find (fun q => String.eqb k1 (ap_name q)) (ar_params a)) as [p1|] eqn:F1; [|discriminate]. destruct (find (fun q => String.eqb k2 (ap_name q)) (ar_params a)) as [p2|] eqn:F2; [|discriminate].
        apply find_some in F1 as [J1 F1]. apply find_some in F2 as [J2 F2]. apply String.eqb_eq in F1, F2. subst k1 k2.
        assert (p1 = p2) by (apply (nodup_map_inj (fun q => boundary (ar_par a) (ap_name q)) (ar_params a)); assumption). subst p2. congruence. }
    match goal with |- context [if ?c then _ else _] => destruct c eqn:Ha end.
    - rewrite (fold_set_last (fun kb : string * list Z => translate (param_o2e (load_tables (mkAliases (ar_in a) (ar_out a) (ar_par a)))) (fst kb)) snd).
      + assert (Ib : In (ap_name p, ap_base p) (ld_bases m')) by (apply lookup_in; exact Lp).
        pose proof (find_nodup (fun kb : string * list Z => translate (param_o2e (load_tables (mkAliases (ar_in a) (ar_out a) (ar_par a)))) (fst kb)) (ld_bases m') _ Nt Ib) as Q. cbn [fst] in Q.
        rewrite (param_boundary _ _ _ (ap_name p) Dp) in Q. rewrite Q. reflexivity.
      + exact Nt.
    - apply no_aliases in Ha as (_ & _ & E3). cbn [al_param] in E3. rewrite E3. unfold boundary. cbn [find]. rewrite Lp. reflexivity.
  Qed.
End Loaded.

(** ** Chunks of the inputs *)
Lemma renamed_vmap {T U} (g : T -> U) f (m m' : smap T) : renamed f m m' -> renamed f (vmap_ g m) (vmap_ g m').
Proof.
  intros (S & L1 & L2 & Len). split; [unfold sorted; rewrite keys_vmap; exact S|]. split; [|split].
  - intros k v E. rewrite lookup_vmap in E |- *. destruct (lookup k m) as [t|] eqn:Ek; [|discriminate]. rewrite (L1 k t Ek). exact E.
  - intros e v E. rewrite lookup_vmap in E. destruct (lookup e m') as [t|] eqn:Ek; [|discriminate]. destruct (L2 e t Ek) as (k & Hk & Lk). exists k. split; [exact Hk|]. rewrite lookup_vmap, Lk. exact E.
  - unfold vmap_. rewrite !map_length. exact Len.
Qed.
Lemma renamed_in {T} f (m m' : smap T) k v : sorted m -> renamed f m m' -> In (k, v) m -> In (f k, v) m'.
Proof. intros S (_ & L & _) I. apply lookup_in, L, lookup_nodup; [apply sorted_nodup, S|exact I]. Qed.

Section Rows.
  Variable a : artifact F.
  Lemma chunk_of_ok b s c (t : tensor F) : valid_range b s c -> wf t -> wf (chunk_of b s c t) /\ dim (chunk_of b s c t) = dim t.
  Proof.
    intros Vr W. unfold chunk_of, has_lead. destruct (t_shape t) as [|n r] eqn:E; [auto|]. destruct (Nat.eqb_spec n b) as [->|]; [|auto].
    destruct Vr as [Hc Hs]. split; [apply (rows_of_wf b); [exact W|exists r; exact E|lia]|]. unfold rows_of, dim. cbn. rewrite E. reflexivity.
  Qed.
  Lemma chunk_inputs_ok b s c d (I : smap (tensor F)) : valid_range b s c -> inputs_ok a I -> inputs_ok a (on_dev d (chunk_map b s c I)).
  Proof.
    intros Vr (S & Cf & Hi). unfold inputs_ok, on_dev, chunk_map, sorted. rewrite !keys_vmap. split; [exact S|]. split; [exact Cf|].
    intros i t Ii L. rewrite !lookup_vmap in L. destruct (lookup (ip_name i) I) as [u|] eqn:Lu; [|discriminate]. cbn [option_map] in L. injection L as <-. destruct (Hi i u Ii Lu) as [W Dm].
    destruct (chunk_of_ok b s c u Vr W) as [W' D']. split; [apply (to_dev_wf d _ W')|]. change (dim (to_dev d (chunk_of b s c u))) with (dim (chunk_of b s c u)). rewrite D'. exact Dm.
  Qed.
  Lemma chunk_params_wf b s c nds d (P : smap (tensor F)) : valid_range b s c -> params_ok P -> overrides_ok (Some (on_dev d (chunk_params b s c nds P))).
  Proof.
    intros Vr (_ & W) o n t E L. injection E as <-. apply lookup_in in L. unfold on_dev, vmap_ in L. apply in_map_iff in L as ([k u] & E & I). cbn [fst snd] in E. injection E as _ <-.
    unfold chunk_params in I. apply in_map_iff in I as ([k' v] & E & I). cbn [fst snd] in E. injection E as _ <-. rewrite Forall_forall in W. specialize (W _ I). cbn [snd] in W. apply to_dev_wf.
    unfold chunk_param. destruct (Nat.leb _ _ && has_lead b v)%bool eqn:El; [|exact W]. apply andb_true_iff in El as [_ El]. unfold has_lead in El. destruct (t_shape v) as [|n0 r] eqn:Es; [discriminate|].
    apply Nat.eqb_eq in El. subst n0. destruct Vr as [Hc Hs]. apply (rows_of_wf b); [exact W|exists r; exact Es|lia].
  Qed.
  Lemma keys_chunk_params b s c nds d (P : smap (tensor F)) : keys (on_dev d (chunk_params b s c nds P)) = keys P.
  Proof. unfold on_dev. rewrite keys_vmap. unfold chunk_params, keys. rewrite map_map. reflexivity. Qed.
End Rows.

(** Results of the same artifact have the same names. *)
Lemma says_names fsum rsum edot tri A cast graph sdef a nds P I b d d' s s' c c' r r' n :
  rows_say fsum rsum edot tri A cast graph sdef a nds P I b d s c r -> rows_say fsum rsum edot tri A cast graph sdef a nds P I b d' s' c' r' -> lookup n r = None -> lookup n r' = None.
Proof.
  intros (o & Sa & (_ & R1 & _)) (o' & Sa' & (_ & _ & R2 & _)) L. destruct (lookup n r') as [v|] eqn:L'; [|reflexivity]. destruct (R2 n v L') as (k & <- & Lk).
  destruct Sa as (? & ? & ? & ? & ? & ? & _ & _ & _ & _ & _ & _ & Na). destruct Sa' as (? & ? & ? & ? & ? & ? & _ & _ & _ & _ & _ & _ & Na').
  destruct (in_dec String.string_dec k (map op_name (ar_outputs a))) as [Hk|Hk].
  - destruct (proj1 (Na k) Hk) as (t & _ & Lt). rewrite (R1 k t Lt) in L. discriminate.
  - rewrite (proj2 (Na' k) Hk) in Lk. discriminate.
Qed.

(** ** Serving *)
Section Served.
  Context {C H N : Type}.
  Variable fsum rsum : list F -> F.
  Variable edot : list F -> list F -> F.
  Variable tri : list (list F) -> list F -> list F.
  Variable A : arith F.
  Variable graph : device -> string -> list (tensor F) -> result (list (tensor F)).
  Variable of_int : Z -> F.
  Variable trunc : F -> result Z.
  Variable cast : string -> F -> F.
  Variable sdef : sconfig F.
  Variable kdef : kconfig F.
  Variable parse_json : C -> result (json F).
  Variable open_pkg : C -> device -> result unit.
  Variable parse_hit : C -> result H.
  Variable find_node : H -> string -> option N.
  Variable param : N -> string -> result (option string).
  Variable fs : location -> option (node C).
  Variable cwd : location.
  Variables (p name : string) (s : option scheduler) (root : location) (a : artifact F).
  Hypothesis Bu : bundle parse_hit find_node param fs cwd p name root.
  Hypothesis Us : forall x, s = Some x -> usable x.
  Hypothesis Cd : Forall compiled_for (SpecBundle.devices_of s).
  Hypothesis Hh : forall d, In d (SpecBundle.devices_of s) -> SpecBundle.holds kdef parse_json open_pkg fs root a d.
  Variable D : dispatched (V:=F) (C:=C).
  Hypothesis Ld : load_model of_int trunc cast sdef kdef parse_json open_pkg parse_hit find_node param fs cwd p name s = Ok D.
  Notation loaded_at d m := (load of_int trunc cast (fun _ => Ok tt) sdef kdef "float64" d true (write a) = Ok m).

  Lemma served_usable : usable (given_scheduler s).
  Proof. pose proof Us as U. destruct s as [x|]; [apply U; reflexivity|split; [discriminate|reflexivity]]. Qed.
  Lemma served_ok : artifact_ok kdef (opens (fun _ => Ok tt)) a.
  Proof.
    pose proof served_usable as [Nd _]. assert (E : exists d, In d (SpecBundle.devices_of s)).
    { clear - Nd. destruct s as [x|]; cbn in *; [destruct (sd_devices x) as [|d l]; [destruct (Nd eq_refl)|exists d; left; reflexivity]|eexists; left; reflexivity]. }
    destruct E as [d Hd]. destruct (Hh d Hd) as (_ & _ & Ok_). revert Ok_. apply artifact_mono. reflexivity.
  Qed.
  Lemma served_models : (forall d, In d (SpecBundle.devices_of s) -> exists m, dm_model D d = Some m /\ md_device m = d /\ loaded_at d (md_loaded m)) /\
    (forall d, dm_model D d <> None -> In d (SpecBundle.devices_of s)) /\ (forall d r, SpecBundle.devices_of s = d :: r -> dm_model D d = Some (dm_active D)).
  Proof.
    destruct (bundle_loads of_int trunc cast sdef kdef parse_json open_pkg parse_hit find_node param fs cwd p name s root a Bu served_usable Cd Hh) as (D' & E & M1 & M2 & M3).
    rewrite E in Ld. injection Ld as <-. split; [|split; assumption]. intros d Hd. destruct (M1 d Hd) as (m & E1 & E2 & _ & _ & E3). exists m. auto.
  Qed.
  Lemma served_active : exists r, SpecBundle.devices_of s = md_device (dm_active D) :: r /\ dm_model D (md_device (dm_active D)) = Some (dm_active D) /\
    loaded_at (md_device (dm_active D)) (md_loaded (dm_active D)).
  Proof.
    pose proof served_usable as [Nd _]. destruct served_models as (M1 & _ & M3). destruct (SpecBundle.devices_of s) as [|d r] eqn:Ed.
    { destruct Nd. clear - Ed. destruct s; [exact Ed|discriminate]. }
    destruct (M1 d (or_introl eq_refl)) as (m & E1 & E2 & E3). pose proof (M3 d r eq_refl) as E4. rewrite E1 in E4. injection E4 as E4. rewrite <- E4, E2. exists r. split; [reflexivity|]. split; [exact E1|exact E3].
  Qed.
  Lemma served_fresh : fresh_disp (fresh_of D) (params_of (md_loaded (dm_active D))).
  Proof.
    pose proof (load_model_nodup _ _ _ _ _ _ _ _ _ _ _ _ _ _ _ _ Ld) as Nd. destruct served_active as (r & Es & Ea & La). destruct served_models as (M1 & M2 & _).
    destruct (loaded_params of_int trunc cast sdef kdef a served_ok _ _ La) as [So _].
    unfold fresh_disp, SpecParams.devices_of. cbn [fresh_of pd_models pd_active]. rewrite map_map. cbn [fst].
    split; [exact Nd|]. split; [|split; [|split]].
    - unfold dm_model in Ea. destruct (find _ _) as [e|] eqn:Ef; [|discriminate]. apply find_some in Ef as [Ie Ee]. apply device_eqb_eq in Ee. rewrite Ee. apply in_map, Ie.
    - apply sorted_nodup, So.
    - intros d q I. apply in_map_iff in I as ([d' m] & E & I). cbn [fst snd] in E. injection E as <- <-.
      assert (Em : dm_model D d' = Some m).
      { unfold dm_model. clear - Nd I. induction (dm_models D) as [|[e x] l IH]; [destruct I|]. cbn [map fst] in Nd. inversion Nd as [|? ? Ne Nd']; subst. cbn [find fst].
        destruct I as [E|I]; [injection E as -> ->; rewrite device_eqb_refl; reflexivity|]. destruct (device_eqb d' e) eqn:Ede; [|apply IH; assumption].
        apply device_eqb_eq in Ede. subst e. destruct Ne. apply (in_map fst) in I. exact I. }
      destruct (M1 d') as (m' & E1 & _ & E3); [apply M2; rewrite Em; discriminate|]. rewrite Em in E1. injection E1 as <-.
      eapply params_moved; [apply served_ok|exact La|exact E3].
    - eapply params_all_on; [apply served_ok|exact La].
  Qed.

  Variable capture : bool.
  Hypothesis Co : forall d, In d (SpecBundle.devices_of s) -> consistent rsum edot tri (graph d) sdef a.
  Notation fwd := (fwd_at fsum rsum edot tri A graph capture D).
  Let nds := param_bases (md_loaded (dm_active D)).

  Lemma served_ranks : ranks_of a nds.
  Proof. destruct served_active as (_ & _ & _ & La). eapply param_bases_is; [apply served_ok|exact La]. Qed.
  (** What a device computes of a chunk. *)
  Lemma piece_says d P I I' b x r : In d (SpecBundle.devices_of s) -> keys P = keys (params_of (md_loaded (dm_active D))) -> params_ok P ->
    inputs_ok a I -> renamed (boundary (ar_in a)) I I' -> (0 <= fst x)%Z -> (0 < snd x)%Z -> (fst x + snd x <= Z.of_nat b)%Z ->
    fwd d (on_dev d (chunk_params b (Z.to_nat (fst x)) (Z.to_nat (snd x)) nds P)) (on_dev d (chunk_map b (Z.to_nat (fst x)) (Z.to_nat (snd x)) I')) = Ok r ->
    rows_say fsum rsum edot tri A cast graph sdef a nds P I b d (fst x) (snd x) r.
  Proof.
    intros Hd Kp Pok Iok R H0 H1 H2 E. destruct served_models as (M1 & _). destruct (M1 d Hd) as (m & Em & _ & Lm). unfold fwd_at in E. rewrite Em in E.
    destruct served_active as (_ & _ & _ & La).
    assert (Km : keys (params_of (md_loaded m)) = keys P).
    { rewrite Kp, (params_moved of_int trunc cast sdef kdef a served_ok _ _ _ _ La Lm). unfold on_dev. apply keys_vmap. }
    rewrite all_overridden in E by (rewrite keys_chunk_params, Km; reflexivity).
    assert (Vr : valid_range b (Z.to_nat (fst x)) (Z.to_nat (snd x))) by (unfold valid_range; lia).
    eapply (forward_meaning fsum rsum edot tri A of_int trunc cast (fun _ => Ok tt) (graph d) sdef kdef "float64" d a) in E.
    - exact E.
    - apply served_ok.
    - apply Co, Hd.
    - exact Lm.
    - apply chunk_params_wf; assumption.
    - apply chunk_inputs_ok; [exact Vr|exact Iok].
    - unfold on_dev, chunk_map. apply renamed_vmap, renamed_vmap, R.
  Qed.

  (** After a history of parameter changes. *)
  Lemma served_state h : keeps_keys h -> no_late h -> forall s', s' = fst (sync_params (prun (fresh_of D) h)) -> forall P, visible (prun (fresh_of D) h) = Some P ->
    all_on (md_device (dm_active D)) P ->
    snd (sync_params (prun (fresh_of D) h)) = Ok tt /\ keys P = keys (params_of (md_loaded (dm_active D))) /\ pd_active s' = md_device (dm_active D) /\
    forall d, In d (SpecBundle.devices_of s) -> store_of d (pd_models s') = Some (on_dev d P).
  Proof.
    intros Kk Nl s' -> P Vp Ap. destruct (history_exact _ _ h served_fresh Kk Nl) as (Es & m & V1 & V2 & Km & St).
    rewrite Vp in V2. injection V2 as <-. split; [exact Es|]. split; [exact Km|].
    assert (Ac : pd_active (fst (sync_params (prun (fresh_of D) h))) = md_device (dm_active D)).
    { destruct (sync_params_shape (prun (fresh_of D) h)) as [_ E2]. rewrite E2. clear. change (md_device (dm_active D)) with (pd_active (fresh_of D)). generalize (fresh_of D). unfold prun.
      induction h as [|o h IH]; intros z; [reflexivity|]. cbn [fold_left]. rewrite IH. apply step_shape. }
    split; [exact Ac|]. intros d Hd. rewrite (St d).
    - cbn [fresh_of pd_active]. destruct (device_eqb d (md_device (dm_active D))) eqn:Ed; [|reflexivity]. apply device_eqb_eq in Ed. subst d. rewrite on_dev_all_on by exact Ap. reflexivity.
    - destruct served_models as (M1 & _). destruct (M1 d Hd) as (m & Em & _). unfold SpecParams.devices_of. cbn [fresh_of pd_models]. rewrite map_map. cbn [fst].
      unfold dm_model in Em. destruct (find _ _) as [e|] eqn:Ef; [|discriminate]. apply find_some in Ef as [Ie Ee]. apply device_eqb_eq in Ee. rewrite Ee. apply in_map, Ie.
  Qed.

  Section Call.
    Variables (h : list (pop F)) (P I I' : smap (tensor F)) (b : nat) (in_dev : device).
    Hypothesis Kk : keeps_keys h.
    Hypothesis Nl : no_late h.
    Hypothesis Vp : visible (prun (fresh_of D) h) = Some P.
    Hypothesis Ap : all_on (md_device (dm_active D)) P.
    Hypothesis Wp : Forall (fun kt => wf (snd kt)) P.
    Hypothesis Ii : inputs_ok a I.
    Hypothesis R : renamed (boundary (ar_in a)) I I'.
    Hypothesis Ct : contract b I'.
    Hypothesis On : all_on in_dev I'.
    Hypothesis Ne : I' <> [].
    Notation s' := (fst (sync_params (prun (fresh_of D) h))).

    Lemma served_params : params_ok P.
    Proof.
      split; [|exact Wp]. destruct (served_state h Kk Nl s' eq_refl P Vp Ap) as (_ & Kp & _). rewrite Kp. destruct served_active as (_ & _ & _ & La). eapply sorted_nodup, loaded_params; [apply served_ok|exact La].
    Qed.
    Lemma served_call n : (0 <= n < 2 ^ 63)%Z -> call_ok n (disp_of D s') P I' b in_dev.
    Proof.
      intros Hn. destruct (served_state h Kk Nl s' eq_refl P Vp Ap) as (_ & _ & Ac & St). destruct served_active as (r & Es & _).
      constructor; cbn [disp_of dp_active dp_stores]; try assumption; [|rewrite Ac; exact Ap|apply served_params].
      rewrite Ac, St by (rewrite Es; left; reflexivity). rewrite on_dev_all_on by exact Ap. reflexivity.
    Qed.
    Lemma served_sync n z out : (0 <= n < 2 ^ 63)%Z -> serve_forward fsum rsum edot tri A graph capture D n (prun (fresh_of D) h) I' = (z, Done (Ok out)) ->
      exists l rs, tiles 0 (Z.of_nat b) l /\ (forall x, In x l -> (snd x <= (if (n =? 0)%Z then Z.of_nat b else n))%Z) /\
        Forall2 (fun x r => rows_say fsum rsum edot tri A cast graph sdef a nds P I b (md_device (dm_active D)) (fst x) (snd x) r) l rs /\ in_place in_dev b l rs out.
    Proof.
      intros Hn E. unfold serve_forward in E. destruct I' as [|e I0] eqn:EI; [destruct (Ne eq_refl)|]. rewrite <- EI in *.
      destruct (served_state h Kk Nl s' eq_refl P Vp Ap) as (Es & Kp & Ac & St). pose proof (served_call n Hn) as Ca.
      destruct (sync_params (prun (fresh_of D) h)) as [z' r'] eqn:Esy. cbn [snd fst] in *. subst r'. cbn iota in E. injection E as <- E.
      destruct (sync_inv _ _ _ _ b in_dev n out Ca E) as (l & rs & Tl & Bd & Fp & Cs). cbn [disp_of dp_active] in Fp. rewrite Ac in Fp.
      exists l, rs. split; [exact Tl|]. split; [exact Bd|].
      assert (Fs : Forall2 (fun x r => rows_say fsum rsum edot tri A cast graph sdef a nds P I b (md_device (dm_active D)) (fst x) (snd x) r) l rs).
      { destruct served_active as (q & Eq & _). assert (Bx : forall x, In x l -> (0 <= fst x)%Z /\ (0 < snd x)%Z /\ (fst x + snd x <= Z.of_nat b)%Z) by (intros [u v] Hx; pose proof (tiles_bounds _ _ _ _ Tl Hx); cbn in *; lia).
        clear - Fp Bx Eq Kp Ii R Bu Us Cd Hh Ld Co Kk Nl Vp Ap Wp. induction Fp as [|x r l rs E Fp IH]; constructor; [|apply IH; intros y Hy; apply Bx; right; exact Hy].
        destruct (Bx x (or_introl eq_refl)) as (B1 & B2 & B3). eapply piece_says; try eassumption; [rewrite Eq; left; reflexivity|apply served_params]. }
      split; [exact Fs|]. destruct Cs as [[-> ->]|Cs]; [apply whole_in_place|].
      apply cat_batch_in_place; [exact Tl|eapply f2_length; exact Fp| |exact Cs].
      intros r1 r2 n1 J1 J2. apply (f2_in _ _ _ _ Fs) in J1 as (x1 & _ & Q1). apply (f2_in _ _ _ _ Fs) in J2 as (x2 & _ & Q2). eapply says_names; eassumption.
    Qed.

    Lemma served_pool_call tbl : (forall t, In t tbl -> In (ds_dev t) (SpecBundle.devices_of s)) -> pool_call_ok (map ds_dev tbl) (disp_of D s') P I' b in_dev.
    Proof.
      intros Ht. destruct (served_call 0 ltac:(lia)) as [_ _ _ _ Cs Cp Cq]. destruct (served_state h Kk Nl s' eq_refl P Vp Ap) as (_ & _ & Ac & St).
      constructor; try assumption. intros d Hd. apply in_map_iff in Hd as (t & <- & It). apply St, Ht, It.
    Qed.
    Lemma served_pool tbl : pool_ok tbl -> (forall t, In t tbl -> In (ds_dev t) (SpecBundle.devices_of s)) ->
      exists f, serve_pool fsum rsum edot tri A graph capture D (prun (fresh_of D) h) I' = (s', Ok (Z.of_nat b, f)) /\
      forall run k ls rs0 out, finished_call run tbl k (Z.of_nat b) ls (Ok rs0) -> returns_only run k f -> async_forward (Ok rs0) = Ok out ->
      exists (l : list (device * (Z * Z))) rs, tiles 0 (Z.of_nat b) (map snd l) /\
        (forall x, In x l -> exists t, In t tbl /\ ds_dev t = fst x /\ (snd (snd x) <= ds_batch t)%Z) /\
        Forall2 (fun x r => rows_say fsum rsum edot tri A cast graph sdef a nds P I b (fst x) (fst (snd x)) (snd (snd x)) r) l rs /\ in_place in_dev b (map snd l) rs out.
    Proof.
      intros Hp Ht. pose proof (served_pool_call tbl Ht) as Pc. destruct (served_state h Kk Nl s' eq_refl P Vp Ap) as (Es & Kp & Ac & St).
      exists (chunk_forward fwd (disp_of D s') in_dev (Z.of_nat b) I'). split.
      - unfold serve_pool. destruct I' as [|e I0] eqn:EI; [destruct (Ne eq_refl)|]. rewrite <- EI in *. destruct (sync_params (prun (fresh_of D) h)) as [z' r'] eqn:Esy. cbn [snd fst] in *. subst r'. cbn iota.
        rewrite (pool_start tbl _ _ _ _ _ Pc). reflexivity.
      - intros run k ls rs0 out Fc Ro E. destruct (pool_inv _ _ _ _ b in_dev tbl run k ls rs0 out Hp Pc Fc Ro E) as (l & rs & Tl & Bd & Fp & Cs).
        exists l, rs. split; [exact Tl|]. split; [exact Bd|].
        assert (Fs : Forall2 (fun x r => rows_say fsum rsum edot tri A cast graph sdef a nds P I b (fst x) (fst (snd x)) (snd (snd x)) r) l rs).
        { assert (Bx : forall x, In x l -> In (fst x) (SpecBundle.devices_of s) /\ (0 <= fst (snd x))%Z /\ (0 < snd (snd x))%Z /\ (fst (snd x) + snd (snd x) <= Z.of_nat b)%Z).
          { intros x Hx. split; [destruct (Bd x Hx) as (t & It & <- & _); apply Ht, It|]. pose proof (tiles_bounds _ _ _ _ Tl (in_map snd _ _ Hx)). lia. }
          pose proof served_params as Pok. clear - Fp Bx Kp Ii R Bu Us Cd Hh Ld Co Pok. induction Fp as [|x r l rs E Fp IH]; constructor; [|apply IH; intros y Hy; apply Bx; right; exact Hy].
          destruct (Bx x (or_introl eq_refl)) as (B0 & B1 & B2 & B3). eapply piece_says; try eassumption. }
        split; [exact Fs|]. apply cat_batch_in_place; [exact Tl|rewrite map_length; eapply f2_length; exact Fp| |exact Cs].
        intros r1 r2 n1 J1 J2. apply (f2_in _ _ _ _ Fs) in J1 as (x1 & _ & Q1). apply (f2_in _ _ _ _ Fs) in J2 as (x2 & _ & Q2). eapply says_names; eassumption.
    Qed.
  End Call.
End Served.
