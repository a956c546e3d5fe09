(** Proofs: a loaded artifact computes what it says (C69). *)
From Coq Require Import String.
From Verif Require Import Load SpecLoad LoadProofs.
From Verif Require Import Base BaseProofs SpecMap SmapProofs Tensor Spec SpecRename Rename RenameProofs ParamsProofs Except Float Newton SpecNewton Krylov KrylovSystem Broadcast SpecBroadcast BroadcastProofs
     Pack SpecPack Implicit ImplicitProofs Substep SpecSubstep Mat MatProofs Jac SubstepJac JacModel SpecJac FwdModel SystemAoti SpecSolved SolvedProofs SpecSubSolved SubSolvedProofs
     SpecIncrement IncrementProofs SpecValue ValueProofs Runtime SpecRuntime.
Local Open Scope string_scope.
Local Open Scope list_scope.

Lemma nonneg_sized l : nonneg l -> sized l (sizes l).
Proof.
  unfold sized, sizes. induction 1 as [|z l Hz _ IH]; [reflexivity|]. cbn [map]. rewrite IH, Z2Nat.id by exact Hz. reflexivity.
Qed.
Lemma var_said v : var_sizes v -> var_says v (var_of v).
Proof. intros [S B]. split; [reflexivity|]. split; apply nonneg_sized; assumption. Qed.
Lemma given_said v : var_sizes v -> given_says v (given_of v).
Proof. intros H. split; [apply var_said, H|]. split; reflexivity. Qed.
Lemma said_map {X Y} (R : X -> Y -> Prop) (P : X -> Prop) f l : (forall x, P x -> R x (f x)) -> Forall P l -> Forall2 R l (map f l).
Proof. intros H. induction 1; constructor; auto. Qed.
Lemma group_said g : group_sizes g -> group_says g (group_of g).
Proof. intros [S V]. split; [reflexivity|]. split; [apply nonneg_sized, S|]. cbn. eapply said_map; [exact var_said|exact V]. Qed.
Lemma input_said i : nonneg (ip_sub i) /\ nonneg (ip_base i) -> input_says i (input_of i).
Proof. intros [S B]. split; [reflexivity|]. split; apply nonneg_sized; assumption. Qed.
Lemma settings_said c : (0 <= sc_miters c)%Z -> (0 <= sc_ls_max_iters c)%Z -> settings_say c (config_of c).
Proof. intros H1 H2. repeat split; cbn; apply Z2Nat.id; assumption. Qed.

Lemma mapM_forall2 {X Y} (f : X -> result Y) (R : X -> Y -> Prop) l r : (forall x y, In x l -> f x = Ok y -> R x y) -> mapM f l = Ok r -> Forall2 R l r.
Proof.
  intros H. revert r. induction l as [|x l IH]; intros r E; cbn [mapM] in E; [injection E as <-; constructor|].
  destruct (f x) as [y|] eqn:Ex; [|discriminate]. cbn [bind] in E. destruct (mapM f l) as [ys|]; [|discriminate]. cbn [bind] in E. injection E as <-.
  constructor; [apply H; [left; reflexivity|exact Ex]|apply IH; [intros; apply H; [right|]; assumption|reflexivity]].
Qed.

(** Only broadcastable shapes expand. *)
Lemma expand_fits (t u : tensor F) lead base batch : t_shape t = lead ++ base -> expand t (batch ++ base) = Ok u -> broadcastable lead batch.
Proof.
  intros S E. unfold expand, dim in E. rewrite S, !app_length in E. destruct (Nat.ltb_spec (length batch + length base) (length lead + length base)) as [|L]; [discriminate|].
  destruct (fits _ _) eqn:Ft; [|discriminate]. clear E. unfold pad in Ft. rewrite app_length in Ft.
  replace (length batch + length base - (length lead + length base)) with (length batch - length lead) in Ft by lia.
  rewrite app_assoc in Ft. rewrite fits_app in Ft by (rewrite app_length, repeat_length; lia). apply andb_true_iff in Ft. destruct Ft as [Ft _].
  apply fits_iff in Ft. destruct Ft as [_ Ft]. split; [lia|]. intros p n k Hn Hk. unfold rsize in *.
  assert (Rv : forall (l : list nat) i x, nth_error (rev l) i = Some x -> i < length l /\ nth_error l (length l - 1 - i) = Some x).
  { clear. intros l i x Hx. assert (Hi : i < length l) by (rewrite <- rev_length; apply nth_error_Some; congruence). split; [exact Hi|].
    revert i Hx Hi. induction l as [|y l IH] using rev_ind; intros i Hx Hi; [cbn in Hi; lia|]. rewrite rev_app_distr in Hx. cbn [rev app] in Hx. rewrite app_length in *. cbn [length] in *.
    destruct i as [|i]; cbn in Hx.
    - injection Hx as <-. rewrite nth_error_app2 by lia. replace (length l + 1 - 1 - 0 - length l) with 0 by lia. reflexivity.
    - rewrite nth_error_app1 by lia. replace (length l + 1 - 1 - S i) with (length l - 1 - i) by lia. apply IH; [exact Hx|lia]. }
  destruct (Rv _ _ _ Hn) as [Pn Hn']. destruct (Rv _ _ _ Hk) as [Pk Hk'].
  apply (Ft (length batch - 1 - p) n k); [|exact Hk']. rewrite nth_error_app2 by (rewrite repeat_length; lia). rewrite repeat_length.
  replace (length batch - 1 - p - (length batch - length lead)) with (length lead - 1 - p) by lia. exact Hn'.
Qed.

Section Proofs.
  Variable fsum rsum : list F -> F.
  Variable edot : list F -> list F -> F.
  Variable tri : list (list F) -> list F -> list F.
  Variable A : arith F.
  Variable cast : string -> F -> F.
  Variable graph : string -> list (tensor F) -> result (list (tensor F)).
  Variable sdef : sconfig F.
  Variable kdef : kconfig F.
  Variable leaf : string.
  Variable d : device.
  Variable a : artifact F.
  Variable ov : option (smap (tensor F)).
  Variable m : loaded F.
  Hypothesis ok : Forall param_ok (ar_params a).
  Hypothesis keys_par : NoDup (keys (ar_par a)).
  Hypothesis fm : SpecLoad.faithful cast sdef kdef leaf d a m.
  Hypothesis tm : ld_tables m = load_tables (mkAliases (ar_in a) (ar_out a) (ar_par a)).
  Hypothesis hcons : consistent rsum edot tri graph sdef a.
  Hypothesis ovok : overrides_ok ov.

  Notation par := (param_of m ov).
  Notation says := (segment_says rsum edot tri graph a).

  Lemma predictor_said p : feedback_sizes p -> predictor_says graph p (predictor_of graph p).
  Proof.
    intros H. repeat (split; [reflexivity|]). cbn [predictor_of pr_feedback]. unfold feedback_sizes in H. destruct (md_feedback p) as [f|]; [|cbn; lia].
    destruct H as [H1 H2]. repeat (split; [reflexivity|]). split; apply nonneg_sized; assumption.
  Qed.
  Lemma solver_eq : ld_solver m = match ar_solver a with Some (_, Some _) => "krylov" | _ => "direct" end.
  Proof. apply fm. Qed.
  Lemma krylov_eq : ld_krylov m = match ar_solver a with Some (_, Some k) => k | _ => kdef end.
  Proof. apply fm. Qed.
  Lemma cfg_eq : ld_cfg m = match ar_solver a with Some (s, _) => s | None => sdef end.
  Proof. apply fm. Qed.

  Lemma kind_said i : has_graphs a i -> exists k, kind_of rsum edot tri graph m i = Ok k /\ kind_says rsum edot tri graph a i k.
  Proof.
    unfold has_graphs, kind_of, kind_says. rewrite solver_eq, krylov_eq. destruct (ar_solver a) as [[s [k|]]|]; cbn [String.eqb Ascii.eqb Bool.eqb].
    - destruct (im_matvec i) as [mv|]; [|intros N; destruct (N eq_refl)]. intros _. eexists. split; [reflexivity|]. exists mv. split; [reflexivity|].
      f_equal. destruct (im_precond i) as [[x y]|]; reflexivity.
    - intros [J S]. destruct (im_jacobian i) as [j|]; [|destruct (J eq_refl)]. destruct (im_solve i) as [s'|]; [|destruct (S eq_refl)]. eexists. split; [reflexivity|]. eauto.
    - intros [J S]. destruct (im_jacobian i) as [j|]; [|destruct (J eq_refl)]. destruct (im_solve i) as [s'|]; [|destruct (S eq_refl)]. eexists. split; [reflexivity|]. eauto.
  Qed.
  Lemma segment_said ps i : implicit_sizes i -> has_graphs a i ->
    exists s, iseg_of fsum rsum edot tri graph m ps i = seg_of fsum (config_of (ld_cfg m)) s /\ says ps i s /\
      ss_givens s = map given_of (im_givens i) /\ ss_unknowns s = map var_of (im_unknowns i) /\
      ss_unknown_groups s = map group_of (im_ugroups i) /\ ss_predictor s = option_map (predictor_of graph) (im_predictor i).
  Proof.
    intros (G & U & GG & UG & RG & P) K. destruct (kind_said i K) as (k & E & Q). exists (solver_of graph ps i k). split; [unfold iseg_of; rewrite E; reflexivity|].
    split; [|repeat split; reflexivity]. unfold segment_says, solver_of. cbn.
    split; [eapply said_map; [exact given_said|exact G]|]. split; [eapply said_map; [exact var_said|exact U]|].
    split; [eapply said_map; [exact group_said|exact GG]|]. split; [eapply said_map; [exact group_said|exact UG]|].
    split; [eapply said_map; [exact group_said|exact RG]|]. split; [reflexivity|]. split; [|split; [reflexivity|exact Q]].
    destruct (im_predictor i) as [p|]; cbn; [apply predictor_said, P|exact I].
  Qed.

  (** Parameters. *)
  Lemma stored_at p : In p (ar_params a) -> lookup (boundary (ar_par a) (ap_name p)) (vmap_ snd (ld_named m)) =
    Some (mkT (ap_shape p) (map (cast (match ap_dtype p with Some s => s | None => leaf end)) (ap_values p)) d) /\
    lookup (ap_name p) (base_ndims m) = Some (length (ap_base p)).
  Proof.
    intros H. destruct fm as (_ & _ & _ & _ & _ & _ & _ & _ & _ & _ & Hp & _). destruct (Hp p H) as [E1 E2].
    split; (etransitivity; [apply lookup_vmap|]); [apply (f_equal (option_map snd)) in E1; exact E1|rewrite E2; reflexivity].
  Qed.
  Lemma param_at p : In p (ar_params a) -> exists t, par (ap_name p) = Ok t /\ param_value cast leaf d a ov p t /\ wf t.
  Proof.
    intros H. destruct (stored_at p H) as [E _]. unfold param_of, resolve_param, param_value. rewrite tm, (param_boundary _ _ _ _ keys_par).
    assert (W : wf (mkT (ap_shape p) (map (cast (match ap_dtype p with Some s => s | None => leaf end)) (ap_values p)) d)).
    { unfold wf. cbn. rewrite map_length. rewrite Forall_forall in ok. destruct (ok p H) as (_ & _ & _ & L). exact L. }
    rewrite E. destruct ov as [o|] eqn:Eo.
    - destruct (lookup _ o) as [v|] eqn:L; [exists v|eexists]; (split; [reflexivity|]); (split; [reflexivity|]); [|exact W]. eapply ovok; [reflexivity|exact L].
    - eexists. split; [reflexivity|]. split; [reflexivity|exact W].
  Qed.
  Lemma params_said : params_say cast leaf d a ov par.
  Proof. intros p H. destruct (param_at p H) as (t & E & V & _). eauto. Qed.
  Lemma promoted_at batch n u : In n (map ap_name (ar_params a)) ->
    (let* t := par n in let* nd := at_ n (base_ndims m) in broadcast_param t batch nd) = Ok u -> promoted cast leaf d a ov batch n u.
  Proof.
    intros H E. apply in_map_iff in H. destruct H as (p & <- & H). destruct (param_at p H) as (t & Et & V & W). rewrite Et in E. cbn [bind] in E.
    unfold at_ in E. rewrite (proj2 (stored_at p H)) in E. cbn [bind] in E. unfold broadcast_param in E.
    destruct (Nat.ltb_spec (dim t) (length (ap_base p))) as [|L]; [discriminate|]. assert (E' := E). apply expand_ok in E; [|exact W]. destruct E as [Es B].
    exists p, t, (firstn (dim t - length (ap_base p)) (t_shape t)), (skipn (dim t - length (ap_base p)) (t_shape t)). split; [exact H|]. split; [reflexivity|]. split; [exact V|].
    split; [symmetry; apply firstn_skipn|]. split; [rewrite skipn_length; unfold dim in *; lia|]. split; [|auto].
    eapply expand_fits; [|exact E']. symmetry. apply firstn_skipn.
  Qed.

  (** One segment. *)
  Lemma seg_cons ps k : In (mkMseg ps k) (ar_segs a) ->
      (forall n, In n ps -> In n (map ap_name (ar_params a))) /\
      match k with
      | MForward f => NoDup (fw_outputs f)
      | MImplicit i => implicit_sizes i /\ has_graphs a i /\ forall s, says ps i s -> segment_consistent i s
      end.
  Proof. intros H. apply hcons. exact H. Qed.
  Lemma forward_said batch capture ps f st st' : In (mkMseg ps (MForward f)) (ar_segs a) ->
    value_step A par (base_ndims m) capture batch (segment_of fsum rsum edot tri graph m (mkMseg ps (MForward f))) st = Ok st' ->
    forward_says cast graph leaf d a ov batch ps f st st'.
  Proof.
    intros H E. destruct (seg_cons ps _ H) as [Pn Nd]. unfold segment_of, jfwd_of, jimp_of in E; cbn [sg_kind value_step jf_seg] in E.
    unfold run_forward_segment in E. cbn [sg_in sg_par sg_out sg_run sg_params] in E.
    destruct (mapM _ (fw_inputs f)) as [ins|] eqn:E1; [|discriminate]. cbn [bind] in E.
    destruct (mapM _ ps) as [us|] eqn:E2; [|discriminate]. cbn [bind] in E.
    destruct (graph (fw_package f) (ins ++ us)) as [outs|] eqn:E3; [|discriminate]. cbn [bind] in E.
    destruct (assert_ _ _) eqn:E4; [|discriminate]. cbn [bind] in E. injection E as <-.
    exists ins, us, outs. split; [|split; [|split; [exact E3|split]]].
    - eapply mapM_forall2; [|exact E1]. cbn. intros n t _ L. destruct (lookup n st); [congruence|discriminate].
    - eapply mapM_forall2; [|exact E2]. cbn beta. intros n u I Eu. apply promoted_at; [apply Pn, I|exact Eu].
    - unfold assert_ in E4. destruct (Nat.eqb_spec (length outs) (length (fw_outputs f))) as [L|]; [|discriminate]. clear - L Nd.
      assert (G : forall i n t, nth_error (fw_outputs f) i = Some n -> nth_error outs i = Some t -> lookup n (set_all (fw_outputs f) outs st) = Some t).
      { intros i n t. apply set_all_nth. exact Nd. }
      revert G. generalize (set_all (fw_outputs f) outs st). revert outs L. clear Nd. induction (fw_outputs f) as [|n ns IH]; intros [|t ts] L s G; try discriminate; constructor.
      + apply (G 0); reflexivity.
      + apply IH; [injection L as L; exact L|]. intros i n' t'. apply (G (S i)).
    - intros n N. apply set_all_other. exact N.
  Qed.

  Lemma implicit_said batch capture ps i st st' : In (mkMseg ps (MImplicit i)) (ar_segs a) ->
    value_step A par (base_ndims m) capture batch (segment_of fsum rsum edot tri graph m (mkMseg ps (MImplicit i))) st = Ok st' ->
    implicit_says fsum rsum edot tri A graph sdef a par ps i st st'.
  Proof.
    intros H E. destruct (seg_cons ps _ H) as [_ (Sz & Hg & Cs)]. destruct hcons as (_ & _ & M1 & M2 & _).
    destruct (segment_said ps i Sz Hg) as (s & Es & Ss & Eg & Eu & Eug & Ep). destruct (Cs s Ss) as [Ok_ Sub].
    exists (config_of (ld_cfg m)), s. split; [unfold solver_settings_say; rewrite cfg_eq; apply settings_said; assumption|]. split; [exact Ss|].
    split.
    - intros n N. eapply value_step_frame; [exact E|]. unfold segment_of, jfwd_of, jimp_of; cbn [sg_kind Load.sg_params written ji_seg]. rewrite Es. cbn [seg_of is_unknowns is_unknown_groups is_predictor].
      rewrite Eu, Eug, Ep. intros [W|[W|W]]; apply N.
      + left. rewrite map_map in W. exact W.
      + right. left. unfold names in W. apply in_map_iff in W. destruct W as (v & <- & W). apply in_flat_map in W. destruct W as (g' & Wg & Wv).
        apply in_map_iff in Wg. destruct Wg as (g & <- & Ig). cbn in Wv. apply in_map_iff in Wv. destruct Wv as (v' & <- & Iv).
        exists g. split; [exact Ig|]. apply in_map_iff. exists v'. split; [reflexivity|exact Iv].
      + right. right. destruct W as (p & Wp & W). destruct (im_predictor i) as [p'|]; [|discriminate]. injection Wp as <-. exists p'. split; [reflexivity|].
        cbn [predictor_of pr_outputs pr_feedback] in W. destruct W as [W|[W1 W2]]; [left; exact W|right]. destruct (md_feedback p') as [f|]; [|cbn in W1; lia].
        exists f. split; [reflexivity|exact W2].
    - unfold segment_of, jfwd_of, jimp_of in E; cbn [sg_kind Load.sg_params value_step ji_seg ji_level] in E. rewrite Es in E. destruct (Z.leb_spec (im_level i) 0) as [Lv|Lv].
      + replace (Z.to_nat (im_level i)) with 0 in E by lia. cbn [Nat.ltb Nat.leb] in E.
        destruct (segment_solved _ _ _ _ _ _ _ _ Ok_ E) as (st1 & gs & qs & us0 & calls & P & So & Pg & _).
        exists us0. split; [exists st1, gs, qs, calls; exact P|]. split; [exact So|].
        intros d' Fa. destruct (segment_path _ _ _ _ _ _ _ _ _ Ok_ Fa E) as (st2 & gs2 & qs2 & us2 & calls2 & dyn & r0 & us & points & its & P2 & Pu & _ & Np & Lp & _).
        rewrite P in P2. injection P2 as <- <- <- <- <-. exists dyn, gs, qs, us, points, its. split; [exact Pg|]. split; [|auto].
        clear - P. unfold prepare_solve in P. destruct (is_givens _) as [|g0 g']; [discriminate|]. destruct (lookup (v_name _) _) as [t0|]; [|discriminate].
        destruct (Nat.ltb _ _); [discriminate|]. destruct (run_predictor _ _ _ _ _ _) as [[x|e] l0]; [|discriminate]. cbn [bind] in P.
        destruct (pack_groups x (is_given_groups _)); [|discriminate]. cbn [bind] in P. destruct (pack_groups x (is_unknown_groups _)); [|discriminate]. cbn [bind] in P.
        cbn [seg_of is_params] in P. destruct (mapM _ (ss_params s)); [|discriminate]. cbn [bind] in P. injection P as _ _ -> _ _. reflexivity.
      + replace (Nat.ltb 0 (Z.to_nat (im_level i))) with true in E by (symmetry; apply Nat.ltb_lt; lia). cbn [seg_of is_givens is_unknowns] in E.
        destruct (Sub Lv) as (Gok & Nok & Pok). intros d' dyn O Sd.
        destruct (substepped_solved fsum _ (a_zero A) par d' s Ok_ Gok Nok Pok A _ st st' dyn O Sd E) as [Q1 [_ Q3]]. split; [exact Q1|].
        intros k Hk. destruct (Q3 k Hk) as [c Hc]. exists c, (Z.to_nat (im_level i)). split; [lia|exact Hc].
  Qed.

  Lemma run_said batch capture segs : incl segs (ar_segs a) -> forall st st',
    value_steps A par (base_ndims m) capture batch (map (segment_of fsum rsum edot tri graph m) segs) st = Ok st' ->
    run_says fsum rsum edot tri A cast graph sdef leaf d a ov par batch segs st st'.
  Proof.
    induction segs as [|[ps [f|i]] segs IH]; intros Hi st st' E; cbn [map value_steps] in E; [injection E as <-; constructor| |].
    - destruct (value_step _ _ _ _ _ _ _) as [st1|] eqn:E1; [|discriminate]. cbn [bind] in E.
      econstructor; [eapply forward_said; [apply Hi; left; reflexivity|exact E1]|apply IH; [intros x Ix; apply Hi; right; exact Ix|exact E]].
    - destruct (value_step _ _ _ _ _ _ _) as [st1|] eqn:E1; [|discriminate]. cbn [bind] in E.
      econstructor; [eapply implicit_said; [apply Hi; left; reflexivity|exact E1]|apply IH; [intros x Ix; apply Hi; right; exact Ix|exact E]].
  Qed.

  Lemma collect_found outs (st : smap (tensor F)) : forall acc r, collect outs st acc = Ok r -> forall n, In n outs -> lookup n st <> None.
  Proof.
    induction outs as [|o outs IH]; intros acc r H n I; [destruct I|]. cbn [collect] in H. destruct (lookup o st) as [t|] eqn:E; [|discriminate].
    destruct I as [<-|I]; [congruence|]. exact (IH _ _ H n I).
  Qed.
  Lemma collect_sorted outs (st : smap (tensor F)) : forall acc r, sorted acc -> collect outs st acc = Ok r -> sorted r.
  Proof.
    induction outs as [|o outs IH]; intros acc r S H; cbn [collect] in H; [injection H as <-; exact S|]. destruct (lookup o st); [|discriminate].
    eapply IH; [|exact H]. apply sorted_set. exact S.
  Qed.

  Lemma inner_said capture I out : inputs_ok a I ->
    forward_of A par (base_ndims m) capture (model_of fsum rsum edot tri graph m) I = Ok out ->
    artifact_says fsum rsum edot tri A cast graph sdef leaf d a ov I out /\ sorted out /\ keys_in (map op_name (ar_outputs a)) out.
  Proof.
    intros (Si & _ & Ri) E. unfold forward_of, forward, model_of in E. cbn [jm_inputs jm_segs jm_outs] in E.
    assert (E0 : ld_inputs m = ar_inputs a) by apply fm. assert (E1 : ld_segs m = ar_segs a) by apply fm. assert (E2 : ld_outputs m = ar_outputs a) by apply fm.
    rewrite E0, E1, E2 in E. set (infos := map input_of (ar_inputs a)) in *.
    destruct (prepare_inputs infos I) as [st0|] eqn:Ep; [|discriminate]. cbn [bind] in E.
    destruct (match infos with [] => _ | i :: _ => _ end) as [batch|] eqn:Eb; [|discriminate]. cbn [bind] in E.
    destruct (value_steps _ _ _ _ _ _ _) as [st|] eqn:Ev; [|discriminate]. cbn [bind] in E.
    destruct hcons as (Fi & Ni & _ & _ & _ & _).
    assert (Nd : NoDup (map in_name infos)) by (unfold infos; rewrite map_map; exact Ni).
    assert (Rk : ranks_ok infos I).
    { intros x t Ix L. apply in_map_iff in Ix. destruct Ix as (i & <- & Ii). cbn in L. destruct (Ri i t Ii L) as [W D]. split; [exact W|].
      unfold input_of. cbn. unfold sizes. rewrite !map_length. exact D. }
    destruct (prepare_only infos I st0 Nd Rk Ep) as (dyn & Ac & Pr).
    rewrite map_map in E. change (fun x : moutput => fst (op_name x, sizes (op_base x))) with op_name in E.
    split; [|split].
    - exists infos, dyn, st0, batch, par, st. split; [unfold infos; eapply said_map; [exact input_said|exact Fi]|]. split; [exact Ac|]. split; [exact Pr|].
      split; [|split; [exact params_said|split; [eapply run_said; [apply incl_refl|exact Ev]|]]].
      + destruct infos as [|i0 r]; [injection Eb as <-; reflexivity|]. unfold at_ in Eb. destruct Pr as [_ Pr].
        destruct (Pr i0 (or_introl eq_refl)) as (t & u & d0 & sub & _ & _ & L & Sh & _). rewrite L in Eb. cbn [bind] in Eb. injection Eb as <-.
        exists u. split; [exact L|]. unfold batch_shape_of, dim. rewrite Sh, !app_length.
        replace (length dyn + (length sub + length (in_base i0)) - length (in_base i0)) with (length (dyn ++ sub)) by (rewrite app_length; lia).
        rewrite app_assoc, firstn_app, firstn_all, Nat.sub_diag. cbn [firstn]. rewrite app_nil_r. reflexivity.
      + intros n. rewrite (collect_at _ _ _ _ E n). split; intros Hn.
        * replace (existsb (String.eqb n) (map op_name (ar_outputs a))) with true by (symmetry; apply existsb_exists; exists n; split; [exact Hn|apply String.eqb_refl]).
          destruct (lookup n st) as [t|] eqn:L; [eauto|]. destruct (collect_found _ _ _ _ E n Hn L).
        * destruct (existsb _ _) eqn:X; [|reflexivity]. apply existsb_exists in X. destruct X as (n' & In' & En). apply String.eqb_eq in En. subst n'. contradiction.
    - eapply collect_sorted; [|exact E]. apply sorted_nil.
    - intros n Hn. assert (L : lookup n out <> None) by (destruct (lookup_some_key n out Hn) as [t ->]; discriminate). rewrite (collect_at _ _ _ _ E n) in L. cbn [lookup] in L.
      destruct (existsb _ _) eqn:X; [|destruct (L eq_refl)]. apply existsb_exists in X. destruct X as (n' & In' & En). apply String.eqb_eq in En. subst n'. exact In'.
  Qed.

  (** The loaded model is the described one. *)
  Lemma pair_said p : pair_sizes p -> pair_says p (pair_of p).
  Proof.
    intros (H1 & H2 & H3 & H4 & H5). repeat (split; [reflexivity|]). split; [apply nonneg_sized, H1|]. split; [apply nonneg_sized, H2|]. split; [apply nonneg_sized, H3|].
    split; [reflexivity|]. split; apply Z2Nat.id; assumption.
  Qed.
  Lemma opt_said o : says_opt (fun p g => g = graph p) o (option_map graph o).
  Proof. destruct o; reflexivity. Qed.
  Lemma jseg_said sg : derivatives_consistent a -> In sg (ar_segs a) ->
    jseg_says fsum rsum edot tri graph sdef a sg (segment_of fsum rsum edot tri graph m sg).
  Proof.
    intros [_ Dc] H. destruct sg as [ps [f|i]]; specialize (Dc ps _ H); cbn beta iota in Dc; unfold segment_of, jfwd_of, jimp_of; cbn [jseg_says sg_kind Load.sg_params].
    - repeat (split; [reflexivity|]). split; [apply opt_said|]. eapply said_map; [exact pair_said|exact Dc].
    - destruct (seg_cons ps _ H) as [_ (Sz & Hg & _)]. destruct (segment_said ps i Sz Hg) as (s & Es & Ss & _). destruct hcons as (_ & _ & M1 & M2 & _).
      cbn [ji_seg ji_nres ji_jac ji_given ji_sens ji_pairs ji_level].
      split; [exists (config_of (ld_cfg m)), s; split; [unfold solver_settings_say; rewrite cfg_eq; apply settings_said; assumption|]; split; assumption|].
      split; [reflexivity|]. split; [intros p ->; reflexivity|]. split; [apply opt_said|].
      split; [split; [intros ->; reflexivity|intros -> p ->; reflexivity]|]. split; [eapply said_map; [exact pair_said|exact Dc]|lia].
  Qed.
  Lemma model_said : derivatives_consistent a -> model_says fsum rsum edot tri graph sdef a (model_of fsum rsum edot tri graph m).
  Proof.
    intros Dc. unfold model_of, model_says. cbn [jm_inputs jm_segs jm_outs jm_derivs].
    assert (E0 : ld_inputs m = ar_inputs a) by apply fm. assert (E1 : ld_segs m = ar_segs a) by apply fm. assert (E2 : ld_outputs m = ar_outputs a) by apply fm.
    assert (E3 : ld_derivs m = ar_derivs a) by apply fm. rewrite E0, E1, E2, E3.
    split; [eapply said_map; [exact input_said|apply hcons]|]. split; [|split; [|reflexivity]].
    - assert (G : forall l, incl l (ar_segs a) -> Forall2 (jseg_says fsum rsum edot tri graph sdef a) l (map (segment_of fsum rsum edot tri graph m) l)).
      { induction l as [|x l IH]; intros Hi; constructor; [apply jseg_said; [exact Dc|apply Hi; left; reflexivity]|apply IH; intros y Iy; apply Hi; right; exact Iy]. }
      apply G, incl_refl.
    - eapply (said_map _ (fun o => nonneg (op_base o))); [|apply Dc]. intros o Ho. split; [reflexivity|]. apply nonneg_sized, Ho.
  Qed.
  Lemma model_coherent : graphs_agree graph a -> coherent (jm_segs (model_of fsum rsum edot tri graph m)).
  Proof.
    intros G x Hx. unfold model_of in Hx. cbn [jm_segs] in Hx. assert (E1 : ld_segs m = ar_segs a) by apply fm. rewrite E1 in Hx. apply in_map_iff in Hx.
    destruct Hx as ([ps [f|i]] & <- & H); specialize (G ps _ H); cbn beta iota in G; unfold segment_of, jfwd_of, jimp_of; cbn [sg_kind Load.sg_params].
    - intros g args l Eg El Ll. cbn [jf_jvp jf_seg jf_pairs sg_out sg_run] in *. rewrite map_length in Ll. destruct (fw_jvp f) as [j|]; [|discriminate]. injection Eg as <-.
      apply (G j); [reflexivity|exact El|exact Ll].
    - unfold carries_unknowns. cbn [ji_seg]. destruct (seg_cons ps _ H) as [_ (Sz & Hg & _)]. destruct (segment_said ps i Sz Hg) as (s & Es & Ss & Eg & Eu & _).
      rewrite Es. cbn [seg_of is_givens is_unknowns]. rewrite Eg, Eu. intros g Ig Rg. apply in_map_iff in Ig. destruct Ig as (v & <- & Iv). cbn in Rg.
      destruct (G v Iv Rg) as (u & Iu & En). exists (var_of u). split; [apply in_map, Iu|exact En].
  Qed.
End Proofs.

(** ** Through the facade *)
Section Public.
  Variable al : aliases.
  Hypothesis Nin : NoDup (keys (al_in al)).
  Hypothesis Nout : NoDup (keys (al_out al)).
  Notation t := (load_tables al).
  Lemma incoming_either (I I' : smap (tensor F)) : sorted I -> clash_free (al_in al) (keys I) -> renamed (boundary (al_in al)) I I' ->
    (if has_aliases t then rekey I' (in_e2o t) else I') = I.
  Proof.
    intros S C R. destruct (has_aliases t) eqn:H.
    - apply (incoming al Nin (keys I)); try assumption. intros k Hk. exact Hk.
    - apply no_aliases in H as (E1 & _). rewrite E1 in R. apply renamed_id; assumption.
  Qed.
  Lemma outgoing_either (out : smap (tensor F)) names : sorted out -> keys_in names out -> clash_free (al_out al) names ->
    renamed (boundary (al_out al)) out (if has_aliases t then rekey out (out_o2e t) else out).
  Proof.
    intros S K C. destruct (has_aliases t) eqn:H.
    - apply (outgoing _ _ names); try assumption. apply tr_out. exact Nout.
    - apply no_aliases in H as (_ & E2 & _). rewrite E2. apply id_renamed. exact S.
  Qed.
  Lemma facade_forward_inv (impl : smap (tensor F) -> result (smap (tensor F))) I' out' : facade_forward t impl I' = Ok out' ->
    exists out, impl (if has_aliases t then rekey I' (in_e2o t) else I') = Ok out /\ out' = if has_aliases t then rekey out (out_o2e t) else out.
  Proof.
    unfold facade_forward, guarded. destruct (has_aliases t).
    - destruct (impl _) as [out|e]; cbn [bind]; [|destruct e; discriminate]. intros E. injection E as <-. eauto.
    - destruct (impl _) as [out|e]; [|destruct e; discriminate]. intros E. injection E as <-. eauto.
  Qed.
  Lemma facade_jvp_inv (impl : smap (tensor F) -> smap (tensor F) -> result (smap (tensor F) * smap (tensor F))) I' W' out' jout' : facade_jvp t impl I' W' = Ok (out', jout') ->
    exists W out jout, impl (if has_aliases t then rekey I' (in_e2o t) else I') W = Ok (out, jout) /\ out' = if has_aliases t then rekey out (out_o2e t) else out.
  Proof.
    unfold facade_jvp, guarded. destruct (has_aliases t).
    - destruct (impl _ _) as [[out jout]|e] eqn:E; cbn [bind]; [|destruct e; discriminate]. intros X. injection X as <- <-. eauto.
    - destruct (impl _ _) as [[out jout]|e] eqn:E; [|destruct e; discriminate]. intros X. injection X as <- <-. eauto.
  Qed.
  Lemma facade_jacobian_inv (impl : smap (tensor F) -> result (smap (tensor F) * smap (smap (tensor F)))) I' out' jac' : facade_jacobian t impl I' = Ok (out', jac') ->
    exists out jac, impl (if has_aliases t then rekey I' (in_e2o t) else I') = Ok (out, jac) /\ out' = if has_aliases t then rekey out (out_o2e t) else out.
  Proof.
    unfold facade_jacobian, guarded. destruct (has_aliases t).
    - destruct (impl _) as [[out jout]|e] eqn:E; cbn [bind]; [|destruct e; discriminate]. intros X. injection X as <- <-. eauto.
    - destruct (impl _) as [[out jout]|e] eqn:E; [|destruct e; discriminate]. intros X. injection X as <- <-. eauto.
  Qed.
End Public.

Section Top.
  Variable fsum rsum : list F -> F.
  Variable edot : list F -> list F -> F.
  Variable tri : list (list F) -> list F -> list F.
  Variable A : arith F.
  Variable neg : F -> F.
  Variable dot : list F -> list F -> F.
  Variable of_int : Z -> F.
  Variable trunc : F -> result Z.
  Variable cast : string -> F -> F.
  Variable open_pkg : string -> result unit.
  Variable graph : string -> list (tensor F) -> result (list (tensor F)).
  Variable sdef : sconfig F.
  Variable kdef : kconfig F.
  Variable leaf : string.
  Variable d : device.
  Variable a : artifact F.
  Hypothesis ok : artifact_ok kdef (fun s => open_pkg s = Ok tt) a.
  Hypothesis hcons : consistent rsum edot tri graph sdef a.

  Notation meaning := (artifact_says fsum rsum edot tri A cast graph sdef leaf d a).
  (** The loaded model. *)
  Definition is_loaded (m : loaded F) : Prop :=
    load of_int trunc cast open_pkg sdef kdef leaf d true (write a) = Ok m.
  Lemma loads : exists m, is_loaded m.
  Proof. destruct (load_write of_int trunc cast open_pkg sdef kdef leaf d a ok) as (m & E & _). exists m. exact E. Qed.
  Lemma loaded_is m : is_loaded m -> SpecLoad.faithful cast sdef kdef leaf d a m /\ ld_tables m = load_tables (mkAliases (ar_in a) (ar_out a) (ar_par a)).
  Proof.
    intros H. destruct (load_write of_int trunc cast open_pkg sdef kdef leaf d a ok) as (m' & E & Fm & Tm & _). unfold is_loaded in H. rewrite E in H. injection H as <-. auto.
  Qed.
  Lemma params_fine : Forall param_ok (ar_params a).
  Proof. apply ok. Qed.

  Lemma forward_meaning m capture ov I I' out' : is_loaded m -> overrides_ok ov -> inputs_ok a I -> renamed (boundary (ar_in a)) I I' ->
    model_forward fsum rsum edot tri A graph m capture ov I' = Ok out' -> exists out, meaning ov I out /\ renamed (boundary (ar_out a)) out out'.
  Proof.
    intros Hm Ho Hi R E. destruct (loaded_is m Hm) as [Fm Tm]. destruct ok as (Di & Do & Dp & _). unfold model_forward in E. rewrite Tm in E.
    apply facade_forward_inv in E. destruct E as (out & E & ->). rewrite (incoming_either (mkAliases (ar_in a) (ar_out a) (ar_par a)) Di I I') in E; [|apply Hi|apply Hi|exact R].
    destruct (inner_said fsum rsum edot tri A cast graph sdef kdef leaf d a ov m params_fine Dp Fm Tm hcons Ho capture I out Hi E) as (M & So & Ko).
    exists out. split; [exact M|]. apply (outgoing_either (mkAliases (ar_in a) (ar_out a) (ar_par a)) Do out (map op_name (ar_outputs a))); [exact So|exact Ko|apply hcons].
  Qed.

  Lemma jvp_meaning m capture ov I I' W' out' jout' : is_loaded m -> graphs_agree graph a -> overrides_ok ov -> inputs_ok a I -> renamed (boundary (ar_in a)) I I' ->
    model_jvp fsum rsum edot tri A neg dot graph m capture ov I' W' = Ok (out', jout') -> exists out, meaning ov I out /\ renamed (boundary (ar_out a)) out out'.
  Proof.
    intros Hm Hg Ho Hi R E. destruct (loaded_is m Hm) as [Fm Tm]. destruct ok as (Di & Do & Dp & _). unfold model_jvp in E. rewrite Tm in E.
    apply facade_jvp_inv in E. destruct E as (W & out & jout & E & ->). rewrite (incoming_either (mkAliases (ar_in a) (ar_out a) (ar_par a)) Di I I') in E; [|apply Hi|apply Hi|exact R].
    apply jvp_value in E; [|eapply model_coherent; eassumption].
    destruct (inner_said fsum rsum edot tri A cast graph sdef kdef leaf d a ov m params_fine Dp Fm Tm hcons Ho capture I out Hi E) as (M & So & Ko).
    exists out. split; [exact M|]. apply (outgoing_either (mkAliases (ar_in a) (ar_out a) (ar_par a)) Do out (map op_name (ar_outputs a))); [exact So|exact Ko|apply hcons].
  Qed.

  Lemma jacobian_meaning m capture ov I I' out' jac' : is_loaded m -> graphs_agree graph a -> overrides_ok ov -> inputs_ok a I -> renamed (boundary (ar_in a)) I I' ->
    (forall ps f, ar_segs a = [mkMseg ps (MForward f)] -> fw_jvp f = None) ->
    model_jacobian fsum rsum edot tri A neg dot graph m capture ov I' = Ok (out', jac') -> exists out, meaning ov I out /\ renamed (boundary (ar_out a)) out out'.
  Proof.
    intros Hm Hg Ho Hi R Ns E. destruct (loaded_is m Hm) as [Fm Tm]. destruct ok as (Di & Do & Dp & _). unfold model_jacobian in E. rewrite Tm in E.
    apply facade_jacobian_inv in E. destruct E as (out & jac & E & ->). rewrite (incoming_either (mkAliases (ar_in a) (ar_out a) (ar_par a)) Di I I') in E; [|apply Hi|apply Hi|exact R].
    apply composed_value in E; [|eapply model_coherent; eassumption|].
    - destruct (inner_said fsum rsum edot tri A cast graph sdef kdef leaf d a ov m params_fine Dp Fm Tm hcons Ho capture I out Hi E) as (M & So & Ko).
      exists out. split; [exact M|]. apply (outgoing_either (mkAliases (ar_in a) (ar_out a) (ar_par a)) Do out (map op_name (ar_outputs a))); [exact So|exact Ko|apply hcons].
    - intros f g Es. unfold model_of in Es. cbn [jm_segs] in Es. assert (E1 : ld_segs m = ar_segs a) by apply Fm. rewrite E1 in Es.
      destruct (ar_segs a) as [|[ps [f'|i]] [|]] eqn:Ea; try discriminate. injection Es as <-. unfold jfwd_of. cbn [jf_jvp]. rewrite (Ns ps f' eq_refl). discriminate.
  Qed.

  (** A model of one forward segment: its jacobian() returns all outputs of the segment. *)
  Lemma single_meaning m capture ov I I' out' jac' ps f : is_loaded m -> graphs_agree graph a -> overrides_ok ov -> inputs_ok a I -> renamed (boundary (ar_in a)) I I' ->
    ar_segs a = [mkMseg ps (MForward f)] -> incl (map op_name (ar_outputs a)) (fw_outputs f) -> clash_free (ar_out a) (fw_outputs f) -> fw_jvp f <> None ->
    model_jacobian fsum rsum edot tri A neg dot graph m capture ov I' = Ok (out', jac') ->
    exists out, meaning ov I out /\ forall n, In n (map op_name (ar_outputs a)) -> lookup (boundary (ar_out a) n) out' = lookup n out.
  Proof.
    intros Hm Hg Ho Hi R Es In_ Cf Hj E. destruct (loaded_is m Hm) as [Fm Tm]. destruct ok as (Di & Do & Dp & _). unfold model_jacobian in E. rewrite Tm in E.
    apply facade_jacobian_inv in E. destruct E as (out & jac & E & ->). rewrite (incoming_either (mkAliases (ar_in a) (ar_out a) (ar_par a)) Di I I') in E; [|apply Hi|apply Hi|exact R].
    assert (E1 : ld_segs m = ar_segs a) by apply Fm. assert (E2 : ld_outputs m = ar_outputs a) by apply Fm.
    destruct (fw_jvp f) as [j|] eqn:Ej; [|destruct (Hj eq_refl)].
    assert (Sm : jm_segs (model_of fsum rsum edot tri graph m) = [segment_of fsum rsum edot tri graph m (mkMseg ps (MForward f))]).
    { unfold model_of. cbn [jm_segs]. rewrite E1, Es. reflexivity. }
    unfold segment_of, jfwd_of, jimp_of in Sm; cbn [sg_kind Load.sg_params] in Sm. rewrite Ej in Sm. cbn [option_map] in Sm.
    assert (Os : map fst (jm_outs (model_of fsum rsum edot tri graph m)) = map op_name (ar_outputs a)).
    { unfold model_of. cbn [jm_outs]. rewrite E2, map_map. reflexivity. }
    assert (Ks : sorted out /\ keys_in (fw_outputs f) out).
    { clear - E Sm. unfold jacobian in E. rewrite Sm in E. cbn [jf_jvp] in E. apply bind_ok in E. destruct E as [[b M] [_ E]]. apply bind_ok in E. destruct E as [u [_ E]].
      unfold forward_pair_blocks in E. cbn [jf_seg sg_in sg_par sg_out] in E. apply bind_ok in E. destruct E as [st [E1 E]]. apply bind_ok in E. destruct E as [ins [E2 E]].
      apply bind_ok in E. destruct E as [batch [E3 E]]. apply bind_ok in E. destruct E as [qs [E4 E]]. apply bind_ok in E. destruct E as [l [E5 E]].
      apply bind_ok in E. destruct E as [u' [E6 E]]. injection E as <- _.
      assert (G : forall ns ts (acc : smap (tensor F)), sorted acc -> sorted (set_all ns ts acc) /\ forall k, In k (keys (set_all ns ts acc)) -> In k ns \/ In k (keys acc)).
      { induction ns as [|n ns IH]; intros [|t ts] acc S; cbn [set_all]; try (split; [exact S|auto]; fail).
        destruct (IH ts (set_ n t acc) (sorted_set _ _ _ S)) as [S' K]. split; [exact S'|]. intros k Hk. destruct (K k Hk) as [Hn|Hn]; [left; right; exact Hn|].
        apply keys_set_in in Hn. destruct Hn as [->|Hn]; [left; left; reflexivity|right; exact Hn]. }
      destruct (G (fw_outputs f) (firstn (length (fw_outputs f)) l) [] sorted_nil) as [S K]. split; [exact S|]. intros k Hk. destruct (K k Hk) as [H|[]]. exact H. }
    eapply single_value in E; [|eapply model_coherent; eassumption|exact Sm|reflexivity|rewrite Os; exact In_].
    destruct E as (outs' & E & Q). rewrite Os in Q.
    destruct (inner_said fsum rsum edot tri A cast graph sdef kdef leaf d a ov m params_fine Dp Fm Tm hcons Ho capture I outs' Hi E) as (M & _ & _).
    exists outs'. split; [exact M|]. intros n Hn. destruct Ks as [So Ko].
    destruct (outgoing_either (mkAliases (ar_in a) (ar_out a) (ar_par a)) Do out (fw_outputs f) So Ko Cf) as (_ & R1 & _).
    rewrite Q. replace (existsb (String.eqb n) (map op_name (ar_outputs a))) with true by (symmetry; apply existsb_exists; exists n; split; [exact Hn|apply String.eqb_refl]).
    destruct M as (infos & dyn & st0 & batch & par & st & _ & _ & _ & _ & _ & _ & Mo). destruct (Mo n) as [Mo' _]. destruct (Mo' Hn) as (t & _ & Lt). rewrite Q in Lt.
    replace (existsb (String.eqb n) (map op_name (ar_outputs a))) with true in Lt by (symmetry; apply existsb_exists; exists n; split; [exact Hn|apply String.eqb_refl]).
    rewrite Lt. exact (R1 n t Lt).
  Qed.
End Top.

Lemma described fsum rsum edot tri A neg dot of_int trunc cast open_pkg graph sdef kdef leaf d (a : artifact F) :
  artifact_ok kdef (fun s => open_pkg s = Ok tt) a -> consistent rsum edot tri graph sdef a -> derivatives_consistent a ->
  exists m jm nds, load of_int trunc cast open_pkg sdef kdef leaf d true (write a) = Ok m /\
    model_says fsum rsum edot tri graph sdef a jm /\
    (forall p, In p (ar_params a) -> lookup (ap_name p) nds = Some (length (ap_base p))) /\
    forall ov, overrides_ok ov -> exists par, params_say cast leaf d a ov par /\ forall capture,
      model_forward fsum rsum edot tri A graph m capture ov = facade_forward (load_tables (mkAliases (ar_in a) (ar_out a) (ar_par a))) (forward_of A par nds capture jm) /\
      model_jvp fsum rsum edot tri A neg dot graph m capture ov = facade_jvp (load_tables (mkAliases (ar_in a) (ar_out a) (ar_par a))) (jvp A neg dot par nds capture jm) /\
      model_jacobian fsum rsum edot tri A neg dot graph m capture ov = facade_jacobian (load_tables (mkAliases (ar_in a) (ar_out a) (ar_par a))) (jacobian A neg dot par nds capture jm).
Proof.
  intros Ok_ Co De. destruct (loads of_int trunc cast open_pkg sdef kdef leaf d a Ok_) as [m Hm]. destruct (loaded_is of_int trunc cast open_pkg sdef kdef leaf d a Ok_ m Hm) as [Fm Tm].
  assert (Dp : NoDup (keys (ar_par a))) by apply Ok_. assert (Pf : Forall param_ok (ar_params a)) by apply Ok_.
  exists m, (model_of fsum rsum edot tri graph m), (base_ndims m). split; [exact Hm|]. split; [eapply model_said; eassumption|]. split.
  - intros p Hp. eapply stored_at; eassumption.
  - intros ov Ho. exists (param_of m ov). split; [eapply params_said; eassumption|]. intros capture. rewrite <- Tm. repeat split.
Qed.
