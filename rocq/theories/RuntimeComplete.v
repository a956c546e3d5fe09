(** Proofs: what an artifact of forward segments says is computed (C69). *)
From Coq Require Import String.
From Verif Require Import Load SpecLoad LoadProofs.
From Verif Require Import Base BaseProofs SpecMap SmapProofs Tensor Spec SpecRename Rename RenameProofs Except Float Newton SpecNewton Krylov KrylovSystem Broadcast SpecBroadcast BroadcastProofs
     Pack SpecPack Implicit ImplicitProofs Substep SpecSubstep Mat MatProofs Jac SubstepJac JacModel SpecJac FwdModel SystemAoti SpecSolved SolvedProofs ValueProofs Runtime SpecRuntime RuntimeProofs.
Local Open Scope string_scope.
Local Open Scope list_scope.

Lemma sized_only l sh : sized l sh -> sh = sizes l.
Proof. intros <-. unfold sizes. rewrite map_map. rewrite <- map_id at 1. apply map_ext. intros n. symmetry. apply Nat2Z.id. Qed.
Lemma input_only i x : input_says i x -> x = input_of i.
Proof. intros (E & S & B). apply sized_only in S, B. destruct x. cbn in *. subst. reflexivity. Qed.
Lemma inputs_only l xs : Forall2 input_says l xs -> xs = map input_of l.
Proof. induction 1 as [|i x l xs H _ IH]; [reflexivity|]. cbn [map]. rewrite <- (input_only i x H), IH. reflexivity. Qed.

Lemma app_parts {X} (l1 l2 r1 r2 : list X) : l1 ++ r1 = l2 ++ r2 -> length l1 = length l2 -> l1 = l2 /\ r1 = r2.
Proof. revert l2. induction l1 as [|x l1 IH]; intros [|y l2] E L; try discriminate; [auto|]. injection E as <- E. injection L as L. destruct (IH l2 E L). subst. auto. Qed.

(** A broadcast to a given shape is unique. *)
Lemma broadcasts_only (t u u' : tensor F) : broadcasts t u -> broadcasts t u' -> t_shape u = t_shape u' -> u = u'.
Proof.
  intros (W & D & E) (W' & D' & E') S. apply tensor_ext; [exact W|exact W'|exact S|congruence|]. intros idx I. rewrite E by exact I. rewrite E'; [reflexivity|]. rewrite <- S. exact I.
Qed.
Lemma prepared_only infos (I : smap (tensor F)) dyn st st' : prepared infos I dyn st -> prepared infos I dyn st' -> forall n, lookup n st = lookup n st'.
Proof.
  intros (K & P) (K' & P') n. destruct (in_dec string_dec n (map in_name infos)) as [H|H].
  - apply in_map_iff in H. destruct H as (i & <- & Hi). destruct (P i Hi) as (t & u & d & sub & L & (Sp & Ls) & Lu & Su & B). destruct (P' i Hi) as (t' & u' & d' & sub' & L' & (Sp' & Ls') & Lu' & Su' & B').
    rewrite Lu, Lu'. f_equal. assert (t' = t) as -> by congruence. apply (broadcasts_only t); try assumption. rewrite Su, Su'. f_equal. f_equal.
    rewrite Sp in Sp'. assert (Ld : length d = length d') by (apply (f_equal (@length nat)) in Sp'; rewrite !app_length in Sp'; lia).
    apply app_parts in Sp'; [|exact Ld]. destruct Sp' as [_ Sp']. apply app_parts in Sp'; [|lia]. apply Sp'.
  - assert (G : forall (s : smap (tensor F)), (forall m, In m (keys s) <-> In m (map in_name infos)) -> lookup n s = None).
    { intros s Ks. destruct (lookup n s) eqn:L; [|reflexivity]. destruct H. apply Ks. eapply lookup_key_some. exact L. }
    rewrite (G st K), (G st' K'). reflexivity.
Qed.

Section Complete.
  Variable fsum rsum : list F -> F.
  Variable edot : list F -> list F -> F.
  Variable tri : list (list F) -> list F -> list F.
  Variable A : arith F.
  Variable cast : string -> F -> F.
  Variable graph : string -> list (tensor F) -> result (list (tensor F)).
  Variable sdef : sconfig F.
  Variable kdef : kconfig F.
  Variable leaf : string.
  Variable d : device.
  Variable a : artifact F.
  Variable ov : option (smap (tensor F)).
  Variable m : loaded F.
  Hypothesis ok : Forall param_ok (ar_params a).
  Hypothesis keys_par : NoDup (keys (ar_par a)).
  Hypothesis fm : SpecLoad.faithful cast sdef kdef leaf d a m.
  Hypothesis tm : ld_tables m = load_tables (mkAliases (ar_in a) (ar_out a) (ar_par a)).
  Hypothesis hcons : consistent rsum edot tri graph sdef a.
  Hypothesis ovok : overrides_ok ov.
  Notation par := (param_of m ov).

  Lemma value_only p t t' : param_value cast leaf d a ov p t -> param_value cast leaf d a ov p t' -> t = t'.
  Proof. unfold param_value. destruct (match ov with Some o => _ | None => None end); congruence. Qed.
  Lemma promoted_computed batch n u : promoted cast leaf d a ov batch n u ->
    (let* t := par n in let* nd := at_ n (base_ndims m) in broadcast_param t batch nd) = Ok u.
  Proof.
    intros (p & t & lead & base & Hp & <- & V & S & L & B & Su & Bu).
    destruct (param_at cast sdef kdef leaf d a ov m ok keys_par fm tm ovok p Hp) as (t' & Et & V' & W). rewrite Et. cbn [bind].
    rewrite (value_only p t' t V' V) in *. unfold at_. rewrite (proj2 (stored_at cast sdef kdef leaf d a m fm p Hp)). cbn [bind]. unfold broadcast_param, dim.
    rewrite S, app_length. destruct (Nat.ltb_spec (length lead + length base) (length (ap_base p))); [lia|].
    replace (length lead + length base - length (ap_base p)) with (length lead) by lia. rewrite skipn_app, skipn_all, Nat.sub_diag. cbn [skipn app].
    destruct (expand_lead t lead base batch W S B) as (u' & E & _). rewrite E. f_equal. destruct (expand_ok t u' _ W E) as [Su' Bu']. apply (broadcasts_only t); congruence.
  Qed.
  Lemma mapM_from {X Y} (f : X -> result Y) l r : Forall2 (fun x y => f x = Ok y) l r -> mapM f l = Ok r.
  Proof. induction 1 as [|x y l r E _ IH]; [reflexivity|]. cbn [mapM]. rewrite E. cbn [bind]. rewrite IH. reflexivity. Qed.
  Lemma f2_imp {X Y} (R Q : X -> Y -> Prop) l r : (forall x y, R x y -> Q x y) -> Forall2 R l r -> Forall2 Q l r.
  Proof. intros H. induction 1; constructor; auto. Qed.

  Lemma forward_computed batch capture ps f st st1 st' : In (mkMseg ps (MForward f)) (ar_segs a) -> (forall n, lookup n st = lookup n st1) ->
    forward_says cast graph leaf d a ov batch ps f st st' ->
    exists st1', value_step A par (base_ndims m) capture batch (segment_of fsum rsum edot tri graph m (mkMseg ps (MForward f))) st1 = Ok st1' /\
      forall n, lookup n st' = lookup n st1'.
  Proof.
    intros H Q (ins & us & outs & Fi & Fp & Eg & Fo & Fr). destruct hcons as (_ & _ & _ & _ & _ & Hs). destruct (Hs ps _ H) as [_ Nd].
    unfold segment_of, jfwd_of, jimp_of; cbn [sg_kind value_step jf_seg Load.sg_kind Load.sg_params]. unfold run_forward_segment. cbn [sg_in sg_par sg_out sg_run].
    rewrite (mapM_from _ (fw_inputs f) ins).
    2:{ eapply f2_imp; [|exact Fi]. cbn. intros n t L. rewrite <- Q, L. reflexivity. }
    cbn [bind]. rewrite (mapM_from _ ps us).
    2:{ eapply f2_imp; [|exact Fp]. cbn beta. intros n u. apply promoted_computed. }
    cbn [bind]. rewrite Eg. cbn [bind].
    assert (Le : length outs = length (fw_outputs f)) by (clear - Fo; induction Fo; cbn; congruence).
    unfold assert_. rewrite Le, Nat.eqb_refl. cbn [bind]. eexists. split; [reflexivity|].
    intros n. destruct (in_dec string_dec n (fw_outputs f)) as [Hn|Hn].
    - apply In_nth_error in Hn. destruct Hn as [k Hk]. destruct (nth_error outs k) as [t|] eqn:Ek.
      + rewrite (set_all_nth (fw_outputs f) Nd k n outs t st1 Hk Ek). clear - Fo Hk Ek. revert k Hk Ek. induction Fo as [|x y l r E _ IH]; intros [|k] Hk Ek; try discriminate; cbn in *; [congruence|eauto].
      + apply nth_error_None in Ek. assert (k < length (fw_outputs f)) by (apply nth_error_Some; congruence). lia.
    - rewrite Fr by exact Hn. rewrite Q. symmetry. apply set_all_other. exact Hn.
  Qed.

  Lemma run_computed batch capture segs : incl segs (ar_segs a) -> Forall (fun s => exists f, Load.sg_kind s = MForward f) segs -> forall par0 st st1 st',
    (forall n, lookup n st = lookup n st1) -> run_says fsum rsum edot tri A cast graph sdef leaf d a ov par0 batch segs st st' ->
    exists st1', value_steps A par (base_ndims m) capture batch (map (segment_of fsum rsum edot tri graph m) segs) st1 = Ok st1' /\ forall n, lookup n st' = lookup n st1'.
  Proof.
    induction segs as [|[ps [f|i]] segs IH]; intros Hi Hf par0 st st1 st' Q R.
    - inversion R; subst. exists st1. split; [reflexivity|exact Q].
    - inversion R as [|? ? ? ? st2 ? R1 R2|]; subst. destruct (forward_computed batch capture ps f st st1 st2 (Hi _ (or_introl eq_refl)) Q R1) as (st3 & E & Q'). cbn [map value_steps]. rewrite E. cbn [bind].
      eapply IH; [intros x Ix; apply Hi; right; exact Ix|inversion Hf; assumption|exact Q'|exact R2].
    - inversion Hf as [|? ? [f E]]; subst. discriminate E.
  Qed.

  Lemma collect_all outs (st : smap (tensor F)) : (forall n, In n outs -> lookup n st <> None) -> forall acc, exists r, collect outs st acc = Ok r.
  Proof.
    induction outs as [|o outs IH]; intros H acc; cbn [collect]; [eauto|]. destruct (lookup o st) as [t|] eqn:L; [|destruct (H o (or_introl eq_refl) L)].
    apply IH. intros n Hn. apply H. right. exact Hn.
  Qed.

  Lemma inner_computed capture I out : inputs_ok a I -> Forall (fun s => exists f, Load.sg_kind s = MForward f) (ar_segs a) ->
    artifact_says fsum rsum edot tri A cast graph sdef leaf d a ov I out ->
    exists out1, forward_of A par (base_ndims m) capture (model_of fsum rsum edot tri graph m) I = Ok out1 /\ forall n, lookup n out1 = lookup n out.
  Proof.
    intros (Si & _ & Ri) Hf (infos & dyn & st0 & batch & par0 & st & Hin & Ac & Pr & Hb & _ & Hr & Mo). apply inputs_only in Hin.
    unfold forward_of, forward, model_of. cbn [jm_inputs jm_segs jm_outs].
    assert (E0 : ld_inputs m = ar_inputs a) by apply fm. assert (E1 : ld_segs m = ar_segs a) by apply fm. assert (E2 : ld_outputs m = ar_outputs a) by apply fm.
    rewrite E0, E1, E2, <- Hin. destruct hcons as (Fi & Ni & _ & _ & _ & _).
    assert (Nd : NoDup (map in_name infos)) by (rewrite Hin, map_map; exact Ni).
    assert (Rk : ranks_ok infos I).
    { intros x t Ix L. rewrite Hin in Ix. apply in_map_iff in Ix. destruct Ix as (i & <- & Ii). cbn in L. destruct (Ri i t Ii L) as [W D]. split; [exact W|].
      unfold input_of. cbn. unfold sizes. rewrite !map_length. exact D. }
    destruct (prepare_ok infos I dyn Nd Rk Ac) as (st1 & Ep & Pr1). rewrite Ep. cbn [bind].
    pose proof (prepared_only infos I dyn st0 st1 Pr Pr1) as Q.
    assert (Eb : match infos with [] => Ok [] | i :: _ => let* t := at_ (in_name i) st1 in Ok (batch_shape_of i t) end = Ok batch).
    { destruct infos as [|i0 r]; [rewrite Hb; reflexivity|]. destruct Hb as (t & L & Sh). unfold at_. rewrite <- Q, L. cbn [bind]. unfold batch_shape_of, dim. rewrite Sh, app_length.
      replace (length batch + length (in_base i0) - length (in_base i0)) with (length batch) by lia. rewrite firstn_app, firstn_all, Nat.sub_diag. cbn [firstn]. rewrite app_nil_r. reflexivity. }
    rewrite Eb. cbn [bind]. destruct (run_computed batch capture (ar_segs a) (incl_refl _) Hf par0 st0 st1 st Q Hr) as (st2 & Ev & Q2). rewrite Ev. cbn [bind].
    rewrite map_map. change (fun x : moutput => fst (op_name x, sizes (op_base x))) with op_name.
    destruct (collect_all (map op_name (ar_outputs a)) st2) with (acc := @nil (string * tensor F)) as [r E].
    { intros n Hn. destruct (Mo n) as [M _]. destruct (M Hn) as (t & L & _). rewrite <- Q2, L. discriminate. }
    exists r. split; [exact E|]. intros n. rewrite (collect_at _ _ _ _ E n). destruct (Mo n) as [M1 M2].
    destruct (existsb (String.eqb n) (map op_name (ar_outputs a))) eqn:X.
    - apply existsb_exists in X. destruct X as (n' & In' & En). apply String.eqb_eq in En. subst n'. destruct (M1 In') as (t & L & L'). rewrite <- Q2. congruence.
    - rewrite M2; [reflexivity|]. intros Hn. assert (existsb (String.eqb n) (map op_name (ar_outputs a)) = true) by (apply existsb_exists; exists n; split; [exact Hn|apply String.eqb_refl]). congruence.
  Qed.
End Complete.

Lemma forward_complete fsum rsum edot tri A of_int trunc cast open_pkg graph sdef kdef leaf d (a : artifact F) m capture ov I I' out :
  artifact_ok kdef (fun s => open_pkg s = Ok tt) a -> consistent rsum edot tri graph sdef a -> is_loaded of_int trunc cast open_pkg sdef kdef leaf d a m ->
  Forall (fun s => exists f, Load.sg_kind s = MForward f) (ar_segs a) ->
  overrides_ok ov -> inputs_ok a I -> renamed (boundary (ar_in a)) I I' -> sorted out ->
  artifact_says fsum rsum edot tri A cast graph sdef leaf d a ov I out ->
  exists out', model_forward fsum rsum edot tri A graph m capture ov I' = Ok out' /\ renamed (boundary (ar_out a)) out out'.
Proof.
  intros Ok_ Co Hm Hf Ho Hi R So M. destruct (loaded_is of_int trunc cast open_pkg sdef kdef leaf d a Ok_ m Hm) as [Fm Tm]. assert (Ok2 := Ok_). destruct Ok2 as (Di & Do & Dp & _ & _ & _ & _ & Pk & Nn & _).
  destruct (inner_computed fsum rsum edot tri A cast graph sdef kdef leaf d a ov m Pk Dp Fm Tm Co Ho capture I out Hi Hf M) as (out1 & E & Q).
  destruct (inner_said fsum rsum edot tri A cast graph sdef kdef leaf d a ov m Pk Dp Fm Tm Co Ho capture I out1 Hi E) as (_ & S1 & K1).
  assert (out1 = out) as -> by (apply sorted_ext; assumption).
  pose proof (incoming_either (mkAliases (ar_in a) (ar_out a) (ar_par a)) Di I I' (proj1 Hi) (proj1 (proj2 Hi)) R) as Ei.
  pose proof (outgoing_either (mkAliases (ar_in a) (ar_out a) (ar_par a)) Do out (map op_name (ar_outputs a)) S1 K1) as Eo. cbn [al_out] in Eo.
  assert (Cf : clash_free (ar_out a) (map op_name (ar_outputs a))) by apply Co. specialize (Eo Cf).
  unfold model_forward. rewrite Tm. unfold facade_forward. destruct (has_aliases _).
  - rewrite Ei, E. cbn [bind guarded]. eexists. split; [reflexivity|exact Eo].
  - rewrite Ei, E. cbn [guarded]. eexists. split; [reflexivity|exact Eo].
Qed.
