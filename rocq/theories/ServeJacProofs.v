(** Proofs about a loaded model serving derivatives. *)
From Coq Require Import String Permutation.
From Verif Require Import Load SpecLoad LoadProofs.
From Verif Require Import Base Tensor Spec SpecMap SpecRename Float Krylov BatchChunk Dispatch SpecDispatch Params SpecParams Sched SpecSched Async SpecAsync AsyncOp Except Rename Broadcast SpecBroadcast Pack Implicit Substep Mat Jac SubstepJac JacModel ParamJac FwdModel
     ValueProofs Runtime RuntimeParam Bundle Serve SpecServe SpecRuntime SpecRuntimeParam ServeJac SpecServeJac.
From Verif Require Import BaseProofs SmapProofs TensorProofs DispatchProofs RenameProofs SyncProofs AsyncOpProofs ParamsProofs RuntimeProofs RuntimeParamProofs SpecBundle BundleProofs ServeProofs ServeExtProofs ServeNamesProofs ServeStitchProofs.
Local Open Scope list_scope.

(** ** Through the facade *)
Section Facade.
  Context {T : Type}.
  Notation vmap := (smap T).
  Variable t : tables.
  Notation back m := (if has_aliases t then rekey m (in_e2o t) else m).
  Lemma facade_jvp_same (f g : vmap -> vmap -> result (vmap * vmap)) I W : (forall I W, f I W = g I W) -> facade_jvp t f I W = facade_jvp t g I W.
  Proof. intros H. unfold facade_jvp. destruct (has_aliases t); rewrite H; reflexivity. Qed.
  Lemma facade_jacobian_same (f g : vmap -> result (vmap * smap vmap)) I : (forall I, f I = g I) -> facade_jacobian t f I = facade_jacobian t g I.
  Proof. intros H. unfold facade_jacobian. destruct (has_aliases t); rewrite H; reflexivity. Qed.
  Lemma facade_param_same (f g : vmap -> result (vmap * smap vmap)) I : (forall I, f I = g I) -> facade_param_jacobian t f I = facade_param_jacobian t g I.
  Proof. intros H. unfold facade_param_jacobian. destruct (has_aliases t); rewrite H; reflexivity. Qed.
  Lemma facade_vjp_same (f g : vmap -> vmap -> result vmap) I W : (forall I W, f I W = g I W) -> facade_param_vjp t f I W = facade_param_vjp t g I W.
  Proof. intros H. unfold facade_param_vjp. destruct (has_aliases t); rewrite H; reflexivity. Qed.

  Lemma jvp_through (impl : vmap -> vmap -> result (vmap * vmap)) I' W' r : facade_jvp t impl I' W' = Ok r ->
    exists out j, impl (back I') (back W') = Ok (out, j) /\ fst r = (if has_aliases t then rekey out (out_o2e t) else out) /\ snd r = (if has_aliases t then rekey j (out_o2e t) else j).
  Proof.
    unfold facade_jvp, guarded. destruct (has_aliases t).
    - destruct (impl _ _) as [[out j]|e] eqn:E; cbn [bind]; [|destruct e; discriminate]. intros [= <-]. eauto.
    - destruct (impl _ _) as [[out j]|e] eqn:E; [|destruct e; discriminate]. intros [= <-]. eauto.
  Qed.
  Lemma jacobian_through (impl : vmap -> result (vmap * smap vmap)) I' r : facade_jacobian t impl I' = Ok r ->
    exists out j, impl (back I') = Ok (out, j) /\ fst r = (if has_aliases t then rekey out (out_o2e t) else out) /\ snd r = (if has_aliases t then rekey_nested j (out_o2e t) (in_o2e t) else j).
  Proof.
    unfold facade_jacobian, guarded. destruct (has_aliases t).
    - destruct (impl _) as [[out j]|e] eqn:E; cbn [bind]; [|destruct e; discriminate]. intros [= <-]. eauto.
    - destruct (impl _) as [[out j]|e] eqn:E; [|destruct e; discriminate]. intros [= <-]. eauto.
  Qed.
  Lemma param_through (impl : vmap -> result (vmap * smap vmap)) I' r : facade_param_jacobian t impl I' = Ok r ->
    exists out j, impl (back I') = Ok (out, j) /\ fst r = (if has_aliases t then rekey out (out_o2e t) else out) /\ snd r = (if has_aliases t then rekey_nested j (out_o2e t) (param_o2e t) else j).
  Proof.
    unfold facade_param_jacobian, guarded. destruct (has_aliases t).
    - destruct (impl _) as [[out j]|e] eqn:E; cbn [bind]; [|destruct e; discriminate]. intros [= <-]. eauto.
    - destruct (impl _) as [[out j]|e] eqn:E; [|destruct e; discriminate]. intros [= <-]. eauto.
  Qed.
  Lemma vjp_through (impl : vmap -> vmap -> result vmap) I' W' r : facade_param_vjp t impl I' W' = Ok r ->
    exists g, impl (back I') (if has_aliases t then rekey W' (out_e2o t) else W') = Ok g /\ r = (if has_aliases t then rekey g (param_o2e t) else g).
  Proof.
    unfold facade_param_vjp, guarded. destruct (has_aliases t).
    - destruct (impl _ _) as [g|e] eqn:E; cbn [bind]; [|destruct e; discriminate]. intros [= <-]. eauto.
    - destruct (impl _ _) as [g|e] eqn:E; [|destruct e; discriminate]. intros [= <-]. eauto.
  Qed.
End Facade.

Section Names.
  Variable al : aliases.
  Hypothesis Nin : NoDup (keys (al_in al)).
  Hypothesis Nout : NoDup (keys (al_out al)).
  Hypothesis Npar : NoDup (keys (al_param al)).
  Notation t := (load_tables al).
  Lemma clash_sub (table : smap string) l l' : incl l l' -> clash_free table l' -> clash_free table l.
  Proof. intros H C x y Hx Hy. apply C; [apply in_app_or in Hx as [Hx|Hx]|apply in_app_or in Hy as [Hy|Hy]]; apply in_or_app; auto. Qed.
  Lemma cotangents_either (W W' : smap (tensor F)) : sorted W -> clash_free (al_out al) (keys W) -> renamed (boundary (al_out al)) W W' ->
    (if has_aliases t then rekey W' (out_e2o t) else W') = W.
  Proof.
    intros S C R. destruct (has_aliases t) eqn:H.
    - apply (incoming_out al Nout (keys W)); try assumption. intros k Hk. exact Hk.
    - apply no_aliases in H as (_ & E2 & _). rewrite E2 in R. apply renamed_id; assumption.
  Qed.
  Lemma gradients_either (g : smap (tensor F)) names : named names g -> clash_free (al_param al) names ->
    renamed (boundary (al_param al)) g (if has_aliases t then rekey g (param_o2e t) else g).
  Proof.
    intros N C. destruct (has_aliases t) eqn:H.
    - apply (outgoing _ _ names); [apply tr_param; exact Npar|apply N|apply named_keys, N|exact C].
    - apply no_aliases in H as (_ & _ & E3). rewrite E3. apply id_renamed, N.
  Qed.
  Lemma values_either (g : smap (tensor F)) names : named names g -> clash_free (al_out al) names ->
    renamed (boundary (al_out al)) g (if has_aliases t then rekey g (out_o2e t) else g).
  Proof. intros N C. apply (outgoing_either al Nout g names); [apply N|apply named_keys, N|exact C]. Qed.
  Lemma blocks_either (j : smap (smap (tensor F))) ps outs ins : named2 ps j -> (forall o i, In (o, i) ps -> In o outs /\ In i ins) -> clash_free (al_out al) outs -> clash_free (al_in al) ins ->
    renamed2 (boundary (al_out al)) (boundary (al_in al)) j (if has_aliases t then rekey_nested j (out_o2e t) (in_o2e t) else j).
  Proof.
    intros N Hp Co Ci. destruct (named2_keys ps j outs ins N Hp) as [K1 K2]. destruct (has_aliases t) eqn:H.
    - apply (outgoing2 _ _ _ _ outs ins); try assumption; [apply tr_out; exact Nout|apply tr_in; exact Nin|apply N].
    - apply no_aliases in H as (E1 & E2 & _). rewrite E1, E2. apply id_renamed2; [apply N|]. intros k r I. apply (K2 k r I).
  Qed.
  Lemma pblocks_either (j : smap (smap (tensor F))) ps outs pars : named2 ps j -> (forall o i, In (o, i) ps -> In o outs /\ In i pars) -> clash_free (al_out al) outs -> clash_free (al_param al) pars ->
    renamed2 (boundary (al_out al)) (boundary (al_param al)) j (if has_aliases t then rekey_nested j (out_o2e t) (param_o2e t) else j).
  Proof.
    intros N Hp Co Ci. destruct (named2_keys ps j outs pars N Hp) as [K1 K2]. destruct (has_aliases t) eqn:H.
    - apply (outgoing2 _ _ _ _ outs pars); try assumption; [apply tr_out; exact Nout|apply tr_param; exact Npar|apply N].
    - apply no_aliases in H as (_ & E2 & E3). rewrite E2, E3. apply id_renamed2; [apply N|]. intros k r I. apply (K2 k r I).
  Qed.
End Names.

(** ** The parameters of a Model *)
Section Call.
  Variable fsum rsum : list F -> F.
  Variable edot : list F -> list F -> F.
  Variable tri : list (list F) -> list F -> list F.
  Variable A : arith F.
  Variable neg : F -> F.
  Variable dot : list F -> list F -> F.
  Variable psum : list F -> F.
  Variable graph : device -> string -> list (tensor F) -> result (list (tensor F)).
  Variable capture : bool.
  Notation cjvp := (call_jvp fsum rsum edot tri A neg dot graph capture).
  Notation cjac := (call_jacobian fsum rsum edot tri A neg dot graph capture).
  Notation cpjac := (call_param_jacobian fsum rsum edot tri A neg dot graph capture).
  Notation cpvjp := (call_param_vjp fsum rsum edot tri A neg dot psum graph capture).

  Lemma param_effective m P ov n : incl (keys ov) (keys P) -> param_of (with_params m P) (Some ov) n = param_of (with_params m (effective P ov)) None n.
  Proof.
    intros H. unfold param_of, resolve_param. cbn [ld_tables ld_named with_params].
    rewrite !stored_params, lookup_effective. destruct (lookup _ ov) as [v|] eqn:E.
    - destruct (lookup _ P) eqn:E'; [reflexivity|]. apply lookup_none in E'. destruct E'. apply H. eapply lookup_in in E. apply (in_map fst) in E. exact E.
    - destruct (lookup _ P); reflexivity.
  Qed.
  Lemma param_overridden m P n : keys P = keys (params_of m) -> param_of (with_params m P) None n = param_of m (Some P) n.
  Proof.
    intros H. unfold param_of, resolve_param. cbn [ld_tables ld_named with_params]. rewrite stored_params. fold (params_of m).
    destruct (lookup (translate (param_o2e (ld_tables m)) n) P) eqn:E; [reflexivity|]. apply lookup_none in E. rewrite H in E. apply lookup_none in E. rewrite E. reflexivity.
  Qed.
  Lemma jvp_effective m d P ov I T : incl (keys ov) (keys P) -> cjvp m d P (Some ov) I T = cjvp m d (effective P ov) None I T.
  Proof. intros H. unfold call_jvp, model_jvp. apply facade_jvp_same. intros J W. apply jvp_same. intros n. apply param_effective, H. Qed.
  Lemma jacobian_effective m d P ov I : incl (keys ov) (keys P) -> cjac m d P (Some ov) I = cjac m d (effective P ov) None I.
  Proof. intros H. unfold call_jacobian, model_jacobian. apply facade_jacobian_same. intros J. apply jacobian_same. intros n. apply param_effective, H. Qed.
  Lemma param_jacobian_effective m d P ov I : incl (keys ov) (keys P) -> cpjac m d P (Some ov) I = cpjac m d (effective P ov) None I.
  Proof. intros H. unfold call_param_jacobian, model_param_jacobian. apply facade_param_same. intros J. apply param_jacobian_same. intros n. apply param_effective, H. Qed.
  Lemma param_vjp_effective m d P ov I W : incl (keys ov) (keys P) -> cpvjp m d P (Some ov) I W = cpvjp m d (effective P ov) None I W.
  Proof. intros H. unfold call_param_vjp, model_param_vjp. apply facade_vjp_same. intros J X. apply param_vjp_same. intros n. apply param_effective, H. Qed.

  Lemma jvp_overridden m d P I T : keys P = keys (params_of m) -> cjvp m d P None I T = model_jvp fsum rsum edot tri A neg dot (graph d) m capture (Some P) I T.
  Proof. intros H. unfold call_jvp, model_jvp. apply (facade_jvp_same (ld_tables m)). intros J W. apply (jvp_same A neg dot (param_of (with_params m P) None)). intros n. apply param_overridden, H. Qed.
  Lemma jacobian_overridden m d P I : keys P = keys (params_of m) -> cjac m d P None I = model_jacobian fsum rsum edot tri A neg dot (graph d) m capture (Some P) I.
  Proof. intros H. unfold call_jacobian, model_jacobian. apply (facade_jacobian_same (ld_tables m)). intros J. apply (jacobian_same A neg dot (param_of (with_params m P) None)). intros n. apply param_overridden, H. Qed.
  Lemma param_jacobian_overridden m d P I : keys P = keys (params_of m) -> cpjac m d P None I = model_param_jacobian fsum rsum edot tri A neg dot (graph d) m capture (Some P) I.
  Proof. intros H. unfold call_param_jacobian, model_param_jacobian. apply (facade_param_same (ld_tables m)). intros J. apply (param_jacobian_same A neg dot (param_of (with_params m P) None)). intros n. apply param_overridden, H. Qed.
  Lemma param_vjp_overridden m d P I W : keys P = keys (params_of m) -> cpvjp m d P None I W = model_param_vjp fsum rsum edot tri A neg dot psum (graph d) m capture (Some P) I W.
  Proof. intros H. unfold call_param_vjp, model_param_vjp. apply (facade_vjp_same (ld_tables m)). intros J X. apply (param_vjp_same A neg dot psum (param_of (with_params m P) None)). intros n. apply param_overridden, H. Qed.
End Call.

(** ** What a loaded artifact computes *)
Section Loaded.
  Variable fsum rsum : list F -> F.
  Variable edot : list F -> list F -> F.
  Variable tri : list (list F) -> list F -> list F.
  Variable A : arith F.
  Variable neg : F -> F.
  Variable dot : list F -> list F -> F.
  Variable psum : list F -> F.
  Variable of_int : Z -> F.
  Variable trunc : F -> result Z.
  Variable cast : string -> F -> F.
  Variable open_pkg : string -> result unit.
  Variable graph : string -> list (tensor F) -> result (list (tensor F)).
  Variable sdef : sconfig F.
  Variable kdef : kconfig F.
  Variable leaf : string.
  Variable d : device.
  Variable a : artifact F.
  Hypothesis ok : artifact_ok kdef (fun s => open_pkg s = Ok tt) a.
  Hypothesis hcons : consistent rsum edot tri graph sdef a.
  Variable m : loaded F.
  Hypothesis hm : load of_int trunc cast open_pkg sdef kdef leaf d true (write a) = Ok m.
  Notation vmap := (smap (tensor F)).
  Notation al := (mkAliases (ar_in a) (ar_out a) (ar_par a)).
  Notation meaning := (artifact_says fsum rsum edot tri A cast graph sdef leaf d a).
  Notation jmod := (model_of fsum rsum edot tri graph m).
  Notation pmod := (pmodel_of fsum rsum edot tri graph m).
  Notation onames := (map op_name (ar_outputs a)).

  Lemma is_faithful : SpecLoad.faithful cast sdef kdef leaf d a m /\ ld_tables m = load_tables al.
  Proof. exact (loaded_is of_int trunc cast open_pkg sdef kdef leaf d a ok m hm). Qed.
  Lemma outs_are : map fst (jm_outs jmod) = onames.
  Proof. destruct is_faithful as [Fm _]. assert (E : ld_outputs m = ar_outputs a) by apply Fm. unfold model_of. cbn [jm_outs]. rewrite E, map_map. reflexivity. Qed.
  Lemma derivs_are : jm_derivs jmod = ar_derivs a.
  Proof. destruct is_faithful as [Fm _]. apply Fm. Qed.
  Lemma pouts_are : map fst (pm_outs pmod) = onames.
  Proof. destruct is_faithful as [Fm _]. assert (E : ld_outputs m = ar_outputs a) by apply Fm. unfold pmodel_of. cbn [pm_outs]. rewrite E, map_map. reflexivity. Qed.
  Lemma pderivs_are : pm_derivs pmod = ar_pderivs a.
  Proof. destruct is_faithful as [Fm _]. apply Fm. Qed.
  Lemma aliases_ok : NoDup (keys (al_in al)) /\ NoDup (keys (al_out al)) /\ NoDup (keys (al_param al)).
  Proof. destruct ok as (D1 & D2 & D3 & _). repeat split; assumption. Qed.

  (** All declared inputs are given. *)
  Lemma inputs_given ov (I out : vmap) : meaning ov I out -> incl (map ip_name (ar_inputs a)) (keys I).
  Proof.
    intros (infos & dyn & st0 & batch & par & st & Is & (ds & Ac & _) & _) n Hn. apply in_map_iff in Hn as (i & <- & Hi).
    clear - Is Ac Hi. revert ds Ac. induction Is as [|x y l infos E Is IH]; intros ds Ac; [destruct Hi|]. inversion Ac as [|? dd ? ds' (t & sub & L & _) Ac']; subst. destruct Hi as [<-|Hi]; [|eapply IH; eassumption].
    destruct E as (E & _). rewrite E in L. apply lookup_in in L. apply (in_map fst) in L. exact L.
  Qed.

  Lemma jvp_loaded capture ov (I I' T T' : vmap) r : inputs_ok a I -> renamed (boundary (ar_in a)) I I' -> sorted T -> clash_free (ar_in a) (keys T) -> renamed (boundary (ar_in a)) T T' ->
    model_jvp fsum rsum edot tri A neg dot graph m capture ov I' T' = Ok r ->
    exists out w, jvp A neg dot (param_of m ov) (base_ndims m) capture jmod I T = Ok (out, w) /\
      renamed (boundary (ar_out a)) out (fst r) /\ renamed (boundary (ar_out a)) w (snd r) /\ named onames out /\ named (map fst (ar_derivs a)) w.
  Proof.
    intros Hi R St Ct Rt E. destruct is_faithful as [Fm Tm]. destruct aliases_ok as (D1 & D2 & D3). unfold model_jvp in E. rewrite Tm in E.
    apply jvp_through in E as (out & w & E & E1 & E2). rewrite (incoming_either al D1 I I' (proj1 Hi) (proj1 (proj2 Hi)) R), (incoming_either al D1 T T' St Ct Rt) in E.
    destruct (jvp_named _ _ _ _ _ _ _ _ _ _ _ E) as (N1 & N2 & Ic). rewrite outs_are in N1, Ic. rewrite derivs_are in N2, Ic.
    exists out, w. split; [exact E|]. rewrite E1, E2. assert (Co : clash_free (ar_out a) onames) by apply hcons.
    split; [apply (values_either al D2 out onames N1 Co)|]. split; [|split; assumption]. apply (values_either al D2 w _ N2). eapply clash_sub; [exact Ic|exact Co].
  Qed.

  (** The names of jacobian(). *)
  Definition jac_outs : list string := match ar_segs a with [mkMseg _ (MForward f)] => match fw_jvp f with Some _ => fw_outputs f | None => onames end | _ => onames end.
  Definition jac_pairs : list (string * string) :=
    match ar_segs a with [mkMseg _ (MForward f)] => match fw_jvp f with Some _ => map (fun p => (mp_out p, mp_in p)) (fw_pairs f) | None => ar_derivs a end | _ => ar_derivs a end.
  Lemma jacobian_loaded capture ov (I I' : vmap) r : graphs_agree graph a -> named_pairs a -> overrides_ok ov -> inputs_ok a I -> renamed (boundary (ar_in a)) I I' ->
    model_jacobian fsum rsum edot tri A neg dot graph m capture ov I' = Ok r ->
    (exists out, meaning ov I out /\ forall n, In n onames -> lookup (boundary (ar_out a) n) (fst r) = lookup n out) /\
    exists out jac, jacobian A neg dot (param_of m ov) (base_ndims m) capture jmod I = Ok (out, jac) /\
      renamed (boundary (ar_out a)) out (fst r) /\ renamed2 (boundary (ar_out a)) (boundary (ar_in a)) jac (snd r) /\ named jac_outs out /\ named2 jac_pairs jac.
  Proof.
    intros Hg Hn Ho Hi R E. destruct is_faithful as [Fm Tm]. destruct aliases_ok as (D1 & D2 & D3). assert (Es : ld_segs m = ar_segs a) by apply Fm.
    assert (V : exists out, meaning ov I out /\ forall n, In n onames -> lookup (boundary (ar_out a) n) (fst r) = lookup n out).
    { destruct r as [out' jac']. cbn [fst].
      assert (Cp : (forall ps f, ar_segs a = [mkMseg ps (MForward f)] -> fw_jvp f = None) -> exists out, meaning ov I out /\ forall n, In n onames -> lookup (boundary (ar_out a) n) out' = lookup n out).
      { intros Ns. destruct (jacobian_meaning fsum rsum edot tri A neg dot of_int trunc cast open_pkg graph sdef kdef leaf d a ok hcons m capture ov I I' out' jac' hm Hg Ho Hi R Ns E) as (out & M & (_ & R1 & _)).
        exists out. split; [exact M|]. intros n In_. destruct M as (infos & dyn & st0 & batch & par & st & _ & _ & _ & _ & _ & _ & Mo). destruct (proj1 (Mo n) In_) as (t & _ & L). rewrite L. exact (R1 n t L). }
      destruct (ar_segs a) as [|[ps [f|i]] [|]] eqn:Ea; try (apply Cp; discriminate). destruct (fw_jvp f) as [j|] eqn:Ej; [|apply Cp; intros ps' f' [= <- <-]; exact Ej].
      destruct (Hn ps f Ea) as (N1 & N2 & _).
      eapply (single_meaning fsum rsum edot tri A neg dot of_int trunc cast open_pkg graph sdef kdef leaf d a ok hcons m capture ov I I' out' jac' ps f hm Hg Ho Hi R Ea N1 N2); [rewrite Ej; discriminate|exact E]. }
    split; [exact V|]. destruct V as (vout & M & _). assert (Ci : clash_free (ar_in a) (map ip_name (ar_inputs a))) by (eapply clash_sub; [eapply inputs_given; exact M|apply Hi]).
    unfold model_jacobian in E. rewrite Tm in E. apply jacobian_through in E as (out & jac & E & E1 & E2). rewrite (incoming_either al D1 I I' (proj1 Hi) (proj1 (proj2 Hi)) R) in E.
    exists out, jac. split; [exact E|]. rewrite E1, E2. clear E1 E2. apply jacobian_named in E.
    assert (Hd : forall o i, In (o, i) (ar_derivs a) -> In i (map ip_name (ar_inputs a))).
    { destruct ok as (_ & _ & _ & _ & _ & Dd & _). intros o i H. destruct (Dd o i H) as (x & Hx & <-). apply in_map, Hx. }
    assert (Co : clash_free (ar_out a) onames) by apply hcons.
    assert (Cp : named onames out /\ named2 (ar_derivs a) jac /\ incl (map fst (ar_derivs a)) onames ->
      renamed (boundary (ar_out a)) out (if has_aliases (load_tables al) then rekey out (out_o2e (load_tables al)) else out) /\
      renamed2 (boundary (ar_out a)) (boundary (ar_in a)) jac (if has_aliases (load_tables al) then rekey_nested jac (out_o2e (load_tables al)) (in_o2e (load_tables al)) else jac) /\
      named onames out /\ named2 (ar_derivs a) jac).
    { intros (N1 & N2 & Ic). split; [apply (values_either al D2 out onames N1 Co)|]. split; [|split; assumption].
      apply (blocks_either al D1 D2 jac _ onames (map ip_name (ar_inputs a)) N2); [|exact Co|exact Ci]. intros o i H. split; [apply Ic, (in_map fst _ _ H)|eapply Hd; exact H]. }
    rewrite outs_are, derivs_are in E. assert (Sm : jm_segs jmod = map (segment_of fsum rsum edot tri graph m) (ar_segs a)) by (unfold model_of; cbn [jm_segs]; rewrite Es; reflexivity).
    rewrite Sm in E. unfold jac_outs, jac_pairs. destruct (ar_segs a) as [|[ps [f|i]] [|]] eqn:Ea; try (apply Cp; exact E).
    { cbn [map] in E. unfold segment_of, jfwd_of in E; cbn [sg_kind Load.sg_params jf_jvp jf_seg sg_out jf_pairs] in E. destruct (fw_jvp f) as [j|]; [|apply Cp; exact E]. clear Cp. cbn [option_map] in E.
      destruct E as [N1 N2]. rewrite map_map in N2. cbn [pair_of p_out p_in] in N2. destruct (Hn ps f Ea) as (_ & C2 & Pn).
      split; [apply (values_either al D2 out _ N1 C2)|]. split; [|split; assumption].
      apply (blocks_either al D1 D2 jac _ (fw_outputs f) (map ip_name (ar_inputs a)) N2); [|exact C2|exact Ci]. intros o i H. apply in_map_iff in H as (p & [= <- <-] & Hp). apply Pn, Hp. }
  Qed.

  (** The names of param_jacobian() and param_vjp(). *)
  Definition pjac_pairs : list (string * string) :=
    match ar_segs a with
    | [mkMseg _ (MForward f)] => match fw_pjac f with Some _ => map (fun p => (mq_out p, mq_param p)) (fw_ppairs f) | None => ar_pderivs a end
    | [mkMseg _ (MImplicit i)] => match im_solve_param i with Some _ => map (fun p => (mq_out p, mq_param p)) (im_ppairs i) | None => ar_pderivs a end
    | _ => ar_pderivs a
    end.
  Definition grad_names : list string :=
    match ar_segs a with [mkMseg _ (MForward f)] => match fw_pvjp f with Some _ => fw_pvjp_params f | None => map snd (ar_pderivs a) end | _ => map snd (ar_pderivs a) end.
  Lemma psegs_are : pm_segs pmod = map (psegment_of fsum rsum edot tri graph m) (ar_segs a).
  Proof. destruct is_faithful as [Fm _]. assert (Es : ld_segs m = ar_segs a) by apply Fm. unfold pmodel_of. cbn [pm_segs]. rewrite Es. reflexivity. Qed.
  Lemma pderivs_named o p : In (o, p) (ar_pderivs a) -> In p (map ap_name (ar_params a)).
  Proof. destruct ok as (_ & _ & _ & _ & _ & _ & Dd & _). intros H. destruct (Dd o p H) as (x & Hx & <-). apply in_map, Hx. Qed.
  Lemma param_jacobian_loaded capture ov (I I' : vmap) r : named_params a -> inputs_ok a I -> renamed (boundary (ar_in a)) I I' ->
    model_param_jacobian fsum rsum edot tri A neg dot graph m capture ov I' = Ok r ->
    exists out jac, param_jacobian A neg dot (param_of m ov) (base_shapes m) capture pmod I = Ok (out, jac) /\
      renamed (boundary (ar_out a)) out (fst r) /\ renamed2 (boundary (ar_out a)) (boundary (ar_par a)) jac (snd r) /\ named onames out /\ named2 pjac_pairs jac.
  Proof.
    intros [Cn Hn] Hi R E. destruct is_faithful as [Fm Tm]. destruct aliases_ok as (D1 & D2 & D3). unfold model_param_jacobian in E. rewrite Tm in E.
    apply param_through in E as (out & jac & E & E1 & E2). rewrite (incoming_either al D1 I I' (proj1 Hi) (proj1 (proj2 Hi)) R) in E.
    exists out, jac. split; [exact E|]. rewrite E1, E2. clear E1 E2. apply param_jacobian_named in E as [N1 N2]. rewrite pouts_are in N1, N2. rewrite pderivs_are, psegs_are in N2.
    assert (Co : clash_free (ar_out a) onames) by apply hcons.
    split; [apply (values_either al D2 out onames N1 Co)|].
    assert (Q : named2 pjac_pairs jac /\ forall o p, In (o, p) pjac_pairs -> In o onames /\ In p (map ap_name (ar_params a))).
    { unfold pjac_pairs.
      assert (Cp : named2 (ar_pderivs a) jac /\ incl (map fst (ar_pderivs a)) onames -> named2 (ar_pderivs a) jac /\ forall o p, In (o, p) (ar_pderivs a) -> In o onames /\ In p (map ap_name (ar_params a))).
      { intros [N Ic]. split; [exact N|]. intros o p H. split; [apply Ic, (in_map fst _ _ H)|eapply pderivs_named; exact H]. }
      destruct (ar_segs a) as [|[ps [f|i]] [|]] eqn:Ea.
      - apply Cp, N2.
      - cbn [map] in N2. unfold psegment_of in N2; cbn [sg_kind Load.sg_params] in N2. destruct (fw_pjac f) as [g|]; cbn [option_map single_ppairs] in N2; [|apply Cp, N2]. rewrite map_map in N2. cbn [ppair_of q_out q_param] in N2.
        split; [exact N2|]. intros o p H. apply in_map_iff in H as (q & [= <- <-] & Hq). apply (Hn ps (MForward f) eq_refl), Hq.
      - apply Cp. cbn [map] in N2. unfold psegment_of in N2 at 1; cbn [sg_kind Load.sg_params] in N2. destruct (fw_pjac f); exact N2.
      - cbn [map] in N2. unfold psegment_of in N2; cbn [sg_kind Load.sg_params] in N2. destruct (im_solve_param i) as [g|]; cbn [option_map single_ppairs] in N2; [|apply Cp, N2]. rewrite map_map in N2. cbn [ppair_of q_out q_param] in N2.
        split; [exact N2|]. intros o p H. apply in_map_iff in H as (q & [= <- <-] & Hq). apply (Hn ps (MImplicit i) eq_refl), Hq.
      - apply Cp. cbn [map] in N2. unfold psegment_of in N2 at 1; cbn [sg_kind Load.sg_params] in N2. destruct (im_solve_param i); exact N2. }
    destruct Q as [Q1 Q2]. split; [|split; assumption]. apply (pblocks_either al D2 D3 jac _ onames (map ap_name (ar_params a)) Q1 Q2 Co Cn).
  Qed.
  Lemma param_vjp_loaded capture ov (I I' W W' : vmap) r : named_params a -> inputs_ok a I -> renamed (boundary (ar_in a)) I I' -> sorted W -> clash_free (ar_out a) (keys W) -> renamed (boundary (ar_out a)) W W' ->
    model_param_vjp fsum rsum edot tri A neg dot psum graph m capture ov I' W' = Ok r ->
    exists g, param_vjp A neg dot psum (param_of m ov) (base_shapes m) capture pmod I W = Ok g /\ renamed (boundary (ar_par a)) g r /\ named grad_names g.
  Proof.
    intros [Cn Hn] Hi R Sw Cw Rw E. destruct is_faithful as [Fm Tm]. destruct aliases_ok as (D1 & D2 & D3). unfold model_param_vjp in E. rewrite Tm in E.
    apply vjp_through in E as (g & E & ->). rewrite (incoming_either al D1 I I' (proj1 Hi) (proj1 (proj2 Hi)) R), (cotangents_either al D2 W W' Sw Cw Rw) in E.
    exists g. split; [exact E|]. apply param_vjp_named in E as N. rewrite pderivs_are, psegs_are in N.
    assert (Q : named grad_names g /\ incl grad_names (map ap_name (ar_params a))).
    { unfold grad_names.
      assert (Cp : named (map snd (ar_pderivs a)) g -> named (map snd (ar_pderivs a)) g /\ incl (map snd (ar_pderivs a)) (map ap_name (ar_params a))).
      { intros N'. split; [exact N'|]. intros p H. apply in_map_iff in H as ([o q] & <- & H). eapply pderivs_named; exact H. }
      destruct (ar_segs a) as [|[ps [f|i]] [|]] eqn:Ea.
      - apply Cp, N.
      - cbn [map] in N. unfold psegment_of in N; cbn [sg_kind Load.sg_params] in N. destruct (fw_pvjp f) as [q|]; cbn [option_map single_grads] in N; [|apply Cp, N].
        split; [exact N|]. apply (Hn ps (MForward f) eq_refl).
      - apply Cp. cbn [map] in N. unfold psegment_of in N at 1; cbn [sg_kind Load.sg_params] in N. destruct (fw_pvjp f); exact N.
      - apply Cp. cbn [map] in N. unfold psegment_of in N at 1; cbn [sg_kind Load.sg_params] in N. exact N.
      - apply Cp. cbn [map] in N. unfold psegment_of in N at 1; cbn [sg_kind Load.sg_params] in N. exact N. }
    destruct Q as [Q1 Q2]. split; [|exact Q1]. apply (gradients_either al D3 g _ Q1). eapply clash_sub; [exact Q2|exact Cn].
  Qed.

  (** The ranks of the outputs and the inputs. *)
  Lemma folded_ranks {X} (f : X -> string) (g : X -> nat) : forall l acc, NoDup (map f l) ->
    (forall x, In x l -> lookup (f x) (fold_left (fun r o => set_ (f o) (g o) r) l acc) = Some (g x)) /\
    forall n, ~ In n (map f l) -> lookup n (fold_left (fun r o => set_ (f o) (g o) r) l acc) = lookup n acc.
  Proof.
    induction l as [|y l IH]; intros acc Nd; [split; [intros x []|reflexivity]|]. cbn [map] in Nd. inversion Nd as [|? ? Ny Nd']; subst. cbn [fold_left]. destruct (IH (set_ (f y) (g y) acc) Nd') as [I1 I2]. split.
    - intros x [<-|Hx]; [rewrite I2 by exact Ny; apply lookup_set_same|apply I1, Hx].
    - intros n Hn. cbn [map In] in Hn. rewrite I2 by tauto. apply lookup_set_other. intros E. apply Hn. left. congruence.
  Qed.
  Lemma distinct_names {X} (f : X -> string) (table : smap string) (l : list X) : NoDup (map f l) -> clash_free table (map f l) -> NoDup (map (fun x => boundary table (f x)) l).
  Proof.
    intros Nd C. rewrite <- (map_map f (boundary table)). apply nodup_map; [exact Nd|]. intros x y Hx Hy E. apply C; [apply in_or_app; left; exact Hx|apply in_or_app; left; exact Hy|exact E].
  Qed.
  Lemma ext_out n : ext_name m (out_o2e (ld_tables m)) n = boundary (ar_out a) n.
  Proof.
    destruct is_faithful as [_ Tm]. destruct aliases_ok as (D1 & D2 & D3). unfold ext_name. rewrite Tm. destruct (has_aliases _) eqn:H; [apply (tr_out al D2)|]. apply no_aliases in H as (_ & E & _). cbn [al_out] in E. rewrite E. reflexivity.
  Qed.
  Lemma ext_in n : ext_name m (in_o2e (ld_tables m)) n = boundary (ar_in a) n.
  Proof.
    destruct is_faithful as [_ Tm]. destruct aliases_ok as (D1 & D2 & D3). unfold ext_name. rewrite Tm. destruct (has_aliases _) eqn:H; [apply (tr_in al D1)|]. apply no_aliases in H as (E & _). cbn [al_in] in E. rewrite E. reflexivity.
  Qed.
  Lemma out_ranks_are : NoDup onames -> out_ranks_of a (out_ranks m).
  Proof.
    intros Nd o Ho. destruct is_faithful as [Fm _]. assert (E : ld_outputs m = ar_outputs a) by apply Fm. unfold out_ranks. rewrite E. rewrite <- ext_out.
    apply (folded_ranks (fun o => ext_name m (out_o2e (ld_tables m)) (op_name o)) (fun o => length (op_base o)) (ar_outputs a) []); [|exact Ho].
    rewrite (map_ext _ (fun o => boundary (ar_out a) (op_name o))) by (intros; apply ext_out). apply distinct_names; [exact Nd|apply hcons].
  Qed.
  Lemma in_ranks_are : clash_free (ar_in a) (map ip_name (ar_inputs a)) -> in_ranks_of a (in_ranks m).
  Proof.
    intros C i Hi. destruct is_faithful as [Fm _]. assert (E : ld_inputs m = ar_inputs a) by apply Fm. unfold in_ranks. rewrite E. rewrite <- ext_in.
    apply (folded_ranks (fun i => ext_name m (in_o2e (ld_tables m)) (ip_name i)) (fun i => length (ip_base i)) (ar_inputs a) []); [|exact Hi].
    rewrite (map_ext _ (fun i => boundary (ar_in a) (ip_name i))) by (intros; apply ext_in). apply distinct_names; [apply hcons|exact C].
  Qed.
End Loaded.

(** ** Putting results together *)
Lemma lift_pieces {X R} (rg : X -> Z * Z) (Q Q' : X -> R -> Prop) b l rs : tiles 0 (Z.of_nat b) (map rg l) -> Forall2 Q l rs ->
  (forall x r, In x l -> (0 <= fst (rg x))%Z -> (0 < snd (rg x))%Z -> (fst (rg x) + snd (rg x) <= Z.of_nat b)%Z -> Q x r -> Q' x r) -> Forall2 Q' l rs.
Proof.
  intros T F H. assert (Bx : forall x, In x l -> (0 <= fst (rg x))%Z /\ (0 < snd (rg x))%Z /\ (fst (rg x) + snd (rg x) <= Z.of_nat b)%Z).
  { intros x Hx. apply (in_map rg) in Hx. destruct (rg x) as [u v]. pose proof (tiles_bounds _ _ _ _ T Hx). cbn in *. lia. }
  clear T. induction F as [|x r l rs E F IH]; constructor.
  - destruct (Bx x (or_introl eq_refl)) as (B1 & B2 & B3). apply H; [left; reflexivity|assumption..].
  - apply IH; [intros y q Hy; apply H; right; exact Hy|]. intros y Hy. apply Bx. right. exact Hy.
Qed.
Lemma some_piece {X R} (rg : X -> Z * Z) (Q : X -> R -> Prop) b l rs : 1 <= b -> tiles 0 (Z.of_nat b) (map rg l) -> Forall2 Q l rs -> exists x r, In x l /\ Q x r.
Proof. intros Hb T F. destruct F as [|x r l rs E F]; [cbn [map] in T; inversion T; lia|]. exists x, r. split; [left; reflexivity|exact E]. Qed.

Section Shape.
  Variables (f g : string -> string) (ns : list string).
  Notation vmap := (smap (tensor F)).
  Definition like (r : vmap) : Prop := exists out, named ns out /\ renamed f out r.
  Definition like2 (ps : list (string * string)) (r : smap vmap) : Prop := exists j, named2 ps j /\ renamed2 f g j r.
  Lemma like_same r r' n : like r -> like r' -> lookup n r = None -> lookup n r' = None.
  Proof. intros (o & N & R) (o' & N' & R') L. exact (same_names f ns o o' r r' n N N' R R' L). Qed.
  Lemma like2_same ps r r' o i : like2 ps r -> like2 ps r' -> pair_at o i r = None -> pair_at o i r' = None.
  Proof. intros (j & N & R) (j' & N' & R') L. exact (same_pairs f g ps j j' r r' o i N N' R R' L). Qed.

  Lemma stitched in_dev b l (rs : list vmap) out : tiles 0 (Z.of_nat b) l -> length l = length rs -> (forall r, In r rs -> like r) ->
    (l = [(0, Z.of_nat b)]%Z /\ rs = [out]) \/ cat_batch (map (fun r => to_device r in_dev) rs) = Ok out -> in_place in_dev b l rs out.
  Proof.
    intros T L H [[-> ->]|E]; [apply whole_in_place|]. apply cat_batch_in_place; try assumption. intros r r' n I I'. apply like_same; apply H; assumption.
  Qed.
  Lemma stitched2 ps in_dev b onds inds l (rs : list (smap vmap)) out : tiles 0 (Z.of_nat b) l -> length l = length rs -> (forall r, In r rs -> like2 ps r) ->
    (l = [(0, Z.of_nat b)]%Z /\ rs = [out]) \/ cat_batch_nested (map (fun r => to_device_nested r in_dev) rs) onds inds = Ok out -> blocks_in_place in_dev b onds inds l rs out.
  Proof.
    intros T L H [[-> ->]|E]; [apply whole_blocks|]. apply cat_nested_in_place; try assumption.
    - intros j I. destruct (H j I) as (j0 & _ & (S & _)). apply sorted_nodup, S.
    - intros r r' o i I I'. apply (like2_same ps); apply H; assumption.
  Qed.
End Shape.

(** ** Served *)
Section Served.
  Context {C H N : Type}.
  Variable fsum rsum : list F -> F.
  Variable edot : list F -> list F -> F.
  Variable tri : list (list F) -> list F -> list F.
  Variable A : arith F.
  Variable neg : F -> F.
  Variable dot : list F -> list F -> F.
  Variable psum : list F -> F.
  Variable graph : device -> string -> list (tensor F) -> result (list (tensor F)).
  Variable of_int : Z -> F.
  Variable trunc : F -> result Z.
  Variable cast : string -> F -> F.
  Variable sdef : sconfig F.
  Variable kdef : kconfig F.
  Variable parse_json : C -> result (json F).
  Variable open_pkg : C -> device -> result unit.
  Variable parse_hit : C -> result H.
  Variable find_node : H -> string -> option N.
  Variable param : N -> string -> result (option string).
  Variable fs : location -> option (node C).
  Variable cwd : location.
  Variables (p name : string) (s : option scheduler) (root : location) (a : artifact F).
  Hypothesis Bu : bundle parse_hit find_node param fs cwd p name root.
  Hypothesis Us : forall x, s = Some x -> usable x.
  Hypothesis Cd : Forall compiled_for (SpecBundle.devices_of s).
  Hypothesis Hh : forall d, In d (SpecBundle.devices_of s) -> SpecBundle.holds kdef parse_json open_pkg fs root a d.
  Variable D : dispatched (V:=F) (C:=C).
  Hypothesis Ld : load_model of_int trunc cast sdef kdef parse_json open_pkg parse_hit find_node param fs cwd p name s = Ok D.
  Notation loaded_at d m := (load of_int trunc cast (fun _ => Ok tt) sdef kdef "float64" d true (write a) = Ok m).
  Notation vmap := (smap (tensor F)).
  Notation active := (md_loaded (dm_active D)).
  Notation dev0 := (md_device (dm_active D)).
  Variable capture : bool.
  Hypothesis Co : forall d, In d (SpecBundle.devices_of s) -> consistent rsum edot tri (graph d) sdef a.

  Lemma okA : artifact_ok kdef (opens (fun _ => Ok tt)) a.
  Proof. exact (served_ok of_int trunc cast sdef kdef parse_json open_pkg parse_hit find_node param fs cwd p name s root a Us Cd Hh D Ld). Qed.
  Lemma device_model d : In d (SpecBundle.devices_of s) -> exists m, dm_model D d = Some m /\ loaded_at d (md_loaded m) /\ keys (params_of (md_loaded m)) = keys (params_of active).
  Proof.
    intros Hd. destruct (served_models of_int trunc cast sdef kdef parse_json open_pkg parse_hit find_node param fs cwd p name s root a Bu Us Cd Hh D Ld) as (M1 & _). destruct (M1 d Hd) as (m & Em & _ & Lm).
    destruct (served_active of_int trunc cast sdef kdef parse_json open_pkg parse_hit find_node param fs cwd p name s root a Bu Us Cd Hh D Ld) as (_ & _ & _ & La).
    exists m. split; [exact Em|]. split; [exact Lm|]. rewrite (params_moved of_int trunc cast sdef kdef a okA _ _ _ _ La Lm). unfold on_dev. apply keys_vmap.
  Qed.
  Lemma active_loaded : In dev0 (SpecBundle.devices_of s) /\ loaded_at dev0 active.
  Proof.
    destruct (served_active of_int trunc cast sdef kdef parse_json open_pkg parse_hit find_node param fs cwd p name s root a Bu Us Cd Hh D Ld) as (r & Es & _ & La). split; [rewrite Es; left; reflexivity|exact La].
  Qed.

  Notation nds := (param_bases active).
  Notation onames := (map op_name (ar_outputs a)).
  Notation fjvp := (jvp_at fsum rsum edot tri A neg dot graph capture D).
  Notation fjac := (jacobian_at fsum rsum edot tri A neg dot graph capture D).
  Notation fpjac := (param_jacobian_at fsum rsum edot tri A neg dot graph capture D).
  Notation fpvjp := (param_vjp_at fsum rsum edot tri A neg dot psum graph capture D).
  Notation says_jvp := (jvp_says fsum rsum edot tri A neg dot cast graph sdef a capture nds).
  Notation says_jac := (jacobian_says fsum rsum edot tri A neg dot cast graph sdef a capture nds).
  Notation says_pjac := (param_jacobian_says fsum rsum edot tri A neg dot cast graph sdef a capture nds).
  Notation says_pvjp := (param_vjp_says fsum rsum edot tri A neg dot psum cast graph sdef a capture nds).
  Notation values := (values_say fsum rsum edot tri A cast graph sdef a nds).

  Section Piece.
    Variables (P I I' : vmap) (b : nat) (d : device) (x : Z * Z).
    Hypothesis Hd : In d (SpecBundle.devices_of s).
    Hypothesis Kp : keys P = keys (params_of active).
    Hypothesis Pok : params_ok P.
    Hypothesis Iok : inputs_ok a I.
    Hypothesis R : renamed (boundary (ar_in a)) I I'.
    Hypothesis H0 : (0 <= fst x)%Z.
    Hypothesis H1 : (0 < snd x)%Z.
    Hypothesis H2 : (fst x + snd x <= Z.of_nat b)%Z.
    Notation Px := (on_dev d (chunk_params b (Z.to_nat (fst x)) (Z.to_nat (snd x)) nds P)).
    Notation at_x J := (on_dev d (chunk_map b (Z.to_nat (fst x)) (Z.to_nat (snd x)) J)).

    Lemma range_ok : valid_range b (Z.to_nat (fst x)) (Z.to_nat (snd x)).
    Proof. unfold valid_range. lia. Qed.
    Lemma at_renamed f (J J' : vmap) : renamed f J J' -> renamed f (at_x J) (at_x J').
    Proof. intros RJ. unfold on_dev, chunk_map. apply renamed_vmap, renamed_vmap, RJ. Qed.
    Lemma at_keys (J : vmap) : keys (at_x J) = keys J.
    Proof. unfold on_dev, chunk_map. rewrite !keys_vmap. reflexivity. Qed.
    Lemma at_sorted (J : vmap) : sorted J -> sorted (at_x J).
    Proof. unfold sorted. rewrite at_keys. auto. Qed.
    Lemma part_ok : overrides_ok (Some Px) /\ inputs_ok a (at_x I) /\ renamed (boundary (ar_in a)) (at_x I) (at_x I').
    Proof. split; [apply chunk_params_wf; [apply range_ok|exact Pok]|]. split; [apply chunk_inputs_ok; [apply range_ok|exact Iok]|apply at_renamed, R]. Qed.
    Lemma px_keys m : keys (params_of (md_loaded m)) = keys (params_of active) -> keys Px = keys (params_of (md_loaded (C:=C) m)).
    Proof. intros Km. rewrite keys_chunk_params, Km. exact Kp. Qed.

    Section At.
      Variable m : loaded F.
      Hypothesis Lm : loaded_at d m.
      Lemma described_at : derivatives_consistent a -> describes fsum rsum edot tri graph sdef a d (model_of fsum rsum edot tri (graph d) m) (base_ndims m).
      Proof.
        intros De. destruct (is_faithful of_int trunc cast (fun _ => Ok tt) sdef kdef "float64" d a okA m Lm) as [Fm _]. split; [exact (model_said fsum rsum edot tri cast (graph d) sdef kdef "float64" d a m Fm (Co d Hd) De)|].
        intros q Hq. eapply RuntimeProofs.stored_at; eassumption.
      Qed.
      Lemma pdescribed_at : derivatives_consistent a -> param_derivatives_consistent a -> pdescribes fsum rsum edot tri graph sdef a d (pmodel_of fsum rsum edot tri (graph d) m) (base_shapes m).
      Proof.
        intros De Pc. split; [exact (pmodel_said fsum rsum edot tri of_int trunc cast (fun _ => Ok tt) (graph d) sdef kdef "float64" d a okA (Co d Hd) m Lm De Pc)|].
        exact (bases_said of_int trunc cast (fun _ => Ok tt) sdef kdef "float64" d a okA m Lm Pc).
      Qed.
      Lemma params_at : params_say cast "float64" d a (Some Px) (param_of m (Some Px)).
      Proof.
        destruct (is_faithful of_int trunc cast (fun _ => Ok tt) sdef kdef "float64" d a okA m Lm) as [Fm Tm]. destruct part_ok as (Ho & _). destruct okA as (_ & _ & Dp & _ & _ & _ & _ & Pf & _).
        eapply params_said; eassumption.
      Qed.
    End At.

    Lemma jvp_piece T T' r : derivatives_consistent a -> graphs_agree (graph d) a -> sorted T -> clash_free (ar_in a) (keys T) -> renamed (boundary (ar_in a)) T T' ->
      fjvp d Px (at_x I') (at_x T') = Ok r ->
      (says_jvp P I T b d (fst x) (snd x) r /\ values P I b d (fst x) (snd x) (fst r)) /\ like (boundary (ar_out a)) onames (fst r) /\ like (boundary (ar_out a)) (map fst (ar_derivs a)) (snd r).
    Proof.
      intros De Hg St Ct Rt E. destruct (device_model d Hd) as (m & Em & Lm & Km). unfold jvp_at, at_model in E. rewrite Em in E. rewrite jvp_overridden in E by (apply px_keys, Km).
      destruct part_ok as (Ho & Hi & Hr).
      destruct (jvp_loaded fsum rsum edot tri A neg dot of_int trunc cast (fun _ => Ok tt) (graph d) sdef kdef "float64" d a okA (Co d Hd) (md_loaded m) Lm capture (Some Px) (at_x I) (at_x I') (at_x T) (at_x T') r Hi Hr
                  (at_sorted T St) ltac:(rewrite at_keys; exact Ct) (at_renamed _ T T' Rt) E) as (out & w & Ej & R1 & R2 & N1 & N2).
      split; [split|].
      - exists (model_of fsum rsum edot tri (graph d) (md_loaded m)), (base_ndims (md_loaded m)), (param_of (md_loaded m) (Some Px)), out, w.
        split; [apply described_at; assumption|]. split; [apply params_at, Lm|]. split; [exact Ej|]. split; assumption.
      - destruct r as [out' jout']. destruct (jvp_meaning fsum rsum edot tri A neg dot of_int trunc cast (fun _ => Ok tt) (graph d) sdef kdef "float64" d a okA (Co d Hd) (md_loaded m) capture (Some Px) (at_x I) (at_x I') (at_x T') out' jout' Lm Hg Ho Hi Hr E) as (o & M & (_ & Q1 & _)).
        exists o. split; [exact M|]. intros n In_. destruct M as (? & ? & ? & ? & ? & ? & _ & _ & _ & _ & _ & _ & Mo). destruct (proj1 (Mo n) In_) as (t & _ & L). rewrite L. exact (Q1 n t L).
      - split; [exists out|exists w]; split; assumption.
    Qed.

    Lemma jacobian_piece r : derivatives_consistent a -> graphs_agree (graph d) a -> named_pairs a -> fjac d Px (at_x I') = Ok r ->
      (says_jac P I b d (fst x) (snd x) r /\ values P I b d (fst x) (snd x) (fst r)) /\
      (like (boundary (ar_out a)) (jac_outs a) (fst r) /\ like2 (boundary (ar_out a)) (boundary (ar_in a)) (jac_pairs a) (snd r)) /\ clash_free (ar_in a) (map ip_name (ar_inputs a)).
    Proof.
      intros De Hg Hn E. destruct (device_model d Hd) as (m & Em & Lm & Km). unfold jacobian_at, at_model in E. rewrite Em in E. rewrite jacobian_overridden in E by (apply px_keys, Km).
      destruct part_ok as (Ho & Hi & Hr).
      destruct (jacobian_loaded fsum rsum edot tri A neg dot of_int trunc cast (fun _ => Ok tt) (graph d) sdef kdef "float64" d a okA (Co d Hd) (md_loaded m) Lm capture (Some Px) (at_x I) (at_x I') r Hg Hn Ho Hi Hr E)
        as ((vo & M & Q) & out & jac & Ej & R1 & R2 & N1 & N2).
      split; [split|split].
      - exists (model_of fsum rsum edot tri (graph d) (md_loaded m)), (base_ndims (md_loaded m)), (param_of (md_loaded m) (Some Px)), out, jac.
        split; [apply described_at; assumption|]. split; [apply params_at, Lm|]. split; [exact Ej|]. split; assumption.
      - exists vo. split; [exact M|exact Q].
      - split; [exists out|exists jac]; split; assumption.
      - eapply clash_sub; [eapply inputs_given; exact M|]. rewrite at_keys. apply Iok.
    Qed.

    Lemma param_jacobian_piece r : derivatives_consistent a -> param_derivatives_consistent a -> graphs_agree (graph d) a -> named_params a -> fpjac d Px (at_x I') = Ok r ->
      (says_pjac P I b d (fst x) (snd x) r /\ (plain_values a -> values P I b d (fst x) (snd x) (fst r))) /\
      like (boundary (ar_out a)) onames (fst r) /\ like2 (boundary (ar_out a)) (boundary (ar_par a)) (pjac_pairs a) (snd r).
    Proof.
      intros De Pc Hg Hn E. destruct (device_model d Hd) as (m & Em & Lm & Km). unfold param_jacobian_at, at_model in E. rewrite Em in E. rewrite param_jacobian_overridden in E by (apply px_keys, Km).
      destruct part_ok as (Ho & Hi & Hr).
      destruct (param_jacobian_loaded fsum rsum edot tri A neg dot of_int trunc cast (fun _ => Ok tt) (graph d) sdef kdef "float64" d a okA (Co d Hd) (md_loaded m) Lm capture (Some Px) (at_x I) (at_x I') r Hn Hi Hr E)
        as (out & jac & Ej & R1 & R2 & N1 & N2).
      split; [split|].
      - exists (pmodel_of fsum rsum edot tri (graph d) (md_loaded m)), (base_shapes (md_loaded m)), (param_of (md_loaded m) (Some Px)), out, jac.
        split; [apply pdescribed_at; assumption|]. split; [apply params_at, Lm|]. split; [exact Ej|]. split; assumption.
      - intros Pv. destruct r as [out' jac']. destruct (param_meaning fsum rsum edot tri A neg dot of_int trunc cast (fun _ => Ok tt) (graph d) sdef kdef "float64" d a okA (Co d Hd) (md_loaded m) Lm capture (Some Px) (at_x I) (at_x I') out' jac' Hg Pv Ho Hi Hr E) as (o & M & (_ & Q1 & _)).
        exists o. split; [exact M|]. intros n In_. destruct M as (? & ? & ? & ? & ? & ? & _ & _ & _ & _ & _ & _ & Mo). destruct (proj1 (Mo n) In_) as (t & _ & L). rewrite L. exact (Q1 n t L).
      - split; [exists out|exists jac]; split; assumption.
    Qed.

    Lemma param_vjp_piece W W' r : derivatives_consistent a -> param_derivatives_consistent a -> named_params a -> sorted W -> clash_free (ar_out a) (keys W) -> renamed (boundary (ar_out a)) W W' ->
      fpvjp d Px (at_x I') (at_x W') = Ok r ->
      says_pvjp P I W b d (fst x) (snd x) r /\ like (boundary (ar_par a)) (grad_names a) r.
    Proof.
      intros De Pc Hn Sw Cw Rw E. destruct (device_model d Hd) as (m & Em & Lm & Km). unfold param_vjp_at, at_model in E. rewrite Em in E. rewrite param_vjp_overridden in E by (apply px_keys, Km).
      destruct part_ok as (Ho & Hi & Hr).
      destruct (param_vjp_loaded fsum rsum edot tri A neg dot psum of_int trunc cast (fun _ => Ok tt) (graph d) sdef kdef "float64" d a okA (md_loaded m) Lm capture (Some Px) (at_x I) (at_x I') (at_x W) (at_x W') r Hn Hi Hr
                  (at_sorted W Sw) ltac:(rewrite at_keys; exact Cw) (at_renamed _ W W' Rw) E) as (g & Eg & R1 & N1).
      split.
      - exists (pmodel_of fsum rsum edot tri (graph d) (md_loaded m)), (base_shapes (md_loaded m)), (param_of (md_loaded m) (Some Px)), g.
        split; [apply pdescribed_at; assumption|]. split; [apply params_at, Lm|]. split; [exact Eg|exact R1].
      - exists g. split; assumption.
    Qed.
  End Piece.

  (** ** Calls *)
  Section Call.
    Variables (h : list (pop F)) (P I I' : vmap) (b : nat) (in_dev : device).
    Hypothesis Kk : keeps_keys h.
    Hypothesis Nl : no_late h.
    Hypothesis Vp : visible (prun (fresh_of D) h) = Some P.
    Hypothesis Ap : all_on dev0 P.
    Hypothesis Wp : Forall (fun kt => wf (snd kt)) P.
    Hypothesis Ii : inputs_ok a I.
    Hypothesis R : renamed (boundary (ar_in a)) I I'.
    Hypothesis Ct : Spec.contract b I'.
    Hypothesis On : all_on in_dev I'.
    Hypothesis Ne : I' <> [].
    Hypothesis De : derivatives_consistent a.
    Notation s' := (fst (sync_params (prun (fresh_of D) h))).
    Notation fd := (full_disp D s').

    Lemma state_is : snd (sync_params (prun (fresh_of D) h)) = Ok tt /\ keys P = keys (params_of active) /\ pd_active s' = dev0 /\
      forall d, In d (SpecBundle.devices_of s) -> store_of d (pd_models s') = Some (on_dev d P).
    Proof. exact (served_state of_int trunc cast sdef kdef parse_json open_pkg parse_hit find_node param fs cwd p name s root a Bu Us Cd Hh D Ld h Kk Nl s' eq_refl P Vp Ap). Qed.
    Lemma params_are : params_ok P.
    Proof. exact (served_params of_int trunc cast sdef kdef parse_json open_pkg parse_hit find_node param fs cwd p name s root a Bu Us Cd Hh D Ld h P Kk Nl Vp Ap Wp). Qed.
    Lemma batch_pos : 1 <= b.
    Proof. apply Ct. Qed.
    Lemma full_call n : (0 <= n < 2 ^ 63)%Z -> call_ok n fd P I' b in_dev.
    Proof.
      intros Hn. destruct state_is as (_ & _ & Ac & St). constructor; cbn [full_disp dp_active dp_stores]; try assumption; [|rewrite Ac; exact Ap|apply params_are].
      rewrite Ac, St by apply active_loaded. rewrite on_dev_all_on by exact Ap. reflexivity.
    Qed.
    Lemma full_pool tbl : (forall t, In t tbl -> In (ds_dev t) (SpecBundle.devices_of s)) -> pool_call_ok (map ds_dev tbl) fd P I' b in_dev.
    Proof.
      intros Ht. destruct (full_call 0 ltac:(lia)) as [_ _ _ _ Cs Cp Cq]. destruct state_is as (_ & _ & Ac & St).
      constructor; try assumption. intros d Hd. apply in_map_iff in Hd as (t & <- & It). apply St, Ht, It.
    Qed.
    Lemma after_is {X} what (fail : exn -> X) run : after_sync D what fail I' run (prun (fresh_of D) h) = (s', run fd).
    Proof.
      unfold after_sync. destruct I' as [|e I0]; [destruct (Ne eq_refl)|]. destruct state_is as (Es & _). destruct (sync_params (prun (fresh_of D) h)) as [z r]. cbn [snd fst] in *. rewrite Es. reflexivity.
    Qed.
    Lemma active_is : dp_active fd = dev0.
    Proof. apply state_is. Qed.
    Lemma master_is : master fd = Ok P.
    Proof. unfold master, model_at. rewrite (co_store _ _ _ _ _ _ (full_call 0 ltac:(lia))). reflexivity. Qed.
    Lemma ranks_are : NoDup onames -> out_ranks_of a (l_out (dp_layout fd)).
    Proof. intros Nd. destruct active_loaded as [Hd La]. exact (out_ranks_are rsum edot tri of_int trunc cast (fun _ => Ok tt) (graph dev0) sdef kdef "float64" dev0 a okA (Co _ Hd) active La Nd). Qed.
    Lemma inner_ranks_are : clash_free (ar_in a) (map ip_name (ar_inputs a)) -> in_ranks_of a (l_in (dp_layout fd)).
    Proof. intros Nd. destruct active_loaded as [Hd La]. exact (in_ranks_are rsum edot tri of_int trunc cast (fun _ => Ok tt) (graph dev0) sdef kdef "float64" dev0 a okA (Co _ Hd) active La Nd). Qed.

    (** What follows from the results of the ranges; [dv] and [rg] are the device and the range of a chunk. *)
    Section Ends.
      Context {X : Type}.
      Variables (dv : X -> device) (rg : X -> Z * Z) (l : list X).
      Hypothesis Tl : tiles 0 (Z.of_nat b) (map rg l).
      Hypothesis Dl : forall x, In x l -> In (dv x) (SpecBundle.devices_of s).
      Hypothesis Ga : forall d, In d (SpecBundle.devices_of s) -> graphs_agree (graph d) a.
      Notation whole rs out := (map rg l = [(0, Z.of_nat b)]%Z /\ rs = [out]).

      Lemma len_map {Y Z'} (f : Y -> Z') (rs : list Y) : length l = length rs -> length (map rg l) = length (map f rs).
      Proof. rewrite !map_length. auto. Qed.
      Lemma ends_jvp T T' rs out : sorted T -> clash_free (ar_in a) (keys T) -> renamed (boundary (ar_in a)) T T' ->
        Forall2 (fun x r => two fd P I' T' b fjvp (dv x) (rg x) = Ok r) l rs ->
        whole rs out \/ gather_jvp (map (fun r => (to_device (fst r) in_dev, to_device (snd r) in_dev)) rs) = Ok out ->
        Forall2 (fun x r => says_jvp P I T b (dv x) (fst (rg x)) (snd (rg x)) r /\ values P I b (dv x) (fst (rg x)) (snd (rg x)) (fst r)) l rs /\
        in_place in_dev b (map rg l) (map fst rs) (fst out) /\ in_place in_dev b (map rg l) (map snd rs) (snd out).
      Proof.
        intros St Cf Rt F E. destruct state_is as (_ & Kp & _).
        assert (G : Forall2 (fun x r => (says_jvp P I T b (dv x) (fst (rg x)) (snd (rg x)) r /\ values P I b (dv x) (fst (rg x)) (snd (rg x)) (fst r)) /\
                       like (boundary (ar_out a)) onames (fst r) /\ like (boundary (ar_out a)) (map fst (ar_derivs a)) (snd r)) l rs).
        { apply (lift_pieces rg _ _ b l rs Tl F). intros x r Hx B0 B1 B2 Er. eapply jvp_piece; try eassumption; [apply Dl, Hx|apply params_are|apply Ga, Dl, Hx]. }
        pose proof (f2_length _ _ _ F) as Ln. clear F. split; [apply (lift_pieces rg _ _ b l rs Tl G); intros x r _ _ _ _ Q; apply Q|].
        assert (K1 : forall r, In r (map fst rs) -> like (boundary (ar_out a)) onames r) by (intros r Hr; apply in_map_iff in Hr as (q & <- & Hq); apply (f2_in _ _ _ _ G) in Hq as (y & _ & Q); apply Q).
        assert (K2 : forall r, In r (map snd rs) -> like (boundary (ar_out a)) (map fst (ar_derivs a)) r) by (intros r Hr; apply in_map_iff in Hr as (q & <- & Hq); apply (f2_in _ _ _ _ G) in Hq as (y & _ & Q); apply Q).
        assert (E' : (map rg l = [(0, Z.of_nat b)]%Z /\ rs = [out]) \/ (cat_batch (map (fun r => to_device r in_dev) (map fst rs)) = Ok (fst out) /\ cat_batch (map (fun r => to_device r in_dev) (map snd rs)) = Ok (snd out))).
        { destruct E as [E|E]; [left; exact E|right]. unfold gather_jvp in E. rewrite !map_map in *. cbn [fst snd] in E. destruct (cat_batch _) as [o|] in E |- *; cbn [bind] in E; [|discriminate].
          destruct (cat_batch _) as [j|] in E |- *; cbn [bind] in E; [|discriminate]. injection E as <-. split; reflexivity. }
        split; [eapply stitched; [exact Tl|apply len_map, Ln|exact K1|]|eapply stitched; [exact Tl|apply len_map, Ln|exact K2|]]; (destruct E' as [[E1 ->]|[E1 E2]]; [left; split; [exact E1|reflexivity]|right; assumption]).
      Qed.
      Lemma gathered rs out cnd : gather_jacobian fd cnd (map (fun r => (to_device (fst r) in_dev, to_device_nested (snd r) in_dev)) rs) = Ok out ->
        cat_batch (map (fun r => to_device r in_dev) (map fst rs)) = Ok (fst out) /\ cat_batch_nested (map (fun r => to_device_nested r in_dev) (map snd rs)) (l_out (dp_layout fd)) cnd = Ok (snd out).
      Proof.
        unfold gather_jacobian. intros E. rewrite !map_map in *. cbn [fst snd] in E. destruct (cat_batch _) as [o|] in E |- *; cbn [bind] in E; [|discriminate].
        destruct (cat_batch_nested _ _ _) as [j|] in E |- *; cbn [bind] in E; [|discriminate]. injection E as <-. split; reflexivity.
      Qed.
      Lemma ends_jacobian rs out : named_pairs a ->
        Forall2 (fun x r => one fd P I' b fjac (dv x) (rg x) = Ok r) l rs ->
        whole rs out \/ gather_jacobian fd (l_in (dp_layout fd)) (map (fun r => (to_device (fst r) in_dev, to_device_nested (snd r) in_dev)) rs) = Ok out ->
        (Forall2 (fun x r => says_jac P I b (dv x) (fst (rg x)) (snd (rg x)) r /\ values P I b (dv x) (fst (rg x)) (snd (rg x)) (fst r)) l rs /\
         in_place in_dev b (map rg l) (map fst rs) (fst out) /\ blocks_in_place in_dev b (l_out (dp_layout fd)) (l_in (dp_layout fd)) (map rg l) (map snd rs) (snd out)) /\
        in_ranks_of a (l_in (dp_layout fd)).
      Proof.
        intros Hn F E. destruct state_is as (_ & Kp & _).
        assert (G : Forall2 (fun x r => (says_jac P I b (dv x) (fst (rg x)) (snd (rg x)) r /\ values P I b (dv x) (fst (rg x)) (snd (rg x)) (fst r)) /\
                       (like (boundary (ar_out a)) (jac_outs a) (fst r) /\ like2 (boundary (ar_out a)) (boundary (ar_in a)) (jac_pairs a) (snd r)) /\ clash_free (ar_in a) (map ip_name (ar_inputs a))) l rs).
        { apply (lift_pieces rg _ _ b l rs Tl F). intros x r Hx B0 B1 B2 Er. eapply jacobian_piece; try eassumption; [apply Dl, Hx|apply params_are|apply Ga, Dl, Hx]. }
        pose proof (f2_length _ _ _ F) as Ln. clear F.
        assert (K1 : forall r, In r (map fst rs) -> like (boundary (ar_out a)) (jac_outs a) r) by (intros r Hr; apply in_map_iff in Hr as (q & <- & Hq); apply (f2_in _ _ _ _ G) in Hq as (y & _ & Q); apply Q).
        assert (K2 : forall r, In r (map snd rs) -> like2 (boundary (ar_out a)) (boundary (ar_in a)) (jac_pairs a) r) by (intros r Hr; apply in_map_iff in Hr as (q & <- & Hq); apply (f2_in _ _ _ _ G) in Hq as (y & _ & Q); apply Q).
        split; [split; [apply (lift_pieces rg _ _ b l rs Tl G); intros x r _ _ _ _ Q; apply Q|]|].
        - assert (E' : whole rs out \/ (cat_batch (map (fun r => to_device r in_dev) (map fst rs)) = Ok (fst out) /\
                       cat_batch_nested (map (fun r => to_device_nested r in_dev) (map snd rs)) (l_out (dp_layout fd)) (l_in (dp_layout fd)) = Ok (snd out))) by (destruct E as [E|E]; [left; exact E|right; apply gathered, E]).
          split; [eapply stitched; [exact Tl|apply len_map, Ln|exact K1|]|eapply stitched2; [exact Tl|apply len_map, Ln|exact K2|]]; (destruct E' as [[E1 ->]|[E1 E2]]; [left; split; [exact E1|reflexivity]|right; assumption]).
        - destruct (some_piece rg _ b l rs batch_pos Tl G) as (x & r & _ & Q). apply inner_ranks_are, Q.
      Qed.
      Lemma ends_param rs out : param_derivatives_consistent a -> named_params a ->
        Forall2 (fun x r => one fd P I' b fpjac (dv x) (rg x) = Ok r) l rs ->
        whole rs out \/ gather_jacobian fd nds (map (fun r => (to_device (fst r) in_dev, to_device_nested (snd r) in_dev)) rs) = Ok out ->
        Forall2 (fun x r => says_pjac P I b (dv x) (fst (rg x)) (snd (rg x)) r /\ (plain_values a -> values P I b (dv x) (fst (rg x)) (snd (rg x)) (fst r))) l rs /\
        in_place in_dev b (map rg l) (map fst rs) (fst out) /\ blocks_in_place in_dev b (l_out (dp_layout fd)) nds (map rg l) (map snd rs) (snd out).
      Proof.
        intros Pc Hn F E. destruct state_is as (_ & Kp & _).
        assert (G : Forall2 (fun x r => (says_pjac P I b (dv x) (fst (rg x)) (snd (rg x)) r /\ (plain_values a -> values P I b (dv x) (fst (rg x)) (snd (rg x)) (fst r))) /\
                       like (boundary (ar_out a)) onames (fst r) /\ like2 (boundary (ar_out a)) (boundary (ar_par a)) (pjac_pairs a) (snd r)) l rs).
        { apply (lift_pieces rg _ _ b l rs Tl F). intros x r Hx B0 B1 B2 Er. eapply param_jacobian_piece; try eassumption; [apply Dl, Hx|apply params_are|apply Ga, Dl, Hx]. }
        pose proof (f2_length _ _ _ F) as Ln. clear F. split; [apply (lift_pieces rg _ _ b l rs Tl G); intros x r _ _ _ _ Q; apply Q|].
        assert (K1 : forall r, In r (map fst rs) -> like (boundary (ar_out a)) onames r) by (intros r Hr; apply in_map_iff in Hr as (q & <- & Hq); apply (f2_in _ _ _ _ G) in Hq as (y & _ & Q); apply Q).
        assert (K2 : forall r, In r (map snd rs) -> like2 (boundary (ar_out a)) (boundary (ar_par a)) (pjac_pairs a) r) by (intros r Hr; apply in_map_iff in Hr as (q & <- & Hq); apply (f2_in _ _ _ _ G) in Hq as (y & _ & Q); apply Q).
        assert (E' : whole rs out \/ (cat_batch (map (fun r => to_device r in_dev) (map fst rs)) = Ok (fst out) /\
                     cat_batch_nested (map (fun r => to_device_nested r in_dev) (map snd rs)) (l_out (dp_layout fd)) nds = Ok (snd out))) by (destruct E as [E|E]; [left; exact E|right; apply gathered, E]).
        split; [eapply stitched; [exact Tl|apply len_map, Ln|exact K1|]|eapply stitched2; [exact Tl|apply len_map, Ln|exact K2|]]; (destruct E' as [[E1 ->]|[E1 E2]]; [left; split; [exact E1|reflexivity]|right; assumption]).
      Qed.
      Lemma ends_vjp W W' rs out : param_derivatives_consistent a -> named_params a -> sorted W -> clash_free (ar_out a) (keys W) -> renamed (boundary (ar_out a)) W W' ->
        Forall2 (fun x r => two fd P I' W' b fpvjp (dv x) (rg x) = Ok r) l rs ->
        whole rs out \/ gather_param_vjp (a_add A) fd (Z.of_nat b) (map (fun r => to_device r in_dev) rs) = Ok out ->
        Forall2 (fun x r => says_pvjp P I W b (dv x) (fst (rg x)) (snd (rg x)) r) l rs /\ gradients_together (a_add A) in_dev b nds P (map rg l) rs out.
      Proof.
        intros Pc Hn Sw Cf Rw F E. destruct state_is as (_ & Kp & _).
        assert (G : Forall2 (fun x r => says_pvjp P I W b (dv x) (fst (rg x)) (snd (rg x)) r /\ like (boundary (ar_par a)) (grad_names a) r) l rs).
        { apply (lift_pieces rg _ _ b l rs Tl F). intros x r Hx B0 B1 B2 Er. eapply param_vjp_piece; try eassumption; [apply Dl, Hx|apply params_are]. }
        pose proof (f2_length _ _ _ F) as Ln. clear F. split; [apply (lift_pieces rg _ _ b l rs Tl G); intros x r _ _ _ _ Q; apply Q|].
        destruct E as [[E1 ->]|E]; [rewrite E1; exact (whole_gradients (a_add A) fd P b in_dev out)|].
        refine (gather_together (a_add A) fd P b in_dev batch_pos master_is (map rg l) rs out Tl _ _ E); [rewrite map_length; exact Ln|].
        intros r r' n J J'. apply (f2_in _ _ _ _ G) in J as (y & _ & Q). apply (f2_in _ _ _ _ G) in J' as (y' & _ & Q'). apply (like_same (boundary (ar_par a)) (grad_names a)); [apply Q|apply Q'].
      Qed.
    End Ends.

    Lemma served_jvp n z T T' out : (0 <= n < 2 ^ 63)%Z -> (forall d, In d (SpecBundle.devices_of s) -> graphs_agree (graph d) a) -> sorted T -> clash_free (ar_in a) (keys T) -> renamed (boundary (ar_in a)) T T' -> conforming b T' -> all_on in_dev T' -> 
      serve_jvp fsum rsum edot tri A neg dot graph capture D n (prun (fresh_of D) h) I' T' = (z, Done (Ok out)) ->
      exists l rs, tiles 0 (Z.of_nat b) l /\ (forall x, In x l -> (snd x <= (if (n =? 0)%Z then Z.of_nat b else n))%Z) /\
        Forall2 (fun x r => says_jvp P I T b dev0 (fst x) (snd x) r /\ values P I b dev0 (fst x) (snd x) (fst r)) l rs /\
        in_place in_dev b l (map fst rs) (fst out) /\ in_place in_dev b l (map snd rs) (snd out).
    Proof.
      intros Hn0 Ga Sw Cf Rw Cw Ow E. unfold serve_jvp in E. rewrite after_is in E. injection E as _ E. destruct active_loaded as [Hd _].
      destruct (sync_op_inv fd P I' b in_dev (fun d x => two fd P I' T' b fjvp d x) (fun r => (to_device (fst r) in_dev, to_device (snd r) in_dev)) (fun in_dev b d s c => chunk_jvp fjvp fd in_dev b I' T' d s c) (chunk_jvp_is fd P I' T' b in_dev 0 (full_call 0 ltac:(lia)) Cw fjvp) n _ _ out (full_call n Hn0) (two_whole fd P I' T' b in_dev n (full_call n Hn0) Cw Ow fjvp) E) as (l & rs & Tl & Bd & F & Q).
      rewrite active_is in F. exists l, rs. split; [exact Tl|]. split; [exact Bd|].
      pose proof (ends_jvp (fun _ => dev0) (fun x => x) l ltac:(rewrite map_id; exact Tl) (fun _ _ => Hd) Ga T T' rs out Sw Cf Rw F) as K. rewrite map_id in K. exact (K Q).
    Qed.
    Lemma pooled_jvp tbl T T' : pool_ok tbl -> (forall t, In t tbl -> In (ds_dev t) (SpecBundle.devices_of s)) -> (forall d, In d (SpecBundle.devices_of s) -> graphs_agree (graph d) a) -> sorted T -> clash_free (ar_in a) (keys T) -> renamed (boundary (ar_in a)) T T' -> conforming b T' ->
      exists f g, pool_jvp fsum rsum edot tri A neg dot graph capture D (prun (fresh_of D) h) I' T' = (s', Ok ((Z.of_nat b, f), g)) /\
      forall run k ls rs0 out, finished_call run tbl k (Z.of_nat b) ls (Ok rs0) -> returns_only run k f -> g (Ok rs0) = Ok out ->
      exists (l : list (device * (Z * Z))) rs, tiles 0 (Z.of_nat b) (map snd l) /\
        (forall x, In x l -> exists t, In t tbl /\ ds_dev t = fst x /\ (snd (snd x) <= ds_batch t)%Z) /\
        Forall2 (fun x r => says_jvp P I T b (fst x) (fst (snd x)) (snd (snd x)) r /\ values P I b (fst x) (fst (snd x)) (snd (snd x)) (fst r)) l rs /\
        in_place in_dev b (map snd l) (map fst rs) (fst out) /\ in_place in_dev b (map snd l) (map snd rs) (snd out).
    Proof.
      intros Hp Ht Ga Sw Cf Rw Cw. do 2 eexists. split.
      - unfold pool_jvp, pool_of. rewrite after_is. rewrite (pool_start tbl fd P I' b in_dev (full_pool tbl Ht)). cbn [bind fst]. reflexivity.
      - intros run k ls rs0 out Fc Ro E.
        destruct (pool_op_inv fd P I' b in_dev (fun d x => two fd P I' T' b fjvp d x) (fun r => (to_device (fst r) in_dev, to_device (snd r) in_dev)) (fun in_dev b d s c => chunk_jvp fjvp fd in_dev b I' T' d s c) (chunk_jvp_is fd P I' T' b in_dev 0 (full_call 0 ltac:(lia)) Cw fjvp) tbl run k ls rs0 ([], []) (gather_jvp) out Hp (full_pool tbl Ht) Fc Ro E) as (l & rs & Tl & Bd & F & Q).
        exists l, rs. split; [exact Tl|]. split; [exact Bd|].
        assert (Dl : forall x, In x l -> In (fst x) (SpecBundle.devices_of s)) by (intros x Hx; destruct (Bd x Hx) as (t & It & <- & _); apply Ht, It).
        exact (ends_jvp fst snd l Tl Dl Ga T T' rs out Sw Cf Rw F (or_intror Q)).
    Qed.

    Lemma served_jacobian n z out : (0 <= n < 2 ^ 63)%Z -> (forall d, In d (SpecBundle.devices_of s) -> graphs_agree (graph d) a) -> named_pairs a -> 
      serve_jacobian fsum rsum edot tri A neg dot graph capture D n (prun (fresh_of D) h) I' = (z, Done (Ok out)) ->
      exists l rs, tiles 0 (Z.of_nat b) l /\ (forall x, In x l -> (snd x <= (if (n =? 0)%Z then Z.of_nat b else n))%Z) /\
        (Forall2 (fun x r => says_jac P I b dev0 (fst x) (snd x) r /\ values P I b dev0 (fst x) (snd x) (fst r)) l rs /\
         in_place in_dev b l (map fst rs) (fst out) /\ blocks_in_place in_dev b (l_out (dp_layout fd)) (l_in (dp_layout fd)) l (map snd rs) (snd out)) /\ in_ranks_of a (l_in (dp_layout fd)).
    Proof.
      intros Hn0 Ga Hn E. unfold serve_jacobian in E. rewrite after_is in E. injection E as _ E. destruct active_loaded as [Hd _].
      destruct (sync_op_inv fd P I' b in_dev (fun d x => one fd P I' b fjac d x) (fun r => (to_device (fst r) in_dev, to_device_nested (snd r) in_dev)) (fun in_dev b d s c => chunk_jacobian fd in_dev b fjac I' d s c) (chunk_jacobian_is fd P I' b in_dev 0 (full_call 0 ltac:(lia)) fjac) n _ _ out (full_call n Hn0) (one_whole fd P I' b in_dev n (full_call n Hn0) fjac) E) as (l & rs & Tl & Bd & F & Q).
      rewrite active_is in F. exists l, rs. split; [exact Tl|]. split; [exact Bd|].
      pose proof (ends_jacobian (fun _ => dev0) (fun x => x) l ltac:(rewrite map_id; exact Tl) (fun _ _ => Hd) Ga rs out Hn F) as K. rewrite map_id in K. exact (K Q).
    Qed.
    Lemma pooled_jacobian tbl : pool_ok tbl -> (forall t, In t tbl -> In (ds_dev t) (SpecBundle.devices_of s)) -> (forall d, In d (SpecBundle.devices_of s) -> graphs_agree (graph d) a) -> named_pairs a ->
      exists f g, pool_jacobian fsum rsum edot tri A neg dot graph capture D (prun (fresh_of D) h) I' = (s', Ok ((Z.of_nat b, f), g)) /\
      forall run k ls rs0 out, finished_call run tbl k (Z.of_nat b) ls (Ok rs0) -> returns_only run k f -> g (Ok rs0) = Ok out ->
      exists (l : list (device * (Z * Z))) rs, tiles 0 (Z.of_nat b) (map snd l) /\
        (forall x, In x l -> exists t, In t tbl /\ ds_dev t = fst x /\ (snd (snd x) <= ds_batch t)%Z) /\
        (Forall2 (fun x r => says_jac P I b (fst x) (fst (snd x)) (snd (snd x)) r /\ values P I b (fst x) (fst (snd x)) (snd (snd x)) (fst r)) l rs /\
         in_place in_dev b (map snd l) (map fst rs) (fst out) /\ blocks_in_place in_dev b (l_out (dp_layout fd)) (l_in (dp_layout fd)) (map snd l) (map snd rs) (snd out)) /\ in_ranks_of a (l_in (dp_layout fd)).
    Proof.
      intros Hp Ht Ga Hn. do 2 eexists. split.
      - unfold pool_jacobian, pool_of. rewrite after_is. rewrite (pool_start tbl fd P I' b in_dev (full_pool tbl Ht)). cbn [bind fst]. reflexivity.
      - intros run k ls rs0 out Fc Ro E.
        destruct (pool_op_inv fd P I' b in_dev (fun d x => one fd P I' b fjac d x) (fun r => (to_device (fst r) in_dev, to_device_nested (snd r) in_dev)) (fun in_dev b d s c => chunk_jacobian fd in_dev b fjac I' d s c) (chunk_jacobian_is fd P I' b in_dev 0 (full_call 0 ltac:(lia)) fjac) tbl run k ls rs0 ([], []) (gather_jacobian fd (l_in (dp_layout fd))) out Hp (full_pool tbl Ht) Fc Ro E) as (l & rs & Tl & Bd & F & Q).
        exists l, rs. split; [exact Tl|]. split; [exact Bd|].
        assert (Dl : forall x, In x l -> In (fst x) (SpecBundle.devices_of s)) by (intros x Hx; destruct (Bd x Hx) as (t & It & <- & _); apply Ht, It).
        exact (ends_jacobian fst snd l Tl Dl Ga rs out Hn F (or_intror Q)).
    Qed.

    Lemma served_param_jacobian n z out : (0 <= n < 2 ^ 63)%Z -> (forall d, In d (SpecBundle.devices_of s) -> graphs_agree (graph d) a) -> param_derivatives_consistent a -> named_params a -> 
      serve_param_jacobian fsum rsum edot tri A neg dot graph capture D n (prun (fresh_of D) h) I' = (z, Done (Ok out)) ->
      exists l rs, tiles 0 (Z.of_nat b) l /\ (forall x, In x l -> (snd x <= (if (n =? 0)%Z then Z.of_nat b else n))%Z) /\
        Forall2 (fun x r => says_pjac P I b dev0 (fst x) (snd x) r /\ (plain_values a -> values P I b dev0 (fst x) (snd x) (fst r))) l rs /\
        in_place in_dev b l (map fst rs) (fst out) /\ blocks_in_place in_dev b (l_out (dp_layout fd)) nds l (map snd rs) (snd out).
    Proof.
      intros Hn0 Ga Pc Hn E. unfold serve_param_jacobian in E. rewrite after_is in E. injection E as _ E. destruct active_loaded as [Hd _].
      destruct (sync_op_inv fd P I' b in_dev (fun d x => one fd P I' b fpjac d x) (fun r => (to_device (fst r) in_dev, to_device_nested (snd r) in_dev)) (fun in_dev b d s c => chunk_jacobian fd in_dev b fpjac I' d s c) (chunk_jacobian_is fd P I' b in_dev 0 (full_call 0 ltac:(lia)) fpjac) n _ _ out (full_call n Hn0) (one_whole fd P I' b in_dev n (full_call n Hn0) fpjac) E) as (l & rs & Tl & Bd & F & Q).
      rewrite active_is in F. exists l, rs. split; [exact Tl|]. split; [exact Bd|].
      pose proof (ends_param (fun _ => dev0) (fun x => x) l ltac:(rewrite map_id; exact Tl) (fun _ _ => Hd) Ga rs out Pc Hn F) as K. rewrite map_id in K. exact (K Q).
    Qed.
    Lemma pooled_param_jacobian tbl : pool_ok tbl -> (forall t, In t tbl -> In (ds_dev t) (SpecBundle.devices_of s)) -> (forall d, In d (SpecBundle.devices_of s) -> graphs_agree (graph d) a) -> param_derivatives_consistent a -> named_params a ->
      exists f g, pool_param_jacobian fsum rsum edot tri A neg dot graph capture D (prun (fresh_of D) h) I' = (s', Ok ((Z.of_nat b, f), g)) /\
      forall run k ls rs0 out, finished_call run tbl k (Z.of_nat b) ls (Ok rs0) -> returns_only run k f -> g (Ok rs0) = Ok out ->
      exists (l : list (device * (Z * Z))) rs, tiles 0 (Z.of_nat b) (map snd l) /\
        (forall x, In x l -> exists t, In t tbl /\ ds_dev t = fst x /\ (snd (snd x) <= ds_batch t)%Z) /\
        Forall2 (fun x r => says_pjac P I b (fst x) (fst (snd x)) (snd (snd x)) r /\ (plain_values a -> values P I b (fst x) (fst (snd x)) (snd (snd x)) (fst r))) l rs /\
        in_place in_dev b (map snd l) (map fst rs) (fst out) /\ blocks_in_place in_dev b (l_out (dp_layout fd)) nds (map snd l) (map snd rs) (snd out).
    Proof.
      intros Hp Ht Ga Pc Hn. do 2 eexists. split.
      - unfold pool_param_jacobian, pool_of. rewrite after_is. rewrite (pool_start tbl fd P I' b in_dev (full_pool tbl Ht)). cbn [bind fst]. reflexivity.
      - intros run k ls rs0 out Fc Ro E.
        destruct (pool_op_inv fd P I' b in_dev (fun d x => one fd P I' b fpjac d x) (fun r => (to_device (fst r) in_dev, to_device_nested (snd r) in_dev)) (fun in_dev b d s c => chunk_jacobian fd in_dev b fpjac I' d s c) (chunk_jacobian_is fd P I' b in_dev 0 (full_call 0 ltac:(lia)) fpjac) tbl run k ls rs0 ([], []) (gather_jacobian fd nds) out Hp (full_pool tbl Ht) Fc Ro E) as (l & rs & Tl & Bd & F & Q).
        exists l, rs. split; [exact Tl|]. split; [exact Bd|].
        assert (Dl : forall x, In x l -> In (fst x) (SpecBundle.devices_of s)) by (intros x Hx; destruct (Bd x Hx) as (t & It & <- & _); apply Ht, It).
        exact (ends_param fst snd l Tl Dl Ga rs out Pc Hn F (or_intror Q)).
    Qed.

    Lemma served_param_vjp n z W W' out : (0 <= n < 2 ^ 63)%Z -> param_derivatives_consistent a -> named_params a -> sorted W -> clash_free (ar_out a) (keys W) -> renamed (boundary (ar_out a)) W W' -> conforming b W' -> all_on in_dev W' -> 
      serve_param_vjp fsum rsum edot tri A neg dot psum graph capture D n (prun (fresh_of D) h) I' W' = (z, Done (Ok out)) ->
      exists l rs, tiles 0 (Z.of_nat b) l /\ (forall x, In x l -> (snd x <= (if (n =? 0)%Z then Z.of_nat b else n))%Z) /\
        Forall2 (fun x r => says_pvjp P I W b dev0 (fst x) (snd x) r) l rs /\ gradients_together (a_add A) in_dev b nds P l rs out.
    Proof.
      intros Hn0 Pc Hn Sw Cf Rw Cw Ow E. unfold serve_param_vjp in E. rewrite after_is in E. injection E as _ E. destruct active_loaded as [Hd _].
      destruct (sync_op_inv fd P I' b in_dev (fun d x => two fd P I' W' b fpvjp d x) (fun r => to_device r in_dev) (fun in_dev b d s c => chunk_param_vjp fpvjp fd in_dev b I' W' d s c) (chunk_param_vjp_is fd P I' W' b in_dev 0 (full_call 0 ltac:(lia)) Cw fpvjp) n _ _ out (full_call n Hn0) (two_whole fd P I' W' b in_dev n (full_call n Hn0) Cw Ow fpvjp) E) as (l & rs & Tl & Bd & F & Q).
      rewrite active_is in F. exists l, rs. split; [exact Tl|]. split; [exact Bd|].
      pose proof (ends_vjp (fun _ => dev0) (fun x => x) l ltac:(rewrite map_id; exact Tl) (fun _ _ => Hd) W W' rs out Pc Hn Sw Cf Rw F) as K. rewrite map_id in K. exact (K Q).
    Qed.
    Lemma pooled_param_vjp tbl W W' : pool_ok tbl -> (forall t, In t tbl -> In (ds_dev t) (SpecBundle.devices_of s)) -> param_derivatives_consistent a -> named_params a -> sorted W -> clash_free (ar_out a) (keys W) -> renamed (boundary (ar_out a)) W W' -> conforming b W' ->
      exists f g, pool_param_vjp fsum rsum edot tri A neg dot psum graph capture D (prun (fresh_of D) h) I' W' = (s', Ok ((Z.of_nat b, f), g)) /\
      forall run k ls rs0 out, finished_call run tbl k (Z.of_nat b) ls (Ok rs0) -> returns_only run k f -> g (Ok rs0) = Ok out ->
      exists (l : list (device * (Z * Z))) rs, tiles 0 (Z.of_nat b) (map snd l) /\
        (forall x, In x l -> exists t, In t tbl /\ ds_dev t = fst x /\ (snd (snd x) <= ds_batch t)%Z) /\
        Forall2 (fun x r => says_pvjp P I W b (fst x) (fst (snd x)) (snd (snd x)) r) l rs /\ gradients_together (a_add A) in_dev b nds P (map snd l) rs out.
    Proof.
      intros Hp Ht Pc Hn Sw Cf Rw Cw. do 2 eexists. split.
      - unfold pool_param_vjp, pool_of. rewrite after_is. rewrite (pool_start tbl fd P I' b in_dev (full_pool tbl Ht)). cbn [bind fst]. reflexivity.
      - intros run k ls rs0 out Fc Ro E.
        destruct (pool_op_inv fd P I' b in_dev (fun d x => two fd P I' W' b fpvjp d x) (fun r => to_device r in_dev) (fun in_dev b d s c => chunk_param_vjp fpvjp fd in_dev b I' W' d s c) (chunk_param_vjp_is fd P I' W' b in_dev 0 (full_call 0 ltac:(lia)) Cw fpvjp) tbl run k ls rs0 [] (gather_param_vjp (a_add A) fd (Z.of_nat b)) out Hp (full_pool tbl Ht) Fc Ro E) as (l & rs & Tl & Bd & F & Q).
        exists l, rs. split; [exact Tl|]. split; [exact Bd|].
        assert (Dl : forall x, In x l -> In (fst x) (SpecBundle.devices_of s)) by (intros x Hx; destruct (Bd x Hx) as (t & It & <- & _); apply Ht, It).
        exact (ends_vjp fst snd l Tl Dl W W' rs out Pc Hn Sw Cf Rw F (or_intror Q)).
    Qed.
  End Call.
End Served.
