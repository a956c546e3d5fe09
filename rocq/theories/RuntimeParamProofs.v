(** Proofs: the parameter derivatives of a loaded artifact (C69). *)
From Coq Require Import String.
From Verif Require Import Load SpecLoad LoadProofs.
From Verif Require Import Base BaseProofs SpecMap SmapProofs Tensor SpecRename Rename RenameProofs ParamsProofs Except Float Krylov Broadcast
     Pack Implicit Substep Mat Jac SubstepJac JacModel ParamJac FwdModel SpecValue ValueProofs Runtime RuntimeParam SpecRuntime SpecRuntimeParam RuntimeProofs.
Local Open Scope string_scope.
Local Open Scope list_scope.

Lemma lookup_vmap' {X Y} (f : X -> Y) k (l : smap X) : lookup k (vmap_ f l) = option_map f (lookup k l).
Proof. induction l as [|[k' v] l IH]; cbn; [reflexivity|]. destruct (String.eqb k k'); [reflexivity|exact IH]. Qed.

Section Params.
  Variable fsum rsum : list F -> F.
  Variable edot : list F -> list F -> F.
  Variable tri : list (list F) -> list F -> list F.
  Variable A : arith F.
  Variable neg : F -> F.
  Variable dot : list F -> list F -> F.
  Variable psum : list F -> F.
  Variable of_int : Z -> F.
  Variable trunc : F -> result Z.
  Variable cast : string -> F -> F.
  Variable open_pkg : string -> result unit.
  Variable graph : string -> list (tensor F) -> result (list (tensor F)).
  Variable sdef : sconfig F.
  Variable kdef : kconfig F.
  Variable leaf : string.
  Variable d : device.
  Variable a : artifact F.
  Hypothesis ok : artifact_ok kdef (fun s => open_pkg s = Ok tt) a.
  Hypothesis hcons : consistent rsum edot tri graph sdef a.
  Variable m : loaded F.
  Hypothesis hm : load of_int trunc cast open_pkg sdef kdef leaf d true (write a) = Ok m.

  Notation psg := (psegment_of fsum rsum edot tri graph m).
  Notation pmod := (pmodel_of fsum rsum edot tri graph m).
  Notation jmod := (model_of fsum rsum edot tri graph m).
  Lemma Fm : SpecLoad.faithful cast sdef kdef leaf d a m.
  Proof. apply (loaded_is of_int trunc cast open_pkg sdef kdef leaf d a ok m hm). Qed.
  Lemma Tm : ld_tables m = load_tables (mkAliases (ar_in a) (ar_out a) (ar_par a)).
  Proof. apply (loaded_is of_int trunc cast open_pkg sdef kdef leaf d a ok m hm). Qed.
  Lemma segs_eq : ld_segs m = ar_segs a.
  Proof. apply Fm. Qed.

  (** The values are those of the model of Runtime.v. *)
  Lemma value_psegment s : value_seg (psg s) = segment_of fsum rsum edot tri graph m s.
  Proof. destruct s as [ps [f|i]]; reflexivity. Qed.
  Lemma forward_same par nds capture I : forward_of_p A par nds capture pmod I = forward_of A par nds capture jmod I.
  Proof.
    unfold forward_of_p, forward_of, pmodel_of, model_of. cbn [pm_inputs pm_segs pm_outs jm_inputs jm_segs jm_outs]. rewrite map_map.
    rewrite (map_ext _ (segment_of fsum rsum edot tri graph m) value_psegment). reflexivity.
  Qed.
  Lemma shapes_ndims : vmap_ (@length nat) (base_shapes m) = base_ndims m.
  Proof.
    unfold base_shapes, base_ndims, vmap_. rewrite map_map. apply map_ext. intros [k l]. cbn. unfold sizes. rewrite map_length. reflexivity.
  Qed.

  Lemma ppair_said p : ppair_sizes p -> ppair_says p (ppair_of p).
  Proof.
    intros (H1 & H2 & H3 & H4). repeat (split; [reflexivity|]). split; [apply nonneg_sized, H1|]. split; [apply nonneg_sized, H2|]. split; apply Z2Nat.id; assumption.
  Qed.
  Lemma popt_said {Y} (f : string -> Y) o : says_opt (fun p g => g = f p) o (option_map f o).
  Proof. destruct o; reflexivity. Qed.
  Lemma pseg_said sg : derivatives_consistent a -> param_derivatives_consistent a -> In sg (ar_segs a) -> pseg_says fsum rsum edot tri graph sdef a sg (psg sg).
  Proof.
    intros De [_ Pc] H. assert (J := jseg_said fsum rsum edot tri cast graph sdef kdef leaf d a m Fm hcons sg De H).
    destruct sg as [ps [f|i]]; specialize (Pc ps _ H); cbn beta iota in Pc; unfold psegment_of, pseg_says; cbn [Load.sg_kind].
    - split; [exact J|]. split; [apply popt_said|]. split; [eapply said_map; [exact ppair_said|exact Pc]|].
      destruct (fw_pvjp f); reflexivity.
    - split; [exact J|]. split; [apply popt_said|]. split; [apply popt_said|]. split; [intros ->; reflexivity|].
      split; [intros N; destruct (String.eqb_spec (im_par_kind i) "krylov"); [contradiction|reflexivity]|]. eapply said_map; [exact ppair_said|exact Pc].
  Qed.
  Lemma pmodel_said : derivatives_consistent a -> param_derivatives_consistent a -> pmodel_says fsum rsum edot tri graph sdef a pmod.
  Proof.
    intros De Pc. destruct (model_said fsum rsum edot tri cast graph sdef kdef leaf d a m Fm hcons De) as (Mi & _ & Mo & _).
    split; [exact Mi|]. split; [|split; [exact Mo|apply Fm]].
    unfold pmodel_of. cbn [pm_segs]. rewrite segs_eq.
    assert (G : forall l, incl l (ar_segs a) -> Forall2 (pseg_says fsum rsum edot tri graph sdef a) l (map psg l)).
    { induction l as [|x l IH]; intros Hi; constructor; [apply pseg_said; [exact De|exact Pc|apply Hi; left; reflexivity]|apply IH; intros y Iy; apply Hi; right; exact Iy]. }
    apply G, incl_refl.
  Qed.
  Lemma bases_said : param_derivatives_consistent a -> bases_say a (base_shapes m).
  Proof.
    intros [Pn _] p Hp. assert (L : lookup (ap_name p) (ld_bases m) = Some (ap_base p)) by (apply Fm, Hp).
    exists (sizes (ap_base p)). split; [unfold base_shapes; rewrite lookup_vmap', L; reflexivity|]. apply nonneg_sized. rewrite Forall_forall in Pn. apply Pn, Hp.
  Qed.

  Notation meaning := (artifact_says fsum rsum edot tri A cast graph sdef leaf d a).
  Lemma facade_param_inv t (impl : smap (tensor F) -> result (smap (tensor F) * smap (smap (tensor F)))) I' out' jac' : facade_param_jacobian t impl I' = Ok (out', jac') ->
    exists out jac, impl (if has_aliases t then rekey I' (in_e2o t) else I') = Ok (out, jac) /\ out' = if has_aliases t then rekey out (out_o2e t) else out.
  Proof.
    unfold facade_param_jacobian, guarded. destruct (has_aliases t).
    - destruct (impl _) as [[out jout]|e] eqn:E; cbn [bind]; [|destruct e; discriminate]. intros X. injection X as <- <-. eauto.
    - destruct (impl _) as [[out jout]|e] eqn:E; [|destruct e; discriminate]. intros X. injection X as <- <-. eauto.
  Qed.
  Lemma param_meaning capture ov I I' out' jac' : graphs_agree graph a -> plain_values a -> overrides_ok ov -> inputs_ok a I -> renamed (boundary (ar_in a)) I I' ->
    model_param_jacobian fsum rsum edot tri A neg dot graph m capture ov I' = Ok (out', jac') -> exists out, meaning ov I out /\ renamed (boundary (ar_out a)) out out'.
  Proof.
    intros Hg [Lv Sb] Ho Hi R E. destruct ok as (Di & Do & Dp & _). unfold model_param_jacobian in E. rewrite Tm in E.
    apply facade_param_inv in E. destruct E as (out & jac & E & ->). rewrite (incoming_either (mkAliases (ar_in a) (ar_out a) (ar_par a)) Di I I') in E; [|apply Hi|apply Hi|exact R].
    apply ValueProofs.param_value in E.
    - rewrite shapes_ndims, forward_same in E.
      destruct (inner_said fsum rsum edot tri A cast graph sdef kdef leaf d a ov m (params_fine open_pkg kdef a ok) Dp Fm Tm hcons Ho capture I out Hi E) as (M & So & Ko).
      exists out. split; [exact M|]. apply (outgoing_either (mkAliases (ar_in a) (ar_out a) (ar_par a)) Do out (map op_name (ar_outputs a))); [exact So|exact Ko|apply hcons].
    - intros x Hx. unfold pmodel_of in Hx. cbn [pm_segs] in Hx. rewrite segs_eq in Hx. apply in_map_iff in Hx. destruct Hx as ([ps [f|i]] & <- & H); unfold psegment_of; cbn [Load.sg_kind Load.sg_params].
      + apply (model_coherent fsum rsum edot tri cast graph sdef kdef leaf d a m Fm hcons Hg (JF (jfwd_of graph ps f))).
        unfold model_of. cbn [jm_segs]. rewrite segs_eq. exact (in_map (segment_of fsum rsum edot tri graph m) _ _ H).
      + unfold jimp_of. cbn [ji_level]. specialize (Lv ps i H). lia.
    - intros i rest Ei. unfold pmodel_of in Ei. cbn [pm_inputs] in Ei. assert (E0 : ld_inputs m = ar_inputs a) by apply Fm. rewrite E0 in Ei.
      destruct (ar_inputs a) as [|x l] eqn:Ea; [discriminate|]. injection Ei as <- _. unfold input_of. cbn [in_sub]. rewrite (Sb x l eq_refl). reflexivity.
  Qed.
End Params.

Lemma param_described fsum rsum edot tri A neg dot psum of_int trunc cast open_pkg graph sdef kdef leaf d (a : artifact F) :
  artifact_ok kdef (fun s => open_pkg s = Ok tt) a -> consistent rsum edot tri graph sdef a -> derivatives_consistent a -> param_derivatives_consistent a ->
  exists m pm pb, load of_int trunc cast open_pkg sdef kdef leaf d true (write a) = Ok m /\ pmodel_says fsum rsum edot tri graph sdef a pm /\ bases_say a pb /\
    forall ov, overrides_ok ov -> exists par, params_say cast leaf d a ov par /\ forall capture,
      model_param_jacobian fsum rsum edot tri A neg dot graph m capture ov = facade_param_jacobian (load_tables (mkAliases (ar_in a) (ar_out a) (ar_par a))) (param_jacobian A neg dot par pb capture pm) /\
      model_param_vjp fsum rsum edot tri A neg dot psum graph m capture ov = facade_param_vjp (load_tables (mkAliases (ar_in a) (ar_out a) (ar_par a))) (param_vjp A neg dot psum par pb capture pm).
Proof.
  intros Ok_ Co De Pc. destruct (loads of_int trunc cast open_pkg sdef kdef leaf d a Ok_) as [m Hm]. destruct (loaded_is of_int trunc cast open_pkg sdef kdef leaf d a Ok_ m Hm) as [Fm' Tm'].
  assert (Dp : NoDup (keys (ar_par a))) by apply Ok_. assert (Pf : Forall param_ok (ar_params a)) by apply Ok_.
  exists m, (pmodel_of fsum rsum edot tri graph m), (base_shapes m). split; [exact Hm|]. split; [exact (pmodel_said fsum rsum edot tri of_int trunc cast open_pkg graph sdef kdef leaf d a Ok_ Co m Hm De Pc)|]. split; [exact (bases_said of_int trunc cast open_pkg sdef kdef leaf d a Ok_ m Hm Pc)|].
  intros ov Ho. exists (param_of m ov). split; [eapply params_said; eassumption|]. intros capture. rewrite <- Tm'. split; reflexivity.
Qed.
