(** Parameter derivatives of single-segment models (ParamJac.v): the graphs' own results; missing cotangents. *)
From Verif Require Import Base BaseProofs SmapProofs Tensor Spec TensorProofs Broadcast SpecBroadcast BroadcastProofs Pack PackProofs
     Implicit ImplicitProofs BatchChunk Substep Mat Jac SubstepJac JacModel ParamJac SpecLayout LayoutProofs SpecJac SpecParam MatProofs JacProofs JacRunProofs JacMainProofs
     JacDirectProofs ParamProofs ParamMainProofs ParamVjpProofs.

Section Direct.
  Context {V : Type}.
  Notation vmap := (smap (tensor V)).

  Lemma name_blocks_other ps : forall (blks : list (tensor V)) (jac : smap vmap) o p, ~ In (o, p) (map (fun q => (q_out q, q_param q)) ps) ->
    block (name_blocks ps blks jac) o p = block jac o p.
  Proof.
    induction ps as [|q ps IH]; intros [|u blks] jac o p N; try reflexivity. cbn [name_blocks]. rewrite IH by (intros I; apply N; right; exact I).
    rewrite block_set2. destruct (String.eqb_spec o (q_out q)) as [E1|]; [|reflexivity]. destruct (String.eqb_spec p (q_param q)) as [E2|]; [|reflexivity].
    exfalso. apply N. left. congruence.
  Qed.
  Lemma name_blocks_lookup ps : NoDup (map (fun q => (q_out q, q_param q)) ps) -> forall (blks : list (tensor V)) (jac : smap vmap) k p t,
    nth_error ps k = Some p -> nth_error blks k = Some t -> block (name_blocks ps blks jac) (q_out p) (q_param p) = Some t.
  Proof.
    induction ps as [|q ps IH]; intros N blks jac k p t Hp Ht; [destruct k; discriminate|]. destruct blks as [|u blks]; [destruct k; discriminate|].
    inversion N as [|? ? Nq N']; subst. cbn [name_blocks]. destruct k as [|k].
    - injection Hp as ->. injection Ht as ->. rewrite name_blocks_other by exact Nq. rewrite block_set2, !String.eqb_refl. reflexivity.
    - apply (IH N' blks _ k p t Hp Ht).
  Qed.

  Variable A : arith V.
  Variable neg : V -> V.
  Variable dot : list V -> list V -> V.
  Variable sum : list V -> V.
  Variable par : string -> result (tensor V).
  Variable pbase : smap (list nat).
  Variable capture : bool.
  Variable m : pmodel V.
  Notation base_ndim := (vmap_ (@length nat) pbase).

  Lemma requested_layout : (forall o p, In (o, p) (pm_derivs m) -> exists pb, lookup p pbase = Some pb) -> exists b P, layout (param_size pbase) (pm_derivs m) = Ok (b, P).
  Proof.
    intros H. destruct (layout (param_size pbase) (pm_derivs m)) as [[b P]|e] eqn:E; [eauto|]. exfalso.
    destruct (proj1 (layout_fails (param_size pbase) (pm_derivs m))) as (o & p & e' & Ip & Ei); [eauto|]. destruct (H o p Ip) as (pb & Lp).
    unfold param_size in Ei. rewrite Lp in Ei. discriminate.
  Qed.

  Lemma single_forward_ok f g ps vjp i0 rest (I st st' : vmap) ref ins qs blks :
    pm_segs m = [PF f (Some g) ps vjp] -> pm_derivs m <> [] -> (forall o p, In (o, p) (pm_derivs m) -> exists pb, lookup p pbase = Some pb) ->
    pm_inputs m = i0 :: rest -> prepare_inputs (pm_inputs m) I = Ok st -> lookup (in_name i0) st = Some ref ->
    Forall2 (fun n t => lookup n st = Some t) (sg_in (jf_seg f)) ins -> Forall2 (spread par pbase (batch_shape_of i0 ref)) (sg_par (jf_seg f)) qs ->
    g (ins ++ qs) = Ok blks -> length blks = length ps -> NoDup (map (fun q => (q_out q, q_param q)) ps) ->
    run_forward_segment par base_ndim (jf_seg f) (batch_shape_of i0 ref) st = Ok st' -> (forall o ob, In (o, ob) (pm_outs m) -> exists t, lookup o st' = Some t) ->
    exists outs jac, param_jacobian A neg dot par pbase capture m I = Ok (outs, jac) /\
      (forall n, lookup n outs = if existsb (String.eqb n) (map fst (pm_outs m)) then lookup n st' else None) /\
      (forall k p t, nth_error ps k = Some p -> nth_error blks k = Some t -> block jac (q_out p) (q_param p) = Some t) /\
      (forall o p, ~ In (o, p) (map (fun q => (q_out q, q_param q)) ps) -> block jac o p = None).
  Proof.
    intros Es Ne Rq Ei Ep Er Fi Fq Eg Lb Np Erun Ho. destruct (requested_layout Rq) as (b & P & L).
    destruct (take_outputs_ok (map fst (pm_outs m)) st' []) as [outs [To Po]].
    { intros n In_. apply in_map_iff in In_ as [[o ob] [<- J]]. apply (Ho o ob J). }
    exists outs, (name_blocks ps blks []). split.
    - unfold param_jacobian. rewrite L. cbn [bind]. assert (X : length (pm_derivs m) <> 0) by (intros Z; apply length_zero_iff_nil in Z; contradiction).
      rewrite (proj2 (Nat.eqb_neq _ _) X). cbn [negb assert_ bind]. rewrite Es. unfold forward_param_blocks. rewrite Ep. cbn [bind]. rewrite Ei. unfold at_ at 1. rewrite Er. cbn [bind].
      rewrite (Forall2_mapM _ (sg_in (jf_seg f)) ins).
      2: { clear - Fi. induction Fi as [|n t ns ts E F IH]; [constructor|constructor; [unfold at_; rewrite E; reflexivity|exact IH]]. }
      cbn [bind]. rewrite (spread_ok par pbase _ _ _ Fq). cbn [bind]. rewrite Eg. cbn [bind]. rewrite Lb, Nat.eqb_refl. cbn [assert_ bind]. rewrite Erun. cbn [bind]. rewrite To. reflexivity.
    - split; [intros n; rewrite Po; reflexivity|]. split.
      + intros k p t Hp Ht. apply (name_blocks_lookup ps Np blks [] k p t Hp Ht).
      + intros o p N. rewrite name_blocks_other by exact N. reflexivity.
  Qed.

  (** The blocks of an implicit segment: the compiled solve's, or slices of the negated Krylov solution. *)
  Lemma ift_blocks_ok i dr solve krylov ps b P D us gs qs op blks : layout (param_size pbase) (pm_derivs m) = Ok (b, P) ->
    (forall p, In p ps -> In (q_param p) (map snd (pm_derivs m)) /\ exists pb, lookup (q_param p) pbase = Some pb) ->
    Forall2 (spread par pbase D) (is_params (ji_seg i)) qs -> dr (us ++ gs ++ qs) = Ok op -> du_dp neg pbase ps op solve krylov blks ->
    param_ift_blocks neg par pbase i dr solve krylov ps b D us gs = Ok blks.
  Proof.
    intros L Ip Fq Eo Du. unfold param_ift_blocks. rewrite (spread_ok par pbase _ _ _ Fq). cbn [bind]. rewrite Eo. cbn [bind].
    destruct Du as [s blks Eq|s k a rhs rst x blks -> Ek Fs]; [exact Eq|]. rewrite Ek. cbn [bind]. apply Forall2_mapM.
    clear - Fs Ip L. induction Fs as [|p t ps blks Hs Fs IH]; [constructor|]. destruct (Ip p (or_introl eq_refl)) as [J [pb Lp]].
    constructor; [eapply slice_param_ok; eassumption|apply IH; intros q J'; apply Ip; right; exact J'].
  Qed.
  Lemma single_implicit_ok i dr s krylov ps (I st st1 st' : vmap) gs prm us u0 u qs op blks :
    pm_segs m = [PI i (Some dr) (Some s) krylov ps] -> pm_derivs m <> [] -> (forall o p, In (o, p) (pm_derivs m) -> exists pb, lookup p pbase = Some pb) ->
    (forall p, In p ps -> In (q_param p) (map snd (pm_derivs m))) ->
    prepare_inputs (pm_inputs m) I = Ok st -> fst (prepare_solve (a_zero A) par (ji_seg i) st) = Ok (st1, gs, prm, us) -> is_solve (ji_seg i) gs prm us = Ok (u0 :: u) ->
    unpack_groups (u0 :: u) (is_unknown_groups (ji_seg i)) st1 = Ok st' ->
    Forall2 (spread par pbase (removelast (t_shape u0))) (is_params (ji_seg i)) qs -> dr ((u0 :: u) ++ gs ++ qs) = Ok op -> du_dp neg pbase ps op (Some s) krylov blks ->
    length blks = length ps -> NoDup (map (fun q => (q_out q, q_param q)) ps) ->
    (krylov <> None -> Forall2 (fun p t => numel (removelast (t_shape u0) ++ q_out_base p ++ q_par_base p) = numel (t_shape t)) ps blks) ->
    (forall o ob, In (o, ob) (pm_outs m) -> exists t, lookup o st' = Some t) ->
    exists outs jac, param_jacobian A neg dot par pbase capture m I = Ok (outs, jac) /\
      (forall n, lookup n outs = if existsb (String.eqb n) (map fst (pm_outs m)) then lookup n st' else None) /\
      (forall k p t, nth_error ps k = Some p -> nth_error blks k = Some t ->
         block jac (q_out p) (q_param p) =
         Some (match krylov with None => t | Some _ => mkT (removelast (t_shape u0) ++ q_out_base p ++ q_par_base p) (t_data t) (t_dev t) end)) /\
      (forall o p, ~ In (o, p) (map (fun q => (q_out q, q_param q)) ps) -> block jac o p = None).
  Proof.
    intros Es Ne Rq Ip Ep Eps Eu Un Fq Eo Du Lb Np Rs Ho. destruct (requested_layout Rq) as (b & P & L).
    destruct (take_outputs_ok (map fst (pm_outs m)) st' []) as [outs [To Po]].
    { intros n In_. apply in_map_iff in In_ as [[o ob] [<- J]]. apply (Ho o ob J). }
    set (final := match krylov with None => blks | Some _ => map (fun pt => mkT (removelast (t_shape u0) ++ q_out_base (fst pt) ++ q_par_base (fst pt)) (t_data (snd pt)) (t_dev (snd pt))) (combine ps blks) end).
    assert (Ef : match krylov with Some _ => reshape_blocks (removelast (t_shape u0)) ps blks | None => Ok blks end = Ok final /\ length final = length ps).
    { unfold final. destruct krylov; [|split; [reflexivity|exact Lb]]. split; [|rewrite map_length, combine_length; lia].
      assert (Rs' := Rs ltac:(discriminate)). unfold reshape_blocks. clear - Rs'. induction Rs' as [|p t ps blks E F IH]; [reflexivity|]. cbn [combine mapM map fst snd].
      rewrite reshape_ok by exact E. cbn [bind]. rewrite IH. reflexivity. }
    destruct Ef as [Ef Lf]. exists outs, (name_blocks ps final []). split.
    - unfold param_jacobian. rewrite L. cbn [bind]. assert (X : length (pm_derivs m) <> 0) by (intros Z; apply length_zero_iff_nil in Z; contradiction).
      rewrite (proj2 (Nat.eqb_neq _ _) X). cbn [negb assert_ bind]. rewrite Es. unfold implicit_param_blocks. rewrite Ep. cbn [bind]. unfold run_implicit_groups. rewrite Eps. cbn [bind]. rewrite Eu, Un. cbn [bind fst snd].
      rewrite (ift_blocks_ok i dr (Some s) krylov ps b P _ (u0 :: u) gs qs op blks L) ; [|intros p J; split; [apply Ip; exact J|]|exact Fq|exact Eo|exact Du].
      + cbn [bind]. rewrite Ef. cbn [bind]. rewrite Lf, Nat.eqb_refl. cbn [assert_ bind]. rewrite To. reflexivity.
      + specialize (Ip p J). apply in_map_iff in Ip as [[o q] [E K]]. cbn in E. subst q. apply (Rq o _ K).
    - split; [intros n; rewrite Po; reflexivity|]. split.
      + intros k p t Hp Ht. apply (name_blocks_lookup ps Np final [] k p _ Hp). unfold final. destruct krylov; [|exact Ht].
        rewrite (map_nth_error _ _ _ (combine_nth_error _ _ _ _ _ Hp Ht)). reflexivity.
      + intros o p N. rewrite name_blocks_other by exact N. reflexivity.
  Qed.

  (** ** The adjoint graph *)
  Lemma name_grads_ok ps : NoDup ps -> forall gs acc, (forall p, In p ps -> exists t, par p = Ok t) -> length gs = length ps ->
    exists grads, name_grads sum par pbase ps gs acc = Ok grads /\
      (forall k p g, nth_error ps k = Some p -> nth_error gs k = Some g -> exists c, collapse sum par pbase p g = Ok c /\ lookup p grads = Some c) /\
      (forall p, ~ In p ps -> lookup p grads = lookup p acc).
  Proof.
    induction ps as [|q ps IH]; intros N gs acc Hp L.
    - destruct gs; [|discriminate]. exists acc. split; [reflexivity|]. split; [intros [|k]; discriminate|reflexivity].
    - destruct gs as [|g gs]; [discriminate|]. injection L as L. apply NoDup_cons_iff in N as [Nq N]. cbn [name_grads].
      assert (C : exists c, collapse sum par pbase q g = Ok c).
      { unfold collapse. destruct (Hp q (or_introl eq_refl)) as [t ->]. cbn [bind]. destruct (Nat.ltb _ _); [eauto|]. destruct (Nat.leb _ _); eauto. }
      destruct C as [c C]. rewrite C. cbn [bind]. destruct (IH N gs (set_ q c acc)) as (grads & E & H1 & H2); [intros p J; apply Hp; right; exact J|exact L|].
      exists grads. split; [exact E|]. split.
      + intros [|k] p g' K1 K2; [|exact (H1 k p g' K1 K2)]. injection K1 as <-. injection K2 as <-. exists c. split; [exact C|]. rewrite H2 by exact Nq. apply lookup_set_same.
      + intros p Np. rewrite H2 by (intros J; apply Np; right; exact J). apply lookup_set_other. intros ->. apply Np. left. reflexivity.
  Qed.
  Lemma adjoint_ok f pj pps adj outs ps i0 rest (I st cot : vmap) ref ins qs ws gs :
    pm_segs m = [PF f pj pps (Some (adj, outs, ps))] -> pm_derivs m <> [] -> NoDup ps -> (forall p, In p ps -> exists t, par p = Ok t) ->
    pm_inputs m = i0 :: rest -> prepare_inputs (pm_inputs m) I = Ok st -> lookup (in_name i0) st = Some ref ->
    Forall2 (fun n t => lookup n st = Some t) (sg_in (jf_seg f)) ins -> Forall2 (spread par pbase (batch_shape_of i0 ref)) (sg_par (jf_seg f)) qs ->
    Forall2 (fun o w => lookup o cot = Some w) outs ws -> adj (ins ++ qs ++ ws) = Ok gs -> length gs = length ps ->
    exists grads, param_vjp A neg dot sum par pbase capture m I cot = Ok grads /\
      (forall k p g, nth_error ps k = Some p -> nth_error gs k = Some g -> exists c, collapse sum par pbase p g = Ok c /\ lookup p grads = Some c) /\
      (forall p, ~ In p ps -> lookup p grads = None).
  Proof.
    intros Es Ne Np Hp Ei Ep Er Fi Fq Fw Ea Lg. destruct (name_grads_ok ps Np gs [] Hp Lg) as (grads & E & H1 & H2). exists grads. split; [|split; [exact H1|exact H2]].
    unfold param_vjp. assert (X : length (pm_derivs m) <> 0) by (intros Z; apply length_zero_iff_nil in Z; contradiction). rewrite (proj2 (Nat.eqb_neq _ _) X). cbn [negb assert_ bind].
    rewrite Es. unfold vjp_direct. rewrite Ep. cbn [bind]. rewrite Ei. unfold at_ at 1. rewrite Er. cbn [bind].
    rewrite (Forall2_mapM _ (sg_in (jf_seg f)) ins).
    2: { clear - Fi. induction Fi as [|n t ns ts E F IH]; [constructor|constructor; [unfold at_; rewrite E; reflexivity|exact IH]]. }
    cbn [bind]. rewrite (spread_ok par pbase _ _ _ Fq). cbn [bind].
    rewrite (Forall2_mapM _ outs ws).
    2: { clear - Fw. induction Fw as [|n t ns ts E F IH]; [constructor|constructor; [rewrite E; reflexivity|exact IH]]. }
    cbn [bind]. rewrite Ea. cbn [bind]. rewrite Lg, Nat.eqb_refl. cbn [assert_ bind]. exact E.
  Qed.
  Lemma collapse_lead p pb stored lead (g : tensor V) : lookup p pbase = Some pb -> par p = Ok stored -> wf g -> t_shape g = lead ++ pb ->
    exists c, collapse sum par pbase p g = Ok c /\
      if Nat.ltb (length pb) (dim stored) then c = g
      else wf c /\ t_dev c = t_dev g /\ t_shape c = pb /\ forall y, index_of pb y -> elem c y = Some (over_batch sum lead (fun e => get (a_zero A) g (e ++ y))).
  Proof.
    intros Lp Ep W S. unfold collapse. rewrite Lp, Ep. cbn [bind]. destruct (Nat.ltb (length pb) (dim stored)); [eauto|].
    unfold dim. rewrite S, app_length. destruct lead as [|n lead'] eqn:ED.
    - cbn [length Nat.add]. rewrite Nat.leb_refl. exists g. split; [reflexivity|]. split; [exact W|]. split; [reflexivity|]. split; [exact S|]. intros y Iy. cbn [over_batch app]. unfold get.
      destruct (elem_some g y W) as [x E]; [rewrite S; exact Iy|]. rewrite E. reflexivity.
    - rewrite <- ED in *. replace (Nat.leb (length lead + length pb) (length pb)) with false by (symmetry; apply Nat.leb_gt; rewrite ED; cbn; lia).
      replace (length lead + length pb - length pb) with (length lead) by lia. destruct (sum_lead_ok A sum lead pb g W S) as (Ws & Ds & Ss & Es).
      eexists. split; [reflexivity|]. split; [exact Ws|]. split; [exact Ds|]. split; [exact Ss|]. intros y Iy. rewrite (Es y Iy). f_equal. rewrite ED. reflexivity.
  Qed.

  (** ** A missing cotangent is an error *)
  Lemma vjp_pairs_missing (cot : vmap) jac o p pairs : In (o, p) pairs -> lookup o cot = None -> forall grads, exists e, vjp_pairs A sum par pbase m cot jac pairs grads = Err e.
  Proof.
    intros I L. induction pairs as [|[o' p'] pairs IH]; intros grads; [destruct I|]. cbn [vjp_pairs]. destruct I as [I|I].
    - injection I as -> ->. unfold vjp_pair. cbn [fst]. rewrite L. cbn [bind]. eauto.
    - destruct (vjp_pair A sum par pbase m cot jac (o', p') grads) as [g|e]; cbn [bind]; [apply IH; exact I|eauto].
  Qed.
  Lemma mapM_fails {X Y} (f : X -> result Y) l x e : In x l -> f x = Err e -> exists e', mapM f l = Err e'.
  Proof.
    intros I E. induction l as [|y l IH]; [destruct I|]. cbn [mapM]. destruct I as [->|I]; [rewrite E; cbn [bind]; eauto|]. destruct (f y); cbn [bind]; [|eauto].
    destruct (IH I) as [e' ->]. cbn [bind]. eauto.
  Qed.
  Lemma missing_cotangent (I cot : vmap) o : lookup o cot = None ->
    (forall f pj pps adj outs ps, pm_segs m = [PF f pj pps (Some (adj, outs, ps))] -> In o outs) ->
    (~ single_adjoint m -> exists p, In (o, p) (pm_derivs m)) ->
    exists e, param_vjp A neg dot sum par pbase capture m I cot = Err e.
  Proof.
    intros L Ha Hn. unfold param_vjp. destruct (assert_ _ _); cbn [bind]; [|eauto].
    assert (C : (exists p, In (o, p) (pm_derivs m)) -> exists e, (let* (_, jac) := param_jacobian A neg dot par pbase capture m I in vjp_pairs A sum par pbase m cot jac (pm_derivs m) []) = Err e).
    { intros [p Ip]. destruct (param_jacobian _ _ _ _ _ _ _ _) as [[outs jac]|e]; cbn [bind]; [apply (vjp_pairs_missing cot jac o p); assumption|eauto]. }
    unfold single_adjoint in Hn. destruct (pm_segs m) as [|[f pj ps [[[adj ou] pa]|]|i dr s k ps] [|sg sgs]] eqn:Es; try (apply C, Hn; intros (? & ? & ? & ? & E); discriminate); [eauto|].
    unfold vjp_direct. destruct (prepare_inputs _ _); cbn [bind]; [|eauto]. destruct (match pm_inputs m with [] => _ | _ => _ end); cbn [bind]; [|eauto].
    destruct (mapM _ (sg_in (jf_seg f))); cbn [bind]; [|eauto]. destruct (mapM _ (sg_par (jf_seg f))); cbn [bind]; [|eauto].
    destruct (mapM_fails (fun o => match lookup o cot with Some t => Ok t | None => Err (Fatal "aoti::Model::param_vjp: missing cotangent for output") end) ou o (Fatal "aoti::Model::param_vjp: missing cotangent for output")) as [e' ->];
      [apply (Ha _ _ _ _ _ _ eq_refl)|rewrite L; reflexivity|]. cbn [bind]. eauto.
  Qed.
End Direct.

From Coq Require Import Ring_theory Ring.
From Verif Require Import SpecAlgebra AlgebraProofs JacExactProofs ParamExactProofs.

Section Exact.
  Context {V : Type}.
  Notation vmap := (smap (tensor V)).
  Variable A : arith V.
  Variable opp : V -> V.
  Hypothesis R : ring_theory (a_zero A) (a_one A) (a_add A) (a_mul A) (a_sub A) opp eq.
  Notation zero := (a_zero A).
  Notation add := (a_add A).
  Notation mul := (a_mul A).
  Notation dotx := (SpecAlgebra.dotx zero add mul).
  Notation sum := (SpecAlgebra.sum zero add).
  Variable par : string -> result (tensor V).
  Variable pbase : smap (list nat).
  Variable m : pmodel V.
  Variable D : list nat.
  Variable size : string -> nat.
  Variable d : device.

  Lemma directs_fst ps : forall (blks : list (tensor V)) e, length blks = length ps -> map fst (directs zero pbase D ps blks e) = map (fun q => (q_out q, q_param q)) ps.
  Proof using Type. unfold directs. induction ps as [|p ps IH]; intros [|t blks] e L; try discriminate; [reflexivity|]. injection L as L. cbn [combine map fst snd]. rewrite IH by exact L. reflexivity. Qed.
  Lemma directs_own ps : forall (blks : list (tensor V)) e k p t x c, NoDup (map (fun q => (q_out q, q_param q)) ps) -> nth_error ps k = Some p -> nth_error blks k = Some t ->
    own_coeff zero (directs zero pbase D ps blks e) (q_out p) (q_param p) x c = get zero t (e ++ index_at (skipn (length D) (t_shape t)) (x * pcols pbase p + c)).
  Proof using Type.
    induction ps as [|q ps IH]; intros [|u blks] e k p t x c N Hp Ht; try (destruct k; discriminate). unfold own_coeff, directs. cbn [combine map fst snd find]. destruct k as [|k].
    - injection Hp as ->. injection Ht as ->. rewrite !String.eqb_refl. cbn [andb]. reflexivity.
    - cbn [map] in N. apply NoDup_cons_iff in N as [Nq N]. assert (X : String.eqb (q_out q) (q_out p) && String.eqb (q_param q) (q_param p) = false).
      { destruct (String.eqb_spec (q_out q) (q_out p)) as [E1|]; [|reflexivity]. destruct (String.eqb_spec (q_param q) (q_param p)) as [E2|]; [|reflexivity]. exfalso. apply Nq.
        apply in_map_iff. exists p. split; [congruence|]. apply (nth_error_In ps k). exact Hp. }
      rewrite X. apply (IH blks e k p t x c N Hp Ht).
  Qed.
  Lemma single_chain_rule (l : list nat -> lin V) requested os ps (blks : list (tensor V)) (jac : smap vmap) :
    Forall2 (SpecParam.direct_ok pbase d D size requested os) ps blks -> NoDup (map (fun q => (q_out q, q_param q)) ps) ->
    (forall o p, In (o, p) (pm_derivs m) -> In (o, p) (map (fun q => (q_out q, q_param q)) ps)) ->
    (forall k p t, nth_error ps k = Some p -> nth_error blks k = Some t -> block jac (q_out p) (q_param p) = Some t /\
       forall ob pb, In (q_out p, ob) (pm_outs m) -> lookup (q_param p) pbase = Some pb -> t_shape t = D ++ ob ++ pb) ->
    param_chain_rule zero add dotx pbase m D d [fun e => mkPL (l e) (directs zero pbase D ps blks e)] jac.
  Proof using R.
    clear par. intros F N Q B o p ob pb Ip Io Lp. assert (Lb : length blks = length ps) by (symmetry; eapply ImplicitProofs.Forall2_length; exact F).
    specialize (Q o p Ip). apply In_nth_error in Q as [k Hk]. destruct (nth_error ps k) as [q|] eqn:Hq.
    2: { apply nth_error_None in Hq. assert (X : k < length (map (fun q => (q_out q, q_param q)) ps)) by (apply nth_error_Some; congruence). rewrite map_length in X. lia. }
    rewrite (map_nth_error _ _ _ Hq) in Hk. injection Hk as <- <-.
    assert (Ht : exists t, nth_error blks k = Some t /\ SpecParam.direct_ok pbase d D size requested os q t).
    { clear - F Hq. revert k Hq. induction F as [|a b ps blks Hab F IH]; intros [|k] H; try discriminate; [injection H as <-; exists b; split; [reflexivity|exact Hab]|exact (IH k H)]. }
    destruct Ht as (t & Ht & (_ & _ & _ & pb' & rest & _ & Wt & Dt & _)). destruct (B k q t Hq Ht) as [Eb Sh]. specialize (Sh ob pb Io Lp).
    exists t. split; [exact Eb|]. split; [exact Wt|]. split; [exact Dt|]. split; [exact Sh|]. intros e x y Ie Ix Iy. cbn [map rev app].
    rewrite (sens_single A opp R) by (cbn [pl_direct]; rewrite directs_fst by exact Lb; exact N). cbn [pl_direct].
    rewrite (directs_own ps blks e k q t _ _ N Hq Ht). unfold pcols. rewrite Lp, Sh, skipn_app, skipn_all, Nat.sub_diag. cbn [app skipn].
    rewrite <- ravel_app by (apply PackProofs.index_length; exact Ix). rewrite index_at_ravel by (apply index_app; assumption). unfold get.
    destruct (elem_some t (e ++ x ++ y) Wt) as [v ->]; [rewrite Sh; repeat apply index_app; assumption|reflexivity].
  Qed.

  (** ** Adjoint of the parameter Jacobian, whichever way the blocks were computed *)
  Lemma adjoint_ok_all neg capture (I st' outs cot dp r : vmap) jac lins :
    pevaluated zero neg par pbase m I D size d lins st' -> NoDup (pm_derivs m) -> ~ single_adjoint m -> pm_segs m <> [] ->
    param_jacobian A neg dotx par pbase capture m I = Ok (outs, jac) -> param_chain_rule zero add dotx pbase m D d lins jac ->
    (forall o p, In (o, p) (pm_derivs m) -> exists t, par p = Ok t) ->
    (forall o p ob, In (o, p) (pm_derivs m) -> In (o, ob) (pm_outs m) -> exists w, lookup o cot = Some w /\ wf w /\ t_dev w = d /\ t_shape w = D ++ ob) ->
    (forall o p pb, In (o, p) (pm_derivs m) -> lookup p pbase = Some pb -> exists t, lookup p dp = Some t /\ t_shape t = (if batched par p pb then D else []) ++ pb) ->
    pushed zero add mul pbase m D lins dp r ->
    exists grads, param_vjp A neg dotx sum par pbase capture m I cot = Ok grads /\
      (forall p, lookup p grads <> None <-> exists o, In (o, p) (pm_derivs m)) /\
      total_pairing zero add mul (firsts (map snd (pm_derivs m))) grads dp = total_pairing zero add mul (firsts (map fst (pm_derivs m))) cot r.
  Proof using R.
    intros ev Nd Na Ns Ej Ch Hp Hw Hd Hr. destruct ev as (_ & No & Ne & _ & Rq & i0 & rest & st & ref & known & sub & _ & _ & _ & _ & _ & _ & Run & _).
    assert (Lk : forall o ob, In (o, ob) (pm_outs m) -> lookup o (pm_outs m) = Some ob) by (intros o ob J; apply lookup_nodup; assumption).
    assert (Rd : forall o p, In (o, p) (pm_derivs m) -> contractible par pbase (pm_outs m) d D cot jac o p).
    { intros o p Ip. destruct (Rq o p Ip) as [[ob Io] [pb Lp]]. destruct (Hp o p Ip) as [sd Es]. destruct (Hw o p ob Ip Io) as (w & Lw & Ww & Dw & Sw).
      destruct (Ch o p ob pb Ip Io Lp) as (t & Et & Wt & Dt & St & _). exists ob, pb, w, t, sd. rewrite (Lk o ob Io). auto 20. }
    destruct (param_vjp_ok A sum par pbase m d D cot jac No neg dotx capture I outs Ne Ns Na Ej Rd) as (grads & Eg & Kg & Pg).
    exists grads. split; [exact Eg|]. split; [exact Kg|]. unfold total_pairing.
    assert (Ips : forall p, In p (firsts (map snd (pm_derivs m))) <-> exists o, In (o, p) (pm_derivs m)).
    { intros p. rewrite firsts_in, in_map_iff. split; [intros [[o q] [E J]]; cbn in E; subst; eauto|intros [o J]; exists (o, p); auto]. }
    assert (Ios : forall o, In o (firsts (map fst (pm_derivs m))) <-> exists p, In (o, p) (pm_derivs m)).
    { intros o. rewrite firsts_in, in_map_iff. split; [intros [[q p] [E J]]; cbn in E; subst; eauto|intros [p J]; exists (o, p); auto]. }
    assert (Gr : forall p, In p (firsts (map snd (pm_derivs m))) -> exists g pb, lookup p grads = Some g /\ lookup p pbase = Some pb /\
                   gradient_ok add sum D pb (batched par p pb) d (outs_of (pm_derivs m) p) (cotangent_term zero mul sum (pm_outs m) cot jac p) g).
    { intros p J. apply Ips in J. apply Kg in J. destruct (lookup p grads) as [g|] eqn:E; [|congruence]. destruct (Pg p g E) as (pb & Lp & G). exists g, pb. auto. }
    rewrite (adjoint_identity A opp R par pbase (pm_outs m) (pm_derivs m) D d cot jac grads dp (fun e => rev (map (fun l => l e) lins)) Nd
               (firsts (map snd (pm_derivs m))) (firsts (map fst (pm_derivs m))) (firsts_nodup _) (firsts_nodup _) Ips Ios Rd).
    - f_equal. apply map_ext_in. intros o Jo. apply Ios in Jo as [p Ip]. destruct (Rq o p Ip) as [[ob Io] _]. destruct (Hw o p ob Ip Io) as (w & Lw & _ & _ & Sw).
      destruct (Hr o p ob Ip Io) as (t & Lt & St & Et). rewrite Lw, Lt. unfold pairing. rewrite Sw, indices_app. unfold osize. rewrite (Lk o ob Io).
      rewrite map_flat, (sum_flat A opp R). f_equal. apply map_ext_in. intros e Ie. f_equal. rewrite map_map. apply map_ext_in. intros x Ix.
      apply indices_ok in Ie, Ix. unfold wt. rewrite Lw. f_equal. unfold get. rewrite (Et e x Ie Ix). reflexivity.
    - intros o p ob pb t Ip Lo Lp Eb. destruct (Rq o p Ip) as [[ob' Io] _]. pose proof (Lk o ob' Io) as X. rewrite Lo in X. injection X as <-.
      destruct (Ch o p ob pb Ip Io Lp) as (t' & Eb' & _ & _ & _ & P). rewrite Eb in Eb'. injection Eb' as <-. exact P.
    - intros e l o n k _ Il Id. apply firsts_in. eapply plinear_direct; [exact Run| |exact Id]. apply in_rev in Il. exact Il.
    - exact Gr.
    - intros p g J Lg. destruct (Gr p J) as (g' & pb & Lg' & Lp & (_ & _ & Gs)). rewrite Lg in Lg'. injection Lg' as <-. apply Ips in J as [o Ip].
      destruct (Hd o p pb Ip Lp) as (t & Lt & St). exists t. split; [exact Lt|]. rewrite St. destruct (batched par p pb); destruct Gs as [-> _]; reflexivity.
  Qed.
End Exact.
