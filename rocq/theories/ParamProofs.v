(** The parameter carrier (ParamJac.v) against the chain rule with parameters (SpecParam.v). *)
From Verif Require Import Base BaseProofs SmapProofs Tensor Spec TensorProofs Broadcast SpecBroadcast BroadcastProofs Pack PackProofs
     Implicit ImplicitProofs BatchChunk Substep Mat Jac SubstepJac JacModel ParamJac SpecLayout LayoutProofs SpecJac SpecParam MatProofs JacProofs JacRunProofs JacMainProofs.

Lemma lookup_vmap {T U} (f : T -> U) k (m : smap T) : lookup k (vmap_ f m) = option_map f (lookup k m).
Proof. induction m as [|[j t] m IH]; [reflexivity|]. cbn. destruct (String.eqb k j); [reflexivity|exact IH]. Qed.

Section Band.
  Context {V : Type}.
  Variable A : arith V.
  Lemma add_band_ok (t blk : tensor V) D n M off len : wf t -> wf blk -> t_shape t = D ++ [n; M] -> t_shape blk = D ++ [n; len] ->
    t_dev t = t_dev blk -> off + len <= M ->
    exists u, add_band A t off len blk = Ok u /\ wf u /\ t_dev u = t_dev t /\ t_shape u = t_shape t /\
      forall e r c x, index_of D e -> r < n -> c < M -> elem t (e ++ [r; c]) = Some x ->
        (Nat.leb off c && Nat.ltb c (off + len) = false -> elem u (e ++ [r; c]) = Some x) /\
        (forall y, Nat.leb off c && Nat.ltb c (off + len) = true -> elem blk (e ++ [r; c - off]) = Some y -> elem u (e ++ [r; c]) = Some (a_add A x y)).
  Proof.
    intros W Wb S Sb Dv L. unfold add_band. assert (S' : t_shape t = (D ++ [n]) ++ [M]) by (rewrite S, <- app_assoc; reflexivity).
    destruct (narrow_last_ok t (D ++ [n]) M off len W S' L) as [cur [-> [Wc [Dc [Sc Ec]]]]]. cbn [bind]. rewrite <- app_assoc in Sc. cbn [app] in Sc.
    destruct (zip_bcast_same (a_add A) cur blk Wc Wb) as [s [-> [Ws [Ds [Ss Es]]]]]; [congruence|congruence|]. cbn [bind].
    destruct (copy_band_lead t s D D n M off len W Ws S) as [u [-> [Wu [Du [Su Eu]]]]]; [congruence|apply broadcastable_refl|exact L|].
    exists u. split; [reflexivity|]. split; [exact Wu|]. split; [exact Du|]. split; [exact Su|]. intros e r c x Ie Hr Hc Ex.
    rewrite (Eu e r c Ie Hr Hc). split.
    - intros ->. exact Ex.
    - intros y B Ey. rewrite B. rewrite pull_refl by exact Ie. apply Es; [|exact Ey].
      apply andb_true_iff in B as [B1 B2]. apply Nat.leb_le in B1. apply Nat.ltb_lt in B2.
      replace (e ++ [r; c - off]) with ((e ++ [r]) ++ [c - off]) by (rewrite <- app_assoc; reflexivity).
      rewrite Ec; [|apply index_app; [exact Ie|repeat constructor; exact Hr]|lia]. rewrite <- app_assoc. cbn [app]. replace (off + (c - off)) with c by lia. exact Ex.
  Qed.
End Band.

Section Param.
  Context {V : Type}.
  Notation vmap := (smap (tensor V)).
  Variable A : arith V.
  Variable neg : V -> V.
  Variable dot : list V -> list V -> V.
  Variable par : string -> result (tensor V).
  Variable pbase : smap (list nat).
  Variable capture : bool.
  Variable d : device.
  Variable D : list nat.
  Variable size : string -> nat.
  Variable pairs : list (string * string).
  Variables (b : bands) (P : nat).
  Hypothesis lay : layout (param_size pbase) pairs = Ok (b, P).
  Notation base_ndim := (vmap_ (@length nat) pbase).
  Notation holds := (holds d D size P (column b)).
  Notation directs := (directs (a_zero A) pbase D).
  Notation direct_ok := (direct_ok pbase d D size (map snd pairs)).

  Lemma pcol_lt m i c : column b m i c -> m < P.
  Proof. destruct (layout_partition _ _ _ _ lay) as (_ & H & _). apply H. Qed.
  Lemma pband p pb : In p (map snd pairs) -> lookup p pbase = Some pb -> exists off, lookup p b = Some (off, numel pb) /\ off + numel pb <= P.
  Proof.
    intros I Lp. destruct (layout_partition _ _ _ _ lay) as (_ & B & K & S). apply in_map_iff in I as [[o p'] [E I]]. cbn in E. subst p'.
    destruct (proj2 (K p)) as [[off s] L]; [eauto|]. pose proof (S _ _ _ L) as E. unfold param_size in E. rewrite Lp in E. injection E as <-.
    exists off. split; [exact L|]. destruct (add_bands_good _ _ _ _ _ _ (good_nil _) lay) as ((_ & Bd & _) & _). destruct (Bd _ _ _ L). assumption.
  Qed.
  Lemma in_band p off s m i c : lookup p b = Some (off, s) -> column b m i c ->
    Nat.leb off m && Nat.ltb m (off + s) = String.eqb p i /\ (p = i -> m - off = c /\ c < s).
  Proof.
    intros L (oi & si & Li & Hc & Em). destruct (String.eqb_spec p i) as [<-|N].
    - rewrite L in Li. injection Li as <- <-. split; [|intros _; split; lia]. apply andb_true_iff. split; [apply Nat.leb_le|apply Nat.ltb_lt]; lia.
    - split; [|congruence]. destruct (add_bands_good _ _ _ _ _ _ (good_nil _) lay) as ((_ & _ & Dj & _) & _).
      apply andb_false_iff. destruct (Dj _ _ _ _ _ _ L Li N); [right; apply Nat.ltb_ge|left; apply Nat.leb_gt]; lia.
  Qed.

  Definition plus_direct (q : string * string * (nat -> nat -> V)) (x : V) (v : string) (r : nat) (p : string) (c : nat) : V :=
    let '(o, n, k) := q in if String.eqb o v && String.eqb n p then a_add A x (k r c) else x.
  Definition direct_field (qs : list nat -> list (string * string * (nat -> nat -> V))) (F : @field V) : @field V :=
    fun e v r p c => fold_left (fun a q => plus_direct q a v r p c) (qs e) (F e v r p c).

  Lemma add_one names (dp : vmap) F p blk outs : holds names dp F -> incl outs names -> direct_ok outs p blk ->
    exists f t s off sz, lookup (q_param p) b = Some (off, sz) /\ reshape blk (D ++ [numel (q_out_base p); sz]) = Ok f /\ lookup (q_out p) dp = Some t /\
      add_band A t off sz f = Ok s /\ holds names (set_ (q_out p) s dp) (direct_field (directs [p] [blk]) F).
  Proof.
    intros H Io (Io' & Ip & So & pb & rest & Lp & Wb & Db & Sb & Nr). destruct (pband _ _ Ip Lp) as [off [Lb Bd]].
    destruct (H _ (Io _ Io')) as [t [Lt (Wt & Dt & St & Et)]].
    assert (Nb : numel (D ++ [numel (q_out_base p); numel pb]) = numel (t_shape blk)) by (rewrite Sb, !numel_app, numel2, Nr, So; reflexivity).
    destruct (add_band_ok A t (mkT (D ++ [numel (q_out_base p); numel pb]) (t_data blk) (t_dev blk)) D (size (q_out p)) P off (numel pb) Wt) as [s [Es [Ws [Ds [Ss Ee]]]]];
      [apply (reshape_wf blk); assumption|exact St|cbn [t_shape]; rewrite So; reflexivity|cbn [t_dev]; congruence|exact Bd|].
    exists (mkT (D ++ [numel (q_out_base p); numel pb]) (t_data blk) (t_dev blk)), t, s, off, (numel pb).
    split; [exact Lb|]. split; [apply reshape_ok; exact Nb|]. split; [exact Lt|]. split; [exact Es|].
    intros v Iv. destruct (String.string_dec v (q_out p)) as [->|N].
    - exists s. rewrite lookup_set_same. split; [reflexivity|]. split; [exact Ws|]. split; [congruence|]. split; [congruence|].
      intros e r m i c Ie Hr Hc. destruct (in_band _ _ _ _ _ _ Lb Hc) as [Bm Bi]. pose proof (pcol_lt _ _ _ Hc) as Hm.
      destruct (Ee e r m _ Ie Hr Hm (Et e r m i c Ie Hr Hc)) as [E1 E2]. unfold direct_field, SpecParam.directs. cbn [combine map fold_left fst snd plus_direct].
      rewrite String.eqb_refl. cbn [andb]. destruct (String.eqb_spec (q_param p) i) as [Ei|Ni].
      + destruct (Bi Ei) as [<- Hcs]. apply E2; [exact Bm|]. unfold pcols. rewrite Lp, Sb, skipn_app, skipn_all, Nat.sub_diag. cbn [skipn app].
        assert (Hk : r * numel pb + (m - off) < numel rest) by (rewrite Nr; nia). destruct (index_at_ok rest _ Hk) as [Ir Rr].
        rewrite (elem_reshape blk _ (e ++ [r; m - off]) (e ++ index_at rest (r * numel pb + (m - off)))).
        * unfold get. destruct (elem_some blk (e ++ index_at rest (r * numel pb + (m - off))) Wb) as [x ->]; [rewrite Sb; apply index_app; assumption|reflexivity].
        * rewrite Sb, !ravel_app by (apply BroadcastProofs.index_length; exact Ie). rewrite numel2, ravel2, Rr, Nr, So. reflexivity.
      + apply E1. rewrite Bm. reflexivity.
    - rewrite lookup_set_other by exact N. destruct (H v Iv) as [u [Lu Cu]]. exists u. split; [exact Lu|]. revert Cu. apply carries_ext. intros.
      unfold direct_field, SpecParam.directs. cbn [combine map fold_left fst snd plus_direct]. replace (String.eqb (q_out p) v) with false by (symmetry; apply String.eqb_neq; congruence). reflexivity.
  Qed.
  Lemma add_direct_ok names outs ps blks : incl outs names -> Forall2 (direct_ok outs) ps blks -> forall (dp : vmap) F, holds names dp F ->
    exists dp', add_direct A b D ps blks dp = Ok dp' /\ holds names dp' (direct_field (directs ps blks) F).
  Proof.
    intros Io Fo. induction Fo as [|p blk ps blks Hp Fo IH]; intros dp F H; [exists dp; split; [reflexivity|exact H]|].
    destruct (add_one names dp F p blk outs H Io Hp) as (f & t & s & off & sz & Lb & Ef & Lt & Es & H'). cbn [add_direct].
    unfold at_. rewrite Lb. cbn [bind fst snd]. rewrite Ef. cbn [bind]. rewrite Lt. cbn [bind]. rewrite Es. cbn [bind].
    destruct (IH _ _ H') as [dp' [E H'']]. exists dp'. split; [exact E|exact H''].
  Qed.

  Lemma spread_ok qs ts : Forall2 (spread par pbase D) qs ts -> mapM (param_in par pbase D) qs = Ok ts.
  Proof.
    intros F. apply Forall2_mapM. induction F as [|q t qs ts (p & pb & E1 & E2 & E3) F IH]; constructor; [|exact IH].
    unfold param_in. rewrite E1. cbn [bind]. unfold at_. rewrite E2. exact E3.
  Qed.
  Lemma slice_param_ok x p t pb : In (q_param p) (map snd pairs) -> lookup (q_param p) pbase = Some pb -> pslice_of neg pbase x p t ->
    slice_param b (negate neg x) p = Ok t.
  Proof.
    intros Ip Lp (lead & n & m & Sx & Wx & Wt & Dv & Hr & Hc & St & E). unfold slice_param. destruct (pband _ _ Ip Lp) as [off [Lb _]].
    unfold at_. rewrite Lb. cbn [bind snd]. unfold pcols in *. rewrite Lp in *.
    assert (Wn : wf (negate neg x)) by (unfold wf, negate; cbn [t_shape t_data]; rewrite map_length; exact Wx).
    destruct (narrow_rows_ok (negate neg x) lead n m (q_row p) (numel (q_out_base p)) Wn Sx Hr) as [u [-> [Wu [Du [Su Eu]]]]]. cbn [bind].
    assert (Su' : t_shape u = (lead ++ [numel (q_out_base p)]) ++ [m]) by (rewrite Su, <- app_assoc; reflexivity).
    destruct (narrow_last_ok u _ m (q_col p) (numel pb) Wu Su' Hc) as [w [-> [Ww [Dw [Sw Ew]]]]]. f_equal.
    rewrite <- app_assoc in Sw. cbn [app] in Sw. apply tensor_ext; [exact Ww|exact Wt|congruence|rewrite Dw, Du; cbn [negate t_dev]; congruence|].
    intros idx I. rewrite Sw in I. apply index_split in I as [e [j [-> [Ib Ij]]]].
    inversion Ij as [|r ? j' ? Hr' Ij']; subst. inversion Ij' as [|c ? j'' ? Hc' Ij'']; subst. inversion Ij''; subst.
    rewrite E by assumption. replace (e ++ [r; c]) with ((e ++ [r]) ++ [c]) by (rewrite <- app_assoc; reflexivity).
    rewrite (Ew (e ++ [r]) c); [|apply index_app; [exact Ib|constructor; [exact Hr'|constructor]]|exact Hc']. rewrite <- app_assoc. cbn [app].
    rewrite Eu by (try assumption; lia). apply negate_elem.
  Qed.

  Notation chain := (fun ls : list (list nat -> plin V) => (fun e v r p c => param_sensitivity (a_zero A) (a_add A) dot (map (fun l => l e) ls) v p r c) : @field V).
  Notation lined_field := (lin_field (a_zero A) (a_add A) dot).
  Lemma pchain_cons l ls e v r p c : direct_field (fun e => pl_direct (l e)) (lined_field (fun e => pl_lin (l e)) (chain ls)) e v r p c = chain (l :: ls) e v r p c.
  Proof.
    unfold direct_field, lin_field. cbn [map param_sensitivity]. set (x := if existsb _ _ then _ else _). clearbody x. revert x.
    induction (pl_direct (l e)) as [|[[o n] k] qs IH]; intros x; [reflexivity|]. cbn [fold_left plus_direct]. apply IH.
  Qed.

  Notation plined := (plinearised (a_zero A) neg par pbase d D size (map snd pairs)).
  Notation step := (pstep A neg dot par pbase capture b P D d).

  Lemma lined_outs known (st : vmap) sg l known' st' : linearised (a_zero A) neg par base_ndim d D D size known st sg l known' st' ->
    incl (match sg with JF f => sg_out (jf_seg f) | JI i => map v_name (is_unknowns (ji_seg i)) end) known'.
  Proof. intros L. destruct L; apply incl_appl, incl_refl. Qed.
  Lemma lined_reads known (st : vmap) f l known' st' n : linearised (a_zero A) neg par base_ndim d D D size known st (JF f) l known' st' ->
    ~ In n (sg_out (jf_seg f)) -> lookup n st' = lookup n st.
  Proof.
    intros L N. inversion L as [? jvp ins ps outs blks|? ? ? ? ? ? E|?|?]; subst; [apply set_all_other; exact N|].
    unfold run_forward_segment in E. destruct (mapM _ (sg_in (jf_seg f))); cbn [bind] in E; [|discriminate].
    destruct (mapM _ (sg_par (jf_seg f))); cbn [bind] in E; [|discriminate]. destruct (sg_run _ _); cbn [bind] in E; [|discriminate].
    destruct (assert_ _ _); cbn [bind] in E; [|discriminate]. injection E as <-. apply set_all_other. exact N.
  Qed.

  Lemma forward_part known (st : vmap) f l known' st' F (dp : vmap) :
    linearised (a_zero A) neg par base_ndim d D D size known st (JF f) l known' st' -> holds known dp F ->
    exists dp', (match jf_jvp f with
                 | Some jvp => run_forward_jacobian (a_zero A) (a_add A) dot par base_ndim (jf_seg f) jvp (jf_pairs f) D st dp
                 | None =>
                     let* st := run_forward_segment par base_ndim (jf_seg f) D st in
                     let* szs := mapM (fun n => let* t := at_ n st in Ok (n, size_by_numel D t)) (sg_out (jf_seg f)) in
                     Ok (st, zero_fill A szs D P d dp)
                 end) = Ok (st', dp') /\ holds known' dp' (lined_field l F).
  Proof. intros L H. exact (step_ok A neg dot par base_ndim capture d D D size P (column b) pcol_lt known st (JF f) l known' st' F dp L H). Qed.
  Lemma implicit_part known (st : vmap) i l known' st' F (dp : vmap) :
    linearised (a_zero A) neg par base_ndim d D D size known st (JI i) l known' st' -> holds known dp F ->
    exists dp' st1 gs ps us u, fst (prepare_solve (a_zero A) par (ji_seg i) st) = Ok (st1, gs, ps, us) /\ is_solve (ji_seg i) gs ps us = Ok u /\
      run_implicit_groups A par capture (ji_seg i) st = Ok (st', (u, gs)) /\
      (match ji_given i with
       | Some given => run_implicit_jacobian (a_zero A) (a_add A) neg dot par i given u gs dp
       | None => Ok (zero_fill A (map (fun u => (v_name u, var_size u)) (is_unknowns (ji_seg i))) D P d dp)
       end) = Ok dp' /\ holds known' dp' (lined_field l F).
  Proof.
    intros L H. destruct (step_ok A neg dot par base_ndim capture d D D size P (column b) pcol_lt known st (JI i) l known' st' F dp L H) as [dp' [E H']].
    cbn [jac_step] in E. inversion L as [?|?|? given st1 gs ps us u ? As rest Bs blks Eg El Ep Es Eu|? cap ? Eg Eb El Er]; subst.
    - exists dp', st1, gs, ps, us, u. split; [exact Ep|]. split; [exact Es|]. rewrite Eg, El in E. cbn [Nat.ltb Nat.leb] in E.
      assert (G : run_implicit_groups A par capture (ji_seg i) st = Ok (st', (u, gs))) by (unfold run_implicit_groups; rewrite Ep; cbn [bind]; rewrite Es, Eu; reflexivity).
      split; [exact G|]. rewrite G in E. cbn [bind fst snd] in E. rewrite Eg. destruct (run_implicit_jacobian _ _ _ _ _ _ _ _ _ _); cbn [bind] in E; [|discriminate].
      injection E as <-. split; [reflexivity|exact H'].
    - rewrite Eg, El in E. cbn [Nat.ltb Nat.leb] in E. unfold run_implicit_groups, run_implicit in *.
      destruct (fst (prepare_solve (a_zero A) par (ji_seg i) st)) as [[[[st1 gs] ps] us]|]; [|discriminate]. cbn [bind] in *.
      destruct (is_solve (ji_seg i) gs ps us) as [u|[]] eqn:Es; cbn [bind] in *; try discriminate.
      + exists dp', st1, gs, ps, us, u. split; [reflexivity|]. split; [exact Es|]. rewrite Er in E |- *. cbn [bind rmap fst] in E |- *. split; [reflexivity|]. rewrite Eg.
        injection E as <-. split; [reflexivity|exact H'].
      + destruct cap; [|discriminate]. destruct (is_solve_masked (ji_seg i) gs ps us); cbn [bind] in Er; [|discriminate].
        destruct (unpack_groups _ _ _); cbn [bind] in Er; [|discriminate]. destruct (mapM _ _); discriminate.
  Qed.

  Lemma pstep_ok known (st : vmap) sg l known' st' ls (dp : vmap) : plined known st sg l known' st' -> holds known dp (chain ls) ->
    exists dp', step sg st dp = Ok (st', dp') /\ holds known' dp' (chain (l :: ls)).
  Proof.
    intros L H.
    assert (N0 : forall l0, holds known' (l0 : vmap) (lined_field (fun e => pl_lin (l e)) (chain ls)) -> (forall e, pl_direct (l e) = []) -> holds known' l0 (chain (l :: ls))).
    { intros l0 H0 E. revert H0. apply holds_ext. intros. rewrite <- pchain_cons. unfold direct_field. rewrite E. reflexivity. }
    assert (N1 : forall l0, holds known' (l0 : vmap) (direct_field (fun e => pl_direct (l e)) (lined_field (fun e => pl_lin (l e)) (chain ls))) -> holds known' l0 (chain (l :: ls))).
    { intros l0. apply holds_ext. intros. apply pchain_cons. }
    destruct L as [f ps vjp l known' st' L|f g ps vjp l known' st' ins qs blks L Dj Fi Fq Eg Fo|i solve krylov ps l known' st' L|i g solve krylov ps l known' st' st1 gs prm us u qs op blks L Ep Es Fq Eg Du Fo].
    - cbn [pstep]. destruct (forward_part _ _ _ _ _ _ _ dp L H) as [dp' [-> H']]. cbn [bind]. exists dp'. split; [reflexivity|]. apply N0; [exact H'|reflexivity].
    - cbn [pstep]. destruct (forward_part _ _ _ _ _ _ _ dp L H) as [dp1 [-> H1]]. cbn [bind]. unfold add_forward_param.
      rewrite (Forall2_mapM _ (sg_in (jf_seg f)) ins).
      2: { assert (Q : forall n, In n (sg_in (jf_seg f)) -> lookup n st' = lookup n st) by (intros n I; apply (lined_reads _ _ _ _ _ _ n L), Dj, I).
           clear - Fi Q. induction Fi as [|n t ns ts E Fi IH]; constructor; [unfold at_; rewrite Q, E by (left; reflexivity); reflexivity|apply IH; intros; apply Q; right; assumption]. }
      cbn [bind]. rewrite (spread_ok _ _ Fq). cbn [bind]. rewrite Eg. cbn [bind]. rewrite <- (Forall2_length _ _ _ Fo), Nat.eqb_refl. cbn [assert_ bind].
      destruct (add_direct_ok known' _ ps blks (lined_outs _ _ _ _ _ _ L) Fo dp1 _ H1) as [dp' [-> H']]. cbn [bind]. exists dp'. split; [reflexivity|]. apply N1. exact H'.
    - cbn [pstep]. destruct (implicit_part _ _ _ _ _ _ _ dp L H) as (dp' & st1 & gs & prm & us & u & Ep & Es & -> & E & H'). cbn [bind fst snd]. rewrite E. cbn [bind].
      exists dp'. split; [reflexivity|]. apply N0; [exact H'|reflexivity].
    - cbn [pstep]. destruct (implicit_part _ _ _ _ _ _ _ dp L H) as (dp1 & st1' & gs' & prm' & us' & u' & Ep' & Es' & -> & E & H1). cbn [bind fst snd]. rewrite E. cbn [bind].
      rewrite Ep in Ep'. injection Ep' as <- <- <- <-. rewrite Es in Es'. injection Es' as <-.
      unfold add_implicit_param, param_ift_blocks. rewrite (spread_ok _ _ Fq). cbn [bind]. rewrite Eg. cbn [bind].
      assert (Eb : match krylov with
                   | Some ksolve => match op with
                                    | a :: rhs :: _ => let* x := ksolve a rhs in mapM (slice_param b (negate neg x)) ps
                                    | _ => Err (Fatal "aoti::Model: dr_dparam loader must emit (A_dense, dr_dparam).")
                                    end
                   | None => match solve with Some s => s op | None => Err (OtherExn 0) end
                   end = Ok blks).
      { destruct Du as [s blks Eq|s k a rhs rst x blks -> Ek Fs]; [exact Eq|]. rewrite Ek. cbn [bind]. apply Forall2_mapM.
        clear - Fs Fo lay. induction Fs as [|p t ps blks Hs Fs IH]; [constructor|]. inversion Fo as [|? ? ? ? (_ & Ip & _ & pb & _ & Lp & _) Fo']; subst.
        constructor; [eapply slice_param_ok; eassumption|apply IH; exact Fo']. }
      rewrite Eb. cbn [bind]. rewrite <- (Forall2_length _ _ _ Fo), Nat.eqb_refl. cbn [assert_ bind].
      destruct (add_direct_ok known' _ ps blks (lined_outs _ _ _ _ _ _ L) Fo dp1 _ H1) as [dp' [-> H']]. cbn [bind]. exists dp'. split; [reflexivity|]. apply N1. exact H'.
  Qed.
  Lemma prun_ok known (st : vmap) sgs lins known' st' : plinear_run (a_zero A) neg par pbase d D size (map snd pairs) known st sgs lins known' st' ->
    forall ls (dp : vmap), holds known dp (chain ls) ->
    exists dp', psteps A neg dot par pbase capture b P D d sgs st dp = Ok (st', dp') /\ holds known' dp' (chain (rev lins ++ ls)).
  Proof.
    intros R. induction R as [known st|known st sg l known1 st1 sgs lins known' st' L R IH]; intros ls dp H.
    - exists dp. split; [reflexivity|exact H].
    - cbn [psteps]. destruct (pstep_ok _ _ _ _ _ _ ls dp L H) as [dp1 [-> H1]]. cbn [bind].
      destruct (IH (l :: ls) dp1 H1) as [dp' [E H']]. exists dp'. split; [exact E|]. cbn [rev]. rewrite <- app_assoc. exact H'.
  Qed.

  Lemma seed_zeros_ok infos : (forall i, In i infos -> size (in_name i) = numel (in_sub i) * numel (in_base i)) -> forall done (dp : vmap), holds done dp (chain []) ->
    holds (map in_name infos ++ done) (seed_zeros A infos P D d dp) (chain []).
  Proof.
    induction infos as [|i infos IH]; intros S done dp H; [exact H|]. cbn [map seed_zeros app].
    assert (Q : incl (in_name i :: map in_name infos ++ done) (map in_name infos ++ in_name i :: done)) by (intros x [<-|J]; [apply in_or_app; right; left; reflexivity|apply in_app_or in J as [J|J]; apply in_or_app; [left|right; right]; exact J]).
    apply (holds_incl _ _ _ _ _ _ _ _ _ Q). apply IH; [intros; apply S; right; assumption|]. apply holds_set; [exact H|]. rewrite <- (S i (or_introl eq_refl)).
    apply zeros_carries. exact pcol_lt.
  Qed.
End Param.
