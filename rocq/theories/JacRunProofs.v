(** The Jacobian run over the segments (JacModel.v) against the linearised run (SpecJac.v). *)
From Verif Require Import Base BaseProofs SmapProofs Tensor Spec TensorProofs Broadcast SpecBroadcast BroadcastProofs Pack PackProofs
     Implicit ImplicitProofs BatchChunk Substep Mat Jac SubstepJac JacModel SpecJac MatProofs JacProofs.

Section Run.
  Context {V : Type}.
  Notation vmap := (smap (tensor V)).
  Variable A : arith V.
  Variable neg : V -> V.
  Variable dot : list V -> list V -> V.
  Variable par : string -> result (tensor V).
  Variable base_ndim : smap nat.
  Variable capture : bool.
  Variable d : device.
  Variables D batch : list nat.
  Variable size : string -> nat.
  Variable M : nat.
  Variable col : nat -> string -> nat -> Prop.
  Hypothesis col_lt : forall m i c, col m i c -> m < M.

  Notation holds := (holds d D size M col).
  Notation chain := (chain_field (a_zero A) (a_add A) dot (a_one A)).
  Notation lined_field := (lin_field (a_zero A) (a_add A) dot).
  Notation step := (jac_step A neg dot par base_ndim capture batch M d).
  Notation lined := (linearised (a_zero A) neg par base_ndim d D batch size).

  Lemma lin_ext known (ds : vmap) l l' F : (forall b, l b = l' b) -> holds known ds (lined_field l F) -> holds known ds (lined_field l' F).
  Proof. intros E. apply holds_ext. intros. unfold lin_field. rewrite E. reflexivity. Qed.

  Lemma forward_step known (st : vmap) f jvp ins ps outs blks (F : field) (ds : vmap) :
    jf_jvp f = Some jvp -> sg_in (jf_seg f) <> [] -> incl (sg_in (jf_seg f)) known ->
    Forall2 (fun n t => lookup n st = Some t) (sg_in (jf_seg f)) ins ->
    Forall2 (fun q t => exists p nd, par q = Ok p /\ lookup q base_ndim = Some nd /\ broadcast_param p batch nd = Ok t) (sg_par (jf_seg f)) ps ->
    jvp (ins ++ ps) = Ok (outs ++ blks) ->
    Forall2 (sized d D size) (sg_out (jf_seg f)) outs ->
    Forall2 (fun p t => In (p_in p) known /\ In (p_out p) (sg_out (jf_seg f)) /\ block_ok d D size p t) (jf_pairs f) blks ->
    holds known ds F ->
    exists ds', step (JF f) st ds = Ok (set_all (sg_out (jf_seg f)) outs st, ds') /\
      holds (sg_out (jf_seg f) ++ known) ds' (lined_field (forward_lin f blks) F).
  Proof.
    intros Ej Ne In_k Fi Fp Er Fo Fb H. cbn [jac_step]. rewrite Ej. unfold run_forward_jacobian.
    rewrite (Forall2_mapM _ (sg_in (jf_seg f)) ins).
    2: { clear - Fi. induction Fi as [|n t ns ts E F IH]; constructor; [rewrite E; reflexivity|exact IH]. }
    cbn [bind]. rewrite (Forall2_mapM _ (sg_par (jf_seg f)) ps).
    2: { clear - Fp. induction Fp as [|n t ns ts (p & nd & E1 & E2 & E3) F IH]; constructor; [|exact IH]. rewrite E1. cbn [bind]. unfold at_. rewrite E2. exact E3. }
    cbn [bind]. rewrite Er. cbn [bind]. pose proof (Forall2_length _ _ _ Fo) as Lo. pose proof (Forall2_length _ _ _ Fb) as Lb.
    rewrite app_length, Lo, Lb, Nat.eqb_refl. cbn [assert_ bind].
    rewrite firstn_app, Nat.sub_diag, firstn_all. cbn [firstn]. rewrite app_nil_r.
    rewrite skipn_app, Nat.sub_diag, skipn_all. cbn [skipn app].
    destruct (sg_in (jf_seg f)) as [|i0 rest] eqn:Ei; [contradiction|].
    destruct (H i0 (In_k i0 (or_introl eq_refl))) as [d0 [-> C0]]. erewrite carries_carrier by exact C0. cbn [bind].
    assert (Hz : holds (sg_out (jf_seg f)) (zero_outputs (a_zero A) (sg_out (jf_seg f)) outs D M []) (fun _ _ _ _ _ => a_zero A)).
    { pose proof (zero_outputs_ok (a_zero A) d D size M col col_lt _ _ Fo [] []) as Z. rewrite app_nil_r in Z. apply Z. intros v []. }
    destruct (add_pairs_ok (a_add A) dot d D size M col col_lt known (sg_out (jf_seg f)) ds F _ _ H Fb _ _ Hz) as [acc [-> Ha]].
    cbn [bind]. destruct (move_all_ok d D size M col known acc F _ (sg_out (jf_seg f)) ds [] Ha H) as [ds' [-> Hm]].
    cbn [bind]. exists ds'. split; [reflexivity|]. cbn [app] in Hm.
    set (rows := map (fun pt : pair_info * tensor V => (fst pt, block_row (fst pt) (snd pt))) (combine (jf_pairs f) blks)).
    apply (lin_ext _ _ (fun b => mkLin (sg_out (jf_seg f)) (map (fun q => (p_out (fst q), p_in (fst q), snd q b)) rows))).
    - intros b. unfold forward_lin, rows. rewrite map_map. reflexivity.
    - apply segment_field. revert Hm. unfold rows. rewrite map_map. cbn [fst snd]. apply holds_ext. reflexivity.
  Qed.

  Lemma zero_fill_ok names : forall done known (ds : vmap) S,
    holds known ds (fun b v => if existsb (String.eqb v) done then (fun _ _ _ => a_zero A) else S b v) ->
    holds (names ++ known) (zero_fill A (map (fun n => (n, size n)) names) D M d ds)
          (fun b v => if existsb (String.eqb v) (done ++ names) then (fun _ _ _ => a_zero A) else S b v).
  Proof.
    induction names as [|n names IH]; intros done known ds S H; [rewrite app_nil_r; exact H|]. cbn [map zero_fill].
    assert (Q : incl (n :: names ++ known) (names ++ n :: known)) by (intros x [<-|J]; [apply in_or_app; right; left; reflexivity|apply in_app_or in J as [J|J]; apply in_or_app; [left|right; right]; exact J]).
    apply (holds_incl _ _ _ _ _ _ _ _ _ Q). replace (done ++ n :: names) with ((done ++ [n]) ++ names) by (rewrite <- app_assoc; reflexivity).
    apply IH. intros v Iv. destruct (String.string_dec v n) as [->|N].
    - eexists. rewrite lookup_set_same. split; [reflexivity|]. refine (carries_ext _ _ _ _ _ (fun _ _ _ _ _ => a_zero A) _ _ _ _ (zeros_carries _ _ _ _ _ _ col_lt n)).
      intros. replace (existsb (String.eqb n) (done ++ [n])) with true; [reflexivity|]. symmetry. apply existsb_in, in_or_app. right. left. reflexivity.
    - destruct Iv as [E|Iv]; [congruence|]. rewrite lookup_set_other by exact N. destruct (H v Iv) as [u [L Cu]]. exists u. split; [exact L|]. revert Cu. apply carries_ext. intros.
      rewrite existsb_app. cbn [existsb]. replace (String.eqb v n) with false by (symmetry; apply String.eqb_neq; exact N).
      rewrite !orb_false_r. reflexivity.
  Qed.
  Lemma off_field names known (ds : vmap) F : holds known ds F ->
    holds (names ++ known) (zero_fill A (map (fun n => (n, size n)) names) D M d ds) (lined_field (fun _ => mkLin names []) F).
  Proof.
    intros H. pose proof (zero_fill_ok names [] known ds F H) as Z. revert Z. apply holds_ext. intros. unfold lin_field.
    cbn [l_outs l_pairs app fold_left]. destruct (existsb (String.eqb v) names); reflexivity.
  Qed.

  Lemma negate_elem (x : tensor V) idx : elem (negate neg x) idx = option_map neg (elem x idx).
  Proof. unfold elem, negate. cbn [t_shape t_data]. apply nth_error_map. Qed.
  Lemma slice_pair_ok x p t : slice_of neg x p t -> slice_pair (negate neg x) p = Ok t.
  Proof.
    intros (lead & n & m & Sx & Wx & Wt & Dv & Hr & Hc & St & E). unfold slice_pair.
    assert (Wn : wf (negate neg x)) by (unfold wf, negate; cbn [t_shape t_data]; rewrite map_length; exact Wx).
    destruct (narrow_rows_ok (negate neg x) lead n m (p_row p) (numel (p_out_base p)) Wn Sx Hr) as [u [-> [Wu [Du [Su Eu]]]]]. cbn [bind].
    assert (Su' : t_shape u = (lead ++ [numel (p_out_base p)]) ++ [m]) by (rewrite Su, <- app_assoc; reflexivity).
    destruct (narrow_last_ok u _ m (p_col p) (numel (p_in_base p)) Wu Su' Hc) as [w [-> [Ww [Dw [Sw Ew]]]]]. f_equal.
    rewrite <- app_assoc in Sw. cbn [app] in Sw. apply tensor_ext; [exact Ww|exact Wt|congruence|rewrite Dw, Du; cbn [negate t_dev]; congruence|].
    intros idx I. rewrite Sw in I. apply index_split in I as [b [j [-> [Ib Ij]]]].
    inversion Ij as [|r ? j' ? Hr' Ij']; subst. inversion Ij' as [|c ? j'' ? Hc' Ij'']; subst. inversion Ij''; subst.
    rewrite E by assumption. replace (b ++ [r; c]) with ((b ++ [r]) ++ [c]) by (rewrite <- app_assoc; reflexivity).
    rewrite (Ew (b ++ [r]) c); [|apply index_app; [exact Ib|constructor; [exact Hr'|constructor]]|exact Hc']. rewrite <- app_assoc. cbn [app].
    rewrite Eu by (try assumption; lia). apply negate_elem.
  Qed.

  Lemma ift_blocks_ok i given us gs ps As rest Bs blks :
    mapM par (is_params (ji_seg i)) = Ok ps ->
    ji_jac i (us ++ gs ++ ps) = Ok (As ++ rest) -> length As = ji_nres i * length (is_unknown_groups (ji_seg i)) ->
    given (us ++ gs ++ ps) = Ok Bs -> du_dg neg i As Bs blks -> ift_blocks neg par i given us gs = Ok blks.
  Proof.
    intros Ep Ej La Eg Du. unfold ift_blocks. rewrite Ep. cbn [bind]. rewrite Ej. cbn [bind]. rewrite Eg. cbn [bind]. rewrite <- La.
    replace (Nat.ltb (length (As ++ rest)) (length As)) with false by (symmetry; apply Nat.ltb_ge; rewrite app_length; lia).
    rewrite firstn_app, Nat.sub_diag, firstn_all. cbn [firstn]. rewrite app_nil_r.
    destruct Du as [solve Es E|solve A0 B x Es EA EB Ex F]; rewrite Es; [exact E|]. subst As. cbn [length Nat.eqb assert_ bind app].
    assert (EB' : match Bs with [b] => Ok b | _ => cat_last Bs end = Ok B).
    { destruct EB as [-> |[N E]]; [reflexivity|]. destruct Bs as [|b [|b' Bs]]; [exact E| |exact E]. cbn in N. lia. }
    rewrite EB'. cbn [bind]. rewrite Ex. cbn [bind]. apply Forall2_mapM.
    induction F as [|p t qs ts Hs F IH]; [constructor|constructor; [eapply slice_pair_ok; exact Hs|exact IH]].
  Qed.

  Lemma prepare_params sg (st st1 : vmap) gs ps us : fst (prepare_solve (a_zero A) par sg st) = Ok (st1, gs, ps, us) ->
    mapM par (is_params sg) = Ok ps /\ is_givens sg <> [].
  Proof.
    unfold prepare_solve. destruct (is_givens sg) as [|g0 gs0]; [discriminate|]. destruct (lookup _ st) as [t0|]; [|discriminate].
    destruct (Nat.ltb _ _); [discriminate|]. destruct (run_predictor _ _ _ _ _ _) as [[s|] l]; cbn [fst bind]; [|discriminate].
    destruct (pack_groups s (is_given_groups sg)); cbn [bind]; [|discriminate].
    destruct (pack_groups s (is_unknown_groups sg)); cbn [bind]; [|discriminate].
    destruct (mapM par (is_params sg)); cbn [bind]; [|discriminate]. intros H. injection H as <- <- <- <-. split; [reflexivity|discriminate].
  Qed.

  Lemma implicit_jac_ok known i given us gs ps As rest Bs blks (F : field) (ds : vmap) :
    mapM par (is_params (ji_seg i)) = Ok ps -> is_givens (ji_seg i) <> [] ->
    ji_jac i (us ++ gs ++ ps) = Ok (As ++ rest) -> length As = ji_nres i * length (is_unknown_groups (ji_seg i)) ->
    given (us ++ gs ++ ps) = Ok Bs -> du_dg neg i As Bs blks ->
    (forall g, In g (is_givens (ji_seg i)) -> In (v_name (gv_var g)) known) ->
    (forall v, In v (is_unknowns (ji_seg i)) -> size (v_name v) = numel (v_sub v) * numel (v_base v)) ->
    Forall2 (fun p t => In (p_in p) known /\ In (p_out p) (map v_name (is_unknowns (ji_seg i))) /\ ift_ok d D size p t) (ji_pairs i) blks ->
    holds known ds F ->
    exists ds', run_implicit_jacobian (a_zero A) (a_add A) neg dot par i given us gs ds = Ok ds' /\
      holds (map v_name (is_unknowns (ji_seg i)) ++ known) ds' (lined_field (implicit_lin D size i blks) F).
  Proof.
    intros Ep Ng Ej La Eg Du Gk Sz Fb H. unfold run_implicit_jacobian. rewrite (ift_blocks_ok i given us gs ps As rest Bs blks Ep Ej La Eg Du). cbn [bind].
    rewrite <- (Forall2_length _ _ _ Fb), Nat.eqb_refl. cbn [assert_ bind].
    destruct (is_givens (ji_seg i)) as [|g0 gs0]; [contradiction|].
    destruct (H _ (Gk g0 (or_introl eq_refl))) as [d0 [-> C0]]. erewrite carries_carrier by exact C0. cbn [bind].
    assert (Hz : holds (map v_name (is_unknowns (ji_seg i)))
              (fold_left (fun m u => set_ (v_name u) (zeros (a_zero A) (D ++ [var_size u; M]) (t_dev d0)) m) (is_unknowns (ji_seg i)) [])
              (fun _ _ _ _ _ => a_zero A)).
    { assert (G : forall us done (acc : vmap), (forall v, In v us -> size (v_name v) = numel (v_sub v) * numel (v_base v)) ->
        holds done acc (fun _ _ _ _ _ => a_zero A) ->
        holds (map v_name us ++ done) (fold_left (fun m u => set_ (v_name u) (zeros (a_zero A) (D ++ [var_size u; M]) (t_dev d0)) m) us acc) (fun _ _ _ _ _ => a_zero A)).
      { destruct C0 as (_ & Dd & _). induction us0 as [|u us0 IH]; intros done acc S Hd; [exact Hd|]. cbn [map fold_left app].
        assert (Q : incl (v_name u :: map v_name us0 ++ done) (map v_name us0 ++ v_name u :: done)) by (intros x [<-|J]; [apply in_or_app; right; left; reflexivity|apply in_app_or in J as [J|J]; apply in_or_app; [left|right; right]; exact J]).
        apply (holds_incl _ _ _ _ _ _ _ _ _ Q). apply IH; [intros v Iv; apply S; right; exact Iv|]. apply holds_set; [exact Hd|].
        unfold var_size. rewrite <- (S u (or_introl eq_refl)), Dd. apply zeros_carries. exact col_lt. }
      specialize (G (is_unknowns (ji_seg i)) [] [] Sz). rewrite app_nil_r in G. apply G. intros v []. }
    destruct (add_ifts_ok (a_add A) dot d D size M col col_lt known (map v_name (is_unknowns (ji_seg i))) ds F _ _ H Fb _ _ Hz) as [acc [-> Ha]].
    cbn [bind]. destruct (move_all_ok d D size M col known acc F _ (map v_name (is_unknowns (ji_seg i))) ds [] Ha H) as [ds' [-> Hm]].
    exists ds'. split; [reflexivity|]. cbn [app] in Hm.
    set (rows := map (fun pt : pair_info * tensor V => (fst pt, ift_row D size (fst pt) (snd pt))) (combine (ji_pairs i) blks)).
    apply (lin_ext _ _ (fun b => mkLin (map v_name (is_unknowns (ji_seg i))) (map (fun q => (p_out (fst q), p_in (fst q), snd q b)) rows))).
    - intros b. unfold implicit_lin, rows. rewrite map_map. reflexivity.
    - apply segment_field. revert Hm. unfold rows. rewrite map_map. cbn [fst snd]. apply holds_ext. reflexivity.
  Qed.

  Lemma step_ok known (st : vmap) sg l known' st' F (ds : vmap) : lined known st sg l known' st' -> holds known ds F ->
    exists ds', step sg st ds = Ok (st', ds') /\ holds known' ds' (lined_field l F).
  Proof.
    intros L H. destruct L as
      [f jvp ins ps outs blks Ej Ne Ik Nd Fi Fp Er Fo Fb
      |f st' Ej Eb Nz Nd Er Hs
      |i given st1 gs ps us u st' As rest Bs blks Eg El Ep Es Eu Ej La Egv Du Gk Nd Sz Fb
      |i cap st' Eg Eb El Er Nd Sz].
    - apply (forward_step known st f jvp ins ps outs blks F ds); assumption.
    - cbn [jac_step]. rewrite Ej, Er. cbn [bind].
      rewrite (mapM_ok_map _ (fun n => (n, size n))).
      + cbn [bind]. eexists. split; [reflexivity|]. rewrite Eb. apply off_field. exact H.
      + intros n I. destruct (Hs n I) as [t [Lt (W & Dv & rst & Sh & Nr)]]. unfold at_. rewrite Lt. cbn [bind]. unfold size_by_numel.
        rewrite Eb. destruct (Nat.eqb_spec (numel D) 0) as [Z|Z]; [contradiction|]. rewrite Sh, numel_app, Nr, Nat.mul_comm, Nat.div_mul by exact Z. reflexivity.
    - cbn [jac_step]. rewrite Eg, El. cbn [Nat.ltb Nat.leb]. unfold run_implicit_groups. rewrite Ep. cbn [bind]. rewrite Es, Eu. cbn [bind fst snd].
      destruct (prepare_params _ _ _ _ _ _ Ep) as [Pp Ng].
      destruct (implicit_jac_ok known i given u gs ps As rest Bs blks F ds) as [ds' [-> Hd]]; try assumption. cbn [bind]. exists ds'. split; [reflexivity|exact Hd].
    - cbn [jac_step]. rewrite Eg, El. cbn [Nat.ltb Nat.leb]. unfold run_implicit_groups, run_implicit in *.
      destruct (fst (prepare_solve (a_zero A) par (ji_seg i) st)) as [[[[st1 gs] ps] us]|]; [|discriminate]. cbn [bind] in *.
      destruct (is_solve (ji_seg i) gs ps us) as [u|[]]; cbn [bind] in *; try discriminate.
      + rewrite Er. cbn [bind rmap fst]. eexists. split; [reflexivity|]. rewrite Eb.
        replace (map (fun u0 => (v_name u0, var_size u0)) (is_unknowns (ji_seg i))) with (map (fun n => (n, size n)) (map v_name (is_unknowns (ji_seg i)))).
        * apply off_field. exact H.
        * rewrite map_map. apply map_ext_in. intros v Iv. rewrite (Sz v Iv). reflexivity.
      + destruct cap; [|discriminate]. destruct (is_solve_masked (ji_seg i) gs ps us); cbn [bind] in Er; [|discriminate].
        destruct (unpack_groups _ _ _); cbn [bind] in Er; [|discriminate]. destruct (mapM _ _); discriminate.
  Qed.

  Lemma run_ok known (st : vmap) sgs lins known' st' : linear_run (a_zero A) neg par base_ndim d D batch size known st sgs lins known' st' ->
    forall ls (ds : vmap), holds known ds (chain ls) ->
    exists ds', jac_steps A neg dot par base_ndim capture batch M d sgs st ds = Ok (st', ds') /\ holds known' ds' (chain (rev lins ++ ls)).
  Proof.
    intros R. induction R as [known st|known st sg l known1 st1 sgs lins known' st' L R IH]; intros ls ds H.
    - exists ds. split; [reflexivity|exact H].
    - cbn [jac_steps]. destruct (step_ok _ _ _ _ _ _ (chain ls) ds L H) as [ds1 [-> H1]]. cbn [bind].
      destruct (IH (l :: ls) ds1 H1) as [ds' [E H']]. exists ds'. split; [exact E|]. cbn [rev]. rewrite <- app_assoc. exact H'.
  Qed.
End Run.
