(** Only the values of the parameters matter to the derivatives of a model. *)
From Verif Require Import Base Tensor BatchChunk Broadcast Pack Implicit Substep Mat Jac SubstepJac JacModel ParamJac FwdModel.
From Verif Require Import BaseProofs ServeProofs.
Local Open Scope list_scope.

(** Same computation up to the first call that differs. *)
Ltac step_ := match goal with
  | |- bind ?x _ = bind ?x _ => destruct x as [?|]; cbn [bind]; [|reflexivity]; try match goal with |- (let (_, _) := ?p in _) = _ => destruct p as [? ?] end
  end.

Section Ext.
  Context {V : Type}.
  Variable A : arith V.
  Variable neg : V -> V.
  Variable dot : list V -> list V -> V.
  Variable sum : list V -> V.
  Variables par par' : string -> result (tensor V).
  Hypothesis same : forall n, par n = par' n.
  Notation vmap := (smap (tensor V)).

  Lemma groups_same capture sg st : run_implicit_groups A par capture sg st = run_implicit_groups A par' capture sg st.
  Proof.
    unfold run_implicit_groups. rewrite (prepare_same par par' same). destruct (fst (prepare_solve _ par' sg st)) as [[[[st' gs] ps] us]|]; cbn [bind]; [|reflexivity].
    rewrite (implicit_same par par' same). reflexivity.
  Qed.
  Lemma ift_blocks_same i given us gs : ift_blocks neg par i given us gs = ift_blocks neg par' i given us gs.
  Proof. unfold ift_blocks. rewrite (mapM_ext par par') by (intros; apply same). reflexivity. Qed.
  Lemma implicit_jac_same i given us gs ds :
    run_implicit_jacobian (a_zero A) (a_add A) neg dot par i given us gs ds = run_implicit_jacobian (a_zero A) (a_add A) neg dot par' i given us gs ds.
  Proof. unfold run_implicit_jacobian. rewrite ift_blocks_same. reflexivity. Qed.
  Lemma ift_of_same i given sp spd : ift_of A neg dot par i given sp spd = ift_of A neg dot par' i given sp spd.
  Proof. unfold ift_of. step_. step_. apply implicit_jac_same. Qed.
  Lemma in_base_same nds batch ps : mapM (fun p => let* t := par p in let* nd := at_ p nds in broadcast_param t batch nd) ps =
    mapM (fun p => let* t := par' p in let* nd := at_ p nds in broadcast_param t batch nd) ps.
  Proof. apply mapM_ext. intros x _. rewrite same. reflexivity. Qed.
  Lemma forward_jac_same nds sg g ps batch st ds :
    run_forward_jacobian (a_zero A) (a_add A) dot par nds sg g ps batch st ds = run_forward_jacobian (a_zero A) (a_add A) dot par' nds sg g ps batch st ds.
  Proof. unfold run_forward_jacobian. rewrite in_base_same. reflexivity. Qed.

  Section Sub.
    Variables masked masked' : vmap -> result (vmap * list bool).
    Variables ift ift' : vmap -> vmap -> result vmap.
    Hypothesis M : forall st, masked st = masked' st.
    Hypothesis J : forall sp spd, ift sp spd = ift' sp spd.
    Lemma span_d_same gs o od a b act ch chd : solve_span_d A masked gs o od a b act ch chd = solve_span_d A masked' gs o od a b act ch chd.
    Proof. unfold solve_span_d. repeat step_. rewrite M. reflexivity. Qed.
    Lemma store_d_same gs us act conv sp spd bufs : store_d ift gs us act conv sp spd bufs = store_d ift' gs us act conv sp spd bufs.
    Proof.
      unfold store_d. destruct conv; [reflexivity|]. destruct bufs as [[? ?] [? ?]]. do 3 step_. rewrite J. reflexivity.
    Qed.
    Lemma solve_to_d_same gs us o od : forall n a b act bufs, solve_to_d A masked ift gs us o od n a b act bufs = solve_to_d A masked' ift' gs us o od n a b act bufs.
    Proof.
      induction n as [|n IH]; intros a b act bufs; cbn [solve_to_d]; rewrite span_d_same; destruct (solve_span_d A masked' gs o od a b act _ _) as [[[sp mask] spd]|]; try reflexivity;
        rewrite store_d_same; [reflexivity|].
      destruct (store_d ift' gs us act _ sp spd bufs) as [bufs'|]; [|reflexivity]. destruct (positions false 0 mask); [reflexivity|]. destruct (pick act _) as [fg|]; [|reflexivity].
      rewrite IH. destruct (solve_to_d A masked' ift' gs us o od n a _ fg bufs') as [[b1|] l1]; [rewrite IH|]; reflexivity.
    Qed.
    Lemma substepped_d_same gs us n st ds : run_substepped_d A masked ift gs us n st ds = run_substepped_d A masked' ift' gs us n st ds.
    Proof.
      unfold run_substepped_d. destruct gs as [|g0 gs]; [reflexivity|]. destruct (at_ _ st) as [t0|]; [|reflexivity]. destruct (Nat.ltb _ _); [reflexivity|].
      match goal with |- match ?x with _ => _ end = _ => destruct x as [[[[orig od] B] bufs]|]; [|reflexivity] end. rewrite solve_to_d_same. reflexivity.
    Qed.
  End Sub.

  Lemma jac_step_same nds capture batch M d sg st ds : jac_step A neg dot par nds capture batch M d sg st ds = jac_step A neg dot par' nds capture batch M d sg st ds.
  Proof.
    destruct sg as [f|i]; cbn [jac_step].
    - destruct (jf_jvp f); [apply forward_jac_same|]. rewrite (segment_same par par' same). reflexivity.
    - destruct (ji_given i) as [g|].
      + destruct (Nat.ltb 0 (ji_level i)).
        * rewrite (substepped_d_same _ (run_implicit_masked (a_zero A) par' (ji_seg i)) _ (ift_of A neg dot par' i g)); [reflexivity| |].
          { intros s. apply masked_same, same. }
          { intros. apply ift_of_same. }
        * rewrite groups_same. step_. rewrite implicit_jac_same. reflexivity.
      + destruct (Nat.ltb 0 (ji_level i)).
        * rewrite (substepped_same A _ (run_implicit_masked (a_zero A) par' (ji_seg i))); [reflexivity|]. intros s. apply masked_same, same.
        * rewrite groups_same. reflexivity.
  Qed.
  Lemma jac_steps_same nds capture batch M d : forall l st ds, jac_steps A neg dot par nds capture batch M d l st ds = jac_steps A neg dot par' nds capture batch M d l st ds.
  Proof. induction l as [|sg l IH]; intros st ds; [reflexivity|]. cbn [jac_steps]. rewrite jac_step_same. step_. apply IH. Qed.
  Lemma dstate_same nds capture m b M I : jacobian_dstate A neg dot par nds capture m b M I = jacobian_dstate A neg dot par' nds capture m b M I.
  Proof.
    unfold jacobian_dstate. step_. destruct (jm_inputs m); [reflexivity|]. step_. step_. rewrite jac_steps_same. reflexivity.
  Qed.
  Lemma jacobian_same nds capture m I : jacobian A neg dot par nds capture m I = jacobian A neg dot par' nds capture m I.
  Proof.
    unfold jacobian. step_. step_. rewrite dstate_same. destruct (jm_segs m) as [|[f|] [|]]; try reflexivity. destruct (jf_jvp f); [|reflexivity].
    unfold forward_pair_blocks. step_. step_. match goal with |- bind ?x _ = _ => destruct x; cbn [bind]; [|reflexivity] end. rewrite in_base_same. reflexivity.
  Qed.
  Lemma jvp_same nds capture m I T : jvp A neg dot par nds capture m I T = jvp A neg dot par' nds capture m I T.
  Proof. unfold jvp. step_. step_. rewrite dstate_same. reflexivity. Qed.

  Section Param.
    Variable pb : smap (list nat).
    Lemma param_in_same batch q : param_in par pb batch q = param_in par' pb batch q.
    Proof. unfold param_in. rewrite same. reflexivity. Qed.
    Lemma params_in_same batch l : mapM (param_in par pb batch) l = mapM (param_in par' pb batch) l.
    Proof. apply mapM_ext. intros. apply param_in_same. Qed.
    Lemma add_forward_same f g ps b dyn st dp : add_forward_param A par pb f g ps b dyn st dp = add_forward_param A par' pb f g ps b dyn st dp.
    Proof. unfold add_forward_param. rewrite params_in_same. reflexivity. Qed.
    Lemma pblocks_same i dr solve kr ps b batch us gs : param_ift_blocks neg par pb i dr solve kr ps b batch us gs = param_ift_blocks neg par' pb i dr solve kr ps b batch us gs.
    Proof. unfold param_ift_blocks. rewrite params_in_same. reflexivity. Qed.
    Lemma add_implicit_same i dr solve kr ps b dyn us gs dp : add_implicit_param A neg par pb i dr solve kr ps b dyn us gs dp = add_implicit_param A neg par' pb i dr solve kr ps b dyn us gs dp.
    Proof. unfold add_implicit_param. rewrite pblocks_same. reflexivity. Qed.
    Lemma pstep_same capture b P dyn d sg st dp : pstep A neg dot par pb capture b P dyn d sg st dp = pstep A neg dot par' pb capture b P dyn d sg st dp.
    Proof.
      destruct sg as [f pj ps v|i dr solve kr ps]; cbn [pstep].
      - rewrite (segment_same par par' same). destruct (jf_jvp f); [rewrite forward_jac_same|];
          (match goal with |- bind ?x _ = bind ?x _ => destruct x as [[s1 d1]|]; cbn [bind]; [|reflexivity] end; destruct pj; [rewrite add_forward_same|]; reflexivity).
      - rewrite groups_same. step_. destruct (ji_given i) as [g|]; [rewrite implicit_jac_same|];
          (match goal with |- bind ?x _ = bind ?x _ => destruct x; cbn [bind]; [|reflexivity] end; destruct dr; [rewrite add_implicit_same|]; reflexivity).
    Qed.
    Lemma psteps_same capture b P dyn d : forall l st dp, psteps A neg dot par pb capture b P dyn d l st dp = psteps A neg dot par' pb capture b P dyn d l st dp.
    Proof. induction l as [|sg l IH]; intros st dp; [reflexivity|]. cbn [psteps]. rewrite pstep_same. step_. apply IH. Qed.
    Lemma param_jacobian_same capture m I : param_jacobian A neg dot par pb capture m I = param_jacobian A neg dot par' pb capture m I.
    Proof.
      unfold param_jacobian. step_. step_.
      assert (Ec : param_dstate A neg dot par pb capture m b n I = param_dstate A neg dot par' pb capture m b n I).
      { unfold param_dstate. step_. destruct (pm_inputs m); [reflexivity|]. step_. destruct (Nat.ltb _ _); [reflexivity|]. rewrite psteps_same. reflexivity. }
      rewrite Ec.
      assert (Ef : forall f g ps, forward_param_blocks par pb m f g ps I = forward_param_blocks par' pb m f g ps I).
      { intros. unfold forward_param_blocks. step_. destruct (pm_inputs m); [reflexivity|]. step_. step_. rewrite params_in_same. step_. step_. step_. rewrite (segment_same par par' same). reflexivity. }
      assert (Ei : forall i dr solve kr ps, implicit_param_blocks A neg par pb capture m i dr solve kr ps b I = implicit_param_blocks A neg par' pb capture m i dr solve kr ps b I).
      { intros. unfold implicit_param_blocks. step_. rewrite groups_same. step_. destruct (fst p); [reflexivity|]. rewrite pblocks_same. reflexivity. }
      destruct (pm_segs m) as [|[f [g|] ps v|i [g|] [s|] kr ps] [|]]; try reflexivity; [apply Ef|apply Ei].
    Qed.
    Lemma collapse_same p t : collapse sum par pb p t = collapse sum par' pb p t.
    Proof. unfold collapse. rewrite same. reflexivity. Qed.
    Lemma vjp_pairs_same m cot jac : forall l g, vjp_pairs A sum par pb m cot jac l g = vjp_pairs A sum par' pb m cot jac l g.
    Proof.
      induction l as [|op l IH]; intros g; [reflexivity|]. cbn [vjp_pairs].
      assert (E : vjp_pair A sum par pb m cot jac op g = vjp_pair A sum par' pb m cot jac op g) by (unfold vjp_pair; repeat step_; rewrite collapse_same; reflexivity).
      rewrite E. step_. apply IH.
    Qed.
    Lemma name_grads_same : forall ps gs acc, name_grads sum par pb ps gs acc = name_grads sum par' pb ps gs acc.
    Proof. induction ps as [|p ps IH]; intros [|g gs] acc; try reflexivity. cbn [name_grads]. rewrite collapse_same. step_. apply IH. Qed.
    Lemma param_vjp_same capture m I W : param_vjp A neg dot sum par pb capture m I W = param_vjp A neg dot sum par' pb capture m I W.
    Proof.
      unfold param_vjp. step_. rewrite param_jacobian_same.
      assert (Eg : (let* (_, jac) := param_jacobian A neg dot par' pb capture m I in vjp_pairs A sum par pb m W jac (pm_derivs m) []) =
                   (let* (_, jac) := param_jacobian A neg dot par' pb capture m I in vjp_pairs A sum par' pb m W jac (pm_derivs m) [])).
      { step_. apply vjp_pairs_same. }
      rewrite Eg. destruct (pm_segs m) as [|[f pj ps [[[adj os] qs]|]|] [|]]; try reflexivity.
      unfold vjp_direct. step_. match goal with |- bind ?x _ = _ => destruct x; cbn [bind]; [|reflexivity] end. step_. rewrite params_in_same. step_. step_. step_. step_. apply name_grads_same.
    Qed.
  End Param.
End Ext.
