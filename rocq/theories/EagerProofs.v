(** Lemmas for C71. *)
From Verif Require Import Base BaseProofs Tensor Spec TensorProofs Float Newton SpecNewton Log NewtonLog SpecNewtonLog NewtonLogProofs
  Krylov SpecKrylov KrylovProofs KrylovRowProofs KrylovSystem SpecKrylovSystem KrylovFlatProofs KrylovDenseProofs SpecKrylovStep KrylovStepProofs IncrementProofs Pack Implicit SystemAoti Eager SpecEager.

(** ** The Newton iteration sees a system through its values only *)
Section Newton_ext.
  Variable fsum : list F -> F.
  Variables tmax tmin : list F -> F.
  Variable say : list (level * note) -> level -> note -> result unit.
  Variable is_on : level -> result bool.
  Definition same_system (s s' : system) : Prop :=
    sy_usizes s = sy_usizes s' /\ sy_rsizes s = sy_rsizes s' /\ (forall u, sy_residual s u = sy_residual s' u) /\ (forall h u, sy_step s h u = sy_step s' h u).
  (** Only whether the type of line search is "STRONG_WOLFE" counts. *)
  Definition same_config (c c' : config) : Prop :=
    cf_atol c = cf_atol c' /\ cf_rtol c = cf_rtol c' /\ cf_miters c = cf_miters c' /\ String.eqb (cf_ls_type c) "STRONG_WOLFE" = String.eqb (cf_ls_type c') "STRONG_WOLFE" /\
    cf_ls_max_iters c = cf_ls_max_iters c' /\ cf_ls_cutback c = cf_ls_cutback c' /\ cf_ls_c c = cf_ls_c c' /\ cf_del_tol c = cf_del_tol c'.
  Lemma same_config_refl c : same_config c c.
  Proof. repeat split. Qed.

  Lemma lbind_ext {A B} (m m' : lio A) (f f' : A -> lio B) st : m st = m' st -> (forall a st', f a st' = f' a st') -> lbind m f st = lbind m' f' st.
  Proof. intros E K. unfold lbind. rewrite E. destruct (m' st) as [[a|e] st']; [apply K|reflexivity]. Qed.

  Section Two.
    Variables (c c' : config) (s s' : system).
    Hypothesis C : same_config c c'.
    Hypothesis S : same_system s s'.
    Lemma residual_ext u : residual s u = residual s' u.
    Proof. destruct S as [_ [Hr [Hres _]]]. unfold residual. rewrite Hres, Hr. reflexivity. Qed.
    Lemma step_ext h u : step s h u = step s' h u.
    Proof. destruct S as [Hu [_ [_ Hs]]]. unfold step. rewrite Hs, Hu. reflexivity. Qed.
    Lemma criterion_ext a nb bd : criterion c a nb bd = criterion c' a nb bd.
    Proof. destruct C as [_ [_ [_ [T [_ [_ [L _]]]]]]]. unfold criterion. rewrite T, L. reflexivity. Qed.
    Lemma ls_stop_ext nt a nb bd : ls_stop c nt a nb bd = ls_stop c' nt a nb bd.
    Proof. destruct C as [A _]. unfold ls_stop. rewrite criterion_ext, A. reflexivity. Qed.
    Lemma ls_ext d l u du nb bd : forall more k alpha st,
      line_search_l fsum tmax tmin say c s d l u du nb bd more k alpha st = line_search_l fsum tmax tmin say c' s' d l u du nb bd more k alpha st.
    Proof.
      assert (Q : forall x y, map2 (fun q p => ls_stop c (fst q) (snd q) (fst p) (snd p)) x y = map2 (fun q p => ls_stop c' (fst q) (snd q) (fst p) (snd p)) x y)
        by (intros; unfold map2; apply map_ext; intros; apply ls_stop_ext).
      assert (K : cf_ls_cutback c = cf_ls_cutback c') by apply C.
      assert (T : forall x y, map2 (fun a p => criterion c a (fst p) (snd p)) x y = map2 (fun a p => criterion c' a (fst p) (snd p)) x y)
        by (intros; unfold map2; apply map_ext; intros; apply criterion_ext).
      induction more as [|more IH]; intros k alpha st; cbn [line_search_l]; cbv zeta; rewrite <- (residual_ext (trial alpha u du));
        (apply lbind_ext; [reflexivity|]; intros bt st1); rewrite T; (apply lbind_ext; [reflexivity|]; intros [] st2); rewrite Q, <- ?K;
        destruct (forallb _ _); try reflexivity. apply IH.
    Qed.
    Lemma iterate_l_ext d l i b0n h u b fr st : iterate_l fsum tmax tmin say c s d l i b0n h u b fr st = iterate_l fsum tmax tmin say c' s' d l i b0n h u b fr st.
    Proof.
      unfold iterate_l. rewrite <- step_ext. apply lbind_ext; [reflexivity|]. intros du0 st1. cbv zeta.
      replace (sy_rsizes s') with (sy_rsizes s) by apply S. replace (sy_usizes s') with (sy_usizes s) by apply S.
      destruct (negb _); [reflexivity|]. replace (cf_ls_max_iters c') with (cf_ls_max_iters c) by apply C. apply lbind_ext; [|reflexivity].
      destruct (_ <=? 1); [|apply ls_ext]. rewrite <- residual_ext. reflexivity.
    Qed.
    Lemma converged_ext bn b0 : check_converged c bn b0 = check_converged c' bn b0.
    Proof. destruct C as [A [B _]]. unfold check_converged, row_converged. rewrite A, B. reflexivity. Qed.
    Lemma why_ext bn b0 : why_converged c bn b0 = why_converged c' bn b0.
    Proof. destruct C as [A [B _]]. unfold why_converged. rewrite A, B. reflexivity. Qed.
    Lemma loop_l_ext d i0 l b0n : forall left i h u b st,
      solve_loop_l fsum tmax tmin say c s d i0 l b0n left i h u b st = solve_loop_l fsum tmax tmin say c' s' d i0 l b0n left i h u b st.
    Proof.
      induction left as [|left IH]; intros i h u b st; cbn [solve_loop_l].
      - replace (cf_miters c') with (cf_miters c) by apply C. reflexivity.
      - apply lbind_ext; [apply iterate_l_ext|]. intros [u' b'] st1. unfold check_stop. rewrite converged_ext, why_ext.
        destruct (existsb _ _); [reflexivity|]. destruct (check_converged _ _ _); [reflexivity|]. apply IH.
    Qed.
    Lemma entry_ext u : entry s u = entry s' u.
    Proof. unfold entry. rewrite residual_ext. replace (sy_rsizes s') with (sy_rsizes s) by apply S. replace (sy_usizes s') with (sy_usizes s) by apply S. reflexivity. Qed.
    Lemma solve_l_ext l u st : solve_l fsum tmax tmin say is_on c l s u st = solve_l fsum tmax tmin say is_on c' l s' u st.
    Proof.
      unfold solve_l, with_log.
      match goal with |- match ?x with _ => _ end = match ?y with _ => _ end => assert (E : x = y); [|rewrite E; reflexivity] end.
      rewrite entry_ext. apply lbind_ext; [reflexivity|]. intros b st1. cbv zeta. do 4 (apply lbind_ext; [reflexivity|]; intros ? ?).
      rewrite converged_ext, why_ext. destruct (check_converged _ _ _); [reflexivity|]. replace (cf_miters c') with (cf_miters c) by apply C. apply loop_l_ext.
    Qed.
    Lemma masked_loop_l_ext d l b0n : forall left i fr cv h u b st,
      masked_loop_l fsum tmax tmin say c s d l b0n left i fr cv h u b st = masked_loop_l fsum tmax tmin say c' s' d l b0n left i fr cv h u b st.
    Proof.
      assert (Q : forall b0 bn du un, masked_converged c b0 bn du un = masked_converged c' b0 bn du un).
      { intros. unfold masked_converged, masked_row_converged. destruct C as [A [B [_ [_ [_ [_ [_ D]]]]]]]. rewrite A, B, D. reflexivity. }
      induction left as [|left IH]; intros i fr cv h u b st; cbn [masked_loop_l]; [reflexivity|].
      apply lbind_ext; [apply iterate_l_ext|]. intros [u' b'] st1. cbv zeta. rewrite Q. destruct (forallb _ _); [reflexivity|]. apply IH.
    Qed.
    Lemma solve_masked_l_ext l u st : solve_masked_l fsum tmax tmin say is_on c l s u st = solve_masked_l fsum tmax tmin say is_on c' l s' u st.
    Proof.
      unfold solve_masked_l, with_log.
      match goal with |- match ?x with _ => _ end = match ?y with _ => _ end => assert (E : x = y); [|rewrite E; reflexivity] end.
      rewrite entry_ext. apply lbind_ext; [reflexivity|]. intros b st1. cbv zeta. apply lbind_ext; [reflexivity|]. intros d st2.
      replace (cf_atol c') with (cf_atol c) by apply C. replace (cf_miters c') with (cf_miters c) by apply C. destruct (forallb _ _); [reflexivity|]. apply masked_loop_l_ext.
    Qed.
  End Two.

  Definition same_gsystem (s s' : gsystem) : Prop :=
    gs_unknown s = gs_unknown s' /\ gs_residual s = gs_residual s' /\ (forall u, length u = length (gs_unknown s) -> gs_res s u = gs_res s' u) /\
    (forall h u, Forall (fun v => length v = length (gs_unknown s)) h -> length u = length (gs_unknown s) -> gs_step s h u = gs_step s' h u).
  Lemma to_groups_length G dyn devs u : length devs = length G -> length (to_groups G dyn devs u) = length G.
  Proof. intros L. unfold to_groups. rewrite map_length, !combine_length, seq_length, L, !Nat.min_id. reflexivity. Qed.
  Lemma row_system_ext s s' dyn devs : length devs = length (gs_unknown s) -> same_gsystem s s' -> same_system (row_system s dyn devs) (row_system s' dyn devs).
  Proof.
    intros L [U [R [Hr Hs]]]. unfold row_system. rewrite <- U, <- R. repeat split; intros; cbn.
    - rewrite Hr by (apply to_groups_length, L). reflexivity.
    - rewrite Hs; [reflexivity| |apply to_groups_length, L]. rewrite Forall_map, Forall_forall. intros v _. apply to_groups_length, L.
  Qed.
  Lemma to_rows_length G dyn us u : to_rows G dyn us = Ok u -> length (map t_dev us) = length G.
  Proof. unfold to_rows. destruct (Nat.eqb (length us) (length G)) eqn:E; [|discriminate]. intros _. rewrite map_length. apply Nat.eqb_eq, E. Qed.
  Lemma run_ext c c' l s s' us : same_config c c' -> same_gsystem s s' ->
    run_newton fsum tmax tmin say is_on c l s us = run_newton fsum tmax tmin say is_on c' l s' us.
  Proof.
    intros C S. unfold run_newton. replace (gs_unknown s') with (gs_unknown s) by apply S. destruct (leading _ _) as [dyn|]; [|reflexivity]. cbn [bind].
    destruct (to_rows _ _ _) as [u|] eqn:Er; [|reflexivity]. cbn [bind]. apply to_rows_length in Er.
    rewrite (solve_l_ext c c' _ _ C (row_system_ext s s' dyn (map t_dev us) Er S)). reflexivity.
  Qed.
  Lemma run_masked_ext c c' l s s' us : same_config c c' -> same_gsystem s s' ->
    run_newton_masked fsum tmax tmin say is_on c l s us = run_newton_masked fsum tmax tmin say is_on c' l s' us.
  Proof.
    intros C S. unfold run_newton_masked. replace (gs_unknown s') with (gs_unknown s) by apply S. destruct (leading _ _) as [dyn|]; [|reflexivity]. cbn [bind].
    destruct (to_rows _ _ _) as [u|] eqn:Er; [|reflexivity]. cbn [bind]. apply to_rows_length in Er.
    rewrite (solve_masked_l_ext c c' _ _ C (row_system_ext s s' dyn (map t_dev us) Er S)). reflexivity.
  Qed.
End Newton_ext.

(** ** So does a Krylov solve; it does not look at the cache settings *)
Section Krylov_ext.
  Context {V : Type}.
  Variable N : num V.
  Variable rsum : list V -> V.
  Variable edot : list V -> list V -> V.
  Variable tri : list (list V) -> list V -> list V.
  Notation vec := (list V).
  Variables f f' g g' : list vec -> result (list vec).
  Hypothesis Ff : forall x, f x = f' x.
  Hypothesis Fg : forall x, g x = g' x.
  Lemma call_ext {B} (h h' : list vec -> result (list vec)) c x (k k' : list vec -> kio V B) : (forall x, h x = h' x) -> (forall y, k y = k' y) ->
    kbind (call_op h c x) k = kbind (call_op h' c x) k'.
  Proof. intros E K. unfold call_op. rewrite <- E. destruct (h x) as [y|]; [|reflexivity]. cbn [bind]. destruct (like x y); [|reflexivity]. cbn [kbind]. rewrite K. reflexivity. Qed.
  Lemma kbind_ext {A B} (x : kio V A) (k k' : A -> kio V B) : (forall a, k a = k' a) -> kbind x k = kbind x k'.
  Proof. intros K. unfold kbind. destruct x as [[a|] l]; [rewrite K|]; reflexivity. Qed.
  Lemma bicg_ext cfg b : forall more st, bicg_loop N rsum edot f g cfg b more st = bicg_loop N rsum edot f' g' cfg b more st.
  Proof.
    induction more as [|more IH]; intros st; [reflexivity|]. cbn [bicg_loop]. destruct (all_done st); [reflexivity|]. cbv zeta.
    apply call_ext; [exact Fg|]. intros ph. apply call_ext; [exact Ff|]. intros v. apply call_ext; [exact Fg|]. intros sh. apply call_ext; [exact Ff|]. intros t. apply IH.
  Qed.
  Lemma cycle_ext cfg b : forall more st, gmres_cycle N rsum edot f g cfg b more st = gmres_cycle N rsum edot f' g' cfg b more st.
  Proof.
    induction more as [|more IH]; intros st; [reflexivity|]. cbn [gmres_cycle]. apply call_ext; [exact Ff|]. intros av. apply call_ext; [exact Fg|]. intros w.
    cbv zeta. destruct (forallb gr_done _); [reflexivity|]. apply IH.
  Qed.
  Lemma gmres_ext cfg b m : forall cycles first st, gmres_loop N rsum edot tri f g cfg b m first cycles st = gmres_loop N rsum edot tri f' g' cfg b m first cycles st.
  Proof.
    assert (R : forall first st, gmres_residual N f g b first st = gmres_residual N f' g' b first st).
    { intros [|] st; cbn [gmres_residual]; [unfold apply_m, call_op; rewrite Fg; reflexivity|]. apply call_ext; [exact Ff|]. intros ax. unfold apply_m, call_op. rewrite Fg. reflexivity. }
    induction cycles as [|cycles IH]; intros first st; [reflexivity|]. cbn [gmres_loop]. rewrite R. apply kbind_ext. intros r. cbv zeta.
    destruct (forallb gr_done _); [reflexivity|]. rewrite cycle_ext. apply kbind_ext. intros st2. apply IH.
  Qed.
  Lemma krylov_ext b cfg : krylov_solve N rsum edot tri f g b cfg = krylov_solve N rsum edot tri f' g' b cfg.
  Proof.
    unfold krylov_solve. destruct (k_method cfg).
    - unfold gmres. apply kbind_ext. intros cy. cbv zeta. rewrite gmres_ext. destruct (_ && _); [|reflexivity].
      apply f_equal2; [|reflexivity]. apply call_ext; [exact Fg|]. reflexivity.
    - unfold bicgstab. rewrite bicg_ext. reflexivity.
  Qed.
End Krylov_ext.
Section Krylov_cache.
  Context {V : Type}.
  Variable N : num V.
  Variable rsum : list V -> V.
  Variable edot : list V -> list V -> V.
  Variable tri : list (list V) -> list V -> list V.
  Notation vec := (list V).
  Variables f g : list vec -> result (list vec).
  Variables (m : method) (c c' : cache_strategy) (restart its : Z) (atol rtol : V) (bar bar' : Z).
  Notation cfg1 := (mkKcfg m c restart its atol rtol bar).
  Notation cfg2 := (mkKcfg m c' restart its atol rtol bar').
  Lemma bicg_cache b : forall more st, bicg_loop N rsum edot f g cfg1 b more st = bicg_loop N rsum edot f g cfg2 b more st.
  Proof.
    induction more as [|more IH]; intros st; [reflexivity|]. cbn [bicg_loop]. destruct (all_done st); [reflexivity|]. cbv zeta.
    do 4 (apply kbind_ext; intros ?). apply IH.
  Qed.
  Lemma cycle_cache b : forall more st, gmres_cycle N rsum edot f g cfg1 b more st = gmres_cycle N rsum edot f g cfg2 b more st.
  Proof.
    induction more as [|more IH]; intros st; [reflexivity|]. cbn [gmres_cycle]. do 2 (apply kbind_ext; intros ?). cbv zeta.
    match goal with |- (if forallb gr_done ?x then _ else _) = (if forallb gr_done ?y then _ else _) => change y with x; set (st1 := x) end.
    destruct (forallb gr_done st1); [reflexivity|]. apply IH.
  Qed.
  Lemma gmres_cache b k : forall cycles first st, gmres_loop N rsum edot tri f g cfg1 b k first cycles st = gmres_loop N rsum edot tri f g cfg2 b k first cycles st.
  Proof.
    induction cycles as [|cycles IH]; intros first st; [reflexivity|]. cbn [gmres_loop]. apply kbind_ext. intros r. cbv zeta.
    match goal with |- (if forallb gr_done ?x then _ else _) = (if forallb gr_done ?y then _ else _) => change y with x; set (st1 := x) end.
    destruct (forallb gr_done st1); [reflexivity|]. rewrite cycle_cache. apply kbind_ext. intros st2. apply IH.
  Qed.
  Lemma krylov_cache b : krylov_solve N rsum edot tri f g b cfg1 = krylov_solve N rsum edot tri f g b cfg2.
  Proof.
    pose proof gmres_cache as G. pose proof bicg_cache as B. unfold krylov_solve. cbn [k_method]. destruct m.
    - unfold gmres. apply kbind_ext. intros cy. cbn [k_restart]. cbv zeta. rewrite G. reflexivity.
    - unfold bicgstab. cbn [k_max_its]. rewrite B. reflexivity.
  Qed.
End Krylov_cache.

(** ** The boundary *)
Lemma cast_py_list l : cast_list (py_list l) = Ok l.
Proof. unfold py_list, cast_list. induction l as [|t l IH]; [reflexivity|]. cbn [map mapM cast_tensor bind]. rewrite IH. reflexivity. Qed.
Lemma as_size_ok z : in_size z -> as_size z = Ok (Z.to_nat z).
Proof. intros [A B]. unfold as_size. rewrite (proj2 (Z.leb_le _ _) A), (proj2 (Z.ltb_lt _ _) B). reflexivity. Qed.
Lemma as_size_err z : ~ in_size z -> as_size z = Err type_error.
Proof.
  intros H. unfold as_size. destruct ((0 <=? z) && (z <? 2 ^ 64))%Z eqn:E; [|reflexivity]. exfalso. apply H.
  apply Bool.andb_true_iff in E as [A B]. split; [apply Z.leb_le, A|apply Z.ltb_lt, B].
Qed.
Lemma as_int64_ok z : in_int64 z -> as_int64 z = Ok z.
Proof. intros [A B]. unfold as_int64. rewrite (proj2 (Z.leb_le _ _) A), (proj2 (Z.ltb_lt _ _) B). reflexivity. Qed.
Lemma as_int64_err z : ~ in_int64 z -> as_int64 z = Err type_error.
Proof.
  intros H. unfold as_int64. destruct ((- 2 ^ 63 <=? z) && (z <? 2 ^ 63))%Z eqn:E; [|reflexivity]. exfalso. apply H.
  apply Bool.andb_true_iff in E as [A B]. split; [apply Z.leb_le, A|apply Z.ltb_lt, B].
Qed.
Lemma newton_args_ok p cfg : newton_fits p -> newton_says p cfg -> newton_args p = Ok cfg.
Proof.
  intros [A B] (E1 & E2 & E3 & E4 & E5 & E6 & E7 & E8). unfold newton_args. rewrite (as_size_ok _ A), (as_size_ok _ B). cbn [bind].
  rewrite <- E3, <- E5, !Nat2Z.id, <- E1, <- E2, <- E4, <- E6, <- E7, <- E8. destruct cfg; reflexivity.
Qed.
Lemma krylov_args_ok q c : krylov_fits q -> krylov_says q c -> krylov_args q = Ok c.
Proof.
  intros (A & B & C) (E1 & E2 & E3 & E4 & E5 & E6 & E7). unfold krylov_args. rewrite (as_int64_ok _ A), (as_int64_ok _ B), (as_int64_ok _ C). cbn [bind].
  rewrite E1, E2, E3, E4, E5, E6, E7. destruct c as [m h r i a t b]; cbn. destruct m, h; reflexivity.
Qed.

(** ** Equal operations make equal systems *)
Section Ksystem.
  Variable rsum : list F -> F.
  Variable edot : list F -> list F -> F.
  Variable tri : list (list F) -> list F -> list F.
  Variable U R : list group_info.
  Notation here u := (length u = length U).
  Definition same_ops (k k' : ksystem F) : Prop :=
    length (ks_unknown k) = length U /\ ks_unknown k = ks_unknown k' /\ ks_residual k = ks_residual k' /\ ks_cfg k = ks_cfg k' /\
    (forall u, here u -> ks_res k u = ks_res k' u) /\
    (forall u v, here u -> here v -> ks_mat k u v = ks_mat k' u v) /\
    match ks_precond k, ks_precond k' with
    | None, None => True
    | Some (s, a), Some (s', a') => (forall u, here u -> s u = s' u) /\ (forall p r, a p r = a' p r)
    | _, _ => False
    end.
  Lemma refresh_ext k k' u st : same_ops k k' -> here u -> refresh k u st = refresh k' u st.
  Proof.
    intros (_ & _ & _ & C & _ & _ & P) Hu. unfold refresh. rewrite <- C. destruct (ks_precond k) as [[s a]|], (ks_precond k') as [[s' a']|]; try contradiction; [|reflexivity].
    destruct P as [P _]. rewrite (P u Hu). reflexivity.
  Qed.
  Lemma mapM_len {X Y} (f : X -> result Y) l m : mapM f l = Ok m -> length m = length l.
  Proof.
    revert m. induction l as [|x l IH]; intros m H; cbn [mapM] in H; [injection H as <-; reflexivity|].
    destruct (f x); [|discriminate]. cbn [bind] in H. destruct (mapM f l) as [m'|]; [|discriminate]. injection H as <-. cbn. rewrite (IH m' eq_refl). reflexivity.
  Qed.
  Lemma flatten_widths (ts : groups) l f sp : flatten_dense ts l = Ok (f, sp) -> length (fs_widths sp) = length ts.
  Proof.
    unfold flatten_dense. destruct (assert_ (Nat.eqb _ _) _); [|discriminate]. cbn [bind]. destruct (assert_all_dense l); [|discriminate]. cbn [bind].
    destruct ts as [|t ts]; [discriminate|]. destruct (Nat.eqb _ 0); [discriminate|]. destruct (mapM _ _) as [wf|] eqn:E; [|discriminate]. cbn [bind].
    destruct (cat_last _); [|discriminate]. intros H. injection H as _ <-. cbn [fs_widths]. rewrite map_length. apply mapM_len in E. exact E.
  Qed.
  Lemma unflatten_length (f : tensor F) batch : forall ws o vs, unflatten_from f batch o ws = Ok vs -> length vs = length ws.
  Proof.
    induction ws as [|w ws IH]; intros o vs H; cbn [unflatten_from] in H; [injection H as <-; reflexivity|].
    destruct (slice_cols _ _ _); [|discriminate]. cbn [bind] in H. destruct (reshape _ _); [|discriminate]. cbn [bind] in H.
    destruct (unflatten_from _ _ _ _) as [r|] eqn:E; [|discriminate]. injection H as <-. cbn. rewrite (IH _ _ E). reflexivity.
  Qed.
  Lemma kstep_ext k k' u st : same_ops k k' -> here u -> kstep binary64 rsum edot tri k u st = kstep binary64 rsum edot tri k' u st.
  Proof.
    intros S Hu. pose proof (refresh_ext k k' u st S Hu) as Hr. destruct S as (Lk & HU & HR & C & Hb & Hm & P). unfold kstep. rewrite <- HU, <- HR, <- C, (Hb u Hu), Hr.
    destruct (let* _ := _ in _) as [[]|]; [|reflexivity]. destruct (let* b := _ in _) as [[[[b bf] rows] sp]|] eqn:Ef; [|reflexivity].
    assert (Ls : length (fs_widths sp) = length U).
    { destruct (ks_res k' u) as [b'|]; [|discriminate]. cbn [bind] in Ef. destruct (flatten_dense b' _) as [[bf' bs]|]; [|discriminate]. cbn [bind] in Ef.
      destruct (flatten_dense u _) as [[uf us]|] eqn:Eu; [|discriminate]. cbn [bind] in Ef. destruct (rows_of bf'); [|discriminate]. injection Ef as _ _ _ <-.
      cbn [fs_widths]. rewrite (flatten_widths _ _ _ _ Eu). exact Hu. }
    destruct (refresh k' u st) as [[st1|] l]; [|reflexivity].
    rewrite (krylov_ext binary64 rsum edot tri (flat_matvec k u sp bf) (flat_matvec k' u sp bf) (flat_minv k (st_precond st1) bf) (flat_minv k' (st_precond st1) bf)); [reflexivity| |].
    - intros x. unfold flat_matvec. rewrite <- HR. destruct (unflatten_dense _ _) as [vg|] eqn:Ev; [|reflexivity]. cbn [bind].
      apply unflatten_length in Ev. rewrite Hm; [reflexivity|exact Hu|congruence].
    - intros x. unfold flat_minv. destruct (ks_precond k) as [[s a]|], (ks_precond k') as [[s' a']|]; try contradiction; [|reflexivity]. rewrite (proj2 P). reflexivity.
  Qed.
  Lemma ksystem_ext k k' : same_ops k k' -> same_gsystem (krylov_system U R rsum edot tri k) (krylov_system U R rsum edot tri k').
  Proof.
    intros S. split; [reflexivity|]. split; [reflexivity|]. split; [cbn; apply S|]. intros h u Hh Hu. cbn [krylov_system gs_step gs_unknown] in *.
    rewrite <- (kstep_ext k k' u _ S Hu). do 3 f_equal. unfold cache_after. generalize (@fresh_state F). induction Hh as [|v h Hv Hh IH]; intros st; [reflexivity|].
    cbn [fold_left]. rewrite (kstep_ext k k' v st S Hv). apply IH.
  Qed.
End Ksystem.

Section Routes.
  Variable fsum : list F -> F.
  Variables tmax tmin : list F -> F.
  Variable say : list (level * note) -> level -> note -> result unit.
  Variable is_on : level -> result bool.
  Variable rsum : list F -> F.
  Variable edot : list F -> list F -> F.
  Variable tri : list (list F) -> list F -> list F.
  Notation run := (run_newton fsum tmax tmin say is_on).
  Notation run_masked := (run_newton_masked fsum tmax tmin say is_on).

  Lemma direct_same U R gs ps rg rhs jac sol jacobian linear_solve :
    same_function U gs ps rg rhs -> same_function U gs ps jac jacobian -> (forall x, sol x = linear_solve x) ->
    returns (length R * length U + length R) jacobian -> returns (length U) linear_solve ->
    same_gsystem (eager_system (residual_fn rhs gs) (step_fn U R gs jacobian linear_solve) U R) (aoti_system U R gs ps rg jac sol).
  Proof.
    intros Hr Hj Hs Lj Ll. split; [reflexivity|]. split; [reflexivity|]. split; cbn [eager_system aoti_system gs_res gs_step gs_unknown].
    - intros u Hu. unfold residual_fn, build_inputs. rewrite (Hr u Hu). destruct (rhs _); [|reflexivity]. cbn [bind]. apply cast_py_list.
    - intros _ u _ Hu. unfold step_fn, build_inputs. rewrite (Hj u Hu). destruct (jacobian (u ++ gs)) as [j|] eqn:Ej; [|reflexivity]. cbn [bind].
      apply Lj in Ej. rewrite Ej, Nat.eqb_refl. cbn [assert_ bind]. rewrite Hs. destruct (linear_solve j) as [du|] eqn:El; [|reflexivity]. cbn [bind].
      apply Ll in El. rewrite El, Nat.eqb_refl. cbn [assert_ bind cast_pair]. rewrite !cast_py_list. cbn [bind].
      replace (length R * length U + length R - length R) with (length R * length U) by lia. reflexivity.
  Qed.
  Lemma iterative_same U R gs ps rg rhs kcfg mat pre matvec pc_setup pc_apply :
    same_function U gs ps rg rhs -> same_operator U gs ps mat matvec -> same_preconditioner U gs ps pre pc_setup pc_apply ->
    let given {A} (f : A) : option A := match pc_setup with Some _ => Some f | None => None end in
    same_ops U (krylov_eager_ops (residual_fn rhs gs) (matvec_fn gs matvec) (given (precond_setup_fn gs pc_setup)) (given (precond_apply_fn pc_apply)) U R kcfg)
               (krylov_ops U R gs ps rg kcfg mat pre).
  Proof.
    intros Hr Hm Hp given. unfold same_ops. cbn [krylov_eager_ops krylov_ops ks_unknown ks_residual ks_cfg ks_res ks_mat ks_precond]. repeat split.
    - apply map_length.
    - intros u Hu. unfold residual_fn, build_inputs. rewrite (Hr u Hu). destruct (rhs _); [|reflexivity]. cbn [bind]. apply cast_py_list.
    - intros u v Hu Hv. unfold matvec_fn, build_inputs. rewrite (Hm u v Hu Hv). destruct (matvec _); [|reflexivity]. cbn [bind]. apply cast_py_list.
    - unfold given. unfold same_preconditioner in Hp. destruct pre as [[setup apply]|], pc_setup as [setup'|]; try contradiction; [|exact I].
      destruct Hp as [Hs (apply' & -> & Ha)]. split.
      + intros u Hu. unfold precond_setup_fn, build_inputs. rewrite (Hs u Hu). destruct (setup' _); [|reflexivity]. cbn [bind]. apply cast_py_list.
      + intros p r. unfold precond_apply_fn. rewrite Ha. destruct (apply' _); reflexivity.
  Qed.

  Lemma eager_same s gs ps rhs l p cfg u0 : same_model rsum edot tri s gs ps rhs l -> newton_fits p -> newton_says p cfg ->
    py_newton fsum tmax tmin say is_on rsum edot tri rhs (ss_unknown_groups s) (ss_residual_groups s) gs u0 l p =
    let* (u, k, _) := run cfg false (make_system s gs ps) u0 in Ok (u, true, k).
  Proof.
    intros [Hr Hk] Fp Sp. unfold make_system. unfold same_steps in Hk.
    destruct l as [jacobian linear_solve|q matvec pc_setup pc_apply]; destruct (ss_kind s) as [jac sol|rsum' edot' tri' kcfg mat pre]; try contradiction; cbn [py_newton].
    - destruct Hk as (Hj & Hs & Lj & Ll). unfold py_solve, newton_solve_eager. rewrite (newton_args_ok p cfg Fp Sp). cbn [bind]. unfold run_eager_newton.
      rewrite (run_ext _ _ _ _ _ cfg cfg false _ _ u0 (same_config_refl cfg) (direct_same _ _ gs ps _ rhs jac sol jacobian linear_solve Hr Hj Hs Lj Ll)).
      destruct (run _ _ _ _) as [[[u k] notes]|]; reflexivity.
    - destruct Hk as (-> & -> & -> & Sq & Fq & Hm & Hp). unfold py_solve_iterative, krylov_solve_eager. rewrite (newton_args_ok p cfg Fp Sp), (krylov_args_ok q kcfg Fq Sq). cbn [bind].
      unfold run_eager_krylov.
      rewrite (run_ext _ _ _ _ _ cfg cfg false _ _ u0 (same_config_refl cfg)
                 (ksystem_ext rsum edot tri (ss_unknown_groups s) (ss_residual_groups s) _ _ (iterative_same _ _ gs ps _ rhs kcfg mat pre matvec pc_setup pc_apply Hr Hm Hp))).
      destruct (run _ _ _ _) as [[[u k] notes]|]; reflexivity.
  Qed.
  Lemma eager_masked_same s gs ps rhs jacobian linear_solve p cfg u0 : same_model rsum edot tri s gs ps rhs (Assembled jacobian linear_solve) ->
    newton_fits p -> newton_says p cfg ->
    py_solve_masked fsum tmax tmin say is_on rhs (ss_unknown_groups s) (ss_residual_groups s) gs u0 jacobian linear_solve p =
    run_masked cfg false (make_system s gs ps) u0.
  Proof.
    intros [Hr Hk] Fp Sp. unfold make_system. unfold same_steps in Hk. destruct (ss_kind s) as [jac sol|]; [|contradiction].
    destruct Hk as (Hj & Hs & Lj & Ll). unfold py_solve_masked, newton_solve_eager_masked. rewrite (newton_args_ok p cfg Fp Sp). cbn [bind]. unfold run_eager_newton_masked.
    apply run_masked_ext; [apply same_config_refl|]. apply direct_same; assumption.
  Qed.

  (** What is written does not matter. *)
  Lemma run_result cfg log s us d i : never_throws say -> is_on Debug = Ok d -> is_on Info = Ok i -> numel_lead s us ->
    (let* (u, _, _) := run cfg log s us in Ok u) = newton_solve fsum cfg s us.
  Proof.
    intros Q Hd Hi Ne. unfold run_newton, newton_solve. unfold numel_lead in Ne. destruct (leading _ _) as [dyn|] eqn:El; [|reflexivity]. cbn [bind].
    specialize (Ne dyn eq_refl). destruct (to_rows _ _ _) as [u|] eqn:Er; [|reflexivity]. cbn [bind].
    assert (Lu : length u = numel dyn) by (unfold to_rows in Er; destruct (_ && _); [|discriminate]; injection Er as <-; rewrite map_length, seq_length; reflexivity).
    destruct u as [|x u]; [cbn in Lu; lia|].
    destruct (solve_agrees fsum tmax tmin say is_on cfg log (row_system s dyn (map t_dev us)) (x :: u) d i (length u) eq_refl Hd Hi [])
      as [[es [E C]]|[es [l [y [e [more [_ [T _]]]]]]]]; [|rewrite Q in T; discriminate].
    rewrite E. cbn [fst]. destruct (solve _ _ _ _) as [[[a k]|e] t]; reflexivity.
  Qed.
  Lemma run_masked_result cfg log s us d : never_throws say -> is_on Debug = Ok d -> numel_lead s us ->
    (let* (u, m, _) := run_masked cfg log s us in Ok (u, m)) = newton_solve_masked fsum cfg s us.
  Proof.
    intros Q Hd Ne. unfold run_newton_masked, newton_solve_masked. unfold numel_lead in Ne. destruct (leading _ _) as [dyn|] eqn:El; [|reflexivity]. cbn [bind].
    specialize (Ne dyn eq_refl). destruct (to_rows _ _ _) as [u|] eqn:Er; [|reflexivity]. cbn [bind].
    assert (Lu : length u = numel dyn) by (unfold to_rows in Er; destruct (_ && _); [|discriminate]; injection Er as <-; rewrite map_length, seq_length; reflexivity).
    destruct u as [|x u]; [cbn in Lu; lia|].
    destruct (solve_masked_agrees fsum tmax tmin say is_on cfg log (row_system s dyn (map t_dev us)) (x :: u) d (length u) eq_refl Hd [])
      as [[es [E C]]|[es [l [y [e [more [_ [T _]]]]]]]]; [|rewrite Q in T; discriminate].
    rewrite E. cbn [fst]. destruct (solve_masked _ _ _ _) as [[[[a m] k]|e] t]; reflexivity.
  Qed.

End Routes.

(** ** The linear solves *)
Section Linear.
  Variable rsum : list F -> F.
  Variable edot : list F -> list F -> F.
  Variable tri : list (list F) -> list F -> list F.
  Lemma dense_sheet n d rows x y : sheet rows n x -> dense_matvec edot n d rows x = Ok y -> sheet rows n y.
  Proof.
    intros [L _] H. unfold dense_matvec in H. rewrite L, Nat.eqb_refl in H. injection H as <-. split.
    - rewrite map_length, combine_length, seq_length, L. apply Nat.min_id.
    - rewrite Forall_map, Forall_forall. intros p _. unfold dense_row. rewrite map_length. apply seq_length.
  Qed.
  Lemma dense_other n d R x : length x <> R -> dense_matvec edot n d R x = Err (StdExn "matmul: shape mismatch").
  Proof. intros H. unfold dense_matvec. apply Nat.eqb_neq in H. rewrite H. reflexivity. Qed.
  Lemma linear_same A n R br (b : tensor F) rows cfg : infer A [n; n] = Ok R -> t_shape b = [br; n] -> rows_of b = Ok rows -> sheet br n rows ->
    in_int64 (k_restart cfg) -> in_int64 (k_max_its cfg) ->
    krylov_solve_linear rsum edot tri (raw_matvec edot n A) b (method_name (k_method cfg)) (k_restart cfg) (k_max_its cfg) (k_abs_tol cfg) (k_rel_tol cfg) =
    let* res := fst (krylov_solve binary64 rsum edot tri (dense_matvec edot n (t_data A) R) (fun r => Ok r) rows cfg) in Ok (of_rows b (kr_du res)).
  Proof.
    intros Hi Hs Hr Hh F1 F2. unfold krylov_solve_linear.
    rewrite (krylov_args_ok _ (mkKcfg (k_method cfg) CacheNone (k_restart cfg) (k_max_its cfg) (k_abs_tol cfg) (k_rel_tol cfg) 10)); [|split; [exact F1|split; [exact F2|cbn; unfold in_int64; lia]]|repeat split].
    cbn [bind]. rewrite Hr. cbn [bind].
    rewrite (solve_same binary64 rsum edot tri br n _ (dense_matvec edot n (t_data A) R) _ (fun r => Ok r)).
    - rewrite (krylov_cache binary64 rsum edot tri _ _ (k_method cfg) CacheNone (k_cache cfg) (k_restart cfg) (k_max_its cfg) (k_abs_tol cfg) (k_rel_tol cfg) 10 (k_cache_max_its cfg)).
      destruct cfg; reflexivity.
    - intros x Sx. unfold raw_matvec. rewrite Hi. cbn [bind]. destruct (sheet_matrix br n b x Hs Sx) as (_ & _ & Sh & Rx). rewrite Rx. cbn [bind].
      destruct (Nat.eq_dec (length x) R) as [E|E]; [|rewrite (dense_other _ _ _ _ E); reflexivity].
      assert (ER : R = br) by (destruct Sx; congruence). rewrite ER. destruct (dense_matvec edot n (t_data A) br x) as [y|] eqn:Ey; [|reflexivity]. cbn [bind cast_tensor].
      destruct (sheet_matrix br n (of_rows b x) y Sh (dense_sheet _ _ _ _ _ Sx Ey)) as (_ & _ & _ & Ry). exact Ry.
    - reflexivity.
    - exact Hh.
  Qed.
  Lemma rows_sheet br n (d : list F) : length d = br * n -> sheet br n (map (fun i => row_data n i d) (seq 0 br)).
  Proof.
    intros L. split; [rewrite map_length; apply seq_length|]. rewrite Forall_map, Forall_forall. intros i I. apply in_seq in I.
    unfold row_data. rewrite firstn_length, skipn_length, L. apply Nat.min_l. nia.
  Qed.
  Lemma infer_ok (t : tensor F) trail r : wf t -> infer t trail = Ok r -> length (t_data t) = r * numel trail.
  Proof.
    intros W H. unfold infer in H. destruct (Nat.eqb _ 0) eqn:E0; [discriminate|]. destruct (Nat.eqb (_ mod _) 0) eqn:E1; [|discriminate]. injection H as <-.
    apply Nat.eqb_neq in E0. apply Nat.eqb_eq in E1. rewrite W. pose proof (Nat.div_mod (numel (t_shape t)) (numel trail) E0). lia.
  Qed.
  Lemma mapM_bind {X Y} (f f' : X -> result Y) l : (forall x, In x l -> f x = f' x) -> mapM f l = mapM f' l.
  Proof. induction l as [|x l IH]; intros H; [reflexivity|]. cbn [mapM]. rewrite (H x (or_introl eq_refl)), IH; [reflexivity|]. intros y I. apply H. right. exact I. Qed.
  Lemma raw_same A b cfg : t_shape A <> [] -> wf b -> t_shape b <> [] -> in_int64 (k_restart cfg) -> in_int64 (k_max_its cfg) ->
    krylov_solve_raw rsum edot tri A b (method_name (k_method cfg)) (k_restart cfg) (k_max_its cfg) (k_abs_tol cfg) (k_rel_tol cfg) =
    krylov_solve_dense binary64 rsum edot tri cfg A b.
  Proof.
    intros Na Wb Nb F1 F2. unfold krylov_solve_raw, krylov_solve_dense. cbv zeta.
    assert (Da : Nat.eqb (dim A) 0 = false) by (unfold dim; destruct (t_shape A); [congruence|reflexivity]).
    assert (Db : Nat.eqb (dim b) 0 = false) by (unfold dim; destruct (t_shape b); [congruence|reflexivity]). rewrite Da, Db.
    set (n := width A). destruct (infer A [n; n]) as [R|] eqn:Ei; [|reflexivity]. cbn [bind]. destruct (Nat.eqb (dim b) (dim A - 1)).
    - destruct (infer b [n]) as [br|] eqn:Eb; [|reflexivity]. cbn [bind]. pose proof (infer_ok b [n] br Wb Eb) as L. cbn in L. rewrite Nat.mul_1_r in L.
      rewrite (linear_same A n R br (mkT [br; n] (t_data b) (t_dev b)) (map (fun i => row_data n i (t_data b)) (seq 0 br)) cfg Ei eq_refl eq_refl (rows_sheet br n _ L) F1 F2).
      destruct (fst (krylov_solve _ _ _ _ _ _ _ _)) as [res|]; reflexivity.
    - set (m := width b). destruct (infer b [n; m]) as [br|] eqn:Eb; [|reflexivity]. cbn [bind]. pose proof (infer_ok b [n; m] br Wb Eb) as L. cbn in L. rewrite Nat.mul_1_r in L.
      rewrite (mapM_bind _ (fun j => let* res := fst (krylov_solve binary64 rsum edot tri (dense_matvec edot n (t_data A) R) (fun r => Ok r) (pick n m br j (t_data b)) cfg) in Ok (kr_du res))); [reflexivity|].
      intros j Ij. apply in_seq in Ij.
      assert (Sp : sheet br n (pick n m br j (t_data b))).
      { split; [unfold pick; rewrite map_length; apply seq_length|]. rewrite Forall_forall. intros x Ix. apply In_nth_error in Ix as [i Hi].
        assert (i < br) by (assert (Hn : nth_error (pick n m br j (t_data b)) i <> None) by congruence; apply nth_error_Some in Hn; unfold pick in Hn; rewrite map_length, seq_length in Hn; exact Hn).
        destruct (pick_row rsum edot tri n m br j (t_data b) i L ltac:(lia) ltac:(lia)) as (v & Ev & Lv & _). rewrite Ev in Hi. injection Hi as <-. exact Lv. }
      set (B := mkT [br; n] (concat (pick n m br j (t_data b))) (t_dev b)).
      assert (Rb : rows_of B = Ok (pick n m br j (t_data b))).
      { unfold rows_of, B. cbn [t_shape t_data]. f_equal. destruct Sp as [Lp Fp]. transitivity (map (fun i => row_data n i (concat (pick n m br j (t_data b)))) (seq 0 (length (pick n m br j (t_data b))))); [rewrite Lp; reflexivity|]. apply concat_row. exact Fp. }
      rewrite (linear_same A n R br B _ cfg Ei eq_refl Rb Sp F1 F2). destruct (krylov_solve _ _ _ _ _ _ _ _) as [[res|] l] eqn:Ek; [|reflexivity]. cbn [fst bind].
      apply (sheet_matrix br n B); [reflexivity|]. eapply solve_sheet; [exact Sp|exact Ek].
  Qed.
End Linear.

(** ** Settings *)
Lemma in_size_dec z : in_size z \/ ~ in_size z.
Proof. unfold in_size. lia. Qed.
Lemma in_int64_dec z : in_int64 z \/ ~ in_int64 z.
Proof. unfold in_int64. lia. Qed.
Lemma newton_args_takes p : newton_fits p -> exists cfg, newton_args p = Ok cfg /\ newton_says p cfg.
Proof.
  intros [A B]. unfold newton_args. rewrite (as_size_ok _ A), (as_size_ok _ B). cbn [bind]. eexists. split; [reflexivity|].
  destruct A, B. repeat split; cbn; apply Z2Nat.id; assumption.
Qed.
Lemma newton_args_refuses p : ~ newton_fits p -> newton_args p = Err type_error.
Proof.
  intros H. unfold newton_args. destruct (in_size_dec (pn_miters p)) as [A|A]; [|rewrite (as_size_err _ A); reflexivity]. rewrite (as_size_ok _ A). cbn [bind].
  destruct (in_size_dec (pn_ls_max_iters p)) as [B|B]; [|rewrite (as_size_err _ B); reflexivity]. exfalso. apply H. split; assumption.
Qed.
Lemma krylov_args_refuses q : ~ krylov_fits q -> krylov_args q = Err type_error.
Proof.
  intros H. unfold krylov_args. destruct (in_int64_dec (pk_restart q)) as [A|A]; [|rewrite (as_int64_err _ A); reflexivity]. rewrite (as_int64_ok _ A). cbn [bind].
  destruct (in_int64_dec (pk_max_its q)) as [B|B]; [|rewrite (as_int64_err _ B); reflexivity]. rewrite (as_int64_ok _ B). cbn [bind].
  destruct (in_int64_dec (pk_cache_max_its q)) as [C|C]; [|rewrite (as_int64_err _ C); reflexivity]. exfalso. apply H. repeat split; first [apply A|apply B|apply C].
Qed.
Lemma parse_method_some s m : parse_method s = Some m -> s = method_name m.
Proof. unfold parse_method. destruct (String.eqb_spec s "gmres") as [->|]; [intros H; injection H as <-; reflexivity|]. destruct (String.eqb_spec s "bicgstab") as [->|]; [|discriminate]. intros H; injection H as <-; reflexivity. Qed.
Lemma parse_cache_some s c : parse_cache s = Some c -> s = cache_name c.
Proof.
  unfold parse_cache. destruct (String.eqb_spec s "none") as [->|]; [intros H; injection H as <-; reflexivity|]. destruct (String.eqb_spec s "chord") as [->|]; [intros H; injection H as <-; reflexivity|].
  destruct (String.eqb_spec s "max_its") as [->|]; [|discriminate]. intros H; injection H as <-; reflexivity.
Qed.
Lemma krylov_args_takes q : krylov_fits q -> (exists m, pk_method q = method_name m) -> (exists c, pk_cache q = cache_name c) ->
  exists cfg, krylov_args q = Ok cfg /\ krylov_says q cfg.
Proof.
  intros Fq [m Hm] [c Hc]. exists (mkKcfg m c (pk_restart q) (pk_max_its q) (pk_abs_tol q) (pk_rel_tol q) (pk_cache_max_its q)).
  assert (S : krylov_says q (mkKcfg m c (pk_restart q) (pk_max_its q) (pk_abs_tol q) (pk_rel_tol q) (pk_cache_max_its q))) by (repeat split; assumption).
  split; [exact (krylov_args_ok q _ Fq S)|exact S].
Qed.
Lemma settings_taken fsum tmax tmin say is_on rsum edot tri res stp mat setup apply U R u0 p log q :
  (newton_fits p -> exists cfg, newton_args p = Ok cfg /\ newton_says p cfg) /\
  (krylov_fits q -> (exists m, pk_method q = method_name m) -> (exists c, pk_cache q = cache_name c) -> exists cfg, krylov_args q = Ok cfg /\ krylov_says q cfg) /\
  (~ newton_fits p ->
     newton_solve_eager fsum tmax tmin say is_on res stp U R u0 p log = Err type_error /\
     newton_solve_eager_masked fsum tmax tmin say is_on res stp U R u0 p = Err type_error /\
     krylov_solve_eager fsum tmax tmin say is_on rsum edot tri res mat setup apply U R u0 p log q = Err type_error) /\
  (newton_fits p -> ~ krylov_fits q -> krylov_solve_eager fsum tmax tmin say is_on rsum edot tri res mat setup apply U R u0 p log q = Err type_error) /\
  (newton_fits p -> krylov_fits q -> ~ ((exists m, pk_method q = method_name m) /\ (exists c, pk_cache q = cache_name c)) ->
     exists m, krylov_solve_eager fsum tmax tmin say is_on rsum edot tri res mat setup apply U R u0 p log q = Err (Fatal m)).
Proof.
  split; [apply newton_args_takes|]. split; [apply krylov_args_takes|]. split; [|split].
  - intros H. unfold newton_solve_eager, newton_solve_eager_masked, krylov_solve_eager. rewrite (newton_args_refuses p H). repeat split.
  - intros Fp H. destruct (newton_args_takes p Fp) as [cfg [E _]]. unfold krylov_solve_eager. rewrite E, (krylov_args_refuses q H). reflexivity.
  - intros Fp (A & B & C) H. destruct (newton_args_takes p Fp) as [cfg [E _]]. unfold krylov_solve_eager. rewrite E. cbn [bind]. unfold krylov_args.
    rewrite (as_int64_ok _ A), (as_int64_ok _ B), (as_int64_ok _ C). cbn [bind].
    destruct (parse_method (pk_method q)) as [m|] eqn:Em; [|eexists; reflexivity]. destruct (parse_cache (pk_cache q)) as [c|] eqn:Ec; [|eexists; reflexivity].
    exfalso. apply H. split; [exists m; apply parse_method_some, Em|exists c; apply parse_cache_some, Ec].
Qed.
Lemma any_name fsum tmax tmin say is_on res stp U R u0 p log t : t <> "STRONG_WOLFE"%string ->
  let named t := mkPN (pn_atol p) (pn_rtol p) (pn_miters p) t (pn_ls_max_iters p) (pn_ls_cutback p) (pn_ls_c p) (pn_del_tol p) in
  newton_solve_eager fsum tmax tmin say is_on res stp U R u0 (named t) log = newton_solve_eager fsum tmax tmin say is_on res stp U R u0 (named "BACKTRACKING"%string) log.
Proof.
  intros H named. unfold newton_solve_eager, newton_args, named. cbn [pn_atol pn_rtol pn_miters pn_ls_type pn_ls_max_iters pn_ls_cutback pn_ls_c pn_del_tol].
  destruct (as_size (pn_miters p)) as [a|]; [|reflexivity]. cbn [bind]. destruct (as_size (pn_ls_max_iters p)) as [b|]; [|reflexivity]. cbn [bind]. unfold run_eager_newton.
  rewrite (run_ext fsum tmax tmin say is_on _ (mkCfg (pn_atol p) (pn_rtol p) a "BACKTRACKING"%string b (pn_ls_cutback p) (pn_ls_c p) (pn_del_tol p)) log _ (eager_system res stp U R) u0); [reflexivity| |].
  - repeat split. cbn [cf_ls_type]. apply String.eqb_neq in H. rewrite H. reflexivity.
  - repeat split.
Qed.
