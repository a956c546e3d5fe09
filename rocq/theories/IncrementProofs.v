(** Proofs about the Newton steps of implicit segments. *)
From Verif Require Import Base BaseProofs Tensor TensorProofs Spec Float Newton SpecNewton NewtonProofs MaskedProofs Broadcast SpecBroadcast BroadcastProofs
     SpecMap SmapProofs Pack SpecPack PackProofs Implicit ImplicitProofs Substep Jac JacModel FwdModel
     Krylov SpecKrylov KrylovProofs KrylovCostProofs KrylovRowProofs KrylovGmresProofs KrylovExactProofs KrylovSoloProofs KrylovBudgetProofs
     KrylovSystem SpecKrylovSystem KrylovFlatProofs KrylovCacheProofs KrylovDenseProofs SpecKrylovStep KrylovStepProofs
     SystemAoti SpecSolved SolvedProofs SpecIncrement.

(** ** The solution of a Krylov solve has the shape of its right-hand side *)
Section Sheet.
  Context {V : Type}.
  Variable N : num V.
  Variable rsum : list V -> V.
  Variable edot : list V -> list V -> V.
  Variable tri : list (list V) -> list V -> list V.
  Notation vec := (list V).
  Variable rows n : nat.
  Variable f g : list vec -> result (list vec).

  Lemma call_sheet h c x y l : sheet rows n x -> call_op (V:=V) h c x = (Ok y, l) -> sheet rows n y.
  Proof.
    intros Sx H. unfold call_op in H. destruct (h x) as [z|]; [|discriminate]. cbn [bind] in H. destruct (like x z) eqn:L; [|discriminate].
    injection H as <- _. eapply like_sheet; eassumption.
  Qed.
  Lemma kbind_ok {A B} (x : kio V A) (k : A -> kio V B) y l : kbind x k = (Ok y, l) -> exists a l1 l2, x = (Ok a, l1) /\ k a = (Ok y, l2).
  Proof.
    destruct x as [[a|e] l1]; [|discriminate]. cbn [kbind]. destruct (k a) as [r l2] eqn:E. intros H. injection H as -> <-. exists a, l1, l2. split; [reflexivity|exact E].
  Qed.

  Lemma bicg_sheet cfg b more st st' l : sheet rows n b -> length st = rows -> Forall (brow_ok n) st ->
    bicg_loop N rsum edot f g cfg b more st = (Ok st', l) -> length st' = rows /\ Forall (brow_ok n) st'.
  Proof.
    intros Hb. revert st l. induction more as [|more IH]; intros st l L F H; cbn [bicg_loop] in H; [injection H as <- _; auto|].
    destruct (all_done st); [injection H as <- _; auto|]. cbv zeta in H.
    assert (Sp : sheet rows n (map2 (bicg_p N edot) b st)) by (eapply sheet_map2; eauto; intros x a; apply bicg_p_len).
    apply kbind_ok in H as (ph & l1 & l2 & E1 & H). pose proof (call_sheet _ _ _ _ _ Sp E1) as Sph.
    apply kbind_ok in H as (v & l3 & l4 & E2 & H). pose proof (call_sheet _ _ _ _ _ Sph E2) as Sv.
    set (s := map2 (fun q st => bicg_s N edot (fst q) (snd q) st) (combine b v) st) in H.
    assert (Ss : sheet rows n s).
    { split; [apply map2_same; [apply combine_same|]; try apply Hb; try apply Sv; auto|].
      apply nth_forall. intros i r E. unfold s in E. rewrite map2_nth, combine_nth in E.
      destruct (nth_error b i) as [x|] eqn:Eb; [|discriminate].
      destruct (nth_error v i) as [vi|] eqn:Ev; [|discriminate].
      destruct (nth_error st i) as [a|] eqn:Es; [|discriminate]. injection E as <-.
      apply bicg_s_len; [exact (sheet_row _ _ _ _ _ Sv Ev)|exact (forall_nth _ _ _ _ F Es)]. }
    apply kbind_ok in H as (sh & l5 & l6 & E3 & H). pose proof (call_sheet _ _ _ _ _ Ss E3) as Ssh.
    apply kbind_ok in H as (t & l7 & l8 & E4 & H). pose proof (call_sheet _ _ _ _ _ Ssh E4) as St.
    eapply IH; [| |exact H].
    - apply map2_same; [|exact L].
      repeat apply combine_same; try apply Hb; try apply Sp; try apply Sph; try apply Sv; try apply Ssh; apply St.
    - apply nth_forall. intros i s1 E. rewrite map2_nth, !combine_nth in E.
      destruct (nth_error b i) as [x|] eqn:Eb; [|discriminate].
      destruct (nth_error (map2 (bicg_p N edot) b st) i) as [pi|] eqn:Ep; [|discriminate].
      destruct (nth_error ph i) as [phi|] eqn:Eph; [|discriminate].
      destruct (nth_error v i) as [vi|] eqn:Ev; [|discriminate].
      destruct (nth_error sh i) as [shi|] eqn:Esh; [|discriminate].
      destruct (nth_error t i) as [ti|] eqn:Et; [|discriminate].
      destruct (nth_error st i) as [a|] eqn:Es; [|discriminate]. injection E as <-.
      apply bicg_update_ok; [exact (sheet_row _ _ _ _ _ Sp Ep)|exact (sheet_row _ _ _ _ _ Sph Eph)|exact (sheet_row _ _ _ _ _ Sv Ev)
        |exact (sheet_row _ _ _ _ _ Ssh Esh)|exact (sheet_row _ _ _ _ _ St Et)|exact (forall_nth _ _ _ _ F Es)].
  Qed.

  Lemma gmres_loop_sheet cfg b m first cycles st st' l : sheet rows n b -> length st = rows -> Forall (fun s => length (gr_x s) = n) st ->
    gmres_loop N rsum edot tri f g cfg b m first cycles st = (Ok st', l) -> length st' = rows /\ Forall (fun s => length (gr_x s) = n) st'.
  Proof.
    intros Hb. revert first st l. induction cycles as [|cycles IH]; intros first st l L F H; cbn [gmres_loop] in H; [injection H as <- _; auto|].
    apply kbind_ok in H as (r & l1 & l2 & E1 & H).
    pose proof (proj2 (residual_same N rows n f f g g (fun _ _ => eq_refl) (fun _ _ => eq_refl) b first st Hb L F) r l1 E1) as Sr.
    destruct (gmres_begin_ok N rsum rows n cfg b r st Hb Sr L F) as [L1 F1]. cbv zeta in H.
    assert (Len : forall s, Forall (grow_ok n) s -> Forall (fun s : grow V => length (gr_x s) = n) s) by (intros s; apply Forall_impl; intros x [A _]; exact A).
    destruct (forallb gr_done _); [injection H as <- _; split; [exact L1|apply Len, F1]|].
    apply kbind_ok in H as (st2 & l3 & l4 & E2 & H).
    destruct (proj2 (cycle_same N rsum edot rows n f f g g (fun _ _ => eq_refl) (fun _ _ => eq_refl) cfg b m _ Hb L1 F1) st2 l3 E2) as [L2 F2].
    eapply IH; [| |exact H]; [rewrite map_length; exact L2|].
    rewrite Forall_map. eapply Forall_impl; [|exact F2]. intros s [Lx _]. cbn [gmres_correct gr_x].
    apply vadd_len; [exact Lx|]. rewrite combination_len. exact Lx.
  Qed.

  Lemma solve_sheet b cfg res l : sheet rows n b -> krylov_solve N rsum edot tri f g b cfg = (Ok res, l) -> sheet rows n (kr_du res).
  Proof.
    intros Hb H. assert (F0 : Forall (fun s : grow V => length (gr_x s) = n) (map (gmres_start N) b)).
    { rewrite Forall_map. eapply Forall_impl; [|apply Hb]. intros x Lx. cbn in *. unfold zeros. rewrite map_length. exact Lx. }
    assert (L0 : length (map (gmres_start N) b) = rows) by (rewrite map_length; apply Hb).
    unfold krylov_solve in H. destruct (k_method cfg).
    - unfold gmres in H. apply kbind_ok in H as (c & l1 & l2 & _ & H). cbv zeta in H. apply kbind_ok in H as (st & l3 & l4 & E & H).
      assert (Q : length st = rows /\ Forall (fun s => length (gr_x s) = n) st).
      { destruct (_ && _); [|exact (gmres_loop_sheet _ _ _ _ _ _ _ _ Hb L0 F0 E)].
        apply kbind_ok in E as (r & l5 & l6 & E1 & E). pose proof (call_sheet _ _ _ _ _ Hb E1) as Sr.
        destruct (gmres_begin_ok N rsum rows n cfg b r (map (gmres_start N) b) Hb Sr L0 F0) as [L1 F1].
        destruct (forallb gr_done _); [|discriminate]. injection E as <- _. split; [exact L1|]. eapply Forall_impl; [|exact F1]. intros x [A _]. exact A. }
      unfold finish in H. destruct (map gr_iters st); [discriminate|]. injection H as <- _. cbn [kr_du].
      split; [rewrite map_length; apply Q|rewrite Forall_map; apply Q].
    - unfold bicgstab in H. apply kbind_ok in H as (st & l1 & l2 & E & H).
      apply bicg_sheet in E; [|exact Hb|rewrite map_length; apply Hb|apply (bicg_start_ok N rsum rows n); exact Hb].
      unfold finish in H. destruct (map br_iters st); [discriminate|]. injection H as <- _. cbn [kr_du].
      split; [rewrite map_length; apply E|rewrite Forall_map]. eapply Forall_impl; [|apply E]. intros x [A _]. exact A.
  Qed.
End Sheet.

(** ** One Krylov step *)
Lemma sheet_groups dyn d (b : list (tensor F)) rws : dense_groups dyn d b rws -> sheet (numel dyn) (sum_of rws) (sheet_of dyn b).
Proof.
  intros Gb. split; [unfold sheet_of; rewrite map_length, seq_length; reflexivity|]. unfold sheet_of. rewrite Forall_map. apply Forall_forall. intros i I. apply in_seq in I.
  rewrite row_entries_width. clear - Gb I. induction Gb as [|t w ts ws [W [_ S]] _ IH]; [reflexivity|]. cbn [flat_map sum_of fold_right]. rewrite app_length.
  f_equal; [|exact IH]. assert (Ew : width t = w) by (unfold width; rewrite S; apply last_last). rewrite Ew.
  apply (row_data_len _ _ (numel dyn)); [|lia]. rewrite W, S, numel_app, numel_one. reflexivity.
Qed.
Lemma sheet_matrix_of k n (m : tensor F) x : t_shape m = [k; n] -> rows_of m = Ok x -> sheet_of [k] [m] = x.
Proof.
  intros E R. unfold rows_of in R. rewrite E in R. injection R as <-. unfold sheet_of. rewrite numel_one. apply map_ext. intros i.
  rewrite row_entries_width. cbn [flat_map]. rewrite app_nil_r. unfold width. rewrite E. reflexivity.
Qed.

Section Step.
  Variable rsum : list F -> F.
  Variable edot : list F -> list F -> F.
  Variable tri : list (list F) -> list F -> list F.
  Variable s : ksystem F.
  Variable u : list (tensor F).
  Variable dyn : list nat.
  Variable d : device.
  Variable rws : list nat.
  Notation uws := (map width u).
  Notation n := (sum_of rws).
  Hypothesis square : sum_of uws = n.
  Hypothesis res_ok : forall b, ks_res s u = Ok b -> dense_groups dyn d b rws.
  Hypothesis mat_ok : forall v w, dense_groups dyn d v uws -> ks_mat s u v = Ok w -> dense_groups dyn d w rws.

  Lemma matvec_stands bf : u <> [] -> t_shape bf = [numel dyn; n] -> t_dev bf = d -> all_dense (ks_residual s) ->
    stands_for dyn d uws rws (ks_mat s u) (guarded (numel dyn) n (flat_matvec s u (mkSpec dyn uws (sum_of uws)) bf)).
  Proof.
    intros NE Sb Db AD x y H. unfold guarded in H. destruct (sheetb _ _ x) eqn:Sx; [|discriminate]. apply sheetb_true in Sx.
    unfold flat_matvec in H. destruct (sheet_matrix (numel dyn) n bf x Sb Sx) as (W & D & Sh & R).
    destruct (matrix_groups dyn d (of_rows bf x) uws x ltac:(destruct u; [contradiction|discriminate]) W ltac:(congruence) ltac:(rewrite square; exact Sh) R) as (ts & U & G & Ro).
    rewrite U in H. cbn [bind] in H. destruct (ks_mat s u ts) as [jv|] eqn:Ej; [|discriminate]. cbn [bind] in H.
    pose proof (mat_ok ts jv G Ej) as Gj.
    destruct (flatten_dense jv (ks_residual s)) as [[f sp]|] eqn:Ef; [|discriminate]. cbn [bind] in H.
    destruct (spec_widths _ _ _ _ Ef) as (Nj & Lj & _). rewrite (flatten_ok dyn d jv rws _ Nj Lj AD Gj) in Ef. injection Ef as <- _.
    rewrite (flat_rows dyn d jv rws Nj Gj) in H. injection H as <-.
    exists ts, jv. split; [exact G|]. split; [exact Ro|]. split; [exact Ej|]. split; [exact Gj|]. reflexivity.
  Qed.

  Lemma minv_stands bf p setup apply : t_shape bf = [numel dyn; n] -> t_dev bf = d -> ks_precond s = Some (setup, apply) ->
    (forall r z, dense_groups [numel dyn] d [r] [n] -> apply p r = Ok z -> dense_groups [numel dyn] d [z] [n]) ->
    stands_for [numel dyn] d [n] [n] (fun r => match r with [t] => rmap (fun z => [z]) (apply p t) | _ => Err (Fatal "") end)
      (guarded (numel dyn) n (flat_minv s p bf)).
  Proof.
    intros Sb Db EP Hp x y H. unfold guarded in H. destruct (sheetb _ _ x) eqn:Sx; [|discriminate]. apply sheetb_true in Sx.
    unfold flat_minv in H. rewrite EP in H. destruct (sheet_matrix (numel dyn) n bf x Sb Sx) as (W & D & Sh & R).
    assert (Gr : dense_groups [numel dyn] d [of_rows bf x] [n]) by (constructor; [split; [exact W|split; [congruence|exact Sh]]|constructor]).
    destruct (apply p (of_rows bf x)) as [z|] eqn:Ez; [|discriminate]. cbn [bind] in H. pose proof (Hp _ z Gr Ez) as Gz.
    assert (Sz : t_shape z = [numel dyn; n]) by (inversion Gz as [|? ? ? ? [_ [_ Q]] _]; exact Q).
    exists [of_rows bf x], [z]. split; [exact Gr|]. split; [apply (sheet_matrix_of _ n); assumption|]. rewrite Ez. split; [reflexivity|]. split; [exact Gz|].
    apply (sheet_matrix_of _ n); assumption.
  Qed.

  Lemma kstep_stands st du b st' l :
    kstep binary64 rsum edot tri s u st = (Ok (du, b), st', l) ->
    (forall setup apply, ks_precond s = Some (setup, apply) ->
       forall r z, dense_groups [numel dyn] d [r] [n] -> apply (st_precond st') r = Ok z -> dense_groups [numel dyn] d [z] [n]) ->
    exists op mi res calls,
      ks_res s u = Ok b /\ dense_groups dyn d b rws /\
      krylov_solve binary64 rsum edot tri op mi (sheet_of dyn b) (ks_cfg s) = (Ok res, calls) /\
      stands_for dyn d uws rws (ks_mat s u) op /\
      match ks_precond s with
      | None => forall x y, mi x = Ok y -> y = x
      | Some (_, apply) => stands_for [numel dyn] d [n] [n] (fun r => match r with [t] => rmap (fun z => [z]) (apply (st_precond st') t) | _ => Err (Fatal "") end) mi
      end /\
      sheet_of dyn du = kr_du res /\ dense_groups dyn d du uws /\
      st_last st' = Z.of_nat (kr_iters res) /\ all_dense (ks_unknown s) /\ all_dense (ks_residual s).
  Proof.
    intros H Hp. destruct (step_parts _ _ _ _ _ _ _ _ _ _ _ H) as (bf & bspec & uf & uspec & rows & st1 & l1 & res & calls & AU & AR & Er & Eb & Eu & Ero & Ef & Ek & Ed & -> & ->).
    pose proof (res_ok b Er) as Gb. destruct (spec_widths _ _ _ _ Eb) as (Nb & Lb & _). destruct (spec_widths _ _ _ _ Eu) as (Nu & _ & Wu & Su).
    rewrite (flatten_ok dyn d b rws _ Nb Lb AR Gb) in Eb. injection Eb as <- <-. cbn [fs_batch] in *. rewrite Wu, Su in *.
    rewrite (flat_rows dyn d b rws Nb Gb) in Ero. injection Ero as <-.
    destruct (dense_parts _ _ _ _ Gb) as [Pb Wb].
    assert (Sb : t_shape (flat_of dyn d b) = [numel dyn; n]) by (unfold flat_of, joined; cbn [t_shape app]; rewrite total_matrix, Wb; reflexivity).
    assert (Db : t_dev (flat_of dyn d b) = d) by reflexivity.
    cbn [st_precond] in Hp |- *. change (map (fun i => row_entries i b) (seq 0 (numel dyn))) with (sheet_of dyn b) in Ek.
    pose proof (sheet_groups dyn d b rws Gb) as Sh.
    rewrite (solve_same binary64 rsum edot tri (numel dyn) n _ (guarded (numel dyn) n (flat_matvec s u (mkSpec dyn uws (sum_of uws)) (flat_of dyn d b)))
      _ (guarded (numel dyn) n (flat_minv s (st_precond st1) (flat_of dyn d b)))) in Ek; [|intros x; apply guarded_same|intros x; apply guarded_same|exact Sh].
    pose proof (solve_sheet _ _ _ _ _ _ _ _ _ _ _ _ Sh Ek) as Sdu.
    destruct (sheet_matrix (numel dyn) n (flat_of dyn d b) (kr_du res) Sb Sdu) as (W & D & Shp & R).
    destruct (matrix_groups dyn d (of_rows (flat_of dyn d b) (kr_du res)) uws (kr_du res) ltac:(destruct u; [contradiction|discriminate]) W ltac:(congruence)
      ltac:(rewrite square; exact Shp) R) as (ts & U & G & Ro).
    rewrite Ed in U. injection U as <-.
    do 4 eexists. split; [exact Er|]. split; [exact Gb|]. split; [exact Ek|]. split; [apply matvec_stands; assumption|].
    split; [|split; [exact Ro|split; [exact G|split; [reflexivity|split; assumption]]]].
    destruct (ks_precond s) as [[setup apply]|] eqn:EP.
    - eapply minv_stands; [exact Sb|exact Db|exact EP|]. apply (Hp setup apply eq_refl).
    - intros x y E. unfold guarded in E. destruct (sheetb _ _ x); [|discriminate]. unfold flat_minv in E. rewrite EP in E. congruence.
  Qed.
End Step.

(** ** Groups of an all-dense metadata *)
Lemma dense_block G : all_dense (layouts G) -> Forall (fun g => is_block g = false) G.
Proof.
  unfold all_dense, layouts. rewrite Forall_map. intros H. eapply Forall_impl; [|exact H]. intros g N. cbn [gl_structure] in N.
  unfold is_block. destruct (String.eqb _ _) eqn:E; [|reflexivity]. apply String.eqb_eq in E. contradiction.
Qed.
Lemma group_shape g dyn d (t : tensor F) : is_block g = false -> group_tensor g dyn d t -> t_shape t = dyn ++ [width_of g (g_vars g)].
Proof. intros B (_ & _ & S). rewrite S. unfold axes. unfold is_block in B. rewrite B, app_nil_r. reflexivity. Qed.
Lemma width_groups G dyn ts : all_dense (layouts G) -> on_batch G dyn ts -> map width ts = widths G.
Proof.
  intros A H. apply dense_block in A. induction H as [|g t G ts [d Ht] _ IH]; [reflexivity|]. inversion A as [|? ? B A']; subst.
  cbn [map widths]. f_equal; [|exact (IH A')]. unfold width. rewrite (group_shape g dyn d t B Ht). apply last_last.
Qed.
Lemma groups_dense G dyn d ts : all_dense (layouts G) -> on_batch G dyn ts -> Forall (fun t => t_dev t = d) ts -> dense_groups dyn d ts (widths G).
Proof.
  intros A H D. apply dense_block in A. induction H as [|g t G ts [d' Ht] _ IH]; [constructor|]. inversion A as [|? ? B A']; subst. inversion D as [|? ? D1 D']; subst.
  constructor; [|exact (IH A' D')]. split; [apply Ht|]. split; [reflexivity|exact (group_shape g dyn _ t B Ht)].
Qed.
Lemma trail_width G : all_dense (layouts G) -> map (fun g => gsize g) G = widths G.
Proof.
  intros A. apply dense_block in A. unfold widths. apply map_ext_in. intros g I. rewrite Forall_forall in A. specialize (A g I).
  rewrite gsize_entries. unfold axes. unfold is_block in A. rewrite A. cbn. lia.
Qed.

(** ** What the steps of a segment know *)
Section Run.
  Variable cfg : config.
  Variable s : solver_seg.
  Variable d : device.
  Variable dyn : list nat.
  Variable gs ps us0 : list (tensor F).
  Hypothesis faith : faithful s d.
  Notation U := (ss_unknown_groups s).
  Notation R := (ss_residual_groups s).
  Notation sys := (make_system s gs ps).
  Hypothesis devs_len : length us0 = length U.
  Notation devs := (map t_dev us0).
  Notation tg := (to_groups U dyn devs).
  Notation rsys := (row_system sys dyn devs).

  (** The cache after the steps at [points]. *)
  Definition cache_known (points : list (list (tensor F))) (its : list Z) : Prop :=
    length its = length points /\
    match ss_kind s with
    | Direct _ _ => True
    | MatrixFree rsum edot tri kcfg mat pre =>
        let k := krylov_ops U R gs ps (ss_residual_graph s) kcfg mat pre in
        match pre with
        | None => True
        | Some (setup, _) => cached k (fun u => setup (u ++ gs ++ ps)) points its (cache_after rsum edot tri k points)
        end
    end.

  Lemma cache_snoc rsum edot tri k points u : cache_after rsum edot tri k (points ++ [u]) =
    snd (fst (kstep binary64 rsum edot tri k u (cache_after rsum edot tri k points))).
  Proof. unfold cache_after. rewrite fold_left_app. reflexivity. Qed.

  Lemma last_rebuilt_prefix (k : ksystem F) its more i j : i <= length its ->
    last_rebuilt (k_cache (ks_cfg k)) (k_cache_max_its (ks_cfg k)) (its ++ more) i j ->
    last_rebuilt (k_cache (ks_cfg k)) (k_cache_max_its (ks_cfg k)) its i j.
  Proof.
    intros L (A & B & C). split; [exact A|]. split; [apply (rebuilt_prefix k its more j ltac:(lia)); exact B|].
    intros q Hq Q. apply (C q Hq). apply (rebuilt_prefix k its more q ltac:(lia)). exact Q.
  Qed.

  Lemma step_increment points its u du b : cache_known points its -> Forall (on_batch U dyn) points -> on_batch U dyn u ->
    (exists r, ss_residual_graph s (u ++ gs ++ ps) = Ok r /\ on_batch R dyn r) ->
    map (fun g => gsize g) R = map (fun g => gsize g) U ->
    gs_step sys points u = Ok (du, b) ->
    exists k, increment s dyn d gs ps points its u du k /\ cache_known (points ++ [u]) (its ++ [k]).
  Proof.
    intros [LC C] PB UB (r & Er & RB) SQ H. unfold increment, cache_known in *. unfold faithful in faith. unfold make_system in H.
    destruct (ss_kind s) as [jac sol|rsum edot tri kcfg mat pre].
    - exists 0%Z. split; [|split; [rewrite !app_length; cbn; lia|exact I]]. unfold aoti_system in H. cbn [gs_step] in H. unfold build_inputs in H.
      destruct (jac _) as [J|] eqn:EJ; [|discriminate]. cbn [bind] in H.
      destruct (length J =? _) eqn:EL; [|discriminate]. cbn [assert_ bind] in H. apply Nat.eqb_eq in EL.
      destruct (sol J) as [x|] eqn:Es; [|discriminate]. cbn [bind] in H. destruct (length x =? _); [|discriminate]. cbn [assert_ bind] in H. injection H as <- _.
      exists J. auto.
    - set (k := krylov_ops U R gs ps (ss_residual_graph s) kcfg mat pre) in *. cbn [krylov_system gs_step] in H.
      destruct (kstep binary64 rsum edot tri k u (cache_after rsum edot tri k points)) as [[rr st'] l] eqn:Ek. cbn [fst] in H. subst rr.
      destruct (step_parts _ _ _ _ _ _ _ _ _ _ _ Ek) as (bf & bspec & uf & uspec & rows & st1 & l1 & res & calls & AU & AR & _).
      change (ks_unknown k) with (layouts U) in AU. change (ks_residual k) with (layouts R) in AR.
      destruct (faith dyn u gs ps UB) as (Fr & Fm & _).
      pose proof (width_groups U dyn u AU UB) as Wu.
      assert (SQ' : sum_of (map width u) = sum_of (widths R)) by (rewrite Wu, <- (trail_width U AU), <- (trail_width R AR), SQ; reflexivity).
      assert (Known : forall setup apply, pre = Some (setup, apply) ->
        cached k (fun v => setup (v ++ gs ++ ps)) (points ++ [u]) (its ++ [st_last st']) st').
      { intros setup apply ->. cbn [ss_kind] in C.
        destruct (kstep_inv binary64 rsum edot tri k _ _ u _ _ _ _ eq_refl Ek) as (_ & _ & I3). specialize (I3 eq_refl).
        destruct I3 as (p & cs & q & _ & Est & Hp). rewrite Est. cbn [st_last]. eapply (cached_step k _ _ _ _ _ _ _ _ _ eq_refl C eq_refl). exact Hp. }
      assert (Pre : forall setup apply, pre = Some (setup, apply) ->
        exists j v, last_rebuilt (k_cache kcfg) (k_cache_max_its kcfg) its (length points) j /\ nth_error (points ++ [u]) j = Some v /\
          setup (v ++ gs ++ ps) = Ok (st_precond st') /\
          forall r0 z, dense_groups [numel dyn] d [r0] [sum_of (widths U)] -> apply (st_precond st' ++ [r0]) = Ok [z] -> dense_groups [numel dyn] d [z] [sum_of (widths U)]).
      { intros setup apply E. destruct (Known setup apply E) as [_ K]. destruct (its ++ [st_last st']) as [|z0 l0] eqn:Ei; [destruct its; discriminate|].
        destruct K as (_ & _ & j & v & Lr & Nv & Sv). exists j, v. rewrite <- Ei in Lr. replace (length (its ++ [st_last st']) - 1) with (length points) in Lr by (rewrite app_length; cbn; lia).
        split; [eapply (last_rebuilt_prefix k its); [lia|exact Lr]|]. split; [exact Nv|]. split; [exact Sv|].
        assert (Bv : on_batch U dyn v).
        { apply nth_error_In, in_app_or in Nv. destruct Nv as [Nv|[<-|[]]]; [|exact UB]. rewrite Forall_forall in PB. exact (PB v Nv). }
        destruct (faith dyn v gs ps Bv) as (_ & _ & Fp). rewrite E in Fp. intros r0 z. exact (Fp _ r0 z Sv). }
      destruct (kstep_stands rsum edot tri k u dyn d (widths R) SQ') with (st := cache_after rsum edot tri k points) (du := du) (b := b) (st' := st') (l := l)
        as (op & mi & kr & cl & E1 & E2 & E3 & E4 & E5 & E6 & E7 & E8 & _ & _).
      + intros b0 Eb. change (ks_res k u) with (ss_residual_graph s (u ++ gs ++ ps)) in Eb. assert (b0 = r) by congruence. subst b0.
        apply groups_dense; [exact AR|exact RB|exact (Fr r Er)].
      + intros v w Gv Ew. rewrite Wu in Gv. change (ks_mat k u v) with (mat (build_inputs gs ps u ++ v)) in Ew. unfold build_inputs in Ew. rewrite <- !app_assoc in Ew.
        exact (Fm v w Gv Ew).
      + exact Ek.
      + intros setup' apply' EP. subst k. unfold krylov_ops in EP. cbn [ks_precond] in EP. destruct pre as [[setup apply]|]; [|discriminate]. injection EP as <- <-.
        destruct (Pre setup apply eq_refl) as (j & v & _ & _ & _ & Q). intros r0 z G0 Ez. rewrite <- SQ', Wu in G0 |- *. apply (Q r0 z G0).
        destruct (apply (st_precond st' ++ [r0])) as [[|z0 [|? ?]]|]; cbn [bind] in Ez; try discriminate. injection Ez as ->. reflexivity.
      + exists (st_last st'). split; [|split; [rewrite !app_length; cbn; lia|]].
        * exists b, op, mi, kr, cl. split; [exact E1|]. split; [exact E2|]. split; [exact E3|]. split.
          { rewrite Wu in E4. intros x y Hxy. destruct (E4 x y Hxy) as (v & w & G1 & G2 & G3 & G4). exists v, w. split; [exact G1|]. split; [exact G2|]. split; [|exact G4].
            change (ks_mat k u v) with (mat (build_inputs gs ps u ++ v)) in G3. unfold build_inputs in G3. rewrite <- !app_assoc in G3. exact G3. }
          split; [|split; [exact E6|exact E8]].
          unfold preconditions. clear E4 Ek. subst k. unfold krylov_ops in E5. cbn [ks_precond] in E5. destruct pre as [[setup apply]|]; [|exact E5].
          destruct (Pre setup apply eq_refl) as (j & v & L1 & L2 & L3 & _). exists j, v, (st_precond st'). split; [exact L1|]. split; [exact L2|]. split; [exact L3|].
          rewrite <- SQ', Wu in E5. intros x y Hxy. destruct (E5 x y Hxy) as (v1 & w1 & G1 & G2 & G3 & G4). exists v1, w1. split; [exact G1|]. split; [exact G2|]. split; [|exact G4].
          destruct v1 as [|t [|? ?]]; try discriminate. destruct (apply (st_precond st' ++ [t])) as [[|z0 [|? ?]]|]; cbn [bind rmap] in G3; try discriminate. exact G3.
        * destruct pre as [[setup apply]|]; [|exact I]. rewrite cache_snoc, Ek. cbn [fst snd]. exact (Known setup apply eq_refl).
  Qed.

  (** One iteration. *)
  Definition frozen_at (frozen : option (list bool)) (i : nat) : Prop := exists m, frozen = Some m /\ nth_error m i = Some true.
  Lemma freeze_nth frozen (du : batch) i x : (forall m, frozen = Some m -> length m = length du) -> nth_error du i = Some x ->
    (frozen_at frozen i -> nth_error (freeze frozen du) i = Some (stay x)) /\ (~ frozen_at frozen i -> nth_error (freeze frozen du) i = Some x).
  Proof.
    intros L E. destruct frozen as [m|]; cbn [freeze].
    - rewrite nth_map2, E. assert (Lm : i < length m) by (rewrite (L m eq_refl); apply nth_error_Some; congruence).
      destruct (nth_error m i) as [bit|] eqn:Em; [|apply nth_error_None in Em; lia]. split.
      + intros (m' & E' & B). injection E' as <-. replace bit with true by congruence. reflexivity.
      + intros NF. destruct bit; [exfalso; apply NF; exists m; auto|reflexivity].
    - split; [intros (m & C & _); discriminate|intros _; exact E].
  Qed.

  Variable stop : list (list (tensor F)) -> nat -> Prop.
  Definition here (hist : list batch) (its : list Z) (u : batch) : Prop :=
    newton_path cfg s stop dyn d gs ps us0 (map tg hist) its (tg u) /\ cache_known (map tg hist) its /\
    Forall (on_batch U dyn) (map tg hist) /\ shaped (sy_usizes rsys) u /\ length u = numel dyn.

  Lemma usizes_eq : sy_usizes rsys = map (fun g => gsize g) U.
  Proof. unfold row_system. cbn [sy_usizes]. rewrite make_unknown. reflexivity. Qed.
  Lemma tg_batch u : shaped (sy_usizes rsys) u -> length u = numel dyn -> on_batch U dyn (tg u).
  Proof. rewrite usizes_eq. intros Su L. apply groups_tensors; [rewrite map_length; exact devs_len|exact Su|exact L]. Qed.
  Lemma tg_rows u i : shaped (sy_usizes rsys) u -> length u = numel dyn -> i < numel dyn -> nth_error u i = Some (batch_row U i (tg u)).
  Proof.
    rewrite usizes_eq. intros Su L I. pose proof (rows_of_groups U dyn devs u ltac:(rewrite map_length; exact devs_len) Su L) as H.
    destruct (to_rows_ok _ _ _ _ H) as [_ E]. rewrite E at 1. apply (nth_rows (fun i => batch_row U i _)). exact I.
  Qed.

  Lemma iterate_groups fsum hist its u b frozen u' b' t : here hist its u ->
    sy_residual rsys u = Ok b -> length b = length u -> (forall m, frozen = Some m -> length m = length u) ->
    (forall i, i < numel dyn -> (frozen_at frozen i <-> stop (map tg (hist ++ [u])) i)) ->
    iterate fsum cfg rsys hist u b frozen = (Ok (u', b'), t) ->
    exists k, here (hist ++ [u]) (its ++ [k]) u' /\ sy_residual rsys u' = Ok b' /\ length b' = length u'.
  Proof.
    intros (Pa & Ca & Bs & Su & Lu) Rb Lb Lf Fz It.
    destruct (iterate_ok fsum cfg rsys hist u b frozen u' b' t Su Lb Lf It) as (du & Hs & Ld & Sd & SQ & R' & L' & _ & Lu' & Su' & A).
    assert (UB : on_batch U dyn (tg u)) by (apply tg_batch; assumption).
    destruct (row_residual sys dyn devs u _ b eq_refl Rb) as (r & Er & RB & _). rewrite make_unknown, make_res in Er. rewrite make_residual in RB.
    cbn [row_system sy_step] in Hs. rewrite make_unknown in Hs.
    destruct (gs_step sys (map tg hist) (tg u)) as [[dg bg]|] eqn:Eg; [|discriminate]. cbn [bind] in Hs.
    assert (SQ' : map (fun g => gsize g) R = map (fun g => gsize g) U) by (unfold row_system in SQ; cbn [sy_rsizes sy_usizes] in SQ; rewrite make_unknown, make_residual in SQ; exact SQ).
    destruct (step_increment (map tg hist) its (tg u) dg bg Ca Bs UB (ex_intro _ r (conj Er RB)) SQ' Eg) as (k & Inc & Ca').
    destruct (to_rows_ok _ _ _ _ Hs) as [DB Ed].
    assert (UB' : on_batch U dyn (tg u')) by (apply tg_batch; [exact Su'|lia]).
    exists k. split; [|split; [exact R'|lia]]. unfold here. rewrite map_app. cbn [map]. split; [|split; [exact Ca'|split; [|split; [exact Su'|lia]]]].
    - eapply path_next; [exact Pa|exact Inc|exact DB|exact UB'| |].
      + rewrite !groups_devs by exact devs_len. reflexivity.
      + intros i I at_.
        assert (Nu : nth_error u i = Some (at_ (tg u))) by (apply tg_rows; assumption).
        assert (Nu' : nth_error u' i = Some (at_ (tg u'))) by (apply tg_rows; [assumption|lia|assumption]).
        assert (Nd : nth_error du i = Some (at_ dg)) by (rewrite Ed; apply (nth_rows (fun i => batch_row U i _)); exact I).
        destruct (freeze_nth frozen du i (at_ dg)) as [Fy Fn]; [intros m E; rewrite (Lf m E); lia|exact Nd|].
        specialize (Fz i I). rewrite map_app in Fz. cbn [map] in Fz.
        assert (Go : forall dd, nth_error (freeze frozen du) i = Some dd -> map (@length F) dd = map (@length F) (at_ (tg u)) -> advanced cfg (at_ (tg u)) dd (at_ (tg u'))).
        { intros dd Ndd Q. destruct (A i _ dd _ Nu Ndd Nu') as [[L ->]|[q [Hq ->]]]; [left; split; [exact L|]|right; exists q; split; [exact Hq|]]; apply rows2_advance; exact Q. }
        assert (Q : map (@length F) (at_ dg) = map (@length F) (at_ (tg u))) by (rewrite (shaped_nth _ _ _ _ Sd Nd), (shaped_nth _ _ _ _ Su Nu); reflexivity).
        split; intros St.
        * apply Go; [apply Fn; rewrite Fz; exact St|exact Q].
        * apply Go; [apply Fy; rewrite Fz; exact St|]. rewrite <- Q. apply zero_row_lengths.
    - apply Forall_app. split; [exact Bs|]. constructor; [exact UB|constructor].
  Qed.

  Lemma here_start u0 : us0 = tg u0 -> shaped (sy_usizes rsys) u0 -> length u0 = numel dyn -> here [] [] u0.
  Proof.
    intros E Su L. unfold here. cbn [map]. rewrite <- E. split; [constructor|]. split; [|split; [constructor|split; assumption]].
    unfold cache_known. split; [reflexivity|]. destruct (ss_kind s) as [|rsum edot tri kcfg mat [[setup apply]|]]; try exact I. split; reflexivity.
  Qed.
End Run.

(** ** The loops *)
Section Loops.
  Variable fsum : list F -> F.
  Variable cfg : config.
  Variable s : solver_seg.
  Variable d : device.
  Variable dyn : list nat.
  Variable gs ps us0 : list (tensor F).
  Hypothesis faith : faithful s d.
  Notation U := (ss_unknown_groups s).
  Notation R := (ss_residual_groups s).
  Notation sys := (make_system s gs ps).
  Hypothesis devs_len : length us0 = length U.
  Notation devs := (map t_dev us0).
  Notation tg := (to_groups U dyn devs).
  Notation rsys := (row_system sys dyn devs).
  Variable u0 b0 : batch.
  Variable r0 : list (tensor F).
  Hypothesis start : us0 = tg u0.
  Hypothesis res0 : sy_residual rsys u0 = Ok b0.
  Hypothesis graph0 : ss_residual_graph s (us0 ++ gs ++ ps) = Ok r0.
  Hypothesis len0 : length b0 = length u0.
  Hypothesis size0 : length u0 = numel dyn.

  Lemma residual_rows u b : sy_residual rsys u = Ok b -> exists r, ss_residual_graph s (tg u ++ gs ++ ps) = Ok r /\
    forall i, i < numel dyn -> nth_error b i = Some (batch_row R i r).
  Proof.
    intros H. destruct (row_residual sys dyn devs u _ b eq_refl H) as (r & Er & _ & ->). rewrite make_unknown, make_res in Er. rewrite make_residual.
    exists r. split; [exact Er|]. intros i I. apply (nth_rows (fun i => batch_row R i r)). exact I.
  Qed.
  Lemma rows0 i : i < numel dyn -> nth_error b0 i = Some (batch_row R i r0).
  Proof. intros I. destruct (residual_rows u0 b0 res0) as (r & Er & H). rewrite <- start, graph0 in Er. injection Er as <-. apply H, I. Qed.

  Definition not_yet (u : list (tensor F)) : Prop := exists r, ss_residual_graph s (u ++ gs ++ ps) = Ok r /\ ~ balanced fsum cfg R dyn r0 r.
  Lemma unsolved_not_yet u b : sy_residual rsys u = Ok b -> length b = numel dyn -> unsolved fsum cfg rsys u0 u -> not_yet (tg u).
  Proof.
    intros Rb Lb (b0' & b' & i & x & x0 & E0 & E & N & N0 & H). assert (b' = b) by congruence. assert (b0' = b0) by congruence. subst b' b0'.
    destruct (residual_rows u b Rb) as (r & Er & Hr). exists r. split; [exact Er|]. intros B.
    assert (I : i < numel dyn) by (rewrite <- Lb; apply nth_error_Some; congruence). destruct (B i I) as [M Fi].
    rewrite Hr in N by exact I. rewrite rows0 in N0 by exact I. injection N as <-. injection N0 as <-. destruct H as [H|H]; [exact (H M)|congruence].
  Qed.
  Lemma solved_balanced u : solved fsum cfg rsys u0 u -> length u = numel dyn ->
    exists r, ss_residual_graph s (tg u ++ gs ++ ps) = Ok r /\ balanced fsum cfg R dyn r0 r.
  Proof.
    intros (b0' & b & E0 & E & _ & L & _ & H) Lu. assert (b0' = b0) by congruence. subst b0'.
    destruct (residual_rows u b E) as (r & Er & Hr). exists r. split; [exact Er|]. intros i I. apply (H i); [apply Hr; exact I|apply rows0; exact I].
  Qed.

  Notation never := (fun (_ : list (list (tensor F))) (_ : nat) => False).
  Lemma plain_loop : forall left i hist its u b u' k t, here cfg s d dyn gs ps us0 never hist its u -> sy_residual rsys u = Ok b -> length b = length u ->
    Forall not_yet (map tg (hist ++ [u])) ->
    solve_loop fsum cfg rsys (norms fsum b0) left i hist u b = (Ok (u', k), t) ->
    exists hist' its', here cfg s d dyn gs ps us0 never hist' its' u' /\ Forall not_yet (map tg hist') /\ length hist' <= length hist + left /\
      solved fsum cfg rsys u0 u'.
  Proof.
    induction left as [|left IH]; intros i hist its u b u' k t Hh Rb Lb NY H; cbn [solve_loop] in H; [discriminate|].
    apply io_ok in H. destruct H as [[u1 b1] [t1 [t2 [It [H _]]]]].
    destruct (iterate_groups cfg s d dyn gs ps us0 faith devs_len never fsum hist its u b None u1 b1 t1 Hh Rb Lb ltac:(discriminate)) as (q & H1 & R1 & L1).
    { intros j J. split; [intros (m & C & _); discriminate|intros []]. }
    { exact It. }
    assert (Lu1 : length u1 = length u0) by (destruct H1 as (_ & _ & _ & _ & L); lia).
    pose proof (stop_cases fsum cfg rsys u0 b0 u1 b1 res0 len0 Lu1 R1 L1) as SC.
    destruct (check_stop cfg (norms fsum b1) (norms fsum b0)); [| |discriminate].
    - destruct (IH (S i) (hist ++ [u]) (its ++ [q]) u1 b1 u' k t2 H1 R1 L1) as (h' & i' & A & B & C & D).
      + rewrite map_app. apply Forall_app. split; [exact NY|]. constructor; [|constructor]. eapply unsolved_not_yet; [exact R1|lia|exact SC].
      + exact H.
      + exists h', i'. split; [exact A|]. split; [exact B|]. split; [|exact D]. rewrite app_length in C. cbn [length] in C. lia.
    - injection H as <- <- <-. exists (hist ++ [u]), (its ++ [q]). split; [exact H1|]. split; [exact NY|]. split; [rewrite app_length; cbn; lia|exact SC].
  Qed.

  Lemma plain_solve u' k t : shaped (sy_usizes rsys) u0 ->
    solve fsum cfg rsys u0 = (Ok (u', k), t) ->
    exists points its, newton_path cfg s never dyn d gs ps us0 points its (tg u') /\ Forall not_yet points /\ length points <= cf_miters cfg - 1 /\
      exists r, ss_residual_graph s (tg u' ++ gs ++ ps) = Ok r /\ balanced fsum cfg R dyn r0 r.
  Proof.
    intros S0 H. unfold solve in H. apply io_ok in H. destruct H as [b [t1 [t2 [En [H _]]]]].
    apply entry_ok in En. destruct En as [_ [Rb [Lb _]]]. assert (b = b0) by congruence. subst b.
    pose proof (here_start cfg s d dyn gs ps us0 never u0 start S0 size0) as Hh.
    pose proof (start_check fsum cfg rsys u0 b0 res0 len0) as SC.
    destruct (check_converged _ _ _).
    - injection H as <- <- <-. exists [], []. destruct Hh as [P _]. split; [exact P|]. split; [constructor|]. split; [apply Nat.le_0_l|].
      apply solved_balanced; assumption.
    - destruct (plain_loop (cf_miters cfg - 1) 1 [] [] u0 b0 u' k t2 Hh res0 len0) as (h' & i' & A & B & C & D).
      + constructor; [|constructor]. eapply unsolved_not_yet; [exact res0|lia|exact SC].
      + exact H.
      + destruct A as (P & _ & _ & _ & Lu'). exists (map tg h'), i'. split; [exact P|]. split; [exact B|]. split; [rewrite map_length; exact C|].
        apply solved_balanced; assumption.
  Qed.

  Notation stop := (settled fsum cfg s gs ps r0).
  Lemma settled_snoc points u v i : stop ((points ++ [u]) ++ [v]) i <-> stop (points ++ [u]) i \/
    exists r, ss_residual_graph s (v ++ gs ++ ps) = Ok r /\
      meets_masked_tol cfg (rnorm fsum (batch_row R i r)) (rnorm fsum (batch_row R i r0)) (rnorm fsum (diff_row (batch_row U i v) (batch_row U i u))) (rnorm fsum (batch_row U i v)).
  Proof.
    unfold settled. split.
    - intros (j & a & a' & r & E1 & E2 & Er & M). destruct (Nat.lt_ge_cases (S j) (length (points ++ [u]))) as [L|L].
      + left. exists j, a, a', r. rewrite nth_error_app1 in E1 by lia. rewrite nth_error_app1 in E2 by lia. auto.
      + right. assert (LL : S j < length ((points ++ [u]) ++ [v])) by (apply nth_error_Some; congruence). rewrite app_length in LL. cbn [length] in LL.
        assert (Ej : S j = length (points ++ [u])) by lia. rewrite nth_error_app2 in E2 by lia. replace (S j - length (points ++ [u])) with 0 in E2 by lia. injection E2 as <-.
        rewrite app_length in Ej. cbn [length] in Ej. assert (j = length points) by lia. subst j.
        rewrite nth_error_app1 in E1 by (rewrite app_length; cbn; lia). rewrite nth_error_app2, Nat.sub_diag in E1 by lia. injection E1 as <-. exists r. auto.
    - intros [(j & a & a' & r & E1 & E2 & Er & M)|(r & Er & M)].
      + exists j, a, a', r. assert (S j < length (points ++ [u])) by (apply nth_error_Some; congruence). rewrite (nth_error_app1 (points ++ [u]) [v]) by lia.
        rewrite (nth_error_app1 (points ++ [u]) [v]) by lia. auto.
      + exists (length points), u, v, r. split; [|split; [|auto]].
        * rewrite nth_error_app1 by (rewrite app_length; cbn; lia). rewrite nth_error_app2, Nat.sub_diag by lia. reflexivity.
        * rewrite nth_error_app2 by (rewrite app_length; cbn; lia). rewrite app_length. cbn [length]. rewrite Nat.add_1_r, Nat.sub_diag. reflexivity.
  Qed.

  Lemma mask_next hist its u u1 b1 i : here cfg s d dyn gs ps us0 stop hist its u ->
    i < numel dyn -> shaped (sy_usizes rsys) u1 -> length u1 = numel dyn -> sy_residual rsys u1 = Ok b1 ->
    nth_error (masked_converged cfg (norms fsum b0) (norms fsum b1) (norms fsum (map2 (rows2 fsub) u1 u)) (norms fsum u1)) i = Some true <->
    exists r, ss_residual_graph s (tg u1 ++ gs ++ ps) = Ok r /\
      meets_masked_tol cfg (rnorm fsum (batch_row R i r)) (rnorm fsum (batch_row R i r0)) (rnorm fsum (diff_row (batch_row U i (tg u1)) (batch_row U i (tg u)))) (rnorm fsum (batch_row U i (tg u1))).
  Proof.
    intros (_ & _ & _ & Su & Lu) I S1 L1 R1. destruct (residual_rows u1 b1 R1) as (r & Er & Hr).
    rewrite masked_converged_nth, (rows0 i I), (Hr i I), (tg_rows s dyn gs ps us0 devs_len u i Su Lu I), (tg_rows s dyn gs ps us0 devs_len u1 i S1 L1 I).
    split.
    - intros H. injection H as H. apply masked_row_iff in H. exists r. auto.
    - intros (r' & Er' & M). assert (r' = r) by congruence. subst r'. f_equal. apply masked_row_iff. exact M.
  Qed.

  Lemma masked_loop_path : forall left i fz cv hist its u b u' m k t, here cfg s d dyn gs ps us0 stop hist its u -> sy_residual rsys u = Ok b -> length b = length u ->
    (forall f, fz = Some f -> length f = length u) -> (forall j, j < numel dyn -> (frozen_at fz j <-> stop (map tg (hist ++ [u])) j)) ->
    masked_loop fsum cfg rsys (norms fsum b0) left i fz cv hist u b = (Ok (u', m, k), t) ->
    exists hist' its', here cfg s d dyn gs ps us0 stop hist' its' u' /\ length hist' <= length hist + left.
  Proof.
    induction left as [|left IH]; intros i fz cv hist its u b u' m k t Hh Rb Lb Lf Fz H; cbn [masked_loop] in H.
    - injection H as <- <- <- <-. exists hist, its. split; [exact Hh|lia].
    - apply io_ok in H. destruct H as [[u1 b1] [t1 [t2 [It [H _]]]]].
      destruct (iterate_groups cfg s d dyn gs ps us0 faith devs_len stop fsum hist its u b fz u1 b1 t1 Hh Rb Lb Lf Fz It) as (q & H1 & R1 & L1).
      match type of H with (if ?c then _ else _) = _ => destruct c end.
      + injection H as <- <- <- <-. exists (hist ++ [u]), (its ++ [q]). split; [exact H1|]. rewrite app_length. cbn. lia.
      + pose proof H1 as (_ & _ & _ & S1 & Lu1). pose proof Hh as (_ & _ & _ & Su & Lu).
        set (cv' := masked_converged _ _ _ _ _) in H.
        assert (Lc : length cv' = length u1) by (rewrite Lu1, <- size0; apply masked_mask_length; lia).
        assert (Lfz : forall f, fz = Some f -> length f = length u1) by (intros f E; rewrite (Lf f E); lia).
        destruct (IH (S i) (Some (or_mask fz cv')) cv' (hist ++ [u]) (its ++ [q]) u1 b1 u' m k t2 H1 R1 L1) as (h' & i' & A & B).
        * intros f E. injection E as <-. apply or_mask_length; [exact Lfz|exact Lc].
        * intros j J. rewrite map_app. rewrite (map_app tg hist [u]). cbn [map]. rewrite settled_snoc.
          rewrite <- (mask_next hist its u u1 b1 j Hh J S1 Lu1 R1). specialize (Fz j J). rewrite map_app in Fz. cbn [map] in Fz. rewrite <- Fz. fold cv'.
          unfold frozen_at. destruct fz as [f|]; cbn [or_mask].
          { assert (Hn : nth_error (map2 orb f cv') j = match nth_error f j, nth_error cv' j with Some x, Some y => Some (x || y) | _, _ => None end) by apply nth_map2.
            assert (Jf : j < length f) by (rewrite (Lfz f eq_refl); lia). assert (Jc : j < length cv') by lia.
            destruct (nth_error f j) as [x|] eqn:Ex; [|apply nth_error_None in Ex; lia]. destruct (nth_error cv' j) as [y|] eqn:Ey; [|apply nth_error_None in Ey; lia].
            split.
            - intros (m0 & E & V). injection E as <-. rewrite Hn in V. injection V as V. apply orb_true_iff in V. destruct V as [->| ->]; [left; exists f; auto|right; reflexivity].
            - intros [(m0 & E & V)|V]; exists (map2 orb f cv'); (split; [reflexivity|]); rewrite Hn; f_equal.
              + injection E as <-. assert (x = true) by congruence. subst x. reflexivity.
              + injection V as ->. apply orb_true_r. }
          { split.
            - intros (m0 & E & V). injection E as <-. right. exact V.
            - intros [(m0 & E & V)|V]; [discriminate|]. exists cv'. auto. }
        * exact H.
        * exists h', i'. split; [exact A|]. rewrite app_length in B. cbn [length] in B. lia.
  Qed.

  Lemma masked_solve_path u' m k t : shaped (sy_usizes rsys) u0 ->
    solve_masked fsum cfg rsys u0 = (Ok (u', m, k), t) ->
    exists points its, newton_path cfg s stop dyn d gs ps us0 points its (tg u') /\ length points <= cf_miters cfg - 1.
  Proof.
    intros S0 H. unfold solve_masked in H. apply io_ok in H. destruct H as [b [t1 [t2 [En [H _]]]]].
    apply entry_ok in En. destruct En as [_ [Rb [Lb _]]]. assert (b = b0) by congruence. subst b.
    pose proof (here_start cfg s d dyn gs ps us0 stop u0 start S0 size0) as Hh.
    match type of H with (if ?c then _ else _) = _ => destruct c end.
    - injection H as <- <- <- <-. exists [], []. destruct Hh as [P _]. split; [exact P|]. apply Nat.le_0_l.
    - destruct (masked_loop_path (cf_miters cfg - 1) 0 None (map (fun x => flt x (cf_atol cfg)) (norms fsum b0)) [] [] u0 b0 u' m k t2 Hh res0 len0) as (h' & i' & A & B).
      + discriminate.
      + intros j J. split; [intros (f & E & _); discriminate|]. intros (q & a & a' & r & E1 & E2 & _). destruct q; discriminate.
      + exact H.
      + destruct A as (P & _). exists (map tg h'), i'. split; [exact P|]. rewrite map_length. exact B.
  Qed.
End Loops.

(** ** Segments *)
Lemma newton_path_of fsum cfg s d gs ps us0 us : faithful s d ->
  newton_solve fsum cfg (make_system s gs ps) us0 = Ok us ->
  exists dyn r0 points its, on_batch (ss_unknown_groups s) dyn us0 /\ on_batch (ss_unknown_groups s) dyn us /\
    ss_residual_graph s (us0 ++ gs ++ ps) = Ok r0 /\
    newton_path cfg s (fun _ _ => False) dyn d gs ps us0 points its us /\ length points <= cf_miters cfg - 1 /\
    Forall (not_yet fsum cfg s dyn gs ps r0) points /\
    exists r, ss_residual_graph s (us ++ gs ++ ps) = Ok r /\ balanced fsum cfg (ss_residual_groups s) dyn r0 r.
Proof.
  intros Fa. unfold newton_solve. rewrite !make_unknown. destruct (leading _ _) as [dyn|]; [|discriminate]. cbn [bind].
  destruct (to_rows _ _ _) as [u0|] eqn:E0; [|discriminate]. cbn [bind].
  destruct (solve _ _ _ _) as [[[u k]|e] t] eqn:E; cbn [fst bind]; [|discriminate]. intros H. injection H as <-.
  pose proof (to_rows_ok _ _ _ _ E0) as [F0 _]. pose proof (rows_shaped _ _ _ _ E0) as [S0 N0].
  assert (Ld : length us0 = length (ss_unknown_groups s)) by (symmetry; exact (f2_len _ _ _ F0)).
  pose proof (groups_of_rows _ _ _ _ E0) as G0.
  pose proof (solve_returned fsum cfg _ u0 u k t E) as [[b0 [b [R0 [R1 [L0 [L [Lu Q]]]]]]] _].
  destruct (row_residual _ _ _ _ us0 _ ltac:(rewrite make_unknown; exact G0) R0) as [r0 [A0 [B0 C0]]]. rewrite make_res in A0.
  destruct (solve_shapes _ _ _ _ _ _ _ E) as [Su _].
  destruct (plain_solve fsum cfg s d dyn gs ps us0 Fa Ld u0 b0 r0 (eq_sym G0) R0 A0 L0 N0 u k t) as (points & its & P & NY & Lp & Bal).
  { rewrite usizes_eq. exact S0. }
  { exact E. }
  exists dyn, r0, points, its. split; [exact F0|]. split; [apply (tg_batch s dyn gs ps us0 Ld); [exact Su|lia]|]. auto.
Qed.
Lemma masked_path_of fsum cfg s d gs ps us0 us m : faithful s d ->
  newton_solve_masked fsum cfg (make_system s gs ps) us0 = Ok (us, m) ->
  exists dyn r0 points its, on_batch (ss_unknown_groups s) dyn us0 /\ on_batch (ss_unknown_groups s) dyn us /\
    ss_residual_graph s (us0 ++ gs ++ ps) = Ok r0 /\
    newton_path cfg s (settled fsum cfg s gs ps r0) dyn d gs ps us0 points its us /\ length points <= cf_miters cfg - 1.
Proof.
  intros Fa. unfold newton_solve_masked. rewrite !make_unknown. destruct (leading _ _) as [dyn|]; [|discriminate]. cbn [bind].
  destruct (to_rows _ _ _) as [u0|] eqn:E0; [|discriminate]. cbn [bind].
  destruct (solve_masked _ _ _ _) as [[[[u m'] k]|e] t] eqn:E; cbn [fst bind]; [|discriminate]. intros H. injection H as <- <-.
  pose proof (to_rows_ok _ _ _ _ E0) as [F0 _]. pose proof (rows_shaped _ _ _ _ E0) as [S0 N0].
  assert (Ld : length us0 = length (ss_unknown_groups s)) by (symmetry; exact (f2_len _ _ _ F0)).
  pose proof (groups_of_rows _ _ _ _ E0) as G0.
  pose proof (masked_mask fsum cfg _ u0 u m' k t E) as [b0 [b [R0 [R1 [L0 [L [Lu _]]]]]]].
  destruct (row_residual _ _ _ _ us0 _ ltac:(rewrite make_unknown; exact G0) R0) as [r0 [A0 [B0 C0]]]. rewrite make_res in A0.
  destruct (masked_shapes _ _ _ _ _ _ _ _ E) as [Su _].
  destruct (masked_solve_path fsum cfg s d dyn gs ps us0 Fa Ld u0 b0 r0 (eq_sym G0) R0 A0 L0 N0 u m' k t) as (points & its & P & Lp).
  { rewrite usizes_eq. exact S0. }
  { exact E. }
  exists dyn, r0, points, its. split; [exact F0|]. split; [apply (tg_batch s dyn gs ps us0 Ld); [exact Su|lia]|]. auto.
Qed.

Lemma segment_path fsum cfg zero par capture s d st st' : segment_ok s -> faithful s d ->
  run_implicit zero par capture (seg_of fsum cfg s) st = Ok st' ->
  exists st1 gs ps us0 calls dyn r0 us points its,
    prepare_solve zero par (seg_of fsum cfg s) st = (Ok (st1, gs, ps, us0), calls) /\
    pack_groups st' (ss_unknown_groups s) = Ok us /\
    ss_residual_graph s (us0 ++ gs ++ ps) = Ok r0 /\
    newton_path cfg s (fun _ _ => False) dyn d gs ps us0 points its us /\ length points <= cf_miters cfg - 1 /\
    Forall (not_yet fsum cfg s dyn gs ps r0) points /\
    exists r, ss_residual_graph s (us ++ gs ++ ps) = Ok r /\ balanced fsum cfg (ss_residual_groups s) dyn r0 r.
Proof.
  intros [Gok [ND Dj]] Fa H. apply run_implicit_ok in H. destruct H as [st1 [gs [ps [us0 [calls [us [P [So Un]]]]]]]].
  cbn [seg_of is_solve is_unknown_groups] in So, Un.
  destruct (newton_path_of fsum cfg s d gs ps us0 us Fa So) as (dyn & r0 & points & its & F0 & F1 & A0 & Pa & Lp & NY & Bal).
  destruct (unpack_pack_groups (ss_unknown_groups s) us st1 Gok ND) as [st2 [U2 [P2 K]]].
  { eapply f2_impl; [|exact F1]. intros g t [d' Hd]. eauto. }
  rewrite Un in U2. injection U2 as <-.
  exists st1, gs, ps, us0, calls, dyn, r0, us, points, its. auto 10.
Qed.
Lemma masked_segment_path fsum cfg zero par s d st st' m : segment_ok s -> faithful s d ->
  run_implicit_masked zero par (seg_of fsum cfg s) st = Ok (st', m) ->
  exists st1 gs ps us0 calls dyn r0 us points its,
    prepare_solve zero par (seg_of fsum cfg s) st = (Ok (st1, gs, ps, us0), calls) /\
    pack_groups st' (ss_unknown_groups s) = Ok us /\
    ss_residual_graph s (us0 ++ gs ++ ps) = Ok r0 /\
    newton_path cfg s (settled fsum cfg s gs ps r0) dyn d gs ps us0 points its us /\ length points <= cf_miters cfg - 1.
Proof.
  intros [Gok [ND Dj]] Fa H. unfold run_implicit_masked in H.
  destruct (prepare_solve _ _ _ _) as [[[[[st1 gs] ps] us0]|] calls] eqn:P; [|discriminate]. cbn [fst bind] in H.
  destruct (is_solve_masked _ _ _ _) as [[us m']|] eqn:So; [|discriminate]. cbn [bind] in H.
  destruct (unpack_groups _ _ _) as [st2'|] eqn:Un; [|discriminate]. cbn [bind] in H. injection H as -> ->.
  cbn [seg_of is_solve_masked is_unknown_groups] in So, Un.
  destruct (masked_path_of fsum cfg s d gs ps us0 us m Fa So) as (dyn & r0 & points & its & F0 & F1 & A0 & Pa & Lp).
  destruct (unpack_pack_groups (ss_unknown_groups s) us st1 Gok ND) as [st2 [U2 [P2 K]]].
  { eapply f2_impl; [|exact F1]. intros g t [d' Hd]. eauto. }
  rewrite Un in U2. injection U2 as <-.
  exists st1, gs, ps, us0, calls, dyn, r0, us, points, its. auto 10.
Qed.
