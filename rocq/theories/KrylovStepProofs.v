(** Lemmas about the Krylov Newton step. *)
From Verif Require Import Base BaseProofs Tensor Spec TensorProofs Broadcast SpecBroadcast BroadcastProofs Pack SpecPack PackProofs
  Newton Krylov SpecKrylov KrylovProofs KrylovCostProofs KrylovRowProofs KrylovGmresProofs KrylovExactProofs KrylovSoloProofs KrylovBudgetProofs
  KrylovSystem SpecKrylovSystem KrylovFlatProofs KrylovDenseProofs SpecKrylovStep.

(** ** A solve calls its operators on matrices of its right-hand side's shape only *)
Section Sheets.
  Context {V : Type}.
  Variable N : num V.
  Variable rsum : list V -> V.
  Variable edot : list V -> list V -> V.
  Variable tri : list (list V) -> list V -> list V.
  Notation vec := (list V).
  Variable rows n : nat.
  Variable f f' g g' : list vec -> result (list vec).
  Hypothesis Ff : forall x, sheet rows n x -> f x = f' x.
  Hypothesis Fg : forall x, sheet rows n x -> g x = g' x.

  Lemma like_sheet (x y : list vec) : sheet rows n x -> like x y = true -> sheet rows n y.
  Proof.
    intros [Lx Fx] H. unfold like in H. apply sizes_eqb_true in H. split; [rewrite <- (map_length (@length V)), H, map_length; exact Lx|].
    apply nth_forall. intros i r E. assert (Q : nth_error (map (@length V) y) i = Some (length r)) by (rewrite nth_error_map, E; reflexivity).
    rewrite H, nth_error_map in Q. destruct (nth_error x i) as [q|] eqn:Eq; [|discriminate]. injection Q as <-. exact (forall_nth _ _ _ _ Fx Eq).
  Qed.
  Lemma bind_same {B} (h h' : list vec -> result (list vec)) c x (k k' : list vec -> kio V B) : sheet rows n x -> h x = h' x ->
    (forall y, sheet rows n y -> k y = k' y) -> kbind (call_op h c x) k = kbind (call_op h' c x) k'.
  Proof.
    intros Sx E K. unfold call_op. rewrite <- E. destruct (h x) as [y|]; [|reflexivity]. cbn [bind].
    destruct (like x y) eqn:L; [|reflexivity]. cbn [kbind]. rewrite (K y); [reflexivity|]. exact (like_sheet x y Sx L).
  Qed.

  Lemma bicg_same cfg b more st : sheet rows n b -> length st = rows -> Forall (brow_ok n) st ->
    bicg_loop N rsum edot f g cfg b more st = bicg_loop N rsum edot f' g' cfg b more st.
  Proof.
    intros Hb. revert st. induction more as [|more IH]; intros st L F; [reflexivity|].
    cbn [bicg_loop]. destruct (all_done st); [reflexivity|]. cbv zeta.
    assert (Sp : sheet rows n (map2 (bicg_p N edot) b st)) by (eapply sheet_map2; eauto; intros x a; apply bicg_p_len).
    apply bind_same; [exact Sp|apply Fg, Sp|]. intros ph Sph. apply bind_same; [exact Sph|apply Ff, Sph|]. intros v Sv.
    set (s := map2 (fun q st => bicg_s N edot (fst q) (snd q) st) (combine b v) st).
    assert (Ss : sheet rows n s).
    { split; [apply map2_same; [apply combine_same|]; try apply Hb; try apply Sv; auto|].
      apply nth_forall. intros i r E. unfold s in E. rewrite map2_nth, combine_nth in E.
      destruct (nth_error b i) as [x|] eqn:Eb; [|discriminate].
      destruct (nth_error v i) as [vi|] eqn:Ev; [|discriminate].
      destruct (nth_error st i) as [a|] eqn:Es; [|discriminate]. injection E as <-.
      apply bicg_s_len; [exact (sheet_row _ _ _ _ _ Sv Ev)|exact (forall_nth _ _ _ _ F Es)]. }
    apply bind_same; [exact Ss|apply Fg, Ss|]. intros sh Ssh. apply bind_same; [exact Ssh|apply Ff, Ssh|]. intros t St. apply IH.
    - apply map2_same; [|exact L].
      repeat apply combine_same; try apply Hb; try apply Sp; try apply Sph; try apply Sv; try apply Ssh; apply St.
    - apply nth_forall. intros i s1 E. rewrite map2_nth, !combine_nth in E.
      destruct (nth_error b i) as [x|] eqn:Eb; [|discriminate].
      destruct (nth_error (map2 (bicg_p N edot) b st) i) as [pi|] eqn:Ep; [|discriminate].
      destruct (nth_error ph i) as [phi|] eqn:Eph; [|discriminate].
      destruct (nth_error v i) as [vi|] eqn:Ev; [|discriminate].
      destruct (nth_error sh i) as [shi|] eqn:Esh; [|discriminate].
      destruct (nth_error t i) as [ti|] eqn:Et; [|discriminate].
      destruct (nth_error st i) as [a|] eqn:Es; [|discriminate]. injection E as <-.
      apply bicg_update_ok; [exact (sheet_row _ _ _ _ _ Sp Ep)|exact (sheet_row _ _ _ _ _ Sph Eph)|exact (sheet_row _ _ _ _ _ Sv Ev)
        |exact (sheet_row _ _ _ _ _ Ssh Esh)|exact (sheet_row _ _ _ _ _ St Et)|exact (forall_nth _ _ _ _ F Es)].
  Qed.

  Lemma column_ok cfg b w st : sheet rows n b -> sheet rows n w -> length st = rows -> Forall (grow_ok n) st ->
    let st1 := map2 (fun q s => gmres_column N rsum edot cfg (fst q) (snd q) s) (combine b w) st in length st1 = rows /\ Forall (grow_ok n) st1.
  Proof.
    intros Hb Sw L F. cbv zeta. split; [apply map2_same; [apply combine_same|]; try apply Hb; try apply Sw; auto|].
    apply nth_forall. intros i s1 E. rewrite map2_nth, combine_nth in E.
    destruct (nth_error b i) as [x|] eqn:Eb; [|discriminate].
    destruct (nth_error w i) as [wi|] eqn:Ew; [|discriminate].
    destruct (nth_error st i) as [a|] eqn:Es; [|discriminate]. injection E as <-.
    destruct (forall_nth _ _ _ _ F Es) as [Lx Ha]. split; cbn [gmres_column gmres_test gr_x gr_arn fst snd]; [exact Lx|].
    apply arnoldi_step_ok; [exact (sheet_row _ _ _ _ _ Sw Ew)|exact Ha].
  Qed.
  Lemma cycle_same cfg b more st : sheet rows n b -> length st = rows -> Forall (grow_ok n) st ->
    gmres_cycle N rsum edot f g cfg b more st = gmres_cycle N rsum edot f' g' cfg b more st /\
    forall st' l, gmres_cycle N rsum edot f g cfg b more st = (Ok st', l) -> length st' = rows /\ Forall (grow_ok n) st'.
  Proof.
    intros Hb. revert st. induction more as [|more IH]; intros st L F.
    - split; [reflexivity|]. intros st' l H. injection H as <- _. auto.
    - cbn [gmres_cycle].
      assert (Sv : sheet rows n (map (fun s => last_v (gr_arn s)) st)).
      { split; [rewrite map_length; exact L|]. rewrite Forall_map. eapply Forall_impl; [|exact F].
        intros s [_ Hs]. apply last_v_len. exact Hs. }
      split.
      + apply bind_same; [exact Sv|apply Ff, Sv|]. intros av Sav. apply bind_same; [exact Sav|apply Fg, Sav|]. intros w Sw.
        cbv zeta. destruct (forallb gr_done _); [reflexivity|]. destruct (column_ok cfg b w st Hb Sw L F) as [L1 F1]. apply IH; assumption.
      + intros st' l H. unfold apply_a, call_op in H. destruct (f _) as [av|]; [|discriminate]. cbn [bind] in H.
        destruct (like (map _ st) av) eqn:E1; [|discriminate]. cbn [kbind] in H. pose proof (like_sheet _ _ Sv E1) as Sav.
        unfold apply_m, call_op in H. destruct (g av) as [w|]; [|discriminate]. cbn [bind] in H.
        destruct (like av w) eqn:E2; [|discriminate]. cbn [kbind] in H. pose proof (like_sheet _ _ Sav E2) as Sw. cbv zeta in H.
        destruct (column_ok cfg b w st Hb Sw L F) as [L1 F1]. destruct (forallb gr_done _).
        * injection H as <- _. split; assumption.
        * destruct (gmres_cycle _ _ _ _ _ _ _ more _) as [r l'] eqn:E. injection H as -> _. exact (proj2 (IH _ L1 F1) _ _ E).
  Qed.
  Lemma residual_same b first st : sheet rows n b -> length st = rows -> Forall (fun s => length (gr_x s) = n) st ->
    gmres_residual N f g b first st = gmres_residual N f' g' b first st /\
    forall r l, gmres_residual N f g b first st = (Ok r, l) -> sheet rows n r.
  Proof.
    intros Hb L F. destruct first; cbn [gmres_residual].
    - unfold apply_m, call_op. rewrite <- (Fg b Hb). split; [reflexivity|]. intros r l H. destruct (g b) as [y|]; [|discriminate]. cbn [bind] in H.
      destruct (like b y) eqn:E; [|discriminate]. injection H as <- _. exact (like_sheet _ _ Hb E).
    - assert (Sx : sheet rows n (map gr_x st)) by (split; [rewrite map_length; exact L|rewrite Forall_map; exact F]).
      assert (Sd : forall ax, sheet rows n ax -> sheet rows n (map2 (vsub N) b ax)).
      { intros ax Sax. eapply sheet_map2; [exact Hb|apply Sax|apply Sax|]. intros x a. apply vsub_len. }
      split.
      + apply bind_same; [exact Sx|apply Ff, Sx|]. intros ax Sax. unfold apply_m, call_op. rewrite <- (Fg _ (Sd ax Sax)). reflexivity.
      + intros r l H. unfold apply_a, call_op in H. destruct (f _) as [ax|]; [|discriminate]. cbn [bind] in H.
        destruct (like (map gr_x st) ax) eqn:E; [|discriminate]. cbn [kbind] in H. pose proof (Sd ax (like_sheet _ _ Sx E)) as Sdx.
        unfold apply_m, call_op in H. destruct (g _) as [y|]; [|discriminate]. cbn [bind] in H. destruct (like _ y) eqn:E2; [|discriminate].
        injection H as <- _. exact (like_sheet _ _ Sdx E2).
  Qed.
  Lemma gmres_loop_same cfg b m first cycles st : sheet rows n b -> length st = rows -> Forall (fun s => length (gr_x s) = n) st ->
    gmres_loop N rsum edot tri f g cfg b m first cycles st = gmres_loop N rsum edot tri f' g' cfg b m first cycles st.
  Proof.
    intros Hb. revert first st. induction cycles as [|cycles IH]; intros first st L F; [reflexivity|]. cbn [gmres_loop].
    destruct (residual_same b first st Hb L F) as [<- Sr]. destruct (gmres_residual N f g b first st) as [[r|] l0]; [|reflexivity].
    cbn [kbind]. specialize (Sr r l0 eq_refl). destruct (gmres_begin_ok N rsum rows n cfg b r st Hb Sr L F) as [L1 F1]. cbv zeta.
    destruct (forallb gr_done _); [reflexivity|]. destruct (cycle_same cfg b m _ Hb L1 F1) as [<- P].
    destruct (gmres_cycle _ _ _ _ _ _ _ _ _) as [[st2|] l2]; [|reflexivity]. cbn [kbind]. destruct (P st2 l2 eq_refl) as [L2 F2].
    rewrite (IH false (map (gmres_correct N edot tri) st2)); [reflexivity|rewrite map_length; exact L2|].
    rewrite Forall_map. eapply Forall_impl; [|exact F2]. intros s [Lx _]. cbn [gmres_correct gr_x].
    apply vadd_len; [exact Lx|]. rewrite combination_len. exact Lx.
  Qed.

  Lemma solve_same b cfg : sheet rows n b -> krylov_solve N rsum edot tri f g b cfg = krylov_solve N rsum edot tri f' g' b cfg.
  Proof.
    intros Hb. unfold krylov_solve. destruct (k_method cfg).
    - unfold gmres. destruct (cycles_of cfg) as [c|]; [|reflexivity]. cbn [kbind]. cbv zeta.
      match goal with |- (let '(r1, l1) := kbind ?x _ in _) = (let '(r2, l2) := kbind ?y _ in _) => assert (E : x = y); [|rewrite E; reflexivity] end.
      destruct (_ && _).
      + apply bind_same; [exact Hb|apply Fg, Hb|]. reflexivity.
      + apply gmres_loop_same; [exact Hb|rewrite map_length; apply Hb|]. rewrite Forall_map. eapply Forall_impl; [|apply Hb].
        intros x Lx. cbn in *. unfold zeros. rewrite map_length. exact Lx.
    - unfold bicgstab. rewrite bicg_same; [reflexivity|exact Hb|rewrite map_length; apply Hb|apply (bicg_start_ok N rsum rows n); exact Hb].
  Qed.
End Sheets.

Section Step.
  Context {V : Type}.
  Implicit Types (t : tensor V) (ts u b du : list (tensor V)).

  (** ** Rows of flattened groups *)
  Lemma row_entries_width i ts : row_entries i ts = flat_map (fun t => row_data (width t) i (t_data t)) ts.
  Proof. reflexivity. Qed.
  Lemma flat_rows dyn d ts ws : ts <> [] -> dense_groups dyn d ts ws ->
    rows_of (flat_of dyn d ts) = Ok (map (fun i => row_entries i ts) (seq 0 (numel dyn))).
  Proof.
    intros NE D. destruct (dense_parts _ _ _ _ D) as [P E]. unfold rows_of, flat_of. cbn [joined t_shape app].
    f_equal. apply map_ext_in. intros i I. apply in_seq in I.
    pose proof (joined_row [numel dyn] d (map (as_matrix (numel dyn)) ts) i (matrices_part dyn d ts P) ltac:(cbn; lia)) as J.
    unfold joined in J |- *. cbn [t_data] in J |- *. rewrite J.
    rewrite row_entries_width, flat_map_concat_map, map_map, <- flat_map_concat_map. reflexivity.
  Qed.

  Definition sheetb (rows n : nat) (x : list (list V)) : bool := Nat.eqb (length x) rows && forallb (fun r => Nat.eqb (length r) n) x.
  Lemma sheetb_true rows n x : sheetb rows n x = true <-> sheet rows n x.
  Proof.
    unfold sheetb, sheet. rewrite Bool.andb_true_iff, Nat.eqb_eq, forallb_forall, Forall_forall.
    split; (intros [A B]; split; [exact A|]; intros r I; apply Nat.eqb_eq, B, I).
  Qed.
  Definition guarded (rows n : nat) (f : list (list V) -> result (list (list V))) (x : list (list V)) : result (list (list V)) :=
    if sheetb rows n x then f x else Err (StdExn "shape").
  Lemma guarded_same rows n f x : sheet rows n x -> f x = guarded rows n f x.
  Proof. intros H. unfold guarded. rewrite (proj2 (sheetb_true rows n x) H). reflexivity. Qed.

  Lemma concat_length n (x : list (list V)) : Forall (fun r => length r = n) x -> length (concat x) = length x * n.
  Proof. induction 1 as [|r x Hr _ IH]; [reflexivity|]. cbn [concat length]. rewrite app_length, IH, Hr. lia. Qed.
  Lemma concat_row n (x : list (list V)) : Forall (fun r => length r = n) x ->
    map (fun i => row_data n i (concat x)) (seq 0 (length x)) = x.
  Proof.
    induction 1 as [|r x Hr _ IH]; [reflexivity|]. cbn [length seq map concat]. f_equal.
    - unfold row_data. cbn [Nat.mul skipn]. rewrite firstn_app, Hr, Nat.sub_diag. cbn [firstn]. rewrite app_nil_r. apply firstn_all2. lia.
    - rewrite <- seq_shift, map_map. rewrite <- IH at 2. apply map_ext. intros i. apply row_data_app. exact Hr.
  Qed.
  (** The matrix with given rows. *)
  Lemma sheet_matrix rows n (like : tensor V) x : t_shape like = [rows; n] -> sheet rows n x ->
    wf (of_rows like x) /\ t_dev (of_rows like x) = t_dev like /\ t_shape (of_rows like x) = [rows; n] /\ rows_of (of_rows like x) = Ok x.
  Proof.
    intros E [L F]. unfold of_rows, wf, rows_of. cbn [t_data t_shape t_dev]. rewrite E.
    split; [rewrite (concat_length n x F), L; cbn; lia|]. split; [reflexivity|]. split; [reflexivity|]. rewrite <- L. f_equal. apply concat_row. exact F.
  Qed.

  Lemma all_dense_of (l : list glayout) : assert_all_dense l = Ok tt -> all_dense l.
  Proof.
    unfold assert_all_dense. destruct (forallb _ l) eqn:E; [|discriminate]. intros _. apply Forall_forall. intros g I.
    rewrite forallb_forall in E. specialize (E g I). apply Bool.negb_true_iff, String.eqb_neq in E. exact E.
  Qed.
  Lemma assert_all_dense_ok (l : list glayout) x : assert_all_dense l = Ok x -> assert_all_dense l = Ok tt.
  Proof. destruct x. auto. Qed.

  (** The groups of a matrix. *)
  Lemma matrix_groups dyn d (m : tensor V) ws x : ws <> [] -> wf m -> t_dev m = d -> t_shape m = [numel dyn; sum_of ws] -> rows_of m = Ok x ->
    exists ts, unflatten_dense m (mkSpec dyn ws (sum_of ws)) = Ok ts /\ dense_groups dyn d ts ws /\
      map (fun i => row_entries i ts) (seq 0 (numel dyn)) = x.
  Proof.
    intros NE W D E R.
    destruct (unflatten_flatten dyn d m ws (map (fun _ => mkLayout "dense" []) ws) NE ltac:(rewrite map_length; reflexivity)
      ltac:(apply Forall_forall; intros g I; apply in_map_iff in I as (? & <- & _); discriminate) W D E) as (ts & U & G & Fl).
    exists ts. split; [exact U|]. split; [exact G|].
    assert (Nt : ts <> []) by (intros ->; inversion G; subst; contradiction).
    rewrite (flatten_ok dyn d ts ws _ Nt) in Fl; [|rewrite map_length; clear - G; induction G; cbn; congruence
      |apply Forall_forall; intros g I; apply in_map_iff in I as (? & <- & _); discriminate|exact G].
    injection Fl as Fl. rewrite <- Fl, (flat_rows dyn d ts ws Nt G) in R. injection R as R. exact R.
  Qed.

  Lemma spec_widths ts layout flat spec : flatten_dense ts layout = Ok (flat, spec) -> ts <> [] /\ length ts = length layout /\ fs_widths spec = map width ts /\ fs_n spec = sum_of (map width ts).
  Proof.
    unfold flatten_dense. destruct (Nat.eqb_spec (length ts) (length layout)) as [L|]; [|discriminate]. cbn [assert_ bind].
    destruct (assert_all_dense layout); [|discriminate]. cbn [bind]. destruct ts as [|t0 ts]; [discriminate|].
    destruct (Nat.eqb (dim t0) 0); [discriminate|]. destruct (mapM _ _) as [l|] eqn:E; [|discriminate]. cbn [bind].
    destruct (cat_last _); [|discriminate]. cbn [bind]. intros H. injection H as _ <-. split; [discriminate|]. split; [exact L|].
    assert (Q : map fst l = map width (t0 :: ts)).
    { clear - E. revert l E. generalize (numel (removelast (t_shape t0))) as k. intros k. induction (t0 :: ts) as [|t r IH]; intros l E; cbn [mapM] in E; [injection E as <-; reflexivity|].
      unfold flatten_group at 1 in E. destruct (assert_ _ _); [|discriminate]. cbn [bind] in E. destruct (reshape _ _); [|discriminate]. cbn [bind] in E.
      destruct (mapM _ r) as [l'|]; [|discriminate]. cbn [bind] in E. injection E as <-. cbn [map fst]. f_equal. apply IH. reflexivity. }
    cbn [fs_widths fs_n]. rewrite Q. split; reflexivity.
  Qed.

  Variable N : num V.
  Variable rsum : list V -> V.
  Variable edot : list V -> list V -> V.
  Variable tri : list (list V) -> list V -> list V.

  Lemma step_parts s u st du b st' l : kstep N rsum edot tri s u st = (Ok (du, b), st', l) ->
    exists bf bspec uf uspec rows st1 l1 res calls,
      all_dense (ks_unknown s) /\ all_dense (ks_residual s) /\
      ks_res s u = Ok b /\ flatten_dense b (ks_residual s) = Ok (bf, bspec) /\ flatten_dense u (ks_unknown s) = Ok (uf, uspec) /\
      rows_of bf = Ok rows /\ refresh s u st = (Ok st1, l1) /\
      krylov_solve N rsum edot tri (flat_matvec s u (mkSpec (fs_batch bspec) (fs_widths uspec) (fs_n uspec)) bf)
        (flat_minv s (st_precond st1) bf) rows (ks_cfg s) = (Ok res, calls) /\
      unflatten_dense (of_rows bf (kr_du res)) (mkSpec (fs_batch bspec) (fs_widths uspec) (fs_n uspec)) = Ok du /\
      st' = mkKst (st_precond st1) (st_ready st1) (Z.of_nat (kr_iters res)) /\
      l = SResidual u :: l1 ++ [SSolve (st_precond st1) calls (Ok (kr_iters res))].
  Proof.
    unfold kstep, sret. destruct (assert_all_dense (ks_unknown s)) as [x|] eqn:D1; [|discriminate]. cbn [bind].
    destruct (assert_all_dense (ks_residual s)) as [y|] eqn:D2; [|discriminate]. cbn [bind].
    destruct (ks_res s u) as [b'|] eqn:Er; [|discriminate]. cbn [bind].
    destruct (flatten_dense b' (ks_residual s)) as [[bf bspec]|] eqn:Eb; [|discriminate]. cbn [bind].
    destruct (flatten_dense u (ks_unknown s)) as [[uf uspec]|] eqn:Eu; [|discriminate]. cbn [bind].
    destruct (rows_of bf) as [rows|] eqn:Ero; [|discriminate]. cbn [bind].
    destruct (refresh s u st) as [[st1|] l1] eqn:Ef; [|discriminate].
    destruct (krylov_solve _ _ _ _ _ _ _ _) as [[res|] calls] eqn:Ek; [|discriminate].
    destruct (unflatten_dense _ _) as [du'|] eqn:Ed; [|discriminate]. cbn [bind]. intros H. injection H as -> -> <- <-.
    exists bf, bspec, uf, uspec, rows, st1, l1, res, calls. repeat split; try assumption.
    - apply all_dense_of. eapply assert_all_dense_ok, D1.
    - apply all_dense_of. eapply assert_all_dense_ok, D2.
  Qed.

  Section Rows.
    Variable s : ksystem V.
    Variable u : list (tensor V).
    Variable dyn : list nat.
    Variable d : device.
    Variable rws : list nat.
    Variable A : nat -> list V -> list V.
    Notation uws := (map width u).
    Notation n := (sum_of rws).
    Hypothesis square : sum_of uws = n.
    Hypothesis res_ok : forall b, ks_res s u = Ok b -> dense_groups dyn d b rws.
    Hypothesis mat_ok : row_operator dyn d uws rws A (ks_mat s u).

    Lemma matvec_acts bf i : u <> [] -> t_shape bf = [numel dyn; n] -> t_dev bf = d -> i < numel dyn -> all_dense (ks_residual s) ->
      acts_on i (A i) (guarded (numel dyn) n (flat_matvec s u (mkSpec dyn uws (sum_of uws)) bf)).
    Proof.
      intros NE Sb Db Hi AD x y v H E. unfold guarded in H. destruct (sheetb _ _ x) eqn:Sx; [|discriminate]. apply sheetb_true in Sx.
      unfold flat_matvec in H. destruct (sheet_matrix (numel dyn) n bf x Sb Sx) as (W & D & Sh & R).
      destruct (matrix_groups dyn d (of_rows bf x) uws x ltac:(destruct u; [contradiction|discriminate]) W ltac:(congruence) ltac:(rewrite square; exact Sh) R) as (ts & U & G & Ro).
      rewrite U in H. cbn [bind] in H. destruct (ks_mat s u ts) as [jv|] eqn:Ej; [|discriminate]. cbn [bind] in H.
      destruct (mat_ok ts jv G Ej) as [Gj Aj].
      destruct (flatten_dense jv (ks_residual s)) as [[f sp]|] eqn:Ef; [|discriminate]. cbn [bind] in H.
      destruct (spec_widths _ _ _ _ Ef) as (Nj & Lj & _). rewrite (flatten_ok dyn d jv rws _ Nj Lj AD Gj) in Ef. injection Ef as <- _.
      rewrite (flat_rows dyn d jv rws Nj Gj) in H. injection H as <-. rewrite nth_error_map, seq_nth_error by exact Hi. cbn [option_map].
      rewrite (Aj i Hi). do 2 f_equal. rewrite <- Ro, nth_error_map, seq_nth_error in E by exact Hi. cbn in E. congruence.
    Qed.

    Lemma minv_acts bf p M i : t_shape bf = [numel dyn; n] -> t_dev bf = d -> i < numel dyn ->
      (forall setup apply, ks_precond s = Some (setup, apply) -> row_precond (numel dyn) n d M (apply p)) ->
      acts_on i (match ks_precond s with None => fun v => v | Some _ => M i end) (guarded (numel dyn) n (flat_minv s p bf)).
    Proof.
      intros Sb Db Hi Hp x y v H E. unfold guarded in H. destruct (sheetb _ _ x) eqn:Sx; [|discriminate]. apply sheetb_true in Sx.
      unfold flat_minv in H. destruct (ks_precond s) as [[setup apply]|]; [|congruence].
      destruct (sheet_matrix (numel dyn) n bf x Sb Sx) as (W & D & Sh & R).
      destruct (apply p (of_rows bf x)) as [z|] eqn:Ez; [|discriminate]. cbn [bind] in H.
      destruct (Hp setup apply eq_refl (of_rows bf x) z W ltac:(congruence) Sh Ez) as (Wz & Sz & Az).
      unfold rows_of in H, R. rewrite Sz in H. rewrite Sh in R. injection H as <-. injection R as R.
      rewrite nth_error_map, seq_nth_error by exact Hi. cbn [option_map].
      specialize (Az i Hi). unfold row_entries in Az. cbn [flat_map] in Az. rewrite !app_nil_r, Sz, Sh in Az. cbn [last] in Az.
      unfold row_data in *. rewrite Az. do 2 f_equal.
      rewrite <- R, nth_error_map, seq_nth_error in E by exact Hi. cbn [option_map] in E. injection E as E. exact E.
    Qed.

    Lemma step_rows st du b st' l M : sound_method (ks_cfg s) ->
      (forall i, i < numel dyn -> keeps_width n (A i)) -> (forall i, i < numel dyn -> keeps_width n (M i)) ->
      kstep N rsum edot tri s u st = (Ok (du, b), st', l) ->
      (forall setup apply, ks_precond s = Some (setup, apply) -> row_precond (numel dyn) n d M (apply (st_precond st'))) ->
      ks_res s u = Ok b /\ dense_groups dyn d du uws /\
      exists op pre res calls setup_calls,
        l = SResidual u :: setup_calls ++ [SSolve (st_precond st') calls (Ok (kr_iters res))] /\
        st_last st' = Z.of_nat (kr_iters res) /\
        krylov_solve N rsum edot tri op pre (map (fun i => row_entries i b) (seq 0 (numel dyn))) (ks_cfg s) = (Ok res, calls) /\
        (forall i, i < numel dyn -> acts_on i (A i) op) /\
        (forall i, i < numel dyn -> acts_on i (match ks_precond s with None => fun v => v | Some _ => M i end) pre) /\
        kr_du res = map (fun i => row_entries i du) (seq 0 (numel dyn)).
    Proof.
      intros Sm KA KM H Hp. destruct (step_parts _ _ _ _ _ _ _ H) as (bf & bspec & uf & uspec & rows & st1 & l1 & res & calls & AU & AR & Er & Eb & Eu & Ero & Ef & Ek & Ed & -> & ->).
      pose proof (res_ok b Er) as Gb. destruct (spec_widths _ _ _ _ Eb) as (Nb & Lb & _). destruct (spec_widths _ _ _ _ Eu) as (Nu & _ & Wu & Su).
      rewrite (flatten_ok dyn d b rws _ Nb Lb AR Gb) in Eb. injection Eb as <- <-. cbn [fs_batch] in *. rewrite Wu, Su in *.
      rewrite (flat_rows dyn d b rws Nb Gb) in Ero. injection Ero as <-.
      destruct (dense_parts _ _ _ _ Gb) as [Pb Wb].
      assert (Sb : t_shape (flat_of dyn d b) = [numel dyn; n]) by (unfold flat_of, joined; cbn [t_shape app]; rewrite total_matrix, Wb; reflexivity).
      assert (Db : t_dev (flat_of dyn d b) = d) by reflexivity.
      cbn [st_precond] in Hp.
      assert (Sh : sheet (numel dyn) n (map (fun i => row_entries i b) (seq 0 (numel dyn)))).
      { split; [rewrite map_length, seq_length; reflexivity|]. rewrite Forall_map. apply Forall_forall. intros i I. apply in_seq in I.
        rewrite row_entries_width. clear - Gb I. induction Gb as [|t w ts ws [W [_ S]] _ IH]; [reflexivity|]. cbn [flat_map sum_of fold_right]. rewrite app_length.
        f_equal; [|exact IH]. assert (Ew : width t = w) by (unfold width; rewrite S; apply last_last). rewrite Ew.
        apply (row_data_len _ _ (numel dyn)); [|lia]. rewrite W, S, numel_app, numel_one. reflexivity. }
      rewrite (solve_same N rsum edot tri (numel dyn) n _ (guarded (numel dyn) n (flat_matvec s u (mkSpec dyn uws (sum_of uws)) (flat_of dyn d b)))
        _ (guarded (numel dyn) n (flat_minv s (st_precond st1) (flat_of dyn d b)))) in Ek; [|intros x; apply guarded_same|intros x; apply guarded_same|exact Sh].
      pose proof (fun i Hi => matvec_acts (flat_of dyn d b) i Nu Sb Db Hi AR) as MA.
      pose proof (fun i Hi => minv_acts (flat_of dyn d b) (st_precond st1) M i Sb Db Hi Hp) as MI.
      split; [exact Er|].
      (* the solution's shape *)
      assert (Sdu : sheet (numel dyn) n (kr_du res)).
      { assert (Rows : forall i, i < numel dyn -> length (kr_du res) = numel dyn /\ exists x, nth_error (kr_du res) i = Some x /\ length x = n).
        { intros i Hi. destruct (nth_error (map (fun i => row_entries i b) (seq 0 (numel dyn))) i) as [v|] eqn:Ev; [|apply nth_error_None in Ev; rewrite map_length, seq_length in Ev; lia].
          destruct (solve_shape N rsum edot tri n _ _ _ (ks_cfg s) res calls i _ _ v Sm (MA i Hi) (MI i Hi) (KA i Hi)
            ltac:(destruct (ks_precond s); [exact (KM i Hi)|intros x Hx; exact Hx]) Ek Ev (sheet_row _ _ _ _ _ Sh Ev)) as [L1 L2].
          rewrite map_length, seq_length in L1. auto. }
        destruct (numel dyn) as [|P] eqn:EP.
        - exfalso. clear Rows. cbn [seq map] in Ek.
          match type of Ek with krylov_solve _ _ _ _ ?f ?g _ _ = _ => pose proof (solve_empty N rsum edot tri f g (ks_cfg s)) as Se end.
          rewrite Ek in Se. discriminate.
        - split; [apply (Rows 0); lia|]. apply nth_forall. intros i v Ev.
          assert (Hi : i < S P). { destruct (Rows 0 ltac:(lia)) as [L1 _]. rewrite <- L1. apply nth_error_Some. congruence. }
          destruct (Rows i Hi) as [_ (x & Ex & Lx)]. congruence. }
      destruct (sheet_matrix (numel dyn) n (flat_of dyn d b) (kr_du res) Sb Sdu) as (W & D & Shp & R).
      destruct (matrix_groups dyn d (of_rows (flat_of dyn d b) (kr_du res)) uws (kr_du res) ltac:(destruct u; [contradiction|discriminate]) W ltac:(congruence)
        ltac:(rewrite square; exact Shp) R) as (ts & U & G & Ro).
      rewrite Ed in U. injection U as <-. split; [exact G|].
      do 5 eexists. split; [reflexivity|]. split; [reflexivity|]. split; [exact Ek|]. split; [exact MA|]. split; [exact MI|]. symmetry. exact Ro.
    Qed.

    (** Exact BiCGStab: a step whose linear solve stopped before its budget solves the linear system. *)
    Lemma step_exact st du b st' l M : ring_of N -> k_method (ks_cfg s) = BiCGStab ->
      (forall i, i < numel dyn -> linear_op N n (A i)) -> (forall i, i < numel dyn -> keeps_width n (M i)) ->
      kstep N rsum edot tri s u st = (Ok (du, b), st', l) ->
      (forall setup apply, ks_precond s = Some (setup, apply) -> row_precond (numel dyn) n d M (apply (st_precond st'))) ->
      (st_last st' < k_max_its (ks_cfg s))%Z ->
      forall i, i < numel dyn -> within N rsum (ks_cfg s) (row_entries i b) (residual_of N (A i) (row_entries i b) (row_entries i du)).
    Proof.
      intros R Hm LA KM H Hp Hlt i Hi.
      destruct (step_rows st du b st' l M (or_introl Hm) (fun i Hi => proj1 (LA i Hi)) KM H Hp) as (Er & _ & op & pre & res & calls & sc & _ & El & Ek & MA & MI & Ed).
      unfold krylov_solve in Ek. rewrite Hm in Ek.
      assert (Eb : nth_error (map (fun i => row_entries i b) (seq 0 (numel dyn))) i = Some (row_entries i b)) by (rewrite nth_error_map, seq_nth_error by exact Hi; reflexivity).
      assert (Ex : nth_error (kr_du res) i = Some (row_entries i du)) by (rewrite Ed, nth_error_map, seq_nth_error by exact Hi; reflexivity).
      assert (Lb : length (row_entries i b) = n).
      { pose proof (res_ok b Er) as Gb. rewrite row_entries_width. clear - Gb Hi. induction Gb as [|t w ts ws [W [_ S]] _ IH]; [reflexivity|].
        cbn [flat_map sum_of fold_right]. rewrite app_length. f_equal; [|exact IH]. assert (Ew : width t = w) by (unfold width; rewrite S; apply last_last). rewrite Ew.
        apply (row_data_len _ _ (numel dyn)); [|exact Hi]. rewrite W, S, numel_app, numel_one. reflexivity. }
      destruct (bicgstab_residual N rsum edot R n op pre _ (ks_cfg s) res calls i _ _ (row_entries i b) (row_entries i du) (MA i Hi) (MI i Hi) (LA i Hi)
        ltac:(destruct (ks_precond s); [exact (KM i Hi)|intros x Hx; exact Hx]) Ek Eb Lb Ex) as (_ & Q & _).
      apply Q. destruct (bicgstab_exact N rsum edot op pre _ (ks_cfg s) res calls Ek) as (sts & E1 & E2 & L & _ & _ & _ & _ & [Dn|Dn]); [|lia].
      rewrite E2, nth_error_map. rewrite E1, nth_error_map in Ex. destruct (nth_error sts i) as [si|] eqn:Es; [|discriminate].
      cbn. f_equal. unfold all_done in Dn. rewrite forallb_forall in Dn. apply Dn. eapply nth_error_In, Es.
    Qed.

    Lemma precond_split M p : precond_rows s (numel dyn) n d M p ->
      (forall setup apply, ks_precond s = Some (setup, apply) -> row_precond (numel dyn) n d M (apply p)) /\
      (ks_precond s = None -> forall i v, M i v = v).
    Proof.
      unfold precond_rows. destruct (ks_precond s) as [[setup0 apply0]|]; intros H; (split; [intros setup apply E|intros E]); try discriminate.
      - injection E as _ <-. exact H.
      - exact H.
    Qed.

    Lemma step_solves st du b st' l M : sound_method (ks_cfg s) ->
      (forall i, i < numel dyn -> keeps_width n (A i)) -> (forall i, i < numel dyn -> keeps_width n (M i)) ->
      kstep N rsum edot tri s u st = (Ok (du, b), st', l) -> precond_rows s (numel dyn) n d M (st_precond st') ->
      ks_res s u = Ok b /\ dense_groups dyn d du uws /\
      exists iters calls setup_calls,
        l = SResidual u :: setup_calls ++ [SSolve (st_precond st') calls (Ok iters)] /\
        st_last st' = Z.of_nat iters /\
        solves_rows N rsum edot tri (ks_cfg s) (numel dyn) A M du b iters calls.
    Proof.
      intros Sm KA KM H Hp. destruct (precond_split _ _ Hp) as [P1 P2].
      destruct (step_rows st du b st' l M Sm KA KM H P1) as (Er & G & op & pre & res & calls & sc & El & Es & Ek & MA & MI & Ed).
      split; [exact Er|]. split; [exact G|]. exists (kr_iters res), calls, sc. split; [exact El|]. split; [exact Es|].
      exists op, pre, res. split; [exact Ek|]. split; [|split; [exact Ed|reflexivity]]. intros i Hi. split; [apply MA, Hi|].
      intros x y v H1 H2. specialize (MI i Hi x y v H1 H2). destruct (ks_precond s); [exact MI|]. rewrite P2; auto.
    Qed.
    Lemma step_within st du b st' l M : ring_of N -> k_method (ks_cfg s) = BiCGStab ->
      (forall i, i < numel dyn -> linear_op N n (A i)) -> (forall i, i < numel dyn -> keeps_width n (M i)) ->
      kstep N rsum edot tri s u st = (Ok (du, b), st', l) -> precond_rows s (numel dyn) n d M (st_precond st') ->
      (st_last st' < k_max_its (ks_cfg s))%Z ->
      forall i, i < numel dyn -> within N rsum (ks_cfg s) (row_entries i b) (residual_of N (A i) (row_entries i b) (row_entries i du)).
    Proof. intros R Hm LA KM H Hp Hl. apply (step_exact st du b st' l M R Hm LA KM H (proj1 (precond_split _ _ Hp)) Hl). Qed.
  End Rows.
End Step.
