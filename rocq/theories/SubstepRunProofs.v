(** Lemmas about the whole of [run_substepped]. *)
From Coq Require Import FinFun.
From Verif Require Import Base BaseProofs SpecMap SmapProofs Tensor Spec TensorProofs BatchChunk SelectProofs BroadcastProofs Pack Implicit ImplicitProofs
     Substep SpecSubstep DriveProofs RowTableProofs SubstepProofs.

Section Run.
  Context {V : Type}.
  Variable A : arith V.
  Variable d : device.
  Notation vmap := (smap (tensor V)).
  Implicit Types (st : vmap) (t : tensor V).

  (** The tensor with its batch axes flattened. *)
  Definition flat (dyn : list nat) (v : var_info) t : tensor V := mkT (numel dyn :: trailing v) (t_data t) (t_dev t).
  Lemma flat_rowsof dyn v t : wf t -> t_dev t = d -> t_shape t = dyn ++ trailing v -> rowsof d (numel dyn) (trailing v) (flat dyn v t).
  Proof. intros W D S. split; [|split; [exact D|reflexivity]]. unfold wf, flat in *. cbn [t_data t_shape]. rewrite W, S, numel_app. reflexivity. Qed.
  Lemma flat_row dyn v t i : row (flat dyn v t) i = entry v t i.
  Proof. reflexivity. Qed.

  Lemma trail_length v : var_trail v = length (trailing v).
  Proof. unfold var_trail, trailing. rewrite app_length. reflexivity. Qed.
  Lemma flatten_ok dyn v t : t_shape t = dyn ++ trailing v -> numel (trailing v) <> 0 -> flatten_dyn t (var_trail v) = Ok (flat dyn v t).
  Proof.
    intros S N. unfold flatten_dyn, dim. rewrite trail_length, S, app_length, Nat.add_sub, skipn_app, Nat.sub_diag, skipn_all. cbn [app skipn].
    replace (numel (trailing v) =? 0) with false by (symmetry; apply Nat.eqb_neq; exact N). rewrite numel_app, Nat.div_mul by exact N.
    unfold reshape. rewrite S, numel_app. cbn [numel fold_right]. fold (numel (trailing v)). rewrite Nat.eqb_refl. reflexivity.
  Qed.
  Lemma flat_one dyn v t : length dyn = 1 -> t_shape t = dyn ++ trailing v -> flat dyn v t = t.
  Proof.
    intros L S. destruct dyn as [|n [|m dyn]]; try discriminate. unfold flat. cbn [numel fold_right]. rewrite Nat.mul_1_r.
    cbn [app] in S. rewrite <- S. destruct t. reflexivity.
  Qed.

  Variable givens : list given_info.
  Hypothesis names_distinct : NoDup (given_names givens).

  Lemma flatten_givens_ok dyn gs st : NoDup (given_names gs) -> over d dyn (map gv_var gs) st ->
    (forall g, In g gs -> numel (trailing (gv_var g)) <> 0) ->
    exists st', flatten_givens gs st = Ok st' /\
      (forall g t, In g gs -> lookup (given_name g) st = Some t -> lookup (given_name g) st' = Some (flat dyn (gv_var g) t)) /\
      (forall n, ~ In n (given_names gs) -> lookup n st' = lookup n st).
  Proof.
    revert st. induction gs as [|g gs IH]; intros st N O Z.
    - exists st. split; [reflexivity|]. split; [intros g t []|reflexivity].
    - cbn [given_names map] in N. inversion N as [|? ? I N']; subst. cbn [flatten_givens].
      destruct (O (gv_var g) (or_introl eq_refl)) as [t [L [W [D S]]]]. unfold at_. rewrite L. cbn [bind].
      rewrite (flatten_ok dyn) by (try exact S; apply Z; left; reflexivity). cbn [bind].
      destruct (IH (set_ (v_name (gv_var g)) (flat dyn (gv_var g) t) st)) as [st' [E [H1 H2]]].
      + exact N'.
      + intros v Iv. destruct (O v (or_intror Iv)) as [u [Lu Q]]. exists u. split; [|exact Q]. rewrite lookup_set_other; [exact Lu|].
        intros Ev. apply I. apply in_map_iff in Iv as [g' [<- Iv]]. unfold given_name at 1. rewrite <- Ev. apply (in_map given_name). exact Iv.
      + intros g' I'. apply Z. right. exact I'.
      + exists st'. split; [exact E|]. split.
        * intros g' t' [<-|I'] L'.
          -- unfold given_name in L' |- *. rewrite L in L'. injection L' as <-. rewrite H2 by exact I. apply lookup_set_same.
          -- apply H1; [exact I'|]. rewrite lookup_set_other; [exact L'|]. intros Ev. apply I. unfold given_name at 1. rewrite <- Ev.
             apply (in_map given_name). exact I'.
        * intros n J. rewrite H2 by (intros K; apply J; right; exact K). apply lookup_set_other. intros ->. apply J. left. reflexivity.
  Qed.

  Lemma collect_put gs st : forall ts acc, Forall2 (fun g t => lookup (given_name g) st = Some t) gs ts ->
    collect_givens gs st acc = Ok (put_all (combine (given_names gs) ts) acc).
  Proof.
    induction gs as [|g gs IH]; intros ts acc F; inversion F as [|? t ? ts' E F']; subst; [reflexivity|]. cbn [collect_givens].
    unfold at_. fold (given_name g). rewrite E. cbn [bind]. rewrite (IH ts') by exact F'. reflexivity.
  Qed.

  Lemma collect_ok n gs st (sh : given_info -> list nat) : NoDup (given_names gs) ->
    (forall g, In g gs -> exists t, lookup (given_name g) st = Some t /\ rowsof d n (sh g) t) ->
    exists m, collect_givens gs st [] = Ok m /\ table d n (map (fun g => (given_name g, sh g)) gs) m /\
      forall g, In g gs -> lookup (given_name g) m = lookup (given_name g) st.
  Proof.
    intros N H. destruct (forall2_build (fun g t => lookup (given_name g) st = Some t) (fun g t => rowsof d n (sh g) t) gs H) as [ts [F1 F2]].
    destruct (table_build d n given_name sh gs ts N F2) as [T Q]. eexists. split; [apply collect_put; exact F1|]. split; [exact T|].
    intros g I. destruct (Q g 0 I) as [t [L [J _]]]. apply (forall2_in _ _ _ _ _ F1) in J. unfold given_names. rewrite L. symmetry. exact J.
  Qed.

  Variable unknowns : list var_info.
  Hypothesis unknowns_distinct : NoDup (unknown_names unknowns).

  Lemma zeros_ok n dev : dev = d ->
    table d n (unknown_shapes unknowns)
      (fold_left (fun m u => set_ (v_name u) (zeros (a_zero A) (n :: [] ++ v_sub u ++ v_base u) dev) m) unknowns []).
  Proof.
    intros ->. set (ts := map (fun u => zeros (a_zero A) (n :: trailing u) d) unknowns).
    assert (F : Forall2 (fun u t => rowsof d n (trailing u) t) unknowns ts).
    { unfold ts. clear. induction unknowns as [|u l IH]; constructor; [|exact IH]. split; [|split; reflexivity].
      unfold wf, zeros. cbn [t_data t_shape]. apply repeat_length. }
    destruct (table_build d n v_name trailing unknowns ts unknowns_distinct F) as [T _].
    assert (E : forall acc, fold_left (fun m u => set_ (v_name u) (zeros (a_zero A) (n :: [] ++ v_sub u ++ v_base u) d) m) unknowns acc
                = put_all (combine (map v_name unknowns) ts) acc).
    { unfold ts. clear. induction unknowns as [|u l IH]; intros acc; [reflexivity|]. cbn [fold_left map combine put_all fst snd]. apply IH. }
    rewrite E. exact T.
  Qed.

  (** ** Results into the state *)
  Lemma put_results_ok dyn us res : NoDup (map v_name us) ->
    (forall u, In u us -> exists t, lookup (v_name u) res = Some t /\ rowsof d (numel dyn) (trailing u) t) ->
    forall st, exists st', put_results us res (if negb (length dyn =? 1) then Some dyn else None) st = Ok st' /\
      (forall u, In u us -> exists t r, lookup (v_name u) st' = Some t /\ wf t /\ t_dev t = d /\ t_shape t = dyn ++ trailing u /\
         lookup (v_name u) res = Some r /\ forall i, entry u t i = row r i) /\
      (forall n, ~ In n (map v_name us) -> lookup n st' = lookup n st).
  Proof.
    intros N. induction us as [|u us IH]; intros H st.
    - exists st. split; [reflexivity|]. split; [intros u []|reflexivity].
    - cbn [map] in N. inversion N as [|? ? I N']; subst. cbn [put_results]. destruct (H u (or_introl eq_refl)) as [r [L R]].
      unfold at_. rewrite L. cbn [bind]. pose proof R as [W [D S]].
      assert (E : exists t, (match (if negb (length dyn =? 1) then Some dyn else None) with None => Ok r | Some dd => unflatten_dyn r dd (var_trail u) end) = Ok t /\
        wf t /\ t_dev t = d /\ t_shape t = dyn ++ trailing u /\ t_data t = t_data r).
      { destruct (length dyn =? 1) eqn:El; cbn [negb].
        - apply Nat.eqb_eq in El. exists r. split; [reflexivity|]. split; [exact W|]. split; [exact D|]. split; [|reflexivity].
          destruct dyn as [|x [|y dyn]]; try discriminate. rewrite S. cbn [numel fold_right app]. rewrite Nat.mul_1_r. reflexivity.
        - unfold unflatten_dyn, dim. rewrite S. cbn [length]. rewrite trail_length, Nat.sub_succ_l, Nat.sub_diag by lia. cbn [skipn].
          unfold reshape. rewrite S, numel_app. cbn [numel fold_right]. fold (numel dyn). fold (numel (trailing u)). rewrite Nat.eqb_refl.
          eexists. split; [reflexivity|]. cbn [t_dev t_shape t_data]. split; [|repeat split; exact D].
          unfold wf in *. cbn [t_data t_shape]. rewrite W, S, numel_app. reflexivity. }
      destruct E as [t [-> [Wt [Dt [St Dat]]]]]. cbn [bind].
      destruct (IH N' (fun u' I' => H u' (or_intror I')) (set_ (v_name u) t st)) as [st' [E [H1 H2]]]. exists st'. split; [exact E|]. split.
      + intros u' [<-|I']; [|apply H1; exact I']. exists t, r. rewrite H2 by exact I. rewrite lookup_set_same.
        split; [reflexivity|]. split; [exact Wt|]. split; [exact Dt|]. split; [exact St|]. split; [exact L|].
        intros i. unfold entry, row. rewrite Dat, S. reflexivity.
      + intros n J. rewrite H2 by (intros K; apply J; right; exact K). apply lookup_set_other. intros ->. apply J. left. reflexivity.
  Qed.
End Run.

Section Whole.
  Context {V : Type}.
  Variable A : arith V.
  Variable d : device.
  Notation vmap := (smap (tensor V)).
  Variable masked : vmap -> result (vmap * list bool).
  Variable givens : list given_info.
  Variable unknowns : list var_info.
  Hypothesis seg : seg_ok givens unknowns.

  Definition all_rows (n : nat) : list Z := map Z.of_nat (seq 0 n).
  Lemma all_rows_ok n : idx_ok n (all_rows n) /\ NoDup (all_rows n) /\ forall i, i < n <-> In (Z.of_nat i) (all_rows n).
  Proof.
    split; [|split].
    - apply Forall_forall. intros z I. apply in_map_iff in I as [k [<- I]]. apply in_seq in I. lia.
    - apply Injective_map_NoDup; [intros x y H; lia|apply seq_NoDup].
    - intros i. split.
      + intros H. apply in_map. apply in_seq. lia.
      + intros I. apply in_map_iff in I as [k [E I]]. apply in_seq in I. lia.
  Qed.

  (** What the driver starts from. *)
  Lemma run_start level (st : vmap) dyn : over d dyn (map gv_var givens) st -> solid dyn (map gv_var givens) ->
    exists orig res ch, table d (numel dyn) (given_shapes givens) orig /\
      table d (numel dyn) (unknown_shapes unknowns) res /\ table d (numel dyn) (given_shapes (old_states givens)) ch /\
      (forall i, rows_of_names orig (given_names givens) i = entries (map gv_var givens) st i) /\
      (forall i, rows_of_names ch (given_names (old_states givens)) i = entries (map gv_var (old_states givens)) st i) /\
      run_substepped A masked givens unknowns level st =
      (let (r, l) := solve_to A masked givens unknowns orig level (a_zero A) (a_one A) (all_rows (numel dyn)) (res, ch) in
       (let* bufs := r in put_results unknowns (fst bufs) (if negb (length dyn =? 1) then Some dyn else None) st, l)).
  Proof.
    intros O Sd. destruct seg as [Ne [Ng [Nu _]]].
    (* the flattened state *)
    assert (F : exists st1, (if negb (length dyn =? 1) then flatten_givens givens st else Ok st) = Ok st1 /\
      forall g, In g givens -> exists t, lookup (given_name g) st = Some t /\ lookup (given_name g) st1 = Some (flat dyn (gv_var g) t) /\
        rowsof d (numel dyn) (trailing (gv_var g)) (flat dyn (gv_var g) t)).
    { destruct (length dyn =? 1) eqn:El; cbn [negb].
      - exists st. split; [reflexivity|]. intros g I. destruct (O (gv_var g) (in_map gv_var _ _ I)) as [t [L [W [D S]]]].
        exists t. split; [exact L|]. apply Nat.eqb_eq in El. split; [rewrite (flat_one dyn _ t El S); exact L|apply flat_rowsof; assumption].
      - destruct Sd as [Sd|Sd]; [rewrite Sd in El; discriminate|].
        destruct (flatten_givens_ok d dyn givens st Ng O) as [st1 [E [H1 _]]]; [intros g I; apply Sd; apply in_map; exact I|].
        exists st1. split; [exact E|]. intros g I. destruct (O (gv_var g) (in_map gv_var _ _ I)) as [t [L [W [D S]]]].
        exists t. split; [exact L|]. split; [apply H1; assumption|apply flat_rowsof; assumption]. }
    destruct F as [st1 [E1 F1]].
    destruct (collect_ok d (numel dyn) givens st1 (fun g => trailing (gv_var g)) Ng) as [orig [E2 [T2 L2]]].
    { intros g I. destruct (F1 g I) as [t [_ [L R]]]. eexists. split; [exact L|exact R]. }
    assert (No : NoDup (given_names (old_states givens))) by (apply (nodup_filter_names givens Ng)).
    destruct (collect_ok d (numel dyn) (old_states givens) orig (fun g => trailing (gv_var g)) No) as [ch [E3 [T3 L3]]].
    { intros g I. apply filter_In in I as [I _]. destruct (F1 g I) as [t [_ [L R]]]. rewrite <- L2 in L by exact I. eexists. split; [exact L|exact R]. }
    set (res := fold_left (fun m u => set_ (v_name u) (zeros (a_zero A) (numel dyn :: [] ++ v_sub u ++ v_base u) d) m) unknowns []).
    assert (Rv : forall g i, In g givens -> val orig (given_name g) i = match lookup (v_name (gv_var g)) st with Some t => entry (gv_var g) t i | None => [] end).
    { intros g i I. destruct (F1 g I) as [t [L0 [L R]]]. fold (given_name g). unfold val. rewrite (L2 g I), L, L0. reflexivity. }
    exists orig, res, ch. split; [exact T2|]. split; [apply zeros_ok; [exact Nu|reflexivity]|]. split; [exact T3|]. split; [|split].
    - intros i. unfold rows_of_names, given_names, entries. rewrite !map_map. apply map_ext_in. intros g I. apply Rv. exact I.
    - intros i. unfold rows_of_names, given_names, entries. rewrite !map_map. apply map_ext_in. intros g I.
      rewrite <- Rv by (apply filter_In in I; apply I). unfold val. rewrite (L3 g I). reflexivity.
    - unfold run_substepped. destruct givens as [|g0 gs] eqn:Eg; [contradiction Ne; reflexivity|]. rewrite <- Eg in *.
      assert (I0 : In g0 givens) by (rewrite Eg; left; reflexivity). destruct (F1 g0 I0) as [t0 [L0 [L0' R0]]].
      destruct (O (gv_var g0) (in_map gv_var _ _ I0)) as [t0' [L0'' [W0 [D0 S0]]]]. fold (given_name g0) in L0''. rewrite L0 in L0''. injection L0'' as <-.
      unfold at_ at 1. fold (given_name g0). rewrite L0.
      assert (Hd : dim t0 = length dyn + var_trail (gv_var g0)) by (unfold dim; rewrite S0, app_length, trail_length; reflexivity).
      replace (dim t0 <? var_trail (gv_var g0)) with false by (symmetry; apply Nat.ltb_ge; lia).
      assert (Hf : firstn (dim t0 - var_trail (gv_var g0)) (t_shape t0) = dyn)
        by (rewrite Hd, Nat.add_sub, S0, firstn_app, Nat.sub_diag, firstn_all; cbn [firstn]; apply app_nil_r).
      rewrite Hf, E1. cbn [bind]. rewrite E2. cbn [bind]. unfold at_ at 1. rewrite (L2 g0 I0), L0'. cbn [bind].
      assert (Hf' : firstn (dim (flat dyn (gv_var g0) t0) - var_trail (gv_var g0)) (t_shape (flat dyn (gv_var g0) t0)) = [numel dyn]).
      { unfold dim, flat. cbn [t_shape length]. rewrite trail_length, Nat.sub_succ_l, Nat.sub_diag by lia. reflexivity. }
      rewrite Hf'. unfold old_states in E3. unfold is_old_state at 1. rewrite E3. cbn [bind].
      replace (t_dev (flat dyn (gv_var g0) t0)) with d by (symmetry; exact D0). reflexivity.
  Qed.

  Hypothesis ans : answers d givens unknowns masked.

  (** The outcome and the log. *)
  Lemma run_outcome level (st : vmap) dyn : over d dyn (map gv_var givens) st -> solid dyn (map gv_var givens) ->
    exists r l, run_substepped A masked givens unknowns level st = (r, l) /\ length l < 2 ^ S level /\
    match r with
    | Ok st' =>
        over d dyn unknowns st' /\ (forall n, ~ In n (unknown_names unknowns) -> lookup n st' = lookup n st) /\
        forall i, i < numel dyn ->
          chain (a_zero A) (a_one A) (accepted (Z.of_nat i) l) /\
          forall x y, In (x, y) (accepted (Z.of_nat i) l) -> exists n, n <= level /\ halved (mid_of A) n (a_zero A) (a_one A) x y
    | Err e => exists w, e = Convergence w /\
        exists x y act mask, In (x, y, act, mask) l /\ halved (mid_of A) level (a_zero A) (a_one A) x y /\ In false mask
    end.
  Proof.
    intros O Sd. destruct (run_start level st dyn O Sd) as [orig [res [ch [To [Tr [Tc [_ [_ ->]]]]]]]].
    rewrite solve_to_drive. destruct (all_rows_ok (numel dyn)) as [Ia [Na In_]].
    assert (I0 : inv d givens unknowns (numel dyn) (res, ch)) by (split; assumption).
    destruct (drive_total (mid_of A) (span_solve A masked givens unknowns orig) (inv d givens unknowns (numel dyn)) (numel dyn)
               (span_solve_total A d masked givens unknowns orig seg (numel dyn) To ans) level (a_zero A) (a_one A) (all_rows (numel dyn)) (res, ch) I0 Ia Na)
      as [r [l [E [M R]]]].
    rewrite E. pose proof (drive_cost _ _ _ _ _ _ _ _ _ E) as C. destruct r as [bufs|e].
    - destruct R as [Tu _]. destruct seg as [_ [_ [Nu _]]].
      destruct (put_results_ok d dyn unknowns (fst bufs) Nu) with (st := st) as [st' [Ep [H1 H2]]].
      { intros u I. apply (table_get d _ _ _ _ _ Tu). unfold unknown_shapes.
        apply lookup_nodup; [|apply (in_map (fun u => (v_name u, trailing u))); exact I].
        unfold keys. rewrite map_map. exact Nu. }
      cbn [bind]. rewrite Ep. eexists _, _. split; [reflexivity|]. split; [exact C|]. split; [|split; [exact H2|]].
      + intros u I. destruct (H1 u I) as [t [_ [L [W [D [S _]]]]]]. exists t. split; [exact L|]. split; [exact W|]. split; [exact D|exact S].
      + intros i Hi. apply In_ in Hi. exact (drive_tiles _ _ _ _ _ _ _ _ _ _ E M Na Hi).
    - cbn [bind]. eexists _, _. split; [reflexivity|]. split; [exact C|exact R].
  Qed.

  Variable solve_row : list (list V) -> list (list V) * bool.
  Hypothesis row_by_row : rowwise d givens unknowns masked solve_row.

  Definition alone level (st : vmap) i := advance A givens unknowns solve_row level (a_zero A) (a_one A)
    (entries (map gv_var givens) st i) (entries (map gv_var (old_states givens)) st i).

  Lemma run_rows level (st : vmap) dyn : over d dyn (map gv_var givens) st -> solid dyn (map gv_var givens) ->
    match fst (run_substepped A masked givens unknowns level st) with
    | Ok st' => forall i, i < numel dyn -> exists c, alone level st i = Some (entries unknowns st' i, c)
    | Err _ => exists i, i < numel dyn /\ alone level st i = None
    end.
  Proof.
    intros O Sd. destruct (run_start level st dyn O Sd) as [orig [res [ch [To [Tr [Tc [Ro [Rc ->]]]]]]]].
    rewrite solve_to_drive. destruct (all_rows_ok (numel dyn)) as [Ia [Na In_]].
    assert (I0 : inv d givens unknowns (numel dyn) (res, ch)) by (split; assumption).
    pose proof (drive_rows (mid_of A) (span_solve A masked givens unknowns orig) (inv d givens unknowns (numel dyn)) (numel dyn)
                  (span_solve_total A d masked givens unknowns orig seg (numel dyn) To ans)
                  (view givens unknowns) (row_step A givens unknowns orig solve_row)
                  (span_solve_rows A d masked givens unknowns orig seg (numel dyn) To ans solve_row row_by_row)
                  level (a_zero A) (a_one A) (all_rows (numel dyn)) (res, ch) I0 Ia Na) as R.
    destruct (drive_total (mid_of A) (span_solve A masked givens unknowns orig) (inv d givens unknowns (numel dyn)) (numel dyn)
               (span_solve_total A d masked givens unknowns orig seg (numel dyn) To ans) level (a_zero A) (a_one A) (all_rows (numel dyn)) (res, ch) I0 Ia Na)
      as [r [l [E [M R']]]].
    rewrite E in R |- *. cbn [fst] in R |- *.
    assert (Q : forall i bufs, radvance (mid_of A) (row_step A givens unknowns orig solve_row) level (a_zero A) (a_one A) i (view givens unknowns (res, ch) i) = bufs ->
      alone level st i = bufs).
    { intros i bufs <-. unfold view. rewrite row_step_advance. cbn [snd]. rewrite Ro, Rc. reflexivity. }
    destruct r as [bufs|e].
    - destruct R' as [Tu _]. destruct seg as [_ [_ [Nu _]]].
      destruct (put_results_ok d dyn unknowns (fst bufs) Nu) with (st := st) as [st' [Ep [H1 H2]]].
      { intros u I. apply (table_get d _ _ _ _ _ Tu). unfold unknown_shapes.
        apply lookup_nodup; [|apply (in_map (fun u => (v_name u, trailing u))); exact I].
        unfold keys. rewrite map_map. exact Nu. }
      cbn [bind]. rewrite Ep. cbn [fst]. destruct R as [R _]. intros i Hi. apply In_ in Hi.
      eexists. rewrite (Q i _ (R i Hi)). unfold view. f_equal. f_equal. unfold rows_of_names, unknown_names, entries.
      rewrite map_map. apply map_ext_in. intros u I. destruct (H1 u I) as [t [r [L [_ [_ [_ [Lr Er]]]]]]]. unfold val. rewrite L, Lr. symmetry. apply Er.
    - cbn [bind fst]. destruct R as [i [J H]]. exists i. split; [apply In_; exact J|]. apply Q. exact H.
  Qed.
End Whole.

Section Corollaries.
  Context {V : Type}.
  Variable A : arith V.
  Variable d : device.
  Notation vmap := (smap (tensor V)).

  Lemma solid_one vs : solid [1] vs.
  Proof. left. reflexivity. Qed.

  (** The entries of the old states are among those of the givens. *)
  Lemma entries_old givens (st1 st : vmap) j i : entries (map gv_var givens) st1 j = entries (map gv_var givens) st i ->
    entries (map gv_var (old_states givens)) st1 j = entries (map gv_var (old_states givens)) st i.
  Proof.
    unfold entries. rewrite !map_map. induction givens as [|g gs IH]; intros H; [reflexivity|]. cbn [map] in H. injection H as E H.
    unfold old_states. cbn [filter]. destruct (String.eqb (gv_role g) "old_state"); [|apply IH; exact H]. cbn [map]. f_equal; [exact E|apply IH; exact H].
  Qed.

  Lemma one_row_batch masked givens unknowns solve_row level (st : vmap) dyn :
    seg_ok givens unknowns -> answers d givens unknowns masked -> rowwise d givens unknowns masked solve_row ->
    over d dyn (map gv_var givens) st -> solid dyn (map gv_var givens) ->
    let single i st1 := over d [1] (map gv_var givens) st1 /\ entries (map gv_var givens) st1 0 = entries (map gv_var givens) st i in
    match fst (run_substepped A masked givens unknowns level st) with
    | Ok st' => forall i st1, i < numel dyn -> single i st1 -> exists st1',
        fst (run_substepped A masked givens unknowns level st1) = Ok st1' /\ entries unknowns st1' 0 = entries unknowns st' i
    | Err _ => exists i, i < numel dyn /\ forall st1, single i st1 -> exists w,
        fst (run_substepped A masked givens unknowns level st1) = Err (Convergence w)
    end.
  Proof.
    intros S An Rw O Sd single.
    pose proof (run_rows A d masked givens unknowns S An solve_row Rw level st dyn O Sd) as R.
    assert (Al : forall i st1, single i st1 -> alone A givens unknowns solve_row level st1 0 = alone A givens unknowns solve_row level st i).
    { intros i st1 [_ E]. unfold alone. rewrite E, (entries_old givens st1 st 0 i E). reflexivity. }
    assert (R1 : forall st1, over d [1] (map gv_var givens) st1 ->
      match fst (run_substepped A masked givens unknowns level st1) with
      | Ok st' => exists c, alone A givens unknowns solve_row level st1 0 = Some (entries unknowns st' 0, c)
      | Err e => (exists w, e = Convergence w) /\ alone A givens unknowns solve_row level st1 0 = None
      end).
    { intros st1 O1. pose proof (run_rows A d masked givens unknowns S An solve_row Rw level st1 [1] O1 (solid_one _)) as Q.
      destruct (run_outcome A d masked givens unknowns S An level st1 [1] O1 (solid_one _)) as [r [l [E [_ R']]]]. rewrite E in Q |- *. cbn [fst] in *.
      destruct r as [st'|e]; [apply Q; cbn; lia|]. destruct Q as [j [Hj Q]]. cbn in Hj. replace j with 0 in Q by lia.
      split; [|exact Q]. destruct R' as [w [-> _]]. exists w. reflexivity. }
    destruct (fst (run_substepped A masked givens unknowns level st)) as [st'|e].
    - intros i st1 Hi Si. destruct (R i Hi) as [c Ei]. specialize (R1 st1 (proj1 Si)). rewrite (Al i st1 Si), Ei in R1.
      destruct (fst (run_substepped A masked givens unknowns level st1)) as [st1'|e1].
      + exists st1'. split; [reflexivity|]. destruct R1 as [c' R1]. injection R1 as R1 _. symmetry. exact R1.
      + destruct R1 as [_ R1]. discriminate.
    - destruct R as [i [Hi Ei]]. exists i. split; [exact Hi|]. intros st1 Si. specialize (R1 st1 (proj1 Si)). rewrite (Al i st1 Si), Ei in R1.
      destruct (fst (run_substepped A masked givens unknowns level st1)) as [st1'|e1].
      + destruct R1 as [c' R1]. discriminate.
      + destruct R1 as [[w ->] _]. exists w. reflexivity.
  Qed.

  Lemma failing_row_raises masked givens unknowns solve_row level (st : vmap) dyn i :
    seg_ok givens unknowns -> answers d givens unknowns masked -> rowwise d givens unknowns masked solve_row ->
    over d dyn (map gv_var givens) st -> solid dyn (map gv_var givens) -> i < numel dyn ->
    advance A givens unknowns solve_row level (a_zero A) (a_one A)
      (entries (map gv_var givens) st i) (entries (map gv_var (old_states givens)) st i) = None ->
    exists w, fst (run_substepped A masked givens unknowns level st) = Err (Convergence w).
  Proof.
    intros S An Rw O Sd Hi N.
    pose proof (run_rows A d masked givens unknowns S An solve_row Rw level st dyn O Sd) as R.
    destruct (run_outcome A d masked givens unknowns S An level st dyn O Sd) as [r [l [E [_ R']]]]. rewrite E in R |- *. cbn [fst] in *.
    destruct r as [st'|e].
    - destruct (R i Hi) as [c Ei]. unfold alone in Ei. rewrite N in Ei. discriminate.
    - destruct R' as [w [-> _]]. exists w. reflexivity.
  Qed.

  Lemma span_inputs givens unknowns n (orig ch : vmap) a b :
    seg_ok givens unknowns -> table d n (given_shapes givens) orig -> table d n (given_shapes (old_states givens)) ch ->
    exists span, apply_span A givens orig a b ch [] = Ok span /\ table d n (given_shapes givens) span /\
    forall g i, In g givens -> val span (given_name g) i =
      (if String.eqb (gv_role g) "cur_force" then between A (val orig (gv_pair g) i) (val orig (given_name g) i) b
       else if String.eqb (gv_role g) "old_force" then between A (val orig (given_name g) i) (val orig (gv_pair g) i) a
       else if String.eqb (gv_role g) "old_state" then val ch (given_name g) i
       else val orig (given_name g) i).
  Proof.
    intros [_ [Ng [_ [_ Pf]]]] To Tc.
    destruct (span_ok A d givens Ng (fun g => trailing (gv_var g)) Pf n orig ch a b To Tc) as [span [E [T R]]].
    exists span. split; [exact E|]. split; [exact T|]. intros g i I. specialize (R i).
    assert (Ev : val span (given_name g) i = row_input A givens (rows_of_names orig (given_names givens) i)
                   (rows_of_names ch (given_names (old_states givens)) i) a b g).
    { unfold rows_of_names at 1, given_names at 1 in R. rewrite map_map in R. clear - R I. 
      revert R. generalize (row_input A givens (rows_of_names orig (given_names givens) i) (rows_of_names ch (given_names (old_states givens)) i) a b).
      intros f R. induction givens as [|g0 gs IH]; [contradiction|]. cbn [map] in R. injection R as E R. destruct I as [<-|I]; [exact E|apply IH; assumption]. }
    rewrite Ev. unfold row_input. assert (In_g : In (given_name g) (given_names givens)) by (apply in_map; exact I).
    assert (In_p : forced g -> In (gv_pair g) (given_names givens)).
    { intros Fg. destruct (Pf g I Fg) as [g' [I' [<- _]]]. apply in_map. exact I'. }
    destruct (String.eqb (gv_role g) "old_state") eqn:E1; [apply String.eqb_eq in E1; rewrite E1; cbn|
      destruct (String.eqb (gv_role g) "old_force") eqn:E2; [apply String.eqb_eq in E2; rewrite E2; cbn|
        destruct (String.eqb (gv_role g) "cur_force") eqn:E3]].
    - apply getrow_val. apply (in_map given_name). apply filter_In. split; [exact I|]. rewrite E1. reflexivity.
    - rewrite !getrow_val; [reflexivity|apply In_p; left; exact E2|exact In_g].
    - rewrite !getrow_val; [reflexivity|exact In_g|apply In_p; right; apply String.eqb_eq; exact E3].
    - apply getrow_val. exact In_g.
  Qed.

  Lemma shared_endpoint givens unknowns n (orig ch ch' s1 s2 : vmap) a m b g g' i :
    seg_ok givens unknowns -> table d n (given_shapes givens) orig ->
    table d n (given_shapes (old_states givens)) ch -> table d n (given_shapes (old_states givens)) ch' ->
    apply_span A givens orig a m ch [] = Ok s1 -> apply_span A givens orig m b ch' [] = Ok s2 ->
    In g givens -> In g' givens -> gv_role g = "cur_force"%string -> gv_role g' = "old_force"%string ->
    gv_pair g = given_name g' -> gv_pair g' = given_name g ->
    val s1 (given_name g) i = val s2 (given_name g') i.
  Proof.
    intros S To Tc Tc' E1 E2 I I' R R' P P'.
    destruct (span_inputs givens unknowns n orig ch a m S To Tc) as [s1' [F1 [_ V1]]]. rewrite E1 in F1. injection F1 as <-.
    destruct (span_inputs givens unknowns n orig ch' m b S To Tc') as [s2' [F2 [_ V2]]]. rewrite E2 in F2. injection F2 as <-.
    rewrite (V1 g i I), (V2 g' i I'), R, R', P, P'. reflexivity.
  Qed.

  Lemma between_ends (o w : list V) : exact_ends A -> length o = length w ->
    between A o w (a_zero A) = o /\ between A o w (a_one A) = w.
  Proof.
    intros H. unfold between. revert w. induction o as [|x o IH]; intros [|y w] L; try discriminate; [split; reflexivity|].
    injection L as L. destruct (IH w L) as [E1 E2]. destruct (H x y) as [H1 H2]. cbn [combine map fst snd]. rewrite E1, E2, H1, H2. split; reflexivity.
  Qed.

  Lemma solve_error_passes masked givens unknowns level (st : vmap) dyn e :
    seg_ok givens unknowns -> over d dyn (map gv_var givens) st -> solid dyn (map gv_var givens) ->
    (forall n span, table d n (given_shapes givens) span -> masked span = Err e) ->
    run_substepped A masked givens unknowns level st = (Err e, []).
  Proof.
    intros S O Sd M. destruct (run_start A d masked givens unknowns S level st dyn O Sd) as [orig [res [ch [To [Tr [Tc [_ [_ ->]]]]]]]].
    destruct (all_rows_ok (numel dyn)) as [Ia _].
    assert (E : solve_span A masked givens orig (a_zero A) (a_one A) (all_rows (numel dyn)) ch = Err e).
    { unfold solve_span. destruct (table_select d _ _ orig _ To Ia) as [o [-> [To' _]]]. cbn [bind].
      destruct (table_select d _ _ ch _ Tc Ia) as [c [-> [Tc' _]]]. cbn [bind].
      destruct (span_inputs givens unknowns _ o c (a_zero A) (a_one A) S To' Tc') as [span [-> [Ts _]]]. cbn [bind]. apply (M _ span Ts). }
    destruct level; cbn [solve_to]; cbn [snd]; rewrite E; reflexivity.
  Qed.
End Corollaries.
