(** Lemmas about the whole of [run_substepped_d]. *)
From Verif Require Import Base BaseProofs SpecMap SmapProofs Tensor Spec TensorProofs BatchChunk SelectProofs Broadcast BroadcastProofs Pack Implicit ImplicitProofs
     Substep SpecSubstep DriveProofs RowTableProofs SubstepProofs SubstepRunProofs Mat Jac SubstepJac SpecSubstepJac SubstepJacProofs.

(** ** Carriers as variables *)
Definition given_carrier (M : nat) (g : given_info) : given_info := mkGiven (carrier M (gv_var g)) (gv_role g) (gv_pair g).

Section Carriers.
  Context {V : Type}.
  Notation vmap := (smap (tensor V)).
  Variable M : nat.

  Lemma flatten_carriers_givens gs : forall ds : vmap, flatten_carriers gs ds = flatten_givens (map (given_carrier M) gs) ds.
  Proof.
    induction gs as [|g gs IH]; intros ds; [reflexivity|]. cbn [flatten_carriers flatten_givens map given_carrier gv_var carrier v_name].
    change (var_trail (carrier M (gv_var g))) with 2.
    destruct (at_ (v_name (gv_var g)) ds) as [t|e]; [|reflexivity]. cbn [bind]. destruct (flatten_dyn t 2) as [f|e]; [|reflexivity]. cbn [bind]. apply IH.
  Qed.
  Lemma collect_carriers gs (st : vmap) : forall acc, collect_givens gs st acc = collect_givens (map (given_carrier M) gs) st acc.
  Proof.
    induction gs as [|g gs IH]; intros acc; [reflexivity|]. cbn [collect_givens map given_carrier gv_var carrier v_name].
    destruct (at_ (v_name (gv_var g)) st) as [t|e]; [|reflexivity]. cbn [bind]. apply IH.
  Qed.
  Lemma put_tangents_results us (res : vmap) dyn : forall ds, put_tangents us res dyn ds = put_results (map (carrier M) us) res dyn ds.
  Proof.
    induction us as [|u us IH]; intros ds; [reflexivity|]. cbn [put_tangents put_results map]. change (v_name (carrier M u)) with (v_name u).
    change (var_trail (carrier M u)) with 2. destruct (at_ (v_name u) res) as [t|e]; [|reflexivity]. cbn [bind].
    destruct dyn as [dd|]; [destruct (unflatten_dyn t dd 2) as [t'|e]; [|reflexivity]|]; cbn [bind]; apply IH.
  Qed.
  Lemma names_carriers gs : given_names (map (given_carrier M) gs) = given_names gs.
  Proof. unfold given_names. rewrite map_map. reflexivity. Qed.
  Lemma olds_carriers gs : old_states (map (given_carrier M) gs) = map (given_carrier M) (old_states gs).
  Proof.
    unfold old_states. induction gs as [|g gs IH]; [reflexivity|]. cbn [map filter given_carrier gv_role].
    destruct (String.eqb (gv_role g) "old_state"); cbn [map]; rewrite IH; reflexivity.
  Qed.
  Lemma vars_carriers gs : map gv_var (map (given_carrier M) gs) = map (carrier M) (map gv_var gs).
  Proof. rewrite !map_map. reflexivity. Qed.
  Lemma shapes_carriers gs : given_shapes (map (given_carrier M) gs) = given_carriers M gs.
  Proof. unfold given_shapes, given_carriers. rewrite map_map. reflexivity. Qed.
  Lemma unames_carriers us : unknown_names (map (carrier M) us) = unknown_names us.
  Proof. unfold unknown_names. rewrite map_map. reflexivity. Qed.
End Carriers.

(** ** What the driver starts from *)
Section Start.
  Context {V : Type}.
  Variable d : device.
  Notation vmap := (smap (tensor V)).

  Lemma start_parts gs (st : vmap) dyn : NoDup (given_names gs) -> over d dyn (map gv_var gs) st -> solid dyn (map gv_var gs) ->
    exists st1 orig ch, (if negb (length dyn =? 1) then flatten_givens gs st else Ok st) = Ok st1 /\
      collect_givens gs st1 [] = Ok orig /\ collect_givens (filter is_old_state gs) orig [] = Ok ch /\
      table d (numel dyn) (given_shapes gs) orig /\ table d (numel dyn) (given_shapes (old_states gs)) ch /\
      (forall i, rows_of_names orig (given_names gs) i = entries (map gv_var gs) st i) /\
      (forall i, rows_of_names ch (given_names (old_states gs)) i = entries (map gv_var (old_states gs)) st i) /\
      (forall g, In g gs -> exists t, lookup (given_name g) st = Some t /\ t_shape t = dyn ++ trailing (gv_var g) /\ t_dev t = d /\
         lookup (given_name g) orig = Some (flat dyn (gv_var g) t)).
  Proof.
    intros Ng O Sd.
    assert (F : exists st1, (if negb (length dyn =? 1) then flatten_givens gs st else Ok st) = Ok st1 /\
      forall g, In g gs -> exists t, lookup (given_name g) st = Some t /\ lookup (given_name g) st1 = Some (flat dyn (gv_var g) t) /\
        rowsof d (numel dyn) (trailing (gv_var g)) (flat dyn (gv_var g) t) /\ t_shape t = dyn ++ trailing (gv_var g) /\ t_dev t = d).
    { destruct (length dyn =? 1) eqn:El; cbn [negb].
      - exists st. split; [reflexivity|]. intros g I. destruct (O (gv_var g) (in_map gv_var _ _ I)) as [t [L [W [D S]]]].
        exists t. split; [exact L|]. apply Nat.eqb_eq in El.
        split; [rewrite (flat_one dyn _ t El S); exact L|]. split; [apply flat_rowsof; assumption|]. split; assumption.
      - destruct Sd as [Sd|Sd]; [rewrite Sd in El; discriminate|].
        destruct (flatten_givens_ok d dyn gs st Ng O) as [st1 [E [H1 _]]]; [intros g I; apply Sd; apply in_map; exact I|].
        exists st1. split; [exact E|]. intros g I. destruct (O (gv_var g) (in_map gv_var _ _ I)) as [t [L [W [D S]]]].
        exists t. split; [exact L|]. split; [apply H1; assumption|]. split; [apply flat_rowsof; assumption|]. split; assumption. }
    destruct F as [st1 [E1 F1]].
    destruct (collect_ok d (numel dyn) gs st1 (fun g => trailing (gv_var g)) Ng) as [orig [E2 [T2 L2]]].
    { intros g I. destruct (F1 g I) as [t [_ [L [R _]]]]. eexists. split; [exact L|exact R]. }
    assert (No : NoDup (given_names (old_states gs))) by (apply (nodup_filter_names gs Ng)).
    destruct (collect_ok d (numel dyn) (old_states gs) orig (fun g => trailing (gv_var g)) No) as [ch [E3 [T3 L3]]].
    { intros g I. apply filter_In in I as [I _]. destruct (F1 g I) as [t [_ [L [R _]]]]. rewrite <- L2 in L by exact I. eexists. split; [exact L|exact R]. }
    assert (Rv : forall g i, In g gs -> val orig (given_name g) i = match lookup (v_name (gv_var g)) st with Some t => entry (gv_var g) t i | None => [] end).
    { intros g i I. destruct (F1 g I) as [t [L0 [L R]]]. fold (given_name g). unfold val. rewrite (L2 g I), L, L0. reflexivity. }
    exists st1, orig, ch. split; [exact E1|]. split; [exact E2|]. split; [exact E3|]. split; [exact T2|]. split; [exact T3|]. split; [|split].
    - intros i. unfold rows_of_names, given_names, entries. rewrite !map_map. apply map_ext_in. intros g I. apply Rv. exact I.
    - intros i. unfold rows_of_names, given_names, entries. rewrite !map_map. apply map_ext_in. intros g I.
      rewrite <- Rv by (apply filter_In in I; apply I). unfold val. rewrite (L3 g I). reflexivity.
    - intros g I. destruct (F1 g I) as [t [L0 [L [R [S D]]]]]. exists t. split; [exact L0|]. split; [exact S|]. split; [exact D|]. rewrite (L2 g I). exact L.
  Qed.
End Start.

Section Whole.
  Context {V : Type}.
  Variable A : arith V.
  Variable d : device.
  Notation vmap := (smap (tensor V)).
  Variable masked : vmap -> result (vmap * list bool).
  Variable ift : vmap -> vmap -> result vmap.
  Variable givens : list given_info.
  Variable unknowns : list var_info.
  Variable M : nat.
  Hypothesis seg : seg_ok givens unknowns.

  Lemma run_start_d level (st ds : vmap) dyn : over d dyn (map gv_var givens) st -> solid dyn (map gv_var givens) ->
    over d dyn (map (carrier M) (map gv_var givens)) ds -> length dyn = 1 \/ M <> 0 ->
    exists orig orig_d res ch res_d ch_d, table d (numel dyn) (given_shapes givens) orig /\ table d (numel dyn) (given_carriers M givens) orig_d /\
      inv_d d givens unknowns M (numel dyn) ((res, ch), (res_d, ch_d)) /\
      (forall i, rows_of_names orig (given_names givens) i = entries (map gv_var givens) st i) /\
      (forall i, rows_of_names ch (given_names (old_states givens)) i = entries (map gv_var (old_states givens)) st i) /\
      (forall i, rows_of_names orig_d (given_names givens) i = entries (map (carrier M) (map gv_var givens)) ds i) /\
      (forall i, rows_of_names ch_d (given_names (old_states givens)) i = entries (map (carrier M) (map gv_var (old_states givens))) ds i) /\
      run_substepped A masked givens unknowns level st =
        (let (r, l) := solve_to A masked givens unknowns orig level (a_zero A) (a_one A) (all_rows (numel dyn)) (res, ch) in
         (let* bufs := r in put_results unknowns (fst bufs) (if negb (length dyn =? 1) then Some dyn else None) st, l)) /\
      run_substepped_d A masked ift givens unknowns level st ds =
        (let (r, l) := solve_to_d A masked ift givens unknowns orig orig_d level (a_zero A) (a_one A) (all_rows (numel dyn)) ((res, ch), (res_d, ch_d)) in
         (let* bufs := r in
          let* st := put_results unknowns (fst (fst bufs)) (if negb (length dyn =? 1) then Some dyn else None) st in
          let* ds := put_tangents unknowns (fst (snd bufs)) (if negb (length dyn =? 1) then Some dyn else None) ds in
          Ok (st, ds), l)).
  Proof.
    intros O Sd Od Md. destruct seg as [Ne [Ng [Nu _]]].
    destruct (start_parts d givens st dyn Ng O Sd) as [st1 [orig [ch [E1 [E2 [E3 [T2 [T3 [R2 [R3 F1]]]]]]]]]].
    destruct (start_parts d (map (given_carrier M) givens) ds dyn) as [ds1 [orig_d [ch_d [E1d [E2d [E3d [T2d [T3d [R2d [R3d F1d]]]]]]]]]].
    { rewrite names_carriers. exact Ng. }
    { rewrite vars_carriers. exact Od. }
    { destruct Md as [Md|Md]; [left; exact Md|]. destruct Sd as [Sd|Sd]; [left; exact Sd|]. right. intros v I. rewrite vars_carriers in I.
      apply in_map_iff in I as [w [<- I]]. specialize (Sd w I). unfold trailing in *. cbn [carrier v_sub v_base app numel fold_right].
      rewrite numel_app in Sd. unfold var_size. lia. }
    rewrite names_carriers in R2d. rewrite olds_carriers in T3d, R3d. rewrite names_carriers in R3d. rewrite !vars_carriers in R2d, R3d.
    rewrite shapes_carriers in T2d, T3d. rewrite <- flatten_carriers_givens in E1d. rewrite <- collect_carriers in E2d.
    change (filter is_old_state (map (given_carrier M) givens)) with (old_states (map (given_carrier M) givens)) in E3d.
    rewrite olds_carriers, <- collect_carriers in E3d.
    set (res := fold_left (fun m u => set_ (v_name u) (zeros (a_zero A) (numel dyn :: [] ++ v_sub u ++ v_base u) d) m) unknowns []).
    set (res_d := fold_left (fun m u => set_ (v_name u) (zeros (a_zero A) (numel dyn :: [] ++ [var_size u; M]) d) m) unknowns []).
    exists orig, orig_d, res, ch, res_d, ch_d. split; [exact T2|]. split; [exact T2d|]. split.
    { split; [split; [apply zeros_ok; [exact Nu|reflexivity]|exact T3]|]. cbn [fst snd]. split; [|exact T3d].
      replace (unknown_carriers unknowns M) with (unknown_shapes (map (carrier M) unknowns))
        by (unfold unknown_shapes, unknown_carriers; rewrite map_map; reflexivity).
      replace res_d with (fold_left (fun m u => set_ (v_name u) (zeros (a_zero A) (numel dyn :: [] ++ v_sub u ++ v_base u) d) m) (map (carrier M) unknowns) []).
      - apply zeros_ok; [rewrite unames_carriers; exact Nu|reflexivity].
      - unfold res_d. generalize (@nil (string * tensor V)). clear. induction unknowns as [|u l IH]; intros acc; [reflexivity|]. cbn [map fold_left]. apply IH. }
    split; [exact R2|]. split; [exact R3|]. split; [exact R2d|]. split; [exact R3d|].
    destruct givens as [|g0 gs] eqn:Eg; [contradiction Ne; reflexivity|]. rewrite <- Eg in *.
    assert (I0 : In g0 givens) by (rewrite Eg; left; reflexivity). destruct (F1 g0 I0) as [t0 [L0 [S0 [D0 L0']]]].
    destruct (F1d (given_carrier M g0) (in_map _ _ _ I0)) as [u0 [Lu0 [Su0 [Du0 Lu0']]]].
    change (given_name (given_carrier M g0)) with (given_name g0) in Lu0, Lu0'.
    assert (Hd : dim t0 = length dyn + var_trail (gv_var g0)) by (unfold dim; rewrite S0, app_length, trail_length; reflexivity).
    assert (Hlt : dim t0 <? var_trail (gv_var g0) = false) by (apply Nat.ltb_ge; lia).
    assert (Hf : firstn (dim t0 - var_trail (gv_var g0)) (t_shape t0) = dyn)
      by (rewrite Hd, Nat.add_sub, S0, firstn_app, Nat.sub_diag, firstn_all; cbn [firstn]; apply app_nil_r).
    assert (Hf' : firstn (dim (flat dyn (gv_var g0) t0) - var_trail (gv_var g0)) (t_shape (flat dyn (gv_var g0) t0)) = [numel dyn]).
    { unfold dim, flat. cbn [t_shape length]. rewrite trail_length, Nat.sub_succ_l, Nat.sub_diag by lia. reflexivity. }
    assert (HM : size_at (flat dyn (gv_var (given_carrier M g0)) u0) (-1)%Z = Ok M) by reflexivity.
    assert (HD : t_dev (flat dyn (gv_var g0) t0) = d) by exact D0.
    split.
    - unfold run_substepped. rewrite Eg at 1. unfold at_ at 1. fold (given_name g0). rewrite L0, Hlt, Hf, E1. cbn [bind]. rewrite E2. cbn [bind].
      unfold at_ at 1. rewrite L0'. cbn [bind]. rewrite Hf', E3. cbn [bind]. rewrite HD. reflexivity.
    - unfold run_substepped_d. rewrite Eg at 1. unfold at_ at 1. fold (given_name g0). rewrite L0, Hlt, Hf, E1. cbn [bind]. rewrite E1d. cbn [bind].
      rewrite E2. cbn [bind]. rewrite E2d. cbn [bind]. unfold at_ at 1. rewrite L0'. cbn [bind]. rewrite Hf'. unfold at_ at 1. rewrite Lu0'. cbn [bind].
      rewrite HM. cbn [bind]. rewrite E3. cbn [bind].
      unfold old_states in E3d. change (filter (fun g => String.eqb (gv_role g) "old_state") givens) with (filter is_old_state givens) in E3d.
      rewrite E3d. cbn [bind]. rewrite HD. reflexivity.
  Qed.

  Hypothesis ans : answers_all d givens unknowns masked.
  Variable solve_row : list (list V) -> list (list V) * bool.
  Hypothesis row_by_row : rowwise d givens unknowns masked solve_row.
  Variable ift_row : list (list V) -> list (list V) -> list (list V) -> list (list V).
  Hypothesis tangent_rows : tangents_by_row d givens unknowns M solve_row ift ift_row.

  Definition row4 : Type := ((list (list V) * list (list V)) * (list (list V) * list (list V)))%type.
  Definition view_d (bufs : bufs4 (V := V)) (i : nat) : row4 :=
    ((view_u unknowns (fst (fst bufs)) i, view_c givens (snd (fst bufs)) i), (view_u unknowns (fst (snd bufs)) i, view_c givens (snd (snd bufs)) i)).
  Definition row_step_d (orig orig_d : vmap) (a b : V) (i : nat) (x : row4) : row4 * bool :=
    let gs := map (row_input A givens (rows_o givens orig i) (snd (fst x)) a b) givens in
    let gsd := map (row_input A givens (rows_od givens orig_d i) (snd (snd x)) a b) givens in
    let (us, ok) := solve_row gs in
    (((us, carried givens unknowns us), (ift_row gs us gsd, carried givens unknowns (ift_row gs us gsd))), ok).

  Lemma solve_d_rows orig orig_d B : table d B (given_shapes givens) orig -> table d B (given_carriers M givens) orig_d ->
    forall a b active buf mask buf', inv_d d givens unknowns M B buf -> idx_ok B active -> NoDup active ->
    span_solve_d A masked ift givens unknowns orig orig_d a b active buf = Ok (mask, Ok buf') ->
    (forall k i, nth_error active k = Some i ->
       nth_error mask k = Some (snd (row_step_d orig orig_d a b (Z.to_nat i) (view_d buf (Z.to_nat i)))) /\
       view_d buf' (Z.to_nat i) =
         (if snd (row_step_d orig orig_d a b (Z.to_nat i) (view_d buf (Z.to_nat i))) then fst (row_step_d orig orig_d a b (Z.to_nat i) (view_d buf (Z.to_nat i)))
          else view_d buf (Z.to_nat i))) /\
    (forall i, i < B -> ~ In (Z.of_nat i) active -> view_d buf' i = view_d buf i).
  Proof.
    intros To Td a b active buf mask buf' Iv Ia Na E.
    destruct (span_of_d A d masked ift givens unknowns orig orig_d M seg ans B To Td solve_row row_by_row ift_row tangent_rows a b active buf Iv Ia Na)
      as [mask0 [buf0 [E0 [Ev [Lm [Iv' [Y N]]]]]]]. rewrite E in E0. injection E0 as <- <-.
    destruct (span_solve_rows A d masked givens unknowns orig seg B To (answers_some d masked givens unknowns ans) solve_row row_by_row
                a b active (fst buf) mask (fst buf') (proj1 Iv) Ia Na Ev) as [Rw Ro].
    split.
    - intros k i Hk. destruct (Rw k i Hk) as [R1 R2]. unfold row_step, view in R1, R2. unfold row_step_d, view_d at 1 3. cbn [fst snd] in *.
      unfold rows_o at 1, view_c at 1. destruct (solve_row _) as [us ok] eqn:Es. cbn [fst snd] in *. split; [exact R1|]. destruct ok.
      + destruct (Y k i Hk R1) as [Y1 Y2]. injection R2 as R2 R3. unfold view_d. unfold view_u, view_c, rows_o in Y1, Y2 |- *. rewrite R2, R3, Y2, Y1, R2. reflexivity.
      + assert (Kn : k < length active) by (apply nth_error_Some; congruence).
        assert (J : ~ In i (chosen true active mask)).
        { intros J. apply chosen_in in J as [k' [K1 K2]]. assert (k = k') by (eapply NoDup_nth_error; [exact Na|exact Kn|congruence]). congruence. }
        assert (Bi : Z.of_nat (Z.to_nat i) = i /\ Z.to_nat i < B).
        { unfold idx_ok in Ia. rewrite Forall_forall in Ia. specialize (Ia i (nth_error_In _ _ Hk)). lia. }
        destruct (N (Z.to_nat i)) as [N1 N2]; [apply Bi|rewrite (proj1 Bi); exact J|]. injection R2 as R2 R3. unfold view_d. rewrite N1, N2.
        unfold view_u, view_c in R2, R3 |- *. rewrite R2, R3. reflexivity.
    - intros i Hi J. destruct (N i Hi) as [N1 N2]; [intros K; apply J; eapply chosen_incl; exact K|].
      pose proof (Ro i Hi J) as R. unfold view in R. injection R as R1 R2. unfold view_d. rewrite N1, N2. unfold view_u, view_c in *. rewrite R1, R2. reflexivity.
  Qed.

  Lemma steps_marched orig orig_d i l x y : rsteps (row_step_d orig orig_d) i l x y -> l <> [] ->
    marched A givens unknowns solve_row ift_row (rows_o givens orig i) (rows_od givens orig_d i) l (snd (fst x)) (snd (snd x)) (fst (fst y)) (fst (snd y)).
  Proof.
    intros H. induction H as [x|a b l x y H1 H2 IH]; intros Ne; [contradiction Ne; reflexivity|].
    unfold row_step_d in H1, H2, IH. destruct (solve_row _) as [us ok] eqn:Es. cbn [fst snd] in *. subst ok. destruct l as [|p l].
    - inversion H2; subst. cbn [fst snd]. apply marched_last. exact Es.
    - eapply marched_more; [exact Es|]. apply IH. discriminate.
  Qed.

  Lemma run_outcome_d level (st ds : vmap) dyn : over d dyn (map gv_var givens) st -> solid dyn (map gv_var givens) ->
    over d dyn (map (carrier M) (map gv_var givens)) ds -> length dyn = 1 \/ M <> 0 ->
    match run_substepped_d A masked ift givens unknowns level st ds with
    | (Ok (st', ds'), l) =>
        run_substepped A masked givens unknowns level st = (Ok st', l) /\
        over d dyn (map (carrier M) unknowns) ds' /\ (forall n, ~ In n (unknown_names unknowns) -> lookup n ds' = lookup n ds) /\
        forall i, i < numel dyn ->
          marched A givens unknowns solve_row ift_row (entries (map gv_var givens) st i) (entries (map (carrier M) (map gv_var givens)) ds i)
            (accepted (Z.of_nat i) l)
            (entries (map gv_var (old_states givens)) st i) (entries (map (carrier M) (map gv_var (old_states givens))) ds i)
            (entries unknowns st' i) (entries (map (carrier M) unknowns) ds' i)
    | (Err e, l) => run_substepped A masked givens unknowns level st = (Err e, l)
    end.
  Proof.
    intros O Sd Od Md. pose proof seg as [_ [_ [Nu _]]].
    destruct (run_start_d level st ds dyn O Sd Od Md) as [orig [orig_d [res [ch [res_d [ch_d [To [Td [Iv [Ro [Rc [Rod [Rcd [Ev Ed]]]]]]]]]]]]]].
    rewrite Ev, Ed, solve_to_drive, solve_to_d_drive. destruct (all_rows_ok (numel dyn)) as [Ia [Na In_]].
    assert (Tot : forall a b active buf, inv_d d givens unknowns M (numel dyn) buf -> idx_ok (numel dyn) active -> NoDup active ->
      exists mask buf', span_solve_d A masked ift givens unknowns orig orig_d a b active buf = Ok (mask, Ok buf') /\ length mask = length active /\
        inv_d d givens unknowns M (numel dyn) buf').
    { intros a b active buf I J K.
      destruct (span_of_d A d masked ift givens unknowns orig orig_d M seg ans (numel dyn) To Td solve_row row_by_row ift_row tangent_rows a b active buf I J K)
        as [mask0 [buf0 [E0 [_ [Lm [Iv' _]]]]]]. exists mask0, buf0. split; [exact E0|]. split; [exact Lm|exact Iv']. }
    assert (Same : forall a b active buf mask buf', inv_d d givens unknowns M (numel dyn) buf -> idx_ok (numel dyn) active -> NoDup active ->
      span_solve_d A masked ift givens unknowns orig orig_d a b active buf = Ok (mask, Ok buf') ->
      span_solve A masked givens unknowns orig a b active (fst buf) = Ok (mask, Ok (fst buf'))).
    { intros a b active buf mask buf' I J K E.
      destruct (span_of_d A d masked ift givens unknowns orig orig_d M seg ans (numel dyn) To Td solve_row row_by_row ift_row tangent_rows a b active buf I J K)
        as [mask0 [buf0 [E0 [E1 _]]]]. rewrite E in E0. injection E0 as <- <-. exact E1. }
    pose proof (drive_same (mid_of A) _ _ _ Tot (span_solve A masked givens unknowns orig) fst Same level (a_zero A) (a_one A) (all_rows (numel dyn)) _ Iv Ia Na) as Sim.
    cbn [fst] in Sim. rewrite Sim.
    destruct (drive (mid_of A) (span_solve_d A masked ift givens unknowns orig orig_d) level (a_zero A) (a_one A) (all_rows (numel dyn)) ((res, ch), (res_d, ch_d)))
      as [r l] eqn:E. destruct r as [bufs|e]; [|cbn [rmap bind]; reflexivity]. cbn [rmap bind].
    destruct (drive_steps (mid_of A) _ _ _ Tot view_d (row_step_d orig orig_d) (solve_d_rows orig orig_d (numel dyn) To Td) level _ _ _ _ _ _ Iv Ia Na E)
      as [Mf [[[Tu _] [Tud _]] St]].
    destruct (put_results_ok d dyn unknowns (fst (fst bufs)) Nu) with (st := st) as [st' [Ep [H1 H2]]].
    { intros u I. apply (table_get d _ _ _ _ _ Tu). unfold unknown_shapes.
      apply lookup_nodup; [|apply (in_map (fun u => (v_name u, trailing u))); exact I]. unfold keys. rewrite map_map. exact Nu. }
    rewrite Ep. cbn [bind]. rewrite (put_tangents_results M).
    destruct (put_results_ok d dyn (map (carrier M) unknowns) (fst (snd bufs))) with (st := ds) as [ds' [Epd [H1d H2d]]].
    { rewrite map_map. exact Nu. }
    { intros u I. apply in_map_iff in I as [w [<- I]]. apply (table_get d _ _ _ _ _ Tud). unfold unknown_carriers.
      apply lookup_nodup; [|apply (in_map (fun u => (v_name u, [var_size u; M])) _ w); exact I]. unfold keys. rewrite map_map. exact Nu. }
    rewrite Epd. cbn [bind]. split; [reflexivity|]. split.
    { intros v I. destruct (H1d v I) as [t [r [L [W [D [S _]]]]]]. exists t. split; [exact L|]. split; [exact W|]. split; [exact D|exact S]. }
    split; [intros n J; apply H2d; rewrite map_map; exact J|].
    intros i Hi. specialize (St i Hi).
    assert (Ne : accepted (Z.of_nat i) l <> []).
    { apply In_ in Hi. destruct (drive_tiles _ _ _ _ _ _ _ _ _ _ E Mf Na Hi) as [C _]. intros Eq. rewrite Eq in C. inversion C. }
    apply steps_marched in St; [|exact Ne]. unfold view_d in St. cbn [fst snd] in St.
    unfold rows_o, rows_od, view_c at 1 2 in St. rewrite Ro, Rod, Rc, Rcd in St.
    replace (entries unknowns st' i) with (view_u unknowns (fst (fst bufs)) i); [replace (entries (map (carrier M) unknowns) ds' i) with (view_u unknowns (fst (snd bufs)) i); [exact St|]|].
    - unfold view_u, rows_of_names, unknown_names, entries. rewrite !map_map. apply map_ext_in. intros u I.
      destruct (H1d (carrier M u) (in_map _ _ _ I)) as [t [r [L [_ [_ [_ [Lr Er]]]]]]]. change (v_name (carrier M u)) with (v_name u) in *.
      unfold val. rewrite L, Lr. symmetry. apply Er.
    - unfold view_u, rows_of_names, unknown_names, entries. rewrite map_map. apply map_ext_in. intros u I.
      destruct (H1 u I) as [t [r [L [_ [_ [_ [Lr Er]]]]]]]. unfold val. rewrite L, Lr. symmetry. apply Er.
  Qed.
End Whole.
