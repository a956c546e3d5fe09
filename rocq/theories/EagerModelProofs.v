(** Proofs about the eager model (EagerModel.v): the boundary. *)
From Verif Require Import Base BaseProofs Tensor TensorProofs Spec SpecMap SmapProofs Broadcast SpecBroadcast BroadcastProofs Pack PackProofs Implicit Mat Jac JacModel SpecJac SpecAlgebra MatProofs EagerModel SpecEagerModel.
Local Open Scope list_scope.

Lemma bshapes_all d ds : broadcast_shapes d ds = infer_all d ds.
Proof. revert d. induction ds as [|s ds IH]; intros d; [reflexivity|]. cbn. destruct (infer_size d s); cbn; [apply IH|reflexivity]. Qed.

(** ** Maps *)
Lemma cast_map_gen {X} (l : list (string * X)) : forall acc, sorted acc ->
  sorted (fold_left (fun acc x => set_ (fst x) (snd x) acc) l acc) /\
  (forall n, lookup n (fold_left (fun acc x => set_ (fst x) (snd x) acc) l acc) <> None <-> lookup n acc <> None \/ In n (map fst l)) /\
  (forall n, ~ In n (map fst l) -> lookup n (fold_left (fun acc x => set_ (fst x) (snd x) acc) l acc) = lookup n acc) /\
  (NoDup (map fst l) -> forall n x, In (n, x) l -> lookup n (fold_left (fun acc x => set_ (fst x) (snd x) acc) l acc) = Some x).
Proof.
  induction l as [|[k x] l IH]; intros acc S.
  - cbn. split; [exact S|]. split; [tauto|]. split; [auto|]. intros _ n x [].
  - cbn [fold_left fst snd]. destruct (IH (set_ k x acc) (sorted_set k x acc S)) as (S' & K & O & E). split; [exact S'|].
    split.
    { intros n. rewrite K. cbn [map fst In]. destruct (String.eqb_spec n k) as [->|Ne].
      - rewrite lookup_set_same. split; [auto|]. intros _. left. discriminate.
      - rewrite lookup_set_other by exact Ne. intuition congruence. }
    split.
    { intros n N. cbn [map fst In] in N. rewrite O by tauto. apply lookup_set_other. intros ->. tauto. }
    intros Nd n y In'. cbn [map fst] in Nd. apply NoDup_cons_iff in Nd as [Nk Nd]. destruct In' as [E'|In'].
    + injection E' as <- <-. rewrite O by exact Nk. apply lookup_set_same.
    + exact (E Nd n y In').
Qed.
Lemma cast_map_ok {X} (l : list (string * X)) : sorted (cast_map l) /\ (forall n, lookup n (cast_map l) <> None <-> In n (map fst l)) /\
  (NoDup (map fst l) -> forall n x, In (n, x) l -> lookup n (cast_map l) = Some x).
Proof.
  destruct (cast_map_gen l [] sorted_nil) as (S & K & _ & E). split; [exact S|]. split; [|exact E]. intros n. unfold cast_map. rewrite K. cbn. intuition congruence.
Qed.
Lemma cast_map_keys {X} (l : list (string * X)) n : lookup n (cast_map l) <> None <-> In n (map fst l).
Proof. apply (cast_map_ok l). Qed.

Section Boundary.
  Context {V : Type}.
  Notation vmap := (smap (tensor V)).
  Variable m : emodel V.
  Hypothesis names : NoDup (map fst (em_ins m)).

  Lemma plain_name i : in_name (plain i) = fst i. Proof. reflexivity. Qed.
  Lemma plain_names : map in_name (map plain (em_ins m)) = map fst (em_ins m).
  Proof using Type. rewrite map_map. apply map_ext. reflexivity. Qed.

  Lemma same_device_iff d target : same_device d target = true <-> on_device target d.
  Proof. unfold same_device, on_device. rewrite andb_true_iff, orb_true_iff, String.eqb_eq, !Z.eqb_eq. tauto. Qed.
  Lemma canonical_iff base (t : tensor V) : check_canonical base t = Ok tt <-> exists pre, t_shape t = pre ++ base.
  Proof using Type.
    rewrite <- (validate_iff (mkIn EmptyString [] base) t). unfold check_canonical, validate_input, assert_. cbn [in_base].
    destruct (Nat.ltb_spec (dim t) (length base)) as [L|L]; destruct (Nat.leb_spec (length base) (dim t)) as [L'|L']; try lia; cbn [orb bind].
    - split; discriminate.
    - destruct (shape_eqb _ _); cbn; split; try discriminate; reflexivity.
  Qed.
  Lemma canonical_err base (t : tensor V) : check_canonical base t = Ok tt \/ exists e, check_canonical base t = Err (StdExn e).
  Proof using Type. unfold check_canonical. destruct (_ || _); eauto. Qed.
  Lemma batch_of_app base (t : tensor V) pre : t_shape t = pre ++ base -> batch_of base t = pre.
  Proof using Type.
    intros S. unfold batch_of, dim. rewrite S, app_length. replace (length pre + length base - length base) with (length pre) by lia.
    rewrite firstn_app, Nat.sub_diag, firstn_all. cbn. apply app_nil_r.
  Qed.
  Lemma lift_expand common base (t : tensor V) : wf t -> lift common base t = expand t (common ++ base).
  Proof using Type.
    intros W. unfold lift. destruct (shape_eqb (t_shape t) (common ++ base)) eqn:E; [|reflexivity]. apply shape_eqb_eq in E. rewrite <- E, expand_same by exact W. reflexivity.
  Qed.

  (** The checks. *)
  Definition checked (I : vmap) (i : string * list nat) : result (list nat * tensor V) :=
    let* t := at_ (fst i) I in let* _ := check_tensor m t in let* _ := check_canonical (snd i) t in Ok (snd i, t).
  Lemma checked_ok I i t pre : lookup (fst i) I = Some t -> on_device (em_dev m) (t_dev t) -> t_shape t = pre ++ snd i -> checked I i = Ok (snd i, t).
  Proof using Type.
    intros L Dv S. unfold checked, at_. rewrite L. cbn [bind]. unfold check_tensor. rewrite (proj2 (same_device_iff _ _) Dv). cbn [bind].
    rewrite (proj2 (canonical_iff (snd i) t)) by eauto. reflexivity.
  Qed.
  Lemma checked_inv I i x : checked I i = Ok x -> exists t pre, x = (snd i, t) /\ lookup (fst i) I = Some t /\ on_device (em_dev m) (t_dev t) /\ t_shape t = pre ++ snd i.
  Proof using Type.
    unfold checked, at_. destruct (lookup (fst i) I) as [t|]; [|discriminate]. cbn [bind]. unfold check_tensor. destruct (same_device _ _) eqn:Sd; [|discriminate]. cbn [bind].
    destruct (check_canonical (snd i) t) as [[]|] eqn:Cc; [|discriminate]. intros E. apply canonical_iff in Cc as [pre Cc]. exists t, pre.
    split; [cbn in E; congruence|]. split; [reflexivity|]. split; [apply same_device_iff; exact Sd|exact Cc].
  Qed.
  Lemma checked_err I i e : checked I i = Err e -> exists w, e = StdExn w.
  Proof using Type.
    unfold checked, at_. destruct (lookup (fst i) I) as [t|]; [|intros E; cbn in E; exists "map::at"%string; congruence]. cbn [bind]. unfold check_tensor. destruct (same_device _ _); [|intros E; cbn in E; eexists; injection E as <-; reflexivity].
    cbn [bind]. destruct (canonical_err (snd i) t) as [->|[w ->]]; cbn; [discriminate|]. intros E. injection E as <-. eauto.
  Qed.

  Lemma welcome_dev I D i t : welcome m I D -> In i (em_ins m) -> lookup (fst i) I = Some t -> on_device (em_dev m) (t_dev t).
  Proof using Type. intros [_ H]. apply H. Qed.

  (** Inputs the model takes reach the model in Python broadcast to the common batch, as they do the segments of a compiled one. *)
  Lemma typed_args_ok I D : given_wf m I -> welcome m I D ->
    exists args, typed_args m I = Ok args /\ lifted m I D args /\
      Forall2 (fun i a => exists t, lookup (fst i) I = Some t /\ expand t (D ++ snd i) = Ok (w_data a) /\ t_dev (w_data a) = t_dev t) (em_ins m) args.
  Proof using Type.
    intros Wf [(ds & F & B) Dv].
    assert (Raw : forall ins ds, incl ins (em_ins m) -> Forall2 (fun i d => exists t sub, lookup (in_name i) I = Some t /\ splits i t d sub) (map plain ins) ds ->
      exists raw, mapM (checked I) ins = Ok raw /\ Forall2 (fun i x => exists t d, x = (snd i, t) /\ lookup (fst i) I = Some t /\ wf t /\ t_shape t = d ++ snd i) ins raw /\
        map (fun x => batch_of (fst x) (snd x)) raw = ds /\ forallb (fun i => match lookup (fst i) I with Some _ => true | None => false end) ins = true).
    { induction ins as [|i ins IH]; intros es Hi Fe; inversion Fe as [|? d ? es' (t & sub & L & Sp) Fe']; subst.
      - exists []. repeat split. constructor.
      - destruct (IH es' (fun x Hx => Hi x (or_intror Hx)) Fe') as (raw & M & G & Eb & Eh). cbn [plain in_name] in L.
        assert (Hii : In i (em_ins m)) by (apply Hi; left; reflexivity).
        assert (Sh : t_shape t = d ++ snd i). { destruct Sp as [Sh Ls]. cbn [plain in_base in_sub] in *. destruct sub; [exact Sh|discriminate]. }
        exists ((snd i, t) :: raw). cbn [mapM]. rewrite (checked_ok I i t d L (Dv i t Hii L) Sh). cbn [bind]. rewrite M. split; [reflexivity|].
        split; [constructor; [exists t, d; split; [reflexivity|]; split; [exact L|]; split; [exact (Wf i t Hii L)|exact Sh]|exact G]|].
        split; [cbn [map fst snd]; rewrite (batch_of_app _ _ d Sh); congruence|]. cbn [forallb]. rewrite L. exact Eh. }
    destruct (Raw (em_ins m) ds (fun x H => H) F) as (raw & M & G & Eb & Eh).
    unfold typed_args. rewrite Eh. change (mapM _ (em_ins m)) with (mapM (checked I) (em_ins m)). rewrite M. cbn [bind]. rewrite Eb, bshapes_all, (proj2 (infer_all_iff ds D) B). cbn [bind].
    pose proof (acceptable_fits _ _ B) as Ft. clear Raw M Eh Dv Wf B F names. unfold lifted.
    revert ds Eb Ft. induction G as [|i x ins raw (t & d & -> & L & W & Sh) G IH]; intros ds Eb Ft.
    - exists []. repeat split; constructor.
    - cbn [map fst snd] in Eb. rewrite (batch_of_app _ _ d Sh) in Eb. destruct ds as [|d' ds]; [discriminate|]. injection Eb as <- Eb. apply Forall_cons_iff in Ft as [[L1 L2] Ft'].
      destruct (IH ds Eb Ft') as (args & Ea & Hl & He).
      destruct (expand_batch t d (snd i) D Sh L1 L2) as [u U]. cbn [mapM fst snd]. rewrite (lift_expand _ _ _ W), U. cbn [bind]. rewrite Ea. cbn [bind].
      exists (mkW u 0 0 :: args). split; [reflexivity|]. destruct (expand_ok t u _ W U) as [Su Bu]. split; (constructor; [|assumption]).
      + split; [reflexivity|]. split; [reflexivity|]. split; [exact Su|]. exists t. split; [exact L|exact Bu].
      + exists t. split; [exact L|]. split; [exact U|]. apply Bu.
  Qed.

  (** Other inputs do not reach it. *)
  Lemma broadcast_err ds d e : infer_all d ds = Err e -> exists w, e = StdExn w.
  Proof using Type.
    revert d. induction ds as [|s ds IH]; intros d E; [discriminate|]. cbn in E. destruct (infer_size d s) as [d'|e'] eqn:Q; cbn in E; [exact (IH _ E)|]. injection E as <-.
    unfold infer_size in Q. destruct (infer_rev (rev d) (rev s)) as [|e''] eqn:Q'; [discriminate|]. cbn in Q. injection Q as <-. revert Q'. generalize (rev d), (rev s). clear.
    induction l as [|x l IH]; intros l' E; [discriminate|]. destruct l' as [|y l']; [discriminate|]. cbn in E. destruct (_ || _); [|injection E as <-; eauto].
    destruct (infer_rev l l') as [|e] eqn:Q; [discriminate|]. cbn in E. injection E as <-. exact (IH _ Q).
  Qed.
  Lemma typed_args_refuse I : given_wf m I -> (forall D, ~ welcome m I D) -> exists w, typed_args m I = Err (StdExn w).
  Proof using Type.
    intros Wf Nw. unfold typed_args. destruct (forallb _ (em_ins m)) eqn:Fb; [|eauto].
    change (mapM _ (em_ins m)) with (mapM (checked I) (em_ins m)). destruct (mapM (checked I) (em_ins m)) as [raw|e] eqn:M; cbn [bind].
    - rewrite bshapes_all. destruct (infer_all [] _) as [D|e] eqn:E; [|destruct (broadcast_err _ _ _ E) as [w ->]; cbn [bind]; eauto]. exfalso. apply (Nw D). apply infer_all_iff in E.
      apply BaseProofs.mapM_Forall2 in M. split.
      + exists (map (fun x => batch_of (fst x) (snd x)) raw). split; [|exact E]. clear - M. induction M as [|i x ins raw C M IH]; [constructor|].
        cbn [map]. constructor; [|exact IH]. destruct (checked_inv _ _ _ C) as (t & pre & -> & L & _ & S). exists t, []. split; [exact L|]. cbn [fst snd]. rewrite (batch_of_app _ _ pre S). split; [exact S|reflexivity].
      + intros i t Hi L. clear - M Hi L. induction M as [|j x ins raw C M IH]; [destruct Hi|]. destruct Hi as [->|Hi]; [|exact (IH Hi)].
        destruct (checked_inv _ _ _ C) as (t' & pre & _ & L' & Dv & _). congruence.
    - assert (G : exists i, checked I i = Err e). { clear - M. revert M. generalize (em_ins m). induction l as [|i l IH]; [discriminate|]. cbn. destruct (checked I i) eqn:C; cbn; [|intros X; exists i; congruence]. destruct (mapM (checked I) l); cbn; [discriminate|]. intros X. injection X as ->. exact (IH eq_refl). }
      destruct G as [i G]. apply checked_err in G as [w ->]. eauto.
  Qed.

  (** What the compiled model prepares. *)
  Lemma prepared_same I D : given_wf m I -> welcome m I D ->
    exists args st, typed_args m I = Ok args /\ prepare_inputs (map plain (em_ins m)) I = Ok st /\
      Forall2 (fun i a => lookup (fst i) st = Some (w_data a)) (em_ins m) args /\ (forall n, In n (keys st) <-> In n (map fst (em_ins m))).
  Proof using names.
    intros Wf Hw. destruct (typed_args_ok I D Wf Hw) as (args & Ea & _ & He). destruct Hw as [Ac Dv].
    assert (Nd : NoDup (map in_name (map plain (em_ins m)))) by (rewrite plain_names; exact names).
    assert (Ro : ranks_ok (map plain (em_ins m)) I).
    { intros i t Hi L. apply in_map_iff in Hi as [i' [<- Hi]]. cbn [plain in_name] in L. split; [exact (Wf i' t Hi L)|]. cbn [plain in_sub in_base length]. destruct Ac as (ds & F & _).
      clear - F Hi L. revert ds F. induction (em_ins m) as [|j ins IH]; intros ds F; [destruct Hi|]. inversion F as [|? d ? ds' (t' & sub & L' & Sp) F']; subst. destruct Hi as [->|Hi]; [|exact (IH Hi _ F')].
      cbn [plain in_name] in L'. assert (t' = t) by congruence. subst t'. destruct Sp as [Sh _]. cbn [plain in_base] in Sh. unfold dim. rewrite Sh, !app_length. lia. }
    destruct (prepare_general _ I D Nd Ro Ac) as (st & Ps & _ & K & Q). exists args, st. split; [exact Ea|]. split; [exact Ps|]. split; [|intros n; rewrite K, plain_names; reflexivity].
    assert (G : forall ins as_, incl ins (em_ins m) -> Forall2 (fun i a => exists t, lookup (fst i) I = Some t /\ expand t (D ++ snd i) = Ok (w_data a) /\ t_dev (w_data a) = t_dev t) ins as_ -> Forall2 (fun i a => lookup (fst i) st = Some (w_data a)) ins as_).
    { intros ins as_ Hi F. induction F as [|i a ins as_ (t & L & U & _) F IH]; [constructor|]. constructor; [|apply IH; intros x Hx; apply Hi; right; exact Hx].
      destruct (Q (plain i)) as (t' & u & d & sub & L' & Sp & Lu & U'); [apply in_map, Hi; left; reflexivity|]. cbn [plain in_name in_base in_sub] in *. destruct Sp as [_ Ls]. cbn [plain in_sub] in Ls. destruct sub; [|discriminate]. cbn [app] in U'. assert (t' = t) by congruence. subst t'. rewrite Lu. congruence. }
    apply (G (em_ins m) args (fun x H => H) He).
  Qed.
  Lemma compiled_takes I st : given_wf m I -> (forall i t, In i (em_ins m) -> lookup (fst i) I = Some t -> on_device (em_dev m) (t_dev t) /\ length (snd i) <= dim t) ->
    prepare_inputs (map plain (em_ins m)) I = Ok st -> exists D, welcome m I D.
  Proof using names.
    intros Wf Hd E. destruct (prepare_only (map plain (em_ins m)) I st) as (D & Ac & _).
    - rewrite plain_names. exact names.
    - intros i t Hi L. apply in_map_iff in Hi as [i' [<- Hi]]. cbn [plain in_name in_sub in_base length] in *. split; [exact (Wf i' t Hi L)|]. apply (Hd i' t Hi L).
    - exact E.
    - exists D. split; [exact Ac|]. intros i t Hi L. apply (Hd i t Hi L).
  Qed.
End Boundary.
