(** Model::forward over forward segments acts row by row when its graphs do. *)
From Verif Require Import Base BaseProofs Tensor Spec TensorProofs Dispatch DispatchProofs
     Broadcast SpecBroadcast BroadcastProofs SpecMap SmapProofs.

(** ** Expansion of a row range *)
Section Expand.
  Context {V : Type}.

  Lemma seq_split_at a m s c : s + c <= m ->
    seq a m = seq a s ++ seq (a + s) c ++ seq (a + s + c) (m - s - c).
  Proof.
    intros H. rewrite <- !seq_app. f_equal. lia.
  Qed.

  Lemma flat_map_range (f : nat -> list V) k m s c :
    (forall i, i < m -> length (f i) = k) -> s + c <= m ->
    firstn (c * k) (skipn (s * k) (flat_map f (seq 0 m))) = flat_map f (seq s c).
  Proof.
    intros L H. rewrite (seq_split_at 0 m s c H), !flat_map_app. cbn [Nat.add].
    assert (L1 : length (flat_map f (seq 0 s)) = s * k).
    { apply flat_map_const_length. intros i I. apply in_seq in I. apply L. lia. }
    assert (L2 : length (flat_map f (seq s c)) = c * k).
    { apply flat_map_const_length. intros i I. apply in_seq in I. apply L. lia. }
    rewrite <- L1. rewrite skipn_app, skipn_all, Nat.sub_diag. cbn [skipn app].
    rewrite <- L2. rewrite firstn_app, firstn_all, Nat.sub_diag. cbn. apply app_nil_r.
  Qed.

  Lemma flat_map_shift (f : nat -> list V) s c :
    flat_map f (seq s c) = flat_map (fun i => f (s + i)) (seq 0 c).
  Proof.
    rewrite <- (Nat.add_0_r s) at 1. generalize 0 as a. induction c as [|c IH]; intros a; [reflexivity|].
    cbn. f_equal. rewrite <- (IH (S a)). f_equal. f_equal. lia.
  Qed.

  Lemma flat_map_ext_in (f g : nat -> list V) l :
    (forall i, In i l -> f i = g i) -> flat_map f l = flat_map g l.
  Proof.
    induction l as [|x l IH]; intros H; [reflexivity|]. cbn. rewrite (H x (or_introl eq_refl)), IH; [reflexivity|].
    intros i I. apply H. right. exact I.
  Qed.

  Lemma row_data_rows st s c i (l : list V) : i < c ->
    row_data st i (firstn (c * st) (skipn (s * st) l)) = row_data st (s + i) l.
  Proof.
    intros H. unfold row_data. rewrite skipn_firstn_comm, firstn_firstn, skipn_skipn.
    f_equal; [nia|]. f_equal. lia.
  Qed.

  (** A batched tensor of full rank. *)
  Lemma expand_rows b rest tr s c (t : tensor V) :
    wf t -> t_shape t = b :: tr -> length tr = length rest -> s + c <= b ->
    expand (rows_of s c t) (c :: rest) = rmap (rows_of s c) (expand t (b :: rest)).
  Proof.
    intros W S L Hsc. unfold expand, dim. unfold rows_of at 1 2 3 4. cbn [t_shape t_data t_dev]. rewrite S. cbn [tl length].
    rewrite L, !Nat.ltb_irrefl. unfold pad. cbn [length]. rewrite L, !Nat.sub_diag. cbn [repeat app fits].
    rewrite !Nat.eqb_refl. cbn [orb andb]. destruct (fits tr rest) eqn:F; [|reflexivity].
    cbn [rmap]. unfold rows_of. cbn [t_shape t_data t_dev tl]. f_equal. f_equal.
    assert (Lr : forall i, i < b -> length (row_data (numel tr) (if Nat.eqb b 1 then 0 else i) (t_data t)) = numel tr).
    { intros i Hi. apply (row_data_len _ _ b); [unfold wf in W; rewrite S in W; exact W|].
      destruct (Nat.eqb_spec b 1); lia. }
    cbn [expand_data]. rewrite (flat_map_range _ (numel rest) b s c).
    - rewrite (flat_map_shift _ s c). apply flat_map_ext_in. intros i I. apply in_seq in I. f_equal.
      assert (E : forall n j, j < n -> (if Nat.eqb n 1 then 0 else j) = j).
      { intros n j Hj. destruct (Nat.eqb_spec n 1); lia. }
      rewrite (E c i) by lia. rewrite (E b (s + i)) by lia. apply row_data_rows. lia.
    - intros i Hi. apply expand_data_length; [exact F|]. apply Lr. exact Hi.
    - exact Hsc.
  Qed.

  (** A tensor broadcast along the batch. *)
  Lemma expand_whole b rest s c (t : tensor V) :
    wf t -> (dim t <= length rest \/ exists tr, t_shape t = 1 :: tr /\ length tr = length rest) -> s + c <= b ->
    expand t (c :: rest) = rmap (rows_of s c) (expand t (b :: rest)).
  Proof.
    intros W H Hsc. unfold expand. cbn [length].
    assert (Ld : dim t <= S (length rest)).
    { destruct H as [H|(tr & S & L)]; [lia|]. unfold dim. rewrite S. cbn. lia. }
    destruct (Nat.ltb_spec (S (length rest)) (dim t)); [lia|].
    assert (P : exists tr, pad (S (length rest)) (t_shape t) = 1 :: tr /\ length tr = length rest).
    { destruct H as [H|(tr & S & L)].
      - unfold dim in H. unfold pad. replace (S (length rest) - length (t_shape t)) with (S (length rest - length (t_shape t))) by lia.
        cbn [repeat app]. eexists. split; [reflexivity|]. rewrite app_length, repeat_length. lia.
      - exists tr. unfold pad. rewrite S. cbn [length]. rewrite L, Nat.sub_diag. auto. }
    assert (Nm : numel (pad (S (length rest)) (t_shape t)) = numel (t_shape t)) by apply pad_numel.
    destruct P as (tr & P & L). rewrite P in *. cbn [fits]. rewrite !orb_true_r. cbn [andb].
    destruct (fits tr rest) eqn:F; [|reflexivity]. cbn [rmap]. unfold rows_of. cbn [t_shape t_data t_dev tl].
    f_equal. f_equal. cbn [expand_data Nat.eqb].
    rewrite (flat_map_range _ (numel rest) b s c).
    - rewrite (flat_map_shift _ s c). reflexivity.
    - intros i Hi. apply expand_data_length; [exact F|]. apply (row_data_len _ _ 1); [|lia].
      unfold wf in W. rewrite W. exact (eq_sym Nm).
    - exact Hsc.
  Qed.

  Lemma expand_full b rest (t u : tensor V) : wf t -> expand t (b :: rest) = Ok u -> wf u /\ batched b u.
  Proof.
    intros W H. destruct (expand_ok t u _ W H) as [S [Wu _]]. split; [exact Wu|]. exists rest. exact S.
  Qed.
End Expand.

(** ** Small facts *)
Lemma mapM_rmap {A B C} (f : A -> result B) (g : A -> result C) (h : B -> C) l :
  (forall x, In x l -> g x = rmap h (f x)) -> mapM g l = rmap (map h) (mapM f l).
Proof.
  induction l as [|x l IH]; intros H; [reflexivity|]. cbn. rewrite (H x (or_introl eq_refl)).
  destruct (f x); cbn; [|reflexivity]. rewrite IH by (intros y I; apply H; right; exact I).
  destruct (mapM f l); reflexivity.
Qed.
Lemma mapM_Forall {A B} (f : A -> result B) (Q : B -> Prop) l r :
  (forall x y, In x l -> f x = Ok y -> Q y) -> mapM f l = Ok r -> Forall Q r.
Proof.
  intros H E. apply mapM_Forall2 in E. clear - H E. induction E as [|x y l r E1 E IH]; [constructor|].
  constructor; [apply (H x); [left; reflexivity|exact E1]|]. apply IH. intros x' y' I. apply H. right. exact I.
Qed.
Lemma is_ok_rmap {A B} (f : A -> B) (x : result A) : is_ok (rmap f x) = is_ok x.
Proof. destruct x; reflexivity. Qed.
Lemma is_ok_ex {A} (x : result A) : is_ok x = true <-> exists a, x = Ok a.
Proof. destruct x; cbn; split; intros H; eauto; try discriminate. destruct H; discriminate. Qed.

Lemma vmap_set {T U} (f : T -> U) n t (m : smap T) : vmap_ f (set_ n t m) = set_ n (f t) (vmap_ f m).
Proof.
  induction m as [|[k v] m IH]; [reflexivity|]. cbn. destruct (String.eqb n k); [reflexivity|].
  destruct (key_lt n k); [reflexivity|]. cbn. f_equal. exact IH.
Qed.

Section Rows.
  Context {V : Type}.
  Notation vmap := (smap (tensor V)).
  Variable nds : smap nat.
  Variable b : nat.
  Hypothesis Hb : 1 <= b.

  Definition st_full (st : vmap) : Prop := forall n t, lookup n st = Some t -> wf t /\ batched b t.

  Lemma st_full_set n t st : wf t -> batched b t -> st_full st -> st_full (set_ n t st).
  Proof.
    intros W B F m u E. destruct (String.eqb m n) eqn:Q.
    - apply String.eqb_eq in Q. subst m. rewrite lookup_set_same in E. injection E as <-. auto.
    - apply String.eqb_neq in Q. rewrite lookup_set_other in E by exact Q. eapply F. exact E.
  Qed.
  Lemma st_full_set_all names : forall ts st, full_list b ts -> st_full st -> st_full (set_all names ts st).
  Proof.
    induction names as [|n names IH]; intros [|t ts] st F S; try exact S. cbn.
    inversion F as [|? ? [W B] F']; subst. apply IH; [exact F'|]. apply st_full_set; assumption.
  Qed.
  Lemma vmap_set_all (f : tensor V -> tensor V) names : forall ts st,
    vmap_ f (set_all names ts st) = set_all names (map f ts) (vmap_ f st).
  Proof.
    induction names as [|n names IH]; intros [|t ts] st; try reflexivity. cbn [set_all map]. rewrite IH, vmap_set. reflexivity.
  Qed.

  (** *** Parameters *)
  Lemma lookup_chunk_params s c (P : vmap) q :
    lookup q (chunk_params b s c nds P)
    = option_map (chunk_param b s c (base_nd nds q)) (lookup q P).
  Proof.
    induction P as [|[k t] P IH]; [reflexivity|]. cbn. destruct (String.eqb_spec q k) as [->|N]; [reflexivity|exact IH].
  Qed.

  Lemma rows_id (t : tensor V) s c : b = 1 -> valid_range b s c -> wf t -> has_lead b t = true -> rows_of s c t = t.
  Proof.
    intros -> [H1 H2] W L. assert (s = 0) by lia. assert (c = 1) by lia. subst.
    apply rows_of_all; [exact W|]. apply has_lead_true. exact L.
  Qed.

  Lemma broadcast_param_rows (P : vmap) q batch s c :
    params_aligned b (S (length batch)) nds P -> valid_range b s c ->
    (let* t := at_ q (chunk_params b s c nds P) in
     let* nd := at_ q nds in broadcast_param t (c :: batch) nd)
    = rmap (rows_of s c) (let* t := at_ q P in
                          let* nd := at_ q nds in broadcast_param t (b :: batch) nd).
  Proof.
    intros A Vr. unfold at_. rewrite lookup_chunk_params.
    destruct (lookup q P) as [t|] eqn:E; cbn [option_map bind]; [|reflexivity].
    unfold base_nd. destruct (lookup q nds) as [nd|] eqn:N; cbn [bind]; [|reflexivity].
    destruct (A q t nd E N) as (W & A1 & A2). destruct Vr as [Vc Vs].
    assert (D : dim (chunk_param b s c nd t) = dim t).
    { unfold chunk_param, has_lead, rows_of, dim. destruct (t_shape t) as [|n tr] eqn:Sh; [rewrite andb_false_r, Sh; reflexivity|].
      destruct (_ && _); cbn [t_shape]; rewrite ?Sh; reflexivity. }
    unfold broadcast_param. rewrite D. destruct (Nat.ltb_spec (dim t) nd) as [|Ld]; [reflexivity|].
    assert (Tl : skipn (dim t - nd) (t_shape (chunk_param b s c nd t)) = skipn (dim t - nd) (t_shape t)).
    { unfold chunk_param. destruct (Nat.leb_spec (nd + 1) (dim t)); cbn [andb]; [|reflexivity].
      destruct (has_lead b t); [|reflexivity]. unfold rows_of, dim in *. cbn [t_shape].
      destruct (t_shape t) as [|n tr]; [cbn in *; lia|]. cbn [length] in *.
      replace (S (length tr) - nd) with (S (length tr - nd)) by lia. reflexivity. }
    rewrite Tl. set (tail := skipn (dim t - nd) (t_shape t)).
    assert (Lt : length tail = nd) by (unfold tail, dim; rewrite skipn_length; unfold dim in Ld; lia).
    cbn [app].
    destruct (Nat.lt_trichotomy (dim t - nd) (S (length batch))) as [Hlt|[Heq|Hgt]].
    - assert (chunk_param b s c nd t = t) as ->.
      { unfold chunk_param. destruct (Nat.leb_spec (nd + 1) (dim t)); cbn [andb]; [|reflexivity].
        destruct A2 as [B1|B1]; [lia| |rewrite B1; reflexivity].
        destruct (has_lead b t) eqn:Hl; [|reflexivity]. apply rows_id; [exact B1|split; assumption|exact W|exact Hl]. }
      apply expand_whole; [exact W| |exact Vs]. left. rewrite app_length, Lt. lia.
    - destruct (t_shape t) as [|n tr] eqn:Sh; [unfold dim in Heq; rewrite Sh in Heq; cbn in Heq; lia|].
      assert (Ltr : length tr = length (batch ++ tail)).
      { rewrite app_length, Lt. unfold dim in Heq, Ld. rewrite Sh in Heq, Ld. cbn [length] in Heq, Ld. lia. }
      unfold chunk_param. destruct (Nat.leb_spec (nd + 1) (dim t)); [|lia]. cbn [andb].
      destruct (has_lead b t) eqn:Hl.
      + unfold has_lead in Hl. rewrite Sh in Hl. apply Nat.eqb_eq in Hl. subst n.
        apply (expand_rows b _ tr); auto.
      + destruct (A1 Heq) as [L1|L1]; unfold lead in L1; rewrite Sh in L1; subst n.
        * apply expand_whole; [exact W| |exact Vs]. right. exists tr. auto.
        * unfold has_lead in Hl. rewrite Sh, Nat.eqb_refl in Hl. discriminate.
    - unfold expand. rewrite D. cbn [length]. rewrite app_length, Lt.
      destruct (Nat.ltb_spec (S (length batch + nd)) (dim t)); [reflexivity|lia].
  Qed.

  Lemma broadcast_param_full (P : vmap) q batch u :
    params_aligned b (S (length batch)) nds P ->
    (let* t := at_ q P in let* nd := at_ q nds in broadcast_param t (b :: batch) nd) = Ok u ->
    wf u /\ batched b u.
  Proof.
    intros A. unfold at_. destruct (lookup q P) as [t|] eqn:E; cbn [bind]; [|discriminate].
    destruct (lookup q nds) as [nd|] eqn:N; cbn [bind]; [|discriminate].
    destruct (A q t nd E N) as (W & _). unfold broadcast_param. destruct (Nat.ltb _ _); [discriminate|].
    cbn [app]. apply expand_full. exact W.
  Qed.

  (** *** One segment *)
  Section Segment.
    Variable P : vmap.
    Variable batch : list nat.
    Hypothesis HP : params_aligned b (S (length batch)) nds P.

    Definition full_seg (sg : fseg V) (st : vmap) : result vmap :=
      run_forward_segment (fun p => at_ p P) nds sg (b :: batch) st.
    Definition chunk_seg (s c : nat) (sg : fseg V) (st : vmap) : result vmap :=
      run_forward_segment (fun p => at_ p (chunk_params b s c nds P)) nds sg (c :: batch) st.

    Definition gather_ins (sg : fseg V) (st : vmap) : result (list (tensor V)) :=
      mapM (fun n => match lookup n st with
                     | Some t => Ok t
                     | None => Err (Fatal "aoti::Model: forward segment needs input")
                     end) (sg_in sg).

    Lemma gather_ins_rows (f : tensor V -> tensor V) sg st :
      gather_ins sg (vmap_ f st) = rmap (map f) (gather_ins sg st).
    Proof.
      apply mapM_rmap. intros n _. rewrite lookup_vmap. destruct (lookup n st); reflexivity.
    Qed.
    Lemma gather_ins_full sg st ins : st_full st -> gather_ins sg st = Ok ins -> full_list b ins.
    Proof.
      intros F H. eapply mapM_Forall; [|exact H]. intros n t _ E. cbn in E.
      destruct (lookup n st) eqn:L; [|discriminate]. injection E as <-. eapply F. exact L.
    Qed.

    Lemma seg_rows sg st st' :
      graph_rows b (sg_run sg) -> st_full st -> full_seg sg st = Ok st' ->
      st_full st' /\
      forall s c, valid_range b s c -> chunk_seg s c sg (vmap_ (rows_of s c) st) = Ok (vmap_ (rows_of s c) st').
    Proof.
      intros G F H. unfold full_seg, run_forward_segment in H. fold (gather_ins sg st) in H.
      destruct (gather_ins sg st) as [ins|] eqn:Ei; [|discriminate]. cbn [bind] in H.
      destruct (mapM _ (sg_par sg)) as [ps|] eqn:Ep; [|discriminate]. cbn [bind] in H.
      assert (Fi : full_list b (ins ++ ps)).
      { apply Forall_app. split; [eapply gather_ins_full; eassumption|].
        eapply mapM_Forall; [|exact Ep]. intros q t _ E. cbn beta in E. eapply broadcast_param_full; eassumption. }
      destruct (sg_run sg (ins ++ ps)) as [outs|] eqn:Er; [|discriminate]. cbn [bind] in H.
      destruct (G _ Fi) as [G1 _]. destruct (G1 _ Er) as [Fo Gr].
      unfold assert_ in H. destruct (Nat.eqb (length outs) (length (sg_out sg))) eqn:Ec; [|discriminate].
      cbn [bind] in H. injection H as <-. split; [apply st_full_set_all; assumption|].
      intros s c Vr. unfold chunk_seg, run_forward_segment.
      fold (gather_ins sg (vmap_ (rows_of s c) st)). rewrite gather_ins_rows, Ei. cbn [rmap bind].
      rewrite (mapM_rmap _ _ (rows_of s c) (sg_par sg) (fun q _ => broadcast_param_rows P q batch s c HP Vr)), Ep.
      cbn [rmap bind]. rewrite <- map_app, (Gr s c Vr). cbn [bind]. unfold assert_. rewrite map_length, Ec. cbn [bind].
      rewrite vmap_set_all. reflexivity.
    Qed.

    Lemma seg_noerr sg st l :
      graph_rows b (sg_run sg) -> st_full st -> tiles 0 (Z.of_nat b) l ->
      Forall (fun x => is_ok (chunk_seg (Z.to_nat (fst x)) (Z.to_nat (snd x)) sg
                                (vmap_ (rows_of (Z.to_nat (fst x)) (Z.to_nat (snd x))) st)) = true) l ->
      is_ok (full_seg sg st) = true.
    Proof.
      intros G F T Hl. unfold full_seg, run_forward_segment. fold (gather_ins sg st).
      assert (K : forall x, In x l ->
        is_ok (let* ins := rmap (map (rows_of (Z.to_nat (fst x)) (Z.to_nat (snd x)))) (gather_ins sg st) in
               let* ps := rmap (map (rows_of (Z.to_nat (fst x)) (Z.to_nat (snd x))))
                            (mapM (fun p => let* t := at_ p P in let* nd := at_ p nds in
                                            broadcast_param t (b :: batch) nd) (sg_par sg)) in
               let* outs := sg_run sg (ins ++ ps) in
               let* _ := assert_ (Nat.eqb (length outs) (length (sg_out sg)))
                           "aoti::Model: forward segment returned wrong number of tensors" in
               Ok (set_all (sg_out sg) outs (vmap_ (rows_of (Z.to_nat (fst x)) (Z.to_nat (snd x))) st))) = true).
      { intros x Ix. rewrite Forall_forall in Hl. specialize (Hl x Ix). unfold chunk_seg, run_forward_segment in Hl.
        pose proof (tiles_bounds _ _ _ _ T Ix) as Bx.
        rewrite <- gather_ins_rows.
        rewrite <- (mapM_rmap _ _ (rows_of (Z.to_nat (fst x)) (Z.to_nat (snd x))) (sg_par sg)
                     (fun q _ => broadcast_param_rows P q batch (Z.to_nat (fst x)) (Z.to_nat (snd x)) HP
                                   ltac:(split; lia))).
        exact Hl. }
      assert (Nl : l <> []) by (apply (tiles_nonempty _ _ _ T); lia).
      destruct l as [|x0 l0]; [congruence|]. pose proof (K x0 (or_introl eq_refl)) as K0.
      destruct (gather_ins sg st) as [ins|] eqn:Ei; [|discriminate]. cbn [rmap bind] in K, K0 |- *.
      destruct (mapM _ (sg_par sg)) as [ps|] eqn:Ep; [|discriminate]. cbn [rmap bind] in K, K0 |- *.
      assert (Fi : full_list b (ins ++ ps)).
      { apply Forall_app. split; [eapply gather_ins_full; eassumption|].
        eapply mapM_Forall; [|exact Ep]. intros q t _ E. cbn beta in E. eapply broadcast_param_full; eassumption. }
      destruct (G _ Fi) as [G1 G2].
      assert (O : is_ok (sg_run sg (ins ++ ps)) = true).
      { apply (G2 _ T). rewrite Forall_forall. intros x Ix. specialize (K x Ix). rewrite map_app.
        destruct (sg_run sg _); [reflexivity|discriminate]. }
      destruct (sg_run sg (ins ++ ps)) as [outs|] eqn:Er; [|discriminate]. cbn [bind].
      destruct (G1 _ eq_refl) as [_ Gr]. pose proof (tiles_bounds _ _ _ _ T (or_introl eq_refl)) as Bx.
      rewrite <- map_app, Gr in K0 by (split; lia). cbn [bind] in K0. unfold assert_ in *. rewrite map_length in K0.
      destruct (Nat.eqb (length outs) (length (sg_out sg))); [reflexivity|discriminate].
    Qed.

    Lemma segs_rows sgs : forall st st',
      Forall (fun sg => graph_rows b (sg_run sg)) sgs -> st_full st ->
      run_segments (fun p => at_ p P) nds sgs (b :: batch) st = Ok st' ->
      st_full st' /\
      forall s c, valid_range b s c ->
        run_segments (fun p => at_ p (chunk_params b s c nds P)) nds sgs (c :: batch) (vmap_ (rows_of s c) st)
        = Ok (vmap_ (rows_of s c) st').
    Proof.
      induction sgs as [|sg sgs IH]; intros st st' G F H; cbn [run_segments] in *.
      - injection H as <-. auto.
      - inversion G as [|? ? G1 G2]; subst. fold (full_seg sg st) in H.
        destruct (full_seg sg st) as [st1|] eqn:E; [|discriminate]. cbn [bind] in H.
        destruct (seg_rows sg st st1 G1 F E) as [F1 R1]. destruct (IH st1 st' G2 F1 H) as [F2 R2].
        split; [exact F2|]. intros s c Vr. fold (chunk_seg s c sg (vmap_ (rows_of s c) st)).
        rewrite (R1 s c Vr). cbn [bind]. apply R2. exact Vr.
    Qed.

    Lemma segs_noerr sgs : forall st l,
      Forall (fun sg => graph_rows b (sg_run sg)) sgs -> st_full st -> tiles 0 (Z.of_nat b) l ->
      Forall (fun x => is_ok (run_segments (fun p => at_ p (chunk_params b (Z.to_nat (fst x)) (Z.to_nat (snd x)) nds P)) nds
                                sgs (Z.to_nat (snd x) :: batch)
                                (vmap_ (rows_of (Z.to_nat (fst x)) (Z.to_nat (snd x))) st)) = true) l ->
      is_ok (run_segments (fun p => at_ p P) nds sgs (b :: batch) st) = true.
    Proof.
      induction sgs as [|sg sgs IH]; intros st l G F T H; [reflexivity|]. cbn [run_segments] in *.
      inversion G as [|? ? G1 G2]; subst. fold (full_seg sg st).
      assert (O : is_ok (full_seg sg st) = true).
      { apply (seg_noerr sg st l G1 F T). eapply Forall_impl; [|exact H]. intros x Hx. cbn beta in Hx.
        fold (chunk_seg (Z.to_nat (fst x)) (Z.to_nat (snd x)) sg (vmap_ (rows_of (Z.to_nat (fst x)) (Z.to_nat (snd x))) st)) in Hx.
        destruct (chunk_seg _ _ sg _); [reflexivity|discriminate]. }
      destruct (full_seg sg st) as [st1|] eqn:E; [|discriminate]. cbn [bind].
      destruct (seg_rows sg st st1 G1 F E) as [F1 R1]. apply (IH st1 l G2 F1 T).
      rewrite Forall_forall in *. intros x Ix. specialize (H x Ix). cbn beta in H.
      pose proof (tiles_bounds _ _ _ _ T Ix) as Bx.
      fold (chunk_seg (Z.to_nat (fst x)) (Z.to_nat (snd x)) sg (vmap_ (rows_of (Z.to_nat (fst x)) (Z.to_nat (snd x))) st)) in H.
      rewrite R1 in H by (split; lia). exact H.
    Qed.
  End Segment.

  (** *** Outputs *)
  Lemma collect_vmap (f : tensor V -> tensor V) outs : forall st acc,
    collect outs (vmap_ f st) (vmap_ f acc) = rmap (vmap_ f) (collect outs st acc).
  Proof.
    induction outs as [|n outs IH]; intros st acc; [reflexivity|]. cbn [collect]. rewrite lookup_vmap.
    destruct (lookup n st) as [t|]; cbn [option_map]; [|reflexivity]. rewrite <- vmap_set. apply IH.
  Qed.
  Lemma collect_full outs : forall st acc r,
    st_full st -> sorted acc -> st_full acc -> collect outs st acc = Ok r -> sorted r /\ st_full r.
  Proof.
    induction outs as [|n outs IH]; intros st acc r F S A H; cbn [collect] in H.
    - injection H as <-. auto.
    - destruct (lookup n st) as [t|] eqn:E; [|discriminate]. destruct (F n t E) as [W B].
      apply (IH _ _ _ F (sorted_set _ _ _ S) (st_full_set _ _ _ W B A) H).
  Qed.
  Lemma full_map_of (r : vmap) : sorted r -> st_full r -> full_map b r.
  Proof.
    intros S F. split; [apply sorted_nodup; exact S|]. rewrite Forall_forall. intros [n t] I. cbn.
    apply (F n t). apply lookup_nodup; [apply sorted_nodup; exact S|exact I].
  Qed.
  Lemma chunk_map_full s c (r : vmap) : full_map b r -> chunk_map b s c r = vmap_ (rows_of s c) r.
  Proof.
    intros [_ F]. apply vmap_ext. intros k t I. rewrite Forall_forall in F. destruct (F _ I) as [_ B]. cbn in B.
    unfold chunk_of. rewrite has_lead_batched by exact B. reflexivity.
  Qed.

  (** *** Inputs *)
  Section Inputs.
    Variables (infos : list in_info) (I : vmap) (r : nat).
    Hypothesis HN : NoDup (map in_name infos).
    Hypothesis HA : aligned b r infos I.

    (** The batch shape a chunk of [c] rows sees of an input of batch shape [d]. *)
    Definition cd (c : nat) (d : list nat) : list nat :=
      if Nat.eqb (length d) (S r) && Nat.eqb (hd 0 d) b then c :: tl d else d.

    Lemma chunk_of_shape i t s c :
      In i infos -> lookup (in_name i) I = Some t -> valid_range b s c ->
      forall d sub, splits i t d sub ->
        splits i (chunk_of b s c t) (cd c d) sub /\ wf (chunk_of b s c t) /\
        (length d = S r -> hd 0 d = 1 \/ hd 0 d = b) /\
        (if Nat.eqb (length d) (S r) && Nat.eqb (hd 0 d) b then chunk_of b s c t = rows_of s c t
         else chunk_of b s c t = t) /\
        length d <= S r.
    Proof.
      intros Ii E Vr d sub [S L]. destruct HA as [HA1 _]. destruct (HA1 i t Ii E) as (W & Lk & C).
      unfold brank, dim in C, Lk. rewrite S, !app_length, L in C, Lk.
      assert (Ek : length d + (length (in_sub i) + length (in_base i)) - (length (in_sub i) + length (in_base i)) = length d) by lia.
      rewrite Ek in C. destruct Vr as [Vc Vs].
      destruct C as [[Hr Hl]|[Hr Hl]].
      - destruct d as [|x d]; [cbn in Hr; lia|]. unfold lead in Hl. rewrite S in Hl. cbn [app] in Hl.
        unfold cd. rewrite Hr, Nat.eqb_refl. cbn [hd andb]. unfold chunk_of, has_lead. rewrite S. cbn [app].
        split; [|split; [|split; [auto|split; [|lia]]]].
        + destruct (Nat.eqb_spec x b) as [->|]; [|split; assumption].
          split; [|exact L]. unfold rows_of. cbn [t_shape tl]. rewrite S. reflexivity.
        + destruct (Nat.eqb_spec x b) as [->|]; [|exact W]. apply (rows_of_wf b); [exact W|eexists; rewrite S; reflexivity|exact Vs].
        + destruct (Nat.eqb x b); reflexivity.
      - assert (Ed : Nat.eqb (length d) (Datatypes.S r) = false) by (apply Nat.eqb_neq; lia).
        assert (Et : chunk_of b s c t = t).
        { unfold chunk_of. destruct (has_lead b t) eqn:Hh; [|reflexivity].
          destruct Hl as [Hl|Hl]; [|congruence]. apply rows_id; [exact Hl|split; assumption|exact W|exact Hh]. }
        unfold cd. rewrite Ed, Et. cbn [andb]. split; [split; assumption|]. split; [exact W|].
        split; [intros Q; lia|]. split; [reflexivity|lia].
    Qed.

    Lemma lookup_chunk s c n : lookup n (chunk_map b s c I) = option_map (chunk_of b s c) (lookup n I).
    Proof. apply lookup_vmap. Qed.

    Lemma aligned_ranks : ranks_ok infos I.
    Proof. intros i t Ii E. destruct HA as [HA1 _]. destruct (HA1 i t Ii E) as (W & L & _). auto. Qed.

    Lemma splits_ex i t : In i infos -> lookup (in_name i) I = Some t -> validate_input i t = Ok tt ->
      exists d sub, splits i t d sub.
    Proof. intros Ii E Vd. apply splits_exists; [|exact Vd]. apply (aligned_ranks i t Ii E). Qed.

    Lemma has_split_chunk s c ds :
      valid_range b s c -> Forall2 (has_split I) infos ds ->
      Forall2 (has_split (chunk_map b s c I)) infos (map (cd c) ds).
    Proof.
      intros Vr H.
      assert (G : forall js ds', (forall j, In j js -> In j infos) -> Forall2 (has_split I) js ds' ->
                  Forall2 (has_split (chunk_map b s c I)) js (map (cd c) ds')).
      { intros js ds' Sub F. induction F as [|i d js ds' (t & sub & E & S) F IH]; [constructor|]. cbn.
        constructor; [|apply IH; intros j Ij; apply Sub; right; exact Ij].
        exists (chunk_of b s c t), sub. rewrite lookup_chunk, E. split; [reflexivity|].
        apply (chunk_of_shape i t s c); auto. apply Sub. left. reflexivity. }
      apply G; auto.
    Qed.

    Lemma rsize_cd c d p : length d <= S r ->
      rsize (cd c d) p = if Nat.eqb p r && Nat.eqb (length d) (S r) && Nat.eqb (hd 0 d) b then Some c else rsize d p.
    Proof.
      intros L. unfold cd. destruct (Nat.eqb_spec (length d) (S r)) as [E|E]; cbn [andb]; [|rewrite andb_false_r; reflexivity].
      destruct (Nat.eqb_spec (hd 0 d) b) as [Hd|]; cbn [andb]; [|rewrite andb_false_r; reflexivity].
      destruct d as [|x d]; [discriminate|]. cbn in E. injection E as E. unfold rsize. cbn [rev tl].
      rewrite !andb_true_r. destruct (Nat.eqb_spec p r) as [->|Np].
      - rewrite nth_error_app2, rev_length, E, Nat.sub_diag by (rewrite rev_length; lia). reflexivity.
      - destruct (Nat.lt_ge_cases p r).
        + rewrite !nth_error_app1 by (rewrite rev_length; lia). reflexivity.
        + transitivity (@None nat); [|symmetry]; apply nth_error_None; rewrite app_length, rev_length; cbn; lia.
    Qed.
    Lemma length_cd c d : length d <= S r -> length (cd c d) = length d.
    Proof.
      intros L. unfold cd. destruct (Nat.eqb_spec (length d) (S r)) as [E|E]; cbn [andb]; [|reflexivity].
      destruct (Nat.eqb (hd 0 d) b); [|reflexivity]. destruct d; cbn in *; lia.
    Qed.

    (** A batch axis is [b] for some input, 1 or [b] for all: the common batch starts
        with [b], and with [c] for a chunk. *)
    Lemma ds_facts ds : Forall2 (has_split I) infos ds ->
      Forall (fun d => length d <= S r /\ (length d = S r -> hd 0 d = 1 \/ hd 0 d = b)) ds /\
      exists d, In d ds /\ length d = S r /\ hd 0 d = b.
    Proof.
      intros H. assert (Vr : valid_range b 0 b) by (split; lia). split.
      - assert (G : forall js ds', (forall j, In j js -> In j infos) -> Forall2 (has_split I) js ds' ->
                  Forall (fun d => length d <= S r /\ (length d = S r -> hd 0 d = 1 \/ hd 0 d = b)) ds').
        { intros js ds' Sub F. induction F as [|i d js ds' (t & sub & E & S) F IH]; [constructor|].
          constructor; [|apply IH; intros j Ij; apply Sub; right; exact Ij].
          destruct (chunk_of_shape i t 0 b (Sub _ (or_introl eq_refl)) E Vr d sub S) as (_ & _ & Q1 & _ & Q2). auto. }
        apply (G infos); auto.
      - destruct HA as [_ (i & t & Ii & E & Br & Ld)]. clear - H Ii E Br Ld.
        induction H as [|j d js ds (t' & sub & E' & S) H IH]; [destruct Ii|]. destruct Ii as [->|Ii].
        + exists d. split; [left; reflexivity|]. rewrite E in E'. injection E' as <-. destruct S as [S L].
          unfold brank, dim in Br. rewrite S, !app_length, L in Br.
          split; [lia|]. destruct d as [|x d]; [cbn in Br; lia|]. unfold lead in Ld. rewrite S in Ld. exact Ld.
        + destruct (IH Ii) as (d' & Id & Q). exists d'. split; [right; exact Id|exact Q].
    Qed.

    Lemma broadcast_lead ds dyn : Forall2 (has_split I) infos ds -> broadcast_of ds dyn ->
      exists rest, dyn = b :: rest /\ length rest = r.
    Proof.
      intros H [L M]. destruct (ds_facts ds H) as [F (d0 & I0 & L0 & H0)]. rewrite Forall_forall in F.
      assert (Ld : length dyn = S r).
      { apply Nat.le_antisymm.
        - destruct (Nat.le_gt_cases (length dyn) (S r)) as [|G]; [assumption|].
          apply L in G as (s & Is & G). destruct (F s Is). lia.
        - destruct (Nat.le_gt_cases (S r) (length dyn)) as [|G]; [assumption|].
          assert (r < length dyn); [|lia]. apply L. exists d0. split; [exact I0|lia]. }
      destruct dyn as [|x rest]; [discriminate|]. cbn in Ld. injection Ld as Ld. exists rest. split; [|exact Ld]. f_equal.
      assert (Hx : rsize (x :: rest) r = Some x).
      { unfold rsize. cbn. rewrite nth_error_app2, rev_length, Ld, Nat.sub_diag by (rewrite rev_length; lia). reflexivity. }
      assert (Hs : forall d, length d = S r -> rsize d r = Some (hd 0 d)).
      { intros [|y d] Q; [discriminate|]. cbn in Q. injection Q as Q. unfold rsize. cbn.
        rewrite nth_error_app2, rev_length, Q, Nat.sub_diag by (rewrite rev_length; lia). reflexivity. }
      destruct (M r x Hx) as [M1 M2]. destruct (M1 d0 b I0) as [Q|Q]; [rewrite <- H0; apply Hs; exact L0|auto|].
      destruct M2 as [->|(s & Is & Es)]; [auto|].
      destruct (F s Is) as [F1 F2].
      assert (Ls : length s = S r).
      { assert (r < length s) by (apply rsize_lt; eauto). lia. }
      rewrite (Hs s Ls) in Es. injection Es as Es. destruct (F2 Ls) as [F3|F3]; congruence.
    Qed.

    Lemma rsize_cons x rest p : rsize (x :: rest) p = if Nat.eqb p (length rest) then Some x else rsize rest p.
    Proof.
      unfold rsize. cbn [rev]. destruct (Nat.eqb_spec p (length rest)) as [->|N].
      - rewrite nth_error_app2, rev_length, Nat.sub_diag by (rewrite rev_length; lia). reflexivity.
      - destruct (Nat.lt_ge_cases p (length rest)).
        + rewrite nth_error_app1 by (rewrite rev_length; lia). reflexivity.
        + transitivity (@None nat); [|symmetry]; apply nth_error_None; rewrite ?app_length, rev_length; cbn; lia.
    Qed.

    Lemma hd_rsize d : length d = S r -> rsize d r = Some (hd 0 d).
    Proof.
      destruct d as [|x d]; intros Q; [discriminate|]. cbn in Q. injection Q as Q. rewrite rsize_cons, Q, Nat.eqb_refl. reflexivity.
    Qed.

    Lemma broadcast_chunk ds rest c :
      Forall2 (has_split I) infos ds -> length rest = r ->
      broadcast_of ds (b :: rest) <-> broadcast_of (map (cd c) ds) (c :: rest).
    Proof.
      intros H Lr. destruct (ds_facts ds H) as [F (d0 & I0 & L0 & H0)]. rewrite Forall_forall in F.
      assert (Sz : forall d p m, In d ds -> rsize d p = Some m ->
                   (p <> r /\ rsize (cd c d) p = Some m) \/
                   (p = r /\ m = b /\ rsize (cd c d) p = Some c) \/
                   (p = r /\ m <> b /\ m = 1 /\ rsize (cd c d) p = Some 1)).
      { intros d p m Id E. destruct (F d Id) as [F1 F2]. rewrite (rsize_cd c d p F1).
        destruct (Nat.eqb_spec p r) as [->|Np]; cbn [andb]; [|left; auto]. right.
        assert (Ld : length d = S r) by (assert (r < length d) by (apply rsize_lt; eauto); lia).
        rewrite Ld, Nat.eqb_refl. cbn [andb]. rewrite (hd_rsize d Ld) in E. injection E as E.
        destruct (Nat.eqb_spec (hd 0 d) b) as [Q|Q]; [left; split; [reflexivity|split; congruence]|right].
        destruct (F2 Ld) as [Q1|Q1]; [|congruence]. split; [reflexivity|]. split; [congruence|]. split; [congruence|].
        rewrite (hd_rsize d Ld), Q1. reflexivity. }
      assert (Sz' : forall d p m', In d ds -> rsize (cd c d) p = Some m' -> exists m, rsize d p = Some m).
      { intros d p m' Id E. apply rsize_lt. assert (Q : p < length (cd c d)) by (apply rsize_lt; eauto).
        rewrite length_cd in Q; [exact Q|apply F; exact Id]. }
      split; intros [L M]; split.
      - intros p. cbn [length]. rewrite (L p). cbn [length]. split; intros (s & Is & P).
        + exists (cd c s). split; [apply in_map; exact Is|]. rewrite length_cd; [exact P|apply F; exact Is].
        + apply in_map_iff in Is as (s0 & <- & Is). exists s0. split; [exact Is|]. rewrite length_cd in P; [exact P|apply F; exact Is].
      - intros p n E. rewrite rsize_cons in E.
        assert (Eb := rsize_cons b rest p). destruct (Nat.eqb_spec p (length rest)) as [->|Np].
        + injection E as <-. destruct (M _ _ Eb) as [M1 M2]. split.
          * intros s m Is Es. apply in_map_iff in Is as (s0 & <- & Is).
            destruct (Sz' s0 _ _ Is Es) as [m0 E0]. destruct (Sz s0 _ m0 Is E0) as [[Q _]|[(_ & _ & Q)|(_ & _ & _ & Q)]]; [congruence| |]; rewrite Q in Es; injection Es as <-; auto.
          * right. exists (cd c d0). split; [apply in_map; exact I0|].
            assert (E0 : rsize d0 (length rest) = Some b) by (rewrite Lr, (hd_rsize d0 L0), H0; reflexivity).
            destruct (Sz d0 _ b I0 E0) as [[Q _]|[(_ & _ & Q)|(_ & Q & _)]]; [congruence|exact Q|congruence].
        + rewrite E in Eb. destruct (M _ _ Eb) as [M1 M2]. split.
          * intros s m Is Es. apply in_map_iff in Is as (s0 & <- & Is).
            destruct (Sz' s0 _ _ Is Es) as [m0 E0]. destruct (Sz s0 _ m0 Is E0) as [[_ Q]|[(Q & _)|(Q & _)]]; [|congruence|congruence].
            rewrite Q in Es. injection Es as <-. eapply M1; eassumption.
          * destruct M2 as [M2|(s & Is & Es)]; [auto|]. right. exists (cd c s). split; [apply in_map; exact Is|].
            destruct (Sz s _ n Is Es) as [[_ Q]|[(Q & _)|(Q & _)]]; [exact Q|congruence|congruence].
      - intros p. specialize (L p). cbn [length] in *. rewrite L. split; intros (s & Is & P).
        + apply in_map_iff in Is as (s0 & <- & Is). exists s0. split; [exact Is|]. rewrite length_cd in P; [exact P|apply F; exact Is].
        + exists (cd c s). split; [apply in_map; exact Is|]. rewrite length_cd; [exact P|apply F; exact Is].
      - intros p n E. rewrite rsize_cons in E.
        assert (Ec := rsize_cons c rest p). destruct (Nat.eqb_spec p (length rest)) as [->|Np].
        + injection E as <-. split.
          * intros s m Is Es. destruct (Sz s _ m Is Es) as [[Q _]|[(_ & Q & _)|(_ & _ & Q & _)]]; [congruence|auto|auto].
          * right. exists d0. split; [exact I0|]. rewrite Lr, (hd_rsize d0 L0), H0. reflexivity.
        + rewrite E in Ec. destruct (M _ _ Ec) as [M1 M2]. split.
          * intros s m Is Es. destruct (Sz s _ m Is Es) as [[_ Q]|[(Q & _)|(Q & _)]]; [|congruence|congruence].
            eapply M1; [apply in_map; exact Is|exact Q].
          * destruct M2 as [M2|(s & Is & Es)]; [auto|]. apply in_map_iff in Is as (s0 & <- & Is).
            destruct (Sz' s0 _ _ Is Es) as [m0 E0]. right. exists s0. split; [exact Is|].
            destruct (Sz s0 _ m0 Is E0) as [[_ Q]|[(Q & _)|(Q & _)]]; [|congruence|congruence].
            rewrite Q in Es. injection Es as <-. exact E0.
    Qed.

    Lemma chunk_ranks s c : valid_range b s c -> ranks_ok infos (chunk_map b s c I).
    Proof.
      intros [Vc Vs] i u Ii E. rewrite lookup_chunk in E. destruct (lookup (in_name i) I) as [t|] eqn:El; [|discriminate].
      injection E as <-. destruct HA as [HA1 _]. destruct (HA1 i t Ii El) as (W & L & _).
      unfold chunk_of. destruct (has_lead b t) eqn:Hl; [|auto]. apply has_lead_true in Hl as B. split.
      - apply (rows_of_wf b); assumption.
      - destruct B as [x B]. unfold dim, rows_of in *. cbn [t_shape]. rewrite B in *. exact L.
    Qed.

    (** Whatever a chunk's inputs split into, the whole inputs split alike. *)
    Lemma has_split_back s c ds' : valid_range b s c ->
      Forall2 (has_split (chunk_map b s c I)) infos ds' -> exists ds, Forall2 (has_split I) infos ds.
    Proof.
      intros Vr H.
      assert (G : forall js ds, (forall j, In j js -> In j infos) -> Forall2 (has_split (chunk_map b s c I)) js ds ->
                  exists ds, Forall2 (has_split I) js ds).
      { intros js ds Sub F. induction F as [|i d js ds (u & sub & E & S) F IH]; [exists []; constructor|].
        destruct IH as [ds1 H1]; [intros j Ij; apply Sub; right; exact Ij|].
        rewrite lookup_chunk in E. destruct (lookup (in_name i) I) as [t|] eqn:El; [|discriminate]. injection E as <-.
        assert (Ii : In i infos) by (apply Sub; left; reflexivity).
        destruct HA as [HA1 _]. destruct (HA1 i t Ii El) as (W & Lk & C).
        assert (X : exists d sub, splits i t d sub).
        { unfold chunk_of in S. destruct (has_lead b t) eqn:Hl; [|exists d, sub; exact S].
          destruct C as [[Br _]|[Br Hx]].
          - apply has_lead_true in Hl as [tr Hs]. destruct S as [S L]. unfold rows_of in S. cbn [t_shape] in S. rewrite Hs in S. cbn [tl] in S.
            destruct d as [|x d].
            + cbn [app] in S. unfold brank, dim in Br. rewrite Hs in Br.
              assert (Q : length (c :: tr) = length (sub ++ in_base i)) by (rewrite S; reflexivity).
              rewrite app_length, L in Q. cbn [length] in Q, Br. lia.
            + cbn [app] in S. injection S as _ S. exists (b :: d), sub. split; [|exact L]. rewrite Hs, S. reflexivity.
          - destruct Hx as [Hx|Hx]; [|congruence]. rewrite (rows_id t s c Hx Vr W Hl) in S. exists d, sub. exact S. }
        destruct X as (d' & sub' & X). exists (d' :: ds1). constructor; [exists t, sub'; auto|exact H1]. }
      apply (G infos ds'); auto.
    Qed.

    Lemma has_split_cd s c ds ds' : valid_range b s c ->
      Forall2 (has_split I) infos ds -> Forall2 (has_split (chunk_map b s c I)) infos ds' -> ds' = map (cd c) ds.
    Proof. intros Vr H H'. eapply has_split_unique; [exact H'|]. apply has_split_chunk with (s := s); assumption. Qed.

    (** What the whole and each chunk prepare. *)
    Lemma prepare_rows :
      (exists st rest, prepare_inputs infos I = Ok st /\ length rest = r /\ sorted st /\ st_full st /\
         (forall i, In i infos -> exists u sub, lookup (in_name i) st = Some u /\ t_shape u = (b :: rest) ++ sub ++ in_base i /\ length sub = length (in_sub i)) /\
         forall s c, valid_range b s c -> prepare_inputs infos (chunk_map b s c I) = Ok (vmap_ (rows_of s c) st)) \/
      ((exists e, prepare_inputs infos I = Err e) /\
       forall s c, valid_range b s c -> exists e, prepare_inputs infos (chunk_map b s c I) = Err e).
    Proof.
      destruct (prep1_cases infos I aligned_ranks) as [[ds H]|[NoS _]].
      - destruct (infer_all [] ds) as [dyn|e] eqn:Ia.
        + left. apply infer_all_iff in Ia. destruct (broadcast_lead ds dyn H Ia) as (rest & -> & Lr).
          assert (Ac : acceptable infos I (b :: rest)) by (exists ds; auto).
          destruct (prepare_general infos I (b :: rest) HN aligned_ranks Ac) as (st & Pq & So & K & Q).
          assert (Fu : st_full st).
          { intros n t E. assert (In n (keys st)) by (apply lookup_key_some in E; exact E).
            apply K in H0. apply in_map_iff in H0 as (i & <- & Ii). destruct (Q i Ii) as (t0 & u & d & sub & E0 & S & Eu & X).
            rewrite Eu in E. injection E as <-. apply (expand_full b (rest ++ sub ++ in_base i) t0 u); [apply (aligned_ranks i t0 Ii E0)|exact X]. }
          exists st, rest. split; [exact Pq|]. split; [exact Lr|]. split; [exact So|]. split; [exact Fu|]. split.
          { intros i Ii. destruct (Q i Ii) as (t0 & u & d & sub & E0 & S & Eu & X). exists u, sub. split; [exact Eu|].
            destruct (aligned_ranks i t0 Ii E0) as [W0 _]. split; [apply (expand_ok t0 u _ W0 X)|apply S]. }
          intros s c Vr.
          assert (Ac' : acceptable infos (chunk_map b s c I) (c :: rest)).
          { exists (map (cd c) ds). split; [apply (has_split_chunk s c ds Vr H)|].
            apply (broadcast_chunk ds rest c H Lr). exact Ia. }
          destruct (prepare_general infos _ (c :: rest) HN (chunk_ranks s c Vr) Ac') as (st' & Pq' & So' & K' & Q').
          rewrite Pq'. f_equal. apply sorted_ext; [exact So'|apply sorted_vmap; exact So|].
          intros n. rewrite lookup_vmap. destruct (lookup n st) as [u|] eqn:Eu.
          * assert (Kn := lookup_key_some _ _ _ Eu). apply K in Kn. apply in_map_iff in Kn as (i & <- & Ii).
            destruct (Q i Ii) as (t & u0 & d & sub & E & S & Eu0 & X). rewrite Eu in Eu0. injection Eu0 as <-.
            destruct (Q' i Ii) as (t' & u' & d' & sub' & E' & S' & Eu' & X'). rewrite lookup_chunk, E in E'. injection E' as <-.
            rewrite Eu'. cbn [option_map]. f_equal.
            destruct (chunk_of_shape i t s c Ii E Vr d sub S) as (Sc & Wc & Hd & Cc & Ld).
            destruct (aligned_ranks i t Ii E) as [W _].
            assert (sub' = sub).
            { destruct S' as [S1 L1], Sc as [S2 L2]. rewrite S1 in S2. apply app_inv_tail_iff in S2 || idtac.
              rewrite !app_assoc in S2. apply app_inv_tail in S2. clear - S2 L1 L2.
              apply (f_equal (@rev nat)) in S2. rewrite !rev_app_distr in S2.
              assert (Lq : length (rev sub') = length (rev sub)) by (rewrite !rev_length; lia).
              apply (f_equal (firstn (length (rev sub')))) in S2.
              rewrite firstn_app, firstn_all, Nat.sub_diag in S2. rewrite Lq in S2. rewrite firstn_app, firstn_all, Nat.sub_diag in S2.
              cbn in S2. rewrite !app_nil_r in S2. rewrite <- (rev_involutive sub'), S2. apply rev_involutive. }
            subst sub'. rewrite <- app_comm_cons in X, X'.
            assert (Xr : Ok u' = rmap (rows_of s c) (Ok u)); [|cbn in Xr; congruence].
            rewrite <- X', <- X. destruct Vr as [Vc Vs].
            destruct (Nat.eqb (length d) (Datatypes.S r) && Nat.eqb (hd 0 d) b) eqn:Cq.
            -- rewrite Cc. apply andb_true_iff in Cq as [C1 C2]. apply Nat.eqb_eq in C1, C2.
               destruct d as [|x d]; [discriminate|]. cbn in C2. subst x.
               destruct S as [S Ls]. cbn [app] in S. apply (expand_rows b _ (d ++ sub ++ in_base i)); [exact W|exact S| |exact Vs].
               rewrite !app_length. cbn in C1. lia.
            -- rewrite Cc. apply expand_whole; [exact W| |exact Vs]. destruct S as [S Ls].
               destruct (Nat.eq_dec (length d) (Datatypes.S r)) as [Eq|Ne].
               ++ right. destruct d as [|x d]; [discriminate|]. destruct (Hd Eq) as [Q1|Q1]; cbn in Q1.
                  ** subst x. exists (d ++ sub ++ in_base i). split; [exact S|]. rewrite !app_length. cbn in Eq. lia.
                  ** subst x. rewrite Eq, Nat.eqb_refl in Cq. cbn in Cq. rewrite Nat.eqb_refl in Cq. discriminate.
               ++ left. unfold dim. rewrite S, !app_length. lia.
          * apply lookup_none in Eu. cbn [option_map]. apply lookup_none. intros Kn. apply Eu. apply K. apply K'. exact Kn.
        + right.
          assert (NA : forall dyn, ~ broadcast_of ds dyn).
          { intros dyn B. apply infer_all_iff in B. congruence. }
          split.
          { apply prepare_err; [exact aligned_ranks|]. intros dyn (ds' & H' & B).
            rewrite (has_split_unique I infos ds' ds H' H) in B. exact (NA _ B). }
          intros s c Vr. apply prepare_err; [apply chunk_ranks; exact Vr|]. intros dyn (ds' & H' & B).
          rewrite (has_split_cd s c ds ds' Vr H H') in B.
          assert (Bl : exists rest, dyn = c :: rest /\ length rest = r).
          { destruct B as [L M]. destruct (ds_facts ds H) as [F (d0 & I0 & L0 & H0)]. rewrite Forall_forall in F.
            assert (Ld : length dyn = Datatypes.S r).
            { apply Nat.le_antisymm.
              - destruct (Nat.le_gt_cases (length dyn) (Datatypes.S r)) as [|G]; [assumption|].
                apply L in G as (x & Is & G). apply in_map_iff in Is as (x0 & <- & Is). destruct (F x0 Is). rewrite length_cd in G by assumption. lia.
              - destruct (Nat.le_gt_cases (Datatypes.S r) (length dyn)) as [|G]; [assumption|].
                assert (r < length dyn); [|lia]. apply L. exists (cd c d0). split; [apply in_map; exact I0|]. rewrite length_cd; lia. }
            destruct dyn as [|x rest]; [discriminate|]. cbn in Ld. injection Ld as Ld. exists rest. split; [|exact Ld]. f_equal.
            assert (Hx : rsize (x :: rest) r = Some x) by (rewrite rsize_cons, Ld, Nat.eqb_refl; reflexivity).
            assert (Hc : rsize (cd c d0) r = Some c).
            { rewrite rsize_cd by lia. rewrite L0, H0, !Nat.eqb_refl. reflexivity. }
            destruct (M r x Hx) as [M1 M2]. destruct (M1 (cd c d0) c (in_map _ _ _ I0) Hc) as [Q|Q]; [auto|].
            destruct M2 as [->|(y & Iy & Ey)]; [auto|]. apply in_map_iff in Iy as (y0 & <- & Iy). destruct (F y0 Iy) as [F1 F2].
            rewrite (rsize_cd c y0 r F1) in Ey. rewrite Nat.eqb_refl in Ey. cbn [andb] in Ey.
            destruct (Nat.eqb_spec (length y0) (Datatypes.S r)) as [Ly|Ly]; cbn [andb] in Ey.
            - destruct (Nat.eqb_spec (hd 0 y0) b); [congruence|]. rewrite (hd_rsize y0 Ly) in Ey. injection Ey as Ey.
              destruct (F2 Ly); congruence.
            - assert (r < length y0) by (apply rsize_lt; eauto). lia. }
          destruct Bl as (rest & -> & Lr). apply (NA (b :: rest)). apply (broadcast_chunk ds rest c H Lr). exact B.
      - right. split.
        + apply prepare_err; [exact aligned_ranks|]. intros dyn (ds & H & _). exact (NoS ds H).
        + intros s c Vr. apply prepare_err; [apply chunk_ranks; exact Vr|]. intros dyn (ds' & H & _).
          destruct (has_split_back s c ds' Vr H) as [ds Hd]. exact (NoS ds Hd).
    Qed.
  End Inputs.

  (** *** The whole evaluation *)
  Definition fwd_ref (infos : list in_info) (sgs : list (fseg V)) (outs : list string)
             (a : vmap * vmap) : result vmap :=
    model_forward (fun p => at_ p (fst a)) nds infos sgs outs (snd a).

  Lemma batch_shape_cat i (u : tensor V) pre : t_shape u = pre ++ in_base i -> batch_shape_of i u = pre.
  Proof.
    intros S. unfold batch_shape_of, dim. rewrite S, app_length.
    replace (length pre + length (in_base i) - length (in_base i)) with (length pre) by lia.
    rewrite firstn_app, firstn_all, Nat.sub_diag. cbn. apply app_nil_r.
  Qed.

  Lemma forward_rows_ok infos sgs outs P I r :
    NoDup (map in_name infos) -> aligned b r infos I -> params_aligned b (param_brank r infos) nds P ->
    Forall (fun sg => graph_rows b (sg_run sg)) sgs ->
    forward_rows nds b (fwd_ref infos sgs outs) (P, I).
  Proof.
    intros HN HA HP HG. unfold forward_rows, no_new_error, ch1, fwd_ref. cbn [fst snd].
    destruct infos as [|i0 infos0] eqn:Ei; [destruct HA as [_ (i & t & [] & _)]|]. rewrite <- Ei in *.
    destruct (prepare_rows infos I r HN HA) as [(st & rest & Pq & Lr & So & Fu & Sh & Ch)|[[e Pe] Ce]].
    - destruct (Sh i0) as (u0 & sub0 & E0 & S0 & L0); [rewrite Ei; left; reflexivity|].
      assert (HP' : params_aligned b (S (length (rest ++ sub0))) nds P).
      { unfold param_brank in HP. rewrite Ei in HP. rewrite app_length, Lr, L0. exact HP. }
      assert (Full : model_forward (fun p => at_ p P) nds infos sgs outs I
                     = (let* st := run_segments (fun p => at_ p P) nds sgs (b :: rest ++ sub0) st in collect outs st [])).
      { unfold model_forward. rewrite Pq. cbn [bind]. rewrite Ei. unfold at_ at 1. rewrite E0. cbn [bind].
        rewrite (batch_shape_cat i0 u0 (b :: rest ++ sub0)); [reflexivity|]. rewrite S0. cbn [app]. rewrite app_assoc. reflexivity. }
      assert (Chunk : forall s c, valid_range b s c ->
                model_forward (fun p => at_ p (chunk_params b s c nds P)) nds infos sgs outs (chunk_map b s c I)
                = (let* st := run_segments (fun p => at_ p (chunk_params b s c nds P)) nds sgs (c :: rest ++ sub0)
                                (vmap_ (rows_of s c) st) in collect outs st [])).
      { intros s c Vr. unfold model_forward. rewrite (Ch s c Vr). cbn [bind]. rewrite Ei. unfold at_ at 1.
        rewrite lookup_vmap, E0. cbn [option_map bind].
        rewrite (batch_shape_cat i0 (rows_of s c u0) (c :: rest ++ sub0)); [reflexivity|].
        unfold rows_of. cbn [t_shape]. rewrite S0. cbn [app tl]. rewrite app_assoc. reflexivity. }
      split.
      + intros out H. rewrite Full in H.
        destruct (run_segments _ nds sgs (b :: rest ++ sub0) st) as [st'|] eqn:R; [|discriminate]. cbn [bind] in H.
        destruct (segs_rows P (rest ++ sub0) HP' sgs st st' HG Fu R) as [Fu' Rr].
        destruct (collect_full outs st' [] out Fu' sorted_nil) as [Sr Fr]; [intros n t E; discriminate|exact H|].
        pose proof (full_map_of out Sr Fr) as FM. split; [exact FM|].
        intros s c Vr. rewrite (Chunk s c Vr), (Rr s c Vr). cbn [bind].
        change (@nil (string * tensor V)) with (vmap_ (rows_of s c) (@nil (string * tensor V))).
        rewrite collect_vmap, H. cbn [rmap]. rewrite chunk_map_full by exact FM. reflexivity.
      + intros l T Hl. rewrite Full.
        assert (O : is_ok (run_segments (fun p => at_ p P) nds sgs (b :: rest ++ sub0) st) = true).
        { apply (segs_noerr P (rest ++ sub0) HP' sgs st l HG Fu T). rewrite Forall_forall in *. intros x Ix.
          specialize (Hl x Ix). pose proof (tiles_bounds _ _ _ _ T Ix) as Bx.
          rewrite Chunk in Hl by (split; lia).
          destruct (run_segments _ nds sgs (Z.to_nat (snd x) :: rest ++ sub0) _); [reflexivity|discriminate]. }
        destruct (run_segments _ nds sgs (b :: rest ++ sub0) st) as [st'|] eqn:R; [|discriminate]. cbn [bind].
        destruct (segs_rows P (rest ++ sub0) HP' sgs st st' HG Fu R) as [Fu' Rr].
        destruct l as [|x l]; [exfalso; apply (tiles_nonempty _ _ _ T); [lia|reflexivity]|].
        pose proof (tiles_bounds _ _ _ _ T (or_introl eq_refl)) as Bx. inversion Hl as [|? ? H1 _]; subst.
        assert (Vr : valid_range b (Z.to_nat (fst x)) (Z.to_nat (snd x))) by (split; lia).
        rewrite (Chunk _ _ Vr), (Rr _ _ Vr) in H1. cbn [bind] in H1.
        change (@nil (string * tensor V)) with (vmap_ (rows_of (Z.to_nat (fst x)) (Z.to_nat (snd x))) (@nil (string * tensor V))) in H1.
        rewrite collect_vmap, is_ok_rmap in H1. exact H1.
    - split.
      + intros out H. unfold model_forward in H. rewrite Pe in H. discriminate.
      + intros l T Hl. destruct l as [|x l]; [exfalso; apply (tiles_nonempty _ _ _ T); [lia|reflexivity]|].
        pose proof (tiles_bounds _ _ _ _ T (or_introl eq_refl)) as Bx. inversion Hl as [|? ? H1 _]; subst.
        destruct (Ce (Z.to_nat (fst x)) (Z.to_nat (snd x))) as [e' E']; [split; lia|].
        unfold model_forward in H1. rewrite E' in H1. discriminate.
  Qed.
End Rows.

(** ** Devices *)
Section Devices.
  Context {V : Type}.
  Notation vmap := (smap (tensor V)).
  Variable d : device.

  Lemma expand_dev (t : tensor V) tgt : expand (to_dev d t) tgt = rmap (to_dev d) (expand t tgt).
  Proof. unfold expand, dim. cbn [to_dev t_shape t_data t_dev]. destruct (Nat.ltb _ _); [reflexivity|]. destruct (fits _ _); reflexivity. Qed.

  Lemma prep1_dev infos (I : vmap) : forall st d0,
    prep1 infos (on_dev d I) (on_dev d st) d0 = rmap (fun p => (on_dev d (fst p), snd p)) (prep1 infos I st d0).
  Proof.
    induction infos as [|i infos IH]; intros st d0; [reflexivity|]. cbn [prep1]. unfold on_dev at 1. rewrite lookup_vmap.
    destruct (lookup (in_name i) I) as [t|]; cbn [option_map]; [|reflexivity].
    change (validate_input i (to_dev d t)) with (validate_input i t).
    change (dynamic_batch_shape_of i (to_dev d t)) with (dynamic_batch_shape_of i t).
    destruct (validate_input i t); cbn [bind]; [|reflexivity]. destruct (infer_size d0 _); cbn [bind]; [|reflexivity].
    unfold on_dev. rewrite <- vmap_set. apply IH.
  Qed.
  Lemma prep2_dev infos : forall dyn (st : vmap), prep2 infos dyn (on_dev d st) = rmap (on_dev d) (prep2 infos dyn st).
  Proof.
    induction infos as [|i infos IH]; intros dyn st; [reflexivity|]. cbn [prep2]. unfold at_, on_dev at 1. rewrite lookup_vmap.
    destruct (lookup (in_name i) st) as [t|]; cbn [option_map bind]; [|reflexivity].
    change (kept_sizes i (to_dev d t)) with (kept_sizes i t). destruct (kept_sizes i t); cbn [bind]; [|reflexivity].
    rewrite expand_dev. destruct (expand t _); cbn [rmap bind]; [|reflexivity]. unfold on_dev. rewrite <- vmap_set. apply IH.
  Qed.
  Lemma prepare_dev infos (I : vmap) : prepare_inputs infos (on_dev d I) = rmap (on_dev d) (prepare_inputs infos I).
  Proof.
    unfold prepare_inputs. change (@nil (string * tensor V)) with (on_dev d (@nil (string * tensor V))) at 1.
    rewrite prep1_dev. destruct (prep1 infos I [] []) as [[st dyn]|]; cbn [rmap bind fst snd]; [|reflexivity]. apply prep2_dev.
  Qed.

  Lemma seg_dev (P : vmap) nds sd s batch st :
    seg_on d sd s ->
    run_forward_segment (fun p => at_ p (on_dev d P)) nds sd batch (on_dev d st)
    = rmap (on_dev d) (run_forward_segment (fun p => at_ p P) nds s batch st).
  Proof.
    intros (E1 & E2 & E3 & R). unfold run_forward_segment. rewrite E1, E2, E3.
    rewrite (mapM_rmap (fun n => match lookup n st with Some t => Ok t
                                 | None => Err (Fatal "aoti::Model: forward segment needs input") end)
               _ (to_dev d)).
    2:{ intros n _. unfold on_dev. rewrite lookup_vmap. destruct (lookup n st); reflexivity. }
    destruct (mapM _ (sg_in s)) as [ins|]; cbn [rmap bind]; [|reflexivity].
    rewrite (mapM_rmap (fun p => let* t := at_ p P in let* nd := at_ p nds in broadcast_param t batch nd) _ (to_dev d)).
    2:{ intros q _. unfold at_, on_dev. rewrite lookup_vmap. destruct (lookup q P) as [t|]; cbn [option_map bind]; [|reflexivity].
        destruct (lookup q nds); cbn [bind]; [|reflexivity]. unfold broadcast_param.
        change (dim (to_dev d t)) with (dim t). destruct (Nat.ltb _ _); [reflexivity|]. apply expand_dev. }
    destruct (mapM _ (sg_par s)) as [ps|]; cbn [rmap bind]; [|reflexivity].
    rewrite <- map_app, R. destruct (sg_run s (ins ++ ps)) as [outs|]; cbn [rmap bind]; [|reflexivity].
    rewrite map_length. unfold assert_. destruct (Nat.eqb _ _); cbn [bind]; [|reflexivity].
    cbn [rmap]. unfold on_dev. rewrite vmap_set_all. reflexivity.
  Qed.

  Lemma segs_dev (P : vmap) nds sds ss batch : forall st,
    Forall2 (seg_on d) sds ss ->
    run_segments (fun p => at_ p (on_dev d P)) nds sds batch (on_dev d st)
    = rmap (on_dev d) (run_segments (fun p => at_ p P) nds ss batch st).
  Proof.
    intros st H. revert st. induction H as [|sd s sds ss H1 H IH]; intros st; [reflexivity|]. cbn [run_segments].
    rewrite (seg_dev P nds sd s batch st H1). destruct (run_forward_segment _ nds s batch st); cbn [rmap bind]; [apply IH|reflexivity].
  Qed.

  Lemma forward_dev (P I : vmap) nds infos outs sds ss :
    Forall2 (seg_on d) sds ss ->
    model_forward (fun p => at_ p (on_dev d P)) nds infos sds outs (on_dev d I)
    = rmap (on_dev d) (model_forward (fun p => at_ p P) nds infos ss outs I).
  Proof.
    intros H. unfold model_forward. rewrite prepare_dev. destruct (prepare_inputs infos I) as [st|]; cbn [rmap bind]; [|reflexivity].
    set (B := match infos with [] => Ok [] | i :: _ => let* t := at_ (in_name i) st in Ok (batch_shape_of i t) end).
    assert (match infos with [] => Ok [] | i :: _ => let* t := at_ (in_name i) (on_dev d st) in Ok (batch_shape_of i t) end = B) as ->.
    { unfold B. destruct infos as [|i infos]; [reflexivity|]. unfold at_, on_dev. rewrite lookup_vmap.
      destruct (lookup (in_name i) st); reflexivity. }
    destruct B as [batch|]; cbn [bind]; [|reflexivity]. rewrite (segs_dev P nds sds ss batch st H).
    destruct (run_segments _ nds ss batch st) as [st'|]; cbn [rmap bind]; [|reflexivity].
    change (@nil (string * tensor V)) with (vmap_ (to_dev d) (@nil (string * tensor V))) at 1.
    apply collect_vmap.
  Qed.
End Devices.
