(** Proofs about packing (C41). *)
From Verif Require Import Base BaseProofs Tensor Spec TensorProofs Broadcast SpecBroadcast BroadcastProofs SmapProofs Pack SpecPack.

Section Rows.
  Context {V : Type}.
  Implicit Types (l : list V).

  Lemma skipn_flat (f : nat -> list V) w a n i : (forall k, a <= k < a + n -> length (f k) = w) -> i <= n ->
    skipn (i * w) (flat_map f (seq a n)) = flat_map f (seq (a + i) (n - i)).
  Proof.
    revert a n. induction i as [|i IH]; intros a n H L.
    - rewrite Nat.add_0_r, Nat.sub_0_r. reflexivity.
    - destruct n as [|n]; [lia|]. cbn [seq flat_map].
      replace (S i * w) with (i * w + length (f a)) by (rewrite H by lia; lia).
      rewrite <- skipn_skipn, skipn_app, skipn_all, Nat.sub_diag. cbn [app skipn].
      rewrite IH; [|intros k Hk; apply H; lia|lia]. f_equal. f_equal; lia.
  Qed.
  Lemma row_flat (f : nat -> list V) w n i : (forall k, k < n -> length (f k) = w) -> i < n ->
    row_data w i (flat_map f (seq 0 n)) = f i.
  Proof.
    intros H L. unfold row_data. rewrite (skipn_flat f w 0 n i) by (try (intros k Hk; apply H); lia).
    destruct (n - i) as [|m] eqn:E; [lia|]. cbn [seq flat_map Nat.add].
    rewrite firstn_app, H, Nat.sub_diag by lia. cbn [firstn]. rewrite app_nil_r. apply firstn_all2. rewrite H; lia.
  Qed.
  Lemma row_all w n l : length l = n * w -> flat_map (fun i => row_data w i l) (seq 0 n) = l.
  Proof.
    revert l. induction n as [|n IH]; intros l H; cbn [seq flat_map].
    - destruct l; [reflexivity|discriminate].
    - rewrite <- seq_shift, flat_map_concat_map, map_map, <- flat_map_concat_map.
      replace (flat_map _ _) with (skipn w l); [unfold row_data; cbn [Nat.mul skipn]; apply firstn_skipn|].
      rewrite <- (IH (skipn w l)) at 1 by (rewrite skipn_length, H; lia).
      apply flat_map_ext. intros i. unfold row_data. rewrite skipn_skipn. f_equal. f_equal. lia.
  Qed.
End Rows.

Lemma removelast_last {A} (pre : list A) w : removelast (pre ++ [w]) = pre.
Proof. apply removelast_last. Qed.
Lemma last_last {A} (pre : list A) w d : last (pre ++ [w]) d = w.
Proof. apply last_last. Qed.

(** ** Multi-indices *)
Lemma ravel_app a b i j : length i = length a -> ravel (a ++ b) (i ++ j) = ravel a i * numel b + ravel b j.
Proof.
  revert i. induction a as [|x a IH]; intros [|y i] H; try discriminate; [reflexivity|].
  cbn [app ravel]. rewrite IH by (injection H as H; exact H). rewrite numel_app. lia.
Qed.
Lemma index_length sh idx : index_of sh idx -> length idx = length sh.
Proof. unfold index_of. intros H. induction H; cbn; congruence. Qed.
Lemma index_app a b i j : index_of a i -> index_of b j -> index_of (a ++ b) (i ++ j).
Proof. apply Forall2_app. Qed.
Lemma ravel_one w c : ravel [w] [c] = c.
Proof. cbn. lia. Qed.
Lemma numel_one w : numel [w] = w.
Proof. cbn. lia. Qed.

Section Cat.
  Context {V : Type}.
  Implicit Types (t : tensor V).

  Lemma mkT_eta t : mkT (t_shape t) (t_data t) (t_dev t) = t.
  Proof. destruct t. reflexivity. Qed.

  (** A part of a concatenation over the axes [pre]. *)
  Definition part (pre : list nat) (d : device) t : Prop :=
    wf t /\ t_dev t = d /\ t_shape t = pre ++ [width t].
  Definition total (ts : list (tensor V)) : nat := fold_right Nat.add 0 (map width ts).

  Lemma total_app a b : total (a ++ b) = total a + total b.
  Proof. unfold total. induction a as [|x a IH]; [reflexivity|]. cbn. rewrite IH. lia. Qed.

  Lemma part_rows pre d t i : part pre d t -> i < numel pre -> length (row_data (width t) i (t_data t)) = width t.
  Proof.
    intros [W [_ S]] H. apply (row_data_len _ _ (numel pre)); [|exact H]. unfold wf in W. rewrite W, S, numel_app, numel_one.
    reflexivity.
  Qed.
  Lemma part_dim pre d t : part pre d t -> dim t = length pre + 1.
  Proof. intros [_ [_ S]]. unfold dim. rewrite S, app_length. reflexivity. Qed.
  Lemma part_pre pre d t : part pre d t -> removelast (t_shape t) = pre.
  Proof. intros [_ [_ S]]. rewrite S. apply removelast_last. Qed.

  Definition joined pre d (ts : list (tensor V)) : tensor V :=
    mkT (pre ++ [total ts])
        (flat_map (fun i => flat_map (fun t => row_data (width t) i (t_data t)) ts) (seq 0 (numel pre))) d.

  Lemma cat_last_parts pre d ts : ts <> [] -> Forall (part pre d) ts -> cat_last ts = Ok (joined pre d ts).
  Proof.
    intros NE P. destruct ts as [|t0 ts]; [contradiction|]. unfold cat_last.
    assert (P0 : part pre d t0) by (inversion P; assumption).
    rewrite (part_pre _ _ _ P0).
    assert (D0 : t_dev t0 = d) by apply P0. rewrite D0.
    replace (forallb _ _) with true; [reflexivity|]. symmetry. apply forallb_forall. intros t I.
    rewrite Forall_forall in P. specialize (P t I). unfold cat_last_compat.
    rewrite (part_pre _ _ _ P), shape_eqb_refl, (part_dim _ _ _ P). destruct P as [_ [D _]]. rewrite D, device_eqb_refl.
    destruct (Nat.ltb_spec 0 (length pre + 1)); [reflexivity|lia].
  Qed.

  Lemma row_parts_length pre d ts i : Forall (part pre d) ts -> i < numel pre ->
    length (flat_map (fun t => row_data (width t) i (t_data t)) ts) = total ts.
  Proof.
    intros P H. induction P as [|t ts P0 P IH]; [reflexivity|]. cbn [flat_map]. rewrite app_length, IH, (part_rows _ _ _ _ P0 H). reflexivity.
  Qed.
  Lemma joined_wf pre d ts : Forall (part pre d) ts -> wf (joined pre d ts).
  Proof.
    intros P. unfold wf, joined. cbn [t_data t_shape]. rewrite numel_app, numel_one.
    apply flat_map_const_length. intros i I. apply in_seq in I. apply (row_parts_length pre d); [exact P|lia].
  Qed.
  Lemma joined_width pre d ts : width (joined pre d ts) = total ts.
  Proof. unfold width, joined. cbn [t_shape]. apply last_last. Qed.
  Lemma joined_part pre d ts : Forall (part pre d) ts -> part pre d (joined pre d ts).
  Proof. intros P. split; [apply joined_wf; exact P|]. split; [reflexivity|]. rewrite joined_width. reflexivity. Qed.
  Lemma joined_row pre d ts i : Forall (part pre d) ts -> i < numel pre ->
    row_data (total ts) i (t_data (joined pre d ts)) = flat_map (fun t => row_data (width t) i (t_data t)) ts.
  Proof.
    intros P H. unfold joined. cbn [t_data].
    apply (row_flat (fun j => flat_map (fun t => row_data (width t) j (t_data t)) ts)); [|exact H]. intros k Hk. apply (row_parts_length pre d); assumption.
  Qed.
  Lemma flat_map_ext_seq {A} (f g : nat -> list A) a n : (forall i, a <= i < a + n -> f i = g i) ->
    flat_map f (seq a n) = flat_map g (seq a n).
  Proof.
    intros H. rewrite !flat_map_concat_map. f_equal. apply map_ext_in. intros i I. apply in_seq in I. apply H. lia.
  Qed.

  Lemma narrow_joined pre d xs t ys : Forall (part pre d) (xs ++ t :: ys) ->
    narrow_last (joined pre d (xs ++ t :: ys)) (total xs) (width t) = Ok t.
  Proof.
    intros P. unfold narrow_last. set (ts := xs ++ t :: ys) in *.
    assert (J : part pre d (joined pre d ts)) by (apply joined_part; exact P).
    rewrite (part_dim _ _ _ J), joined_width. replace (length pre + 1 =? 0) with false by (symmetry; apply Nat.eqb_neq; lia).
    assert (T : total ts = total xs + (width t + total ys)) by (unfold ts; rewrite total_app; reflexivity).
    replace (_ <=? _) with true by (symmetry; apply Nat.leb_le; lia).
    rewrite (part_pre _ _ _ J).
    assert (Pt : part pre d t) by (unfold ts in P; apply Forall_app in P; destruct P as [_ P]; inversion P; assumption).
    assert (Pxs : Forall (part pre d) xs) by (unfold ts in P; apply Forall_app in P; apply P).
    f_equal. destruct Pt as [W [D S]].
    assert (E : flat_map (fun i => firstn (width t) (skipn (total xs) (row_data (total ts) i (t_data (joined pre d ts))))) (seq 0 (numel pre)) = t_data t).
    { erewrite flat_map_ext_seq.
      - apply row_all. unfold wf in W. rewrite W, S, numel_app, numel_one. reflexivity.
      - intros i Hi. cbv beta. rewrite (joined_row pre d ts i P) by lia. unfold ts. rewrite flat_map_app. cbn [flat_map].
        rewrite <- (row_parts_length pre d xs i Pxs) by lia.
        rewrite skipn_app, skipn_all, Nat.sub_diag. cbn [app skipn].
        rewrite firstn_app, (part_rows pre d t i) by (try (repeat split; assumption); lia).
        rewrite Nat.sub_diag. cbn [firstn]. rewrite app_nil_r. apply firstn_all2.
        rewrite (part_rows pre d t i) by (try (repeat split; assumption); lia). lia. }
    rewrite E. cbn [joined t_dev]. rewrite <- S, <- D. apply mkT_eta.
  Qed.

  Lemma joined_elem pre d xs t ys r c : Forall (part pre d) (xs ++ t :: ys) -> index_of pre r -> c < width t ->
    elem (joined pre d (xs ++ t :: ys)) (r ++ [total xs + c]) = elem t (r ++ [c]).
  Proof.
    intros P X C. set (ts := xs ++ t :: ys) in *.
    assert (Pt : part pre d t) by (unfold ts in P; apply Forall_app in P; destruct P as [_ P]; inversion P; assumption).
    assert (Pxs : Forall (part pre d) xs) by (unfold ts in P; apply Forall_app in P; apply P).
    assert (T : total ts = total xs + (width t + total ys)) by (unfold ts; rewrite total_app; reflexivity).
    pose proof (ravel_lt _ _ X) as Hr.
    unfold elem. destruct Pt as [W [D S]]. rewrite S. unfold joined. cbn [t_shape t_data].
    rewrite !ravel_app, !numel_one, !ravel_one by (apply index_length; exact X).
    rewrite (flat_map_nth _ (total ts) (numel pre) 0 (ravel pre r)); [|intros i I; apply in_seq in I; apply (row_parts_length pre d); [exact P|lia]|exact Hr|lia].
    cbn [Nat.add]. unfold ts. rewrite flat_map_app. cbn [flat_map].
    pose proof (row_parts_length pre d xs (ravel pre r) Pxs Hr) as Lx.
    rewrite nth_error_app2 by lia. rewrite Lx. replace (total xs + c - total xs) with c by lia.
    rewrite nth_error_app1 by (rewrite (part_rows pre d t) by (try (repeat split; assumption); lia); lia).
    unfold row_data. rewrite nth_error_firstn, nth_error_skipn by lia. reflexivity.
  Qed.

  (** Cutting a tensor at the columns [ws] and joining the pieces. *)
  Definition piece pre d gt off w : tensor V :=
    mkT (pre ++ [w]) (flat_map (fun i => firstn w (skipn off (row_data (width gt) i (t_data gt)))) (seq 0 (numel pre))) d.
  Lemma narrow_piece pre d gt off w : part pre d gt -> off + w <= width gt ->
    narrow_last gt off w = Ok (piece pre d gt off w).
  Proof.
    intros P H. unfold narrow_last. rewrite (part_dim _ _ _ P), (part_pre _ _ _ P).
    replace (length pre + 1 =? 0) with false by (symmetry; apply Nat.eqb_neq; lia).
    replace (_ <=? _) with true by (symmetry; apply Nat.leb_le; lia). destruct P as [_ [D _]]. rewrite D. reflexivity.
  Qed.
  Lemma piece_row_length pre d gt off w i : part pre d gt -> off + w <= width gt -> i < numel pre ->
    length (firstn w (skipn off (row_data (width gt) i (t_data gt)))) = w.
  Proof. intros P H L. rewrite firstn_length, skipn_length, (part_rows _ _ _ _ P L). lia. Qed.
  Lemma piece_part pre d gt off w : part pre d gt -> off + w <= width gt -> part pre d (piece pre d gt off w).
  Proof.
    intros P H. unfold part, piece. cbn [t_dev t_shape]. unfold width. cbn [t_shape]. rewrite last_last. split; [|split; reflexivity].
    unfold wf. cbn [t_data t_shape]. rewrite numel_app, numel_one. apply flat_map_const_length.
    intros i I. apply in_seq in I. apply (piece_row_length pre d); [exact P|exact H|lia].
  Qed.
  Lemma piece_width pre d gt off w : width (piece pre d gt off w) = w.
  Proof. unfold width, piece. cbn [t_shape]. apply last_last. Qed.
  Fixpoint pieces pre d gt off (ws : list nat) : list (tensor V) :=
    match ws with [] => [] | w :: ws' => piece pre d gt off w :: pieces pre d gt (off + w) ws' end.
  Lemma pieces_part pre d gt : part pre d gt -> forall ws off, off + fold_right Nat.add 0 ws <= width gt ->
    Forall (part pre d) (pieces pre d gt off ws) /\ total (pieces pre d gt off ws) = fold_right Nat.add 0 ws.
  Proof.
    intros P. induction ws as [|w ws IH]; intros off H; [split; [constructor|reflexivity]|]. cbn [fold_right] in H.
    destruct (IH (off + w)) as [A B]; [lia|]. cbn [pieces]. split.
    - constructor; [apply piece_part; [exact P|lia]|exact A].
    - unfold total in *. cbn [map fold_right]. rewrite piece_width, B. reflexivity.
  Qed.
  Lemma pieces_rows pre d gt : part pre d gt -> forall ws off i, off + fold_right Nat.add 0 ws <= width gt -> i < numel pre ->
    flat_map (fun t => row_data (width t) i (t_data t)) (pieces pre d gt off ws) =
    firstn (fold_right Nat.add 0 ws) (skipn off (row_data (width gt) i (t_data gt))).
  Proof.
    intros P. induction ws as [|w ws IH]; intros off i H L; [reflexivity|]. cbn [fold_right] in H |- *. cbn [pieces flat_map].
    rewrite IH by lia. rewrite piece_width. unfold piece at 1. cbn [t_data].
    rewrite row_flat; [|intros k Hk; apply (piece_row_length pre d); [exact P|lia|exact Hk]|exact L].
    rewrite firstn_add, skipn_skipn. f_equal. f_equal. f_equal. lia.
  Qed.
  Lemma joined_pieces pre d gt ws : part pre d gt -> fold_right Nat.add 0 ws = width gt ->
    joined pre d (pieces pre d gt 0 ws) = gt.
  Proof.
    intros P E. unfold joined. destruct (pieces_part pre d gt P ws 0) as [A B]; [lia|]. rewrite B, E.
    destruct P as [W [D S]].
    replace (flat_map _ _) with (t_data gt).
    - rewrite <- S, <- D. apply mkT_eta.
    - symmetry. erewrite flat_map_ext_seq.
      + apply (row_all (width gt)). unfold wf in W. rewrite W, S, numel_app, numel_one. reflexivity.
      + intros i Hi. cbv beta. rewrite pieces_rows by (try (repeat split; assumption); lia). cbn [skipn]. rewrite E.
        apply firstn_all2. rewrite (part_rows pre d) by (try (repeat split; assumption); lia). lia.
  Qed.
End Cat.

(** ** Groups *)
Lemma segment_columns g v : segment_size g v = columns g v.
Proof.
  unfold segment_size, columns, is_block. destruct (String.eqb _ _); [reflexivity|]. rewrite numel_app. reflexivity.
Qed.

Section Groups.
  Context {V : Type}.
  Notation vmap := (smap (tensor V)).

  (** The contribution of a variable that is as declared. *)
  Definition flat g dyn (t : tensor V) v : tensor V := mkT (axes g dyn ++ [columns g v]) (t_data t) (t_dev t).

  Definition declared (dyn : list nat) (d : device) v (t : tensor V) : Prop :=
    wf t /\ t_dev t = d /\ t_shape t = dyn ++ v_sub v ++ v_base v.

  Lemma sub_ok g v : group_ok g -> In v (g_vars g) -> is_block g = true -> v_sub v = g_sub g.
  Proof. intros [_ H] I B. unfold is_block in B. specialize (H B). rewrite Forall_forall in H. apply H, I. Qed.

  Lemma flat_numel g dyn v : group_ok g -> In v (g_vars g) ->
    numel (axes g dyn ++ [columns g v]) = numel (dyn ++ v_sub v ++ v_base v).
  Proof.
    intros G I. unfold axes, columns. rewrite !numel_app, numel_one.
    destruct (String.eqb _ _) eqn:B; [rewrite (sub_ok g v G I B)|rewrite numel_app; cbn [numel fold_right]]; lia.
  Qed.
  Lemma flat_shape g dyn v : group_ok g -> In v (g_vars g) ->
    axes g dyn ++ [columns g v] =
    (if is_block g then dyn ++ v_sub v ++ [numel (v_base v)] else dyn ++ [numel (v_sub v) * numel (v_base v)]).
  Proof.
    intros G I. unfold axes, columns. fold (is_block g). destruct (is_block g) eqn:B.
    - rewrite (sub_ok g v G I B), <- app_assoc. reflexivity.
    - rewrite app_nil_r, numel_app. reflexivity.
  Qed.

  Lemma pack_var_ok g st v dyn d t : group_ok g -> In v (g_vars g) ->
    lookup (v_name v) st = Some t -> declared dyn d v t -> pack_var g st v = Ok (flat g dyn t v).
  Proof.
    intros G I L [W [D S]]. unfold pack_var. rewrite L. unfold dim. rewrite S, !app_length.
    replace (_ <=? _) with true by (symmetry; apply Nat.leb_le; lia). cbn [assert_ bind].
    replace (length dyn + (length (v_sub v) + length (v_base v)) - (length (v_sub v) + length (v_base v))) with (length dyn) by lia.
    rewrite firstn_app, Nat.sub_diag, firstn_all. cbn [firstn]. rewrite app_nil_r.
    rewrite <- (flat_shape g dyn v G I). unfold reshape. rewrite S, (flat_numel g dyn v G I), Nat.eqb_refl. reflexivity.
  Qed.
  Lemma flat_part g dyn d t v : group_ok g -> In v (g_vars g) -> declared dyn d v t ->
    part (axes g dyn) d (flat g dyn t v) /\ width (flat g dyn t v) = columns g v.
  Proof.
    intros G I [W [D S]]. assert (Wd : width (flat g dyn t v) = columns g v) by (unfold width, flat; cbn [t_shape]; apply last_last).
    split; [|exact Wd]. split; [|split; [exact D|rewrite Wd; reflexivity]].
    unfold wf, flat. cbn [t_data t_shape]. rewrite (flat_numel g dyn v G I), <- S. exact W.
  Qed.

  Lemma assign dyn d st vs : (forall v, In v vs -> exists t, lookup (v_name v) st = Some t /\ wf t /\ t_dev t = d /\ t_shape t = dyn ++ v_sub v ++ v_base v) ->
    exists ts, Forall2 (fun v t => lookup (v_name v) st = Some t /\ declared dyn d v t) vs (ts : list (tensor V)).
  Proof.
    induction vs as [|v vs IH]; intros H; [exists []; constructor|].
    destruct IH as [ts F]; [intros w I; apply H; right; exact I|]. destruct (H v) as [t [A B]]; [left; reflexivity|].
    exists (t :: ts). constructor; [split; assumption|exact F].
  Qed.

  Fixpoint flats g dyn (ts : list (tensor V)) vs : list (tensor V) :=
    match ts, vs with t :: ts', v :: vs' => flat g dyn t v :: flats g dyn ts' vs' | _, _ => [] end.

  Lemma pack_vars_ok g st dyn d : group_ok g -> forall vs ts, incl vs (g_vars g) ->
    Forall2 (fun v t => lookup (v_name v) st = Some t /\ declared dyn d v t) vs ts ->
    mapM (pack_var g st) vs = Ok (flats g dyn ts vs) /\ Forall (part (axes g dyn) d) (flats g dyn ts vs) /\
    map width (flats g dyn ts vs) = map (columns g) vs.
  Proof.
    intros G vs ts I F. revert I. induction F as [|v t vs ts [L D] F IH]; intros I; [repeat split; constructor|].
    assert (Iv : In v (g_vars g)) by (apply I; left; reflexivity).
    destruct IH as [A [B C]]; [intros x Hx; apply I; right; exact Hx|]. cbn [mapM].
    rewrite (pack_var_ok g st v dyn d t G Iv L D). cbn [bind]. rewrite A. cbn [bind flats].
    destruct (flat_part g dyn d t v G Iv D) as [P W]. split; [reflexivity|]. split; [constructor; assumption|].
    cbn [map]. rewrite W, C. reflexivity.
  Qed.

  (** The tensor of a group. *)
  Lemma pack_group_ok g st dyn d : group_ok g -> holds st dyn d g ->
    exists ts, Forall2 (fun v t => lookup (v_name v) st = Some t /\ declared dyn d v t) (g_vars g) ts /\
      pack_group st g = Ok (joined (axes g dyn) d (flats g dyn ts (g_vars g))) /\
      Forall (part (axes g dyn) d) (flats g dyn ts (g_vars g)) /\
      map width (flats g dyn ts (g_vars g)) = map (columns g) (g_vars g).
  Proof.
    intros G H. destruct (assign dyn d st (g_vars g) H) as [ts F]. exists ts. split; [exact F|].
    destruct (pack_vars_ok g st dyn d G (g_vars g) ts (fun x h => h) F) as [A [B C]].
    split; [|split; assumption]. unfold pack_group. rewrite A. cbn [bind].
    assert (NE : flats g dyn ts (g_vars g) <> []).
    { intros E. rewrite E in C. destruct G as [G _]. destruct (g_vars g); [contradiction|discriminate]. }
    destruct (flats g dyn ts (g_vars g)) as [|x l] eqn:E; [contradiction|]. cbn [length Nat.eqb negb assert_ bind].
    apply cat_last_parts; [discriminate|exact B].
  Qed.

  Lemma joined_group g dyn d parts : Forall (part (axes g dyn) d) parts ->
    map width parts = map (columns g) (g_vars g) -> group_tensor g dyn d (joined (axes g dyn) d parts : tensor V).
  Proof.
    intros P W. split; [apply joined_wf; exact P|]. split; [reflexivity|]. unfold joined, total, width_of. cbn [t_shape]. rewrite W. reflexivity.
  Qed.

  Definition unflat (dyn : list nat) v (p : tensor V) : tensor V := mkT (dyn ++ v_sub v ++ v_base v) (t_data p) (t_dev p).
  Lemma unflat_flat g dyn d t v : declared dyn d v t -> unflat dyn v (flat g dyn t v) = t.
  Proof. intros [_ [_ S]]. unfold unflat, flat. cbn [t_data t_dev]. rewrite <- S. apply mkT_eta. Qed.

  Definition sets (kvs : list (string * tensor V)) (st : vmap) : vmap := fold_left (fun st kv => set_ (fst kv) (snd kv) st) kvs st.

  (** Unpacking a joined tensor sets every variable from its part. *)
  Fixpoint unflats dyn (ps : list (tensor V)) vs : list (string * tensor V) :=
    match ps, vs with p :: ps', v :: vs' => (v_name v, unflat dyn v p) :: unflats dyn ps' vs' | _, _ => [] end.

  Lemma unpack_vars_joined g dyn d : group_ok g -> forall vs ps xs st, incl vs (g_vars g) ->
    Forall (part (axes g dyn) d) (xs ++ ps) -> map width ps = map (columns g) vs ->
    unpack_vars g (joined (axes g dyn) d (xs ++ ps)) dyn (total xs) vs st = Ok (sets (unflats dyn ps vs) st).
  Proof.
    intros G. induction vs as [|v vs IH]; intros [|p ps] xs st I P W; cbn [map] in W; try discriminate; [reflexivity|].
    injection W as Wp W. cbn [unpack_vars]. rewrite segment_columns, <- Wp.
    rewrite narrow_joined by exact P. cbn [bind].
    assert (Pp : part (axes g dyn) d p) by (apply Forall_app in P; destruct P as [_ P]; inversion P; assumption).
    assert (Iv : In v (g_vars g)) by (apply I; left; reflexivity).
    assert (R : reshape p (dyn ++ v_sub v ++ v_base v) = Ok (unflat dyn v p)).
    { unfold reshape. destruct Pp as [_ [_ S]]. rewrite S, Wp, (flat_numel g dyn v G Iv), Nat.eqb_refl. reflexivity. }
    rewrite R. cbn [bind unflats].
    assert (E : xs ++ p :: ps = (xs ++ [p]) ++ ps) by (rewrite <- app_assoc; reflexivity). rewrite E.
    replace (total xs + width p) with (total (xs ++ [p])) by (rewrite total_app; unfold total; cbn; lia).
    rewrite (IH ps (xs ++ [p])); [reflexivity| |rewrite <- E; exact P|exact W].
    intros x Hx. apply I. right. exact Hx.
  Qed.

  Lemma unpack_group_joined g dyn d ps st : group_ok g -> Forall (part (axes g dyn) d) ps ->
    map width ps = map (columns g) (g_vars g) ->
    unpack_group g (joined (axes g dyn) d ps) st = Ok (sets (unflats dyn ps (g_vars g)) st).
  Proof.
    intros G P W. unfold unpack_group. set (trail := if is_block g then _ else _).
    assert (D : dim (joined (axes g dyn) d ps) = length dyn + trail /\ firstn (length dyn) (t_shape (joined (axes g dyn) d ps)) = dyn).
    { unfold dim, joined, axes, trail, is_block. cbn [t_shape]. rewrite !app_length.
      split; [destruct (String.eqb _ _); cbn [length]; lia|].
      rewrite <- app_assoc, firstn_app, Nat.sub_diag, firstn_all. cbn [firstn]. apply app_nil_r. }
    destruct D as [D1 D2]. rewrite D1.
    replace (_ <=? _) with true by (symmetry; apply Nat.leb_le; lia). cbn [assert_ bind].
    replace (length dyn + trail - trail) with (length dyn) by lia. rewrite D2.
    apply (unpack_vars_joined g dyn d G (g_vars g) ps []); [intros x h; exact h|exact P|exact W].
  Qed.

  Lemma sets_app a b st : sets (a ++ b) st = sets b (sets a st).
  Proof. apply fold_left_app. Qed.
  Lemma sets_other kvs n st : ~ In n (map fst kvs) -> lookup n (sets kvs st) = lookup n st.
  Proof.
    revert st. induction kvs as [|[k t] kvs IH]; intros st H; [reflexivity|]. cbn [sets fold_left]. cbn [map fst] in H.
    change (lookup n (sets kvs (set_ k t st)) = lookup n st). rewrite IH by (intros I; apply H; right; exact I). apply lookup_set_other.
    intros ->. apply H. left. reflexivity.
  Qed.
  Lemma sets_in kvs n st (f : string -> option (tensor V)) :
    (forall k t, In (k, t) kvs -> f k = Some t) -> In n (map fst kvs) -> lookup n (sets kvs st) = f n.
  Proof.
    revert st. induction kvs as [|[k t] kvs IH]; intros st H I; [contradiction|].
    change (lookup n (sets kvs (set_ k t st)) = f n).
    destruct (in_dec string_dec n (map fst kvs)) as [J|J].
    - apply IH; [|exact J]. intros k' t' I'. apply H. right. exact I'.
    - rewrite sets_other by exact J. destruct I as [<-|I]; [|contradiction]. cbn [fst]. rewrite lookup_set_same. symmetry. apply H. left. reflexivity.
  Qed.

  Lemma unflats_flats g dyn d st vs ts :
    Forall2 (fun v t => lookup (v_name v) st = Some t /\ declared dyn d v t) vs ts ->
    map fst (unflats dyn (flats g dyn ts vs) vs) = map v_name vs /\
    forall k t, In (k, t) (unflats dyn (flats g dyn ts vs) vs) -> lookup k st = Some t.
  Proof.
    intros F. induction F as [|v t vs ts [L D] F [IH1 IH2]]; [split; [reflexivity|contradiction]|]. cbn [flats unflats map fst].
    split; [f_equal; exact IH1|]. intros k u [E|I]; [|apply IH2; exact I]. injection E as <- <-. rewrite (unflat_flat g dyn d); assumption.
  Qed.

  (** ** Pack, then unpack *)
  Lemma pack_unpack (st : vmap) groups : Forall group_ok groups -> Forall (fun g => exists dyn d, holds st dyn d g) groups ->
    exists gts, pack_groups st groups = Ok gts /\
      Forall2 (fun g gt => exists dyn d, holds st dyn d g /\ group_tensor g dyn d gt) groups gts /\
      forall st', exists kvs, unpack_list gts groups st' = Ok (sets kvs st') /\ map fst kvs = names groups /\
        forall k t, In (k, t) kvs -> lookup k st = Some t.
  Proof.
    intros G H. induction H as [|g groups [dyn [d Hg]] H IH].
    - exists []. split; [reflexivity|]. split; [constructor|]. intros st'. exists []. repeat split. contradiction.
    - inversion G as [|? ? Gg G']; subst. destruct (IH G') as [gts [A [B C]]].
      destruct (pack_group_ok g st dyn d Gg Hg) as [ts [F [Pk [Pt W]]]].
      exists (joined (axes g dyn) d (flats g dyn ts (g_vars g)) :: gts). split.
      { unfold pack_groups in *. cbn [mapM]. rewrite Pk. cbn [bind]. rewrite A. reflexivity. }
      split; [constructor; [exists dyn, d; split; [exact Hg|apply joined_group; assumption]|exact B]|].
      intros st'. cbn [unpack_list]. rewrite (unpack_group_joined g dyn d _ st' Gg Pt W). cbn [bind].
      destruct (C (sets (unflats dyn (flats g dyn ts (g_vars g)) (g_vars g)) st')) as [kvs [U [K Q]]].
      destruct (unflats_flats g dyn d st _ _ F) as [K1 Q1].
      exists (unflats dyn (flats g dyn ts (g_vars g)) (g_vars g) ++ kvs). rewrite U, sets_app. split; [reflexivity|].
      unfold names in *. cbn [flat_map]. rewrite !map_app, K1, K. split; [reflexivity|].
      intros k t I. apply in_app_or in I. destruct I as [I|I]; [apply Q1|apply Q]; exact I.
  Qed.

  Lemma pack_unpack_lookup (st : vmap) groups : Forall group_ok groups -> Forall (fun g => exists dyn d, holds st dyn d g) groups ->
    exists gts, pack_groups st groups = Ok gts /\
      Forall2 (fun g gt => exists dyn d, holds st dyn d g /\ group_tensor g dyn d gt) groups gts /\
      forall st', exists st'', unpack_groups gts groups st' = Ok st'' /\
        (forall n, In n (names groups) -> lookup n st'' = lookup n st) /\
        (forall n, ~ In n (names groups) -> lookup n st'' = lookup n st').
  Proof.
    intros G H. destruct (pack_unpack st groups G H) as [gts [A [B C]]]. exists gts. split; [exact A|]. split; [exact B|].
    intros st'. destruct (C st') as [kvs [U [K Q]]]. exists (sets kvs st'). split; [|split].
    - unfold unpack_groups. replace (length gts =? length groups) with true; [exact U|].
      symmetry. apply Nat.eqb_eq. clear - B. induction B; cbn; congruence.
    - intros n I. apply (sets_in kvs n st' (fun k => lookup k st) Q). rewrite K. exact I.
    - intros n I. apply sets_other. rewrite K. exact I.
  Qed.

  (** ** Slots *)
  Lemma flats_split g dyn st d vs0 v vs1 ts :
    Forall2 (fun v t => lookup (v_name v) st = Some t /\ declared dyn d v t) (vs0 ++ v :: vs1) ts ->
    exists ts0 t ts1, ts = ts0 ++ t :: ts1 /\ length ts0 = length vs0 /\ lookup (v_name v) st = Some t /\ declared dyn d v t /\
      flats g dyn ts (vs0 ++ v :: vs1) = flats g dyn ts0 vs0 ++ flat g dyn t v :: flats g dyn ts1 vs1 /\
      map width (flats g dyn ts0 vs0) = map (columns g) vs0.
  Proof.
    revert ts. induction vs0 as [|w vs0 IH]; intros ts F.
    - inversion F as [|? t ? ts1 [L D] F1]; subst. exists [], t, ts1. repeat split; try assumption; apply D.
    - inversion F as [|? t ? ts1 [L D] F1]; subst. destruct (IH ts1 F1) as [ts0 [u [ts2 [-> [Ln [L' [D' [E W]]]]]]]].
      exists (t :: ts0), u, ts2. split; [reflexivity|]. split; [cbn; congruence|]. split; [exact L'|]. split; [exact D'|].
      cbn [app flats]. rewrite E. split; [reflexivity|]. cbn [map]. rewrite W. f_equal. unfold width, flat. cbn [t_shape]. apply last_last.
  Qed.

  Lemma pack_slots g (st : vmap) dyn d (gt : tensor V) before v after b s x : group_ok g -> holds st dyn d g -> pack_group st g = Ok gt ->
    g_vars g = before ++ v :: after -> index_of dyn b -> index_of (v_sub v) s -> index_of (v_base v) x ->
    exists t, lookup (v_name v) st = Some t /\
      index_of (t_shape gt) (slot g before v b s x) /\ elem gt (slot g before v b s x) = elem t (b ++ s ++ x).
  Proof.
    intros G H Pk E Xb Xs Xx. destruct (pack_group_ok g st dyn d G H) as [ts [F [Pk' [Pt W]]]].
    rewrite Pk in Pk'. injection Pk' as ->. rewrite E in F.
    destruct (flats_split g dyn st d before v after ts F) as [ts0 [t [ts1 [_ [_ [L [D [Ef Wb]]]]]]]].
    assert (Iv : In v (g_vars g)) by (rewrite E; apply in_elt).
    destruct (flat_part g dyn d t v G Iv D) as [Pf Wf].
    exists t. split; [exact L|].
    assert (Wt : width_of g before = total (flats g dyn ts0 before)) by (unfold width_of, total; rewrite Wb; reflexivity).
    assert (Tt : total (flats g dyn ts (g_vars g)) = total (flats g dyn ts0 before) + (columns g v + total (flats g dyn ts1 after)))
      by (rewrite E, Ef, total_app; unfold total at 2; cbn [map fold_right]; rewrite Wf; reflexivity).
    set (r := b ++ (if is_block g then s else [])).
    set (c := if is_block g then ravel (v_base v) x else ravel (v_sub v ++ v_base v) (s ++ x)).
    assert (Xr : index_of (axes g dyn) r).
    { unfold axes, r. fold (is_block g). destruct (is_block g) eqn:B; [|rewrite !app_nil_r; exact Xb].
      apply index_app; [exact Xb|]. rewrite <- (sub_ok g v G Iv B). exact Xs. }
    assert (Hc : c < columns g v).
    { unfold c, columns. fold (is_block g). destruct (is_block g); apply ravel_lt; [exact Xx|apply index_app; assumption]. }
    assert (Sl : slot g before v b s x = r ++ [total (flats g dyn ts0 before) + c]).
    { unfold slot, r, c. fold (is_block g). rewrite Wt. destruct (is_block g); [rewrite <- app_assoc|rewrite app_nil_r]; reflexivity. }
    split.
    - rewrite Sl. unfold joined. cbn [t_shape]. apply index_app; [exact Xr|]. constructor; [lia|constructor].
    - rewrite Sl. rewrite E, Ef in Pt |- *. rewrite joined_elem; [|exact Pt|exact Xr|rewrite Wf; exact Hc].
      unfold elem, flat. cbn [t_shape t_data]. f_equal.
      pose proof (index_length _ _ Xb) as Lb. pose proof (index_length _ _ Xs) as Ls. pose proof (index_length _ _ Xr) as Lr.
      destruct D as [_ [_ S]]. rewrite S. rewrite ravel_app, numel_one, ravel_one by exact Lr.
      rewrite ravel_app by exact Lb. unfold r, c, axes, columns. fold (is_block g). destruct (is_block g) eqn:B.
      + rewrite <- (sub_ok g v G Iv B). rewrite !ravel_app by assumption. rewrite numel_app. lia.
      + rewrite !app_nil_r. reflexivity.
  Qed.

  (** ** Unpack, then pack *)
  Lemma unflats_pieces g dyn d (gt : tensor V) : group_ok g -> group_tensor g dyn d gt ->
    part (axes g dyn) d gt /\ width gt = width_of g (g_vars g).
  Proof.
    intros G [W [D S]]. assert (E : width gt = width_of g (g_vars g)) by (unfold width; rewrite S; apply last_last).
    split; [|exact E]. split; [exact W|]. split; [exact D|]. rewrite E. exact S.
  Qed.

  Lemma unflat_declared g dyn d v p : group_ok g -> In v (g_vars g) -> part (axes g dyn) d p -> width p = columns g v ->
    declared dyn d v (unflat dyn v p) /\ flat g dyn (unflat dyn v p) v = p.
  Proof.
    intros G I [W [D S]] Ew. split.
    - split; [|split; [exact D|reflexivity]]. unfold wf, unflat in *. cbn [t_data t_shape]. rewrite W, S, Ew. apply flat_numel; assumption.
    - unfold flat, unflat. cbn [t_data t_dev]. rewrite <- Ew, <- S. apply mkT_eta.
  Qed.

  Lemma pieces_widths pre d (gt : tensor V) ws : forall off, map width (pieces pre d gt off ws) = ws.
  Proof. induction ws as [|w ws IH]; intros off; [reflexivity|]. cbn [pieces map]. rewrite piece_width, IH. reflexivity. Qed.

  Lemma sets_first kvs st k t : NoDup (map fst kvs) -> In (k, t) kvs -> lookup k (sets kvs st) = Some t.
  Proof.
    revert st. induction kvs as [|[k' t'] kvs IH]; intros st N I; [contradiction|]. cbn [map fst] in N. inversion N as [|? ? N1 N2]; subst.
    change (lookup k (sets kvs (set_ k' t' st)) = Some t). destruct I as [E|I].
    - injection E as -> ->. rewrite sets_other by exact N1. apply lookup_set_same.
    - apply IH; assumption.
  Qed.

  Lemma unpack_group_ok g dyn d (gt : tensor V) st : group_ok g -> group_tensor g dyn d gt ->
    exists ps, Forall (part (axes g dyn) d) ps /\ map width ps = map (columns g) (g_vars g) /\
      joined (axes g dyn) d ps = gt /\ unpack_group g gt st = Ok (sets (unflats dyn ps (g_vars g)) st).
  Proof.
    intros G T. destruct (unflats_pieces g dyn d gt G T) as [P E].
    exists (pieces (axes g dyn) d gt 0 (map (columns g) (g_vars g))).
    destruct (pieces_part (axes g dyn) d gt P (map (columns g) (g_vars g)) 0) as [A _]; [rewrite E; apply Nat.le_refl|].
    split; [exact A|]. split; [apply pieces_widths|].
    assert (J : joined (axes g dyn) d (pieces (axes g dyn) d gt 0 (map (columns g) (g_vars g))) = gt)
      by (apply joined_pieces; [exact P|symmetry; exact E]).
    split; [exact J|]. rewrite <- J at 1. apply unpack_group_joined; [exact G|exact A|apply pieces_widths].
  Qed.

  Lemma repack_vars g dyn d (st : vmap) : group_ok g -> forall vs ps, incl vs (g_vars g) -> Forall (part (axes g dyn) d) ps ->
    map width ps = map (columns g) vs -> (forall k t, In (k, t) (unflats dyn ps vs) -> lookup k st = Some t) ->
    mapM (pack_var g st) vs = Ok ps.
  Proof.
    intros G. induction vs as [|v vs IH]; intros [|p ps] I P W H; cbn [map] in W; try discriminate; [reflexivity|].
    injection W as Wp W. inversion P as [|? ? Pp P']; subst. assert (Iv : In v (g_vars g)) by (apply I; left; reflexivity).
    destruct (unflat_declared g dyn d v p G Iv Pp Wp) as [D Fl]. cbn [mapM].
    rewrite (pack_var_ok g st v dyn d (unflat dyn v p) G Iv); [|apply H; left; reflexivity|exact D]. cbn [bind].
    rewrite (IH ps); [cbn [bind]; rewrite Fl; reflexivity|intros x h; apply I; right; exact h|exact P'|exact W|].
    intros k t h. apply H. right. exact h.
  Qed.

  Lemma unflats_names dyn vs ps : length ps = length vs -> map fst (unflats dyn ps vs) = map v_name vs.
  Proof.
    revert ps. induction vs as [|v vs IH]; intros [|p ps] L; try discriminate; [reflexivity|]. cbn [unflats map fst].
    f_equal. apply IH. injection L as L. exact L.
  Qed.

  Lemma unpack_pack groups gts (st : vmap) : Forall group_ok groups -> NoDup (names groups) ->
    Forall2 (fun g gt => exists dyn d, group_tensor g dyn d gt) groups gts ->
    exists kvs, unpack_list gts groups st = Ok (sets kvs st) /\ map fst kvs = names groups /\
      forall st', (forall k t, In (k, t) kvs -> lookup k st' = Some t) -> pack_groups st' groups = Ok gts.
  Proof.
    intros G N F. revert st G N. induction F as [|g gt groups gts [dyn [d T]] F IH]; intros st G N.
    - exists []. repeat split.
    - inversion G as [|? ? Gg G']; subst. unfold names in N. cbn [flat_map] in N. rewrite map_app in N.
      destruct (unpack_group_ok g dyn d gt st Gg T) as [ps [P [W [J U]]]].
      destruct (IH (sets (unflats dyn ps (g_vars g)) st) G') as [kvs [A [K Q]]].
      { clear - N. induction (map v_name (g_vars g)) as [|a l IHl]; [exact N|]. inversion N; subst. apply IHl. assumption. }
      assert (Lp : length ps = length (g_vars g)) by (rewrite <- (map_length width), W, map_length; reflexivity).
      exists (unflats dyn ps (g_vars g) ++ kvs). cbn [unpack_list]. rewrite U. cbn [bind]. rewrite A, sets_app. split; [reflexivity|].
      unfold names in *. cbn [flat_map]. rewrite !map_app, K, (unflats_names dyn _ _ Lp). split; [reflexivity|].
      intros st' H. unfold pack_groups. cbn [mapM]. unfold pack_group at 1.
      rewrite (repack_vars g dyn d st' Gg (g_vars g) ps); [|intros x h; exact h|exact P|exact W|intros k t h; apply H; apply in_or_app; left; exact h].
      cbn [bind]. rewrite Lp. destruct (g_vars g) as [|v vs] eqn:Ev; [destruct Gg as [Gg _]; rewrite Ev in Gg; contradiction|].
      cbn [length Nat.eqb negb assert_ bind].
      rewrite (cat_last_parts (axes g dyn) d ps); [|intros ->; discriminate|exact P]. cbn [bind]. rewrite J.
      assert (Q' : mapM (pack_group st') groups = Ok gts) by (apply Q; intros k t h; apply H; apply in_or_app; right; exact h).
      rewrite Q'. reflexivity.
  Qed.

  Lemma unpack_pack_groups groups gts (st : vmap) : Forall group_ok groups -> NoDup (names groups) ->
    Forall2 (fun g gt => exists dyn d, group_tensor g dyn d gt) groups gts ->
    exists st', unpack_groups gts groups st = Ok st' /\ pack_groups st' groups = Ok gts /\
      forall n, ~ In n (names groups) -> lookup n st' = lookup n st.
  Proof.
    intros G N F. destruct (unpack_pack groups gts st G N F) as [kvs [A [K Q]]]. exists (sets kvs st). split; [|split].
    - unfold unpack_groups. replace (length gts =? length groups) with true; [exact A|].
      symmetry. apply Nat.eqb_eq. clear - F. induction F; cbn; congruence.
    - apply Q. intros k t I. apply sets_first; [rewrite K; exact N|exact I].
    - intros n I. apply sets_other. rewrite K. exact I.
  Qed.
End Groups.

(** ** Slots are disjoint *)
Lemma ravel_inj sh i j : index_of sh i -> index_of sh j -> ravel sh i = ravel sh j -> i = j.
Proof.
  revert i j. induction sh as [|n sh IH]; intros i j Hi Hj E; inversion Hi as [|a ? i' ? La Hi']; inversion Hj as [|c ? j' ? Lc Hj']; subst; [reflexivity|].
  cbn [ravel] in E. pose proof (ravel_lt _ _ Hi') as A. pose proof (ravel_lt _ _ Hj') as B.
  assert (a = c) by nia. subst c. f_equal. apply IH; [assumption|assumption|lia].
Qed.

Lemma width_of_split g a b : width_of g (a ++ b) = width_of g a + width_of g b.
Proof.
  unfold width_of. induction a as [|v a IH]; [reflexivity|]. cbn [app map fold_right]. rewrite IH. lia.
Qed.

Lemma split_order {A} (l b1 b2 a1 a2 : list A) (v1 v2 : A) : l = b1 ++ v1 :: a1 -> l = b2 ++ v2 :: a2 ->
  (b1 = b2 /\ v1 = v2) \/ (exists r, b2 = b1 ++ v1 :: r) \/ (exists r, b1 = b2 ++ v2 :: r).
Proof.
  intros E1 E2. rewrite E1 in E2. clear E1 l. revert b2 E2. induction b1 as [|x b1 IH]; intros [|y b2] E; cbn [app] in E.
  - injection E as -> _. left. split; reflexivity.
  - injection E as -> ->. right. left. exists b2. reflexivity.
  - injection E as -> <-. right. right. exists b1. reflexivity.
  - injection E as -> E. destruct (IH b2 E) as [[-> ->]|[[r ->]|[r ->]]].
    + left. split; reflexivity.
    + right. left. exists r. reflexivity.
    + right. right. exists r. reflexivity.
Qed.

(** The column of a slot is one of its variable's. *)
Definition inner (g : group_info) (v : var_info) (s x : list nat) : nat :=
  if String.eqb (g_structure g) "block" then ravel (v_base v) x else ravel (v_sub v ++ v_base v) (s ++ x).
Lemma inner_lt g v s x : index_of (v_sub v) s -> index_of (v_base v) x -> inner g v s x < columns g v.
Proof.
  intros S X. unfold inner, columns. destruct (String.eqb _ _); apply ravel_lt; [exact X|apply index_app; assumption].
Qed.

Lemma column_inj g b1 v1 a1 s1 x1 b2 v2 a2 s2 x2 : g_vars g = b1 ++ v1 :: a1 -> g_vars g = b2 ++ v2 :: a2 ->
  index_of (v_sub v1) s1 -> index_of (v_base v1) x1 -> index_of (v_sub v2) s2 -> index_of (v_base v2) x2 ->
  width_of g b1 + inner g v1 s1 x1 = width_of g b2 + inner g v2 s2 x2 ->
  b1 = b2 /\ v1 = v2 /\ inner g v1 s1 x1 = inner g v2 s2 x2.
Proof.
  intros E1 E2 S1 X1 S2 X2 W. pose proof (inner_lt g v1 s1 x1 S1 X1) as L1. pose proof (inner_lt g v2 s2 x2 S2 X2) as L2.
  destruct (split_order _ _ _ _ _ _ _ E1 E2) as [[-> ->]|[[r ->]|[r ->]]].
  - repeat split. lia.
  - exfalso. rewrite width_of_split in W. unfold width_of in W at 3. cbn [map fold_right] in W. lia.
  - exfalso. rewrite width_of_split in W. unfold width_of in W at 2. cbn [map fold_right] in W. lia.
Qed.

Lemma slots_disjoint g dyn b1 v1 a1 i1 s1 x1 b2 v2 a2 i2 s2 x2 : group_ok g ->
  g_vars g = b1 ++ v1 :: a1 -> g_vars g = b2 ++ v2 :: a2 ->
  index_of dyn i1 -> index_of (v_sub v1) s1 -> index_of (v_base v1) x1 ->
  index_of dyn i2 -> index_of (v_sub v2) s2 -> index_of (v_base v2) x2 ->
  slot g b1 v1 i1 s1 x1 = slot g b2 v2 i2 s2 x2 ->
  b1 = b2 /\ v1 = v2 /\ i1 = i2 /\ s1 = s2 /\ x1 = x2.
Proof.
  intros [_ G] E1 E2 I1 S1 X1 I2 S2 X2 H.
  assert (L : length i1 = length i2) by (rewrite (index_length _ _ I1), (index_length _ _ I2); reflexivity).
  pose proof (column_inj g b1 v1 a1 s1 x1 b2 v2 a2 s2 x2 E1 E2 S1 X1 S2 X2) as C. unfold slot, inner in *.
  destruct (String.eqb (g_structure g) "block").
  - assert (Ls : length s1 = length s2).
    { specialize (G eq_refl). rewrite Forall_forall in G.
      rewrite (index_length _ _ S1), (index_length _ _ S2), (G v1), (G v2); [reflexivity|rewrite E2; apply in_elt|rewrite E1; apply in_elt]. }
    rewrite !app_assoc in H. apply app_inj_tail in H as [H W]. destruct (C W) as [-> [-> R]].
    assert (K : i1 = i2 /\ s1 = s2).
    { clear - L H. revert i2 L H. induction i1 as [|a i1 IH]; intros [|c i2] L H; try discriminate; [split; [reflexivity|exact H]|].
      cbn [app] in H. injection H as -> H. injection L as L. destruct (IH i2 L H) as [-> ->]. split; reflexivity. }
    destruct K as [-> ->]. apply ravel_inj in R; [subst; repeat split|assumption|assumption].
  - apply app_inj_tail in H as [-> W]. destruct (C W) as [-> [-> R]].
    apply ravel_inj in R; [|apply index_app; assumption|apply index_app; assumption].
    assert (Ls : length s1 = length s2) by (rewrite (index_length _ _ S1), (index_length _ _ S2); reflexivity).
    assert (K : s1 = s2 /\ x1 = x2).
    { clear - Ls R. revert s2 Ls R. induction s1 as [|a s1 IH]; intros [|c s2] L H; try discriminate; [split; [reflexivity|exact H]|].
      cbn [app] in H. injection H as -> H. injection L as L. destruct (IH s2 L H) as [-> ->]. split; reflexivity. }
    destruct K as [-> ->]. repeat split.
Qed.

(** Every position of a group tensor is the slot of some element. *)
Lemma unravel sh k : k < numel sh -> exists i, index_of sh i /\ ravel sh i = k.
Proof.
  revert k. induction sh as [|n sh IH]; intros k L; cbn [numel fold_right] in L.
  - exists []. split; [constructor|]. cbn. change (numel []) with 1 in L. lia.
  - change (fold_right Nat.mul 1 sh) with (numel sh) in L. assert (0 < numel sh) by nia.
    destruct (IH (k mod numel sh)) as [i [I R]]; [apply Nat.mod_upper_bound; lia|].
    exists (k / numel sh :: i). split; [constructor; [apply Nat.div_lt_upper_bound; lia|exact I]|].
    cbn [ravel]. rewrite R. pose proof (Nat.div_mod k (numel sh)). lia.
Qed.

Lemma column_of g vs k : k < width_of g vs -> exists b v a, vs = b ++ v :: a /\ width_of g b <= k < width_of g b + columns g v.
Proof.
  revert k. induction vs as [|v vs IH]; intros k L; [cbn in L; lia|]. unfold width_of in L. cbn [map fold_right] in L.
  change (fold_right Nat.add 0 (map (columns g) vs)) with (width_of g vs) in L.
  destruct (Nat.lt_ge_cases k (columns g v)) as [C|C].
  - exists [], v, vs. split; [reflexivity|]. cbn. lia.
  - destruct (IH (k - columns g v)) as [b [w [a [-> H]]]]; [lia|]. exists (v :: b), w, a. split; [reflexivity|].
    unfold width_of. cbn [map fold_right]. change (fold_right Nat.add 0 (map (columns g) b)) with (width_of g b). lia.
Qed.

Lemma index_split a b i : index_of (a ++ b) i -> exists i1 i2, i = i1 ++ i2 /\ index_of a i1 /\ index_of b i2.
Proof.
  intros H. apply Forall2_app_inv_r in H as [i1 [i2 [A [B ->]]]]. exists i1, i2. auto.
Qed.

Lemma slots_cover g dyn idx : group_ok g -> index_of (axes g dyn ++ [width_of g (g_vars g)]) idx ->
  exists b v a i s x, g_vars g = b ++ v :: a /\ index_of dyn i /\ index_of (v_sub v) s /\ index_of (v_base v) x /\ idx = slot g b v i s x.
Proof.
  intros [_ G] H. apply index_split in H as [i1 [i2 [-> [A B]]]]. inversion B as [|k ? t ? Lk Bt]; subst. inversion Bt; subst.
  destruct (column_of g (g_vars g) k Lk) as [b [v [a [E C]]]]. unfold axes in A. apply index_split in A as [i [s [-> [I S]]]].
  unfold slot. unfold columns in C. destruct (String.eqb (g_structure g) "block").
  - specialize (G eq_refl). rewrite Forall_forall in G. destruct (unravel (v_base v) (k - width_of g b)) as [x [X R]]; [lia|].
    exists b, v, a, i, s, x. repeat split; try assumption; [rewrite (G v); [exact S|rewrite E; apply in_elt]|].
    rewrite R, <- app_assoc. repeat f_equal. lia.
  - inversion S; subst. destruct (unravel (v_sub v ++ v_base v) (k - width_of g b)) as [sx [X R]]; [lia|].
    apply index_split in X as [s [x [-> [S' X]]]]. exists b, v, a, i, s, x. repeat split; try assumption.
    rewrite R, app_nil_r. repeat f_equal. lia.
Qed.

Lemma pack_missing {V} (st : smap (tensor V)) groups g v : In g groups -> In v (g_vars g) -> lookup (v_name v) st = None ->
  exists e, pack_groups st groups = Err e.
Proof.
  intros Ig Iv L. unfold pack_groups.
  destruct (mapM_err_in (pack_var g st) (g_vars g) v (Fatal "aoti::Model::_pack_groups: state missing variable") Iv) as [e P];
    [unfold pack_var; rewrite L; reflexivity|].
  destruct (mapM_err_in (pack_group st) groups g e Ig) as [e' P']; [unfold pack_group; rewrite P; reflexivity|].
  exists e'. exact P'.
Qed.
