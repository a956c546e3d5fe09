(** Lemmas about flattening dense groups. *)
From Verif Require Import Base BaseProofs Tensor Spec TensorProofs Broadcast SpecBroadcast BroadcastProofs Pack SpecPack PackProofs
  Newton Krylov SpecKrylov KrylovSystem SpecKrylovSystem ImplicitProofs.

Section Flat.
  Context {V : Type}.
  Implicit Types (t : tensor V) (ts xs ys : list (tensor V)).

  Definition as_matrix (n : nat) t : tensor V := mkT [n; width t] (t_data t) (t_dev t).

  Lemma dense_parts dyn d ts ws : dense_groups dyn d ts ws -> Forall (part dyn d) ts /\ map width ts = ws.
  Proof.
    induction 1 as [|t w ts ws [W [D E]] _ [IH1 IH2]]; [split; [constructor|reflexivity]|].
    assert (Ew : width t = w) by (unfold width; rewrite E; apply last_last).
    split; [constructor; [|exact IH1]|cbn; congruence]. split; [exact W|]. split; [exact D|]. rewrite Ew. exact E.
  Qed.

  Lemma matrix_part dyn d t : part dyn d t -> part [numel dyn] d (as_matrix (numel dyn) t).
  Proof.
    intros [W [D E]]. split; [|split; [exact D|reflexivity]].
    unfold wf, as_matrix in *. cbn [t_data t_shape]. rewrite W, E, numel_app, numel_one. cbn. lia.
  Qed.
  Lemma matrix_width n t : width (as_matrix n t) = width t.
  Proof. reflexivity. Qed.

  Lemma flatten_group_ok dyn d t : part dyn d t ->
    flatten_group (numel dyn) t = Ok (width t, as_matrix (numel dyn) t).
  Proof.
    intros P. unfold flatten_group. rewrite (part_dim _ _ _ P).
    replace (1 <=? length dyn + 1) with true by (symmetry; apply Nat.leb_le; lia). cbn [assert_ bind].
    unfold reshape. destruct P as [W [D E]]. rewrite E at 1. rewrite numel_app.
    replace (numel [numel dyn; width t] =? numel dyn * numel [width t]) with true; [reflexivity|].
    symmetry. apply Nat.eqb_eq. cbn. lia.
  Qed.

  Lemma flatten_groups_ok dyn d ts : Forall (part dyn d) ts ->
    mapM (flatten_group (numel dyn)) ts = Ok (map (fun t => (width t, as_matrix (numel dyn) t)) ts).
  Proof.
    induction 1 as [|t ts P _ IH]; [reflexivity|]. cbn [mapM map]. rewrite (flatten_group_ok dyn d t P), IH. reflexivity.
  Qed.

  Definition flat_of dyn d (ts : list (tensor V)) : tensor V := joined [numel dyn] d (map (as_matrix (numel dyn)) ts).

  Lemma all_dense_ok l : all_dense l -> assert_all_dense l = Ok tt.
  Proof.
    intros H. unfold assert_all_dense. replace (forallb _ l) with true; [reflexivity|].
    symmetry. apply forallb_forall. intros g I. unfold all_dense in H. rewrite Forall_forall in H. specialize (H g I).
    apply Bool.negb_true_iff, String.eqb_neq. exact H.
  Qed.

  Lemma widths_matrix n ts : map width (map (as_matrix n) ts) = map width ts.
  Proof. rewrite map_map. reflexivity. Qed.
  Lemma total_matrix n ts : total (map (as_matrix n) ts) = sum_of (map width ts).
  Proof. unfold total. rewrite widths_matrix. reflexivity. Qed.

  Lemma matrices_part dyn d ts : Forall (part dyn d) ts -> Forall (part [numel dyn] d) (map (as_matrix (numel dyn)) ts).
  Proof. intros P. rewrite Forall_map. eapply Forall_impl; [|exact P]. apply matrix_part. Qed.

  Lemma flatten_ok dyn d ts ws layout : ts <> [] -> length ts = length layout -> all_dense layout ->
    dense_groups dyn d ts ws -> flatten_dense ts layout = Ok (flat_of dyn d ts, mkSpec dyn ws (sum_of ws)).
  Proof.
    intros NE L AD DG. destruct (dense_parts dyn d ts ws DG) as [P E]. unfold flatten_dense.
    rewrite L, Nat.eqb_refl. cbn [assert_ bind]. rewrite (all_dense_ok layout AD). cbn [bind].
    destruct ts as [|t0 ts]; [contradiction|]. 
    assert (P0 : part dyn d t0) by (inversion P; assumption).
    rewrite (part_dim _ _ _ P0), (part_pre _ _ _ P0).
    replace (length dyn + 1 =? 0) with false by (symmetry; apply Nat.eqb_neq; lia).
    rewrite (flatten_groups_ok dyn d _ P). cbn [bind]. rewrite !map_map. cbn [fst snd].
    change (map (fun x => as_matrix (numel dyn) x) (t0 :: ts)) with (map (as_matrix (numel dyn)) (t0 :: ts)).
    rewrite (cat_last_parts [numel dyn] d); [|discriminate|apply matrices_part; exact P]. cbn [bind].
    change (map (fun x => width x) (t0 :: ts)) with (map width (t0 :: ts)). rewrite E. reflexivity.
  Qed.

  (** Slicing in range is narrowing. *)
  Lemma slice_narrow n d (t p : tensor V) o w : part [n] d t -> narrow_last t o w = Ok p -> slice_cols t o w = Ok p.
  Proof.
    intros P H. unfold narrow_last in H. rewrite (part_dim _ _ _ P), (part_pre _ _ _ P) in H. cbn [length Nat.add Nat.eqb] in H.
    destruct (Nat.leb_spec (o + w) (width t)) as [Le|]; [|discriminate]. injection H as <-.
    unfold slice_cols. destruct P as [_ [_ E]]. rewrite E. cbn [app].
    replace (Nat.min w (width t - o)) with w by lia. cbn [numel fold_right]. rewrite Nat.mul_1_r. reflexivity.
  Qed.

  Lemma reshape_matrix dyn d t : part dyn d t -> reshape (as_matrix (numel dyn) t) (dyn ++ [width t]) = Ok t.
  Proof.
    intros [W [D E]]. unfold reshape, as_matrix. cbn [t_shape t_data t_dev].
    replace (numel (dyn ++ [width t]) =? numel [numel dyn; width t]) with true.
    - rewrite <- E. rewrite mkT_eta. reflexivity.
    - symmetry. apply Nat.eqb_eq. rewrite numel_app. cbn. lia.
  Qed.

  Lemma unflatten_ok dyn d xs ts : Forall (part dyn d) (xs ++ ts) ->
    unflatten_from (flat_of dyn d (xs ++ ts)) dyn (sum_of (map width xs)) (map width ts) = Ok ts.
  Proof.
    revert xs. induction ts as [|t ts IH]; intros xs P; [reflexivity|]. cbn [map unflatten_from].
    assert (Pt : part dyn d t).
    { apply Forall_app in P as [_ P]. inversion P; assumption. }
    pose proof (matrices_part dyn d _ P) as Pm. rewrite map_app in Pm. cbn [map] in Pm.
    rewrite (slice_narrow (numel dyn) d _ (as_matrix (numel dyn) t)).
    - cbn [bind]. rewrite (reshape_matrix dyn d t Pt). cbn [bind].
      specialize (IH (xs ++ [t])). rewrite <- app_assoc in IH. cbn [app] in IH. specialize (IH P).
      rewrite map_app in IH. unfold sum_of in IH at 1. rewrite fold_right_app in IH. cbn [map fold_right] in IH.
      replace (sum_of (map width xs) + width t) with (fold_right Nat.add (width t + 0) (map width xs)).
      { rewrite IH. reflexivity. }
      clear. unfold sum_of. induction (map width xs) as [|w l IH]; cbn [fold_right]; lia.
    - apply joined_part. unfold flat_of. rewrite map_app. exact Pm.
    - unfold flat_of. rewrite map_app. cbn [map]. rewrite <- (total_matrix (numel dyn)), <- (matrix_width (numel dyn) t).
      apply narrow_joined. exact Pm.
  Qed.

  Lemma flatten_unflatten dyn d ts ws layout : ts <> [] -> length ts = length layout -> all_dense layout ->
    dense_groups dyn d ts ws ->
    exists flat spec, flatten_dense ts layout = Ok (flat, spec) /\ wf flat /\ t_dev flat = d /\
      t_shape flat = [numel dyn; sum_of ws] /\ spec = mkSpec dyn ws (sum_of ws) /\ unflatten_dense flat spec = Ok ts.
  Proof.
    intros NE L AD DG. exists (flat_of dyn d ts), (mkSpec dyn ws (sum_of ws)).
    destruct (dense_parts dyn d ts ws DG) as [P E].
    split; [apply flatten_ok; assumption|].
    split; [apply joined_wf, matrices_part; exact P|]. split; [reflexivity|].
    split. { unfold flat_of, joined. cbn [t_shape app]. rewrite total_matrix, E. reflexivity. }
    split; [reflexivity|]. unfold unflatten_dense. cbn [fs_batch fs_widths].
    rewrite <- E. exact (unflatten_ok dyn d [] ts P).
  Qed.

  (** The other way. *)
  Definition group_of dyn (p : tensor V) : tensor V := mkT (dyn ++ [width p]) (t_data p) (t_dev p).
  Lemma group_of_part dyn d p : part [numel dyn] d p -> part dyn d (group_of dyn p) /\ width (group_of dyn p) = width p /\
    as_matrix (numel dyn) (group_of dyn p) = p.
  Proof.
    intros [W [D E]]. assert (Ew : width (group_of dyn p) = width p) by (unfold width at 1; cbn [t_shape group_of]; apply last_last).
    split; [|split; [exact Ew|]].
    - split; [|split; [exact D|rewrite Ew; reflexivity]]. unfold wf in *. cbn [group_of t_data t_shape].
      rewrite W, E, !numel_app, numel_one. cbn. lia.
    - unfold as_matrix. rewrite Ew. cbn [group_of t_data t_dev].
      transitivity (mkT (t_shape p) (t_data p) (t_dev p)); [rewrite E; reflexivity|apply mkT_eta].
  Qed.

  Lemma unflatten_pieces dyn d flat ws o : part [numel dyn] d flat -> o + sum_of ws <= width flat ->
    unflatten_from flat dyn o ws = Ok (map (group_of dyn) (pieces [numel dyn] d flat o ws)).
  Proof.
    intros P. revert o. induction ws as [|w ws IH]; intros o H; [reflexivity|]. cbn [sum_of fold_right] in H. fold (sum_of ws) in H.
    cbn [unflatten_from pieces map].
    rewrite (slice_narrow (numel dyn) d flat _ o w P (narrow_piece [numel dyn] d flat o w P ltac:(lia))). cbn [bind].
    pose proof (piece_part [numel dyn] d flat o w P ltac:(lia)) as Pp.
    unfold reshape. destruct Pp as [W [D E]]. rewrite E, piece_width. 
    replace (numel (dyn ++ [w]) =? numel ([numel dyn] ++ [w])) with true
      by (symmetry; apply Nat.eqb_eq; rewrite numel_app; cbn; lia).
    cbn [bind]. rewrite IH by lia. cbn [bind]. unfold group_of at 2. rewrite piece_width. reflexivity.
  Qed.

  Lemma unflatten_flatten dyn d flat ws layout : ws <> [] -> length ws = length layout -> all_dense layout ->
    wf flat -> t_dev flat = d -> t_shape flat = [numel dyn; sum_of ws] ->
    exists ts, unflatten_dense flat (mkSpec dyn ws (sum_of ws)) = Ok ts /\ dense_groups dyn d ts ws /\
      flatten_dense ts layout = Ok (flat, mkSpec dyn ws (sum_of ws)).
  Proof.
    intros NE L AD W D E.
    assert (Wd : width flat = sum_of ws) by (unfold width; rewrite E; reflexivity).
    assert (P : part [numel dyn] d flat) by (split; [exact W|]; split; [exact D|]; rewrite Wd; exact E).
    exists (map (group_of dyn) (pieces [numel dyn] d flat 0 ws)).
    destruct (pieces_part [numel dyn] d flat P ws 0) as [Pp Tp]; [fold (sum_of ws); lia|].
    assert (DG : dense_groups dyn d (map (group_of dyn) (pieces [numel dyn] d flat 0 ws)) ws).
    { pose proof (pieces_widths [numel dyn] d flat ws 0) as Ew. unfold dense_groups.
      rewrite <- Ew at 2. clear -Pp. induction Pp as [|p ps Hp _ IH]; [constructor|]. cbn [map]. constructor; [|exact IH].
      destruct (group_of_part dyn d p Hp) as ((Wg & Dg & Eg) & Eww & _). split; [exact Wg|]. split; [exact Dg|].
      rewrite Eww in Eg. exact Eg. }
    split; [|split; [exact DG|]].
    - apply unflatten_pieces; [exact P|]. lia.
    - rewrite (flatten_ok dyn d _ ws layout); auto.
      + do 2 f_equal. unfold flat_of. rewrite map_map.
        replace (map (fun x => as_matrix (numel dyn) (group_of dyn x)) (pieces [numel dyn] d flat 0 ws)) with (pieces [numel dyn] d flat 0 ws).
        * apply joined_pieces; [exact P|]. fold (sum_of ws). lia.
        * clear -Pp. induction Pp as [|p ps Hp _ IH]; [reflexivity|]. cbn [map].
          destruct (group_of_part dyn d p Hp) as (_ & _ & Em). rewrite Em, <- IH. reflexivity.
      + destruct ws; [contradiction|discriminate].
      + rewrite map_length, <- L. rewrite <- (pieces_widths [numel dyn] d flat ws 0) at 2. rewrite map_length. reflexivity.
  Qed.

  (** Where an element is. *)
  Lemma flatten_elements dyn d xs t ys wsx w wsy layout flat spec b c :
    length (xs ++ t :: ys) = length layout -> all_dense layout ->
    dense_groups dyn d (xs ++ t :: ys) (wsx ++ w :: wsy) -> length xs = length wsx ->
    flatten_dense (xs ++ t :: ys) layout = Ok (flat, spec) ->
    index_of dyn b -> c < w ->
    elem flat [ravel dyn b; sum_of wsx + c] = elem t (b ++ [c]).
  Proof.
    intros L AD DG Lx H Hb Hc. destruct (dense_parts dyn d _ _ DG) as [P E].
    assert (NE : xs ++ t :: ys <> []) by (destruct xs; discriminate).
    rewrite (flatten_ok dyn d _ _ layout NE L AD DG) in H.
    assert (Ef : flat = flat_of dyn d (xs ++ t :: ys)) by congruence. clear H. subst flat.
    rewrite map_app in E. cbn [map] in E.
    assert (E1 : map width xs = wsx /\ width t :: map width ys = w :: wsy).
    { clear -E Lx. revert wsx Lx E. induction xs as [|x xs IH]; intros [|u wsx] Lx E; try discriminate; [auto|].
      cbn [map app] in E. injection E as Eu E. cbn in Lx. destruct (IH wsx ltac:(lia) E) as [Ea Eb]. cbn [map]. split; congruence. }
    destruct E1 as [Ex Et]. injection Et as Et _.
    unfold flat_of. rewrite map_app. cbn [map].
    pose proof (matrices_part dyn d _ P) as Pm. rewrite map_app in Pm. cbn [map] in Pm.
    rewrite <- Ex, <- (total_matrix (numel dyn)).
    change [ravel dyn b; total (map (as_matrix (numel dyn)) xs) + c] with ([ravel dyn b] ++ [total (map (as_matrix (numel dyn)) xs) + c]).
    rewrite (joined_elem [numel dyn] d _ (as_matrix (numel dyn) t)); [|exact Pm| |change (c < width t); lia].
    - assert (Pt : part dyn d t) by (apply Forall_app in P as [_ P]; inversion P; assumption).
      destruct Pt as [W [D Es]]. unfold elem. cbn [as_matrix t_data t_shape]. rewrite Es.
      rewrite ravel_app by (apply index_length; exact Hb). cbn [app ravel]. f_equal; try (cbn; lia).
    - constructor; [|constructor]. apply ravel_lt. exact Hb.
  Qed.

  Lemma flatten_block ts layout : (exists g, In g layout /\ gl_structure g = "block"%string) -> exists m, flatten_dense ts layout = Err (Fatal m).
  Proof.
    intros (g & I & B). unfold flatten_dense. destruct (Nat.eqb _ _); cbn [assert_ bind]; [|eauto].
    unfold assert_all_dense. replace (forallb _ layout) with false; [cbn; eauto|].
    symmetry. destruct (forallb _ layout) eqn:F; [|reflexivity]. rewrite forallb_forall in F. specialize (F g I).
    rewrite B in F. discriminate.
  Qed.
End Flat.
