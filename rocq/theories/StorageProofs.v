(** Lemmas for shared parameter storage. *)
From Verif Require Import Base Tensor TensorProofs BatchChunk Spec Dispatch Params SpecParams
  ParamsProofs Storage SpecStorage.

Section P.
  Context {V : Type}.
  Variable dflt : V.
  Notation tens := (tensor V).
  Notation see := (see dflt).
  Notation valued := (valued dflt).
  Notation read := (read dflt).

  (** ** Growing memory *)
  Definition ext (H H' : heap V) : Prop := exists L, H' = H ++ L.

  Lemma ext_refl H : ext H H.
  Proof. exists []. symmetry. apply app_nil_r. Qed.

  Lemma ext_trans H1 H2 H3 : ext H1 H2 -> ext H2 H3 -> ext H1 H3.
  Proof. intros [L ->] [L' ->]. exists (L ++ L'). symmetry. apply app_assoc. Qed.

  Lemma ext_len H H' : ext H H' -> length H <= length H'.
  Proof. intros [L ->]. rewrite app_length. lia. Qed.

  Lemma ext_nth H H' c : ext H H' -> c < length H -> nth c H' [] = nth c H [].
  Proof. intros [L ->] B. apply app_nth1. exact B. Qed.

  Lemma ext_read H H' h : ext H H' -> h_cell h < length H -> read H' h = read H h.
  Proof. intros E B. unfold Storage.read. rewrite (ext_nth H H' _ E B). reflexivity. Qed.

  Definition valid (H : heap V) (m : smap hnd) : Prop :=
    forall k h, In (k, h) m -> h_cell h < length H.

  Lemma valid_ext H H' m : ext H H' -> valid H m -> valid H' m.
  Proof. intros E A k h I. specialize (A k h I). apply ext_len in E. lia. Qed.

  Lemma see_ext H H' m : ext H H' -> valid H m -> see H' m = see H m.
  Proof.
    intros E A. unfold SpecStorage.see. apply map_ext_in. intros [k h] I. cbn.
    rewrite (ext_read H H' h E (A k h I)). reflexivity.
  Qed.

  Lemma read_alloc H d sh c : read (fst (alloc H d sh c)) (snd (alloc H d sh c)) = c.
  Proof.
    cbn. unfold Storage.read. cbn. rewrite nth_middle.
    apply (nth_ext _ _ dflt dflt).
    - rewrite map_length, seq_length. reflexivity.
    - intros i B. rewrite map_length, seq_length in B.
      rewrite (nth_indep _ dflt (nth 0 c dflt)) by (rewrite map_length, seq_length; exact B).
      change (nth 0 c dflt) with ((fun j => nth j c dflt) 0). rewrite map_nth.
      rewrite seq_nth by exact B. reflexivity.
  Qed.

  Lemma alloc_ext (H : heap V) d sh c : ext H (fst (alloc H d sh c)).
  Proof. exists [c]. reflexivity. Qed.

  Lemma alloc_cell (H : heap V) d sh c :
    h_cell (snd (alloc H d sh c)) < length (fst (alloc H d sh c)).
  Proof. cbn. rewrite app_length. cbn. lia. Qed.

  Lemma move_spec d H h H' h' : hmove dflt d H h = (H', h') -> h_cell h < length H ->
    ext H H' /\ h_cell h' < length H' /\ tens_of dflt H' h' = move d (tens_of dflt H h).
  Proof.
    unfold hmove, move, tens_of. cbn [t_dev]. destruct (device_eqb (h_dev h) d); intros E B.
    - injection E as <- <-. split; [apply ext_refl|]. split; [exact B|reflexivity].
    - pose proof (alloc_ext H d (h_shape h) (read H h)) as X.
      pose proof (alloc_cell H d (h_shape h) (read H h)) as Y.
      pose proof (read_alloc H d (h_shape h) (read H h)) as Z.
      rewrite E in X, Y, Z. cbn [fst snd] in X, Y, Z. split; [exact X|]. split; [exact Y|].
      rewrite Z. unfold alloc in E. injection E as _ <-. reflexivity.
  Qed.

  Lemma contiguous_spec H h H' h' : contiguous dflt H h = (H', h') -> h_cell h < length H ->
    ext H H' /\ h_cell h' < length H' /\ tens_of dflt H' h' = tens_of dflt H h.
  Proof.
    unfold contiguous, tens_of. destruct (is_contig h); intros E B.
    - injection E as <- <-. split; [apply ext_refl|]. split; [exact B|reflexivity].
    - pose proof (alloc_ext H (h_dev h) (h_shape h) (read H h)) as X.
      pose proof (alloc_cell H (h_dev h) (h_shape h) (read H h)) as Y.
      pose proof (read_alloc H (h_dev h) (h_shape h) (read H h)) as Z.
      rewrite E in X, Y, Z. cbn [fst snd] in X, Y, Z. split; [exact X|]. split; [exact Y|].
      rewrite Z. unfold alloc in E. injection E as _ <-. reflexivity.
  Qed.

  (** ** Slots *)
  Lemma see_assign H k h m : see H (hassign k h m) = assign_slot k (tens_of dflt H h) (see H m).
  Proof.
    unfold SpecStorage.see, hassign, assign_slot. rewrite !map_map. apply map_ext. intros [j x]. cbn.
    destruct (String.eqb k j); reflexivity.
  Qed.

  Lemma valid_assign (H : heap V) k h m : h_cell h < length H -> valid H m -> valid H (hassign k h m).
  Proof.
    intros B A j x I. unfold hassign in I. apply in_map_iff in I as ([i y] & E & I). cbn in E.
    destruct (String.eqb k i); injection E as <- <-; [exact B|]. exact (A i y I).
  Qed.

  Lemma lookup_see H k m : lookup k (see H m) = option_map (tens_of dflt H) (lookup k m).
  Proof.
    induction m as [|[j h] m IH]; cbn; [reflexivity|]. destruct (String.eqb k j); [reflexivity|exact IH].
  Qed.

  Lemma keys_see H m : keys (see H m) = keys m.
  Proof. unfold keys, SpecStorage.see. rewrite map_map. reflexivity. Qed.

  Lemma store_see H d l :
    store_of d (map (fun dm => (fst dm, see H (snd dm))) l) = option_map (see H) (hstore d l).
  Proof.
    induction l as [|[e m] l IH]; cbn; [reflexivity|]. destruct (device_eqb d e); [reflexivity|exact IH].
  Qed.

  Lemma hstore_in d (l : list (device * smap hnd)) m : hstore d l = Some m -> In (d, m) l.
  Proof.
    induction l as [|[e q] l IH]; cbn; [discriminate|]. destruct (device_eqb d e) eqn:E.
    - apply device_eqb_eq in E. subst e. intros F. injection F as ->. left. reflexivity.
    - intros F. right. apply IH. exact F.
  Qed.

  Lemma hstore_set d (p : smap hnd) l : hstore d (hset_model d p l) = option_map (fun _ => p) (hstore d l).
  Proof.
    induction l as [|[e q] l IH]; cbn; [reflexivity|]. destruct (device_eqb d e) eqn:E; cbn; rewrite E;
      [reflexivity|exact IH].
  Qed.

  (** ** Syncing, in values *)
  Lemma assign_see dev master : forall H dst H' dst' r,
    hassign_params dflt dev H master dst = (H', (dst', r)) -> valid H master -> valid H dst ->
    ext H H' /\ valid H' dst' /\ assign_params dev (see H master) (see H dst) = (see H' dst', r).
  Proof.
    induction master as [|[k v] rest IH]; cbn [hassign_params]; intros H dst H' dst' r E A B.
    - injection E as <- <- <-. split; [apply ext_refl|]. split; [exact B|reflexivity].
    - cbn [SpecStorage.see map fst snd assign_params]. fold (see H rest). rewrite lookup_see.
      destruct (lookup k dst) as [x|].
      + cbn [option_map]. destruct (hmove dflt dev H v) as [H1 v1] eqn:M.
        destruct (move_spec dev H v H1 v1 M (A k v (or_introl eq_refl))) as (X & Y & Z).
        assert (A' : valid H rest) by (intros j h I; apply (A j h); right; exact I).
        destruct (IH H1 (hassign k v1 dst) H' dst' r E (valid_ext _ _ _ X A')
                     (valid_assign _ _ _ _ Y (valid_ext _ _ _ X B))) as (X' & B' & E').
        split; [exact (ext_trans _ _ _ X X')|]. split; [exact B'|].
        rewrite see_assign, Z, (see_ext H H1 rest X A'), (see_ext H H1 dst X B) in E'. exact E'.
      + injection E as <- <- <-. split; [apply ext_refl|]. split; [exact B|reflexivity].
  Qed.

  Definition validl (H : heap V) (l : list (device * smap hnd)) : Prop :=
    forall d m, In (d, m) l -> valid H m.
  Definition seel (H : heap V) (l : list (device * smap hnd)) : list (device * smap tens) :=
    map (fun dm => (fst dm, see H (snd dm))) l.

  Lemma seel_ext H H' l : ext H H' -> validl H l -> seel H' l = seel H l.
  Proof.
    intros E A. unfold seel. apply map_ext_in. intros [d m] I. cbn [fst snd]. rewrite (see_ext H H' m E (A d m I)).
    reflexivity.
  Qed.

  Lemma validl_ext H H' l : ext H H' -> validl H l -> validl H' l.
  Proof. intros E A d m I. exact (valid_ext H H' m E (A d m I)). Qed.

  Lemma sync_see active master l : forall H H' l' r,
    hsync_models dflt active H master l = (H', (l', r)) -> valid H master -> validl H l ->
    ext H H' /\ validl H' l' /\
    sync_models active (see H master) (seel H l) = (seel H' l', r).
  Proof.
    induction l as [|[dev dst] rest IH]; cbn [hsync_models]; intros H H' l' r E A B.
    - injection E as <- <- <-. split; [apply ext_refl|]. split; [exact B|reflexivity].
    - assert (Bd : valid H dst) by (apply (B dev); left; reflexivity).
      assert (Br : validl H rest) by (intros d m I; apply (B d); right; exact I).
      cbn [seel map fst snd sync_models]. fold (seel H rest). destruct (device_eqb dev active).
      + destruct (hsync_models dflt active H master rest) as [H1 [l1 r1]] eqn:F.
        injection E as <- <- <-. destruct (IH H H1 l1 r1 F A Br) as (X & Y & Z).
        split; [exact X|]. split.
        * intros d m [I|I]; [injection I as <- <-; exact (valid_ext _ _ _ X Bd)|exact (Y d m I)].
        * rewrite Z. cbn [seel map fst snd]. rewrite (see_ext H H1 dst X Bd). reflexivity.
      + destruct (hassign_params dflt dev H master dst) as [H1 [d1 r1]] eqn:F.
        destruct (assign_see dev master H dst H1 d1 r1 F A Bd) as (X & Y & Z). rewrite Z.
        destruct r1 as [u|e].
        * destruct (hsync_models dflt active H1 master rest) as [H2 [l2 r2]] eqn:G.
          injection E as <- <- <-.
          destruct (IH H1 H2 l2 r2 G (valid_ext _ _ _ X A) (validl_ext _ _ _ X Br)) as (X' & Y' & Z').
          split; [exact (ext_trans _ _ _ X X')|]. split.
          -- intros d m [I|I]; [injection I as <- <-; exact (valid_ext _ _ _ X' Y)|exact (Y' d m I)].
          -- rewrite (see_ext H H1 master X A), (seel_ext H H1 rest X Br) in Z'. rewrite Z'. cbn [seel map fst snd].
             rewrite (see_ext H1 H2 d1 X' Y). reflexivity.
        * injection E as <- <- <-. split; [exact X|]. split.
          -- intros d m [I|I]; [injection I as <- <-; exact Y|exact (valid_ext _ _ _ X (Br d m I))].
          -- cbn [seel map fst snd]. fold (seel H1 rest). rewrite (seel_ext H H1 rest X Br). reflexivity.
  Qed.

  Lemma sound_validl (s : sdisp V) : sound s <-> validl (sd_heap s) (sd_models s).
  Proof. split; intros A d m; [intros I k h J; exact (A d m k h I J)|intros k h I J; exact (A d m I k h J)]. Qed.

  Lemma valued_models (s : sdisp V) : pd_models (valued s) = seel (sd_heap s) (sd_models s).
  Proof. reflexivity. Qed.

  Lemma hsync_spec (s : sdisp V) : sound s ->
    ext (sd_heap s) (sd_heap (fst (hsync dflt s))) /\ sound (fst (hsync dflt s)) /\
    sync_params (valued s) = (valued (fst (hsync dflt s)), snd (hsync dflt s)).
  Proof.
    intros W. apply sound_validl in W as B. unfold hsync, sync_params. cbn [pd_dirty pd_models pd_active SpecStorage.valued].
    rewrite map_length. destruct (negb (sd_dirty s) || Nat.leb (length (sd_models s)) 1).
    - split; [apply ext_refl|]. split; [exact W|reflexivity].
    - rewrite store_see. destruct (hstore (sd_active s) (sd_models s)) as [master|] eqn:M; cbn [option_map].
      + destruct (hsync_models dflt (sd_active s) (sd_heap s) master (sd_models s)) as [H [l r]] eqn:F.
        destruct (sync_see _ _ _ _ _ _ _ F (B _ _ (hstore_in _ _ _ M)) B) as (X & Y & Z).
        split; [exact X|]. split; [apply sound_validl; exact Y|].
        unfold seel in Z at 1. rewrite Z. reflexivity.
      + split; [apply ext_refl|]. split; [exact W|reflexivity].
  Qed.

  (** ** Steps *)
  Lemma write_length c w (H : heap V) : length (write c w H) = length H.
  Proof. unfold write. rewrite map_length, combine_length, seq_length. lia. Qed.

  Lemma write_nth_gen c w (H : heap V) : forall k i, i < length H ->
    nth i (map (fun ix => if Nat.eqb c (fst ix) then w (snd ix) else snd ix)
               (combine (seq k (length H)) H)) [] =
    if Nat.eqb c (k + i) then w (nth i H []) else nth i H [].
  Proof.
    induction H as [|x H IH]; cbn [length]; intros k i B; [lia|]. destruct i as [|i]; cbn.
    - rewrite Nat.add_0_r. reflexivity.
    - rewrite IH by lia. replace (S k + i) with (k + S i) by lia. reflexivity.
  Qed.

  Lemma write_nth c w (H : heap V) i : i < length H ->
    nth i (write c w H) [] = if Nat.eqb c i then w (nth i H []) else nth i H [].
  Proof. intros B. apply (write_nth_gen c w H 0 i B). Qed.

  Lemma set_model_see H d m l : seel H (hset_model d m l) = set_model d (see H m) (seel H l).
  Proof.
    unfold seel, hset_model, set_model. rewrite !map_map. apply map_ext. intros [e q]. cbn.
    destruct (device_eqb d e); reflexivity.
  Qed.

  Lemma validl_set (H : heap V) d m l : valid H m -> validl H l -> validl H (hset_model d m l).
  Proof.
    intros A B e q I. unfold hset_model in I. apply in_map_iff in I as ([f r] & E & I). cbn in E.
    destruct (device_eqb d f); injection E as <- <-; [exact A|exact (B f r I)].
  Qed.

  Lemma set_model_same d (m : smap tens) l : NoDup (map fst l) -> store_of d l = Some m -> set_model d m l = l.
  Proof.
    intros N S. unfold set_model. rewrite <- (map_id l) at 2. apply map_ext_in. intros [e q] I. cbn.
    destruct (device_eqb d e) eqn:E; [|reflexivity]. apply device_eqb_eq in E. subst e.
    rewrite (store_of_nodup d l q N I) in S. injection S as ->. reflexivity.
  Qed.

  Lemma step_sound (s : sdisp V) o : sound s -> sound (sstep dflt s o).
  Proof.
    intros W. apply sound_validl in W as B. unfold sstep.
    destruct (hstore (sd_active s) (sd_models s)) as [master|] eqn:M; [|exact W].
    pose proof (B _ _ (hstore_in _ _ _ M)) as A.
    destruct o as [d sh c|c w|n h|n h| |].
    - apply sound_validl. exact (validl_ext _ _ _ (alloc_ext (sd_heap s) d sh c) B).
    - intros d m k h I J. cbn in *. rewrite write_length. exact (W d m k h I J).
    - destruct (exists_ (sd_heap s) h) eqn:X; [|exact W]. apply Nat.ltb_lt in X.
      destruct (lookup n master); [|exact W]. destruct (contiguous dflt (sd_heap s) h) as [H h'] eqn:C.
      destruct (contiguous_spec _ _ _ _ C X) as (E & Y & _). apply sound_validl. cbn.
      apply validl_set; [|exact (validl_ext _ _ _ E B)].
      apply valid_assign; [exact Y|exact (valid_ext _ _ _ E A)].
    - destruct (exists_ (sd_heap s) h) eqn:X; [|exact W]. apply Nat.ltb_lt in X.
      apply sound_validl. cbn. apply validl_set; [apply valid_assign; [exact X|exact A]|exact B].
    - exact W.
    - exact (proj1 (proj2 (hsync_spec s W))).
  Qed.

  Lemma run_sound h : forall s : sdisp V, sound s -> sound (srun dflt s h).
  Proof. induction h as [|o h IH]; intros s W; [exact W|]. apply IH. apply step_sound. exact W. Qed.

  (** A step that is not a write is a step of [Params] on the values. *)
  Lemma step_valued (s : sdisp V) o : sound s -> shape_ok (valued s) -> (forall c w, o <> SWrite c w) ->
    valued (sstep dflt s o) = prun (valued s) (by_value dflt s [o]).
  Proof.
    intros W Sh Nw. apply sound_validl in W as B.
    destruct (visible_some (valued s) Sh) as [m Vm]. unfold visible in Vm. pose proof Vm as Vm'.
    cbn [SpecStorage.valued pd_active pd_models] in Vm'. rewrite store_see in Vm'.
    unfold sstep. destruct (hstore (sd_active s) (sd_models s)) as [master|] eqn:M; [|discriminate].
    cbn in Vm'. injection Vm' as Em.
    pose proof (B _ _ (hstore_in _ _ _ M)) as A.
    destruct o as [d sh c|c w|n h|n h| |]; cbn [by_value app prun fold_left].
    - unfold SpecStorage.valued. cbn [sd_heap sd_models sd_active sd_dirty]. f_equal.
      exact (seel_ext _ _ _ (alloc_ext (sd_heap s) d sh c) B).
    - destruct (Nw c w eq_refl).
    - unfold exists_. destruct (Nat.ltb (h_cell h) (length (sd_heap s))) eqn:X; [|reflexivity].
      cbn [app prun fold_left]. unfold pstep_. rewrite Vm, <- Em, lookup_see.
      apply Nat.ltb_lt in X. destruct (lookup n master) as [y|]; [|reflexivity]. cbn [option_map].
      destruct (contiguous dflt (sd_heap s) h) as [H h'] eqn:C.
      destruct (contiguous_spec _ _ _ _ C X) as (E & Y & Z).
      change (mkPD (seel H (hset_model (sd_active s) (hassign n h' master) (sd_models s))) (sd_active s) true =
              mkPD (set_model (sd_active s) (assign_slot n (tens_of dflt (sd_heap s) h) (see (sd_heap s) master))
                      (seel (sd_heap s) (sd_models s))) (sd_active s) true).
      rewrite set_model_see, see_assign, Z, (see_ext _ _ _ E A), (seel_ext _ _ _ E B). reflexivity.
    - unfold exists_. destruct (Nat.ltb (h_cell h) (length (sd_heap s))) eqn:X; [|reflexivity].
      cbn [app prun fold_left]. unfold pstep_. rewrite Vm, <- Em.
      change (mkPD (seel (sd_heap s) (hset_model (sd_active s) (hassign n h master) (sd_models s))) (sd_active s) true =
              mkPD (set_model (sd_active s) (assign_slot n (tens_of dflt (sd_heap s) h) (see (sd_heap s) master))
                      (seel (sd_heap s) (sd_models s))) (sd_active s) true).
      rewrite set_model_see, see_assign. reflexivity.
    - unfold pstep_. rewrite Vm.
      change (mkPD (seel (sd_heap s) (sd_models s)) (sd_active s) true =
              mkPD (set_model (sd_active s) m (seel (sd_heap s) (sd_models s))) (sd_active s) true).
      rewrite set_model_same; [reflexivity|exact (proj1 Sh)|exact Vm].
    - unfold pstep_. rewrite Vm. rewrite (proj2 (proj2 (hsync_spec s W))). reflexivity.
  Qed.

  Lemma prun_app (s : pdisp (V := V)) a b : prun s (a ++ b) = prun (prun s a) b.
  Proof. unfold prun. apply fold_left_app. Qed.

  Lemma shape_valued_step (s : sdisp V) o : sound s -> shape_ok (valued s) -> shape_ok (valued (sstep dflt s o)).
  Proof.
    intros W Sh.
    assert (G : (forall c w, o <> SWrite c w) -> shape_ok (valued (sstep dflt s o))).
    { intros Nw. rewrite (step_valued s o W Sh Nw). generalize (by_value dflt s [o]). intros l. revert Sh.
      generalize (valued s). induction l as [|x l IH]; intros p Sh; [exact Sh|]. cbn. apply IH.
      destruct (step_shape p x) as [E1 E2]. unfold shape_ok. rewrite E1, E2. exact Sh. }
    destruct o; try (apply G; discriminate). clear G. unfold sstep.
    destruct (hstore _ _); [|exact Sh]. unfold shape_ok, devices_of in *. cbn in *.
    rewrite map_map in *. exact Sh.
  Qed.

  Lemma run_valued h : forall s : sdisp V, sound s -> shape_ok (valued s) -> no_write h ->
    valued (srun dflt s h) = prun (valued s) (by_value dflt s h).
  Proof.
    induction h as [|o h IH]; intros s W Sh Nw; [reflexivity|].
    assert (No : forall c w, o <> SWrite c w) by (intros c w ->; apply (Nw c w); left; reflexivity).
    change (valued (srun dflt (sstep dflt s o) h) = prun (valued s) (by_value dflt s (o :: h))).
    rewrite IH.
    - rewrite (step_valued s o W Sh No). rewrite <- prun_app. f_equal.
      cbn [by_value]. rewrite app_nil_r. reflexivity.
    - apply step_sound. exact W.
    - apply shape_valued_step; assumption.
    - intros c w I. apply (Nw c w). right. exact I.
  Qed.

  (** ** What is in a storage *)
  Lemma step_heap (s : sdisp V) o c : sound s -> c < length (sd_heap s) -> (exists m, hstore (sd_active s) (sd_models s) = Some m) ->
    c < length (sd_heap (sstep dflt s o)) /\
    nth c (sd_heap (sstep dflt s o)) [] = written c [o] (nth c (sd_heap s) []).
  Proof.
    intros W B [master M].
    assert (G : forall H, ext (sd_heap s) H -> c < length H /\ nth c H [] = nth c (sd_heap s) []).
    { intros H E. split; [apply ext_len in E; lia|exact (ext_nth _ _ _ E B)]. }
    unfold sstep. rewrite M. destruct o as [d sh x|c' w|n h|n h| |]; cbn [written].
    - apply G. apply alloc_ext.
    - cbn. rewrite write_length, write_nth by exact B. rewrite (Nat.eqb_sym c' c). split; [exact B|reflexivity].
    - destruct (exists_ (sd_heap s) h) eqn:X; [|apply G; apply ext_refl]. apply Nat.ltb_lt in X.
      destruct (lookup n master); [|apply G; apply ext_refl].
      destruct (contiguous dflt (sd_heap s) h) as [H h'] eqn:C. apply G.
      exact (proj1 (contiguous_spec _ _ _ _ C X)).
    - destruct (exists_ (sd_heap s) h); apply G; apply ext_refl.
    - apply G, ext_refl.
    - apply G. exact (proj1 (hsync_spec s W)).
  Qed.

  Lemma written_cons c o h (x : list V) : written c (o :: h) x = written c h (written c [o] x).
  Proof. destruct o; reflexivity. Qed.

  Lemma shape_master (s : sdisp V) : shape_ok (valued s) -> exists m, hstore (sd_active s) (sd_models s) = Some m.
  Proof.
    intros Sh. destruct (visible_some (valued s) Sh) as [m Vm]. unfold visible in Vm. cbn in Vm.
    rewrite store_see in Vm. destruct (hstore _ _) as [x|]; [exists x; reflexivity|discriminate].
  Qed.

  Lemma run_heap h : forall (s : sdisp V) c, sound s -> shape_ok (valued s) -> c < length (sd_heap s) ->
    c < length (sd_heap (srun dflt s h)) /\
    nth c (sd_heap (srun dflt s h)) [] = written c h (nth c (sd_heap s) []).
  Proof.
    induction h as [|o h IH]; intros s c W Sh B; [split; [exact B|reflexivity]|].
    destruct (step_heap s o c W B (shape_master s Sh)) as [B' E].
    destruct (IH (sstep dflt s o) c (step_sound s o W) (shape_valued_step s o W Sh) B') as [B2 E2].
    split; [exact B2|]. rewrite written_cons, <- E. exact E2.
  Qed.

  (** ** Slots *)
  Lemma lookup_hassign j k (h : hnd) m :
    lookup j (hassign k h m) =
    if String.eqb k j then option_map (fun _ => h) (lookup j m) else lookup j m.
  Proof.
    induction m as [|[i x] m IH]; cbn; [destruct (String.eqb k j); reflexivity|].
    destruct (String.eqb k i) eqn:E; cbn; destruct (String.eqb j i) eqn:F.
    - apply String.eqb_eq in F. subst i. rewrite E. reflexivity.
    - exact IH.
    - apply String.eqb_eq in F. subst i. rewrite E. reflexivity.
    - exact IH.
  Qed.

  Lemma hsync_active active master l : forall H,
    hstore active (fst (snd (hsync_models dflt active H master l))) = hstore active l.
  Proof.
    induction l as [|[e q] l IH]; intros H; cbn; [reflexivity|].
    destruct (device_eqb e active) eqn:E.
    - apply device_eqb_eq in E. subst e.
      destruct (hsync_models dflt active H master l) as [H' [l' r]]. cbn. rewrite device_eqb_refl. reflexivity.
    - assert (E' : device_eqb active e = false).
      { apply not_true_is_false. intros F. apply device_eqb_eq in F. subst.
        rewrite device_eqb_refl in E. discriminate. }
      destruct (hassign_params dflt e H master q) as [H1 [q' [u|x]]].
      + specialize (IH H1). destruct (hsync_models dflt active H1 master l) as [H2 [l' r]]. cbn in *.
        rewrite E'. exact IH.
      + cbn. rewrite E'. reflexivity.
  Qed.

  Lemma slot_step (s : sdisp V) o n : (forall x, o <> SSet n x /\ o <> SAssign n x) ->
    slot (sstep dflt s o) n = slot s n.
  Proof.
    intros K. unfold sstep. destruct (hstore (sd_active s) (sd_models s)) as [master|] eqn:M; [|reflexivity].
    assert (G : forall H k h b, k <> n ->
      slot (mkSD H (hset_model (sd_active s) (hassign k h master) (sd_models s)) (sd_active s) b : sdisp V) n = slot s n).
    { intros H k h b D. unfold slot. cbn. rewrite hstore_set, M. cbn. rewrite lookup_hassign.
      apply String.eqb_neq in D. rewrite D. reflexivity. }
    destruct o as [d sh x|c' w|k h|k h| |]; try reflexivity.
    - destruct (exists_ _ h); [|reflexivity]. destruct (lookup k master); [|reflexivity].
      destruct (contiguous dflt (sd_heap s) h) as [H h']. apply G. intros ->. apply (proj1 (K h)). reflexivity.
    - destruct (exists_ _ h); [|reflexivity]. apply G. intros ->. apply (proj2 (K h)). reflexivity.
    - unfold hsync. destruct (negb _ || _); [reflexivity|]. rewrite M.
      pose proof (hsync_active (sd_active s) master (sd_models s) (sd_heap s)) as A.
      destruct (hsync_models dflt (sd_active s) (sd_heap s) master (sd_models s)) as [H [l r]].
      unfold slot. cbn in *. rewrite A. reflexivity.
  Qed.

  Lemma slot_run h : forall (s : sdisp V) n, keeps_slot n h -> slot (srun dflt s h) n = slot s n.
  Proof.
    induction h as [|o h IH]; intros s n K; [reflexivity|].
    change (slot (srun dflt (sstep dflt s o) h) n = slot s n). rewrite IH.
    - apply slot_step. intros x. destruct (K x) as [A B]. split; intros ->; [apply A|apply B]; left; reflexivity.
    - intros x. destruct (K x) as [A B]. split; intros I; [apply A|apply B]; right; exact I.
  Qed.

  Lemma visible_slot (s : sdisp V) n m : visible (valued s) = Some m ->
    lookup n m = option_map (tens_of dflt (sd_heap s)) (slot s n).
  Proof.
    unfold visible, slot. cbn. rewrite store_see. destruct (hstore _ _) as [x|]; [|discriminate].
    cbn. intros E. injection E as <-. apply lookup_see.
  Qed.

  Lemma slot_cell (s : sdisp V) n h : sound s -> slot s n = Some h -> h_cell h < length (sd_heap s).
  Proof.
    intros W. unfold slot. destruct (hstore _ _) as [m|] eqn:M; [|discriminate]. intros L.
    apply hstore_in in M. apply (W _ _ n h M). clear - L. induction m as [|[k x] m IH]; cbn in *; [discriminate|].
    destruct (String.eqb n k) eqn:E; [|right; apply IH; exact L].
    apply String.eqb_eq in E. subst k. injection L as ->. left. reflexivity.
  Qed.

  Lemma run_shape h : forall s : sdisp V, sound s -> shape_ok (valued s) -> shape_ok (valued (srun dflt s h)).
  Proof.
    induction h as [|o h IH]; intros s W Sh; [exact Sh|]. apply IH; [apply step_sound|apply shape_valued_step]; assumption.
  Qed.

  (** The value a parameter has after a history that keeps its tensor. *)
  Lemma value_run (s : sdisp V) n x h m : sound s -> shape_ok (valued s) ->
    slot s n = Some x -> keeps_slot n h -> visible (valued (srun dflt s h)) = Some m ->
    lookup n m = Some (mkT (h_shape x)
      (map (fun i => nth i (written (h_cell x) h (nth (h_cell x) (sd_heap s) [])) dflt) (h_idx x)) (h_dev x)).
  Proof.
    intros W Sh S K Vm. rewrite (visible_slot _ n m Vm), (slot_run h s n K), S. cbn. f_equal.
    unfold tens_of, Storage.read. destruct (run_heap h s _ W Sh (slot_cell s n x W S)) as [_ E].
    rewrite E. reflexivity.
  Qed.

  (** ** Setting *)
  Lemma set_slot (s : sdisp V) n x y : h_cell x < length (sd_heap s) -> slot s n = Some y ->
    slot (sstep dflt s (SSet n x)) n = Some (snd (contiguous dflt (sd_heap s) x)) /\
    sd_heap (sstep dflt s (SSet n x)) = fst (contiguous dflt (sd_heap s) x).
  Proof.
    intros B S. unfold slot in S. unfold sstep. destruct (hstore (sd_active s) (sd_models s)) as [master|] eqn:M; [|discriminate].
    unfold exists_. apply Nat.ltb_lt in B. rewrite B, S.
    destruct (contiguous dflt (sd_heap s) x) as [H h']. split; [|reflexivity].
    unfold slot. cbn. rewrite hstore_set, M. cbn. rewrite lookup_hassign, String.eqb_refl, S. reflexivity.
  Qed.

  (** ** The copies *)
  Definition keyed (s : sdisp V) : Prop := forall m, visible (valued s) = Some m -> NoDup (keys m).

  Lemma keys_hassign k (h : hnd) m : keys (hassign k h m) = keys m.
  Proof.
    unfold keys, hassign. rewrite map_map. apply map_ext. intros [j x]. cbn. destruct (String.eqb k j); reflexivity.
  Qed.

  Lemma step_master_keys (s : sdisp V) o :
    option_map keys (hstore (sd_active (sstep dflt s o)) (sd_models (sstep dflt s o))) =
    option_map keys (hstore (sd_active s) (sd_models s)).
  Proof.
    unfold sstep. destruct (hstore (sd_active s) (sd_models s)) as [master|] eqn:M; [|rewrite M; reflexivity].
    assert (G : forall k h, option_map keys (hstore (sd_active s)
                  (hset_model (sd_active s) (hassign k h master) (sd_models s))) = Some (keys master)).
    { intros k h. rewrite hstore_set, M. cbn [option_map]. rewrite keys_hassign. reflexivity. }
    destruct o as [d sh x|c' w|k h|k h| |]; cbn [sd_active sd_models]; try (rewrite M; reflexivity).
    - destruct (exists_ _ h); [|rewrite M; reflexivity]. destruct (lookup k master); [|rewrite M; reflexivity].
      destruct (contiguous dflt (sd_heap s) h) as [H h']. apply G.
    - destruct (exists_ _ h); [|rewrite M; reflexivity]. apply G.
    - unfold hsync. destruct (negb _ || _); cbn [fst sd_active sd_models]; [rewrite M; reflexivity|]. rewrite M.
      pose proof (hsync_active (sd_active s) master (sd_models s) (sd_heap s)) as A.
      destruct (hsync_models dflt (sd_active s) (sd_heap s) master (sd_models s)) as [H [l r]].
      cbn in *. rewrite A, M. reflexivity.
  Qed.

  Lemma keyed_master (s : sdisp V) : keyed s <-> forall K, option_map keys (hstore (sd_active s) (sd_models s)) = Some K -> NoDup K.
  Proof.
    unfold keyed, visible. cbn [SpecStorage.valued pd_active pd_models]. rewrite store_see. destruct (hstore _ _) as [m|]; cbn [option_map]; split; intros A x E; try discriminate.
    - injection E as <-. rewrite <- (keys_see (sd_heap s)). apply A. reflexivity.
    - injection E as <-. rewrite keys_see. apply A. reflexivity.
  Qed.

  Lemma step_keyed (s : sdisp V) o : keyed s -> keyed (sstep dflt s o).
  Proof. intros N. apply keyed_master. rewrite step_master_keys. apply keyed_master. exact N. Qed.

  Lemma by_value_ok (s : sdisp V) o :
    keeps_map (by_value dflt s [o]) /\ no_late (by_value dflt s [o]).
  Proof.
    cbn [by_value]. rewrite app_nil_r. split.
    - intros f I m N. destruct o as [d sh c|c w|n h|n h| |]; try contradiction.
      + destruct (Nat.ltb (h_cell h) (length (sd_heap s))); [|contradiction]. destruct I as [I|[]]. discriminate.
      + destruct (Nat.ltb (h_cell h) (length (sd_heap s))); [|contradiction]. destruct I as [I|[]]. injection I as <-.
        rewrite keys_assign_slot. exact N.
      + destruct I as [I|[]]. injection I as <-. exact N.
      + destruct I as [I|[]]. discriminate.
    - intros f I. destruct o as [d sh c|c w|n h|n h| |]; try contradiction.
      + destruct (Nat.ltb (h_cell h) (length (sd_heap s))); [|contradiction]. destruct I as [I|[]]. discriminate.
      + destruct (Nat.ltb (h_cell h) (length (sd_heap s))); [|contradiction]. destruct I as [I|[]]. discriminate.
      + destruct I as [I|[]]. discriminate.
      + destruct I as [I|[]]. discriminate.
  Qed.

  Lemma pending_run h : forall (s : sdisp V) (pend : bool), sound s -> shape_ok (valued s) -> keyed s ->
    (pend = false -> clean_inv (valued s)) -> announced pend h = true -> clean_inv (valued (srun dflt s h)).
  Proof.
    induction h as [|o h IH]; intros s pend W Sh N C An.
    - cbn in An. apply negb_true_iff in An. exact (C An).
    - change (clean_inv (valued (srun dflt (sstep dflt s o) h))).
      assert (G : (forall c w, o <> SWrite c w) -> clean_inv (valued s) -> clean_inv (valued (sstep dflt s o))).
      { intros Nw I. rewrite (step_valued s o W Sh Nw). destruct (by_value_ok s o) as [K L].
        apply prun_clean; assumption. }
      pose proof (step_sound s o W) as W'. pose proof (shape_valued_step s o W Sh) as Sh'.
      pose proof (step_keyed s o N) as N'.
      destruct o as [d sh x|c w|k y|k y| |]; cbn [announced] in An.
      + apply (IH _ pend); try assumption. intros E. apply G; [discriminate|]. exact (C E).
      + apply (IH _ true); try assumption. discriminate.
      + apply (IH _ pend); try assumption. intros E. apply G; [discriminate|]. exact (C E).
      + apply (IH _ pend); try assumption. intros E. apply G; [discriminate|]. exact (C E).
      + apply (IH _ false); try assumption. intros _. split; [exact Sh'|]. split; [exact N'|].
        intros D. exfalso. revert D. unfold sstep. destruct (shape_master s Sh) as [q ->]. cbn. discriminate.
      + apply andb_true_iff in An as [E An]. apply negb_true_iff in E.
        apply (IH _ false); try assumption. intros _. apply G; [discriminate|]. exact (C E).
  Qed.

  (** ** A dispatcher just loaded *)
  Lemma load_map_spec d P : forall H, 
    ext H (fst (load_map d H P)) /\ length (fst (load_map d H P)) = length H + length P /\
    valid (fst (load_map d H P)) (snd (load_map d H P)) /\
    map (fun kh => h_cell (snd kh)) (snd (load_map d H P)) = seq (length H) (length P) /\
    see (fst (load_map d H P)) (snd (load_map d H P)) = on_dev d P.
  Proof.
    induction P as [|[k t] P IH]; intros H.
    - cbn. split; [apply ext_refl|]. split; [lia|]. split; [intros ? ? []|]. split; reflexivity.
    - cbn [load_map]. destruct (alloc H d (t_shape t) (t_data t)) as [H1 h] eqn:A.
      pose proof (alloc_ext H d (t_shape t) (t_data t)) as X.
      pose proof (alloc_cell H d (t_shape t) (t_data t)) as Y.
      pose proof (read_alloc H d (t_shape t) (t_data t)) as Z. rewrite A in X, Y, Z. cbn [fst snd] in X, Y, Z.
      assert (L1 : length H1 = S (length H)).
      { unfold alloc in A. injection A as <- _. rewrite app_length. cbn. lia. }
      destruct (IH H1) as (E1 & E2 & E3 & E4 & E5).
      destruct (load_map d H1 P) as [H2 m]. cbn [fst snd] in *.
      split; [exact (ext_trans _ _ _ X E1)|]. split; [cbn [length]; lia|]. split; [|split].
      + intros j x [I|I]; [|exact (E3 j x I)]. injection I as <- <-. apply ext_len in E1. lia.
      + cbn [map length seq snd]. rewrite E4, L1. f_equal. unfold alloc in A. injection A as _ <-. reflexivity.
      + cbn [SpecStorage.see map fst snd]. fold (see H2 m). rewrite E5. unfold on_dev, vmap_. cbn [map fst snd]. f_equal.
        rewrite (ext_read H1 H2 h E1 Y), Z. unfold alloc in A. injection A as _ <-. reflexivity.
  Qed.

  Lemma load_models_spec P ds : forall H,
    ext H (fst (load_models ds H P)) /\
    length (fst (load_models ds H P)) = length H + length ds * length P /\
    validl (fst (load_models ds H P)) (snd (load_models ds H P)) /\
    flat_map (fun dm => map (fun kh => h_cell (snd kh)) (snd dm)) (snd (load_models ds H P)) =
      seq (length H) (length ds * length P) /\
    seel (fst (load_models ds H P)) (snd (load_models ds H P)) = map (fun d => (d, on_dev d P)) ds.
  Proof.
    induction ds as [|d ds IH]; intros H.
    - cbn. split; [apply ext_refl|]. split; [lia|]. split; [intros ? ? []|]. split; reflexivity.
    - cbn [load_models]. destruct (load_map_spec d P H) as (A1 & A2 & A3 & A4 & A5).
      destruct (load_map d H P) as [H1 m]. cbn [fst snd] in *.
      destruct (IH H1) as (E1 & E2 & E3 & E4 & E5).
      destruct (load_models ds H1 P) as [H2 l]. cbn [fst snd] in *.
      split; [exact (ext_trans _ _ _ A1 E1)|]. split; [cbn [length]; lia|]. split; [|split].
      + intros e q [I|I]; [injection I as <- <-; exact (valid_ext _ _ _ E1 A3)|exact (E3 e q I)].
      + cbn [flat_map snd length]. rewrite A4, E4, A2. cbn [Nat.mul]. symmetry. apply seq_app.
      + cbn [seel map fst snd]. fold (seel H2 l). rewrite E5, (see_ext _ _ _ E1 A3), A5. reflexivity.
  Qed.

  Lemma load_sound (H : heap V) d ds (P : smap tens) : sound (load_disp H d ds P).
  Proof.
    apply sound_validl. unfold load_disp. destruct (load_models_spec P (d :: ds) H) as (_ & _ & E & _).
    destruct (load_models (d :: ds) H P) as [H' l]. exact E.
  Qed.

  Lemma load_valued (H : heap V) d ds (P : smap tens) :
    valued (load_disp H d ds P) = mkPD (map (fun e => (e, on_dev e P)) (d :: ds)) d false.
  Proof.
    unfold load_disp. destruct (load_models_spec P (d :: ds) H) as (_ & _ & _ & _ & E).
    destruct (load_models (d :: ds) H P) as [H' l]. cbn [fst snd] in E.
    unfold SpecStorage.valued. cbn [sd_heap sd_models sd_active sd_dirty].
    fold (seel H' l). rewrite E. reflexivity.
  Qed.

  Lemma load_fresh (H : heap V) d ds (P : smap tens) : NoDup (d :: ds) -> NoDup (keys P) -> all_on d P ->
    fresh_disp (valued (load_disp H d ds P)) P.
  Proof.
    intros N K On. rewrite load_valued. unfold fresh_disp, devices_of. cbn [pd_models pd_active].
    rewrite map_map. cbn [fst]. rewrite map_id. split; [exact N|]. split; [left; reflexivity|].
    split; [exact K|]. split; [|exact On]. intros e p I. apply in_map_iff in I as (x & E & _).
    injection E as <- <-. reflexivity.
  Qed.

  Lemma load_cells (H : heap V) d ds (P : smap tens) : cells (load_disp H d ds P) = seq (length H) (S (length ds) * length P).
  Proof.
    unfold cells, load_disp. destruct (load_models_spec P (d :: ds) H) as (_ & _ & _ & E & _).
    destruct (load_models (d :: ds) H P) as [H' l]. exact E.
  Qed.

  (** ** The statements *)
  Lemma fresh_keyed (s : sdisp V) P : fresh_disp (valued s) P -> keyed s.
  Proof. intros F. exact (proj1 (proj2 (fresh_clean _ _ F))). Qed.

  Lemma announced_up_to_date (s : sdisp V) P h : sound s -> fresh_disp (valued s) P -> announced false h = true ->
    snd (hsync dflt (srun dflt s h)) = Ok tt ->
    forall d, up_to_date (valued (fst (hsync dflt (srun dflt s h)))) d.
  Proof.
    intros W F An R. pose proof (fresh_clean _ _ F) as C. pose proof (proj1 C) as Sh.
    pose proof (pending_run h s false W Sh (fresh_keyed s P F) (fun _ => C) An) as I.
    pose proof (hsync_spec _ (run_sound h s W)) as (_ & _ & E).
    assert (R' : snd (sync_params (valued (srun dflt s h))) = Ok tt) by (rewrite E; exact R).
    destruct (sync_up_to_date _ I R') as [(_ & _ & U) D].
    rewrite E in U, D. cbn [fst] in U, D. apply U. exact D.
  Qed.

  Lemma lookup_in {T} k (m : smap T) v : lookup k m = Some v -> In (k, v) m.
  Proof.
    induction m as [|[j x] m IH]; cbn; [discriminate|]. destruct (String.eqb k j) eqn:E.
    - apply String.eqb_eq in E. subst j. intros F. injection F as ->. left. reflexivity.
    - intros F. right. apply IH. exact F.
  Qed.

  Lemma nodup_cells_inj (m : smap hnd) j k x y : NoDup (map (fun kh => h_cell (snd kh)) m) ->
    In (j, x) m -> In (k, y) m -> h_cell x = h_cell y -> j = k.
  Proof.
    induction m as [|[i z] m IH]; cbn; intros N I J E; [contradiction|]. apply NoDup_cons_iff in N as [Ni N].
    destruct I as [I|I]; destruct J as [J|J].
    - congruence.
    - injection I as -> ->. exfalso. apply Ni. rewrite E.
      exact (in_map (fun kh : string * hnd => h_cell (snd kh)) m (k, y) J).
    - injection J as -> ->. exfalso. apply Ni. rewrite <- E.
      exact (in_map (fun kh : string * hnd => h_cell (snd kh)) m (j, x) I).
    - exact (IH N I J E).
  Qed.

  Lemma load_slots (H : heap V) d ds (P : smap tens) n k x y :
    slot (load_disp H d ds P) n = Some x -> slot (load_disp H d ds P) k = Some y -> n <> k ->
    h_cell x <> h_cell y.
  Proof.
    intros Sx Sy D E. apply D. pose proof (load_cells H d ds P) as C.
    unfold load_disp in Sx, Sy, C. cbn [load_models] in Sx, Sy, C.
    destruct (load_map d H P) as [H1 m]. destruct (load_models ds H1 P) as [H2 l].
    unfold slot in Sx, Sy. cbn [sd_active sd_models hstore] in Sx, Sy. rewrite device_eqb_refl in Sx, Sy.
    apply lookup_in in Sx. apply lookup_in in Sy.
    apply (nodup_cells_inj m n k x y); try assumption.
    unfold cells in C. cbn [sd_models flat_map snd] in C.
    pose proof (seq_NoDup (S (length ds) * length P) (length H)) as N. rewrite <- C in N.
    clear - N. induction (map (fun kh : string * hnd => h_cell (snd kh)) m) as [|a q IH]; [constructor|].
    cbn in N. apply NoDup_cons_iff in N as [A B]. constructor; [|exact (IH B)].
    intros I. apply A. apply in_or_app. left. exact I.
  Qed.

  Lemma written_other c h (x : list V) : (forall c' w, In (SWrite c' w) h -> c' <> c) -> written c h x = x.
  Proof.
    revert x. induction h as [|o h IH]; intros x A; [reflexivity|]. rewrite written_cons, IH.
    - destruct o; try reflexivity. cbn. destruct (Nat.eqb c c0) eqn:E; [|reflexivity].
      apply Nat.eqb_eq in E. subst c0. exfalso. apply (A c w); [left; reflexivity|reflexivity].
    - intros c' w I. apply (A c' w). right. exact I.
  Qed.

  Lemma load_shape (H : heap V) d ds (P : smap tens) : NoDup (d :: ds) -> shape_ok (valued (load_disp H d ds P)).
  Proof.
    intros N. rewrite load_valued. unfold shape_ok, devices_of. cbn [pd_models pd_active]. rewrite map_map. cbn [fst].
    rewrite map_id. split; [exact N|left; reflexivity].
  Qed.

  Lemma srun_app (s : sdisp V) a b : srun dflt s (a ++ b) = srun dflt (srun dflt s a) b.
  Proof. unfold srun. apply fold_left_app. Qed.

  (** The value of a parameter, from loading. *)
  Lemma loaded_value (H : heap V) d ds (P : smap tens) h1 h2 n x m : NoDup (d :: ds) ->
    slot (srun dflt (load_disp H d ds P) h1) n = Some x -> keeps_slot n h2 ->
    visible (valued (srun dflt (load_disp H d ds P) (h1 ++ h2))) = Some m ->
    lookup n m = Some (mkT (h_shape x)
      (map (fun i => nth i (written (h_cell x) h2 (nth (h_cell x) (sd_heap (srun dflt (load_disp H d ds P) h1)) []))
                         dflt) (h_idx x)) (h_dev x)).
  Proof.
    intros N S K Vm. rewrite srun_app in Vm.
    refine (value_run _ n x h2 m _ _ S K Vm).
    - apply run_sound, load_sound.
    - apply run_shape; [apply load_sound|apply load_shape; exact N].
  Qed.

  Lemma loaded_isolated (H : heap V) d ds (P : smap tens) n k x y h m : NoDup (d :: ds) ->
    slot (load_disp H d ds P) n = Some x -> slot (load_disp H d ds P) k = Some y -> n <> k ->
    keeps_slot k h -> (forall c w, In (SWrite c w) h -> c = h_cell x) ->
    visible (valued (srun dflt (load_disp H d ds P) h)) = Some m ->
    lookup k m = lookup k (on_dev d P).
  Proof.
    intros N Sx Sy D K Wr Vm.
    pose proof (load_slots H d ds P n k x y Sx Sy D) as C.
    rewrite (value_run _ k y h m (load_sound H d ds P) (load_shape H d ds P N) Sy K Vm).
    rewrite written_other by (intros c w I E; apply C; rewrite <- E; symmetry; exact (Wr c w I)).
    assert (Vi : visible (valued (load_disp H d ds P)) = Some (on_dev d P)).
    { rewrite load_valued. unfold visible. cbn. rewrite device_eqb_refl. reflexivity. }
    rewrite (visible_slot _ k _ Vi), Sy. reflexivity.
  Qed.

  Lemma set_shares (H : heap V) d ds (P : smap tens) h1 h2 n x y m : NoDup (d :: ds) ->
    let s := srun dflt (load_disp H d ds P) h1 in
    h_cell x < length (sd_heap s) -> slot s n = Some y -> is_contig x = true -> keeps_slot n h2 ->
    visible (valued (srun dflt s (SSet n x :: h2))) = Some m ->
    lookup n m = Some (mkT (h_shape x)
      (map (fun i => nth i (written (h_cell x) h2 (nth (h_cell x) (sd_heap s) [])) dflt) (h_idx x)) (h_dev x)).
  Proof.
    intros N s B S C K Vm. destruct (set_slot s n x y B S) as [E1 E2].
    unfold contiguous in E1, E2. rewrite C in E1, E2. cbn [fst snd] in E1, E2. rewrite <- E2.
    refine (value_run _ n x h2 m _ _ E1 K Vm).
    - apply step_sound, run_sound, load_sound.
    - apply shape_valued_step; [apply run_sound, load_sound|].
      apply run_shape; [apply load_sound|apply load_shape; exact N].
  Qed.

  Lemma set_copies (H : heap V) d ds (P : smap tens) h1 h2 n x y m : NoDup (d :: ds) ->
    let s := srun dflt (load_disp H d ds P) h1 in
    h_cell x < length (sd_heap s) -> slot s n = Some y -> is_contig x = false -> keeps_slot n h2 ->
    (forall c w, In (SWrite c w) h2 -> c <> length (sd_heap s)) ->
    visible (valued (srun dflt s (SSet n x :: h2))) = Some m ->
    lookup n m = Some (mkT (h_shape x) (read (sd_heap s) x) (h_dev x)).
  Proof.
    intros N s B S C K Wr Vm. destruct (set_slot s n x y B S) as [E1 E2].
    unfold contiguous in E1, E2. rewrite C in E1, E2.
    pose proof (read_alloc (sd_heap s) (h_dev x) (h_shape x) (read (sd_heap s) x)) as Z.
    refine (eq_trans (value_run _ n _ h2 m _ _ E1 K Vm) _).
    - apply step_sound, run_sound, load_sound.
    - apply shape_valued_step; [apply run_sound, load_sound|].
      apply run_shape; [apply load_sound|apply load_shape; exact N].
    - rewrite E2. rewrite written_other by exact Wr. f_equal.
      change (mkT (h_shape x) (read (fst (alloc (sd_heap s) (h_dev x) (h_shape x) (read (sd_heap s) x)))
        (snd (alloc (sd_heap s) (h_dev x) (h_shape x) (read (sd_heap s) x)))) (h_dev x) =
        mkT (h_shape x) (read (sd_heap s) x) (h_dev x)). rewrite Z. reflexivity.
  Qed.

  Lemma loaded_storage (H : heap V) d ds (P : smap tens) h1 h2 c : NoDup (d :: ds) ->
    let s := srun dflt (load_disp H d ds P) h1 in
    c < length (sd_heap s) ->
    nth c (sd_heap (srun dflt s h2)) [] = written c h2 (nth c (sd_heap s) []).
  Proof.
    intros N s B. apply run_heap; [| |exact B].
    - apply run_sound, load_sound.
    - apply run_shape; [apply load_sound|apply load_shape; exact N].
  Qed.

  (** ** Exact copies *)
  Definition weak (K : list string) (p : pdisp (V := V)) : Prop :=
    shape_ok p /\ NoDup K /\ forall d q, In (d, q) (pd_models p) -> keys q = K.

  Lemma weak_edit K (p : pdisp (V := V)) m b : weak K p -> keys m = K ->
    weak K (mkPD (set_model (pd_active p) m (pd_models p)) (pd_active p) b).
  Proof.
    intros (Sh & NK & HK) N'. split; [|split; [exact NK|]].
    - unfold shape_ok, devices_of. cbn. rewrite devices_set_model. exact Sh.
    - cbn. intros d q Ip. unfold set_model in Ip. apply in_map_iff in Ip as ([e r] & E & Iq).
      cbn in E. destruct (device_eqb (pd_active p) e); injection E as <- <-; [exact N'|]. eapply HK. exact Iq.
  Qed.

  Lemma weak_step K (p : pdisp (V := V)) o :
    (forall f, o = PMut f -> forall m, keys (f m) = keys m) -> (forall f, o <> PLate f) -> o <> PEval ->
    weak K p -> weak K (pstep_ p o).
  Proof.
    intros Kf Nl Ne I. pose proof I as (Sh & NK & HK). destruct (visible_some p Sh) as [m Vm].
    unfold visible in Vm. unfold pstep_. rewrite Vm.
    assert (Km : keys m = K) by (eapply HK; apply store_of_in; exact Vm).
    destruct o as [n v|f|f|].
    - destruct (lookup n m); [|exact I]. apply weak_edit; [exact I|]. rewrite keys_assign_slot. exact Km.
    - apply weak_edit; [exact I|]. rewrite (Kf f eq_refl). exact Km.
    - destruct (Nl f eq_refl).
    - destruct (Ne eq_refl).
  Qed.

  Lemma by_value_keys (s : sdisp V) o p : In p (by_value dflt s [o]) ->
    (forall f, p = PMut f -> forall m, keys (f m) = keys m) /\ (forall f, p <> PLate f) /\ (p = PEval -> o = SEval).
  Proof.
    cbn [by_value]. rewrite app_nil_r. intros I. destruct o as [d sh c|c w|n h|n h| |]; try contradiction.
    - destruct (Nat.ltb (h_cell h) (length (sd_heap s))); [|contradiction]. destruct I as [<-|[]].
      split; [discriminate|]. split; discriminate.
    - destruct (Nat.ltb (h_cell h) (length (sd_heap s))); [|contradiction]. destruct I as [<-|[]].
      split; [|split; discriminate]. intros f E. injection E as <-. intros m. apply keys_assign_slot.
    - destruct I as [<-|[]]. split; [|split; discriminate]. intros f E. injection E as <-. reflexivity.
    - destruct I as [<-|[]]. split; [discriminate|]. split; [discriminate|]. reflexivity.
  Qed.

  Lemma weak_prun K l : forall p : pdisp (V := V),
    (forall o, In o l -> (forall f, o = PMut f -> forall m, keys (f m) = keys m) /\ (forall f, o <> PLate f) /\ o <> PEval) ->
    weak K p -> weak K (prun p l).
  Proof.
    induction l as [|o l IH]; intros p A W; [exact W|]. cbn. apply IH.
    - intros x I. apply A. right. exact I.
    - destruct (A o (or_introl eq_refl)) as (B & C & D). apply weak_step; assumption.
  Qed.

  Lemma weak_sstep K (s : sdisp V) o : sound s -> o <> SEval -> weak K (valued s) -> weak K (valued (sstep dflt s o)).
  Proof.
    intros W Ne Wk. pose proof Wk as (Sh & NK & HK).
    assert (G : (forall c w, o <> SWrite c w) -> weak K (valued (sstep dflt s o))).
    { intros Nw. rewrite (step_valued s o W Sh Nw). apply weak_prun; [|exact Wk]. intros p I.
      destruct (by_value_keys s o p I) as (A & B & C). split; [exact A|]. split; [exact B|].
      intros E. apply Ne. apply C. exact E. }
    destruct o as [d sh c|c w|n h|n h| |]; try (apply G; discriminate).
    split; [apply shape_valued_step; assumption|]. split; [exact NK|].
    unfold sstep. destruct (hstore _ _); [|exact HK]. intros d q I. cbn [pd_models SpecStorage.valued sd_models sd_heap] in I.
    apply in_map_iff in I as ([e m] & E & I). cbn [fst snd] in E. injection E as <- <-. rewrite keys_see.
    rewrite <- (keys_see (sd_heap s)). apply (HK e). cbn [pd_models SpecStorage.valued]. apply in_map_iff. exists (e, m). split; [reflexivity|exact I].
  Qed.

  Lemma exact_run K h : forall (s : sdisp V) (pend : bool), sound s -> weak K (valued s) ->
    (pend = false -> key_inv K (valued s)) -> announced pend h = true -> key_inv K (valued (srun dflt s h)).
  Proof.
    induction h as [|o h IH]; intros s pend W Wk C An.
    - cbn in An. apply negb_true_iff in An. exact (C An).
    - change (key_inv K (valued (srun dflt (sstep dflt s o) h))). pose proof Wk as (Sh & NK & _).
      assert (G : (forall c w, o <> SWrite c w) -> key_inv K (valued s) -> key_inv K (valued (sstep dflt s o))).
      { intros Nw I. rewrite (step_valued s o W Sh Nw). apply prun_keys; [| |exact I].
        - intros f If. exact (proj1 (by_value_keys s o (PMut f) If) f eq_refl).
        - intros f If. destruct (by_value_keys s o (PLate f) If) as (_ & B & _). exact (B f eq_refl). }
      pose proof (step_sound s o W) as W'.
      destruct o as [d sh x|c w|k y|k y| |]; cbn [announced] in An.
      + apply (IH _ pend); [exact W'|apply weak_sstep; [exact W|discriminate|exact Wk]| |exact An].
        intros E. apply G; [discriminate|]. exact (C E).
      + apply (IH _ true); [exact W'|apply weak_sstep; [exact W|discriminate|exact Wk]|discriminate|exact An].
      + apply (IH _ pend); [exact W'|apply weak_sstep; [exact W|discriminate|exact Wk]| |exact An].
        intros E. apply G; [discriminate|]. exact (C E).
      + apply (IH _ pend); [exact W'|apply weak_sstep; [exact W|discriminate|exact Wk]| |exact An].
        intros E. apply G; [discriminate|]. exact (C E).
      + assert (Wk' : weak K (valued (sstep dflt s SMut))) by (apply weak_sstep; [exact W|discriminate|exact Wk]).
        apply (IH _ false); [exact W'|exact Wk'| |exact An]. intros _.
        destruct Wk' as (Sh' & _ & HK'). split; [exact Sh'|]. split; [exact NK|]. split; [exact HK'|].
        intros D. exfalso. revert D. unfold sstep. destruct (shape_master s Sh) as [q ->]. cbn. discriminate.
      + apply andb_true_iff in An as [E An]. apply negb_true_iff in E.
        assert (Ki : key_inv K (valued (sstep dflt s SEval))) by (apply G; [discriminate|exact (C E)]).
        apply (IH _ false); [exact W'| |intros _; exact Ki|exact An].
        destruct Ki as (A1 & A2 & A3 & _). split; [exact A1|]. split; [exact A2|exact A3].
  Qed.

  Lemma step_devices (s : sdisp V) o : sound s -> shape_ok (valued s) ->
    devices_of (valued (sstep dflt s o)) = devices_of (valued s) /\ sd_active (sstep dflt s o) = sd_active s.
  Proof.
    intros W Sh.
    assert (G : (forall c w, o <> SWrite c w) ->
      devices_of (valued (sstep dflt s o)) = devices_of (valued s) /\ sd_active (sstep dflt s o) = sd_active s).
    { intros Nw. change (sd_active (sstep dflt s o)) with (pd_active (valued (sstep dflt s o))).
      change (sd_active s) with (pd_active (valued s)). rewrite (step_valued s o W Sh Nw).
      generalize (valued s), (by_value dflt s [o]). intros p l. revert p.
      induction l as [|x l IH]; intros p; [split; reflexivity|]. cbn.
      destruct (IH (pstep_ p x)) as [E1 E2]. destruct (step_shape p x) as [E3 E4].
      unfold prun in E1, E2. split; congruence. }
    destruct o as [d sh c|c w|n h|n h| |]; try (apply G; discriminate).
    unfold sstep. destruct (hstore _ _); [|split; reflexivity]. unfold devices_of. cbn. rewrite !map_map. split; reflexivity.
  Qed.

  Lemma run_devices h : forall s : sdisp V, sound s -> shape_ok (valued s) ->
    devices_of (valued (srun dflt s h)) = devices_of (valued s) /\ sd_active (srun dflt s h) = sd_active s.
  Proof.
    induction h as [|o h IH]; intros s W Sh; [split; reflexivity|].
    destruct (IH (sstep dflt s o) (step_sound s o W) (shape_valued_step s o W Sh)) as [E1 E2].
    destruct (step_devices s o W Sh) as [E3 E4].
    change (srun dflt s (o :: h)) with (srun dflt (sstep dflt s o) h). split; congruence.
  Qed.

  Lemma announced_exact (H : heap V) d ds (P : smap tens) h : NoDup (d :: ds) -> NoDup (keys P) -> all_on d P ->
    announced false h = true ->
    let s := srun dflt (load_disp H d ds P) h in
    snd (hsync dflt s) = Ok tt /\
    exists m, visible (valued s) = Some m /\ keys m = keys P /\
      forall e, In e (d :: ds) ->
        store_of e (pd_models (valued (fst (hsync dflt s)))) = Some (if device_eqb e d then m else on_dev e m).
  Proof.
    intros N NP On An s. pose proof (load_fresh H d ds P N NP On) as F. pose proof (fresh_keys _ _ F) as I0.
    pose proof (load_sound H d ds P) as W. pose proof I0 as (Sh0 & A2 & A3 & _).
    pose proof (exact_run (keys P) h _ false W (conj Sh0 (conj A2 A3)) (fun _ => I0) An) as I.
    fold s in I. destruct (key_sync _ _ I) as (R & (Sh & NK & HK & U) & D).
    pose proof (hsync_spec s (run_sound h _ W)) as (_ & _ & E). rewrite E in R, Sh, HK, U, D. cbn [fst snd] in R, Sh, HK, U, D.
    split; [exact R|]. destruct (visible_some _ (proj1 I)) as [m Vm]. exists m. split; [exact Vm|].
    assert (Vs : visible (valued (fst (hsync dflt s))) = Some m).
    { pose proof (visible_sync (valued s)) as Q. rewrite E in Q. cbn [fst] in Q. rewrite Q. exact Vm. }
    split; [eapply HK; apply store_of_in; exact Vs|].
    destruct (run_devices h _ W Sh0) as [E1 E2]. fold s in E1, E2.
    destruct (sync_params_shape (valued s)) as [E3 E4]. rewrite E in E3, E4. cbn [fst] in E3, E4.
    rewrite load_valued in E1. unfold devices_of in E1 at 2. cbn [pd_models] in E1. rewrite map_map in E1. cbn [fst] in E1. rewrite map_id in E1.
    assert (Ea : pd_active (valued (fst (hsync dflt s))) = d).
    { rewrite E4. change (sd_active s = d). rewrite E2. unfold load_disp. destruct (load_models (d :: ds) H P). reflexivity. }
    intros e Ie. rewrite <- E1, <- E3 in Ie. unfold devices_of in Ie. apply in_map_iff in Ie as ([d' p] & Ed & Ip).
    cbn in Ed. subst d'. apply store_of_nodup in Ip; [|apply Sh]. rewrite Ip.
    destruct (device_eqb e d) eqn:G.
    - apply device_eqb_eq in G. subst e. unfold visible in Vs. rewrite Ea in Vs. congruence.
    - rewrite (U D m Vs e p Ip); [reflexivity|]. rewrite Ea. intros ->. rewrite device_eqb_refl in G. discriminate.
  Qed.

  (** ** The values an evaluation gets are those of some history of values *)
  Lemma stores_ext (l1 : list (device * smap tens)) : forall l2, map fst l1 = map fst l2 -> NoDup (map fst l1) ->
    (forall d, In d (map fst l1) -> store_of d l1 = store_of d l2) -> l1 = l2.
  Proof.
    induction l1 as [|[d p] l1 IH]; intros [|[e q] l2] E N S; cbn in E; try discriminate; [reflexivity|].
    injection E as -> E. cbn in N. apply NoDup_cons_iff in N as [N1 N2]. f_equal.
    - specialize (S e (or_introl eq_refl)). cbn in S. rewrite device_eqb_refl in S. congruence.
    - apply IH; [exact E|exact N2|]. intros x I. specialize (S x (or_intror I)). cbn in S.
      destruct (device_eqb x e) eqn:J; [|exact S]. apply device_eqb_eq in J. subst x. contradiction.
  Qed.

  Definition become (m x : smap tens) : smap tens :=
    if list_eq_dec String.string_dec (keys x) (keys m) then m else x.

  Lemma announced_like (s0 : sdisp V) P h m : sound s0 -> fresh_disp (valued s0) P -> announced false h = true ->
    visible (valued (srun dflt s0 h)) = Some m ->
    exists hv, keeps_keys hv /\ no_late hv /\ visible (prun (valued s0) hv) = Some m /\
      sync_params (prun (valued s0) hv) = sync_params (valued (srun dflt s0 h)).
  Proof.
    intros W F An Vm. pose proof (fresh_keys _ _ F) as I0. pose proof I0 as (Sh0 & A2 & A3 & _).
    pose proof (exact_run (keys P) h _ false W (conj Sh0 (conj A2 A3)) (fun _ => I0) An) as I.
    pose proof (key_sync _ _ I) as (R & (Sh & NK & HK & U) & D).
    assert (Km : keys m = keys P).
    { destruct I as (_ & _ & Q & _). unfold visible in Vm. eapply Q. apply store_of_in. exact Vm. }
    exists [PMut (become m)].
    assert (Kk : keeps_keys [PMut (become m)]).
    { intros f [E|[]] x. injection E as <-. unfold become. destruct (list_eq_dec _ _ _) as [e|]; [symmetry; exact e|reflexivity]. }
    assert (Nl : no_late [PMut (become m)]) by (intros f [E|[]]; discriminate).
    split; [exact Kk|]. split; [exact Nl|].
    destruct (visible_some _ Sh0) as [m0 Vm0].
    assert (K0 : keys m0 = keys P) by (eapply A3; unfold visible in Vm0; apply store_of_in; exact Vm0).
    assert (Be : become m m0 = m) by (unfold become; destruct (list_eq_dec _ _ _) as [|n]; [reflexivity|destruct n; congruence]).
    assert (V1 : visible (prun (valued s0) [PMut (become m)]) = Some m).
    { unfold prun. cbn [fold_left]. unfold pstep_. pose proof Vm0 as Q. unfold visible in Q. rewrite Q. unfold visible. cbn [pd_models pd_active].
      rewrite store_of_set_model, device_eqb_refl, Q, Be. reflexivity. }
    split; [exact V1|].
    pose proof (prun_keys (keys P) _ (valued s0) Kk Nl I0) as J.
    pose proof (key_sync _ _ J) as (R' & (Sh' & _ & HK' & U') & D').
    destruct (run_devices h s0 W Sh0) as [E1 E2].
    assert (E1' : devices_of (prun (valued s0) [PMut (become m)]) = devices_of (valued s0) /\
                  pd_active (prun (valued s0) [PMut (become m)]) = pd_active (valued s0)).
    { unfold prun. cbn [fold_left]. apply step_shape. }
    destruct (sync_params_shape (prun (valued s0) [PMut (become m)])) as [X1 X2].
    destruct (sync_params_shape (valued (srun dflt s0 h))) as [Y1 Y2].
    pose proof (visible_sync (prun (valued s0) [PMut (become m)])) as VX. rewrite V1 in VX.
    pose proof (visible_sync (valued (srun dflt s0 h))) as VY. rewrite Vm in VY.
    assert (Ac : pd_active (fst (sync_params (prun (valued s0) [PMut (become m)]))) =
                 pd_active (fst (sync_params (valued (srun dflt s0 h))))).
    { rewrite X2, Y2, (proj2 E1'). symmetry. exact E2. }
    assert (Dv : devices_of (fst (sync_params (prun (valued s0) [PMut (become m)]))) =
                 devices_of (fst (sync_params (valued (srun dflt s0 h))))) by (rewrite X1, Y1, (proj1 E1'), E1; reflexivity).
    revert R R' Sh Sh' U U' D D' VX VY Ac Dv.
    destruct (sync_params (prun (valued s0) [PMut (become m)])) as [p r].
    destruct (sync_params (valued (srun dflt s0 h))) as [p' r']. cbn [fst snd]. clear.
    intros -> -> Sh Sh' U U' D D' VX VY Ac Dv. f_equal. destruct p as [l a b], p' as [l' a' b']. cbn in *. subst a' b b'. f_equal.
    apply stores_ext; [exact Dv|apply Sh'|]. intros d Id.
    assert (Id' : In d (map fst l')) by (unfold devices_of in Dv; cbn in Dv; rewrite <- Dv; exact Id).
    apply in_map_iff in Id as ([d1 q] & Ed & Iq). cbn in Ed. subst d1. apply store_of_nodup in Iq; [|apply Sh'].
    apply in_map_iff in Id' as ([d1 q'] & Ed & Iq'). cbn in Ed. subst d1. apply store_of_nodup in Iq'; [|apply Sh].
    rewrite Iq, Iq'. destruct (device_eqb d a) eqn:G.
    - apply device_eqb_eq in G. subst d. unfold visible in VX, VY. cbn in VX, VY. congruence.
    - assert (Dn : d <> a) by (intros ->; rewrite device_eqb_refl in G; discriminate).
      rewrite (U eq_refl m VY d q' Iq' Dn), (U' eq_refl m VX d q Iq Dn). reflexivity.
  Qed.

  (** Every dispatcher of [Params] just constructed is one of tensors. *)
  Lemma fresh_has_storage (p : pdisp (V := V)) P : fresh_disp p P -> pd_dirty p = false ->
    exists s, sound s /\ valued s = p.
  Proof.
    intros (N & I & NP & Hp & On) D.
    destruct (load_models_spec P (devices_of p) []) as (_ & _ & A & _ & E).
    exists (mkSD (fst (load_models (devices_of p) [] P)) (snd (load_models (devices_of p) [] P)) (pd_active p) false).
    split; [apply sound_validl; exact A|]. unfold SpecStorage.valued. cbn [sd_heap sd_models sd_active sd_dirty].
    fold (seel (fst (load_models (devices_of p) [] P)) (snd (load_models (devices_of p) [] P))). rewrite E.
    destruct p as [l a b]. cbn in *. subst b. f_equal. unfold devices_of. cbn. rewrite map_map. rewrite <- (map_id l) at 2.
    apply map_ext_in. intros [d q] J. cbn. rewrite (Hp d q J). reflexivity.
  Qed.
End P.
