(** Proofs about broadcasting and input preparation. *)
From Verif Require Import Base BaseProofs Tensor Spec TensorProofs Broadcast SpecBroadcast SpecMap SmapProofs.

(** ** infer_size *)
Definition meets (a b r : option nat) : Prop :=
  match a, b, r with
  | None, None, None => True
  | Some x, None, Some z => z = x
  | None, Some y, Some z => z = y
  | Some x, Some y, Some z => (x = y /\ z = x) \/ (x = 1 /\ z = y) \/ (y = 1 /\ z = x)
  | _, _, _ => False
  end.
Definition clash (a b : option nat) : Prop :=
  match a, b with Some x, Some y => x <> y /\ x <> 1 /\ y <> 1 | _, _ => False end.

Lemma infer_rev_ok a b r : infer_rev a b = Ok r -> forall p, meets (nth_error a p) (nth_error b p) (nth_error r p).
Proof.
  revert b r. induction a as [|x a IH]; intros b r H p.
  - cbn in H. injection H as <-. destruct (nth_error b p) eqn:E; rewrite ?E; destruct p; cbn; reflexivity || exact I.
  - destruct b as [|y b].
    + cbn in H. injection H as <-. destruct (nth_error (x :: a) p); destruct p; cbn; reflexivity || exact I.
    + cbn in H. destruct (Nat.eqb_spec x y) as [E|E]; cbn in H.
      * destruct (infer_rev a b) as [r'|] eqn:R; [|discriminate]. injection H as <-.
        destruct p as [|p]; [|exact (IH _ _ R p)]. cbn. subst y. destruct (Nat.eqb_spec x 1); auto.
      * destruct (Nat.eqb_spec x 1) as [E1|E1]; cbn in H.
        -- destruct (infer_rev a b) as [r'|] eqn:R; [|discriminate]. injection H as <-.
           destruct p as [|p]; [|exact (IH _ _ R p)]. cbn. auto.
        -- destruct (Nat.eqb_spec y 1) as [E2|E2]; [|discriminate].
           destruct (infer_rev a b) as [r'|] eqn:R; [|discriminate]. injection H as <-.
           destruct p as [|p]; [|exact (IH _ _ R p)]. cbn. auto.
Qed.

Lemma infer_rev_err a b e : infer_rev a b = Err e -> exists p, clash (nth_error a p) (nth_error b p).
Proof.
  revert b. induction a as [|x a IH]; intros b H; [discriminate|].
  destruct b as [|y b]; [discriminate|]. cbn in H.
  destruct (Nat.eqb_spec x y) as [E|E]; cbn in H.
  - destruct (infer_rev a b) eqn:R; [discriminate|]. cbn in H. injection H as ->.
    destruct (IH _ R) as [p P]. exists (S p). exact P.
  - destruct (Nat.eqb_spec x 1) as [E1|E1]; cbn in H.
    + destruct (infer_rev a b) eqn:R; [discriminate|]. cbn in H. injection H as ->.
      destruct (IH _ R) as [p P]. exists (S p). exact P.
    + destruct (Nat.eqb_spec y 1) as [E2|E2].
      * destruct (infer_rev a b) eqn:R; [discriminate|]. cbn in H. injection H as ->.
        destruct (IH _ R) as [p P]. exists (S p). exact P.
      * exists 0. cbn. auto.
Qed.

Lemma infer_size_ok a b r : infer_size a b = Ok r -> forall p, meets (rsize a p) (rsize b p) (rsize r p).
Proof.
  unfold infer_size. destruct (infer_rev (rev a) (rev b)) as [q|] eqn:E; [|discriminate].
  intros H. injection H as <-. intros p. unfold rsize. rewrite rev_involutive. apply infer_rev_ok. exact E.
Qed.
Lemma infer_size_err a b e : infer_size a b = Err e -> exists p, clash (rsize a p) (rsize b p).
Proof.
  unfold infer_size. destruct (infer_rev (rev a) (rev b)) as [q|] eqn:E; [discriminate|].
  intros _. apply infer_rev_err in E. exact E.
Qed.

Lemma rsize_lt sh p : (exists n, rsize sh p = Some n) <-> p < length sh.
Proof.
  unfold rsize. rewrite <- (rev_length sh). rewrite <- nth_error_Some.
  destruct (nth_error (rev sh) p); split; intros H; [congruence|eauto|destruct H; discriminate|congruence].
Qed.
Lemma rsize_none sh p : rsize sh p = None <-> length sh <= p.
Proof. unfold rsize. rewrite nth_error_None, rev_length. reflexivity. Qed.

Fixpoint infer_all (d : list nat) (ds : list (list nat)) : result (list nat) :=
  match ds with
  | [] => Ok d
  | s :: r => let* d := infer_size d s in infer_all d r
  end.

Lemma broadcast_of_nil : broadcast_of [] [].
Proof.
  split; [intros p; split; [cbn; lia|intros (s & [] & _)]|].
  intros p n H. destruct p; discriminate.
Qed.

Lemma broadcast_snoc ds d s r :
  broadcast_of ds d -> infer_size d s = Ok r -> broadcast_of (ds ++ [s]) r.
Proof.
  intros [L M] I0. pose proof (infer_size_ok _ _ _ I0) as I. split.
  - intros p. specialize (I p). rewrite <- rsize_lt. split.
    + intros [n E]. rewrite E in I. destruct (rsize d p) as [x|] eqn:D.
      * assert (P : p < length d) by (apply rsize_lt; eauto). apply L in P as (s' & Is & P).
        exists s'. split; [apply in_or_app; auto|exact P].
      * destruct (rsize s p) as [y|] eqn:S; [|destruct I].
        exists s. split; [apply in_or_app; right; left; reflexivity|]. apply rsize_lt. eauto.
    + intros (s' & Is & P). apply in_app_or in Is as [Is|[<-|[]]].
      * assert (Q : p < length d) by (apply L; eauto). apply rsize_lt in Q as [x D]. rewrite D in I.
        destruct (rsize r p); [eauto|]. destruct (rsize s p); destruct I.
      * apply rsize_lt in P as [y S]. rewrite S in I. destruct (rsize r p); [eauto|].
        destruct (rsize d p); destruct I.
  - intros p n E. specialize (I p). rewrite E in I. split.
    + intros s' m Is S'. apply in_app_or in Is as [Is|[<-|[]]].
      * assert (Q : p < length d) by (apply L; exists s'; split; [exact Is|apply rsize_lt; eauto]).
        apply rsize_lt in Q as [x D]. rewrite D in I.
        destruct (M p x D) as [M1 _]. specialize (M1 s' m Is S').
        destruct (rsize s p) as [y|]; [|cbn in I; subst; exact M1]. destruct M1; [|auto]. subst m.
        destruct I as [[-> ->]|[[-> ->]|[-> ->]]]; auto.
      * rewrite S' in I. destruct (rsize d p) as [x|]; [|cbn in I; auto].
        destruct I as [[-> ->]|[[-> ->]|[-> ->]]]; auto.
    + destruct (rsize d p) as [x|] eqn:D.
      * destruct (M p x D) as [_ M2].
        assert (Kx : n = x -> n = 1 \/ exists s0, In s0 (ds ++ [s]) /\ rsize s0 p = Some n).
        { intros ->. destruct M2 as [->|(s' & Is & S')]; [auto|]. right. exists s'. split; [apply in_or_app; auto|exact S']. }
        destruct (rsize s p) as [y|] eqn:S; [|apply Kx; exact I].
        destruct I as [[_ Q]|[[_ Q]|[_ Q]]]; [apply Kx; exact Q| |apply Kx; exact Q].
        right. exists s. split; [apply in_or_app; right; left; reflexivity|]. rewrite Q. exact S.
      * destruct (rsize s p) as [y|] eqn:S; [|destruct I]. cbn in I. subst n. right. exists s.
        split; [apply in_or_app; right; left; reflexivity|exact S].
Qed.

Lemma broadcast_clash ds d s r all :
  broadcast_of ds d -> infer_size d s = Err r -> (forall x, In x (ds ++ [s]) -> In x all) ->
  forall d', ~ broadcast_of all d'.
Proof.
  intros [_ M] E Sub d' [L' M']. apply infer_size_err in E as [p C].
  destruct (rsize d p) as [x|] eqn:D; [|destruct C]. destruct (rsize s p) as [y|] eqn:S; [|destruct C].
  destruct C as (C1 & C2 & C3). destruct (M p x D) as [_ [->|(s' & Is & S')]]; [lia|].
  assert (P : p < length d').
  { apply L'. exists s. split; [apply Sub; apply in_or_app; right; left; reflexivity|apply rsize_lt; eauto]. }
  apply rsize_lt in P as [n N]. destruct (M' p n N) as [Q _].
  destruct (Q s' x (Sub _ (in_or_app _ _ _ (or_introl Is))) S') as [->|]; [|lia].
  assert (Is2 : In s all) by (apply Sub; apply in_or_app; right; left; reflexivity).
  destruct (Q s y Is2 S) as [->|]; lia.
Qed.

Lemma rsize_ext a b : (forall p, rsize a p = rsize b p) -> a = b.
Proof.
  intros H. apply nth_error_ext in H. rewrite <- (rev_involutive a), <- (rev_involutive b), H. reflexivity.
Qed.

Lemma broadcast_unique ds d d' : broadcast_of ds d -> broadcast_of ds d' -> d = d'.
Proof.
  intros [L M] [L' M']. apply rsize_ext. intros p.
  assert (W : forall d1 d2 : list nat, (forall p, p < length d1 <-> exists s, In s ds /\ p < length s) ->
             (forall p, p < length d2 <-> exists s, In s ds /\ p < length s) -> p < length d1 -> p < length d2).
  { intros d1 d2 H1 H2 H. apply H2. apply H1. exact H. }
  destruct (rsize d p) as [n|] eqn:D.
  - assert (P : p < length d') by (apply (W d d' L L'); apply rsize_lt; eauto).
    apply rsize_lt in P as [m D']. rewrite D'. f_equal.
    destruct (M p n D) as [M1 M2], (M' p m D') as [M1' M2'].
    destruct M2 as [->|(s & Is & S)], M2' as [->|(s' & Is' & S')]; try reflexivity.
    + destruct (M1 s' m Is' S'); congruence.
    + destruct (M1' s n Is S); congruence.
    + destruct (M1 s' m Is' S'); [congruence|]. destruct (M1' s n Is S); congruence.
  - symmetry. apply rsize_none. apply rsize_none in D.
    destruct (Nat.le_gt_cases (length d') p) as [|P]; [assumption|]. apply (W d' d L' L) in P. lia.
Qed.

Lemma infer_all_ok ds : forall done d r,
  broadcast_of done d -> infer_all d ds = Ok r -> broadcast_of (done ++ ds) r.
Proof.
  induction ds as [|s ds IH]; intros done d r B H; cbn in H.
  - injection H as <-. rewrite app_nil_r. exact B.
  - destruct (infer_size d s) as [d1|] eqn:E; [|discriminate]. cbn in H.
    change (done ++ s :: ds) with (done ++ [s] ++ ds). rewrite app_assoc. eapply IH; [|exact H].
    eapply broadcast_snoc; eassumption.
Qed.
Lemma infer_all_err ds : forall done d e,
  broadcast_of done d -> infer_all d ds = Err e -> forall d', ~ broadcast_of (done ++ ds) d'.
Proof.
  induction ds as [|s ds IH]; intros done d e B H d'; cbn in H; [discriminate|].
  change (done ++ s :: ds) with (done ++ [s] ++ ds). rewrite app_assoc.
  destruct (infer_size d s) as [d1|] eqn:E; cbn in H.
  - eapply IH; [|exact H]. eapply broadcast_snoc; eassumption.
  - eapply broadcast_clash; [exact B|exact E|]. intros x I. apply in_or_app. left. exact I.
Qed.
Lemma infer_all_iff ds d : infer_all [] ds = Ok d <-> broadcast_of ds d.
Proof.
  split.
  - intros H. apply (infer_all_ok ds [] [] d broadcast_of_nil H).
  - intros B. destruct (infer_all [] ds) as [r|e] eqn:E.
    + f_equal. eapply broadcast_unique; [|exact B]. apply (infer_all_ok ds [] [] r broadcast_of_nil E).
    + exfalso. exact (infer_all_err ds [] [] e broadcast_of_nil E d B).
Qed.

(** ** expand *)
Lemma numel_app a b : numel (a ++ b) = numel a * numel b.
Proof. induction a as [|x a IH]; [symmetry; apply Nat.mul_1_l|]. change (x * numel (a ++ b) = x * numel a * numel b). rewrite IH. lia. Qed.
Lemma numel_ones k : numel (repeat 1 k) = 1.
Proof. induction k as [|k IH]; [reflexivity|]. change (1 * numel (repeat 1 k) = 1). lia. Qed.

Section Expand.
  Context {V : Type}.
  Implicit Types (l : list V).

  Lemma flat_map_const_length (f : nat -> list V) k m a :
    (forall i, In i (seq a m) -> length (f i) = k) -> length (flat_map f (seq a m)) = m * k.
  Proof.
    revert a. induction m as [|m IH]; intros a H; [reflexivity|]. cbn. rewrite app_length.
    rewrite IH by (intros i I; apply H; right; exact I). rewrite H by (left; reflexivity). lia.
  Qed.
  Lemma flat_map_nth (f : nat -> list V) k m a i j :
    (forall i, In i (seq a m) -> length (f i) = k) -> i < m -> j < k ->
    nth_error (flat_map f (seq a m)) (i * k + j) = nth_error (f (a + i)) j.
  Proof.
    revert a i. induction m as [|m IH]; intros a i H Hi Hj; [lia|]. cbn.
    assert (L : length (f a) = k) by (apply H; left; reflexivity).
    destruct i as [|i].
    - rewrite Nat.add_0_r. cbn. rewrite nth_error_app1 by lia. reflexivity.
    - rewrite nth_error_app2 by lia. replace (S i * k + j - length (f a)) with (i * k + j) by lia.
      rewrite IH; [f_equal; f_equal; lia|intros x I; apply H; right; exact I|lia|exact Hj].
  Qed.

  Lemma row_data_len st i n l : length l = n * st -> i < n -> length (row_data st i l) = st.
  Proof.
    intros L H. unfold row_data. rewrite firstn_length, skipn_length, L. nia.
  Qed.

  Lemma expand_data_length sh : forall tgt l,
    fits sh tgt = true -> length l = numel sh -> length (expand_data sh tgt l) = numel tgt.
  Proof.
    induction sh as [|n sh IH]; intros [|m tgt] l F L; cbn in F; try discriminate; [exact L|].
    apply andb_true_iff in F as [F1 F2]. cbn [expand_data].
    rewrite (flat_map_const_length _ (numel tgt)); [reflexivity|].
    intros i I. apply in_seq in I. apply IH; [exact F2|].
    cbn in L. fold (numel sh) in L. apply (row_data_len _ _ n); [exact L|].
    apply orb_true_iff in F1. destruct (Nat.eqb_spec n 1); [lia|].
    destruct F1 as [F1|F1]; [apply Nat.eqb_eq in F1; lia|discriminate].
  Qed.

  Lemma ravel_lt sh idx : index_of sh idx -> ravel sh idx < numel sh.
  Proof.
    unfold index_of. intros H. induction H as [|i n idx sh Hi H IH]; cbn; [lia|].
    fold (numel sh). nia.
  Qed.

  Definition clip (sh idx : list nat) : list nat :=
    map (fun ni => if Nat.eqb (fst ni) 1 then 0 else snd ni) (combine sh idx).

  Lemma expand_data_elem sh : forall tgt l idx,
    fits sh tgt = true -> length l = numel sh -> index_of tgt idx ->
    nth_error (expand_data sh tgt l) (ravel tgt idx) = nth_error l (ravel sh (clip sh idx)).
  Proof.
    induction sh as [|n sh IH]; intros [|m tgt] l idx F L X; cbn in F; try discriminate.
    - inversion X; subst. reflexivity.
    - apply andb_true_iff in F as [F1 F2]. inversion X as [|i ? idx' ? Hi X']; subst.
      cbn [expand_data ravel]. cbn in L. fold (numel sh) in L.
      assert (Rl : forall i, i < m -> length (row_data (numel sh) (if Nat.eqb n 1 then 0 else i) l) = numel sh).
      { intros j Hj. apply (row_data_len _ _ n); [exact L|]. destruct (Nat.eqb_spec n 1); [lia|].
        apply orb_true_iff in F1 as [F1|F1]; [apply Nat.eqb_eq in F1; lia|discriminate]. }
      rewrite (flat_map_nth _ (numel tgt) m 0 i (ravel tgt idx')).
      + rewrite IH; [|exact F2|apply Rl; exact Hi|exact X']. cbn [clip combine map fst snd ravel].
        fold (clip sh idx'). unfold row_data. cbn [Nat.add].
        assert (Bd : ravel sh (clip sh idx') < numel sh).
        { apply ravel_lt. clear - F2 X'. revert tgt idx' F2 X'. induction sh as [|n sh IH]; intros [|m tgt] idx F X; cbn in F; try discriminate.
          - inversion X; subst. constructor.
          - apply andb_true_iff in F as [F1 F2]. inversion X; subst. cbn. constructor; [|eapply IH; eassumption].
            destruct (Nat.eqb_spec n 1); [lia|]. apply orb_true_iff in F1 as [F1|F1]; [apply Nat.eqb_eq in F1; lia|discriminate]. }
        rewrite nth_error_firstn, nth_error_skipn by exact Bd. reflexivity.
      + intros j Ij. apply in_seq in Ij. apply expand_data_length; [exact F2|apply Rl; lia].
      + exact Hi.
      + apply ravel_lt. exact X'.
  Qed.

  Lemma pad_length k sh : length sh <= k -> length (pad k sh) = k.
  Proof. intros H. unfold pad. rewrite app_length, repeat_length. lia. Qed.
  Lemma pad_numel k sh : numel (pad k sh) = numel sh.
  Proof. unfold pad. rewrite numel_app, numel_ones. lia. Qed.
  Lemma fits_length sh tgt : fits sh tgt = true -> length sh = length tgt.
  Proof.
    revert tgt. induction sh as [|n sh IH]; intros [|m tgt] H; cbn in *; try discriminate; [reflexivity|].
    apply andb_true_iff in H as [_ H]. f_equal. apply IH. exact H.
  Qed.
  Lemma index_length sh idx : index_of sh idx -> length idx = length sh.
  Proof. intros H. induction H; cbn; [reflexivity|lia]. Qed.

  Lemma ravel_pad j sh idx : length idx = j + length sh ->
    ravel (repeat 1 j ++ sh) (clip (repeat 1 j ++ sh) idx) = ravel sh (clip sh (skipn j idx)).
  Proof.
    revert idx. induction j as [|j IH]; intros idx H; [reflexivity|].
    destruct idx as [|i idx]; [cbn in H; lia|]. cbn [repeat app clip combine map ravel fst snd skipn Nat.eqb].
    fold (clip (repeat 1 j ++ sh) idx). rewrite IH by (cbn in H; lia). reflexivity.
  Qed.

  Lemma expand_ok (t u : tensor V) tgt :
    wf t -> expand t tgt = Ok u -> t_shape u = tgt /\ broadcasts t u.
  Proof.
    intros W H. unfold expand in H. destruct (Nat.ltb_spec (length tgt) (dim t)) as [|Ld]; [discriminate|].
    destruct (fits (pad (length tgt) (t_shape t)) tgt) eqn:F; [|discriminate]. injection H as <-.
    unfold dim in Ld. split; [reflexivity|]. split; [|split; [reflexivity|]].
    - unfold wf. cbn. apply expand_data_length; [exact F|]. rewrite pad_numel. exact W.
    - cbn [t_shape]. intros idx X. unfold elem. cbn [t_shape t_data].
      rewrite expand_data_elem; [|exact F|rewrite pad_numel; exact W|exact X]. f_equal.
      unfold pull. pose proof (index_length _ _ X) as Li. rewrite Li.
      unfold pad. rewrite ravel_pad by lia. reflexivity.
  Qed.

  (** When it succeeds: compatible sizes at every place. *)
  Lemma fits_iff sh tgt :
    fits sh tgt = true <-> length sh = length tgt /\
      forall p n m, nth_error sh p = Some n -> nth_error tgt p = Some m -> n = m \/ n = 1.
  Proof.
    revert tgt. induction sh as [|n sh IH]; intros [|m tgt]; cbn [fits length].
    - split; [intros _; split; [reflexivity|intros p n m H; destruct p; discriminate]|reflexivity].
    - split; [discriminate|intros [H _]; discriminate].
    - split; [discriminate|intros [H _]; discriminate].
    - rewrite andb_true_iff, IH, orb_true_iff, !Nat.eqb_eq. split.
      + intros [H1 [H2 H3]]. split; [lia|]. intros [|p] a b Ha Hb; cbn in *.
        * injection Ha as <-. injection Hb as <-. exact H1.
        * eapply H3; eassumption.
      + intros [H1 H2]. split; [exact (H2 0 n m eq_refl eq_refl)|]. split; [lia|].
        intros p a b Ha Hb. exact (H2 (S p) a b Ha Hb).
  Qed.

  Lemma fits_app a b c d : length a = length c -> fits (a ++ b) (c ++ d) = fits a c && fits b d.
  Proof.
    revert c. induction a as [|x a IH]; intros [|y c] H; cbn in *; try discriminate; [reflexivity|].
    rewrite IH by lia. rewrite andb_assoc. reflexivity.
  Qed.
  Lemma fits_refl sh : fits sh sh = true.
  Proof. induction sh as [|n sh IH]; cbn; [reflexivity|]. rewrite Nat.eqb_refl, IH. reflexivity. Qed.

  (** The case of the code: the batch part is padded and fits, the tail is kept. *)
  Lemma expand_batch (t : tensor V) d tail dyn :
    t_shape t = d ++ tail -> length d <= length dyn ->
    (forall p n m, rsize d p = Some n -> rsize dyn p = Some m -> n = m \/ n = 1) ->
    exists u, expand t (dyn ++ tail) = Ok u.
  Proof.
    intros S L C. unfold expand, dim. rewrite S, !app_length.
    destruct (Nat.ltb_spec (length dyn + length tail) (length d + length tail)); [lia|].
    assert (P : pad (length dyn + length tail) (d ++ tail) = pad (length dyn) d ++ tail).
    { unfold pad. rewrite app_length, <- app_assoc. do 2 f_equal. lia. }
    rewrite P, fits_app by (apply pad_length; exact L). rewrite fits_refl, andb_true_r.
    assert (F : fits (pad (length dyn) d) dyn = true).
    { apply fits_iff. split; [apply pad_length; exact L|]. intros p n m Hn Hm.
      assert (Pl : p < length dyn) by (apply nth_error_Some; congruence).
      unfold pad in Hn. destruct (Nat.lt_ge_cases p (length dyn - length d)) as [Q|Q].
      - rewrite nth_error_app1 in Hn by (rewrite repeat_length; exact Q).
        right. apply nth_error_In in Hn. apply repeat_spec in Hn. exact Hn.
      - rewrite nth_error_app2 in Hn by (rewrite repeat_length; exact Q). rewrite repeat_length in Hn.
        assert (Rv : forall (l : list nat) k x, nth_error l k = Some x -> rsize l (length l - 1 - k) = Some x).
        { intros l k x Hx. assert (Hk : k < length l) by (apply nth_error_Some; congruence).
          unfold rsize. clear - Hx Hk. induction l as [|y l IH] using rev_ind; [cbn in Hk; lia|].
          rewrite rev_app_distr. cbn [rev app]. rewrite app_length in *. cbn [length] in *.
          destruct (Nat.eq_dec k (length l)) as [->|Nk].
          - rewrite nth_error_app2, Nat.sub_diag in Hx by lia. cbn in Hx.
            replace (length l + 1 - 1 - length l) with 0 by lia. exact Hx.
          - rewrite nth_error_app1 in Hx by lia. replace (length l + 1 - 1 - k) with (S (length l - 1 - k)) by lia.
            cbn. apply IH; [exact Hx|lia]. }
        apply Rv in Hn. apply Rv in Hm.
        replace (length d - 1 - (p - (length dyn - length d))) with (length dyn - 1 - p) in Hn by lia.
        exact (C _ n m Hn Hm). }
    rewrite F. eauto.
  Qed.
End Expand.

(** ** Preparation *)
Section Prep.
  Context {V : Type}.
  Notation vmap := (smap (tensor V)).

  Lemma validate_iff (i : in_info) (t : tensor V) :
    validate_input i t = Ok tt <-> exists pre, t_shape t = pre ++ in_base i.
  Proof.
    unfold validate_input, assert_, dim. destruct (Nat.leb_spec (length (in_base i)) (length (t_shape t))) as [L|L]; cbn [bind].
    - destruct (shape_eqb (skipn (length (t_shape t) - length (in_base i)) (t_shape t)) (in_base i)) eqn:E.
      + split; [|reflexivity]. intros _. apply shape_eqb_eq in E.
        exists (firstn (length (t_shape t) - length (in_base i)) (t_shape t)).
        rewrite <- E at 2. symmetry. apply firstn_skipn.
      + split; [discriminate|]. intros (pre & P). exfalso.
        assert (shape_eqb (skipn (length (t_shape t) - length (in_base i)) (t_shape t)) (in_base i) = true); [|congruence].
        rewrite P, app_length. replace (length pre + length (in_base i) - length (in_base i)) with (length pre) by lia.
        rewrite skipn_app, skipn_all, Nat.sub_diag. cbn. apply shape_eqb_refl.
    - split; [discriminate|]. intros (pre & P). rewrite P, app_length in L. lia.
  Qed.
  Lemma validate_err (i : in_info) (t : tensor V) :
    validate_input i t <> Ok tt -> exists w, validate_input i t = Err (Fatal w).
  Proof.
    unfold validate_input, assert_. destruct (Nat.leb _ _); cbn [bind]; [|eauto].
    destruct (shape_eqb _ _); [congruence|eauto].
  Qed.

  Lemma splits_dyn i (t : tensor V) d sub : splits i t d sub -> dynamic_batch_shape_of i t = d.
  Proof.
    intros [S L]. unfold dynamic_batch_shape_of, dim. rewrite S, !app_length, L.
    replace (length d + (length (in_sub i) + length (in_base i)) - (length (in_base i) + length (in_sub i))) with (length d) by lia.
    rewrite firstn_app, Nat.sub_diag, firstn_all. cbn. apply app_nil_r.
  Qed.

  Lemma splits_exists i (t : tensor V) :
    length (in_sub i) + length (in_base i) <= dim t -> validate_input i t = Ok tt -> exists d sub, splits i t d sub.
  Proof.
    intros L H. apply validate_iff in H as [pre P]. unfold dim in L. rewrite P, app_length in L.
    exists (firstn (length pre - length (in_sub i)) pre), (skipn (length pre - length (in_sub i)) pre).
    split; [rewrite app_assoc, firstn_skipn; exact P|]. rewrite skipn_length. lia.
  Qed.

  Lemma kept_sizes_ok i (t : tensor V) d sub : splits i t d sub -> kept_sizes i t = Ok (sub ++ in_base i).
  Proof.
    intros [S L]. unfold kept_sizes.
    assert (Ln : length (in_base i) + length (in_sub i) = length (sub ++ in_base i)) by (rewrite app_length; lia).
    rewrite Ln. set (tail := sub ++ in_base i) in *.
    assert (G : forall k n, n + k = length tail ->
      mapM (fun k0 => size_at t (Z.of_nat (dim t) - Z.of_nat (length tail) + Z.of_nat k0)) (seq n k) = Ok (skipn n tail)).
    { induction k as [|k IH]; intros n Hn.
      - cbn. rewrite skipn_all2 by lia. reflexivity.
      - cbn [seq mapM].
        assert (E : size_at t (Z.of_nat (dim t) - Z.of_nat (length tail) + Z.of_nat n)
                    = match nth_error tail n with Some x => Ok x | None => Err (StdExn "Dimension out of range") end).
        { unfold size_at, dim. rewrite S, app_length.
          destruct (_ || _) eqn:Q; [lia|].
          destruct (Z.ltb_spec (Z.of_nat (length d + length tail) - Z.of_nat (length tail) + Z.of_nat n) 0); [lia|].
          replace (Z.to_nat (Z.of_nat (length d + length tail) - Z.of_nat (length tail) + Z.of_nat n)) with (length d + n) by lia.
          rewrite nth_error_app2 by lia. replace (length d + n - length d) with n by lia. reflexivity. }
        rewrite E. destruct (nth_error tail n) as [x|] eqn:N; [|apply nth_error_None in N; lia]. cbn [bind].
        rewrite IH by lia. cbn [bind]. f_equal.
        clear - N. revert n N. induction tail as [|y tail IH]; intros [|n] N; cbn in *; try discriminate.
        + injection N as ->. reflexivity.
        + apply IH. exact N. }
    apply (G (length tail) 0). lia.
  Qed.

  (** *** First pass *)
  Definition has_split (I : vmap) (i : in_info) (d : list nat) : Prop :=
    exists t sub, lookup (in_name i) I = Some t /\ splits i t d sub.

  Fixpoint stored (infos : list in_info) (I st : vmap) : vmap :=
    match infos with
    | [] => st
    | i :: r => match lookup (in_name i) I with
                | Some t => stored r I (set_ (in_name i) t st)
                | None => stored r I st
                end
    end.

  Lemma prep1_split infos : forall (I st : vmap) ds d0,
    Forall2 (has_split I) infos ds ->
    prep1 infos I st d0 = rmap (fun d => (stored infos I st, d)) (infer_all d0 ds).
  Proof.
    induction infos as [|i infos IH]; intros I st ds d0 H; inversion H as [|? d ? ds' (t & sub & E & S) H']; subst.
    - reflexivity.
    - cbn [prep1 stored infer_all]. rewrite E.
      assert (validate_input i t = Ok tt) as ->.
      { apply validate_iff. destruct S as [S _]. exists (d ++ sub). rewrite S, app_assoc. reflexivity. }
      cbn [bind]. rewrite (splits_dyn _ _ _ _ S). destruct (infer_size d0 d) as [d1|]; cbn [bind]; [|reflexivity].
      apply IH. exact H'.
  Qed.

  (** Either every declared input splits, or the first pass raises. *)
  Lemma prep1_cases infos (I : vmap) :
    ranks_ok infos I ->
    (exists ds, Forall2 (has_split I) infos ds) \/
    ((forall ds, ~ Forall2 (has_split I) infos ds) /\ forall st d0, exists e, prep1 infos I st d0 = Err e).
  Proof.
    induction infos as [|i infos IH]; intros R.
    - left. exists []. constructor.
    - assert (R' : ranks_ok infos I) by (intros j t Ij; apply R; right; exact Ij).
      destruct (lookup (in_name i) I) as [t|] eqn:E.
      2:{ right. split; [|intros st d0; cbn; rewrite E; eauto].
          intros ds H. inversion H as [|? d ? ds' (t & sub & E' & S) H']; subst. congruence. }
      destruct (R i t (or_introl eq_refl) E) as [W L].
      destruct (validate_input i t) as [[]|e] eqn:Vd.
      + destruct (splits_exists i t L Vd) as (d & sub & S).
        destruct (IH R') as [[ds H]|[N H]].
        * left. exists (d :: ds). constructor; [exists t, sub; auto|exact H].
        * right. split.
          { intros ds Q. inversion Q; subst. eapply N. eassumption. }
          intros st d0. cbn. rewrite E, Vd. cbn [bind].
          destruct (infer_size d0 (dynamic_batch_shape_of i t)); cbn [bind]; [apply H|eauto].
      + right. split.
        { intros ds H. inversion H as [|? d ? ds' (t' & sub & E' & S) H']; subst. rewrite E in E'. injection E' as <-.
          assert (validate_input i t = Ok tt); [|congruence]. apply validate_iff. destruct S as [S _].
          exists (d ++ sub). rewrite S, app_assoc. reflexivity. }
        intros st d0. cbn. rewrite E, Vd. cbn [bind]. eauto.
  Qed.

  Lemma lookup_stored_other infos : forall (I st : vmap) n,
    ~ In n (map in_name infos) -> lookup n (stored infos I st) = lookup n st.
  Proof.
    induction infos as [|i infos IH]; intros I st n N; [reflexivity|]. cbn in *.
    destruct (lookup (in_name i) I); rewrite IH by tauto; [|reflexivity]. apply lookup_set_other. intros ->. tauto.
  Qed.
  Lemma lookup_stored infos : forall (I st : vmap) i,
    NoDup (map in_name infos) -> In i infos -> lookup (in_name i) I <> None ->
    lookup (in_name i) (stored infos I st) = lookup (in_name i) I.
  Proof.
    induction infos as [|j infos IH]; intros I st i N Ii Hn; [destruct Ii|]. inversion N as [|? ? N1 N2]; subst.
    cbn. destruct Ii as [->|Ii].
    - destruct (lookup (in_name i) I) as [t|] eqn:E; [|congruence].
      rewrite lookup_stored_other by exact N1. apply lookup_set_same.
    - destruct (lookup (in_name j) I); apply IH; assumption.
  Qed.
  Lemma keys_stored infos : forall (I st : vmap) n,
    (forall i, In i infos -> lookup (in_name i) I <> None) ->
    In n (keys (stored infos I st)) <-> In n (keys st) \/ In n (map in_name infos).
  Proof.
    induction infos as [|i infos IH]; intros I st n H; cbn [stored map]; [cbn [In]; tauto|].
    destruct (lookup (in_name i) I) as [t|] eqn:E; [|exfalso; apply (H i); [left; reflexivity|exact E]].
    rewrite IH by (intros j Ij; apply H; right; exact Ij). rewrite keys_set_in. cbn [In]. intuition.
  Qed.

  (** *** Second pass *)
  Lemma prep2_spec infos : forall (I st : vmap) dyn ds,
    NoDup (map in_name infos) -> Forall2 (has_split I) infos ds -> ranks_ok infos I ->
    Forall (fun d => length d <= length dyn /\
                     forall p n m, rsize d p = Some n -> rsize dyn p = Some m -> n = m \/ n = 1) ds ->
    (forall i, In i infos -> lookup (in_name i) st = lookup (in_name i) I) ->
    exists st', prep2 infos dyn st = Ok st' /\
      (forall n, In n (keys st') <-> In n (keys st) \/ In n (map in_name infos)) /\
      (forall n, ~ In n (map in_name infos) -> lookup n st' = lookup n st) /\
      (sorted st -> sorted st') /\
      forall i, In i infos -> exists t u d sub,
        lookup (in_name i) I = Some t /\ splits i t d sub /\
        lookup (in_name i) st' = Some u /\ expand t (dyn ++ sub ++ in_base i) = Ok u.
  Proof.
    induction infos as [|i infos IH]; intros I st dyn ds N H R F Eq;
      inversion H as [|? d ? ds' (t & sub & E & S) H']; subst.
    - exists st. split; [reflexivity|]. split; [intros n; cbn; tauto|]. split; [reflexivity|].
      split; [auto|]. intros i [].
    - inversion N as [|? ? N1 N2]; subst. inversion F as [|? ? [F1 F2] F']; subst.
      cbn [prep2]. unfold at_. rewrite (Eq i (or_introl eq_refl)), E. cbn [bind].
      rewrite (kept_sizes_ok _ _ _ _ S). cbn [bind].
      destruct (expand_batch t d (sub ++ in_base i) dyn) as [u U]; [apply S|exact F1|exact F2|].
      rewrite U. cbn [bind].
      destruct (IH I (set_ (in_name i) u st) dyn ds' N2 H') as (st' & P & K & O & So & Q).
      { intros j x Ij. apply R. right. exact Ij. }
      { exact F'. }
      { intros j Ij. rewrite lookup_set_other; [apply Eq; right; exact Ij|].
        intros Q. apply N1. rewrite <- Q. apply in_map. exact Ij. }
      exists st'. split; [exact P|]. split.
      { intros n. rewrite K, keys_set_in. cbn. intuition. }
      split.
      { intros n Hn. cbn in Hn. rewrite O by tauto. apply lookup_set_other. intros ->. tauto. }
      split.
      { intros Ss. apply So. apply sorted_set. exact Ss. }
      intros j [<-|Ij]; [|apply Q; exact Ij].
      exists t, u, d, sub. split; [exact E|]. split; [exact S|]. split; [|exact U].
      rewrite O by exact N1. apply lookup_set_same.
  Qed.

  Lemma acceptable_fits ds dyn :
    broadcast_of ds dyn ->
    Forall (fun d => length d <= length dyn /\
                     forall p n m, rsize d p = Some n -> rsize dyn p = Some m -> n = m \/ n = 1) ds.
  Proof.
    intros [L M]. rewrite Forall_forall. intros d Id. split.
    - destruct (Nat.le_gt_cases (length d) (length dyn)) as [|G]; [assumption|].
      assert (length dyn < length dyn); [|lia]. apply L. eauto.
    - intros p n m Hn Hm. destruct (M p m Hm) as [M1 _]. eapply M1; eassumption.
  Qed.

  Lemma has_split_unique (I : vmap) infos ds ds' :
    Forall2 (has_split I) infos ds -> Forall2 (has_split I) infos ds' -> ds = ds'.
  Proof.
    intros H. revert ds'. induction H as [|i d infos ds (t & sub & E & S) H IH]; intros ds' H'; inversion H' as [|? d' ? ds'' (t' & sub' & E' & S') H'']; subst.
    - reflexivity.
    - f_equal; [|apply IH; exact H'']. rewrite E in E'. injection E' as <-.
      rewrite <- (splits_dyn _ _ _ _ S). apply (splits_dyn _ _ _ _ S').
  Qed.

  Lemma sorted_stored infos : forall (I st : vmap), sorted st -> sorted (stored infos I st).
  Proof.
    induction infos as [|i infos IH]; intros I st S; [exact S|]. cbn.
    destruct (lookup (in_name i) I); apply IH; [apply sorted_set|]; exact S.
  Qed.

  Lemma prepare_general infos (I : vmap) dyn :
    NoDup (map in_name infos) -> ranks_ok infos I -> acceptable infos I dyn ->
    exists st, prepare_inputs infos I = Ok st /\ sorted st /\
      (forall n, In n (keys st) <-> In n (map in_name infos)) /\
      forall i, In i infos -> exists t u d sub,
        lookup (in_name i) I = Some t /\ splits i t d sub /\
        lookup (in_name i) st = Some u /\ expand t (dyn ++ sub ++ in_base i) = Ok u.
  Proof.
    intros N R (ds & H & B). unfold prepare_inputs. rewrite (prep1_split infos I [] ds [] H).
    apply infer_all_iff in B as B'. rewrite B'. cbn [rmap bind fst snd].
    assert (Pr : forall i, In i infos -> lookup (in_name i) I <> None).
    { intros i Ii. clear - H Ii. induction H as [|j d js ds (t & sub & E & _) H IH]; [destruct Ii|].
      destruct Ii as [<-|Ii]; [congruence|apply IH; exact Ii]. }
    destruct (prep2_spec infos I (stored infos I []) dyn ds N H R (acceptable_fits _ _ B)) as (st & P & K & _ & So & Q).
    { intros i Ii. apply lookup_stored; auto. }
    exists st. split; [exact P|]. split; [apply So; apply sorted_stored; constructor|]. split; [|exact Q].
    intros n. rewrite K, keys_stored by exact Pr. cbn. tauto.
  Qed.

  Lemma prepare_ok infos (I : vmap) dyn :
    NoDup (map in_name infos) -> ranks_ok infos I -> acceptable infos I dyn ->
    exists st, prepare_inputs infos I = Ok st /\ prepared infos I dyn st.
  Proof.
    intros N R A. destruct (prepare_general infos I dyn N R A) as (st & P & _ & K & Q).
    exists st. split; [exact P|]. split; [exact K|]. intros i Ii.
    destruct (Q i Ii) as (t & u & d & sub & E & S & U & X).
    destruct (R i t Ii E) as [W _]. destruct (expand_ok t u _ W X) as [X1 X2].
    exists t, u, d, sub. auto.
  Qed.

  Lemma prepare_err infos (I : vmap) :
    ranks_ok infos I -> (forall dyn, ~ acceptable infos I dyn) -> exists e, prepare_inputs infos I = Err e.
  Proof.
    intros R NA. unfold prepare_inputs. destruct (prep1_cases infos I R) as [[ds H]|[_ H]].
    - rewrite (prep1_split infos I [] ds [] H). destruct (infer_all [] ds) as [dyn|e] eqn:E; cbn; [|eauto].
      exfalso. apply (NA dyn). exists ds. split; [exact H|]. apply infer_all_iff. exact E.
    - destruct (H [] []) as [e ->]. cbn. eauto.
  Qed.

  (** The state depends only on the declared inputs. *)
  Lemma prepare_ignores infos (I I' : vmap) :
    (forall i, In i infos -> lookup (in_name i) I = lookup (in_name i) I') ->
    prepare_inputs infos I = prepare_inputs infos I'.
  Proof.
    intros H. unfold prepare_inputs. f_equal.
    generalize (@nil nat). generalize (@nil (string * tensor V)).
    induction infos as [|i infos IH]; intros st d0; [reflexivity|]. cbn.
    rewrite (H i (or_introl eq_refl)). destruct (lookup (in_name i) I'); [|reflexivity].
    destruct (validate_input i t); cbn; [|reflexivity].
    destruct (infer_size d0 _); cbn; [|reflexivity]. apply IH. intros j Ij. apply H. right. exact Ij.
  Qed.

  Lemma prepare_only infos (I : vmap) st :
    NoDup (map in_name infos) -> ranks_ok infos I -> prepare_inputs infos I = Ok st ->
    exists dyn, acceptable infos I dyn /\ prepared infos I dyn st.
  Proof.
    intros N R H. destruct (prep1_cases infos I R) as [[ds F]|[_ F]].
    - destruct (infer_all [] ds) as [dyn|e] eqn:E.
      + assert (A : acceptable infos I dyn) by (exists ds; split; [exact F|apply infer_all_iff; exact E]).
        destruct (prepare_ok infos I dyn N R A) as (st' & H' & P). rewrite H in H'. injection H' as <-. eauto.
      + unfold prepare_inputs in H. rewrite (prep1_split infos I [] ds [] F), E in H. discriminate.
    - destruct (F [] []) as [e E]. unfold prepare_inputs in H. rewrite E in H. discriminate.
  Qed.

  (** A declared input that is missing or has another base shape raises, whatever the
      other inputs are. *)
  Lemma prepare_bad infos (I : vmap) i :
    In i infos ->
    (lookup (in_name i) I = None \/
     exists t, lookup (in_name i) I = Some t /\ forall pre, t_shape t <> pre ++ in_base i) ->
    exists e, prepare_inputs infos I = Err e.
  Proof.
    intros Ii H. unfold prepare_inputs.
    assert (G : forall st d0, exists e, prep1 infos I st d0 = Err e).
    { induction infos as [|j infos IH]; [destruct Ii|]. intros st d0. cbn [prep1].
      destruct Ii as [->|Ii].
      - destruct H as [->|(t & -> & B)]; [eauto|]. destruct (validate_input i t) as [[]|] eqn:Vd; cbn [bind]; [|eauto].
        apply validate_iff in Vd as [pre P]. exfalso. exact (B pre P).
      - destruct (lookup (in_name j) I) as [t|]; [|eauto]. destruct (validate_input j t); cbn [bind]; [|eauto].
        destruct (infer_size _ _); cbn [bind]; [|eauto]. apply IH. exact Ii. }
    destruct (G [] []) as [e ->]. cbn. eauto.
  Qed.
End Prep.
