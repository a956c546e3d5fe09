(** Maps of tensors with a common leading axis, seen row by row. *)
From Verif Require Import Base BaseProofs SpecMap SmapProofs Tensor Spec TensorProofs BatchChunk SelectProofs Pack Implicit Substep SpecSubstep.

Section Tables.
  Context {V : Type}.
  Variable d : device.
  Notation vmap := (smap (tensor V)).

  Notation rowsof := (@rowsof V d).
  Notation table := (@table V d).

  Lemma rowsof_batched n sh t : rowsof n sh t -> batched n t.
  Proof. intros [_ [_ S]]. exists sh. exact S. Qed.
  Lemma rowsof_numel n sh t : rowsof n sh t -> numel (tl (t_shape t)) = numel sh.
  Proof. intros [_ [_ S]]. rewrite S. reflexivity. Qed.
  Lemma rowsof_len n sh t : rowsof n sh t -> length (t_data t) = n * numel sh.
  Proof. intros [W [_ S]]. unfold wf in W. rewrite W, S. reflexivity. Qed.
  Lemma rowsof_row_length n sh t i : rowsof n sh t -> i < n -> length (row t i) = numel sh.
  Proof. intros R H. unfold row. rewrite (rowsof_numel _ _ _ R). apply (row_data_length _ _ n); [apply (rowsof_len _ _ _ R)|exact H]. Qed.

  Lemma rowsof_select n sh t idx : rowsof n sh t -> idx_ok n idx -> exists u, index_select0 t idx = Ok u /\ rowsof (length idx) sh u /\
    forall j i, nth_error idx j = Some i -> row u j = row t (Z.to_nat i).
  Proof.
    intros R I. pose proof R as [W [D S]]. exists (sel idx t). split; [apply (index_select0_ok n); [eapply rowsof_batched; exact R|exact I]|]. split.
    - split; [|split; [exact D|unfold sel; cbn [t_shape]; rewrite S; reflexivity]]. unfold wf, sel. cbn [t_data t_shape].
      rewrite <- (flat_map_map (fun j => row_data (numel (tl (t_shape t))) j (t_data t)) Z.to_nat).
      rewrite (flat_map_length_rows _ n); [rewrite map_length; reflexivity| |apply idx_ok_nat; exact I].
      rewrite (rowsof_numel _ _ _ R). apply (rowsof_len _ _ _ R).
    - intros j i H. eapply (sel_rows n); [exact W|eapply rowsof_batched; exact R|exact I|exact H].
  Qed.

  Lemma nodup_to_nat n idx : idx_ok n idx -> NoDup idx -> NoDup (map Z.to_nat idx).
  Proof.
    intros Hi N. induction N as [|i l I N IH]; [constructor|]. inversion Hi as [|? ? H0 Hi']; subst. cbn [map]. constructor; [|apply IH; exact Hi'].
    intros J. apply in_map_iff in J as [j [E J]]. unfold idx_ok in Hi'. rewrite Forall_forall in Hi'. specialize (Hi' j J).
    assert (j = i) by lia. subst j. contradiction.
  Qed.
  Lemma rowsof_copy n sh t s idx : rowsof n sh t -> rowsof (length idx) sh s -> idx_ok n idx -> NoDup idx ->
    exists u, index_copy0 t idx s = Ok u /\ rowsof n sh u /\
      (forall j i, nth_error idx j = Some i -> row u (Z.to_nat i) = row s j) /\
      (forall i, i < n -> ~ In (Z.of_nat i) idx -> row u i = row t i).
  Proof.
    intros R Q I N. pose proof R as [W [D S]]. pose proof Q as [W' [D' S']]. pose proof (nodup_to_nat _ _ I N) as Nn.
    assert (Lt : length (t_data t) = n * numel (tl (t_shape t))) by (rewrite (rowsof_numel _ _ _ R); apply (rowsof_len _ _ _ R)).
    assert (Ls : length (t_data s) = length (map Z.to_nat idx) * numel (tl (t_shape t)))
      by (rewrite (rowsof_numel _ _ _ R), map_length; apply (rowsof_len _ _ _ Q)).
    exists (put idx s t). split; [apply (index_copy0_ok n); [eapply rowsof_batched; exact R|rewrite S', S; reflexivity|exact I]|]. split; [|split].
    - split; [|split; [exact D|exact S]]. unfold wf, put. cbn [t_data t_shape].
      rewrite (put_rows_length _ n); [rewrite S; reflexivity|exact Lt|apply idx_ok_nat; exact I|exact Ls].
    - intros j i H. change (row (put idx s t) (Z.to_nat i)) with (row_data (numel (tl (t_shape t))) (Z.to_nat i)
        (put_rows (numel (tl (t_shape t))) (map Z.to_nat idx) (t_data s) (t_data t))).
      rewrite (put_rows_same _ n _ _ _ j (Z.to_nat i)) with (1 := Lt); [|apply idx_ok_nat; exact I|exact Ls|exact Nn|].
      + unfold row. rewrite (rowsof_numel _ _ _ R), (rowsof_numel _ _ _ Q). reflexivity.
      + rewrite nth_error_map, H. reflexivity.
    - intros i Hi J. apply (put_rows_other _ n); [exact Lt|apply idx_ok_nat; exact I|exact Ls|exact Hi|].
      intros K. apply J. apply in_map_iff in K as [z [E K]]. unfold idx_ok in I. rewrite Forall_forall in I. specialize (I z K).
      replace (Z.of_nat i) with z by lia. exact K.
  Qed.

  Lemma table_in n ks m k t : table n ks m -> In (k, t) m -> exists sh, lookup k ks = Some sh /\ rowsof n sh t.
  Proof.
    intros [N [K R]] I. apply (lookup_nodup _ _ _ (sorted_nodup _ N)) in I. destruct (lookup k ks) as [sh|] eqn:E.
    - exists sh. split; [reflexivity|apply (R k sh t E I)].
    - apply K in E. congruence.
  Qed.
  Lemma table_get n ks m k sh : table n ks m -> lookup k ks = Some sh -> exists t, lookup k m = Some t /\ rowsof n sh t.
  Proof.
    intros [N [K R]] E. destruct (lookup k m) as [t|] eqn:L; [exists t; split; [reflexivity|apply (R k sh t E L)]|].
    apply K in L. congruence.
  Qed.

  Lemma table_select B ks m idx : table B ks m -> idx_ok B idx -> exists m', index_select_batch m idx = Ok m' /\ table (length idx) ks m' /\
    forall k j i, nth_error idx j = Some i -> val m' k j = val m k (Z.to_nat i).
  Proof.
    intros T I. exists (vmap_ (sel idx) m). split; [|split].
    - apply vmapM_ok. intros k t J. destruct (table_in _ _ _ _ _ T J) as [sh [_ R]]. destruct (rowsof_batched _ _ _ R) as [r Hr].
      unfold dim. rewrite Hr. cbn [length Nat.leb]. apply (index_select0_ok B); [eapply rowsof_batched; exact R|exact I].
    - destruct T as [N [K R]]. split; [apply sorted_vmap; exact N|]. split.
      + intros k. rewrite <- K, lookup_vmap. destruct (lookup k m); cbn; split; congruence.
      + intros k sh t E L. rewrite lookup_vmap in L. destruct (lookup k m) as [t'|] eqn:L'; [|discriminate]. cbn in L. injection L as <-.
        destruct (rowsof_select _ _ _ idx (R k sh t' E L') I) as [u [Eu [Ru _]]].
        rewrite (index_select0_ok B) in Eu; [|eapply rowsof_batched; apply (R k sh t' E L')|exact I]. injection Eu as ->. exact Ru.
    - intros k j i H. unfold val. rewrite lookup_vmap. destruct (lookup k m) as [t|] eqn:L; [|reflexivity]. cbn [option_map].
      destruct (table_in _ _ _ _ _ T (lookup_in _ _ _ L)) as [sh [_ R]]. eapply (sel_rows B); [apply R|eapply rowsof_batched; exact R|exact I|exact H].
  Qed.

  Lemma lookup_put_map idx (sub m : vmap) k :
    lookup k (put_map idx sub m) = option_map (fun t => match lookup k sub with Some s => put idx s t | None => t end) (lookup k m).
  Proof.
    induction m as [|[k0 t0] m IH]; [reflexivity|]. cbn. destruct (String.eqb_spec k k0) as [->|]; [reflexivity|exact IH].
  Qed.
  Lemma table_scatter B ks dst sub idx : table B ks dst -> table (length idx) ks sub -> idx_ok B idx -> NoDup idx ->
    exists dst', scatter_batch dst idx sub = Ok dst' /\ table B ks dst' /\
      (forall k j i, nth_error idx j = Some i -> val dst' k (Z.to_nat i) = val sub k j) /\
      (forall k i, i < B -> ~ In (Z.of_nat i) idx -> val dst' k i = val dst k i).
  Proof.
    intros T U I N. exists (put_map idx sub dst).
    assert (P : forall k sh t, lookup k ks = Some sh -> lookup k dst = Some t -> exists s, lookup k sub = Some s /\ rowsof (length idx) sh s /\
      index_copy0 t idx s = Ok (put idx s t)).
    { intros k sh t E L. destruct (table_get _ _ _ _ _ U E) as [s [Ls Rs]]. exists s. split; [exact Ls|]. split; [exact Rs|].
      assert (Rt : rowsof B sh t) by (apply (proj2 (proj2 T) k sh t E L)).
      apply (index_copy0_ok B); [eapply rowsof_batched; exact Rt| |exact I]. destruct Rs as [_ [_ ->]]. destruct Rt as [_ [_ ->]]. reflexivity. }
    assert (C : forall k sh t, lookup k ks = Some sh -> lookup k dst = Some t -> exists s, lookup k sub = Some s /\ rowsof B sh (put idx s t) /\
      (forall j i, nth_error idx j = Some i -> row (put idx s t) (Z.to_nat i) = row s j) /\
      (forall i, i < B -> ~ In (Z.of_nat i) idx -> row (put idx s t) i = row t i)).
    { intros k sh t E L. destruct (P k sh t E L) as [s [Ls [Rs Es]]]. exists s. split; [exact Ls|].
      destruct (rowsof_copy B sh t s idx (proj2 (proj2 T) k sh t E L) Rs I N) as [u [Eu Q]]. rewrite Es in Eu. injection Eu as <-. exact Q. }
    split; [|split; [|split]].
    - apply (scatter_batch_ok B); [|exact I|].
      + apply Forall_forall. intros [k t] J. cbn [snd]. destruct (table_in _ _ _ _ _ T J) as [sh [_ R]]. eapply rowsof_batched. exact R.
      + intros k t s J L. destruct (table_in _ _ _ _ _ T J) as [sh [E R]]. destruct (P k sh t E (lookup_nodup _ _ _ (sorted_nodup _ (proj1 T)) J)) as [s' [L' [Rs _]]].
        rewrite L in L'. injection L' as <-. destruct Rs as [_ [_ ->]]. destruct R as [_ [_ ->]]. reflexivity.
    - destruct T as [Nd [K R]]. split; [unfold sorted, keys, put_map in *; rewrite map_map; exact Nd|]. split.
      + intros k. rewrite <- K, lookup_put_map. destruct (lookup k dst); cbn; split; congruence.
      + intros k sh t E L. rewrite lookup_put_map in L. destruct (lookup k dst) as [t'|] eqn:L'; [|discriminate]. cbn in L.
        destruct (C k sh t' E L') as [s [Ls [Rs _]]]. rewrite Ls in L. injection L as <-. exact Rs.
    - intros k j i H. unfold val. rewrite lookup_put_map. destruct (lookup k dst) as [t|] eqn:L.
      + destruct (table_in _ _ _ _ _ T (lookup_in _ _ _ L)) as [sh [E _]]. destruct (C k sh t E L) as [s [Ls [_ [Q _]]]].
        cbn [option_map]. rewrite Ls. apply Q. exact H.
      + cbn [option_map]. apply (proj1 (proj2 T)) in L. apply (proj1 (proj2 U)) in L. rewrite L. reflexivity.
    - intros k i Hi J. unfold val. rewrite lookup_put_map. destruct (lookup k dst) as [t|] eqn:L; [|reflexivity].
      destruct (table_in _ _ _ _ _ T (lookup_in _ _ _ L)) as [sh [E _]]. destruct (C k sh t E L) as [s [Ls [_ [_ Q]]]].
      cbn [option_map]. rewrite Ls. apply Q; assumption.
  Qed.

  (** Building a table entry by entry. *)
  Definition put_all (kvs m : vmap) : vmap := fold_left (fun m kv => set_ (fst kv) (snd kv) m) kvs m.
  Lemma put_all_sorted kvs : forall m, sorted m -> sorted (put_all kvs m).
  Proof. induction kvs as [|kv kvs IH]; intros m S; [exact S|]. apply IH. apply sorted_set. exact S. Qed.
  Lemma put_all_other kvs k : forall m, ~ In k (keys kvs) -> lookup k (put_all kvs m) = lookup k m.
  Proof.
    induction kvs as [|kv kvs IH]; intros m I; [reflexivity|]. cbn [put_all fold_left]. fold (put_all kvs (set_ (fst kv) (snd kv) m)).
    rewrite IH by (intros J; apply I; right; exact J). apply lookup_set_other. intros ->. apply I. left. reflexivity.
  Qed.
  Lemma put_all_in kvs k t : NoDup (keys kvs) -> In (k, t) kvs -> forall m, lookup k (put_all kvs m) = Some t.
  Proof.
    induction kvs as [|[k' t'] kvs IH]; intros N I m; [contradiction|]. inversion N as [|? ? I' N']; subst. cbn [put_all fold_left fst snd].
    fold (put_all kvs (set_ k' t' m)). destruct I as [E|I]; [|apply IH; assumption]. injection E as -> ->.
    rewrite put_all_other by exact I'. apply lookup_set_same.
  Qed.
  Lemma put_all_lookup kvs k : NoDup (keys kvs) -> lookup k (put_all kvs []) = lookup k kvs.
  Proof.
    intros N. destruct (lookup k kvs) as [t|] eqn:E; [apply put_all_in; [exact N|apply lookup_in; exact E]|].
    apply lookup_none in E. rewrite put_all_other by exact E. reflexivity.
  Qed.

  Lemma table_build {X} n (f : X -> string) (sh : X -> list nat) xs ts : NoDup (map f xs) -> Forall2 (fun x t => rowsof n (sh x) t) xs ts ->
    table n (map (fun x => (f x, sh x)) xs) (put_all (combine (map f xs) ts) []) /\
    forall x j, In x xs -> exists t, lookup (f x) (put_all (combine (map f xs) ts) []) = Some t /\ In (x, t) (combine xs ts) /\
      val (put_all (combine (map f xs) ts) []) (f x) j = row t j.
  Proof.
    intros N F. assert (K : keys (combine (map f xs) ts) = map f xs).
    { clear N. induction F as [|x t xs ts _ F IH]; [reflexivity|]. cbn. rewrite <- IH at 2. reflexivity. }
    assert (Nk : NoDup (keys (combine (map f xs) ts))) by (rewrite K; exact N).
    assert (L : forall k, lookup k (put_all (combine (map f xs) ts) []) = lookup k (combine (map f xs) ts)) by (intros k; apply put_all_lookup; exact Nk).
    assert (Pair : forall x t, In (x, t) (combine xs ts) -> lookup (f x) (combine (map f xs) ts) = Some t).
    { intros x t I. apply lookup_nodup; [exact Nk|]. clear - I F. induction F as [|y u xs ts _ F IH]; [contradiction|].
      destruct I as [E|I]; [injection E as -> ->; left; reflexivity|right; apply IH; exact I]. }
    split; [split; [|split]|].
    - apply put_all_sorted. apply sorted_nil.
    - intros k. rewrite L, !lookup_none, K. unfold keys. rewrite map_map. cbn [fst]. reflexivity.
    - intros k s t E Lt. rewrite L in Lt. apply lookup_in in E. apply in_map_iff in E as [x [E I]]. injection E as <- <-.
      clear - F I Lt N Pair. assert (J : exists t', In (x, t') (combine xs ts) /\ rowsof n (sh x) t').
      { clear - F I. induction F as [|y u xs ts R F IH]; [contradiction|]. destruct I as [->|I]; [exists u; split; [left; reflexivity|exact R]|].
        destruct (IH I) as [t' [J R']]. exists t'. split; [right; exact J|exact R']. }
      destruct J as [t' [J R']]. rewrite (Pair _ _ J) in Lt. injection Lt as <-. exact R'.
    - intros x j I. assert (J : exists t', In (x, t') (combine xs ts)).
      { clear - F I. induction F as [|y u xs ts R F IH]; [contradiction|]. destruct I as [->|I]; [exists u; left; reflexivity|].
        destruct (IH I) as [t' J]. exists t'. right. exact J. }
      destruct J as [t' J]. exists t'. unfold val. rewrite L, (Pair _ _ J). split; [reflexivity|]. split; [exact J|reflexivity].
  Qed.
End Tables.
