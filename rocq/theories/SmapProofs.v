(** Lemmas about [std::map] as key-sorted association lists. *)
From Verif Require Import Base BaseProofs SpecMap.
From Coq Require Import Sorted.

Lemma ascii_compare_trans a b c x :
  Ascii.compare a b = x -> Ascii.compare b c = x -> Ascii.compare a c = x.
Proof.
  unfold Ascii.compare. destruct x; rewrite ?N.compare_eq_iff, ?N.compare_lt_iff, ?N.compare_gt_iff;
    lia.
Qed.

Lemma ascii_compare_refl a : Ascii.compare a a = Eq.
Proof. unfold Ascii.compare. apply N.compare_refl. Qed.

Lemma ascii_compare_eq a b : Ascii.compare a b = Eq -> a = b.
Proof.
  unfold Ascii.compare. rewrite N.compare_eq_iff. intros H.
  rewrite <- (Ascii.ascii_N_embedding a), <- (Ascii.ascii_N_embedding b), H. reflexivity.
Qed.

Lemma key_lt_irrefl a : key_lt a a = false.
Proof.
  unfold key_lt. induction a as [|c a IH]; cbn; [reflexivity|].
  rewrite ascii_compare_refl. exact IH.
Qed.

Lemma key_lt_trans a b c : key_lt a b = true -> key_lt b c = true -> key_lt a c = true.
Proof.
  unfold key_lt. revert b c. induction a as [|x a IH]; intros [|y b] [|z c]; cbn; try easy.
  destruct (Ascii.compare x y) eqn:E1; destruct (Ascii.compare y z) eqn:E2; try easy.
  - rewrite (ascii_compare_trans _ _ _ _ E1 E2). apply IH.
  - apply ascii_compare_eq in E1. subst y. rewrite E2. easy.
  - apply ascii_compare_eq in E2. subst z. rewrite E1. easy.
  - rewrite (ascii_compare_trans _ _ _ _ E1 E2). easy.
Qed.

Lemma key_trichotomy a b : String.eqb a b = false -> key_lt a b = false -> key_lt b a = true.
Proof.
  unfold key_lt. rewrite (String.compare_antisym b a).
  intros N. destruct (String.compare a b) eqn:E; cbn; try easy.
  apply String.compare_eq_iff in E. subst. rewrite String.eqb_refl in N. discriminate.
Qed.

Lemma sorted_nodup {T} (m : smap T) : sorted m -> NoDup (keys m).
Proof.
  unfold sorted. induction (keys m) as [|k l IH]; intros H; constructor.
  - inversion H as [|? ? H1 H2]; subst. intros I. rewrite Forall_forall in H2. specialize (H2 _ I).
    cbn in H2. rewrite key_lt_irrefl in H2. discriminate.
  - apply IH. inversion H; assumption.
Qed.

Lemma sorted_tail {T} k (v : T) m : sorted ((k, v) :: m) -> sorted m.
Proof. intros H. inversion H; assumption. Qed.

Lemma sorted_nil {T} : @sorted T [].
Proof. constructor. Qed.

Lemma keys_emplace_in {T} k (v : T) m x : In x (keys (emplace k v m)) <-> x = k \/ In x (keys m).
Proof.
  induction m as [|[k' v'] m IH]; cbn; [intuition congruence|].
  destruct (String.eqb_spec k k') as [->|N]; cbn; [intuition congruence|].
  destruct (key_lt k k'); cbn; [intuition congruence|].
  unfold keys in *. rewrite IH. tauto.
Qed.

Lemma keys_set_in {T} k (v : T) m x : In x (keys (set_ k v m)) <-> x = k \/ In x (keys m).
Proof.
  induction m as [|[k' v'] m IH]; cbn; [intuition congruence|].
  destruct (String.eqb_spec k k') as [->|N]; cbn; [intuition congruence|].
  destruct (key_lt k k'); cbn; [intuition congruence|].
  unfold keys in *. rewrite IH. tauto.
Qed.

Lemma sorted_emplace {T} k (v : T) m : sorted m -> sorted (emplace k v m).
Proof.
  unfold sorted. induction m as [|[k' v'] m IH]; intros S; cbn.
  - repeat constructor.
  - destruct (String.eqb_spec k k') as [->|N]; [exact S|].
    inversion S as [|? ? S1 S2]; subst.
    destruct (key_lt k k') eqn:L; cbn.
    + constructor; [exact S|]. constructor; [exact L|].
      eapply Forall_impl; [|exact S2]. cbn. intros a. apply key_lt_trans. exact L.
    + constructor; [apply IH; exact S1|].
      apply Forall_forall. intros x I. apply keys_emplace_in in I as [->|I].
      * apply key_trichotomy; [|exact L]. apply String.eqb_neq. exact N.
      * rewrite Forall_forall in S2. apply S2. exact I.
Qed.

Lemma sorted_set {T} k (v : T) m : sorted m -> sorted (set_ k v m).
Proof.
  unfold sorted. induction m as [|[k' v'] m IH]; intros S; cbn.
  - repeat constructor.
  - destruct (String.eqb_spec k k') as [->|N]; [exact S|].
    inversion S as [|? ? S1 S2]; subst.
    destruct (key_lt k k') eqn:L; cbn.
    + constructor; [exact S|]. constructor; [exact L|].
      eapply Forall_impl; [|exact S2]. cbn. intros a. apply key_lt_trans. exact L.
    + constructor; [apply IH; exact S1|].
      apply Forall_forall. intros x I. apply keys_set_in in I as [->|I].
      * apply key_trichotomy; [|exact L]. apply String.eqb_neq. exact N.
      * rewrite Forall_forall in S2. apply S2. exact I.
Qed.

Lemma lookup_emplace_other {T} j k (v : T) m : j <> k -> lookup j (emplace k v m) = lookup j m.
Proof.
  intros N. induction m as [|[k' v'] m IH]; cbn.
  - apply String.eqb_neq in N. rewrite N. reflexivity.
  - destruct (String.eqb k k'); [reflexivity|]. destruct (key_lt k k'); cbn.
    + apply String.eqb_neq in N. rewrite N. reflexivity.
    + rewrite IH. reflexivity.
Qed.

Lemma lookup_emplace_same {T} k (v : T) m :
  sorted m -> lookup k (emplace k v m) = match lookup k m with Some w => Some w | None => Some v end.
Proof.
  unfold sorted. induction m as [|[k' v'] m IH]; intros S; cbn.
  - rewrite String.eqb_refl. reflexivity.
  - destruct (String.eqb k k') eqn:E; cbn.
    + rewrite E. reflexivity.
    + destruct (key_lt k k') eqn:L; cbn.
      * rewrite String.eqb_refl.
        assert (lookup k m = None) as ->; [|reflexivity].
        apply lookup_none. intros I. inversion S as [|? ? S1 S2]; subst.
        rewrite Forall_forall in S2. specialize (S2 _ I). cbn in S2.
        pose proof (key_lt_trans _ _ _ L S2) as B. rewrite key_lt_irrefl in B. discriminate.
      * rewrite E. apply IH. inversion S; assumption.
Qed.

Lemma lookup_set_same {T} k (v : T) m : lookup k (set_ k v m) = Some v.
Proof.
  induction m as [|[k' v'] m IH]; cbn.
  - rewrite String.eqb_refl. reflexivity.
  - destruct (String.eqb k k') eqn:E; cbn; [rewrite E; reflexivity|].
    destruct (key_lt k k'); cbn; [rewrite String.eqb_refl; reflexivity|]. rewrite E. exact IH.
Qed.

Lemma lookup_set_other {T} j k (v : T) m : j <> k -> lookup j (set_ k v m) = lookup j m.
Proof.
  intros N. pose proof N as N'. apply String.eqb_neq in N'. induction m as [|[k' v'] m IH]; cbn.
  - rewrite N'. reflexivity.
  - destruct (String.eqb_spec k k') as [->|K]; cbn.
    + rewrite N'. reflexivity.
    + destruct (key_lt k k'); cbn; [rewrite N'; reflexivity|]. rewrite IH. reflexivity.
Qed.

(** A map is determined by its lookups. *)
Lemma sorted_ext {T} (m1 m2 : smap T) :
  sorted m1 -> sorted m2 -> (forall k, lookup k m1 = lookup k m2) -> m1 = m2.
Proof.
  revert m2. induction m1 as [|[k v] m1 IH]; intros [|[k' v'] m2] S1 S2 L.
  - reflexivity.
  - specialize (L k'). cbn in L. rewrite String.eqb_refl in L. discriminate.
  - specialize (L k). cbn in L. rewrite String.eqb_refl in L. discriminate.
  - assert (k = k') as ->.
    { destruct (String.eqb_spec k k') as [E|N]; [exact E|exfalso].
      pose proof (L k) as Lk. pose proof (L k') as Lk'. cbn in Lk, Lk'.
      rewrite String.eqb_refl in Lk, Lk'. pose proof N as N0. apply String.eqb_neq in N0.
      rewrite N0 in Lk. rewrite (String.eqb_sym k' k), N0 in Lk'.
      symmetry in Lk. apply lookup_key_some in Lk. apply lookup_key_some in Lk'.
      inversion S1 as [|? ? _ F1]; inversion S2 as [|? ? _ F2]; subst.
      rewrite Forall_forall in F1, F2. specialize (F1 _ Lk'). specialize (F2 _ Lk). cbn in F1, F2.
      pose proof (key_lt_trans _ _ _ F1 F2) as B. rewrite key_lt_irrefl in B. discriminate. }
    pose proof (L k') as E. cbn in E. rewrite String.eqb_refl in E. injection E as ->.
    f_equal. apply IH; [eapply sorted_tail; eassumption|eapply sorted_tail; eassumption|].
    intros j. specialize (L j). cbn in L. destruct (String.eqb j k') eqn:J; [|exact L].
    apply String.eqb_eq in J. rewrite J. clear L.
    assert (lookup k' m1 = None) as ->.
    { apply lookup_none. apply sorted_nodup in S1. inversion S1; assumption. }
    symmetry. apply lookup_none. apply sorted_nodup in S2. inversion S2; assumption.
Qed.

Lemma sorted_vmap {T U} (f : T -> U) m : sorted m -> sorted (vmap_ f m).
Proof. unfold sorted. rewrite keys_vmap. exact (fun H => H). Qed.
