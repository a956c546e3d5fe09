(** Lemmas for C78: swapping parameters, stacking gradients. *)
From Verif Require Import Base BaseProofs Tensor TensorProofs Spec Broadcast SpecBroadcast BroadcastProofs Pack PackProofs Implicit Jac SpecJac SpecAlgebra EagerModel SpecEagerModel EagerSeedProofs EagerModelProofs EagerCallProofs EagerTwinProofs EagerParam SpecEagerParam.
Local Open Scope string_scope.
Local Open Scope list_scope.

Section Swap.
  Context {V : Type}.
  Implicit Types (P : eparams V) (leaf : smap (tensor V)).

  Lemma replace_id P n p : lookup n P = Some p -> replace P n p = P.
  Proof.
    induction P as [|[k q] P IH]; [discriminate|]. cbn. destruct (String.eqb_spec n k) as [->|N].
    - intros E. injection E as ->. rewrite String.eqb_refl. reflexivity.
    - intros E. destruct (String.eqb_spec k n); [congruence|]. rewrite IH by exact E. reflexivity.
  Qed.
  Lemma replace_twice P n p q : replace (replace P n p) n q = replace P n q.
  Proof.
    induction P as [|[k r] P IH]; [reflexivity|]. cbn. destruct (String.eqb k n) eqn:E; cbn; rewrite E; [reflexivity|]. rewrite IH. reflexivity.
  Qed.
  Lemma replace_comm P n k p q : n <> k -> replace (replace P n p) k q = replace (replace P k q) n p.
  Proof.
    intros N. induction P as [|[j r] P IH]; [reflexivity|]. cbn. destruct (String.eqb j n) eqn:E, (String.eqb j k) eqn:F; cbn; rewrite ?E, ?F; try reflexivity.
    - apply String.eqb_eq in E, F. congruence.
    - rewrite IH. reflexivity.
  Qed.
  Lemma put_back_replace n p (saved : list (string * eparam V)) : forall P, ~ In n (map fst saved) -> put_back (replace P n p) saved = replace (put_back P saved) n p.
  Proof.
    induction saved as [|[k q] l IH]; intros P N; [reflexivity|]. cbn [map fst In] in N.
    change (put_back (replace (replace P n p) k q) l = replace (put_back (replace P k q) l) n p). rewrite <- IH by tauto. f_equal. apply replace_comm. intros E. apply N. left. congruence.
  Qed.
  Lemma saved_keys P leaf n : In n (map fst (saved_of P leaf)) -> In n (map fst leaf).
  Proof.
    intros H. apply in_map_iff in H as ([k p] & <- & H). apply in_flat_map in H as ([q t] & I & H). cbn [fst] in *. destruct (lookup q P); [|destruct H]. destruct H as [H|[]]. injection H as <- <-. exact (in_map fst _ _ I).
  Qed.
  Lemma saved_other P n p leaf : ~ In n (map fst leaf) -> saved_of (replace P n p) leaf = saved_of P leaf.
  Proof.
    induction leaf as [|[k t] l IH]; intros N; [reflexivity|]. cbn in N. unfold saved_of in *. cbn [flat_map fst]. rewrite IH by tauto. rewrite replace_other by tauto. reflexivity.
  Qed.
  Lemma swap_restores leaf : forall P, NoDup (map fst leaf) -> put_back (install P leaf) (saved_of P leaf) = P.
  Proof.
    induction leaf as [|[q t] l IH]; intros P N; [reflexivity|]. cbn [map fst] in N. apply NoDup_cons_iff in N as [Nq N]. cbn [install]. unfold saved_of. cbn [flat_map fst].
    destruct (lookup q P) as [p|] eqn:E; [|exact (IH P N)]. change (flat_map _ l) with (saved_of P l). set (P' := replace P q _). cbn [app]. unfold put_back. cbn [fold_left fst snd].
    change (fold_left _ (saved_of P l) (replace (install P' l) q p)) with (put_back (replace (install P' l) q p) (saved_of P l)).
    rewrite put_back_replace by (intros X; exact (Nq (saved_keys _ _ _ X))). rewrite <- (saved_other P q (mkEP t (ep_base p) (ep_sub p)) l Nq). fold P'. rewrite (IH P' N). unfold P'. rewrite replace_twice. exact (replace_id P q p E).
  Qed.
  Lemma replace_at (pre P : eparams V) q p p' : ~ In q (map fst pre) -> replace (pre ++ (q, p) :: P) q p' = pre ++ (q, p') :: P.
  Proof.
    induction pre as [|[k r] pre IH]; intros N; cbn in *; [rewrite String.eqb_refl; reflexivity|]. destruct (String.eqb_spec k q); [tauto|]. rewrite IH by tauto. reflexivity.
  Qed.
  Lemma lookup_at (pre P : eparams V) q p : ~ In q (map fst pre) -> lookup q (pre ++ (q, p) :: P) = Some p.
  Proof.
    induction pre as [|[k r] pre IH]; intros N; cbn in *; [rewrite String.eqb_refl; reflexivity|]. destruct (String.eqb_spec q k); [subst; tauto|]. apply IH. tauto.
  Qed.
  Lemma installed_gen P : forall pre leaf, NoDup (map fst (pre ++ P)) -> map fst leaf = map fst P -> values (install (pre ++ P) leaf) = values pre ++ leaf.
  Proof.
    induction P as [|[q p] P IH]; intros pre leaf N K.
    - destruct leaf; [|discriminate]. cbn. rewrite !app_nil_r. reflexivity.
    - destruct leaf as [|[q' t] leaf]; [discriminate|]. cbn [map fst] in K. injection K as -> K. cbn [install].
      assert (Nq : ~ In q (map fst pre)). { rewrite map_app in N. cbn [map fst] in N. apply NoDup_remove_2 in N. rewrite in_app_iff in N. tauto. }
      rewrite lookup_at, replace_at by exact Nq. change (pre ++ (q, ?x) :: P) with (pre ++ [(q, x)] ++ P). rewrite app_assoc, IH; [|rewrite <- app_assoc; rewrite !map_app in *; exact N|exact K].
      unfold values. rewrite map_app, <- app_assoc. reflexivity.
  Qed.
  Lemma installed P leaf : NoDup (keys P) -> map fst leaf = map fst P -> values (install P leaf) = leaf.
  Proof. intros N K. exact (installed_gen P [] leaf N K). Qed.
  Lemma values_keys P : map fst (values P) = map fst P.
  Proof. unfold values. rewrite map_map. reflexivity. Qed.
  Lemma expanded_keys P C leaf : expanded_leaves P C = Ok leaf -> map fst leaf = map fst P.
  Proof.
    unfold expanded_leaves. revert leaf. induction P as [|[q p] P IH]; intros leaf E; cbn [mapM] in E; [injection E as <-; reflexivity|].
    destruct (expand _ _) as [t|]; [|discriminate]. cbn [bind] in E. destruct (mapM _ P) as [l|]; [|discriminate]. cbn [bind] in E. injection E as <-. cbn. f_equal. exact (IH l eq_refl).
  Qed.

  (** Whatever happens, the parameters are afterwards what they were. *)
  Lemma restored_all zero one add (m : emodel V) ad P I W : NoDup (keys P) ->
    fst (eager_param_jacobian zero one m ad P I) = P /\ fst (eager_param_vjp zero add m ad P I W) = P.
  Proof.
    intros N. split.
    - unfold eager_param_jacobian, adapter_param_jacobian. destruct (let* args := typed_args m I in _) as [[args outs]|]; [|reflexivity].
      destruct P as [|p P]; [reflexivity|]. unfold ad_param_jacobian. set (PP := p :: P) in *. destruct (call_batch PP (em_ins m) args) as [C|]; [|reflexivity]. cbn [bind].
      destruct (expanded_leaves PP C) as [leaf|] eqn:E; [|reflexivity]. cbn [bind]. unfold with_swapped. cbn [fst]. apply swap_restores. rewrite (expanded_keys _ _ _ E). exact N.
    - unfold eager_param_vjp, adapter_param_vjp. destruct (let* args := typed_args m I in _) as [args|]; [|reflexivity].
      destruct P as [|p P]; [reflexivity|]. unfold ad_param_vjp, with_swapped. cbn [fst]. apply swap_restores. rewrite values_keys. exact N.
  Qed.
End Swap.

Section Stack.
  Context {V : Type}.
  Implicit Types (ts : list (tensor V)).
  Lemma flat_map_list {A} (dflt : A) (f : A -> list V) (l : list A) : flat_map f l = flat_map (fun i => f (nth i l dflt)) (seq 0 (length l)).
  Proof.
    induction l as [|a l IH]; [reflexivity|]. cbn [length seq flat_map nth]. f_equal. rewrite IH, <- seq_shift, !flat_map_concat_map, map_map. reflexivity.
  Qed.
  Lemma row_nth st n b j (l : list V) : length l = n * st -> b < n -> j < st -> nth_error (row_data st b l) j = nth_error l (b * st + j).
  Proof.
    intros L Hb Hj. unfold row_data. rewrite nth_error_firstn. 2: exact Hj. rewrite nth_error_skipn. reflexivity.
  Qed.
  Lemma stack_ok C pb d ts : ts <> [] -> (forall t, In t ts -> wf t /\ t_dev t = d /\ t_shape t = C ++ pb) ->
    exists u, stack ts (length C) = Ok u /\ wf u /\ t_dev u = d /\ t_shape u = C ++ length ts :: pb /\
      forall b k j t, b < numel C -> nth_error ts k = Some t -> j < numel pb -> nth_error (t_data u) ((b * length ts + k) * numel pb + j) = nth_error (t_data t) (b * numel pb + j).
  Proof.
    intros Ne H. unfold stack. destruct ts as [|t0 ts']; [contradiction|]. set (ts := t0 :: ts') in *. destruct (H t0 (or_introl eq_refl)) as (W0 & D0 & S0).
    assert (Lt : Nat.ltb (dim t0) (length C) = false). { apply Nat.ltb_ge. unfold dim. rewrite S0, app_length. lia. } rewrite Lt.
    assert (F : forallb (fun u => shape_eqb (t_shape u) (t_shape t0) && device_eqb (t_dev u) (t_dev t0)) ts = true).
    { apply forallb_forall. intros u Iu. destruct (H u Iu) as (_ & Du & Su). rewrite Su, Du, S0, D0, shape_eqb_refl, device_eqb_refl. reflexivity. }
    rewrite F, S0, firstn_app, Nat.sub_diag, firstn_all, skipn_app, Nat.sub_diag, skipn_all. cbn [firstn skipn app]. rewrite app_nil_r. eexists. split; [reflexivity|]. cbn [t_dev t_shape t_data].
    assert (Wl : forall t, In t ts -> length (t_data t) = numel C * numel pb) by (intros t It; destruct (H t It) as (Wt & _ & St); unfold wf in Wt; rewrite Wt, St; apply numel_app).
    assert (L1 : forall b, b < numel C -> forall i, In i (seq 0 (length ts)) -> length (row_data (numel pb) b (t_data (nth i ts t0))) = numel pb).
    { intros b Hb i Ii. apply in_seq in Ii. apply (row_data_len _ _ (numel C)); [|exact Hb]. apply Wl. apply nth_In. lia. }
    assert (L2 : forall b, In b (seq 0 (numel C)) -> length (flat_map (fun u => row_data (numel pb) b (t_data u)) ts) = length ts * numel pb).
    { intros b Ib. apply in_seq in Ib. rewrite (flat_map_list t0). apply flat_map_const_length. apply L1. lia. }
    split; [unfold wf; cbn [t_data t_shape]; rewrite (flat_map_const_length _ _ _ _ L2), numel_app, numel_cons; reflexivity|]. split; [exact D0|]. split; [reflexivity|].
    intros b k j t Hb Hk Hj. assert (Kl : k < length ts) by (apply nth_error_Some; congruence).
    replace ((b * length ts + k) * numel pb + j) with (b * (length ts * numel pb) + (k * numel pb + j)) by nia.
    rewrite (flat_map_nth _ _ _ _ _ _ L2) by nia. cbn [Nat.add]. rewrite (flat_map_list t0), (flat_map_nth _ _ _ _ _ _ (L1 b Hb)) by assumption. cbn [Nat.add].
    rewrite (nth_error_nth _ _ t0 Hk). apply (row_nth _ (numel C)); [apply Wl; exact (nth_error_In _ _ Hk)|exact Hb|exact Hj].
  Qed.
End Stack.
