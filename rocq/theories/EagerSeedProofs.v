(** Proofs about the eager model (EagerModel.v): seeds and blocks. *)
From Verif Require Import Base BaseProofs Tensor TensorProofs Spec SpecMap SmapProofs Broadcast SpecBroadcast BroadcastProofs Pack PackProofs Implicit Mat Jac JacModel SpecJac SpecAlgebra MatProofs AlgebraProofs EagerModel SpecEagerModel EagerModelProofs.
From Coq Require Import Ring.
Local Open Scope list_scope.

Section Seeds.
  Context {V : Type}.
  Variables zero one : V.

  Lemma numel_cons n sh : numel (n :: sh) = n * numel sh. Proof. reflexivity. Qed.
  Lemma pull_lead n k j e : j < n -> length e = k -> pull (n :: repeat 1 k) (j :: e) = j :: repeat 0 k.
  Proof.
    intros Hj He. unfold pull. cbn [length]. rewrite repeat_length, He, Nat.sub_diag. cbn [skipn combine map fst snd]. f_equal.
    - destruct (Nat.eqb_spec n 1); lia.
    - revert e He. induction k as [|k IH]; intros e He; [destruct e; [reflexivity|discriminate]|]. destruct e as [|x e]; [discriminate|]. cbn. f_equal. apply IH. cbn in He. lia.
  Qed.
  Lemma ravel_ones k base x : ravel (repeat 1 k ++ base) (repeat 0 k ++ x) = ravel base x.
  Proof. induction k as [|k IH]; [reflexivity|]. cbn [repeat app ravel]. rewrite IH. reflexivity. Qed.
  Lemma lead_fits n (C : list nat) : length (n :: repeat 1 (length C)) <= length (n :: C) /\
    forall p a b, rsize (n :: repeat 1 (length C)) p = Some a -> rsize (n :: C) p = Some b -> a = b \/ a = 1.
  Proof.
    split; [cbn; rewrite repeat_length; lia|]. intros p a b Ha Hb. unfold rsize in *. cbn [rev] in *.
    assert (L : length (rev (repeat 1 (length C))) = length (rev C)) by (rewrite !rev_length, repeat_length; reflexivity).
    destruct (Nat.lt_ge_cases p (length (rev C))) as [Lt|Ge].
    - rewrite nth_error_app1 in Ha by lia. right. apply nth_error_In in Ha. apply in_rev in Ha. apply repeat_spec in Ha. exact Ha.
    - rewrite nth_error_app2 in Ha by lia. rewrite nth_error_app2 in Hb by lia. rewrite L in Ha. left. congruence.
  Qed.

  (** The identity seed is the identity at every batch entry. *)
  Lemma identity_seed_ok base C d : exists w, identity_seed zero one base C d = Ok w /\ w_k w = 1 /\ w_sub w = 0 /\ wf (w_data w) /\ t_dev (w_data w) = d /\
    t_shape (w_data w) = numel base :: C ++ base /\
    forall j e x, j < numel base -> index_of C e -> index_of base x -> elem (w_data w) (j :: e ++ x) = Some (if Nat.eqb j (ravel base x) then one else zero).
  Proof.
    unfold identity_seed. set (n := numel base). set (sh := n :: repeat 1 (length C) ++ base).
    assert (Hn : numel sh = numel (t_shape (eye zero one n d))). { unfold sh. rewrite numel_cons, numel_app, numel_ones. change (t_shape _) with [n; n]. rewrite !numel_cons. change (numel []) with 1. lia. }
    rewrite (reshape_ok _ _ Hn). cbn [bind]. set (s := mkT sh _ _).
    assert (Ws : wf s) by exact (reshape_wf _ _ (eye_wf zero one n d) Hn).
    assert (Hs : t_shape s = (n :: repeat 1 (length C)) ++ base) by reflexivity. destruct (lead_fits n C) as [L1 L2].
    destruct (expand_batch s _ base (n :: C) Hs L1 L2) as [u U]. change (n :: C ++ base) with ((n :: C) ++ base). rewrite U. cbn [bind].
    destruct (expand_ok s u _ Ws U) as [Su (Wu & Du & Eu)]. exists (mkW u 0 1). cbn [w_data w_k w_sub].
    split; [reflexivity|]. split; [reflexivity|]. split; [reflexivity|]. split; [exact Wu|]. split; [exact Du|]. split; [exact Su|].
    intros j e x Hj Ie Ix. pose proof (PackProofs.index_length _ _ Ie) as Le. pose proof (PackProofs.index_length _ _ Ix) as Lx.
    change (j :: e ++ x) with ((j :: e) ++ x). rewrite Eu.
    2:{ rewrite Su. apply index_app; [constructor; assumption|exact Ix]. }
    rewrite Hs, pull_app; [|cbn; rewrite repeat_length; lia|exact Lx|exact Ix]. rewrite pull_lead by assumption.
    transitivity (elem (eye zero one n d) [j; ravel base x]).
    - apply elem_reshape. change (t_shape (eye zero one n d)) with [n; n]. unfold sh. cbn [app ravel]. rewrite numel_app, numel_ones, ravel_ones, Nat.mul_1_l. change (numel base) with n. change (numel []) with 1. cbn [numel fold_right]. lia.
    - apply eye_elem; [exact Hj|]. apply ravel_lt. exact Ix.
  Qed.

  (** The seed axis of a block becomes its trailing base axes. *)
  Lemma movedim0_ok (t : tensor V) k r : wf t -> t_shape t = k :: r -> exists u, movedim0 t = Ok u /\ wf u /\ t_dev u = t_dev t /\ t_shape u = r ++ [k] /\
    forall j y, j < k -> index_of r y -> nth_error (t_data u) (ravel r y * k + j) = elem t (j :: y).
  Proof.
    intros W S. unfold movedim0. rewrite S. eexists. split; [reflexivity|]. cbn [t_dev t_shape t_data].
    assert (W' : length (t_data t) = k * numel r) by (unfold wf in W; rewrite S in W; exact W).
    set (g := fun j => flat_map (fun i => match nth_error (t_data t) (i * numel r + j) with Some x => [x] | None => [] end) (seq 0 k)).
    assert (One : forall j i, j < numel r -> i < k -> exists x, nth_error (t_data t) (i * numel r + j) = Some x).
    { intros j i Hj Hi. destruct (nth_error (t_data t) (i * numel r + j)) eqn:E; [eauto|]. apply nth_error_None in E. nia. }
    assert (L1 : forall j, j < numel r -> forall i, In i (seq 0 k) -> length (match nth_error (t_data t) (i * numel r + j) with Some x => [x] | None => [] end) = 1).
    { intros j Hj i Hi. apply in_seq in Hi. destruct (One j i Hj ltac:(lia)) as [x ->]. reflexivity. }
    assert (Lg : forall j, In j (seq 0 (numel r)) -> length (g j) = k).
    { intros j Hj. apply in_seq in Hj. unfold g. rewrite (flat_map_const_length _ 1) by (apply L1; lia). lia. }
    split; [unfold wf; cbn [t_data t_shape]; rewrite (flat_map_const_length g k), numel_app, numel_cons by exact Lg; change (numel []) with 1; lia|]. split; [reflexivity|]. split; [reflexivity|].
    intros j y Hj Iy. pose proof (ravel_lt _ _ Iy) as Hy. rewrite (flat_map_nth g k) by (exact Lg || assumption). cbn [Nat.add]. unfold g.
    replace j with (j * 1 + 0) at 1 by lia. rewrite (flat_map_nth _ 1) by (try (apply L1; exact Hy); lia). cbn [Nat.add]. unfold elem. rewrite S. cbn [ravel].
    destruct (One _ _ Hy Hj) as [x E]. rewrite E. reflexivity.
  Qed.
  Lemma per_pair_ok ib (b : wrapper V) r : wf (w_data b) -> t_shape (w_data b) = numel ib :: r ->
    exists t, per_pair ib b = Ok t /\ wf t /\ t_dev t = t_dev (w_data b) /\ t_shape t = r ++ ib /\
      forall z y, index_of r z -> index_of ib y -> elem t (z ++ y) = elem (w_data b) (ravel ib y :: z).
  Proof.
    intros W S. unfold per_pair. destruct (movedim0_ok _ _ _ W S) as (u & -> & Wu & Du & Su & Eu). cbn [bind].
    assert (Rl : removelast (t_shape u) = r) by (rewrite Su; apply removelast_last).
    assert (Hn : numel (r ++ ib) = numel (t_shape u)) by (rewrite Su, !numel_app, numel_cons; change (numel []) with 1; lia).
    assert (G : exists t, (match ib with [] => Ok (squeeze_last u) | _ => reshape u (removelast (t_shape u) ++ ib) end) = Ok t /\ t = mkT (r ++ ib) (t_data u) (t_dev u)).
    { rewrite Rl. destruct ib as [|a ib].
      - unfold squeeze_last. change (numel []) with 1 in Su. rewrite Rl, Su, last_last. cbn. rewrite app_nil_r. eauto.
      - rewrite (reshape_ok _ _ Hn). eauto. }
    destruct G as (t & G & ->). exists (mkT (r ++ ib) (t_data u) (t_dev u)). split; [exact G|]. split; [exact (reshape_wf u _ Wu Hn)|]. split; [exact Du|]. split; [reflexivity|].
    intros z y Iz Iy. pose proof (PackProofs.index_length _ _ Iz) as Lz. rewrite <- (Eu (ravel ib y) z (ravel_lt _ _ Iy) Iz). unfold elem. cbn [t_data t_shape]. rewrite (ravel_app _ _ _ _ Lz). reflexivity.
  Qed.

  (** One direction: the axis of size 1 in front. *)
  Lemma squeeze0_ok (t : tensor V) r : wf t -> t_shape t = 1 :: r -> wf (squeeze0 t) /\ t_dev (squeeze0 t) = t_dev t /\ t_shape (squeeze0 t) = r /\
    forall y, elem (squeeze0 t) y = elem t (0 :: y).
  Proof.
    intros W S. unfold squeeze0. rewrite S. cbn [t_dev t_shape]. split; [unfold wf in *; rewrite S in W; cbn [t_data t_shape]; rewrite W, numel_cons; lia|]. split; [reflexivity|]. split; [reflexivity|].
    intros y. unfold elem. rewrite S. reflexivity.
  Qed.

  Section Sum.
    Variable add : V -> V -> V.
    Lemma zip_same_ok (a b : tensor V) : wf a -> wf b -> t_shape a = t_shape b -> t_dev a = t_dev b -> exists u, zip_same add a b = Ok u /\ wf u /\ t_dev u = t_dev a /\ t_shape u = t_shape a /\
      forall idx x y, elem a idx = Some x -> elem b idx = Some y -> elem u idx = Some (add x y).
    Proof.
      intros Wa Wb S D. unfold zip_same. rewrite <- S, shape_eqb_refl, <- D, device_eqb_refl. cbn [andb]. eexists. split; [reflexivity|]. cbn [t_dev t_shape].
      assert (L : length (t_data a) = length (t_data b)) by (unfold wf in *; congruence).
      split; [unfold wf in *; cbn [t_data t_shape]; rewrite map_length, combine_length, <- L, Nat.min_id; exact Wa|]. split; [reflexivity|]. split; [reflexivity|].
      intros idx x y. unfold elem. cbn [t_data t_shape]. rewrite <- S. generalize (ravel (t_shape a) idx). clear - L. revert L. generalize (t_data a), (t_data b).
      induction l as [|p l IH]; intros [|q l'] L n; try discriminate; destruct n; cbn; try discriminate; try congruence. apply IH. cbn in L. lia.
    Qed.
    Lemma sum_blocks_ok sh d (l : list (tensor V)) : forall acc, wf acc -> t_dev acc = d -> t_shape acc = sh -> Forall (fun t => wf t /\ t_dev t = d /\ t_shape t = sh) l ->
      exists u, sum_blocks add acc l = Ok u /\ wf u /\ t_dev u = d /\ t_shape u = sh /\
        forall idx x xs, elem acc idx = Some x -> Forall2 (fun t y => elem t idx = Some y) l xs -> elem u idx = Some (fold_left add xs x).
    Proof.
      induction l as [|t l IH]; intros acc W D S F.
      - exists acc. repeat split; auto. intros idx x xs E Fx. inversion Fx. exact E.
      - apply Forall_cons_iff in F as [(Wt & Dt & St) F]. cbn [sum_blocks]. destruct (zip_same_ok acc t W Wt) as (a & -> & Wa & Da & Sa & Ea); [congruence|congruence|]. cbn [bind].
        destruct (IH a Wa) as (u & E & Wu & Du & Su & Eu); [congruence|congruence|exact F|]. exists u. split; [exact E|]. split; [exact Wu|]. split; [exact Du|]. split; [exact Su|].
        intros idx x xs Ex Fx. inversion Fx as [|? y ? ys Ey Fy]; subst. cbn [fold_left]. apply Eu; [exact (Ea idx x y Ex Ey)|exact Fy].
    Qed.
  End Sum.
End Seeds.
