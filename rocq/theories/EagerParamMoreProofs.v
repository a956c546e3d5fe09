(** Lemmas for C78: the blocks of param_jacobian. *)
From Verif Require Import Base BaseProofs Tensor TensorProofs Spec SpecMap Broadcast SpecBroadcast BroadcastProofs Pack PackProofs Implicit Jac SpecJac SpecAlgebra MatProofs EagerModel SpecEagerModel EagerSeedProofs EagerModelProofs EagerCallProofs EagerTwinProofs EagerParam SpecEagerParam EagerParamProofs.
From Coq Require Import Ring_theory.
Local Open Scope string_scope.
Local Open Scope list_scope.

Lemma mapM_f2 {X Y} (f : X -> result Y) (Q : X -> Y -> Prop) l : (forall x, In x l -> exists y, f x = Ok y /\ Q x y) -> exists ys, mapM f l = Ok ys /\ Forall2 Q l ys.
Proof.
  induction l as [|x l IH]; intros H; [exists []; split; [reflexivity|constructor]|]. destruct (H x (or_introl eq_refl)) as (y & E & Qy). destruct IH as (ys & Es & F); [intros z Iz; apply H; right; exact Iz|].
  exists (y :: ys). cbn [mapM]. rewrite E. cbn [bind]. rewrite Es. split; [reflexivity|constructor; assumption].
Qed.
Lemma f2_nth {X Y} (R : X -> Y -> Prop) l r : Forall2 R l r -> forall i x, nth_error l i = Some x -> exists y, nth_error r i = Some y /\ R x y.
Proof. induction 1 as [|a b l r H F IH]; intros [|i] x E; cbn in E; try discriminate; [injection E as <-; exists b; auto|exact (IH i x E)]. Qed.
Lemma seq_nth_error n i : i < n -> nth_error (seq 0 n) i = Some i.
Proof. intros H. rewrite (nth_error_nth' _ 0) by (rewrite seq_length; exact H). rewrite seq_nth by exact H. reflexivity. Qed.
Lemma combine_at {X Y} (l : list X) : forall (r : list Y) k a b, nth_error l k = Some a -> nth_error r k = Some b -> nth_error (combine l r) k = Some (a, b).
Proof. induction l as [|x l IH]; intros [|y r] [|k] a b; cbn; try discriminate; [congruence|apply IH]. Qed.

Section Blocks.
  Context {V : Type}.
  Notation vmap := (smap (tensor V)).
  Variables zero one : V.
  Variables add mul sub : V -> V -> V.
  Variable opp : V -> V.
  Hypothesis R : ring_theory zero one add mul sub opp eq.
  Notation sum := (sum zero add).
  Notation sum_to := (sum_to zero add).
  Add Ring VR : R.

  Lemma sum_zero l : (forall x, In x l -> x = zero) -> sum l = zero.
  Proof using R. induction l as [|x l IH]; intros H; [reflexivity|]. cbn. rewrite (H x (or_introl eq_refl)). change (fold_right add zero l) with (sum l). rewrite IH by (intros y Iy; apply H; right; exact Iy). ring. Qed.
  Lemma sum_to_ext n f g : (forall i, i < n -> f i = g i) -> sum_to n f = sum_to n g.
  Proof using Type. intros H. unfold SpecAlgebra.sum_to. f_equal. apply map_ext_in. intros i Ii. apply H. apply in_seq in Ii. lia. Qed.
  Lemma sum_app l r : sum (l ++ r) = add (sum l) (sum r).
  Proof using R. induction l as [|x l IH]; [change (sum r = add zero (sum r)); ring|]. change (add x (sum (l ++ r)) = add (add x (sum l)) (sum r)). rewrite IH. ring. Qed.
  Lemma sum_single n f k : k < n -> (forall i, i < n -> i <> k -> f i = zero) -> sum_to n f = f k.
  Proof using R.
    intros Hk H. unfold SpecAlgebra.sum_to. assert (E : seq 0 n = seq 0 k ++ k :: seq (S k) (n - S k)).
    { replace n with (k + S (n - S k)) at 1 by lia. rewrite seq_app. reflexivity. }
    rewrite E, map_app, sum_app. cbn [map]. change (sum (f k :: ?l)) with (add (f k) (sum l)). rewrite !sum_zero.
    - ring.
    - intros x Ix. apply in_map_iff in Ix as (i & <- & Ii). apply in_seq in Ii. apply H; lia.
    - intros x Ix. apply in_map_iff in Ix as (i & <- & Ii). apply in_seq in Ii. apply H; lia.
  Qed.

  Lemma unit_row_nth n k i : i < n -> nth_error (unit_row zero one n k) i = Some (if Nat.eqb i k then one else zero).
  Proof using Type. intros H. unfold unit_row. apply (map_nth_error (fun i => if Nat.eqb i k then one else zero)). apply seq_nth_error. exact H. Qed.

  Variable m : emodel V.
  Variable d : device.
  Variable C : list nat.

  Lemma basis_seed_ok ob k (odata : tensor V) : t_dev odata = d -> t_shape odata = C ++ ob ->
    exists s, basis_seed zero one C (numel ob) k odata = Ok s /\ wf s /\ t_dev s = d /\ t_shape s = C ++ ob /\
      forall b i, b < numel C -> i < numel ob -> nth (b * numel ob + i) (t_data s) zero = if Nat.eqb i k then one else zero.
  Proof using Type.
    intros Dv Sh. unfold basis_seed, reshape. cbn [t_shape]. rewrite Sh, !numel_app, numel_cons. change (numel []) with 1. rewrite Nat.mul_1_r, Nat.eqb_refl. cbn [t_data t_dev].
    assert (L : forall b, In b (seq 0 (numel C)) -> length (unit_row zero one (numel ob) k) = numel ob) by (intros b _; unfold unit_row; rewrite map_length; apply seq_length).
    eexists. split; [reflexivity|]. split; [unfold wf; cbn [t_data t_shape]; rewrite (flat_map_const_length _ _ _ _ L), numel_app; reflexivity|]. split; [exact Dv|]. split; [reflexivity|].
    intros b i Hb Hi. cbn [t_data]. apply nth_error_nth. rewrite (flat_map_nth _ _ _ _ _ _ L Hb Hi). apply unit_row_nth. exact Hi.
  Qed.

  Lemma filled_ok (leaf : vmap) J o n w gs : Forall2 (pulls zero add mul J o n w) leaf gs ->
    exists ts, filled zero leaf gs = Ok ts /\ Forall2 (fun lf t => wf t /\ t_dev t = t_dev (snd lf) /\ t_shape t = t_shape (snd lf) /\
      forall c, c < numel (t_shape (snd lf)) -> nth_error (t_data t) c = Some (sum_to n (fun r => mul (nth r (t_data w) zero) (J o (fst lf) r c)))) leaf ts.
  Proof using R.
    intros F. unfold filled. rewrite (f2_len _ _ _ F), Nat.eqb_refl. eexists. split; [reflexivity|]. induction F as [|lf g leaf gs H F IH]; [constructor|]. cbn [combine map]. constructor; [|exact IH].
    cbn [fst snd]. destruct g as [t|]; [exact H|]. cbn [pulls] in H. split; [apply zeros_wf|]. split; [reflexivity|]. split; [reflexivity|]. intros c Hc. unfold zeros. cbn [t_data].
    rewrite nth_error_repeat by exact Hc. f_equal. symmetry. apply sum_zero. intros x Ix. apply in_map_iff in Ix as (r & <- & Ir). apply in_seq in Ir. rewrite H by lia. ring.
  Qed.

  Variable P : eparams V.
  Variable J : slopes V.
  Hypothesis own : own_copy zero m d C P J.

  Lemma passes_ok o ob (leaf : vmap) tr g : In (o, ob) (em_outs m) -> copies d C P leaf ->
    t_dev (w_data (tr_out tr)) = d -> t_shape (w_data (tr_out tr)) = C ++ ob -> tr_grad tr = Some g ->
    (forall w, wf w -> t_dev w = d -> t_shape w = C ++ ob -> Forall2 (pulls zero add mul J o (numel (C ++ ob)) w) leaf (g w)) ->
    exists ps, passes zero one C (numel ob) leaf tr = Ok ps /\ Forall2 (fun k ts => Forall2 (fun p t => exists batch base, plain_param d (fst p) (snd p) batch base /\ wf t /\ t_dev t = d /\ t_shape t = C ++ base /\
        forall b j, b < numel C -> j < numel base -> nth_error (t_data t) (b * numel base + j) = Some (J o (fst p) (b * numel ob + k) (b * numel base + j))) P ts) (seq 0 (numel ob)) ps.
  Proof using R own.
    intros Io Hc Dv Sh Hg G. unfold passes. rewrite Hg. apply mapM_f2. intros k Ik. apply in_seq in Ik. destruct (basis_seed_ok ob k _ Dv Sh) as (s & Es & Ws & Ds & Ss & Ns). rewrite Es. cbn [bind].
    destruct (filled_ok leaf J o _ s _ (G s Ws Ds Ss)) as (ts & Et & F). exists ts. split; [exact Et|].
    clear Et. enough (K : forall P0 leaf0 ts0, incl P0 P -> copies d C P0 leaf0 ->
      Forall2 (fun lf t => wf t /\ t_dev t = t_dev (snd lf) /\ t_shape t = t_shape (snd lf) /\
        forall c, c < numel (t_shape (snd lf)) -> nth_error (t_data t) c = Some (sum_to (numel (C ++ ob)) (fun r => mul (nth r (t_data s) zero) (J o (fst lf) r c)))) leaf0 ts0 ->
      Forall2 (fun p t => exists batch base, plain_param d (fst p) (snd p) batch base /\ wf t /\ t_dev t = d /\ t_shape t = C ++ base /\
        forall b j, b < numel C -> j < numel base -> nth_error (t_data t) (b * numel base + j) = Some (J o (fst p) (b * numel ob + k) (b * numel base + j))) P0 ts0)
      by exact (K P leaf ts (incl_refl P) Hc F).
    clear Hc F ts. intros P0 leaf0 ts All Hc. revert ts.
    induction Hc as [|[q p] lf P0 leaf0 H Hc IH]; intros ts F; inversion F as [|? t ? ts' Ht F']; subst; constructor.
    - destruct H as (Kq & batch & base & Hp & Sl & _ & Dl & _). destruct Ht as (Wt & Dt & St & Nt). cbn [fst snd] in *. exists batch, base. split; [exact Hp|]. split; [exact Wt|]. split; [rewrite Dt, Dl; apply Hp|]. split; [congruence|].
      intros b j Hb Hj. rewrite Nt by (rewrite Sl, numel_app; nia). f_equal. rewrite numel_app, Kq.
      rewrite (sum_single (numel C * numel ob) _ (b * numel ob + k)).
      + rewrite Ns by lia. rewrite Nat.eqb_refl. ring.
      + nia.
      + intros r Hr Nr. pose proof (Nat.div_mod r (numel ob) ltac:(lia)) as Dm. pose proof (Nat.mod_upper_bound r (numel ob) ltac:(lia)) as Mu. set (b' := r / numel ob) in *. set (i := r mod numel ob) in *.
        assert (Hb' : b' < numel C) by nia. replace r with (b' * numel ob + i) in * by lia. rewrite Ns by assumption. destruct (Nat.eqb_spec i k) as [->|]; [|ring].
        assert (Nb : b' <> b) by (intros X; apply Nr; rewrite X; reflexivity).
        rewrite (own o ob q p batch base b' b k j Io (All _ (or_introl eq_refl)) Hp Hb' Hb Nb Mu Hj). ring.
    - apply IH; [intros x Ix; apply All; right; exact Ix|exact F'].
  Qed.

  Lemma column_nth i (ps : list (list (tensor V))) : (forall gs, In gs ps -> nth_error gs i <> None) -> length (column i ps) = length ps /\
    forall k t, nth_error (column i ps) k = Some t -> exists gs, nth_error ps k = Some gs /\ nth_error gs i = Some t.
  Proof using Type.
    induction ps as [|gs ps IH]; intros H; [split; [reflexivity|intros [|k] t; discriminate]|]. unfold column. cbn [flat_map]. change (flat_map _ ps) with (column i ps).
    destruct IH as [L E]; [intros x Ix; apply H; right; exact Ix|]. destruct (nth_error gs i) as [g|] eqn:Eg; [|destruct (H gs (or_introl eq_refl) Eg)]. cbn [app length]. split; [f_equal; exact L|].
    intros [|k] t Ek; cbn in Ek |- *; [injection Ek as <-; exists gs; auto|exact (E k t Ek)].
  Qed.
  Lemma plain_base q (p : eparam V) batch base : plain_param d q p batch base -> param_base p = base.
  Proof using Type. intros (_ & _ & _ & Bl & Sh). unfold param_base, dim. rewrite Sh, app_length, Bl. replace (length batch + length base - length base) with (length batch + 0) by lia. rewrite skipn_app, skipn_all2 by lia. replace (length batch + 0 - length batch) with 0 by lia. reflexivity. Qed.

  Definition block_ok (o : string) (ob : list nat) (q : string) (p : eparam V) (t : tensor V) : Prop :=
    exists batch base, plain_param d q p batch base /\ wf t /\ t_dev t = d /\ t_shape t = C ++ ob ++ base /\
      forall e x y, index_of C e -> index_of ob x -> index_of base y -> elem t (e ++ x ++ y) = Some (J o q (ravel (C ++ ob) (e ++ x)) (ravel (C ++ base) (e ++ y))).
  Lemma param_row_ok o ob ps : 0 < numel ob ->
    Forall2 (fun k ts => Forall2 (fun p t => exists batch base, plain_param d (fst p) (snd p) batch base /\ wf t /\ t_dev t = d /\ t_shape t = C ++ base /\
        forall b j, b < numel C -> j < numel base -> nth_error (t_data t) (b * numel base + j) = Some (J o (fst p) (b * numel ob + k) (b * numel base + j))) P ts) (seq 0 (numel ob)) ps ->
    exists row, param_row P C ob ps = Ok row /\ Forall2 (fun p x => fst x = fst p /\ block_ok o ob (fst p) (snd p) (snd x)) P row.
  Proof using Type.
    intros Ho F. unfold param_row. assert (G : forall ix, In ix (combine (seq 0 (length P)) P) -> nth_error P (fst ix) = Some (snd ix)).
    { intros [i x] Ii. apply In_nth_error in Ii as [k Hk]. assert (Kl : k < length P). { assert (nth_error (combine (seq 0 (length P)) P) k <> None) by congruence. apply nth_error_Some in H. rewrite combine_length, seq_length in H. lia. }
      destruct (nth_error P k) as [x'|] eqn:Ex; [|apply nth_error_None in Ex; lia]. pose proof (combine_at _ _ k _ _ (seq_nth_error _ _ Kl) Ex) as Ec.
      rewrite Ec in Hk. injection Hk as <- <-. exact Ex. }
    assert (Lp : length ps = numel ob) by (rewrite <- (f2_len _ _ _ F); apply seq_length).
    destruct (mapM_f2 (fun ix : nat * (string * eparam V) => let* s := stack (column (fst ix) ps) (length C) in let* b := reshape s (C ++ ob ++ param_base (snd (snd ix))) in Ok (fst (snd ix), b))
       (fun ix x => fst x = fst (snd ix) /\ block_ok o ob (fst (snd ix)) (snd (snd ix)) (snd x)) (combine (seq 0 (length P)) P)) as (row & Er & Fr).
    - intros [i [q p]] Ii. apply G in Ii. cbn [fst snd] in *.
      assert (At : forall k gs, nth_error ps k = Some gs -> k < numel ob /\ exists t, nth_error gs i = Some t /\ exists batch base, plain_param d q p batch base /\ wf t /\ t_dev t = d /\ t_shape t = C ++ base /\
        forall b j, b < numel C -> j < numel base -> nth_error (t_data t) (b * numel base + j) = Some (J o q (b * numel ob + k) (b * numel base + j))).
      { intros k gs Hk. assert (Kl : k < numel ob) by (rewrite <- Lp; apply nth_error_Some; congruence). split; [exact Kl|]. destruct (f2_nth _ _ _ F k k (seq_nth_error _ _ Kl)) as (gs' & E' & Fk). assert (gs' = gs) by congruence. subst gs'.
        destruct (f2_nth _ _ _ Fk i (q, p) Ii) as (t & Et & Ht). exists t. split; [exact Et|exact Ht]. }
      destruct (column_nth i ps) as [Lc Nc]. { intros gs Ig. apply In_nth_error in Ig as [k Hk]. destruct (At k gs Hk) as (_ & t & -> & _). discriminate. }
      destruct ps as [|gs0 ps'] eqn:Eps; [cbn in Lp; lia|]. rewrite <- Eps in *. destruct (At 0 gs0) as (_ & t0 & _ & batch & base & Hp & _); [rewrite Eps; reflexivity|]. 
      assert (Ub : forall batch' base', plain_param d q p batch' base' -> base' = base) by (intros b' s' H'; rewrite <- (plain_base _ _ _ _ H'); exact (plain_base _ _ _ _ Hp)).
      assert (Cs : forall k t, nth_error (column i ps) k = Some t -> k < numel ob /\ wf t /\ t_dev t = d /\ t_shape t = C ++ base /\
        forall b j, b < numel C -> j < numel base -> nth_error (t_data t) (b * numel base + j) = Some (J o q (b * numel ob + k) (b * numel base + j))).
      { intros k t Hk. destruct (Nc k t Hk) as (gs & Hgs & Hi). destruct (At k gs Hgs) as (Kl & t' & Ht' & b' & s' & Hp' & Rest). assert (t' = t) by congruence. subst t'. rewrite (Ub _ _ Hp') in Rest. split; [exact Kl|exact Rest]. }
      destruct (stack_ok C base d (column i ps)) as (u & Eu & Wu & Du & Su & Nu).
      { intros X. rewrite X in Lc. cbn in Lc. lia. }
      { intros t It. apply In_nth_error in It as [k Hk]. destruct (Cs k t Hk) as (_ & A1 & A2 & A3 & _). auto. }
      rewrite Eu. cbn [bind]. rewrite (plain_base _ _ _ _ Hp). unfold reshape. rewrite Lc, Lp in Su. rewrite Su, !numel_app, numel_cons, Nat.eqb_refl. cbn [bind]. eexists. split; [reflexivity|]. cbn [fst snd]. split; [reflexivity|].
      exists batch, base. split; [exact Hp|]. split; [unfold wf in *; cbn [t_data t_shape]; rewrite Wu, Su, !numel_app, numel_cons; reflexivity|]. split; [exact Du|]. split; [reflexivity|].
      intros e x y Ie Ix Iy. unfold elem. cbn [t_data t_shape]. pose proof (PackProofs.index_length _ _ Ie) as Le. pose proof (PackProofs.index_length _ _ Ix) as Lx.
      rewrite !ravel_app by assumption. rewrite numel_app. pose proof (ravel_lt _ _ Ie) as Re. pose proof (ravel_lt _ _ Ix) as Rx. pose proof (ravel_lt _ _ Iy) as Ry.
      destruct (nth_error (column i ps) (ravel ob x)) as [t|] eqn:Et; [|apply nth_error_None in Et; lia]. destruct (Cs _ _ Et) as (_ & _ & _ & _ & Nt).
      rewrite <- (Nt (ravel C e) (ravel base y) Re Ry), <- (Nu _ _ _ _ Re Et Ry), Lc, Lp. f_equal. nia.
    - exists row. split; [exact Er|]. clear - Fr. assert (E : map snd (combine (seq 0 (length P)) P) = P). { generalize 0. generalize P. intros P0. induction P0 as [|x P0 IH]; intros n; [reflexivity|]. cbn. f_equal. apply IH. }
      rewrite <- E at 1. revert Fr. generalize (combine (seq 0 (length P)) P). intros l Fl. induction Fl; constructor; auto.
  Qed.
End Blocks.
