(** Lemmas about the torch operations of the Jacobian path (Mat.v), by multi-indices. *)
From Verif Require Import Base BaseProofs Tensor Spec TensorProofs Broadcast SpecBroadcast BroadcastProofs Pack PackProofs
     Implicit Mat Jac JacModel SpecJac.

Lemma index_at_ok sh : forall k, k < numel sh -> index_of sh (index_at sh k) /\ ravel sh (index_at sh k) = k.
Proof.
  induction sh as [|n sh IH]; intros k L; cbn [index_at].
  - change (numel []) with 1 in L. split; [constructor|]. cbn. lia.
  - change (numel (n :: sh)) with (n * numel sh) in L. assert (P : 0 < numel sh) by nia.
    destruct (IH (k mod numel sh)) as [I R]; [apply Nat.mod_upper_bound; lia|]. split.
    + constructor; [apply Nat.div_lt_upper_bound; lia|exact I].
    + cbn [ravel]. rewrite R. pose proof (Nat.div_mod k (numel sh)). lia.
Qed.
Lemma index_at_ravel sh idx : index_of sh idx -> index_at sh (ravel sh idx) = idx.
Proof.
  intros I. pose proof (ravel_lt _ _ I) as L. destruct (index_at_ok sh (ravel sh idx) L) as [J R]. exact (ravel_inj sh _ _ J I R).
Qed.
Lemma index_at_nil k : index_at [] k = [].
Proof. reflexivity. Qed.

Lemma split2_app l n m : split2 (l ++ [n; m]) = Some (l, n, m).
Proof. unfold split2. rewrite rev_app_distr. cbn. rewrite rev_involutive. reflexivity. Qed.

Lemma index2 n m r c : r < n -> c < m -> index_of [n; m] [r; c].
Proof. intros H1 H2. repeat constructor; assumption. Qed.
Lemma ravel2 n m r c : ravel [n; m] [r; c] = r * m + c.
Proof. cbn. lia. Qed.
Lemma numel2 n m : numel [n; m] = n * m.
Proof. cbn. lia. Qed.

Section Picks.
  Context {V : Type}.
  Implicit Types (t u : tensor V).

  Lemma elem_some t idx : wf t -> index_of (t_shape t) idx -> exists x, elem t idx = Some x.
  Proof.
    intros W I. unfold elem. destruct (nth_error (t_data t) (ravel (t_shape t) idx)) as [x|] eqn:E; [eauto|].
    apply nth_error_None in E. pose proof (ravel_lt _ _ I). unfold wf in W. lia.
  Qed.
  Lemma picks_cons t i l x : elem t i = Some x -> picks t (i :: l) = x :: picks t l.
  Proof. intros E. unfold picks. cbn [flat_map]. rewrite E. reflexivity. Qed.
  Lemma picks_is t idxs : forall l, Forall2 (fun idx x => elem t idx = Some x) idxs l -> picks t idxs = l.
  Proof.
    induction idxs as [|i idxs IH]; intros l F; inversion F as [|? x ? l' E F']; subst; [reflexivity|].
    rewrite (picks_cons t i idxs x E), (IH l') by exact F'. reflexivity.
  Qed.
  Lemma picks_seq t (f : nat -> list nat) k (l : list V) : length l = k ->
    (forall x, x < k -> nth_error l x = elem t (f x)) -> picks t (map f (seq 0 k)) = l.
  Proof.
    intros L H. apply picks_is. assert (G : forall a, (forall x, x < length l -> nth_error l x = elem t (f (a + x))) ->
      Forall2 (fun idx x => elem t idx = Some x) (map f (seq a (length l))) l).
    { clear L H. induction l as [|v l IH]; intros a H; [constructor|]. cbn [length seq map]. constructor.
      - rewrite <- (Nat.add_0_r a), <- H by (cbn; lia). reflexivity.
      - apply IH. intros x Hx. rewrite Nat.add_succ_l, <- Nat.add_succ_r, <- (H (S x)) by (cbn; lia). reflexivity. }
    rewrite <- L. apply G. intros x Hx. cbn [Nat.add]. apply H. lia.
  Qed.
  Lemma picks_ext t u (f g : nat -> list nat) k : (forall x, x < k -> elem t (f x) = elem u (g x)) ->
    picks t (map f (seq 0 k)) = picks u (map g (seq 0 k)).
  Proof.
    intros H. unfold picks. assert (G : forall n a, a + n <= k ->
      flat_map (fun idx => match elem t idx with Some x => [x] | None => [] end) (map f (seq a n)) =
      flat_map (fun idx => match elem u idx with Some x => [x] | None => [] end) (map g (seq a n))).
    { induction n as [|n IH]; intros a L; [reflexivity|]. cbn [seq map flat_map]. rewrite IH by lia. rewrite H by lia. reflexivity. }
    apply G. lia.
  Qed.
  Lemma picks_length t (f : nat -> list nat) k : (forall x, x < k -> elem t (f x) <> None) -> length (picks t (map f (seq 0 k))) = k.
  Proof.
    intros H. unfold picks. assert (G : forall n a, a + n <= k ->
      length (flat_map (fun idx => match elem t idx with Some x => [x] | None => [] end) (map f (seq a n))) = n).
    { induction n as [|n IH]; intros a L; [reflexivity|]. cbn [seq map flat_map]. rewrite app_length, IH by lia.
      specialize (H a). destruct (elem t (f a)); [reflexivity|]. exfalso. apply H; [lia|reflexivity]. }
    apply G. lia.
  Qed.
  Lemma picks_nth t (f : nat -> list nat) k x : (forall x, x < k -> elem t (f x) <> None) -> x < k ->
    nth_error (picks t (map f (seq 0 k))) x = elem t (f x).
  Proof.
    intros H. unfold picks. assert (G : forall n a, a + n <= k -> forall x, x < n ->
      nth_error (flat_map (fun idx => match elem t idx with Some x => [x] | None => [] end) (map f (seq a n))) x = elem t (f (a + x))).
    { induction n as [|n IH]; intros a L y Hy; [lia|]. cbn [seq map flat_map]. pose proof (H a ltac:(lia)) as Ha.
      destruct (elem t (f a)) as [v|] eqn:E; [|contradiction]. cbn [app]. destruct y as [|y].
      - rewrite Nat.add_0_r, E. reflexivity.
      - cbn [nth_error]. rewrite IH by lia. f_equal. f_equal. lia. }
    intros Hx. rewrite (G k 0) by lia. reflexivity.
  Qed.

  (** A tensor is its shape, device and elements. *)
  Lemma tensor_ext t u : wf t -> wf u -> t_shape t = t_shape u -> t_dev t = t_dev u ->
    (forall idx, index_of (t_shape t) idx -> elem t idx = elem u idx) -> t = u.
  Proof.
    intros Wt Wu S Dv H. rewrite <- (mkT_eta t), <- (mkT_eta u), <- S, <- Dv. f_equal. apply nth_error_ext. intros k.
    destruct (Nat.lt_ge_cases k (numel (t_shape t))) as [L|L].
    - destruct (index_at_ok _ _ L) as [I R]. specialize (H _ I). unfold elem in H. rewrite <- S, R in H. exact H.
    - unfold wf in *. rewrite <- S in Wu.
      assert (E1 : nth_error (t_data t) k = None) by (apply nth_error_None; lia).
      assert (E2 : nth_error (t_data u) k = None) by (apply nth_error_None; lia). congruence.
  Qed.

  Lemma reshape_ok t sh : numel sh = numel (t_shape t) -> reshape t sh = Ok (mkT sh (t_data t) (t_dev t)).
  Proof. intros H. unfold reshape. rewrite H, Nat.eqb_refl. reflexivity. Qed.
  Lemma reshape_wf t sh : wf t -> numel sh = numel (t_shape t) -> wf (mkT sh (t_data t) (t_dev t)).
  Proof. unfold wf. cbn [t_shape t_data]. intros -> ->. reflexivity. Qed.
  Lemma elem_reshape t sh i j : ravel sh i = ravel (t_shape t) j -> elem (mkT sh (t_data t) (t_dev t)) i = elem t j.
  Proof. intros H. unfold elem. cbn [t_shape t_data]. rewrite H. reflexivity. Qed.

  (** ** Broadcasting *)
  Lemma infer_broadcast lead sh : broadcastable lead sh -> infer_size lead sh = Ok sh.
  Proof.
    intros [L H]. destruct (infer_size lead sh) as [r|e] eqn:E.
    - f_equal. apply rsize_ext. intros p. pose proof (infer_size_ok _ _ _ E p) as M.
      destruct (rsize lead p) as [n|] eqn:E1.
      + assert (E2 : exists m, rsize sh p = Some m) by (apply rsize_lt; assert (p < length lead) by (apply rsize_lt; eauto); lia).
        destruct E2 as [m E2]. rewrite E2 in M |- *. destruct (rsize r p) as [z|]; [|contradiction]. cbn in M.
        specialize (H p n m E1 E2). f_equal. lia.
      + destruct (rsize sh p) as [m|]; destruct (rsize r p) as [z|]; cbn in M; try contradiction; congruence.
    - apply infer_size_err in E as [p C]. unfold clash in C. destruct (rsize lead p) as [n|] eqn:E1; [|contradiction].
      destruct (rsize sh p) as [m|] eqn:E2; [|contradiction]. specialize (H p n m E1 E2). lia.
  Qed.
  Lemma broadcastable_refl sh : broadcastable sh sh.
  Proof. split; [lia|]. intros p n m A B. left. congruence. Qed.
  Lemma pull_refl sh idx : index_of sh idx -> pull sh idx = idx.
  Proof.
    intros I. unfold pull. pose proof (BroadcastProofs.index_length _ _ I) as L. rewrite L, Nat.sub_diag. cbn [skipn]. clear L.
    induction I as [|i n idx sh Hi I IH]; [reflexivity|]. cbn [combine map fst snd]. rewrite IH. f_equal.
    destruct (Nat.eqb_spec n 1); lia.
  Qed.
  Lemma pull_length lead sh idx : broadcastable lead sh -> index_of sh idx -> length (pull lead idx) = length lead.
  Proof.
    intros [L _] I. unfold pull. rewrite map_length, combine_length, skipn_length, (BroadcastProofs.index_length _ _ I). lia.
  Qed.
  Lemma pull_app lead idx tail tidx : length lead <= length idx -> length tidx = length tail -> index_of tail tidx ->
    pull (lead ++ tail) (idx ++ tidx) = pull lead idx ++ tidx.
  Proof.
    intros L Lt I. unfold pull. rewrite !app_length, Lt.
    replace (length idx + length tail - (length lead + length tail)) with (length idx - length lead) by lia.
    rewrite skipn_app. replace (length idx - length lead - length idx) with 0 by lia. cbn [skipn].
    assert (Lk : length lead = length (skipn (length idx - length lead) idx)) by (rewrite skipn_length; lia).
    assert (CA : forall (a : list nat) (b c d : list nat), length a = length b -> combine (a ++ c) (b ++ d) = combine a b ++ combine c d).
    { clear. induction a as [|x a IH]; intros [|y b] c d H; try discriminate; [reflexivity|]. cbn [app combine]. rewrite IH by (injection H as H; exact H). reflexivity. }
    rewrite CA by exact Lk. rewrite map_app. f_equal.
    pose proof (pull_refl tail tidx I) as P. unfold pull in P. rewrite Lt, Nat.sub_diag in P. exact P.
  Qed.
  Lemma index_rsize sh idx : index_of sh idx <-> length idx = length sh /\ forall p n i, rsize sh p = Some n -> nth_error (rev idx) p = Some i -> i < n.
  Proof.
    split.
    - intros I. pose proof (BroadcastProofs.index_length _ _ I) as L. split; [exact L|]. induction I as [|i n idx sh Hi I IH]; intros p m j; [destruct p; discriminate|].
      unfold rsize in *. cbn [rev length] in *. injection L as L. intros A B.
      destruct (Nat.lt_ge_cases p (length sh)) as [Q|Q].
      + rewrite nth_error_app1 in A, B by (rewrite rev_length; lia). exact (IH L p m j A B).
      + rewrite nth_error_app2 in A, B by (rewrite rev_length; lia). rewrite rev_length in A, B. rewrite L in B.
        destruct (p - length sh) as [|q]; [cbn in A, B; congruence|destruct q; discriminate].
    - revert sh. induction idx as [|i idx IH]; intros [|n sh] [L H]; try discriminate; [constructor|]. injection L as L. constructor.
      + apply (H (length sh) n i); unfold rsize; cbn [rev].
        * rewrite nth_error_app2, rev_length, Nat.sub_diag by (rewrite rev_length; lia). reflexivity.
        * rewrite nth_error_app2, rev_length, L, Nat.sub_diag by (rewrite rev_length; lia). reflexivity.
      + apply IH. split; [exact L|]. intros p m j A B. apply (H p m j); unfold rsize in *; cbn [rev].
        * rewrite nth_error_app1; [exact A|]. apply nth_error_Some. congruence.
        * rewrite nth_error_app1; [exact B|]. apply nth_error_Some. congruence.
  Qed.
  Lemma pull_index lead sh idx : broadcastable lead sh -> index_of sh idx -> index_of lead (pull lead idx).
  Proof.
    intros [L H] I. unfold pull. pose proof (BroadcastProofs.index_length _ _ I) as Li.
    assert (E : exists a b, sh = a ++ b /\ length b = length lead).
    { exists (firstn (length sh - length lead) sh), (skipn (length sh - length lead) sh).
      rewrite firstn_skipn, skipn_length. split; [reflexivity|lia]. }
    destruct E as [a [b [-> Lb]]]. apply index_split in I as [i1 [i2 [-> [I1 I2]]]].
    pose proof (BroadcastProofs.index_length _ _ I1) as L1. pose proof (BroadcastProofs.index_length _ _ I2) as L2.
    rewrite app_length. replace (length i1 + length i2 - length lead) with (length i1) by lia.
    rewrite skipn_app, skipn_all, Nat.sub_diag. cbn [skipn app].
    assert (Hb : forall p n m, rsize lead p = Some n -> rsize b p = Some m -> n = m \/ n = 1).
    { intros p n m A B. apply (H p n m A). unfold rsize in *. rewrite rev_app_distr, nth_error_app1; [exact B|]. apply nth_error_Some. congruence. }
    assert (Hb' : forall p n m, nth_error lead p = Some n -> nth_error b p = Some m -> n = m \/ n = 1).
    { intros p n m A B. assert (Lp : p < length lead) by (apply nth_error_Some; congruence).
      apply (Hb (length lead - 1 - p) n m); unfold rsize.
      - clear - A Lp. revert p A Lp. induction lead as [|y l IH]; intros p A Lp; [cbn in Lp; lia|]. cbn [rev length] in *. destruct p as [|p].
        + cbn in A. rewrite nth_error_app2; rewrite rev_length; [|lia]. replace (S (length l) - 1 - 0 - length l) with 0 by lia. exact A.
        + cbn in A. rewrite nth_error_app1 by (rewrite rev_length; lia). replace (S (length l) - 1 - S p) with (length l - 1 - p) by lia. apply IH; [exact A|lia].
      - rewrite <- Lb in Lp |- *. clear - B Lp. revert p B Lp. induction b as [|y l IH]; intros p A Lp; [cbn in Lp; lia|]. cbn [rev length] in *. destruct p as [|p].
        + cbn in A. rewrite nth_error_app2; rewrite rev_length; [|lia]. replace (S (length l) - 1 - 0 - length l) with 0 by lia. exact A.
        + cbn in A. rewrite nth_error_app1 by (rewrite rev_length; lia). replace (S (length l) - 1 - S p) with (length l - 1 - p) by lia. apply IH; [exact A|lia]. }
    clear - Hb' I2 Lb. revert lead Hb' Lb. induction I2 as [|i m idx b Hi I IH]; intros [|n lead] H L; try discriminate; [constructor|].
    cbn [combine map fst snd]. constructor; [|apply IH; [intros p x y; exact (H (S p) x y)|injection L as L; exact L]].
    destruct (H 0 n m eq_refl eq_refl) as [-> | ->]; [destruct (Nat.eqb_spec m 1); lia|cbn; lia].
  Qed.

  (** Expanding the leading axes. *)
  Lemma expand_lead t lead tail sh : wf t -> t_shape t = lead ++ tail -> broadcastable lead sh ->
    exists u, expand t (sh ++ tail) = Ok u /\ wf u /\ t_dev u = t_dev t /\ t_shape u = sh ++ tail /\
      forall idx tidx, index_of sh idx -> index_of tail tidx -> elem u (idx ++ tidx) = elem t (pull lead idx ++ tidx).
  Proof.
    intros W S B. destruct (expand_batch t lead tail sh S (proj1 B) (proj2 B)) as [u E]. exists u. split; [exact E|].
    destruct (expand_ok t u (sh ++ tail) W E) as [Su [Wu [Du Eu]]]. split; [exact Wu|]. split; [exact Du|]. split; [exact Su|].
    intros idx tidx I It. rewrite Eu by (rewrite Su; apply index_app; assumption). rewrite S.
    pose proof (BroadcastProofs.index_length _ _ It) as Lt. pose proof (BroadcastProofs.index_length _ _ I) as Li.
    rewrite pull_app; [reflexivity| |exact Lt|exact It]. destruct B as [L _]. lia.
  Qed.
  Lemma expand_same t : wf t -> expand t (t_shape t) = Ok t.
  Proof.
    intros W. destruct (expand_lead t (t_shape t) [] (t_shape t) W) as [u [E [Wu [Du [Su Eu]]]]];
      [rewrite app_nil_r; reflexivity|apply broadcastable_refl|]. rewrite app_nil_r in E, Su. rewrite E. f_equal.
    apply tensor_ext; [exact Wu|exact W|exact Su|exact Du|]. intros idx I. rewrite Su in I.
    specialize (Eu idx [] I (Forall2_nil _)). rewrite !app_nil_r in Eu. rewrite Eu, pull_refl by exact I. reflexivity.
  Qed.
End Picks.

(** ** Matrix product *)
Section Matmul.
  Context {V : Type}.
  Variable dot : list V -> list V -> V.
  Implicit Types (t : tensor V).

  Lemma mat_mul_length n k m a b : length (mat_mul dot n k m a b) = n * m.
  Proof. unfold mat_mul. apply flat_map_const_length. intros r _. rewrite map_length, seq_length. reflexivity. Qed.
  Lemma mat_mul_nth n k m a b r c : r < n -> c < m ->
    nth_error (mat_mul dot n k m a b) (r * m + c) = Some (dot (row_data k r a) (col_data k m c b)).
  Proof.
    intros Hr Hc. unfold mat_mul. rewrite (flat_map_nth _ m n 0 r c); [|intros; rewrite map_length, seq_length; reflexivity|exact Hr|exact Hc].
    cbn [Nat.add]. rewrite nth_error_map, (nth_error_nth' _ 0), seq_nth by (rewrite ?seq_length; lia). reflexivity.
  Qed.
  Lemma col_data_is k m c (l : list V) : c < m -> length l = k * m -> length (col_data k m c l) = k /\
    forall j, j < k -> nth_error (col_data k m c l) j = nth_error l (j * m + c).
  Proof.
    intros Hc L. assert (R : forall i, In i (seq 0 k) -> length (row_data 1 (i * m + c) l) = 1).
    { intros i I. apply in_seq in I. unfold row_data. rewrite firstn_length, skipn_length, L. nia. }
    unfold col_data. split.
    - rewrite (flat_map_const_length _ 1) by exact R. lia.
    - intros j Hj. pose proof (flat_map_nth (fun j => row_data 1 (j * m + c) l) 1 k 0 j 0 R Hj ltac:(lia)) as E.
      replace (j * 1 + 0) with j in E by lia. rewrite E. unfold row_data. rewrite nth_error_firstn, nth_error_skipn by lia. f_equal. cbn. lia.
  Qed.

  Theorem matmul_ok a b la lb n k m l : wf a -> wf b -> t_dev a = t_dev b -> t_shape a = la ++ [n; k] -> t_shape b = lb ++ [k; m] ->
    broadcastable la l -> broadcastable lb l -> infer_size la lb = Ok l ->
    exists c, matmul dot a b = Ok c /\ wf c /\ t_dev c = t_dev a /\ t_shape c = l ++ [n; m] /\
      forall idx r j, index_of l idx -> r < n -> j < m ->
        elem c (idx ++ [r; j]) = Some (dot (picks a (map (fun x => pull la idx ++ [r; x]) (seq 0 k)))
                                           (picks b (map (fun x => pull lb idx ++ [x; j]) (seq 0 k)))).
  Proof.
    intros Wa Wb Dv Sa Sb Ba Bb Il. unfold matmul. rewrite Sa, Sb, !split2_app, Nat.eqb_refl, Dv, device_eqb_refl. cbn [andb].
    rewrite Il. cbn [bind]. destruct (expand_lead a la [n; k] l Wa Sa Ba) as [a' [-> [Wa' [Da' [Sa' Ea]]]]]. cbn [bind].
    destruct (expand_lead b lb [k; m] l Wb Sb Bb) as [b' [-> [Wb' [Db' [Sb' Eb]]]]]. cbn [bind].
    set (f := fun i => mat_mul dot n k m (row_data (n * k) i (t_data a')) (row_data (k * m) i (t_data b'))).
    assert (Lf : forall i, In i (seq 0 (numel l)) -> length (f i) = n * m) by (intros; apply mat_mul_length).
    eexists. split; [reflexivity|]. split.
    { unfold wf. cbn [t_data t_shape]. rewrite (flat_map_const_length f (n * m)) by exact Lf. rewrite numel_app, numel2. reflexivity. }
    split; [reflexivity|]. split; [reflexivity|]. intros idx r j I Hr Hj.
    unfold elem at 1. cbn [t_shape t_data]. rewrite ravel_app by (apply BroadcastProofs.index_length; exact I). rewrite numel2, ravel2.
    pose proof (ravel_lt _ _ I) as Ri. rewrite (flat_map_nth f (n * m) (numel l) 0 (ravel l idx) (r * m + j)); [|exact Lf|exact Ri|nia].
    cbn [Nat.add]. unfold f. rewrite mat_mul_nth by assumption. f_equal.
    assert (La : length (t_data a') = numel l * (n * k)) by (unfold wf in Wa'; rewrite Wa', Sa', numel_app, numel2; reflexivity).
    assert (Lb : length (t_data b') = numel l * (k * m)) by (unfold wf in Wb'; rewrite Wb', Sb', numel_app, numel2; reflexivity).
    f_equal; symmetry.
    - apply picks_seq.
      + apply (row_data_len _ _ n); [|exact Hr]. apply (row_data_len _ _ (numel l)); [exact La|exact Ri].
      + intros x Hx. rewrite <- Ea by (try exact I; apply index2; assumption). unfold elem. rewrite Sa', ravel_app by (apply BroadcastProofs.index_length; exact I).
        rewrite numel2, ravel2. unfold row_data. rewrite nth_error_firstn, nth_error_skipn, nth_error_firstn, nth_error_skipn by nia. f_equal; nia.
    - destruct (col_data_is k m j (row_data (k * m) (ravel l idx) (t_data b')) Hj) as [Lc Hc]; [apply (row_data_len _ _ (numel l)); [exact Lb|exact Ri]|].
      apply picks_seq; [exact Lc|]. intros x Hx. rewrite Hc by exact Hx. rewrite <- Eb by (try exact I; apply index2; assumption).
      unfold elem. rewrite Sb', ravel_app by (apply BroadcastProofs.index_length; exact I). rewrite numel2, ravel2.
      unfold row_data. rewrite nth_error_firstn, nth_error_skipn by nia. f_equal; nia.
  Qed.
End Matmul.

Section Pointwise.
  Context {V : Type}.
  Implicit Types (t a b : tensor V).

  Lemma combine_nth_error {X Y} (a : list X) (b : list Y) k x y : nth_error a k = Some x -> nth_error b k = Some y ->
    nth_error (combine a b) k = Some (x, y).
  Proof.
    revert b k. induction a as [|u a IH]; intros [|v b] [|k] A B; try discriminate; cbn in *; [congruence|]. apply IH; assumption.
  Qed.
  Lemma zip_bcast_same (f : V -> V -> V) a b : wf a -> wf b -> t_shape a = t_shape b -> t_dev a = t_dev b ->
    exists c, zip_bcast f a b = Ok c /\ wf c /\ t_dev c = t_dev a /\ t_shape c = t_shape a /\
      forall idx x y, elem a idx = Some x -> elem b idx = Some y -> elem c idx = Some (f x y).
  Proof.
    intros Wa Wb S Dv. unfold zip_bcast. rewrite S, (infer_broadcast (t_shape b)) by apply broadcastable_refl. cbn [bind].
    rewrite <- S, expand_same by exact Wa. cbn [bind]. rewrite S, expand_same by exact Wb. cbn [bind]. unfold zip_same. rewrite S, Dv, shape_eqb_refl, device_eqb_refl. cbn [andb].
    eexists. split; [reflexivity|]. split.
    { unfold wf in *. cbn [t_data t_shape]. rewrite map_length, combine_length, Wa, Wb, S. lia. }
    split; [reflexivity|]. split; [reflexivity|]. intros idx x y A B. unfold elem in *. cbn [t_data t_shape]. rewrite nth_error_map.
    rewrite S in A. rewrite (combine_nth_error _ _ _ x y A B). reflexivity.
  Qed.
  Lemma zeros_wf (z : V) sh d : wf (zeros z sh d).
  Proof. unfold wf, zeros. cbn. apply repeat_length. Qed.
  Lemma zeros_elem (z : V) sh d idx : index_of sh idx -> elem (zeros z sh d) idx = Some z.
  Proof.
    intros I. unfold elem, zeros. cbn [t_shape t_data]. pose proof (ravel_lt _ _ I) as L.
    rewrite (nth_error_nth' _ z) by (rewrite repeat_length; exact L). f_equal. apply nth_repeat.
  Qed.
  Lemma narrow_last_ok t pre w off len : wf t -> t_shape t = pre ++ [w] -> off + len <= w ->
    exists u, narrow_last t off len = Ok u /\ wf u /\ t_dev u = t_dev t /\ t_shape u = pre ++ [len] /\
      forall idx c, index_of pre idx -> c < len -> elem u (idx ++ [c]) = elem t (idx ++ [off + c]).
  Proof.
    intros W S L. unfold narrow_last, dim, width. rewrite S, app_length, last_last, removelast_last. cbn [length].
    replace (Nat.eqb (length pre + 1) 0) with false by (symmetry; apply Nat.eqb_neq; lia).
    replace (Nat.leb (off + len) w) with true by (symmetry; apply Nat.leb_le; exact L).
    assert (Lr : forall i, In i (seq 0 (numel pre)) -> length (firstn len (skipn off (row_data w i (t_data t)))) = len).
    { intros i I. apply in_seq in I. rewrite firstn_length, skipn_length, (row_data_len _ _ (numel pre)); [lia| |lia].
      unfold wf in W. rewrite W, S, numel_app, numel_one. reflexivity. }
    eexists. split; [reflexivity|]. split.
    { unfold wf. cbn [t_data t_shape]. rewrite (flat_map_const_length _ len) by exact Lr. rewrite numel_app, numel_one. reflexivity. }
    split; [reflexivity|]. split; [reflexivity|]. intros idx c I Hc. pose proof (BroadcastProofs.index_length _ _ I) as Li. pose proof (ravel_lt _ _ I) as Ri.
    unfold elem. cbn [t_shape t_data]. rewrite S, !ravel_app by exact Li. rewrite !numel_one, !ravel_one.
    rewrite (flat_map_nth _ len (numel pre) 0 (ravel pre idx) c Lr Ri Hc). cbn [Nat.add]. unfold row_data.
    rewrite nth_error_firstn, nth_error_skipn, nth_error_firstn, nth_error_skipn by lia. reflexivity.
  Qed.
  Lemma narrow_rows_ok t l n m off len : wf t -> t_shape t = l ++ [n; m] -> off + len <= n ->
    exists u, narrow_rows t off len = Ok u /\ wf u /\ t_dev u = t_dev t /\ t_shape u = l ++ [len; m] /\
      forall idx r c, index_of l idx -> r < len -> c < m -> elem u (idx ++ [r; c]) = elem t (idx ++ [off + r; c]).
  Proof.
    intros W S L. unfold narrow_rows. rewrite S, split2_app. replace (Nat.leb (off + len) n) with true by (symmetry; apply Nat.leb_le; exact L).
    assert (Lr : forall i, In i (seq 0 (numel l)) -> length (firstn (len * m) (skipn (off * m) (row_data (n * m) i (t_data t)))) = len * m).
    { intros i I. apply in_seq in I. rewrite firstn_length, skipn_length, (row_data_len _ _ (numel l)); [nia| |lia].
      unfold wf in W. rewrite W, S, numel_app, numel2. reflexivity. }
    eexists. split; [reflexivity|]. split.
    { unfold wf. cbn [t_data t_shape]. rewrite (flat_map_const_length _ (len * m)) by exact Lr. rewrite numel_app, numel2. reflexivity. }
    split; [reflexivity|]. split; [reflexivity|]. intros idx r c I Hr Hc. pose proof (BroadcastProofs.index_length _ _ I) as Li. pose proof (ravel_lt _ _ I) as Ri.
    unfold elem. cbn [t_shape t_data]. rewrite S, !ravel_app by exact Li. rewrite !numel2, !ravel2.
    rewrite (flat_map_nth _ (len * m) (numel l) 0 (ravel l idx) (r * m + c) Lr Ri) by nia. cbn [Nat.add]. unfold row_data.
    rewrite nth_error_firstn, nth_error_skipn, nth_error_firstn, nth_error_skipn by nia. f_equal. nia.
  Qed.
  Lemma copy_band_lead t src lead pre n w off len : wf t -> wf src -> t_shape t = pre ++ [n; w] -> t_shape src = lead ++ [n; len] -> broadcastable lead pre -> off + len <= w ->
    exists u, copy_band t off len src = Ok u /\ wf u /\ t_dev u = t_dev t /\ t_shape u = t_shape t /\
      forall idx r c, index_of pre idx -> r < n -> c < w ->
        elem u (idx ++ [r; c]) = if Nat.leb off c && Nat.ltb c (off + len) then elem src (pull lead idx ++ [r; c - off]) else elem t (idx ++ [r; c]).
  Proof.
    intros W Ws S Ss Bl L. unfold copy_band, dim, width. assert (S' : t_shape t = (pre ++ [n]) ++ [w]) by (rewrite S, <- app_assoc; reflexivity).
    rewrite S', app_length, last_last, removelast_last. cbn [length].
    replace (Nat.eqb (length (pre ++ [n]) + 1) 0) with false by (symmetry; apply Nat.eqb_neq; lia).
    replace (Nat.leb (off + len) w) with true by (symmetry; apply Nat.leb_le; exact L).
    destruct (expand_lead src lead [n; len] pre Ws Ss Bl) as [s [E [Wsx [Ds [Sx Ex]]]]].
    rewrite <- app_assoc. cbn [app]. rewrite E. cbn [bind].
    set (f := fun i => firstn off (row_data w i (t_data t)) ++ row_data len i (t_data s) ++ skipn (off + len) (row_data w i (t_data t))).
    assert (Nt : length (t_data t) = numel (pre ++ [n]) * w) by (unfold wf in W; rewrite W, S', numel_app, numel_one; reflexivity).
    assert (Ns : length (t_data s) = numel (pre ++ [n]) * len) by (unfold wf in Wsx; rewrite Wsx, Sx, !numel_app, numel2, numel_one; lia).
    assert (Lr : forall i, In i (seq 0 (numel (pre ++ [n]))) -> length (f i) = w).
    { intros i I. apply in_seq in I. unfold f. rewrite !app_length, firstn_length, skipn_length.
      rewrite (row_data_len w i (numel (pre ++ [n])) _ Nt), (row_data_len len i (numel (pre ++ [n])) _ Ns) by lia. lia. }
    eexists. split; [reflexivity|]. split.
    { unfold wf. cbn [t_data t_shape]. fold f. rewrite (flat_map_const_length f w) by exact Lr. rewrite (numel_app (pre ++ [n])), (numel_one w). reflexivity. }
    split; [reflexivity|]. split; [reflexivity|]. intros idx r c I Hr Hc.
    assert (I1 : index_of (pre ++ [n]) (idx ++ [r])) by (apply index_app; [exact I|repeat constructor; exact Hr]).
    pose proof (BroadcastProofs.index_length _ _ I1) as Li. pose proof (ravel_lt _ _ I1) as Ri.
    assert (Ex' : idx ++ [r; c] = (idx ++ [r]) ++ [c]) by (rewrite <- app_assoc; reflexivity).
    unfold elem at 1 3. cbn [t_shape t_data]. rewrite Ex', S', !ravel_app by exact Li. rewrite !numel_one, !ravel_one. fold f.
    rewrite (flat_map_nth f w (numel (pre ++ [n])) 0 (ravel (pre ++ [n]) (idx ++ [r])) c Lr Ri Hc). cbn [Nat.add]. unfold f.
    set (q := ravel (pre ++ [n]) (idx ++ [r])) in *.
    assert (L1 : length (row_data w q (t_data t)) = w) by (apply (row_data_len _ _ _ _ Nt Ri)).
    assert (L2 : length (row_data len q (t_data s)) = len) by (apply (row_data_len _ _ _ _ Ns Ri)).
    destruct (Nat.leb_spec off c) as [C1|C1]; cbn [andb].
    - rewrite nth_error_app2 by (rewrite firstn_length; lia). rewrite firstn_length, L1, Nat.min_l by lia.
      destruct (Nat.ltb_spec c (off + len)) as [C2|C2].
      + rewrite nth_error_app1 by lia.
        assert (Ic : index_of [n; len] [r; c - off]) by (apply index2; lia).
        pose proof (Ex idx [r; c - off] I Ic) as X. rewrite <- X. unfold elem. rewrite Sx, ravel_app by (apply BroadcastProofs.index_length; exact I).
        rewrite numel2, ravel2. unfold q. rewrite ravel_app by (apply BroadcastProofs.index_length; exact I). rewrite numel_one, ravel_one. unfold row_data. rewrite nth_error_firstn, nth_error_skipn by lia. f_equal. nia.
      + rewrite nth_error_app2 by lia. rewrite L2, nth_error_skipn. replace (off + len + (c - off - len)) with c by lia.
        unfold row_data. rewrite nth_error_firstn, nth_error_skipn by lia. reflexivity.
    - rewrite nth_error_app1 by (rewrite firstn_length; lia). unfold row_data.
      rewrite nth_error_firstn, nth_error_firstn, nth_error_skipn by lia. reflexivity.
  Qed.
  Lemma copy_band_ok t src pre n w off len : wf t -> wf src -> t_shape t = pre ++ [n; w] -> t_shape src = [n; len] -> off + len <= w ->
    exists u, copy_band t off len src = Ok u /\ wf u /\ t_dev u = t_dev t /\ t_shape u = t_shape t /\
      forall idx r c, index_of pre idx -> r < n -> c < w ->
        elem u (idx ++ [r; c]) = if Nat.leb off c && Nat.ltb c (off + len) then elem src [r; c - off] else elem t (idx ++ [r; c]).
  Proof.
    intros W Ws S Ss L. apply (copy_band_lead t src [] pre n w off len W Ws S Ss); [|exact L].
    split; [cbn; lia|]. intros p a b H. destruct p; discriminate.
  Qed.
  Lemma eye_wf (zero one : V) n d : wf (eye zero one n d).
  Proof.
    unfold wf, eye. cbn [t_data t_shape]. rewrite (flat_map_const_length _ n) by (intros; rewrite map_length, seq_length; reflexivity).
    rewrite numel2. reflexivity.
  Qed.
  Lemma eye_elem (zero one : V) n d r c : r < n -> c < n -> elem (eye zero one n d) [r; c] = Some (if Nat.eqb r c then one else zero).
  Proof.
    intros Hr Hc. unfold elem, eye. cbn [t_data t_shape]. rewrite ravel2.
    rewrite (flat_map_nth _ n n 0 r c) by (intros; rewrite ?map_length, ?seq_length; auto). cbn [Nat.add].
    rewrite nth_error_map, (nth_error_nth' _ 0), seq_nth by (rewrite ?seq_length; lia). reflexivity.
  Qed.
End Pointwise.
