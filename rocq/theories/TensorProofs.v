(** Facts about tensors and the row-wise torch operations. *)
From Verif Require Import Base Tensor Spec BaseProofs.

Lemma device_eqb_eq a b : device_eqb a b = true <-> a = b.
Proof.
  unfold device_eqb. destruct a as [t i], b as [t' i']; cbn.
  rewrite andb_true_iff, String.eqb_eq, Z.eqb_eq. split.
  - intros [-> ->]. reflexivity.
  - intro H. injection H as -> ->. split; reflexivity.
Qed.

Lemma device_eqb_refl a : device_eqb a a = true.
Proof. apply device_eqb_eq. reflexivity. Qed.

Lemma device_eqb_neq a b : device_eqb a b = false <-> a <> b.
Proof.
  rewrite <- device_eqb_eq. destruct (device_eqb a b); split; intro H; congruence.
Qed.

Lemma shape_eqb_eq a b : shape_eqb a b = true <-> a = b.
Proof.
  revert b. induction a as [|x a IH]; intros [|y b]; cbn; split; intro H;
    try reflexivity; try discriminate.
  - apply andb_true_iff in H. destruct H as [H1 H2].
    apply Nat.eqb_eq in H1. apply IH in H2. congruence.
  - injection H as -> ->. rewrite Nat.eqb_refl. apply IH. reflexivity.
Qed.

Lemma shape_eqb_refl a : shape_eqb a a = true.
Proof. apply shape_eqb_eq. reflexivity. Qed.

Section T.
  Context {V : Type}.
  Notation tens := (tensor V).

  Lemma firstn_add {A} a b (l : list A) :
    firstn (a + b) l = firstn a l ++ firstn b (skipn a l).
  Proof.
    revert l. induction a as [|a IH]; intros [|x l]; cbn.
    - reflexivity.
    - reflexivity.
    - destruct b; reflexivity.
    - rewrite IH. reflexivity.
  Qed.

  Lemma skipn_skipn {A} a b (l : list A) : skipn a (skipn b l) = skipn (a + b) l.
  Proof.
    revert l. induction b as [|b IH]; intro l.
    - rewrite Nat.add_0_r. reflexivity.
    - destruct l as [|x l].
      + rewrite !skipn_nil. reflexivity.
      + rewrite Nat.add_succ_r. cbn [skipn]. apply IH.
  Qed.

  Lemma nth_error_skipn {A} n i (l : list A) : nth_error (skipn n l) i = nth_error l (n + i).
  Proof.
    revert l. induction n as [|n IH]; intros [|x l]; cbn; try reflexivity.
    - destruct i; reflexivity.
    - apply IH.
  Qed.

  Lemma nth_error_firstn {A} n i (l : list A) : i < n -> nth_error (firstn n l) i = nth_error l i.
  Proof.
    revert n l. induction i as [|i IH]; intros [|n] [|x l] H; cbn; try reflexivity; try lia.
    apply IH. lia.
  Qed.

  Lemma nth_error_ext {A} (l l' : list A) :
    (forall k, nth_error l k = nth_error l' k) -> l = l'.
  Proof.
    revert l'. induction l as [|x l IH]; intros [|y l'] H.
    - reflexivity.
    - specialize (H 0). discriminate.
    - specialize (H 0). discriminate.
    - pose proof (H 0) as H0. cbn in H0. injection H0 as ->. f_equal.
      apply IH. intro k. exact (H (S k)).
  Qed.

  Lemma wf_batched b (t : tens) : wf t -> batched b t ->
    length (t_data t) = b * numel (tl (t_shape t)).
  Proof. intros Hw [r Hr]. unfold wf in Hw. rewrite Hw, Hr. reflexivity. Qed.

  Lemma rows_of_is_rows b s c (t : tens) :
    wf t -> batched b t -> s + c <= b -> is_rows s c t (rows_of s c t).
  Proof.
    intros Hw Hb Hsc. pose proof (wf_batched _ _ Hw Hb) as Hlen.
    unfold rows_of, is_rows; cbn [t_shape t_dev t_data tl].
    set (st := numel (tl (t_shape t))) in *.
    repeat split.
    - rewrite firstn_length, skipn_length, Hlen. nia.
    - intros i j Hi Hj. rewrite nth_error_firstn by nia.
      rewrite nth_error_skipn. f_equal. lia.
  Qed.

  Lemma is_rows_unique s c (t u v : tens) : is_rows s c t u -> is_rows s c t v -> u = v.
  Proof.
    intros (Hsu & Hdu & Hlu & Hu) (Hsv & Hdv & Hlv & Hv).
    destruct u as [su du vu], v as [sv dv vv]; cbn in *. subst su sv vu vv.
    f_equal. set (st := numel (tl (t_shape t))) in *.
    apply nth_error_ext. intro k.
    destruct (Nat.lt_ge_cases k (c * st)) as [Hlt|Hge].
    - destruct (Nat.eq_dec st 0) as [->|Hst]; [lia|].
      assert (k = (k / st) * st + k mod st) as Hk
        by (rewrite Nat.mul_comm; apply Nat.div_mod; exact Hst).
      assert (k / st < c) by (apply Nat.div_lt_upper_bound; [exact Hst|lia]).
      assert (k mod st < st) by (apply Nat.mod_upper_bound; exact Hst).
      rewrite Hk, Hu, Hv by assumption. reflexivity.
    - transitivity (@None V); [|symmetry]; apply nth_error_None; lia.
  Qed.

  Lemma rows_of_wf b s c (t : tens) : wf t -> batched b t -> s + c <= b -> wf (rows_of s c t).
  Proof.
    intros Hw Hb Hsc. destruct (rows_of_is_rows b s c t Hw Hb Hsc) as (Hs & _ & Hl & _).
    unfold wf. rewrite Hl, Hs. reflexivity.
  Qed.

  Lemma rows_of_batched s c (t : tens) : batched c (rows_of s c t).
  Proof. eexists. reflexivity. Qed.

  Lemma rows_of_all b (t : tens) : wf t -> batched b t -> rows_of 0 b t = t.
  Proof.
    intros Hw Hb. pose proof (wf_batched _ _ Hw Hb) as Hlen. destruct Hb as [r Hr].
    unfold rows_of. destruct t as [sh da dv]; cbn in *. subst sh. cbn in *.
    rewrite firstn_all2 by lia. reflexivity.
  Qed.

  Lemma rows_of_rows_of s c s' c' (t : tens) :
    s' + c' <= c -> rows_of s' c' (rows_of s c t) = rows_of (s + s') c' t.
  Proof.
    intro H. unfold rows_of; cbn [t_shape t_data t_dev tl].
    set (st := numel (tl (t_shape t))). f_equal.
    rewrite skipn_firstn_comm, skipn_skipn, firstn_firstn.
    f_equal; [nia | f_equal; nia].
  Qed.

  Lemma to_dev_rows_of d s c (t : tens) : to_dev d (rows_of s c t) = rows_of s c (to_dev d t).
  Proof. reflexivity. Qed.

  Lemma to_dev_to_dev d d' (t : tens) : to_dev d (to_dev d' t) = to_dev d t.
  Proof. reflexivity. Qed.

  Lemma to_dev_same (t : tens) : to_dev (t_dev t) t = t.
  Proof. destruct t; reflexivity. Qed.

  Lemma to_dev_wf d (t : tens) : wf t -> wf (to_dev d t).
  Proof. intro H; exact H. Qed.

  Lemma narrow0_rows n s c (t : tens) :
    batched n t -> (0 <= s)%Z -> (0 <= c)%Z -> (s + c <= Z.of_nat n)%Z ->
    narrow0 t s c = Ok (rows_of (Z.to_nat s) (Z.to_nat c) t).
  Proof.
    intros [r Hr] Hs Hc Hsc. unfold narrow0. rewrite Hr.
    destruct (Z.ltb_spec c 0); [lia|].
    destruct (Z.ltb_spec s (- Z.of_nat n)); [lia|].
    destruct (Z.ltb_spec (Z.of_nat n) s); [lia|].
    cbn [orb]. destruct (Z.ltb_spec s 0); [lia|].
    destruct (Z.leb_spec s (Z.of_nat n - c)); [|lia].
    unfold rows_of. rewrite Hr. reflexivity.
  Qed.

  (** ** Concatenating the pieces of a tiling *)

  Lemma tiles_le s b l : tiles s b l -> (s <= b)%Z.
  Proof. induction 1; lia. Qed.

  Lemma tiles_bounds s b l x : tiles s b l -> In x l ->
    (s <= fst x)%Z /\ (0 < snd x)%Z /\ (fst x + snd x <= b)%Z.
  Proof.
    induction 1 as [b|s c b l Hc Ht IH]; intro Hin; [destruct Hin|].
    destruct Hin as [<-|Hin]; cbn.
    - apply tiles_le in Ht. lia.
    - specialize (IH Hin). lia.
  Qed.

  Lemma tiles_nonempty s b l : tiles s b l -> (s < b)%Z -> l <> [].
  Proof. intros H Hlt. destruct H; [lia|discriminate]. Qed.

  Lemma concat_pieces st (d : list V) s b l :
    tiles s b l -> (0 <= s)%Z ->
    concat (map (fun x => firstn (Z.to_nat (snd x) * st) (skipn (Z.to_nat (fst x) * st) d)) l)
    = firstn (Z.to_nat (b - s) * st) (skipn (Z.to_nat s * st) d).
  Proof.
    induction 1 as [b|s c b l Hc Ht IH]; intro Hs; cbn [map concat fst snd].
    - rewrite Z.sub_diag. reflexivity.
    - rewrite IH by lia. pose proof (tiles_le _ _ _ Ht).
      replace (Z.to_nat (b - s) * st)
        with (Z.to_nat c * st + Z.to_nat (b - (s + c)) * st) by nia.
      rewrite firstn_add, skipn_skipn. do 3 f_equal. nia.
  Qed.

  Lemma sum_counts s b l : tiles s b l ->
    fold_right Nat.add 0 (map (fun x => Z.to_nat (snd x)) l) = Z.to_nat (b - s).
  Proof.
    induction 1 as [b|s c b l Hc Ht IH]; cbn [map fold_right snd].
    - rewrite Z.sub_diag. reflexivity.
    - rewrite IH. pose proof (tiles_le _ _ _ Ht). lia.
  Qed.

  Definition piece (t : tens) (x : Z * Z) : tens :=
    rows_of (Z.to_nat (fst x)) (Z.to_nat (snd x)) t.

  Lemma cat0_pieces (t : tens) s b l :
    tiles s b l -> (0 <= s)%Z -> l <> [] ->
    cat0 (map (piece t) l) = Ok (rows_of (Z.to_nat s) (Z.to_nat (b - s)) t).
  Proof.
    intros Ht Hs Hne. unfold cat0.
    destruct l as [|x l]; [congruence|]. cbn [map].
    change (piece t x :: map (piece t) l) with (map (piece t) (x :: l)).
    cbn [piece rows_of t_shape t_dev].
    rewrite (proj2 (forallb_forall _ _)).
    - f_equal. unfold rows_of at 1. f_equal.
      + f_equal. rewrite map_map. cbn. rewrite <- (sum_counts _ _ _ Ht). reflexivity.
      + rewrite map_map. cbn [piece rows_of t_data].
        apply (concat_pieces (numel (tl (t_shape t))) (t_data t) s b _ Ht Hs).
    - intros u Hu. apply in_map_iff in Hu. destruct Hu as [y [<- _]].
      unfold cat_compat, piece, rows_of; cbn.
      rewrite shape_eqb_refl, device_eqb_refl. reflexivity.
  Qed.

  Lemma cat0_tiling (t : tens) b l :
    wf t -> batched b t -> tiles 0 (Z.of_nat b) l -> l <> [] ->
    cat0 (map (piece t) l) = Ok t.
  Proof.
    intros Hw Hb Ht Hne. rewrite (cat0_pieces t 0 (Z.of_nat b) l Ht) by (try lia; exact Hne).
    rewrite Z.sub_0_r, Nat2Z.id. cbn [Z.to_nat].
    rewrite rows_of_all by assumption. reflexivity.
  Qed.

  (** ** Row selection and scattering *)

  Lemma row_data_length st i n (l : list V) :
    length l = n * st -> i < n -> length (row_data st i l) = st.
  Proof.
    intros Hl Hi. unfold row_data. rewrite firstn_length, skipn_length. nia.
  Qed.

  Lemma put_row_length st i n (r l : list V) :
    length l = n * st -> i < n -> length r = st -> length (put_row st i r l) = n * st.
  Proof.
    intros Hl Hi Hr. unfold put_row. rewrite !app_length, firstn_length, skipn_length. nia.
  Qed.

  Lemma row_put_same st i n (r l : list V) :
    length l = n * st -> i < n -> length r = st -> row_data st i (put_row st i r l) = r.
  Proof.
    intros Hl Hi Hr. unfold row_data, put_row.
    rewrite skipn_app, firstn_length.
    replace (Nat.min (i * st) (length l)) with (i * st) by nia.
    rewrite skipn_all2 by (rewrite firstn_length; lia).
    rewrite Nat.sub_diag. cbn [skipn app].
    rewrite firstn_app, Hr, Nat.sub_diag. cbn [firstn]. rewrite app_nil_r.
    apply firstn_all2. lia.
  Qed.

  Lemma row_put_other st i j n (r l : list V) :
    length l = n * st -> i < n -> j < n -> i <> j -> length r = st ->
    row_data st j (put_row st i r l) = row_data st j l.
  Proof.
    intros Hl Hi Hj Hij Hr. unfold row_data. apply nth_error_ext. intro k.
    destruct (Nat.lt_ge_cases k st) as [Hk|Hk].
    2:{ transitivity (@None V); [|symmetry]; apply nth_error_None;
        rewrite firstn_length; lia. }
    rewrite !nth_error_firstn, !nth_error_skipn by exact Hk.
    unfold put_row. destruct (Nat.lt_ge_cases j i) as [Hlt|Hge].
    - rewrite nth_error_app1 by (rewrite firstn_length; nia).
      apply nth_error_firstn. nia.
    - rewrite nth_error_app2 by (rewrite firstn_length; nia).
      rewrite firstn_length. replace (Nat.min (i * st) (length l)) with (i * st) by nia.
      rewrite nth_error_app2 by nia. rewrite nth_error_skipn. f_equal. nia.
  Qed.

  Lemma put_row_self st i n (l : list V) :
    length l = n * st -> i < n -> put_row st i (row_data st i l) l = l.
  Proof.
    intros Hl Hi. unfold put_row, row_data.
    rewrite <- (firstn_skipn (i * st) l) at 4. f_equal.
    rewrite <- (firstn_skipn st (skipn (i * st) l)) at 2. f_equal.
    rewrite skipn_skipn. f_equal. lia.
  Qed.

  Lemma put_rows_length st n idx : forall (src l : list V),
    length l = n * st -> Forall (fun i => i < n) idx -> length src = length idx * st ->
    length (put_rows st idx src l) = n * st.
  Proof.
    induction idx as [|i idx IH]; intros src l Hl Hf Hs; cbn [put_rows]; [exact Hl|].
    inversion Hf as [|? ? Hi Hf']; subst. cbn [length] in Hs.
    apply IH; [|exact Hf'|rewrite skipn_length; nia].
    apply put_row_length; [exact Hl|exact Hi|rewrite firstn_length; nia].
  Qed.

  Lemma put_rows_other st n idx j : forall (src l : list V),
    length l = n * st -> Forall (fun i => i < n) idx -> length src = length idx * st ->
    j < n -> ~ In j idx ->
    row_data st j (put_rows st idx src l) = row_data st j l.
  Proof.
    induction idx as [|i idx IH]; intros src l Hl Hf Hs Hj Hnin; cbn [put_rows]; [reflexivity|].
    inversion Hf as [|? ? Hi Hf']; subst. cbn [length] in Hs.
    rewrite IH.
    - apply (row_put_other st i j n); try assumption.
      + intro; subst; apply Hnin; left; reflexivity.
      + rewrite firstn_length; nia.
    - apply put_row_length; [exact Hl|exact Hi|rewrite firstn_length; nia].
    - exact Hf'.
    - rewrite skipn_length; nia.
    - exact Hj.
    - intro H; apply Hnin; right; exact H.
  Qed.

  Lemma put_rows_same st n idx : forall (src l : list V) k i,
    length l = n * st -> Forall (fun i => i < n) idx -> length src = length idx * st ->
    NoDup idx -> nth_error idx k = Some i ->
    row_data st i (put_rows st idx src l) = row_data st k src.
  Proof.
    induction idx as [|i0 idx IH]; intros src l k i Hl Hf Hs Hnd Hk; cbn [put_rows].
    - destruct k; discriminate.
    - inversion Hf as [|? ? Hi Hf']; subst. inversion Hnd as [|? ? Hnin Hnd']; subst.
      cbn [length] in Hs.
      assert (length (put_row st i0 (firstn st src) l) = n * st) as Hl'
        by (apply put_row_length; [exact Hl|exact Hi|rewrite firstn_length; nia]).
      destruct k as [|k]; cbn [nth_error] in Hk.
      + injection Hk as <-.
        rewrite (put_rows_other st n) by (try assumption; rewrite skipn_length; nia).
        rewrite (row_put_same st i0 n) by (try assumption; rewrite firstn_length; nia).
        reflexivity.
      + rewrite (IH _ _ k i) by (try assumption; rewrite skipn_length; nia).
        unfold row_data. rewrite skipn_skipn. do 2 f_equal. cbn. lia.
  Qed.

  Lemma flat_map_length_rows st n idx (l : list V) :
    length l = n * st -> Forall (fun i => i < n) idx ->
    length (flat_map (fun i => row_data st i l) idx) = length idx * st.
  Proof.
    intros Hl Hf. induction Hf as [|i idx Hi Hf IH]; [reflexivity|].
    cbn [flat_map length]. rewrite app_length, IH, (row_data_length st i n) by assumption. lia.
  Qed.

  Lemma row_data_app st k (a c : list V) :
    length a = st -> row_data st (S k) (a ++ c) = row_data st k c.
  Proof.
    intro Ha. unfold row_data. f_equal. rewrite skipn_app, Ha.
    rewrite skipn_all2 by (rewrite Ha; cbn; lia).
    cbn [app]. f_equal. cbn [Nat.mul]. lia.
  Qed.

  Lemma row_flat_map st n idx (l : list V) : forall k i,
    length l = n * st -> Forall (fun i => i < n) idx -> nth_error idx k = Some i ->
    row_data st k (flat_map (fun i => row_data st i l) idx) = row_data st i l.
  Proof.
    induction idx as [|i0 idx IH]; intros k i Hl Hf Hk; [destruct k; discriminate|].
    inversion Hf as [|? ? Hi Hf']; subst. cbn [flat_map].
    pose proof (row_data_length st i0 n l Hl Hi) as Hr.
    destruct k as [|k]; cbn [nth_error] in Hk.
    - injection Hk as <-. unfold row_data at 1. cbn [Nat.mul skipn].
      rewrite firstn_app, Hr, Nat.sub_diag. cbn [firstn]. rewrite app_nil_r.
      apply firstn_all2. lia.
    - rewrite <- (IH k i Hl Hf' Hk).
      apply row_data_app. exact Hr.
  Qed.

  Lemma put_rows_select_self st n idx : forall (l : list V),
    length l = n * st -> Forall (fun i => i < n) idx ->
    put_rows st idx (flat_map (fun i => row_data st i l) idx) l = l.
  Proof.
    intros l Hl Hf.
    assert (forall idx0, Forall (fun i => i < n) idx0 ->
              put_rows st idx0 (flat_map (fun i => row_data st i l) idx0) l = l) as H.
    { intros idx0 Hf0. induction Hf0 as [|i idx0 Hi Hf0 IH]; [reflexivity|].
      cbn [flat_map put_rows].
      pose proof (row_data_length st i n l Hl Hi) as Hr.
      rewrite skipn_app, Hr, Nat.sub_diag, skipn_all2 by lia. cbn [skipn app].
      rewrite firstn_app, Hr, Nat.sub_diag. cbn [firstn]. rewrite app_nil_r.
      rewrite firstn_all2 by lia. rewrite (put_row_self st i n) by assumption. exact IH. }
    apply H. exact Hf.
  Qed.
End T.
