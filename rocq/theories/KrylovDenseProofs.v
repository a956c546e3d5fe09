(** Lemmas about the dense Krylov solve. *)
From Verif Require Import Base BaseProofs Tensor Spec TensorProofs Broadcast SpecBroadcast BroadcastProofs Pack PackProofs ParamVjpProofs
  Newton Krylov SpecKrylov KrylovProofs KrylovCostProofs KrylovRowProofs KrylovGmresProofs KrylovExactProofs KrylovSoloProofs
  KrylovSystem SpecKrylovSystem ImplicitProofs.

Lemma flat_map_ones {A B} (f : A -> list B) l j : (forall a, In a l -> length (f a) = 1) ->
  nth_error (flat_map f l) j = match nth_error l j with Some a => nth_error (f a) 0 | None => None end /\
  length (flat_map f l) = length l.
Proof.
  revert j. induction l as [|a l IH]; intros j H; [destruct j; auto|]. cbn [flat_map].
  assert (L : length (f a) = 1) by (apply H; left; reflexivity).
  destruct (IH (j - 1) ltac:(intros x I; apply H; right; exact I)) as [IH1 IH2].
  destruct (f a) as [|x [|? ?]] eqn:E; try discriminate. cbn [app length].
  split; [|lia]. destruct j as [|j]; cbn [nth_error]; [rewrite E; reflexivity|].
  replace (S j - 1) with j in IH1 by lia. exact IH1.
Qed.

Lemma flat_map_nth' {A} (f : nat -> list A) k m i j :
  (forall i, i < m -> length (f i) = k) -> i < m -> j < k ->
  nth_error (flat_map f (seq 0 m)) (i * k + j) = nth_error (f i) j.
Proof.
  intros H Hi Hj. apply (flat_map_nth f k m 0 i j); [|exact Hi|exact Hj].
  intros q Iq. apply in_seq in Iq. apply H. lia.
Qed.

Section Dense.
  Context {V : Type}.
  Variable N : num V.
  Variable rsum : list V -> V.
  Variable edot : list V -> list V -> V.
  Variable tri : list (list V) -> list V -> list V.
  Notation vec := (list V).

  (** ** The shape of a solution *)
  Lemma values_row_len A M b first x ks n : length x = n -> length (values_row N rsum edot tri A M b first x ks) = n.
  Proof.
    intros L. revert first x L. induction ks as [|k ks IH]; intros first x L; [exact L|]. cbn [values_row]. cbv zeta.
    apply IH. unfold correct_row. apply vadd_len; [exact L|]. rewrite combination_len. exact L.
  Qed.

  Lemma bicg_row_ok n A M cfg b more s : length b = n -> keeps_width n A -> keeps_width n M -> brow_ok n s ->
    brow_ok n (bicg_row N rsum edot A M cfg b more s).
  Proof.
    intros L KA KM. revert s. induction more as [|more IH]; intros s H; [exact H|]. cbn [bicg_row].
    destruct (br_done s); [exact H|]. cbv zeta. apply IH.
    assert (Lp : length (bicg_p N edot b s) = n) by (apply bicg_p_len; auto).
    assert (Lv : length (A (M (bicg_p N edot b s))) = n) by (apply KA, KM, Lp).
    assert (Ls : length (bicg_s N edot b (A (M (bicg_p N edot b s))) s) = n) by (apply bicg_s_len; auto).
    apply bicg_update_ok; auto.
  Qed.

  Definition sound_method (cfg : kconfig V) : Prop := k_method cfg = BiCGStab \/ (0 < k_restart cfg)%Z.

  Lemma solve_shape n matvec minv b cfg res l i A M bi : sound_method cfg ->
    acts_on i A matvec -> acts_on i M minv -> keeps_width n A -> keeps_width n M ->
    krylov_solve N rsum edot tri matvec minv b cfg = (Ok res, l) ->
    nth_error b i = Some bi -> length bi = n ->
    length (kr_du res) = length b /\ exists x, nth_error (kr_du res) i = Some x /\ length x = n.
  Proof.
    intros Hs EA EM KA KM H Eb Lb. unfold krylov_solve in H. destruct (k_method cfg) eqn:Em.
    - destruct Hs as [Hs|Hs]; [congruence|].
      assert (P1 : 1 <= Z.to_nat (k_restart cfg)) by lia.
      destruct (gmres_run N rsum edot tri matvec minv b cfg res l Hs H) as (c & st & Ec & Hl & E1 & E2 & E3 & L & NE).
      destruct (loop_values N rsum edot tri _ _ b i A M bi EA EM Eb cfg _ true _ _ st l (gmres_start N bi) 0 P1 (map_length _ _) ltac:(apply gcounted_start) Hl
        ltac:(rewrite nth_error_map, Eb; reflexivity)) as (sa & ks & Ea & Sp & Gc & Ex & _).
      rewrite E1, map_length. split; [exact L|]. exists (gr_x sa). rewrite nth_error_map, Ea. split; [reflexivity|].
      rewrite Ex. apply values_row_len. cbn. unfold zeros. rewrite map_length. exact Lb.
    - destruct (bicgstab_exact N rsum edot matvec minv b cfg res l H) as (st & E1 & E2 & L & Hl & _).
      pose proof (bicg_rows N rsum edot _ _ cfg b _ _ st l i A M bi (bicg_start N rsum cfg bi) (map_length _ _) Hl EA EM Eb
        ltac:(rewrite nth_error_map, Eb; reflexivity)) as Er.
      rewrite E1, map_length. split; [exact L|]. eexists. rewrite nth_error_map, Er. split; [reflexivity|].
      apply (bicg_row_ok n A M cfg bi (Z.to_nat (k_max_its cfg)) (bicg_start N rsum cfg bi) Lb KA KM).
      unfold brow_ok, bicg_start, zeros. cbn. rewrite !map_length. auto.
  Qed.

  (** ** The operator *)
  Definition rows_at (n : nat) (a : vec) : list vec := map (fun i => row_data n i a) (seq 0 n).
  Lemma dense_row_apply n a v : dense_row edot n a v = apply_matrix edot (rows_at n a) v.
  Proof. unfold dense_row, apply_matrix, rows_at. rewrite map_map. reflexivity. Qed.

  Lemma dense_acts n a2 rows i : acts_on i (dense_row edot n (row_data (n * n) i a2)) (dense_matvec edot n a2 rows).
  Proof.
    intros x y v H Ev. unfold dense_matvec in H. destruct (Nat.eqb_spec (length x) rows) as [L|]; [|discriminate].
    injection H as <-. rewrite nth_error_map, combine_nth, Ev.
    assert (Hi : i < rows) by (rewrite <- L; apply nth_error_Some; congruence).
    replace (nth_error (seq 0 rows) i) with (Some i); [reflexivity|].
    symmetry. rewrite (nth_error_nth' _ 0) by (rewrite seq_length; exact Hi). rewrite seq_nth by exact Hi. reflexivity.
  Qed.
  Lemma id_acts (i : nat) : acts_on i (fun v : vec => v) (fun r => Ok r).
  Proof. intros x y v H E. congruence. Qed.
  Lemma dense_width n a : keeps_width n (dense_row edot n a).
  Proof. intros x _. unfold dense_row. rewrite map_length, seq_length. reflexivity. Qed.

  Lemma seq_nth_error n i : i < n -> nth_error (seq 0 n) i = Some i.
  Proof. intros H. rewrite (nth_error_nth' _ 0) by (rewrite seq_length; exact H). rewrite seq_nth by exact H. reflexivity. Qed.

  Lemma rows_at_matrix n (a2 : vec) rows i : length a2 = rows * (n * n) -> i < rows -> matrix_of a2 n i (rows_at n (row_data (n * n) i a2)).
  Proof.
    intros L Hi. assert (L1 : length (row_data (n * n) i a2) = n * n) by (apply (row_data_len _ _ rows); auto).
    split; [unfold rows_at; rewrite map_length, seq_length; reflexivity|]. split.
    - apply Forall_forall. intros r I. unfold rows_at in I. apply in_map_iff in I as (k & <- & I). apply in_seq in I.
      apply (row_data_len _ _ n); [exact L1|lia].
    - intros r row c E Hc. unfold rows_at in E. rewrite nth_error_map in E.
      destruct (nth_error (seq 0 n) r) as [k|] eqn:Ek; [|discriminate].
      assert (Hr : r < n) by (rewrite <- (seq_length n 0); apply nth_error_Some; congruence).
      rewrite seq_nth_error in Ek by exact Hr. injection Ek as <-. cbn in E. injection E as <-.
      rewrite nth_row by exact Hc. rewrite nth_row by nia. f_equal. lia.
  Qed.

  Lemma linear_matrix n a : linear_dot N n edot -> length a = n -> Forall (fun r => length r = n) a -> linear_op N n (apply_matrix edot a).
  Proof.
    intros LD La Fa. split; [intros x _; unfold apply_matrix; rewrite map_length; exact La|].
    clear La. split.
    - intros x y Lx Ly. unfold apply_matrix. induction Fa as [|r a Hr _ IH]; [reflexivity|].
      unfold map2 in *. cbn [map combine fst snd]. f_equal; [apply (LD r Hr); auto|exact IH].
    - intros c x Lx. unfold apply_matrix. rewrite map_map. induction Fa as [|r a Hr _ IH]; [reflexivity|].
      cbn [map]. f_equal; [apply (LD r Hr); auto|exact IH].
  Qed.

  (** ** Columns *)
  Lemma pick_row n m rows j (d : vec) i : length d = rows * (n * m) -> j < m -> i < rows ->
    exists v, nth_error (pick n m rows j d) i = Some v /\ column_of d n m i j v.
  Proof.
    intros L Hj Hi. unfold pick. rewrite nth_error_map, seq_nth_error by exact Hi. cbn [option_map].
    eexists. split; [reflexivity|].
    assert (L1 : length (row_data (n * m) i d) = n * m) by (apply (row_data_len _ _ rows); auto).
    assert (One : forall r, In r (seq 0 n) -> length (row_data 1 j (row_data m r (row_data (n * m) i d))) = 1).
    { intros r I. apply in_seq in I. apply (row_data_len _ _ m); [|exact Hj]. rewrite (row_data_len _ _ n); [lia|exact L1|lia]. }
    split.
    - destruct (flat_map_ones _ _ 0 One) as [_ E]. rewrite E, seq_length. reflexivity.
    - intros r Hr. destruct (flat_map_ones _ _ r One) as [E _]. rewrite E, seq_nth_error by exact Hr.
      rewrite nth_row by lia. rewrite nth_row by lia. rewrite nth_row by nia. f_equal. lia.
  Qed.

  Lemma stack_entry n rows (cols : list (list vec)) i r j c x :
    Forall (fun c => length c = rows /\ Forall (fun v => length v = n) c) cols ->
    i < rows -> r < n -> nth_error cols j = Some c -> nth_error c i = Some x ->
    nth_error (stack_last n rows cols) ((i * n + r) * length cols + j) = nth_error x r.
  Proof.
    intros F Hi Hr Ec Ex. unfold stack_last. set (m := length cols).
    assert (Hj : j < m) by (apply nth_error_Some; congruence).
    assert (One : forall i r, i < rows -> r < n -> forall c, In c cols ->
              length (row_data 1 r (match nth_error c i with Some x => x | None => [] end)) = 1).
    { intros i' r' Hi' Hr' c' I. rewrite Forall_forall in F. destruct (F c' I) as [Lc Fc].
      destruct (nth_error c' i') as [v|] eqn:Ev; [|apply nth_error_None in Ev; lia].
      pose proof (forall_nth _ _ _ _ Fc Ev) as Lv. cbn in Lv. apply (row_data_len _ _ n); lia. }
    assert (Lm : forall i r, i < rows -> r < n ->
              length (flat_map (fun c => row_data 1 r (match nth_error c i with Some x => x | None => [] end)) cols) = m).
    { intros i' r' Hi' Hr'. apply (flat_map_ones _ cols 0 (One i' r' Hi' Hr')). }
    assert (Ln : forall i, i < rows -> length (flat_map (fun r => flat_map (fun c => row_data 1 r (match nth_error c i with Some x => x | None => [] end)) cols) (seq 0 n)) = n * m).
    { intros i' Hi'. apply flat_map_const_length. intros r' I. apply in_seq in I. apply Lm; [exact Hi'|lia]. }
    replace ((i * n + r) * m + j) with (i * (n * m) + (r * m + j)) by lia.
    rewrite (flat_map_nth' _ (n * m)); [|exact Ln|exact Hi|nia].
    rewrite (flat_map_nth' _ m); [|intros r' Hr'; apply Lm; auto|exact Hr|exact Hj].
    destruct (flat_map_ones _ cols j (One i r Hi Hr)) as [E _]. rewrite E, Ec, Ex. rewrite nth_row by lia. f_equal. lia.
  Qed.

  (** The matrix case. *)
  Lemma dense_columns cfg pre n m (A B X : tensor V) : sound_method cfg ->
    wf A -> t_shape A = pre ++ [n; n] -> wf B -> t_shape B = pre ++ [n; m] ->
    krylov_solve_dense N rsum edot tri cfg A B = Ok X ->
    t_shape X = t_shape B /\ t_dev X = t_dev B /\
    forall j, j < m -> exists b res l,
      krylov_solve N rsum edot tri (dense_matvec edot n (t_data A) (numel pre)) (fun r => Ok r) b cfg = (Ok res, l) /\
      length b = numel pre /\
      forall i, i < numel pre -> exists bi x,
        nth_error b i = Some bi /\ column_of (t_data B) n m i j bi /\
        nth_error (kr_du res) i = Some x /\ column_of (t_data X) n m i j x.
  Proof.
    intros Hs WA EA WB EB H. unfold krylov_solve_dense in H.
    assert (Wi : width A = n) by (unfold width; rewrite EA; change [n; n] with ([n] ++ [n]); rewrite app_assoc; apply last_last).
    assert (Wm : width B = m) by (unfold width; rewrite EB; change [n; m] with ([n] ++ [m]); rewrite app_assoc; apply last_last).
    assert (DA : dim A = length pre + 2) by (unfold dim; rewrite EA, app_length; reflexivity).
    assert (DB : dim B = length pre + 2) by (unfold dim; rewrite EB, app_length; reflexivity).
    cbv zeta in H. rewrite Wi, Wm, DA, DB in H.
    destruct (Nat.eqb_spec (length pre + 2) 0); [lia|]. destruct (Nat.eqb_spec (length pre + 2) (length pre + 2 - 1)); [lia|].
    unfold infer in H. 
    assert (NA : numel (t_shape A) = numel pre * (n * n)) by (rewrite EA, numel_app; cbn; lia).
    assert (NB : numel (t_shape B) = numel pre * (n * m)) by (rewrite EB, numel_app; cbn; lia).
    assert (Nn : numel [n; n] = n * n) by (cbn; lia). assert (Nm : numel [n; m] = n * m) by (cbn; lia).
    rewrite NA, NB, Nn, Nm in H.
    destruct (Nat.eqb_spec (n * n) 0) as [|Zn]; [discriminate|]. rewrite Nat.mod_mul, Nat.div_mul in H by exact Zn. cbn [Nat.eqb bind] in H.
    destruct (Nat.eqb_spec (n * m) 0) as [|Zm]; [discriminate|]. rewrite Nat.mod_mul, Nat.div_mul in H by exact Zm. cbn [Nat.eqb bind] in H.
    destruct (mapM _ (seq 0 m)) as [cols|e] eqn:Ec; [|discriminate]. cbn [bind] in H. injection H as <-. cbn [t_shape t_dev t_data].
    split; [reflexivity|]. split; [reflexivity|].
    apply mapM_Forall2 in Ec.
    pose proof (Forall2_length _ _ _ Ec) as Lc. rewrite seq_length in Lc.
    assert (LB : length (t_data B) = numel pre * (n * m)) by (rewrite WB; exact NB).
    assert (Col : forall j, j < m -> exists res l c, nth_error cols j = Some c /\ c = kr_du res /\
       krylov_solve N rsum edot tri (dense_matvec edot n (t_data A) (numel pre)) (fun r => Ok r) (pick n m (numel pre) j (t_data B)) cfg = (Ok res, l)).
    { intros j Hj. destruct (nth_error cols j) as [c|] eqn:E; [|apply nth_error_None in E; lia].
      assert (Q : forall (l1 : list nat) l2, Forall2 (fun (x : nat) y => (let* res := fst (krylov_solve N rsum edot tri (dense_matvec edot n (t_data A) (numel pre)) (fun r => Ok r) (pick n m (numel pre) x (t_data B)) cfg) in Ok (kr_du res)) = Ok y) l1 l2 ->
         forall j a c, nth_error l1 j = Some a -> nth_error l2 j = Some c -> (let* res := fst (krylov_solve N rsum edot tri (dense_matvec edot n (t_data A) (numel pre)) (fun r => Ok r) (pick n m (numel pre) a (t_data B)) cfg) in Ok (kr_du res)) = Ok c).
      { clear. intros l1 l2 F. induction F as [|x y l1 l2 Hxy _ IH]; intros [|j] a c E1 E2; cbn in E1, E2; try discriminate; [congruence|eauto]. }
      specialize (Q _ _ Ec j j c (seq_nth_error m j Hj) E).
      destruct (krylov_solve _ _ _ _ _ _ (pick n m (numel pre) j (t_data B)) cfg) as [[res|e] l]; [|discriminate].
      cbn [fst bind] in Q. exists res, l, c. split; [reflexivity|]. split; [congruence|reflexivity]. }
    assert (Shape : Forall (fun c => length c = numel pre /\ Forall (fun v => length v = n) c) cols).
    { apply nth_forall. intros j c E.
      assert (Hj : j < m) by (rewrite Lc; apply nth_error_Some; congruence).
      destruct (Col j Hj) as (res & l & c' & E' & -> & Hk). assert (c = kr_du res) by congruence. subst c.
      assert (Hlen : length (pick n m (numel pre) j (t_data B)) = numel pre) by (unfold pick; rewrite map_length, seq_length; reflexivity).
      assert (Rows : forall i, i < numel pre -> length (kr_du res) = numel pre /\ exists x, nth_error (kr_du res) i = Some x /\ length x = n).
      { intros i Hi. destruct (pick_row n m (numel pre) j (t_data B) i LB Hj Hi) as (v & Ev & Lv & _).
        destruct (solve_shape n _ _ _ cfg res l i _ _ v Hs (dense_acts n (t_data A) (numel pre) i) (id_acts i) (dense_width n _) (fun x Hx => Hx) Hk Ev Lv) as [L1 L2].
        rewrite Hlen in L1. auto. }
      destruct (numel pre) as [|P] eqn:EP.
      - exfalso. clear Rows. unfold krylov_solve in Hk. unfold pick in Hk. cbn [seq map] in Hk. clear -Hk Hs.
        destruct (k_method cfg) eqn:Em.
        + destruct Hs as [Hs|Hs]; [congruence|].
          destruct (gmres_run _ _ _ _ _ _ _ _ _ _ Hs Hk) as (? & st & _ & _ & _ & _ & _ & L & NE). destruct st; [contradiction|discriminate].
        + destruct (bicgstab_slowest _ _ _ _ _ _ _ _ _ Hk) as (st & i & s & Hl & Es & _).
          destruct (bicgstab_exact _ _ _ _ _ _ _ _ _ Hk) as (st2 & _ & _ & L & Hl2 & _).
          assert (st2 = st) by congruence. subst st2. destruct st; [destruct i; discriminate|discriminate].
      - split; [apply (Rows 0); lia|]. apply nth_forall. intros i v Ev.
        assert (Hi : i < S P). { destruct (Rows 0 ltac:(lia)) as [L1 _]. rewrite <- L1. apply nth_error_Some. congruence. }
        destruct (Rows i Hi) as [_ (x & Ex & Lx)]. congruence. }
    intros j Hj. destruct (Col j Hj) as (res & l & c & E & Ecd & Hk).
    exists (pick n m (numel pre) j (t_data B)), res, l. split; [exact Hk|].
    split; [unfold pick; rewrite map_length, seq_length; reflexivity|].
    intros i Hi. destruct (pick_row n m (numel pre) j (t_data B) i LB Hj Hi) as (v & Ev & Cv).
    pose proof (forall_nth _ _ _ _ Shape E) as [Lcc Fcc].
    destruct (nth_error c i) as [x|] eqn:Ex; [|apply nth_error_None in Ex; lia].
    pose proof (forall_nth _ _ _ _ Fcc Ex) as Lx. cbn in Lx.
    exists v, x. split; [exact Ev|]. split; [exact Cv|]. split; [congruence|].
    split; [exact Lx|]. intros r Hr. rewrite Lc. symmetry. apply (stack_entry n (numel pre) cols i r j c x); auto.
  Qed.

  (** Exact BiCGStab: a column solve that stopped before its budget is right to the tolerance. *)
  Lemma dense_exact cfg pre n m (A B X : tensor V) : ring_of N -> linear_dot N n edot -> k_method cfg = BiCGStab ->
    wf A -> t_shape A = pre ++ [n; n] -> wf B -> t_shape B = pre ++ [n; m] ->
    krylov_solve_dense N rsum edot tri cfg A B = Ok X ->
    forall j, j < m -> exists b res l,
      krylov_solve N rsum edot tri (dense_matvec edot n (t_data A) (numel pre)) (fun r => Ok r) b cfg = (Ok res, l) /\
      (kr_iters res < Z.to_nat (k_max_its cfg) ->
       forall i, i < numel pre -> exists a bi x, matrix_of (t_data A) n i a /\ column_of (t_data B) n m i j bi /\ column_of (t_data X) n m i j x /\
         within N rsum cfg bi (residual_of N (apply_matrix edot a) bi x)).
  Proof.
    intros R LD Hm WA EA WB EB H j Hj.
    destruct (dense_columns cfg pre n m A B X (or_introl Hm) WA EA WB EB H) as (_ & _ & C).
    destruct (C j Hj) as (b & res & l & Hk & Lb & Ci). exists b, res, l. split; [exact Hk|].
    intros Hlt i Hi. destruct (Ci i Hi) as (bi & x & Eb & Cb & Ex & Cx).
    assert (LA : length (t_data A) = numel pre * (n * n)) by (rewrite WA, EA, numel_app; cbn; lia).
    pose proof (rows_at_matrix n (t_data A) (numel pre) i LA Hi) as MA.
    exists (rows_at n (row_data (n * n) i (t_data A))), bi, x. split; [exact MA|]. split; [exact Cb|]. split; [exact Cx|].
    unfold krylov_solve in Hk. rewrite Hm in Hk.
    assert (LO : linear_op N n (apply_matrix edot (rows_at n (row_data (n * n) i (t_data A))))) by (apply linear_matrix; [exact LD|apply MA|apply MA]).
    assert (Ac : acts_on i (apply_matrix edot (rows_at n (row_data (n * n) i (t_data A)))) (dense_matvec edot n (t_data A) (numel pre))).
    { intros y z v Hy Ev. rewrite (dense_acts n (t_data A) (numel pre) i y z v Hy Ev). rewrite dense_row_apply. reflexivity. }
    destruct (bicgstab_residual N rsum edot R n _ _ b cfg res l i _ _ bi x Ac (id_acts i) LO (fun y Hy => Hy) Hk Eb (proj1 Cb) Ex) as (_ & Q & _).
    apply Q. destruct (bicgstab_exact N rsum edot _ _ b cfg res l Hk) as (st & E1 & E2 & L & _ & _ & _ & _ & [D|D]); [|lia].
    rewrite E2, nth_error_map. rewrite E1, nth_error_map in Ex. destruct (nth_error st i) as [s|] eqn:Es; [|discriminate].
    cbn. f_equal. unfold all_done in D. rewrite forallb_forall in D. apply D. eapply nth_error_In, Es.
  Qed.
End Dense.
