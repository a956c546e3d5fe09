(** Extraction directories: the invariant of polite executions. *)
From Verif Require Import Base ExtractTemp SpecExtractTemp.

Lemma underb_spec d : forall q, underb d q = true <-> under d q.
Proof.
  induction d as [|x d IH]; intros [|y q]; cbn; split; intros H; auto; try discriminate.
  - exists []; reflexivity.
  - exists (y :: q); reflexivity.
  - destruct H as (r & H); discriminate.
  - destruct (string_dec x y) as [->|]; [|discriminate]. apply IH in H as (r & ->). exists r; reflexivity.
  - destruct H as (r & H). injection H as -> ->. destruct (string_dec x x); [|congruence]. apply IH. exists r; reflexivity.
Qed.
Lemma in_remove_under D d p : In p (remove_under D d) <-> In p D /\ ~ under d p.
Proof.
  unfold remove_under. rewrite filter_In. rewrite <- underb_spec. destruct (underb d p); cbn; intuition congruence.
Qed.
Lemma has_dir_spec D p : has_dir D p = true <-> In p D.
Proof. unfold has_dir. destruct (in_dec path_eq_dec p D); intuition congruence. Qed.

Lemma under_snoc d b x : under d (b ++ [x]) -> d = b ++ [x] \/ under d b.
Proof.
  intros (r & H).
  destruct r as [|z r] using rev_ind; [left; rewrite app_nil_r in H; auto|].
  right. rewrite app_assoc in H. apply app_inj_tail in H as (-> & _). exists r; reflexivity.
Qed.
Lemma under_trans a b c : under a b -> under b c -> under a c.
Proof. intros (r & ->) (q & ->). exists (r ++ q). now rewrite app_assoc. Qed.
Lemma under_refl a : under a a.
Proof. exists []. now rewrite app_nil_r. Qed.
Lemma not_under_self b x : ~ under (b ++ [x]) b.
Proof. intros (r & H). apply (f_equal (@length string)) in H. rewrite !app_length in H; cbn in H; lia. Qed.

Lemma tree_prefix D : tree D -> forall d q, In q D -> under d q -> In d D.
Proof.
  intros T d q Hq (r & ->). induction r as [|y r IH] using rev_ind; [now rewrite app_nil_r in Hq|].
  apply IH. rewrite app_assoc in Hq. exact (T _ _ Hq).
Qed.
Lemma tree_cons D p x : tree D -> In p D -> tree ((p ++ [x]) :: D).
Proof.
  intros T Hp q y [H|H]; [apply app_inj_tail in H as (-> & ->); right; exact Hp|right; exact (T _ _ H)].
Qed.
Lemma tree_remove D d : tree D -> tree (remove_under D d).
Proof.
  intros T p x H. apply in_remove_under in H as (H & N). apply in_remove_under. split; [exact (T _ _ H)|].
  intros U. apply N. eapply under_trans; [exact U|]. exists [x]; reflexivity.
Qed.

Lemma putenv_ok e v p : env_ok e -> env_ok (putenv e v p).
Proof. intros (A & B). destruct v, p; split; cbn; auto; discriminate. Qed.

Lemma restore_tmp e h : env_ok h -> restore e TMP (save h TMP) = mkEnv (e_tmp h) (e_temp e).
Proof.
  intros (A & B). unfold restore, save; cbn. destruct (e_tmp h) as [[|x p]|]; cbn; auto. now destruct A.
Qed.
Lemma restore_temp e h : env_ok h -> restore e TEMP (save h TEMP) = mkEnv (e_tmp e) (e_temp h).
Proof.
  intros (A & B). unfold restore, save; cbn. destruct (e_temp h) as [[|x p]|]; cbn; auto. now destruct B.
Qed.
Lemma env_eta e : mkEnv (e_tmp e) (e_temp e) = e.
Proof. now destruct e. Qed.
Lemma putenv_tmp e p : p <> [] -> putenv e TMP p = mkEnv (Some p) (e_temp e).
Proof. destruct p; [congruence|reflexivity]. Qed.
Lemma putenv_temp e p : p <> [] -> putenv e TEMP p = mkEnv (e_tmp e) (Some p).
Proof. destruct p; [congruence|reflexivity]. Qed.

Lemma nth_remove {A} (l : list A) : forall k i x, nth_error (remove_nth k l) i = Some x ->
  nth_error l (if Nat.ltb i k then i else S i) = Some x.
Proof.
  induction l as [|y l IH]; intros [|k] [|i] x H; cbn [remove_nth nth_error] in H; try discriminate; auto.
  specialize (IH k i x H). change (S i <? S k) with (i <? k). destruct (i <? k); exact IH.
Qed.
Lemma nth_beyond {A} (l : list A) : forall k, length l <= k -> nth_error l k = None.
Proof. intros; now apply nth_error_None. Qed.

Section Inv.
  Variable fallback : path.
  Variable refuses : path -> bool.
  Notation temp_path := (temp_path fallback).

  Definition outside (c : pc) : Prop := match c with POut | PLock _ | PRet _ => True | _ => False end.
  (** A directory just made. *)
  Definition own (H : env) (s : xstate) (u : path) : Prop :=
    In u (x_dirs s) /\ (exists x, u = temp_path H ++ [x]) /\
    forall l, In l (x_live s) -> ~ under (ld_dir l) u /\ ~ under u (ld_dir l).
  Lemma own_nonempty H s u : own H s u -> u <> [].
  Proof. intros (_ & (x & ->) & _). apply not_eq_sym, app_cons_not_nil. Qed.
  Definition at_pc (H : env) (s : xstate) (c : pc) : Prop :=
    match c with
    | POut | PLock _ | PRet _ => False
    | PSaveTmp _ => x_env s = H
    | PSaveTemp _ a => x_env s = H /\ a = save H TMP
    | PBase _ a b => x_env s = H /\ a = save H TMP /\ b = save H TEMP
    | PNext _ a b base | PMake _ a b base _ => x_env s = H /\ a = save H TMP /\ b = save H TEMP /\ base = temp_path H
    | PPutTmp _ a b u => x_env s = H /\ a = save H TMP /\ b = save H TEMP /\ own H s u
    | PPutTemp _ a b u => x_env s = mkEnv (Some u) (e_temp H) /\ a = save H TMP /\ b = save H TEMP /\ own H s u
    | PEnter _ a b u | PExtract _ a b u => x_env s = mkEnv (Some u) (Some u) /\ a = save H TMP /\ b = save H TEMP /\ own H s u
    | PRestTmp a b r => a = save H TMP /\ b = save H TEMP /\ r <> Err sharing_violation
    | PRestTemp b r => e_tmp (x_env s) = e_tmp H /\ b = save H TEMP /\ r <> Err sharing_violation
    | PUnlock r => x_env s = H /\ r <> Err sharing_violation
    end.

  Record inv (H : env) (s : xstate) : Prop := mkInv {
    iv_env : env_ok H;
    iv_tree : tree (x_dirs s);
    iv_apart : apart s;
    iv_base : forall l, In l (x_live s) -> ~ under (ld_dir l) (temp_path H);
    iv_free : x_mutex s = None -> x_env s = H /\ forall t, outside (x_pc s t);
    iv_held : forall t, x_mutex s = Some t -> at_pc H s (x_pc s t) /\ forall k, k <> t -> outside (x_pc s k);
    iv_ret : forall t r, x_pc s t = PRet r -> r <> Err sharing_violation
  }.

  Lemma inv_fresh s : fresh_process s -> inv (x_env s) s.
  Proof.
    intros [E M T L O]. constructor; auto.
    - split; [rewrite L; intros l []|]. intros i j l1 l2 H1. rewrite L in H1. destruct i; discriminate.
    - rewrite L; intros l [].
    - intros _. split; auto. intros t. rewrite O. exact I.
    - intros t Ht; congruence.
    - intros t r Hr. rewrite O in Hr; discriminate.
  Qed.

  (** Steps that only move thread [t], which holds the mutex. *)
  Lemma holder H s t c : inv H s -> x_pc s t = c -> ~ outside c -> x_mutex s = Some t.
  Proof.
    intros I Hc N. destruct (x_mutex s) as [k|] eqn:M.
    - destruct (Nat.eq_dec t k) as [->|D]; auto. exfalso. apply N. rewrite <- Hc. exact (proj2 (iv_held _ _ I k M) t D).
    - exfalso. apply N. rewrite <- Hc. exact (proj2 (iv_free _ _ I M) t).
  Qed.
  Lemma upd_same f t c : upd f t c t = c.
  Proof. unfold upd. now rewrite Nat.eqb_refl. Qed.
  Lemma upd_other f t c k : k <> t -> upd f t c k = f k.
  Proof. unfold upd. intros D. apply Nat.eqb_neq in D. now rewrite D. Qed.

  (** The holder moves on, whatever else changes. *)
  Lemma moves H s s' t c :
    inv H s -> x_mutex s = Some t -> x_mutex s' = Some t -> x_pc s' = upd (x_pc s) t c -> tree (x_dirs s') -> apart s' ->
    (forall l, In l (x_live s') -> ~ under (ld_dir l) (temp_path H)) -> at_pc H s' c -> inv H s'.
  Proof.
    intros I M M' P T A B C. destruct (iv_held _ _ I t M) as (_ & O).
    constructor; auto.
    - exact (iv_env _ _ I).
    - intros N; congruence.
    - intros k Hk. rewrite M' in Hk. injection Hk as <-. rewrite P, upd_same. split; auto.
      intros j D. rewrite upd_other by exact D. auto.
    - intros k r Hk. rewrite P in Hk. destruct (Nat.eq_dec k t) as [->|D].
      + rewrite upd_same in Hk. rewrite Hk in C. destruct C.
      + rewrite upd_other in Hk by exact D. exact (iv_ret _ _ I k r Hk).
  Qed.
  Lemma goto_moves H s t c : inv H s -> x_mutex s = Some t -> at_pc H (goto s t c) c -> inv H (goto s t c).
  Proof.
    intros I M C. apply (moves H s (goto s t c) t c); auto.
    - exact (iv_tree _ _ I). - exact (iv_apart _ _ I). - exact (iv_base _ _ I).
  Qed.

  Lemma thread_inv H s t ok s' : inv H s -> thread_step fallback refuses s t ok = Some s' -> inv H s'.
  Proof.
    intros I E. unfold thread_step in E.
    destruct (x_pc s t) eqn:Hc; try discriminate.
    - (* lock *)
      destruct (x_mutex s) eqn:M; [discriminate|]. injection E as <-.
      destruct (iv_free _ _ I M) as (He & O). constructor; cbn; auto.
      + exact (iv_env _ _ I). + exact (iv_tree _ _ I). + exact (iv_apart _ _ I). + exact (iv_base _ _ I).
      + discriminate.
      + intros k Hk. injection Hk as <-. rewrite upd_same. split; [exact He|]. intros j D. rewrite upd_other by exact D. auto.
      + intros k r Hk. destruct (Nat.eq_dec k t) as [->|D]; [rewrite upd_same in Hk; discriminate|].
        rewrite upd_other in Hk by exact D. exact (iv_ret _ _ I k r Hk).
    - pose proof (holder _ _ _ _ I Hc (fun x => x)) as M. pose proof (proj1 (iv_held _ _ I t M)) as A. rewrite Hc in A; cbn in A.
      injection E as <-. apply goto_moves; auto. cbn. rewrite A. auto.
    - pose proof (holder _ _ _ _ I Hc (fun x => x)) as M. pose proof (proj1 (iv_held _ _ I t M)) as A. rewrite Hc in A; cbn in A.
      destruct A as (A & ->). injection E as <-. apply goto_moves; auto. cbn. rewrite A. auto.
    - pose proof (holder _ _ _ _ I Hc (fun x => x)) as M. pose proof (proj1 (iv_held _ _ I t M)) as A. rewrite Hc in A; cbn in A.
      destruct A as (A & -> & ->). destruct (has_dir _ _); injection E as <-; apply goto_moves; auto; cbn; rewrite ?A; auto.
      split; auto. discriminate.
    - pose proof (holder _ _ _ _ I Hc (fun x => x)) as M. pose proof (proj1 (iv_held _ _ I t M)) as A. rewrite Hc in A; cbn in A.
      injection E as <-. apply (moves H s _ t (PMake pkg a b base (x_counter s))); auto.
      + exact (iv_tree _ _ I). + exact (iv_apart _ _ I). + exact (iv_base _ _ I).
    - pose proof (holder _ _ _ _ I Hc (fun x => x)) as M. pose proof (proj1 (iv_held _ _ I t M)) as A. rewrite Hc in A; cbn in A.
      destruct A as (A & -> & -> & ->).
      destruct (creates _ _ _ _) eqn:C; injection E as <-.
      + unfold creates in C. apply andb_prop in C as (C & _). apply andb_prop in C as (C1 & C2).
        apply has_dir_spec in C1. apply negb_true_iff in C2.
        assert (N : ~ In (temp_path H ++ [unique_name n]) (x_dirs s)) by (intros X; apply has_dir_spec in X; congruence).
        set (u := temp_path H ++ [unique_name n]) in *. destruct (iv_apart _ _ I) as (D & S).
        apply (moves H s _ t (PPutTmp pkg (save H TMP) (save H TEMP) u)); auto; cbn.
        * apply tree_cons; [exact (iv_tree _ _ I)|exact C1].
        * split; [intros l Hl; right; auto|exact S].
        * exact (iv_base _ _ I).
        * repeat split; auto.
          -- left; reflexivity.
          -- exists (unique_name n); reflexivity.
          -- intros U. apply under_snoc in U as [U|U]; [|exact (iv_base _ _ I l H0 U)]. apply N. fold u in U. rewrite <- U. auto.
          -- intros U. apply N. exact (tree_prefix _ (iv_tree _ _ I) u _ (D l H0) U).
      + apply goto_moves; auto. cbn. auto.
    - pose proof (holder _ _ _ _ I Hc (fun x => x)) as M. pose proof (proj1 (iv_held _ _ I t M)) as A. rewrite Hc in A; cbn in A.
      destruct A as (A & -> & -> & O). injection E as <-.
      apply (moves H s _ t (PPutTemp pkg (save H TMP) (save H TEMP) u)); auto.
      + exact (iv_tree _ _ I). + exact (iv_apart _ _ I). + exact (iv_base _ _ I).
      + split; [|auto]. apply (eq_trans (putenv_tmp (x_env s) u (own_nonempty _ _ _ O))). rewrite A. reflexivity.
    - pose proof (holder _ _ _ _ I Hc (fun x => x)) as M. pose proof (proj1 (iv_held _ _ I t M)) as A. rewrite Hc in A; cbn in A.
      destruct A as (A & -> & -> & O). injection E as <-.
      apply (moves H s _ t (PEnter pkg (save H TMP) (save H TEMP) u)); auto.
      + exact (iv_tree _ _ I). + exact (iv_apart _ _ I). + exact (iv_base _ _ I).
      + split; [|auto]. apply (eq_trans (putenv_temp (x_env s) u (own_nonempty _ _ _ O))). rewrite A. reflexivity.
    - pose proof (holder _ _ _ _ I Hc (fun x => x)) as M. pose proof (proj1 (iv_held _ _ I t M)) as A. rewrite Hc in A; cbn in A.
      destruct A as (A & -> & -> & O). injection E as <-. apply goto_moves; auto. cbn. rewrite A. cbn. auto.
    - pose proof (holder _ _ _ _ I Hc (fun x => x)) as M. pose proof (proj1 (iv_held _ _ I t M)) as A. rewrite Hc in A; cbn in A.
      destruct A as (A & -> & -> & (O1 & (x & ->) & O3)).
      set (u := temp_path H ++ [x]) in *.
      destruct (existsb _ _) eqn:X.
      { exfalso. apply existsb_exists in X as (l & Hl & X). apply andb_prop in X as (X & _).
        destruct (path_eq_dec (ld_dir l) u) as [e|]; [|discriminate]. apply (proj1 (O3 l Hl)). rewrite e. apply under_refl. }
      rewrite (proj2 (has_dir_spec _ _) O1) in E; cbn in E.
      destruct ok; injection E as <-.
      + destruct (iv_apart _ _ I) as (D & S).
        apply (moves H s _ t (PRestTmp (save H TMP) (save H TEMP) (Ok (mkL u pkg)))); auto; cbn.
        * exact (iv_tree _ _ I).
        * split.
          -- intros l Hl. cbn in Hl. apply in_app_or in Hl as [Hl|[<-|[]]]; auto.
          -- cbn. intros i j l1 l2 H1 H2 U.
             assert (Q : forall k l, nth_error (x_live s ++ [mkL u pkg]) k = Some l ->
                         (nth_error (x_live s) k = Some l) \/ (k = length (x_live s) /\ l = mkL u pkg)).
             { intros k l Hk. destruct (Nat.lt_ge_cases k (length (x_live s))) as [L|L].
               - left. now rewrite nth_error_app1 in Hk.
               - right. rewrite nth_error_app2 in Hk by exact L. destruct (k - length (x_live s)) as [|q] eqn:W; cbn in Hk.
                 + injection Hk as <-. split; [lia|reflexivity].
                 + destruct q; discriminate. }
             destruct (Q _ _ H1) as [P1|(P1 & ->)], (Q _ _ H2) as [P2|(P2 & ->)].
             ++ exact (S _ _ _ _ P1 P2 U).
             ++ exfalso. exact (proj1 (O3 l1 (nth_error_In _ _ P1)) U).
             ++ exfalso. exact (proj2 (O3 l2 (nth_error_In _ _ P2)) U).
             ++ lia.
        * intros l Hl. apply in_app_or in Hl as [Hl|[<-|[]]]; [exact (iv_base _ _ I l Hl)|apply not_under_self].
        * repeat split; auto; discriminate.
      + apply goto_moves; auto. cbn. repeat split; auto; discriminate.
    - pose proof (holder _ _ _ _ I Hc (fun x => x)) as M. pose proof (proj1 (iv_held _ _ I t M)) as A. rewrite Hc in A; cbn in A.
      destruct A as (-> & -> & R). injection E as <-.
      apply (moves H s _ t (PRestTemp (save H TEMP) r)); auto.
      + exact (iv_tree _ _ I). + exact (iv_apart _ _ I). + exact (iv_base _ _ I).
      + split; [|auto]. exact (f_equal e_tmp (restore_tmp (x_env s) H (iv_env _ _ I))).
    - pose proof (holder _ _ _ _ I Hc (fun x => x)) as M. pose proof (proj1 (iv_held _ _ I t M)) as A. rewrite Hc in A; cbn in A.
      destruct A as (A & -> & R). injection E as <-.
      apply (moves H s _ t (PUnlock r)); auto.
      + exact (iv_tree _ _ I). + exact (iv_apart _ _ I). + exact (iv_base _ _ I).
      + split; [|auto]. apply (eq_trans (restore_temp (x_env s) H (iv_env _ _ I))). rewrite A. apply env_eta.
    - pose proof (holder _ _ _ _ I Hc (fun x => x)) as M. pose proof (iv_held _ _ I t M) as (A & O). rewrite Hc in A; cbn in A.
      destruct A as (A & R). injection E as <-. constructor; cbn; auto.
      + exact (iv_env _ _ I). + exact (iv_tree _ _ I). + exact (iv_apart _ _ I). + exact (iv_base _ _ I).
      + intros _. split; auto. intros k. destruct (Nat.eq_dec k t) as [->|D]; [rewrite upd_same; exact Logic.I|].
        rewrite upd_other by exact D. auto.
      + discriminate.
      + intros k r' Hk. destruct (Nat.eq_dec k t) as [->|D]; [rewrite upd_same in Hk; congruence|].
        rewrite upd_other in Hk by exact D. exact (iv_ret _ _ I k r' Hk).
  Qed.

  (** What the invariant needs of the world's steps: the file system and the loaders. *)
  Lemma at_pc_world H s s' c :
    x_env s' = x_env s -> (forall u, in_hand c = Some u -> own H s u -> own H s' u) -> at_pc H s c -> at_pc H s' c.
  Proof. intros E O. destruct c; cbn in *; rewrite ?E; intuition auto. Qed.

  Lemma world_inv H s s' :
    inv H s -> x_env s' = x_env s -> x_mutex s' = x_mutex s -> x_pc s' = x_pc s -> tree (x_dirs s') -> apart s' ->
    (forall l, In l (x_live s') -> In l (x_live s)) ->
    (forall t u, in_hand (x_pc s t) = Some u -> own H s u -> In u (x_dirs s')) -> inv H s'.
  Proof.
    intros I E M P T A L O. constructor; auto.
    - exact (iv_env _ _ I).
    - intros l Hl. exact (iv_base _ _ I l (L l Hl)).
    - rewrite M, E, P. exact (iv_free _ _ I).
    - intros t Ht. rewrite M in Ht. destruct (iv_held _ _ I t Ht) as (C & K). rewrite P. split; auto.
      apply (at_pc_world H s); auto. intros u Hu (O1 & O2 & O3). split; [exact (O t u Hu (conj O1 (conj O2 O3)))|]. split; auto.
    - rewrite P. exact (iv_ret _ _ I).
  Qed.

  Definition host_after (H : env) (l : xlabel) : env := match l with LSet v p => putenv H v p | _ => H end.

  Lemma step_inv H s l s' : inv H s -> polite fallback s l -> xstep fallback refuses s l = Some s' -> inv (host_after H l) s'.
  Proof.
    intros I P E. destruct l as [t p|t ok|k|v p|p x|p]; cbn [xstep host_after] in *.
    - assert (Q : outside (x_pc s t) /\ s' = goto s t (PLock p)) by (destruct (x_pc s t); try discriminate; injection E as <-; auto).
      clear E. destruct Q as (O & ->). constructor; cbn; auto.
      + exact (iv_env _ _ I). + exact (iv_tree _ _ I). + exact (iv_apart _ _ I). + exact (iv_base _ _ I).
      + intros M. destruct (iv_free _ _ I M) as (A & B). split; auto. intros k. unfold upd. destruct (k =? t); [exact Logic.I|auto].
      + intros k M. destruct (iv_held _ _ I k M) as (A & B).
        assert (D : k <> t) by (intros ->; destruct (x_pc s t); contradiction).
        rewrite upd_other by exact D. split; [exact A|]. intros j Dj. unfold upd. destruct (j =? t); [exact Logic.I|auto].
      + intros k r. unfold upd. destruct (k =? t); [discriminate|]. exact (iv_ret _ _ I k r).
    - exact (thread_inv H s t ok s' I E).
    - destruct (nth_error (x_live s) k) as [l|] eqn:Hk; [|discriminate]. injection E as <-.
      destruct (iv_apart _ _ I) as (D & S).
      assert (L : forall j l2, nth_error (remove_nth k (x_live s)) j = Some l2 ->
                  nth_error (x_live s) (if j <? k then j else Datatypes.S j) = Some l2 /\ (if j <? k then j else Datatypes.S j) <> k).
      { intros j l2 Hj. split; [exact (nth_remove _ _ _ _ Hj)|]. destruct (Nat.ltb_spec j k); lia. }
      apply (world_inv H s); auto; cbn.
      + apply tree_remove. exact (iv_tree _ _ I).
      + split; cbn.
        * intros l2 H2. apply In_nth_error in H2 as (j & H2). destruct (L _ _ H2) as (H3 & N). apply in_remove_under. split.
          -- apply D. exact (nth_error_In _ _ H3).
          -- intros U. apply N. symmetry. exact (S _ _ _ _ Hk H3 U).
        * intros i j l1 l2 H1 H2 U. destruct (L _ _ H1) as (A1 & _). destruct (L _ _ H2) as (A2 & _).
          pose proof (S _ _ _ _ A1 A2 U) as Q. destruct (Nat.ltb_spec i k), (Nat.ltb_spec j k); lia.
      + intros l2 H2. apply In_nth_error in H2 as (j & H2). exact (nth_error_In _ _ (proj1 (L _ _ H2))).
      + intros t u _ (O1 & _ & O3). apply in_remove_under. split; auto. exact (proj1 (O3 l (nth_error_In _ _ Hk))).
    - destruct P as (M & P). injection E as <-. destruct (iv_free _ _ I M) as (A & B). constructor; cbn; auto.
      + apply putenv_ok. exact (iv_env _ _ I). + exact (iv_tree _ _ I). + exact (iv_apart _ _ I).
      + rewrite <- A. exact P.
      + intros _. rewrite A. auto.
      + intros t Ht. congruence.
      + exact (iv_ret _ _ I).
    - destruct (creates _ _ _ _) eqn:C; [|discriminate]. injection E as <-.
      unfold creates in C. apply andb_prop in C as (C & _). apply andb_prop in C as (C & _). apply has_dir_spec in C.
      destruct (iv_apart _ _ I) as (D & S).
      apply (world_inv H s); auto; cbn.
      + apply tree_cons; [exact (iv_tree _ _ I)|exact C].
      + split; cbn; auto.
      + intros t u _ (O1 & _). auto.
    - injection E as <-. destruct P as (P1 & P2). destruct (iv_apart _ _ I) as (D & S).
      apply (world_inv H s); auto; cbn.
      + apply tree_remove. exact (iv_tree _ _ I).
      + split; cbn; auto. intros l Hl. apply in_remove_under. auto.
      + intros t u Hu (O1 & _). apply in_remove_under. split; auto. exact (P2 t u Hu).
  Qed.

  Lemma run_inv s ls s' : polite_run fallback refuses s ls s' -> fresh_process s -> inv (host_env (x_env s) ls) s'.
  Proof.
    intros R F. induction R as [s|s ls s1 l s2 R IH P E]; [exact (inv_fresh s F)|].
    unfold host_env. rewrite fold_left_app. cbn. exact (step_inv _ _ _ _ (IH F) P E).
  Qed.
End Inv.
