(** Lemmas about the Krylov loops: cost and termination. *)
From Verif Require Import Base BaseProofs Newton Krylov SpecKrylov.

Lemma map2_length {A B C} (f : A -> B -> C) a b : length (map2 f a b) = Nat.min (length a) (length b).
Proof. unfold map2. rewrite map_length, combine_length. reflexivity. Qed.

Lemma map2_same {A B C} (f : A -> B -> C) a b n :
  length a = n -> length b = n -> length (map2 f a b) = n.
Proof. intros Ha Hb. rewrite map2_length, Ha, Hb. apply Nat.min_id. Qed.

Lemma combine_same {A B} (a : list A) (b : list B) n :
  length a = n -> length b = n -> length (combine a b) = n.
Proof. intros Ha Hb. rewrite combine_length, Ha, Hb. apply Nat.min_id. Qed.

Section Bind.
  Context {V : Type}.
  Lemma kbind_inv {A B} (x : kio V A) (f : A -> kio V B) r l :
    kbind x f = (Ok r, l) ->
    exists a l1 l2, x = (Ok a, l1) /\ f a = (Ok r, l2) /\ l = l1 ++ l2.
  Proof.
    destruct x as [[a|e] l1]; cbn [kbind]; [|discriminate].
    destruct (f a) as [r' l2] eqn:E. intros H. injection H as -> <-. eauto 6.
  Qed.

  Lemma mats_app (a b : list (kcall V)) : mats (a ++ b) = mats a + mats b.
  Proof. unfold mats. rewrite filter_app, app_length. reflexivity. Qed.
  Lemma pres_app (a b : list (kcall V)) : pres (a ++ b) = pres a + pres b.
  Proof. unfold pres. rewrite filter_app, app_length. reflexivity. Qed.

  (** Bounds that hold whatever the outcome. *)
  Lemma kbind_mats {A B} (x : kio V A) (f : A -> kio V B) i j :
    mats (snd x) <= i -> (forall a, mats (snd (f a)) <= j) -> mats (snd (kbind x f)) <= i + j.
  Proof.
    destruct x as [[a|e] l]; cbn [kbind snd]; intros Hi Hj; [|lia].
    specialize (Hj a). destruct (f a) as [r l']. cbn [snd] in *. rewrite mats_app. lia.
  Qed.
  Lemma kbind_pres {A B} (x : kio V A) (f : A -> kio V B) i j :
    pres (snd x) <= i -> (forall a, pres (snd (f a)) <= j) -> pres (snd (kbind x f)) <= i + j.
  Proof.
    destruct x as [[a|e] l]; cbn [kbind snd]; intros Hi Hj; [|lia].
    specialize (Hj a). destruct (f a) as [r l']. cbn [snd] in *. rewrite pres_app. lia.
  Qed.
End Bind.

Lemma sizes_eqb_true a b : sizes_eqb a b = true -> a = b.
Proof. unfold sizes_eqb. destruct (list_eq_dec Nat.eq_dec a b); [auto|discriminate]. Qed.
Lemma sizes_eqb_refl a : sizes_eqb a a = true.
Proof. unfold sizes_eqb. destruct (list_eq_dec Nat.eq_dec a a); [auto|congruence]. Qed.

Lemma like_length {V} (x y : list (list V)) : like x y = true -> length y = length x.
Proof. intros H. apply sizes_eqb_true in H. rewrite <- (map_length (@length V) y), H. apply map_length. Qed.

Lemma call_op_inv {V} f c (x : list (list V)) y l :
  call_op f c x = (Ok y, l) -> f x = Ok y /\ like x y = true /\ l = [c] /\ length y = length x.
Proof.
  unfold call_op. intros H.
  assert (H1 : (let* y := f x in if like x y then Ok y else Err (StdExn "shape mismatch")) = Ok y) by congruence.
  assert (H2 : l = [c]) by congruence.
  destruct (f x) as [z|e]; cbn in H1; [|discriminate].
  destruct (like x z) eqn:E; [|discriminate]. injection H1 as ->. eauto using like_length.
Qed.


Lemma max_of_le l k : Forall (fun i => i <= k) l -> max_of l <= k.
Proof. induction 1 as [|i l Hi _ IH]; cbn [max_of fold_right]; [lia|]. fold (max_of l). lia. Qed.
Lemma max_of_ge l k : Exists (eq k) l -> k <= max_of l.
Proof. induction 1 as [i l ->|i l _ IH]; cbn [max_of fold_right]; fold (max_of l); lia. Qed.
Lemma max_of_exact l k : Forall (fun i => i <= k) l -> Exists (eq k) l -> max_of l = k.
Proof. intros H E. apply max_of_le in H. apply max_of_ge in E. lia. Qed.

(** A row at every position after a row-wise update. *)
Lemma map2_nth {A B C} (f : A -> B -> C) a b i :
  nth_error (map2 f a b) i =
  match nth_error a i, nth_error b i with Some x, Some y => Some (f x y) | _, _ => None end.
Proof.
  revert b i. induction a as [|x a IH]; intros b i.
  - cbn. destruct i; reflexivity.
  - destruct b as [|y b].
    + cbn. destruct i; cbn; [reflexivity|]. destruct (nth_error a i); reflexivity.
    + destruct i; [reflexivity|]. cbn. apply IH.
Qed.
Lemma combine_nth {A B} (a : list A) (b : list B) i :
  nth_error (combine a b) i =
  match nth_error a i, nth_error b i with Some x, Some y => Some (x, y) | _, _ => None end.
Proof.
  revert b i. induction a as [|x a IH]; intros b i.
  - destruct i; reflexivity.
  - destruct b as [|y b].
    + cbn. destruct i; cbn; [reflexivity|]. destruct (nth_error a i); reflexivity.
    + destruct i; [reflexivity|]. cbn. apply IH.
Qed.

Section Cost.
  Context {V : Type}.
  Variable N : num V.
  Variable rsum : list V -> V.
  Variable edot : list V -> list V -> V.
  Variable tri : list (list V) -> list V -> list V.
  Variable matvec minv : list (list V) -> result (list (list V)).

  (** ** Bounds whatever happens *)
  Lemma apply_a_cost x : mats (snd (apply_a matvec x)) = 1 /\ pres (snd (apply_a matvec x)) = 0.
  Proof. split; reflexivity. Qed.
  Lemma apply_m_cost x : mats (snd (apply_m minv x)) = 0 /\ pres (snd (apply_m minv x)) = 1.
  Proof. split; reflexivity. Qed.

  Lemma bicg_loop_bound cfg b more st :
    mats (snd (bicg_loop N rsum edot matvec minv cfg b more st)) <= 2 * more /\
    pres (snd (bicg_loop N rsum edot matvec minv cfg b more st)) <= 2 * more.
  Proof.
    clear tri. revert st. induction more as [|more IH]; intros st; [cbn; lia|].
    cbn [bicg_loop]. destruct (all_done st); [cbn; lia|].
    replace (2 * S more) with (0 + (1 + (0 + (1 + 2 * more)))) at 1 by lia.
    replace (2 * S more) with (1 + (0 + (1 + (0 + 2 * more)))) by lia.
    split.
    - apply kbind_mats; [reflexivity|intros ph]. apply kbind_mats; [reflexivity|intros v].
      apply kbind_mats; [reflexivity|intros sh]. apply kbind_mats; [reflexivity|intros t]. apply IH.
    - apply kbind_pres; [reflexivity|intros ph]. apply kbind_pres; [reflexivity|intros v].
      apply kbind_pres; [reflexivity|intros sh]. apply kbind_pres; [reflexivity|intros t]. apply IH.
  Qed.

  Lemma gmres_cycle_bound cfg b more st :
    mats (snd (gmres_cycle N rsum edot matvec minv cfg b more st)) <= more /\
    pres (snd (gmres_cycle N rsum edot matvec minv cfg b more st)) <= more.
  Proof.
    revert st. induction more as [|more IH]; intros st; [cbn; lia|].
    cbn [gmres_cycle].
    replace (S more) with (1 + (0 + more)) at 1 by lia.
    replace (S more) with (0 + (1 + more)) by lia.
    split.
    - apply kbind_mats; [reflexivity|intros av]. apply kbind_mats; [reflexivity|intros w].
      destruct (forallb _ _); [cbn; lia|apply IH].
    - apply kbind_pres; [reflexivity|intros av]. apply kbind_pres; [reflexivity|intros w].
      destruct (forallb _ _); [cbn; lia|apply IH].
  Qed.

  Lemma gmres_residual_cost b (first : bool) st :
    mats (snd (gmres_residual N matvec minv b first st)) <= (if first then 0 else 1) /\
    pres (snd (gmres_residual N matvec minv b first st)) <= 1.
  Proof.
    destruct first; cbn [gmres_residual]; [split; reflexivity|].
    split.
    - apply (kbind_mats _ _ 1 0); [reflexivity|intros; reflexivity].
    - apply (kbind_pres _ _ 0 1); [reflexivity|intros; reflexivity].
  Qed.

  Lemma gmres_loop_bound cfg b m first cycles st :
    mats (snd (gmres_loop N rsum edot tri matvec minv cfg b m first cycles st)) <=
      (if first then cycles * m + (cycles - 1) else cycles * (m + 1)) /\
    pres (snd (gmres_loop N rsum edot tri matvec minv cfg b m first cycles st)) <= cycles * (m + 1).
  Proof.
    revert first st. induction cycles as [|cycles IH]; intros first st.
    { cbn. destruct first; lia. }
    cbn [gmres_loop].
    pose proof (gmres_residual_cost b first st) as [R1 R2].
    split.
    - eapply Nat.le_trans.
      + apply kbind_mats; [exact R1|intros r]. 
        instantiate (1 := m + cycles * (m + 1)). destruct (forallb _ _); [cbn; lia|].
        apply kbind_mats; [apply gmres_cycle_bound|intros st']. apply (IH false).
      + destruct first; nia.
    - eapply Nat.le_trans.
      + apply kbind_pres; [exact R2|intros r]. 
        instantiate (1 := m + cycles * (m + 1)). destruct (forallb _ _); [cbn; lia|].
        apply kbind_pres; [apply gmres_cycle_bound|intros st']. apply (IH false).
      + nia.
  Qed.
End Cost.
