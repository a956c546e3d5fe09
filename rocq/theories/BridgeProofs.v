(** Lemmas for C62. *)
From Coq Require Import String.
From Verif Require Import Base SpecExcept Except ExceptProofs Bridge SpecBridge.
Local Open Scope list_scope.
Local Open Scope string_scope.

Section Proofs.
  Context {P : Type} (std_class : string -> string) (traceback : string -> string -> string).
  Local Notation pass := (@pass P std_class traceback).
  Local Notation unwind := (@unwind P std_class traceback).

  Scheme stack_ind2 := Induction for stack Sort Prop
    with stack_above_ind2 := Induction for stack_above Sort Prop.
  Combined Scheme stack_mut from stack_ind2, stack_above_ind2.

  (** What [Called] leaves. *)
  Definition held (x : inflight P) : Prop := match x with InCpp (Held _) => True | _ => False end.

  Lemma along (R : inflight P -> inflight P -> Prop) (ok : frame P -> Prop) :
    (forall x, R x x) -> (forall x y z, R x y -> R y z -> R x z) ->
    (forall e c, ok Bound -> single e -> R (InCpp (Cpp e c)) (pass Bound (InCpp (Cpp e c)))) ->
    (forall p, ok Bound -> R (InCpp (Held p)) (InPython p)) ->
    (forall p, ok Called -> R (InPython p) (InCpp (Held p))) ->
    (forall w c p, ok (Replaced w c) -> R (InPython p) (pass (Replaced w c) (InPython p))) ->
    (forall e c, ok Facade -> single e -> R (InCpp (Cpp e c)) (pass Facade (InCpp (Cpp e c)))) ->
    (forall op t, ok (EagerOp op) -> (forall e c, t = Cpp e c -> single e) ->
                  R (InCpp t) (pass (EagerOp op) (InCpp t))) ->
    (forall s fs s', stack s fs s' -> Forall ok fs -> forall x, on s x -> R x (unwind fs x)) /\
    (forall fs s', stack_above fs s' -> Forall ok fs -> forall x, held x -> R x (unwind fs x)).
  Proof.
    intros R0 R1 Hb Hh Hc Hr Hf He.
    apply stack_mut; cbn [Bridge.unwind fold_left]; intros.
    - apply R0.
    - destruct x as [[e c|p]|p]; try contradiction. inversion H0; subst.
      eapply R1; [apply Hb; assumption | apply H; [assumption | exact I]].
    - destruct x as [t|p]; try contradiction. inversion H0; subst.
      eapply R1; [apply Hc; assumption | apply H; [assumption | exact I]].
    - destruct x as [t|p]; try contradiction. inversion H0; subst.
      eapply R1; [apply Hr; eassumption | apply H; [assumption|]]. destruct p; exact I.
    - destruct x as [[e ctx|p]|p]; try contradiction. inversion H0; subst.
      eapply R1; [apply Hf; assumption | apply H; [assumption|]].
      destruct e; cbn in *; try assumption; intros es; discriminate.
    - destruct x as [[e ctx|p]|p]; try contradiction. inversion H0; subst.
      eapply R1; [apply He; [eassumption | intros ? ? [= -> ->]; assumption] | apply H; [assumption|]].
      destruct e; cbn in *; try assumption; intros es; discriminate.
    - apply R0.
    - destruct x as [[e ctx|p]|p]; try contradiction. inversion H0; subst.
      eapply R1; [apply Hh; assumption | apply H; [assumption | exact I]].
    - destruct x as [[e ctx|p]|p]; try contradiction. inversion H0; subst.
      eapply R1; [apply He; [eassumption | discriminate] | apply H; [assumption|]].
      destruct p; cbn; intros es; discriminate.
  Qed.

  Lemma not_retry e : (forall w, e <> Convergence w) -> single e -> ~ retryable e.
  Proof. intros H S R. destruct R as [w|es]; [eapply H | eapply S]; reflexivity. Qed.



  Lemma retry_along s fs s' x : stack s fs s' -> on s x -> (may_retry (unwind fs x) <-> may_retry x).
  Proof.
    intros St O.
    destruct (along (fun x y => may_retry x <-> may_retry y) (fun _ => True)) as [A1 _].
    - tauto.
    - tauto.
    - intros e c _ S. destruct e; cbn.
      + split; [|contradiction]. apply not_retry; discriminate.
      + split; [trivial|constructor].
      + edestruct S; reflexivity.
      + split; [|contradiction]. apply not_retry; discriminate.
      + split; [|contradiction]. apply not_retry; discriminate.
    - intros p _. destruct p; cbn; tauto.
    - intros p _. destruct p; cbn; tauto.
    - intros w c p _. destruct p; cbn; tauto.
    - intros e c _ S. destruct e; cbn; try tauto.
      + split; intros R; exfalso; revert R; apply not_retry; discriminate.
      + split; intros R; exfalso; revert R; apply not_retry; discriminate.
    - intros op t _ S. destruct t as [e c|p].
      + destruct e; cbn; try tauto. split; intros R; exfalso; revert R; apply not_retry; discriminate.
      + destruct p; cbn; [split; [constructor | trivial] |].
        split; [contradiction | apply not_retry; discriminate].
    - symmetry. eapply A1; eauto. apply Forall_forall; trivial.
  Qed.

  (** A non-std C++ exception has no message. *)
  Definition mute (x : inflight P) : Prop := match x with InCpp (Cpp (OtherExn _) _) => True | _ => False end.

  Lemma message_along s fs s' x :
    stack s fs s' -> on s x -> ~ mute x -> Forall (fun f => ~ replaces f) fs ->
    part_of (message x) (message (unwind fs x)).
  Proof.
    intros St O M F.
    destruct (along (fun x y => mute x \/ ~ mute y /\ part_of (message x) (message y)) (fun f => ~ replaces f))
      as [A1 _].
    - intros y. destruct y as [[[]|]|]; cbn; auto using part_refl.
    - intros a b c [A|[A A']] [B|[B B']]; auto; try contradiction. right; eauto using part_trans.
    - intros e c _ S. destruct e; cbn; auto using part_refl.
    - intros p _. destruct p; cbn; auto using part_refl.
    - intros p _. destruct p; cbn; auto using part_refl.
    - intros w c p N. destruct N; exact I.
    - intros e c _ S. destruct e; cbn; auto using part_refl. right. split; [tauto|].
      do 6 apply (part_pre (String _ EmptyString)). apply part_refl.
    - intros op t _ S. destruct t as [e c|p].
      + destruct e; cbn -[append]; auto using part_refl. right. split; [tauto|]. apply part_pre, part_refl.
      + right. destruct p; cbn -[append]; (split; [tauto|]); apply part_pre, part_pre, part_pre, part_post, part_refl.
    - destruct (A1 _ _ _ St F x O) as [A|[_ A]]; [contradiction | exact A].
  Qed.

  Lemma unwind_app fs gs x : unwind (fs ++ gs)%list x = unwind gs (unwind fs x).
  Proof. apply fold_left_app. Qed.

  (** What reaches the C++ side. *)
  Lemma arrives fs s x :
    (stack Cxx fs s -> on Cxx x -> s = Cxx ->
     exists t, unwind fs x = InCpp t /\ (forall i c, t = Cpp (OtherExn i) c -> mute x /\ ~ In Called fs)).
  Proof.
    assert (K : (forall s0 fs s', stack s0 fs s' -> forall x, on s0 x -> s' = Cxx ->
                 exists t, unwind fs x = InCpp t /\
                           (forall i c, t = Cpp (OtherExn i) c -> mute x /\ ~ In Called fs)) /\
                (forall fs s', stack_above fs s' -> forall x, held x -> s' = Cxx ->
                 exists t, unwind fs x = InCpp t /\ (forall i c, t <> Cpp (OtherExn i) c))).
    { apply stack_mut; cbn [Bridge.unwind fold_left]; intros.
      - subst s0. destruct x0 as [t|p]; try contradiction. exists t. split; [reflexivity|].
        intros i c ->. split; [exact I | tauto].
      - destruct x0 as [[e c|p]|p]; try contradiction.
        destruct (H (pass Bound (InCpp (Cpp e c))) I H1) as [t [E N]]. exists t. split; [exact E|].
        intros i c' Et. destruct (N i c' Et) as [[] _].
      - destruct x0 as [t|p]; try contradiction.
        destruct (H (InCpp (Held p)) I H1) as [t [E N]]. exists t. split; [exact E|].
        intros i c' Et. destruct (N i c' Et).
      - destruct x0 as [t|p]; try contradiction.
        assert (O : on Py (pass (Replaced w c) (InPython p))) by (destruct p; exact I).
        destruct (H _ O H1) as [t [E N]]. exists t. split; [exact E|].
        intros i c' Et. destruct (N i c' Et) as [M _]. destruct p; destruct M.
      - destruct x0 as [[e c|p]|p]; try contradiction.
        assert (O : on Cxx (pass Facade (InCpp (Cpp e c)))).
        { destruct e; cbn in *; try assumption; intros es; discriminate. }
        destruct (H _ O H1) as [t [E N]]. exists t. split; [exact E|].
        intros i c' Et. destruct (N i c' Et) as [M _]. destruct e; destruct M.
      - destruct x0 as [[e c|p]|p]; try contradiction.
        assert (O : on Cxx (pass (EagerOp op) (InCpp (Cpp e c)))).
        { destruct e; cbn in *; try assumption; intros es; discriminate. }
        destruct (H _ O H1) as [t [E N]]. exists t. split; [exact E|].
        intros i c' Et. destruct (N i c' Et) as [M NI]. destruct e; try (destruct M; fail).
        split; [exact I|]. intros [D|D]; [discriminate | contradiction].
      - destruct x0 as [[e c|p]|p]; try contradiction. exists (Held p). split; [reflexivity | discriminate].
      - destruct x0 as [[e c|p]|p]; try contradiction.
        destruct (H (InPython p) I H1) as [t [E N]]. exists t. split; [exact E|].
        intros i c' Et. destruct (N i c' Et) as [[] _].
      - destruct x0 as [[e c|p]|p]; try contradiction.
        assert (O : on Cxx (pass (EagerOp op) (InCpp (Held p)))).
        { destruct p; cbn in *; intros es; discriminate. }
        destruct (H _ O H1) as [t [E N]]. exists t. split; [exact E|].
        intros i c' Et. destruct (N i c' Et) as [M _]. destruct p; destruct M. }
    intros St O E. exact (proj1 K _ _ _ St x O E).
  Qed.

  Lemma eager_library op t :
    (forall i c, t <> Cpp (OtherExn i) c) ->
    exists e c, @eager_guard P traceback op t = Cpp e c /\ library e.
  Proof.
    intros N. destruct t as [e c|p].
    - destruct e; try (do 2 eexists; split; [reflexivity | exact I]). destruct (N _ _ eq_refl).
    - destruct p; do 2 eexists; (split; [reflexivity | exact I]).
  Qed.

  Lemma context_along s fs s' x :
    stack s fs s' -> on s x -> may_retry x ->
    Forall (fun f => ~ replaces f /\ forall op, f <> EagerOp op) fs ->
    context (unwind fs x) = context x.
  Proof.
    intros St O M F.
    destruct (along (fun x y => may_retry x -> may_retry y /\ context y = context x)
                (fun f => ~ replaces f /\ forall op, f <> EagerOp op)) as [A1 _].
    - auto.
    - intros a b c A B M'. destruct (A M') as [M2 E]. destruct (B M2) as [M3 E']. split; [assumption | congruence].
    - intros e c _ S M'. destruct M' as [w|es]; [cbn; auto | edestruct S; reflexivity].
    - intros p _. destruct p; cbn; auto.
    - intros p _. destruct p; cbn; auto.
    - intros w c p [N _]. destruct N; exact I.
    - intros e c _ S M'. destruct M' as [w|es]; [cbn; split; [constructor | reflexivity] | edestruct S; reflexivity].
    - intros op t [_ N]. destruct (N op eq_refl).
    - exact (proj2 (A1 _ _ _ St F x O M)).
  Qed.
End Proofs.
