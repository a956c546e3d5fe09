From Verif Require Import Base Except SpecExcept.

(** Induction through aggregates. *)
Lemma exn_induct (P : exn -> Prop) :
  (forall w, P (Fatal w)) -> (forall w, P (Convergence w)) ->
  (forall es, (forall e, In e es -> P e) -> P (Aggregate es)) ->
  (forall w, P (StdExn w)) -> (forall t, P (OtherExn t)) -> forall e, P e.
Proof.
  intros Hf Hc Ha Hs Ho. fix IH 1. intros [w|w|es|w|t].
  - apply Hf.
  - apply Hc.
  - apply Ha. induction es as [|x es IHes]; intros e Hin; [destruct Hin|].
    assert (P x) as Hx by apply IH. destruct Hin as [<-|Hin]; [exact Hx|apply IHes, Hin].
  - apply Hs.
  - apply Ho.
Qed.

Lemma recoverable_retryable e : recoverable e = true <-> retryable e.
Proof.
  induction e as [w|w|es IH|w|t] using exn_induct.
  - split; [discriminate|inversion 1].
  - split; [constructor|reflexivity].
  - cbn [recoverable]. rewrite andb_true_iff, forallb_forall. split.
    + intros [Hne Hall]. constructor; [destruct es; congruence|].
      intros e He. apply IH; auto.
    + inversion 1 as [|es' Hne Hall]; subst. split; [destruct es; congruence|].
      intros e He. apply IH; auto.
  - split; [discriminate|inversion 1].
  - split; [discriminate|inversion 1].
Qed.

(** One non-retryable failure at any depth makes the whole fatal. *)
Lemma fatal_dominates e x : inside e x -> retryable x -> retryable e.
Proof.
  induction 1 as [|es x Hin Hi IH]; [auto|].
  inversion 1 as [|es' Hne Hall]; subst. apply IH, Hall, Hin.
Qed.

Lemma guarded_spec {A} (x : result A) :
  match x with
  | Ok a => guarded x = Ok a
  | Err e =>
      (library e -> guarded x = Err e) /\
      (~ library e -> exists w, guarded x = Err (Fatal w)) /\
      (exists e', guarded x = Err e' /\ library e' /\ (retryable e' <-> retryable e))
  end.
Proof.
  destruct x as [a|[w|w|es|w|t]]; cbn; try reflexivity;
    (split; [intros H; try reflexivity; destruct H|]; split; [intros H; try (exfalso; apply H; exact I); eauto|]);
    eexists; (split; [reflexivity|]); (split; [exact I|]); try reflexivity;
    split; inversion 1.
Qed.

Lemma append_assoc (a b c : string) : ((a ++ b) ++ c)%string = (a ++ (b ++ c))%string.
Proof. induction a as [|x a IH]; [reflexivity|]. cbn. rewrite IH. reflexivity. Qed.

Lemma append_nil_r (a : string) : (a ++ "")%string = a.
Proof. induction a as [|x a IH]; [reflexivity|]. cbn. rewrite IH. reflexivity. Qed.

Lemma part_refl s : part_of s s.
Proof. exists ""%string, ""%string. cbn. rewrite append_nil_r. reflexivity. Qed.

Lemma part_pre a sub s : part_of sub s -> part_of sub (a ++ s).
Proof. intros (x & y & ->). exists (a ++ x)%string, y. rewrite !append_assoc. reflexivity. Qed.

Lemma part_post b sub s : part_of sub s -> part_of sub (s ++ b).
Proof. intros (x & y & ->). exists x, (y ++ b)%string. rewrite !append_assoc. reflexivity. Qed.

Lemma part_trans a b c : part_of a b -> part_of b c -> part_of a c.
Proof. intros H (x & y & ->). apply part_pre, part_post, H. Qed.

Lemma agg_lines_part what es : forall i e k,
  nth_error es k = Some e ->
  part_of (nl ++ "  [" ++ dec (i + k) ++ "] (" ++ (if recoverable e then "recoverable" else "fatal")
              ++ ") " ++ what e) (agg_lines what i es).
Proof.
  induction es as [|x es IH]; intros i e [|k] H; cbn in H; try discriminate.
  - injection H as ->. rewrite Nat.add_0_r. cbn [agg_lines].
    exists ""%string, (agg_lines what (S i) es). rewrite !append_assoc. reflexivity.
  - cbn [agg_lines]. replace (i + S k) with (S i + k) by lia.
    do 7 apply part_pre. apply IH, H.
Qed.

(** The aggregate's message shows, for every direct part, its position, its
    class and its message. *)
Lemma aggregate_message es k e :
  nth_error es k = Some e ->
  part_of (nl ++ "  [" ++ dec k ++ "] (" ++ (if recoverable e then "recoverable" else "fatal")
              ++ ") " ++ what_of e) (what_of (Aggregate es)).
Proof. intros H. cbn [what_of]. do 2 apply part_pre. apply (agg_lines_part what_of es 0 e k H). Qed.

(** ... and so the message of every failure at any depth. *)
Lemma inside_message e x : inside e x -> part_of (what_of e) (what_of x).
Proof.
  induction 1 as [|es x Hin Hi IH]; [apply part_refl|].
  apply In_nth_error in Hin as [k Hk]. apply aggregate_message in Hk.
  eapply part_trans; [exact IH|]. eapply part_trans; [|exact Hk].
  do 6 apply part_pre. apply part_refl.
Qed.
