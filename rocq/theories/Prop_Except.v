(** Property C47: exceptions. *)
From Verif Require Import Base Except SpecExcept ExceptProofs.

(** Whatever leaves a guarded operation is a neml2 exception; a neml2 exception
    passes unchanged; anything else becomes a FatalError; retryability is
    neither gained nor lost. *)
Theorem C47_guarded : forall A (x : result A),
  match x with
  | Ok a => guarded x = Ok a
  | Err e =>
      (library e -> guarded x = Err e) /\
      (~ library e -> exists w, guarded x = Err (Fatal w)) /\
      (exists e', guarded x = Err e' /\ library e' /\ (retryable e' <-> retryable e))
  end.
Proof. exact @guarded_spec. Qed.
Print Assumptions C47_guarded.

(** recoverable() says whether a caller may retry, through every nesting. *)
Theorem C47_recoverable_iff : forall e, recoverable e = true <-> retryable e.
Proof. exact recoverable_retryable. Qed.
Print Assumptions C47_recoverable_iff.

(** One fatal failure at any depth makes the aggregate fatal. *)
Theorem C47_fatal_dominates : forall e x, inside e x -> recoverable e = false -> recoverable x = false.
Proof.
  intros e x Hin He. destruct (recoverable x) eqn:E; [|reflexivity].
  apply recoverable_retryable in E. apply (fatal_dominates e x Hin) in E.
  apply recoverable_retryable in E. congruence.
Qed.
Print Assumptions C47_fatal_dominates.

(** An aggregate's message shows the position, class and message of each part,
    and the message of every failure at any depth. *)
Theorem C47_message_parts : forall es k e, nth_error es k = Some e ->
  part_of (nl ++ "  [" ++ dec k ++ "] (" ++ (if recoverable e then "recoverable" else "fatal")
              ++ ") " ++ what_of e) (what_of (Aggregate es)).
Proof. exact aggregate_message. Qed.
Print Assumptions C47_message_parts.

Theorem C47_message_complete : forall e x, inside e x -> part_of (what_of e) (what_of x).
Proof. exact inside_message. Qed.
Print Assumptions C47_message_complete.

Example C47_case :
  let x := Aggregate [Convergence "diverged"; Aggregate [Convergence "c"; StdExn "bad_alloc"]] in
  inside (StdExn "bad_alloc") x /\ recoverable (StdExn "bad_alloc") = false /\ recoverable x = false /\
  recoverable (Aggregate [Convergence "a"; Aggregate [Convergence "b"]]) = true /\
  recoverable (Aggregate []) = false /\
  guarded (Err (StdExn "bad_alloc") : result nat) = Err (Fatal "aoti: bad_alloc") /\
  what_of (Aggregate [Convergence "a"; OtherExn 3]) =
  ("2 concurrent dispatches failed:" ++ nl ++ "  [0] (recoverable) a" ++ nl ++
   "  [1] (fatal) unknown (non-std) exception")%string.
Proof.
  cbn zeta. split.
  - eapply in_agg; [right; left; reflexivity|]. eapply in_agg; [right; left; reflexivity|]. constructor.
  - repeat split; vm_compute; reflexivity.
Qed.
