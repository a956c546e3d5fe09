(** C62: failures keep their meaning across the Python boundary. *)
From Coq Require Import String.
From Verif Require Import Base SpecExcept Except Bridge SpecBridge BridgeProofs.
Local Open Scope list_scope.
Local Open Scope string_scope.

Section Bridge.
  Context {P : Type} (std_class : string -> string) (traceback : string -> string -> string).
  Local Notation unwind := (@unwind P std_class traceback).

  (** Through any stack of frames, what may be retried stays so and nothing else becomes so. *)
  Theorem C62_recoverable : forall s fs s' x,
    stack s fs s' -> on s x -> (may_retry (unwind fs x) <-> may_retry x).
  Proof. exact (retry_along std_class traceback). Qed.

  (** Unless Python code replaces it, the message stays part of the message. *)
  Theorem C62_message : forall s fs s' x,
    stack s fs s' -> on s x -> (forall i c, x <> InCpp (Cpp (OtherExn i) c)) ->
    Forall (fun f => ~ replaces f) fs ->
    part_of (message x) (message (unwind fs x)).
  Proof.
    intros s fs s' x St O M F. apply (message_along std_class traceback s fs s'); auto.
    destruct x as [[[]|]|]; cbn; auto. intros _. exact (M _ _ eq_refl).
  Qed.

  (** An operation of the eager model throws only neml2 exceptions; a non-std exception passes only if no Python ran
      above it. *)
  Theorem C62_taxonomy : forall fs e c op,
    stack Cxx fs Cxx -> single e -> (In Called fs \/ forall i, e <> OtherExn i) ->
    exists e' c', unwind (fs ++ [EagerOp op])%list (InCpp (Cpp e c)) = InCpp (Cpp e' c') /\ library e'.
  Proof.
    intros fs e c op St S H. rewrite unwind_app.
    destruct (arrives std_class traceback fs Cxx (InCpp (Cpp e c)) St S eq_refl) as [t [-> N]].
    destruct (eager_library traceback op t) as (e' & c' & E & L).
    - intros i c' Et. destruct (N i c' Et) as [M NI]. destruct H as [H|H]; [exact (NI H)|].
      destruct e; try exact M. exact (H _ eq_refl).
    - exists e', c'. split; [cbn; f_equal; exact E | exact L].
  Qed.

  (** An operation of the compiled model throws only neml2 exceptions. *)
  Theorem C62_facade : forall fs e c,
    stack Cxx fs Cxx -> single e ->
    exists e' c', unwind (fs ++ [Facade])%list (InCpp (Cpp e c)) = InCpp (Cpp e' c') /\ library e'.
  Proof.
    intros fs e c St S. rewrite unwind_app.
    destruct (arrives std_class traceback fs Cxx (InCpp (Cpp e c)) St S eq_refl) as [t [-> _]].
    destruct t as [[]|]; do 2 eexists; (split; [reflexivity|exact I]).
  Qed.

  (** The captured failure survives the translators ... *)
  Theorem C62_context : forall s fs s' x,
    stack s fs s' -> on s x -> may_retry x ->
    Forall (fun f => ~ replaces f /\ forall op, f <> EagerOp op) fs ->
    context (unwind fs x) = context x.
  Proof. exact (context_along std_class traceback). Qed.

  (** ... but never the guard of the eager model. *)
  Theorem C62_context_refuted : forall w c op,
    context (unwind [Bound; Called; EagerOp op] (InCpp (Cpp (Convergence w) c))) = None.
  Proof. reflexivity. Qed.
End Bridge.
Print Assumptions C62_recoverable.
Print Assumptions C62_message.
Print Assumptions C62_taxonomy.
Print Assumptions C62_facade.
Print Assumptions C62_context.
Print Assumptions C62_context_refuted.

(** A host calls the eager model; its Python calls the compiled Newton, which calls Python for a residual. *)
Definition tour : list (frame nat) := [Bound; Called; Bound; Called; EagerOp "forward"].
Example C62_stack : stack Cxx tour Cxx.
Proof. repeat constructor. Qed.
Example C62_case :
  unwind (fun _ => "ValueError") (fun _ _ => "") tour (InCpp (Cpp (Convergence "diverged") (Some 3))) =
    InCpp (Cpp (Convergence "neml2::eager::Model::forward: ConvergenceError: diverged") None) /\
  unwind (fun _ => "ValueError") (fun _ _ => "") tour (InCpp (Cpp (StdExn "bad shape") None)) =
    InCpp (Cpp (Fatal "neml2::eager::Model::forward: ValueError: bad shape") None) /\
  unwind (fun _ => "") (fun _ _ => "") [Facade; Bound; Called] (InCpp (Cpp (Convergence "diverged") (Some 3))) =
    InCpp (Held (PyConvergence "ConvergenceError" "diverged" (Some 3))) /\
  unwind (P := nat) (fun _ => "") (fun _ _ => "") [Facade] (InCpp (Cpp (StdExn "out of memory") None)) =
    InCpp (Cpp (Fatal "aoti: out of memory") None).
Proof. repeat split. Qed.
