(** Vocabulary of property C73: what the substepping drivers say about a call. *)
From Verif Require Import Base Tensor Spec Pack Implicit Substep SpecSubstep Jac SubstepJac Log SubstepLog.

(** How many rows of a mask are [x]. *)
Definition count (x : bool) (mask : list bool) : nat := length (filter (Bool.eqb x) mask).
(** The rows that failed. *)
Definition left_over (rows : list Z) (mask : list bool) : list Z :=
  map fst (filter (fun p => negb (snd p)) (combine rows mask)).

Section Told.
  Context {V : Type}.
  Variable half_way : V -> V -> V.
  Variables lo hi : V.

  (** The solves of a bisection that succeeded: over the interval at once, or then in two halves with the rows that
      failed; [k] halvings led to the interval, [d] to the smallest one in it. *)
  Inductive bisected : nat -> V -> V -> list Z -> list (solve_log (V := V)) -> nat -> Prop :=
  | bis_whole k a b rows mask : ~ In false mask -> bisected k a b rows [(a, b, rows, mask)] k
  | bis_halves k a b rows mask l1 l2 d1 d2 : In false mask ->
      bisected (S k) a (half_way a b) (left_over rows mask) l1 d1 ->
      bisected (S k) (half_way a b) b (left_over rows mask) l2 d2 ->
      bisected k a b rows ((a, b, rows, mask) :: l1 ++ l2) (Nat.max d1 d2).

  (** Solves, each followed (when [debug]) by a line with its interval, the number of halvings that led to it and its
      numbers of rows.  Unless [closed] the line of the last solve may be missing. *)
  Inductive told (debug : bool) : bool -> list (span_event (V := V)) -> Prop :=
  | told_nil c : told debug c []
  | told_solve c e l : debug = false -> told debug c l -> told debug c (ESolve e :: l)
  | told_line c a b rows mask k l : debug = true -> halved half_way k lo hi a b -> told debug c l ->
      told debug c (ESolve (a, b, rows, mask) ::
                    ELine Debug (NSpan a b k (length rows) (count true mask) (count false mask)) :: l)
  | told_cut e : told debug false [ESolve e].
End Told.

(** A sink that never throws. *)
Definition patient {V} (say : list (level * span_note V) -> level -> span_note V -> result unit) : Prop :=
  forall l lev m, say l lev m = Ok tt.

Section Said.
  Context {V : Type}.
  Variable A : arith V.

  (** The events of a call: what is [told] of its solves; then, of a bisection that succeeded and if [info], one line
      that gives the number of rows, how many of them failed the full step, the most halvings, and the number of solves. *)
  Definition said (path : string) (info debug closed : bool) (success : bool) (events : list (span_event (V := V))) : Prop :=
    exists spans,
      let log := solves_of spans in
      told (middle A) (a_zero A) (a_one A) debug closed spans /\
      (events = spans /\ (info = true -> success = false) \/
       info = true /\ told (middle A) (a_zero A) (a_one A) debug true spans /\
       exists B mask later depth, log = (a_zero A, a_one A, map Z.of_nat (seq 0 B), mask) :: later /\
         bisected (middle A) 0 (a_zero A) (a_one A) (map Z.of_nat (seq 0 B)) log depth /\
         events = spans ++ [ELine Info (NSummary path B (count false mask) depth (length log))]).
End Said.

(** The context [c] of a failed call over the batch [dyn]: the mask, and of every unknown the rows that [span] has, both
    in the shape of the batch. *)
Definition context_of {V} (d : device) (dyn : list nat) (unknowns : list var_info) (span : smap (tensor V)) (mask : list bool)
           (c : context (V := V)) : Prop :=
  cx_shape c = dyn /\ cx_mask c = mask /\ length mask = numel dyn /\
  over d dyn unknowns (cx_unknowns c) /\
  (forall i, i < numel dyn -> entries unknowns (cx_unknowns c) i = rows_of_names span (unknown_names unknowns) i) /\
  (forall n, ~ In n (unknown_names unknowns) -> lookup n (cx_unknowns c) = None).

(** What a failed call says: the full step comes first and some row fails it; only rows that failed it are solved again;
    the error names the number of rows that failed the last solve, and the level of that solve. *)
Definition failure {V} (A : arith V) (n level : nat) (log : list (solve_log (V := V))) (mask : list bool) (raised : option (nat * nat)) : Prop :=
  (exists later, log = (a_zero A, a_one A, map Z.of_nat (seq 0 n), mask) :: later /\
     forall x y rows mk i, In (x, y, rows, mk) later -> In i rows -> exists k, i = Z.of_nat k /\ nth_error mask k = Some false) /\
  In false mask /\
  exists earlier x y rows mk, log = earlier ++ [(x, y, rows, mk)] /\ halved (middle A) level (a_zero A) (a_one A) x y /\
    In false mk /\ raised = Some (count false mk, level).

(** The givens of the full step, for the whole batch. *)
Definition full_step {V} (A : arith V) (d : device) (givens : list given_info) (st : smap (tensor V)) (dyn : list nat) (span : smap (tensor V)) : Prop :=
  table d (numel dyn) (given_shapes givens) span /\
  forall i, i < numel dyn -> rows_of_names span (given_names givens) i =
    map (row_input A givens (entries (map gv_var givens) st i) (entries (map gv_var (old_states givens)) st i) (a_zero A) (a_one A)) givens.
