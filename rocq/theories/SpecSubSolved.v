(** Vocabulary of the properties of solved substepped segments (C58). *)
From Verif Require Import Base Tensor Spec Float Newton Broadcast Pack SpecPack Implicit Substep SpecSubstep SystemAoti SpecSolved.

Section Path.
  Context {V : Type}.
  Variable A : arith V.
  Variable givens : list given_info.
  Variable unknowns : list var_info.
  (** The givens of a row, and unknowns that solve it. *)
  Variable solved : list (list V) -> list (list V) -> Prop.

  (** The row with givens [o] comes over [a, b], in at most [left] levels of halving, from the old state [c] to the unknowns [us]
      and the old state [c']: each piece is solved, with the forces at its ends and the old state reached before it. *)
  Inductive advances (o : list (list V)) : nat -> V -> V -> list (list V) -> list (list V) -> list (list V) -> Prop :=
  | advances_once left a b c us :
      solved (map (row_input A givens o c a b) givens) us -> advances o left a b c us (carried givens unknowns us)
  | advances_halves left a b c us1 c1 us2 c2 :
      advances o left a (middle A a b) c us1 c1 -> advances o left (middle A a b) b c1 us2 c2 ->
      advances o (S left) a b c us2 c2.
End Path.

(** A masked solve that, when it returns, answers for every row. *)
Definition keeps_rows {V} (d : device) (givens : list given_info) (unknowns : list var_info)
           (masked : smap (tensor V) -> result (smap (tensor V) * list bool)) : Prop :=
  forall n span span' mask, table d n (given_shapes givens) span -> masked span = Ok (span', mask) ->
  length mask = n /\ forall u, In u unknowns -> exists t, lookup (v_name u) span' = Some t /\ rowsof d n (trailing u) t.

(** Some row of some solve, marked as converged, had these givens and unknowns. *)
Definition accepted_by {V} (d : device) (givens : list given_info) (unknowns : list var_info)
           (masked : smap (tensor V) -> result (smap (tensor V) * list bool)) (ins us : list (list V)) : Prop :=
  exists n span span' mask j, table d n (given_shapes givens) span /\ masked span = Ok (span', mask) /\ nth_error mask j = Some true /\
    rows_of_names span (given_names givens) j = ins /\ rows_of_names span' (unknown_names unknowns) j = us.

(** The unknowns [us] solve the equations of the segment for the givens [ins]: they are a row of a state whose residual is within
    tolerance in that row, relative to the residual at the guess made for these givens. *)
Definition row_solved (fsum : list F -> F) (cfg : config) (zero : F) (par : string -> result (tensor F)) (s : solver_seg)
           (ins us : list (list F)) : Prop :=
  exists span us0 mask st j, guessed fsum cfg zero par s span us0 /\ solves_marked fsum cfg par s us0 mask st /\
    nth_error mask j = Some true /\
    rows_of_names span (given_names (ss_givens s)) j = ins /\ rows_of_names st (given_names (ss_givens s)) j = ins /\
    rows_of_names st (unknown_names (ss_unknowns s)) j = us.

(** The names of a segment: the unknowns are those of the unknown groups, and neither they nor what the predictor writes
    are givens. *)
Definition names_ok (s : solver_seg) : Prop :=
  (forall u, In u (ss_unknowns s) <-> exists g, In g (ss_unknown_groups s) /\ In u (g_vars g)) /\
  (forall n, In n (given_names (ss_givens s)) -> ~ In n (unknown_names (ss_unknowns s)) /\
     forall p, ss_predictor s = Some p -> ~ In n (pr_outputs p) /\ ((0 < fb_iterations (pr_feedback p))%Z -> n <> fb_input (pr_feedback p))).

(** The names of a segment have shapes, and the predictor's graph keeps to them: given tensors with [n] rows of those shapes it
    returns such tensors. *)
Definition predictor_ok (s : solver_seg) : Prop :=
  exists shape : string -> list nat,
    (forall g, In g (ss_givens s) -> shape (given_name g) = trailing (gv_var g)) /\
    (forall u, In u (ss_unknowns s) -> shape (v_name u) = trailing u) /\
    forall p, ss_predictor s = Some p ->
      ((0 < fb_iterations (pr_feedback p))%Z ->
         shape (fb_input (pr_feedback p)) = fb_sub (pr_feedback p) ++ fb_base (pr_feedback p) /\
         shape (fb_output (pr_feedback p)) = shape (fb_input (pr_feedback p))) /\
      forall n ins ps outs, pr_run p (ins ++ ps) = Ok outs ->
        Forall2 (fun name t => wf t /\ t_shape t = n :: shape name) (pr_inputs p) ins ->
        forall k name t, nth_error (pr_outputs p) k = Some name -> nth_error outs k = Some t -> wf t /\ t_shape t = n :: shape name.
