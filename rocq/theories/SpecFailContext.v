(** Specification vocabulary for the failure context. *)
From Coq Require Import String.
From Verif Require Import Base Tensor Spec BatchChunk Pack Implicit Substep Mat Jac SubstepJac JacModel Dispatch Sched Async SpecAsync FailContext.
Local Open Scope list_scope.

(** The context [c] holds the variables [vs] as they are in [st], and nothing else. *)
Definition shows {V} (vs : list var_info) (st : smap (tensor V)) (c : fcontext V) : Prop :=
  forall n, (In n (map v_name vs) -> lookup n (fc_unknowns c) = lookup n st /\ lookup n st <> None) /\
            (~ In n (map v_name vs) -> lookup n (fc_unknowns c) = None).

(** [f], asked range by range, is good up to [x] and there throws [e] with [c]. *)
Definition first_bad {V R} (f : Z * Z -> attempt V R) (l : list (Z * Z)) (x : Z * Z) (e : exn) (c : option (fcontext V)) : Prop :=
  exists pre post, l = pre ++ x :: post /\ (forall y, In y pre -> exists r, fst (f y) = Ok r) /\ f x = (Err e, c).

(** Without substepping. *)
Definition unstepped {V} (sg : jseg V) : Prop := match sg with JF _ => True | JI i => ji_level i = 0 end.

(** What an aggregate holds, or the one exception there is. *)
Definition held {V} (x : raised V) : list (exn * option (fcontext V)) := match x with One e c => [(e, c)] | Several l => l end.

(** The failures among the chunks [l] as [f] throws them, in the order of [l]. *)
Definition thrown_by {V R} (f : device -> Z -> Z -> attempt V R) (l : list (task * result R)) : list (exn * option (fcontext V)) :=
  flat_map (fun y => match f (tk_dev (fst y)) (tk_start (fst y)) (tk_count (fst y)) with (Err e, c) => [(e, c)] | (Ok _, _) => [] end) l.

(** The model of device [d] asked for the rows [s .. s+k-1] of the batch [I] answers [r]. *)
Definition at_rows {V} (fwd : device -> smap (tensor V) -> smap (tensor V) -> attempt V (smap (tensor V))) (D : disp V) (b : nat) (I : smap (tensor V)) (d : device)
           (s k : Z) (r : attempt V (smap (tensor V))) : Prop :=
  exists P ov, model_at D d = Ok P /\ overrides_for D (Z.of_nat b) d s k = Ok ov /\
    fwd d (effective P ov) (on_dev d (chunk_map b (Z.to_nat s) (Z.to_nat k) I)) = r.

(** The batch is divided, or has to move. *)
Definition divided {V} (n : Z) (D : disp V) (b : nat) (in_dev : device) : Prop := (n <> 0 /\ n < Z.of_nat b)%Z \/ dp_active D <> in_dev.
