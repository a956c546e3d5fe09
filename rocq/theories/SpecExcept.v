(** Specification vocabulary for exceptions. *)
From Verif Require Import Base.

(** A neml2 exception. *)
Definition library (e : exn) : Prop :=
  match e with Fatal _ | Convergence _ | Aggregate _ => True | _ => False end.

(** What a caller may retry: a failed solve, or a non-empty collection of
    retryable failures. *)
Inductive retryable : exn -> Prop :=
| retry_conv w : retryable (Convergence w)
| retry_agg es : es <> [] -> (forall e, In e es -> retryable e) -> retryable (Aggregate es).

(** [e] occurs in [x], at any depth of aggregation. *)
Inductive inside (e : exn) : exn -> Prop :=
| in_here : inside e e
| in_agg es x : In x es -> inside e x -> inside e (Aggregate es).

(** [sub] is a contiguous part of [s]. *)
Definition part_of (sub s : string) : Prop := exists a b, s = (a ++ sub ++ b)%string.
