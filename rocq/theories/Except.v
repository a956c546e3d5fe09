(** aoti/Exception.cpp:33-130 and aoti/assertions.h:73-93.  Definitions only.
    The five constructors of [exn] stand for the dynamic type of a thrown
    object; the captured solve-failure context of a ConvergenceError is not
    modelled. *)
From Coq Require Import DecimalString.
From Verif Require Import Base.

(** [oss << n] of a std::size_t. *)
Definition dec (n : nat) : string := NilZero.string_of_uint (Nat.to_uint n).

(** A newline. *)
Definition nl : string := String (Ascii.ascii_of_nat 10) EmptyString.

(** Exception::recoverable (Exception.cpp:91-95), FatalError (97-101),
    ConvergenceError (112-116), AggregateError's constructor loop and accessor
    (118-136), through eptr_recoverable (44-59): a foreign exception is not. *)
Fixpoint recoverable (e : exn) : bool :=
  match e with
  | Fatal _ => false
  | Convergence _ => true
  | Aggregate es =>
      (match es with [] => false | _ => true end) && forallb recoverable es
  | StdExn _ => false
  | OtherExn _ => false
  end.

(** build_aggregate_message's loop (79-88) from entry [i] on, given eptr_what. *)
Section Lines.
  Variable what : exn -> string.
  Fixpoint agg_lines (i : nat) (es : list exn) : string :=
    match es with
    | [] => ""%string
    | e :: es' =>
        (nl ++ "  [" ++ dec i ++ "] (" ++ (if recoverable e then "recoverable" else "fatal")
            ++ ") " ++ what e ++ agg_lines (S i) es')%string
    end.
End Lines.

(** what(), through eptr_what (62-77). *)
Fixpoint what_of (e : exn) : string :=
  match e with
  | Fatal w => w
  | Convergence w => w
  | Aggregate es =>
      (dec (length es) ++ " concurrent dispatches failed:" ++ agg_lines what_of 0 es)%string
  | StdExn w => w
  | OtherExn _ => "unknown (non-std) exception"%string
  end.

(** _guarded (assertions.h:73-93). *)
Definition guarded {A} (x : result A) : result A :=
  match x with
  | Ok a => Ok a
  | Err (Fatal w) => Err (Fatal w)
  | Err (Convergence w) => Err (Convergence w)
  | Err (Aggregate es) => Err (Aggregate es)
  | Err (StdExn w) => Err (Fatal ("aoti: " ++ w))
  | Err (OtherExn _) => Err (Fatal "aoti: unknown (non-std) exception")
  end.
