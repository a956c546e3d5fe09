(** Common vocabulary of the model: exceptions, throwing computations,
    association maps standing for [std::map<std::string, T>].
    Definitions only; proofs are in BaseProofs.v. *)
From Coq Require Export String Ascii.
From Coq Require Export ZArith NArith Lia Bool Arith List.
From Coq Require Export ZifyBool ZifyNat ZifyN.
Export ListNotations.
Global Open Scope list_scope.
Global Open Scope nat_scope.

(** ** Exceptions
    aoti/Exception.h:55-127 (class tree Exception > FatalError,
    ConvergenceError, AggregateError); anything else that C++ can throw is
    either a [std::exception] (e.g. [c10::Error], [std::bad_alloc],
    [std::out_of_range]) or not.
    Simplification: the captured [converged_mask]/[unknowns] payload of
    ConvergenceError (Exception.h:83-110) is not carried here. *)
Inductive exn : Type :=
| Fatal (what : string)          (* neml2::aoti::FatalError, thrown by _throw/_assert *)
| Convergence (what : string)    (* neml2::aoti::ConvergenceError *)
| Aggregate (errors : list exn)  (* neml2::aoti::AggregateError *)
| StdExn (what : string)         (* any other std::exception *)
| OtherExn (tag : N).            (* a thrown object that is not a std::exception *)

(** A C++ call that returns a value or throws. *)
Inductive result (A : Type) : Type :=
| Ok (a : A)
| Err (e : exn).
Arguments Ok {A} a.
Arguments Err {A} e.

Definition bind {A B} (x : result A) (f : A -> result B) : result B :=
  match x with Ok a => f a | Err e => Err e end.
Notation "'let*' x ':=' e1 'in' e2" := (bind e1 (fun x => e2))
  (at level 200, x pattern, e1 at level 100, e2 at level 200, right associativity).

Definition rmap {A B} (f : A -> B) (x : result A) : result B :=
  match x with Ok a => Ok (f a) | Err e => Err e end.

Definition is_ok {A} (x : result A) : bool :=
  match x with Ok _ => true | Err _ => false end.

(** Left-to-right loop body that may throw: the first exception wins, which is
    what a C++ range-for whose body throws does. *)
Fixpoint mapM {A B} (f : A -> result B) (l : list A) : result (list B) :=
  match l with
  | [] => Ok []
  | x :: l' =>
      let* y := f x in
      let* ys := mapM f l' in
      Ok (y :: ys)
  end.

(** aoti/assertions.h:57-63 [_assert]: throws a FatalError. *)
Definition assert_ (c : bool) (msg : string) : result unit :=
  if c then Ok tt else Err (Fatal msg).

(** ** Association maps
    [std::map<std::string, T>] is modelled by the list of its entries in
    iteration order.  Keys of a [std::map] are unique; theorems that need it
    assume [NoDup (keys m)]. *)
Definition smap (T : Type) := list (string * T).

Definition keys {T} (m : smap T) : list string := map fst m.

(** [find] / [at]. *)
Fixpoint lookup {T} (k : string) (m : smap T) : option T :=
  match m with
  | [] => None
  | (k', v) :: m' => if String.eqb k k' then Some v else lookup k m'
  end.

(** [m.at(k)]: throws [std::out_of_range] when missing. *)
Definition at_ {T} (k : string) (m : smap T) : result T :=
  match lookup k m with
  | Some v => Ok v
  | None => Err (StdExn "map::at")
  end.

(** Strict order of [std::string] keys (byte-wise lexicographic). *)
Definition key_lt (a b : string) : bool :=
  match String.compare a b with Lt => true | _ => false end.

(** [m.emplace(k, v)]: sorted insertion, an existing entry is kept. *)
Fixpoint emplace {T} (k : string) (v : T) (m : smap T) : smap T :=
  match m with
  | [] => [(k, v)]
  | (k', v') :: m' =>
      if String.eqb k k' then (k', v') :: m'
      else if key_lt k k' then (k, v) :: (k', v') :: m'
      else (k', v') :: emplace k v m'
  end.

(** [m[k] = v]: sorted insertion, an existing entry is overwritten. *)
Fixpoint set_ {T} (k : string) (v : T) (m : smap T) : smap T :=
  match m with
  | [] => [(k, v)]
  | (k', v') :: m' =>
      if String.eqb k k' then (k', v) :: m'
      else if key_lt k k' then (k, v) :: (k', v') :: m'
      else (k', v') :: set_ k v m'
  end.

(** Entry-wise transformation keeping the keys (a loop over the map that
    emplaces the same, already sorted and distinct, keys into a new map). *)
Definition vmap_ {T U} (f : T -> U) (m : smap T) : smap U :=
  map (fun kv => (fst kv, f (snd kv))) m.

Fixpoint vmapM {T U} (f : T -> result U) (m : smap T) : result (smap U) :=
  match m with
  | [] => Ok []
  | (k, v) :: m' =>
      let* u := f v in
      let* r := vmapM f m' in
      Ok ((k, u) :: r)
  end.
