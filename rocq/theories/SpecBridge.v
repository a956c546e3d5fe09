(** Vocabulary of C62. *)
From Coq Require Import String.
From Verif Require Import Base SpecExcept Except Bridge.
Local Open Scope string_scope.
Local Open Scope list_scope.

Section Spec.
  Context {P : Type}.
  (** The code that catches it may retry. *)
  Definition may_retry (x : inflight P) : Prop :=
    match x with
    | InCpp (Cpp e _) => retryable e
    | InCpp (Held (PyConvergence _ _ _)) | InPython (PyConvergence _ _ _) => True
    | InCpp (Held (PyOther _ _)) | InPython (PyOther _ _) => False
    end.
  (** Its message. *)
  Definition message (x : inflight P) : string :=
    match x with
    | InCpp (Cpp e _) => what_of e
    | InCpp (Held p) | InPython p => match p with PyConvergence _ w _ | PyOther _ w => w end
    end.
  (** The captured failure. *)
  Definition context (x : inflight P) : option P :=
    match x with
    | InCpp (Cpp _ c) => c
    | InCpp (Held p) | InPython p => match p with PyConvergence _ _ c => c | PyOther _ _ => None end
    end.
  (** Which side of the language boundary. *)
  Inductive side := Cxx | Py.
  (** A stack of frames from one side to the other.  The operations of aoti::Model run no Python. *)
  Inductive stack : side -> list (frame P) -> side -> Prop :=
    | St_nil s : stack s [] s
    | St_bound fs s : stack Py fs s -> stack Cxx (Bound :: fs) s
    | St_called fs s : stack_above fs s -> stack Py (Called :: fs) s
    | St_replaced w c fs s : stack Py fs s -> stack Py (Replaced w c :: fs) s
    | St_facade fs s : stack Cxx fs s -> stack Cxx (Facade :: fs) s
    | St_eager op fs s : stack Cxx fs s -> stack Cxx (EagerOp op :: fs) s
  (** ... above a Python frame. *)
  with stack_above : list (frame P) -> side -> Prop :=
    | Sa_nil : stack_above [] Cxx
    | Sa_bound fs s : stack Py fs s -> stack_above (Bound :: fs) s
    | Sa_eager op fs s : stack Cxx fs s -> stack_above (EagerOp op :: fs) s.
  (** Not thrown by a dispatcher: those are not bound to Python. *)
  Definition single (e : exn) : Prop := forall es, e <> Aggregate es.
  (** An exception found on that side. *)
  Definition on (s : side) (x : inflight P) : Prop :=
    match s, x with
    | Cxx, InCpp (Cpp e _) => single e
    | Py, InPython _ => True
    | _, _ => False
    end.
  Definition replaces (f : frame P) : Prop := match f with Replaced _ _ => True | _ => False end.
End Spec.
