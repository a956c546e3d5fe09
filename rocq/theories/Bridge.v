(** Exceptions that cross between C++ and Python: the pybind translators (aoti/_aoti.cpp:65-123), the guard of
    eager/Model.cpp:44-104 and the facade guard (aoti/assertions.h:73-93).  Definitions only.

    Simplifications: of a Python exception only its class, its message and whether it is a ConvergenceError (or derived
    from it) are kept; looking up the class (eager/Model.cpp:52-62) succeeds. *)
From Coq Require Import String.
From Verif Require Import Base Except.
Local Open Scope list_scope.
Local Open Scope string_scope.

Section Bridge.
  (** The failure context: mask and unknowns (Exception.h:87-116). *)
  Context {P : Type}.
  (** The Python class pybind11 gives a std::exception, and the traceback shown by [error_already_set::what()]. *)
  Variable std_class : string -> string.
  Variable traceback : string -> string -> string.

  Inductive pyexn :=
    | PyConvergence (cls w : string) (ctx : option P)
    | PyOther (cls w : string).
  (** In flight on the C++ side: a C++ exception, or a Python one held by py::error_already_set. *)
  Inductive thrown :=
    | Cpp (e : exn) (ctx : option P)
    | Held (p : pyexn).

  (** _aoti.cpp:96-123 for ConvergenceError; pybind11 restores a held Python exception and has classes for the standard
      ones. *)
  Definition to_python (t : thrown) : pyexn :=
    match t with
    | Held p => p
    | Cpp (Convergence w) ctx => PyConvergence "ConvergenceError" w ctx
    | Cpp (Fatal w) _ => PyOther "RuntimeError" w
    | Cpp (Aggregate es) _ => PyOther "RuntimeError" (what_of (Aggregate es))
    | Cpp (StdExn w) _ => PyOther (std_class w) w
    | Cpp (OtherExn _) _ => PyOther "RuntimeError" "Caught an unknown exception!"
    end.

  (** [error_already_set::what()] *)
  Definition shown (p : pyexn) : string :=
    match p with PyConvergence c w _ | PyOther c w => c ++ ": " ++ w ++ traceback c w end.

  (** eager/Model.cpp:44-104 [guarded] *)
  Definition eager_guard (op : string) (t : thrown) : thrown :=
    let prefix := "neml2::eager::Model::" ++ op ++ ": " in
    match t with
    | Cpp (StdExn w) _ => Cpp (Fatal (prefix ++ w)) None
    | Cpp e ctx => Cpp e ctx
    | Held (PyConvergence c w ctx) => Cpp (Convergence (prefix ++ shown (PyConvergence c w ctx))) None
    | Held (PyOther c w) => Cpp (Fatal (prefix ++ shown (PyOther c w))) None
    end.

  (** assertions.h:73-93 [_guarded]; py::error_already_set is a std::exception. *)
  Definition facade_guard (t : thrown) : thrown :=
    match t with
    | Cpp (StdExn w) _ => Cpp (Fatal ("aoti: " ++ w)) None
    | Cpp (OtherExn _) _ => Cpp (Fatal "aoti: unknown (non-std) exception") None
    | Cpp e ctx => Cpp e ctx
    | Held p => Cpp (Fatal ("aoti: " ++ shown p)) None
    end.

  (** The frames an exception passes, innermost first. *)
  Inductive frame :=
    | Facade                                   (* a public operation of aoti::Model *)
    | Bound                                    (* a bound C++ function called from Python *)
    | Called                                   (* a Python callable called from C++ (nonlinear_system_eager.cpp:43-174) *)
    | Replaced (w : string) (ctx : option P)   (* Python code that turns a ConvergenceError into its own
                                                  (models/common/ImplicitUpdate.py:559-592) *)
    | EagerOp (op : string).                   (* a public operation of eager::Model *)
  Inductive inflight := InCpp (t : thrown) | InPython (p : pyexn).

  Definition pass (f : frame) (x : inflight) : inflight :=
    match f, x with
    | Facade, InCpp t => InCpp (facade_guard t)
    | Bound, InCpp t => InPython (to_python t)
    | Called, InPython p => InCpp (Held p)
    | Replaced w ctx, InPython (PyConvergence _ _ _) => InPython (PyConvergence "ConvergenceError" w ctx)
    | EagerOp op, InCpp t => InCpp (eager_guard op t)
    | _, x => x
    end.
  Definition unwind (fs : list frame) (x : inflight) : inflight := fold_left (fun x f => pass f x) fs x.
End Bridge.
Arguments pyexn P : clear implicits.
Arguments thrown P : clear implicits.
Arguments frame P : clear implicits.
Arguments inflight P : clear implicits.
