(** eager/interpreter.cpp:37-78 (InterpreterGuard) and eager/Model.cpp:69-116 (guarded operations, destructor): threads
    that construct eager models and use them, as a transition system.  Definitions only.

    A step is one access to the mutex or to the GIL, or one piece of Python run under the GIL.  A Python call may give
    the GIL up and take it back any number of times.  An operation that raises releases the GIL as one that returns
    (RAII), so it is not distinguished here (C62 has the exceptions).
    Simplifications: a host that owns an interpreter has started it before the first constructor runs; nobody finalizes
    it; every thread constructs one model and then uses it. *)
From Verif Require Import Base Shared.

(** What an operation does while it is entitled to the GIL. *)
Inductive move : Type := Py | Yield.

Inductive ipc : Type :=
| ILock                    (* interpreter.cpp:52 lock_guard *)
| ITest                    (* 56: g_started_by_us || Py_IsInitialized() *)
| IInit                    (* 58: initialize_interpreter() *)
| IStdio                   (* 65-73: line buffering *)
| IHandback                (* 74: gil_scoped_release *)
| IMark                    (* 75 *)
| IUnlock                  (* end of scope *)
| IEnsure                  (* Model.cpp:75, 114: gil_scoped_acquire *)
| IBody (ms : list move)   (* Model.cpp:78 *)
| IYielded (ms : list move)
| ILeave
| IDone
| IFailed.                 (* the constructor threw *)

(** [t_inside]: the thread called from Python and holds the GIL throughout.  [t_ops]: the operations to come, the first
    being the constructor's own. *)
Record ithread : Type := mkT { t_pc : ipc; t_inside : bool; t_ops : list (list move) }.
Record istate : Type := mkI {
  i_mutex : option nat; i_py : bool; i_started : bool; i_gil : option nat; i_threads : list ithread }.

Inductive ilabel : Type :=
| LInit (i : nat)   (* starts the interpreter, which leaves the GIL with [i] *)
| LTake (i : nat)
| LGive (i : nat)
| LPy (i : nat)     (* Python code *)
| LTau (i : nat).

Definition moved (s : istate) (i : nat) (t : ithread) : list ithread := set_nth i t (i_threads s).

(** One step of thread [i]; [None]: it is blocked or finished.  [stdio]: the set-up of the streams succeeds. *)
Definition istep (stdio : bool) (s : istate) (i : nat) : option (ilabel * istate) :=
  match nth_error (i_threads s) i with
  | None => None
  | Some t =>
      let go pc := mkT pc (t_inside t) (t_ops t) in
      let local lab pc := Some (lab, mkI (i_mutex s) (i_py s) (i_started s) (i_gil s) (moved s i (go pc))) in
      match t_pc t with
      | ILock =>
          match i_mutex s with
          | Some _ => None
          | None => Some (LTau i, mkI (Some i) (i_py s) (i_started s) (i_gil s) (moved s i (go ITest)))
          end
      | ITest => local (LTau i) (if i_started s || i_py s then IUnlock else IInit)
      | IInit =>
          (* pybind11 throws if an interpreter is running *)
          if i_py s then Some (LTau i, mkI None (i_py s) (i_started s) (i_gil s) (moved s i (go IFailed)))
          else Some (LInit i, mkI (i_mutex s) true (i_started s) (Some i) (moved s i (go IStdio)))
      | IStdio =>
          if stdio then local (LPy i) IHandback
          else Some (LPy i, mkI None (i_py s) (i_started s) (i_gil s) (moved s i (go IFailed)))
      | IHandback => Some (LGive i, mkI (i_mutex s) (i_py s) (i_started s) None (moved s i (go IMark)))
      | IMark => Some (LTau i, mkI (i_mutex s) (i_py s) true (i_gil s) (moved s i (go IUnlock)))
      | IUnlock => Some (LTau i, mkI None (i_py s) (i_started s) (i_gil s) (moved s i (go IEnsure)))
      | IEnsure =>
          match t_ops t with
          | [] => local (LTau i) ILeave
          | ms :: ops =>
              let t' := mkT (IBody ms) (t_inside t) ops in
              if t_inside t
              then Some (LTau i, mkI (i_mutex s) (i_py s) (i_started s) (i_gil s) (moved s i t'))
              else match i_gil s with
                   | Some _ => None
                   | None => Some (LTake i, mkI (i_mutex s) (i_py s) (i_started s) (Some i) (moved s i t'))
                   end
          end
      | IBody (Py :: ms) => local (LPy i) (IBody ms)
      | IBody (Yield :: ms) => Some (LGive i, mkI (i_mutex s) (i_py s) (i_started s) None (moved s i (go (IYielded ms))))
      | IYielded ms =>
          match i_gil s with
          | Some _ => None
          | None => Some (LTake i, mkI (i_mutex s) (i_py s) (i_started s) (Some i) (moved s i (go (IBody ms))))
          end
      | IBody [] =>
          if t_inside t then local (LTau i) IEnsure
          else Some (LGive i, mkI (i_mutex s) (i_py s) (i_started s) None (moved s i (go IEnsure)))
      | ILeave =>
          (* back in the host's Python, which in its turn lets others run *)
          if t_inside t
          then Some (LGive i, mkI (i_mutex s) (i_py s) (i_started s) None (moved s i (go IDone)))
          else local (LTau i) IDone
      | IDone | IFailed => None
      end
  end.

(** The process at the start: a pure C++ host, or one that runs Python; there thread [inside], if any, is the one that
    holds the GIL. *)
Definition istart (hosted : bool) (inside : option nat) (programs : list (list (list move))) : istate :=
  let is_in i := match inside with Some j => hosted && Nat.eqb i j | None => false end in
  mkI None hosted false
      (match inside with Some j => if hosted && Nat.ltb j (length programs) then Some j else None | None => None end)
      (map (fun p => mkT ILock (is_in (fst p)) (snd p)) (combine (seq 0 (length programs)) programs)).

(** A run: the threads take steps in any order. *)
Inductive iexec (stdio : bool) (s0 : istate) : list ilabel -> istate -> Prop :=
| ix_start : iexec stdio s0 [] s0
| ix_step ls s i l s' : iexec stdio s0 ls s -> istep stdio s i = Some (l, s') -> iexec stdio s0 (ls ++ [l]) s'.
