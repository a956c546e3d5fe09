(** aoti/custom_ops.cpp:77-110 (ensure_neml2_custom_ops_registered) and neml2/types/functions.py:135-166 (the same op
    registered when the Python package is imported), in one process, as a transition system.  Definitions only.

    Simplifications: one step per access to the dispatcher or to a once flag; the dispatcher refuses a second schema of
    the same name and lets a kernel be registered again; Python's import lock is a once flag, an import that raised may
    be tried again; Python's registration of the kernel does not fail. *)
From Verif Require Import Base Shared.

(** A C++ thread that constructs an aoti model, or a thread that imports the Python package. *)
Inductive side : Type := Cpp | Pyth.
Inductive rpc : Type := RStart | RFind | RDef | RImpl | RReturned | RRaised.
Record actor : Type := mkA { a_side : side; a_pc : rpc }.
(** std::once_flag, also the import lock. *)
Inductive flag : Type := Fresh | Running (i : nat) | Ran.
(** [r_schema]: who defined it. *)
Record rstate : Type := mkR {
  r_once : flag; r_import : flag; r_schema : option nat; r_kernel : bool; r_actors : list actor }.

Inductive rlabel : Type :=
| RDefined (i : nat)
| RRefused (i : nat)   (* "registered multiple times" *)
| RKernel (i : nat)
| RTau (i : nat).

Definition flag_of (s : rstate) (k : side) : flag := match k with Cpp => r_once s | Pyth => r_import s end.
(** Move actor [i] to [pc], its flag to [f]. *)
Definition put (s : rstate) (i : nat) (k : side) (f : flag) (sch : option nat) (ker : bool) (pc : rpc) : rstate :=
  mkR (match k with Cpp => f | Pyth => r_once s end) (match k with Cpp => r_import s | Pyth => f end) sch ker
      (set_nth i (mkA k pc) (r_actors s)).

(** One step of actor [i].  [impl_ok]: whether C++'s registration of the kernel succeeds. *)
Definition rstep (impl_ok : bool) (s : rstate) (i : nat) : option (rlabel * rstate) :=
  match nth_error (r_actors s) i with
  | None => None
  | Some (mkA k pc) =>
      match pc with
      | RStart =>
          match flag_of s k with
          | Running _ => None
          | Ran => Some (RTau i, put s i k Ran (r_schema s) (r_kernel s) RReturned)
          | Fresh => Some (RTau i, put s i k (Running i) (r_schema s) (r_kernel s) (match k with Cpp => RFind | Pyth => RDef end))
          end
      | RFind =>
          (* custom_ops.cpp:101 *)
          match r_schema s with
          | Some _ => Some (RTau i, put s i k Ran (r_schema s) (r_kernel s) RReturned)
          | None => Some (RTau i, put s i k (Running i) (r_schema s) (r_kernel s) RDef)
          end
      | RDef =>
          (* custom_ops.cpp:106, functions.py:136; call_once and import pass an exception on and may be entered again *)
          match r_schema s with
          | Some _ => Some (RRefused i, put s i k Fresh (r_schema s) (r_kernel s) RRaised)
          | None => Some (RDefined i, put s i k (Running i) (Some i) (r_kernel s) RImpl)
          end
      | RImpl =>
          (* custom_ops.cpp:109, functions.py:166 *)
          if (match k with Cpp => impl_ok | Pyth => true end)
          then Some (RKernel i, put s i k Ran (r_schema s) true RReturned)
          else Some (RTau i, put s i k Fresh (r_schema s) (r_kernel s) RRaised)
      | RReturned | RRaised => None
      end
  end.

(** Before anything ran. *)
Definition rstart (sides : list side) : rstate := mkR Fresh Fresh None false (map (fun k => mkA k RStart) sides).

Inductive rexec (impl_ok : bool) (s0 : rstate) : list rlabel -> rstate -> Prop :=
| rx_start : rexec impl_ok s0 [] s0
| rx_step ls s i l s' : rexec impl_ok s0 ls s -> rstep impl_ok s i = Some (l, s') -> rexec impl_ok s0 (ls ++ [l]) s'.
