(** Vocabulary for the embedded interpreter (C64), over what was observed. *)
From Verif Require Import Base Interp.

(** Who has the GIL after [ls], [g] having had it before. *)
Definition holder (g : option nat) (ls : list ilabel) : option nat :=
  fold_left (fun g l => match l with LInit i | LTake i => Some i | LGive _ => None | LPy _ | LTau _ => g end) ls g.
Definition is_init (l : ilabel) : bool := match l with LInit _ => true | _ => false end.
(** How often an interpreter was started. *)
Definition inits (ls : list ilabel) : nat := length (filter is_init ls).
(** The GIL is taken only when free and given up only by its holder, Python runs only under it; [up]: an interpreter
    was running before. *)
Definition disciplined (up : bool) (g : option nat) (ls : list ilabel) : Prop :=
  forall l1 l l2, ls = l1 ++ l :: l2 ->
    match l with
    | LInit _ => up = false /\ inits l1 = 0 /\ holder g l1 = None
    | LTake _ => holder g l1 = None /\ (up = true \/ inits l1 = 1)
    | LGive i => holder g l1 = Some i
    | LPy i => holder g l1 = Some i /\ (up = true \/ inits l1 = 1)
    | LTau _ => True
    end.
(** The pieces of Python that thread [i] ran. *)
Definition python_of (i : nat) (ls : list ilabel) : nat :=
  length (filter (fun l => match l with LPy j => Nat.eqb i j | _ => false end) ls).
Definition python_in (p : list (list move)) : nat :=
  length (filter (fun m => match m with Py => true | Yield => false end) (concat p)).
(** Whether thread [i] was the one to start the interpreter (0 or 1). *)
Definition started_by (i : nat) (ls : list ilabel) : nat :=
  length (filter (fun l => match l with LInit j => Nat.eqb i j | _ => false end) ls).
(** Nobody can move. *)
Definition stuck (stdio : bool) (s : istate) : Prop := forall i, istep stdio s i = None.
Definition finished (s : istate) : Prop := forall t, In t (i_threads s) -> t_pc t = IDone.
(** A bound on the steps of a set of programs. *)
Definition work (ps : list (list (list move))) : nat :=
  list_sum (map (fun p => 9 + list_sum (map (fun ms => 2 + 2 * length ms) p)) ps).
