(** Specification vocabulary for the life of a dispatcher (C79). *)
From Verif Require Import Base Tensor Pool PoolLife.

(** What the pool does in a life, the construction and the end of the members left out. *)
Definition in_pool {T} (ls : list (llabel T)) : list (plabel T) :=
  flat_map (fun l => match l with LPool p => [p] | _ => [] end) ls.
(** The constructor has returned; and the destructor has not. *)
Definition built {T} (s : life T) : Prop := exists o, l_pc s = Own o.
(** An exception was raised by the construction. *)
Definition raised {T} (e : exn) (ls : list (llabel T)) : Prop := In (LFail e) ls.
Definition failing {T} (ls : list (llabel T)) : Prop := exists e, raised e ls.
(** Ways to count the steps of the owner during construction. *)
Definition makes {T} (ls : list (llabel T)) : nat := length (filter (fun l => match l with LMake => true | _ => false end) ls).
