(** Specification vocabulary for the worker pool. *)
From Verif Require Import Base Tensor Pool.

(** The tasks accepted for device [d], in order. *)
Definition accepted {T} (d : device) (ls : list (plabel T)) : list T :=
  flat_map (fun l => match l with PEnq d' t => if device_eqb d' d then [t] else [] | _ => [] end) ls.

(** The tasks worker [i] has run, in order. *)
Definition ran {T} (i : nat) (ls : list (plabel T)) : list T :=
  flat_map (fun l => match l with PTask j t => if Nat.eqb j i then [t] else [] | _ => [] end) ls.

Definition p_spurious {T} (l : plabel T) : bool := match l with PSpur _ => true | _ => false end.
Definition p_spurs {T} (ls : list (plabel T)) : nat := length (filter p_spurious ls).
Definition stops {T} (ls : list (plabel T)) : Prop := In PStop ls.
