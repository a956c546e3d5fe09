(** Vocabulary for the registration of the custom op (C65). *)
From Verif Require Import Base OpReg.

Definition is_def (l : rlabel) : bool := match l with RDefined _ => true | _ => false end.
(** How often the schema was registered. *)
Definition defs (ls : list rlabel) : nat := length (filter is_def ls).
Definition over (impl_ok : bool) (s : rstate) : Prop := forall i, rstep impl_ok s i = None.
(** Actor [i] of side [k] is at [pc]. *)
Definition at_pc (s : rstate) (i : nat) (k : side) (pc : rpc) : Prop := nth_error (r_actors s) i = Some (mkA k pc).
(** Artifacts can run: schema and kernel are there. *)
Definition usable (s : rstate) : Prop := r_schema s <> None /\ r_kernel s = true.
