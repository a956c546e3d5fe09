(** Vocabulary of the value properties (C55, C56): compiled graphs that agree with each other. *)
From Verif Require Import Base Tensor Broadcast Pack Implicit Substep Jac JacModel.

Section SpecValue.
  Context {V : Type}.

  (** A derivative graph returns the value graph's outputs before its derivative blocks. *)
  Definition same_values (f : jfwd V) : Prop :=
    forall jvp args l, jf_jvp f = Some jvp -> jvp args = Ok l -> length l = length (sg_out (jf_seg f)) + length (jf_pairs f) ->
      sg_run (jf_seg f) args = Ok (firstn (length (sg_out (jf_seg f))) l).
  (** What is carried from one substep to the next is an unknown of the segment. *)
  Definition carries_unknowns (s : iseg V) : Prop :=
    forall g, In g (is_givens s) -> gv_role g = "old_state"%string -> exists u, In u (is_unknowns s) /\ v_name u = gv_pair g.
  (** A compiled model as the exporter writes it. *)
  Definition coherent (sgs : list (jseg V)) : Prop :=
    forall sg, In sg sgs -> match sg with JF f => same_values f | JI i => carries_unknowns (ji_seg i) end.
End SpecValue.
