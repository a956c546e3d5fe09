(** Vocabulary of C72: what a dispatched call returns, in terms of the artifact. *)
From Coq Require Import String.
From Verif Require Import Load SpecLoad.
From Verif Require Import Base Tensor Spec SpecRename Float Substep Mat SpecRuntime.
Local Open Scope list_scope.

(** The ranks of the parameters' base shapes, by boundary name. *)
Definition ranks_of (a : artifact F) (nds : smap nat) : Prop :=
  forall p, In p (ar_params a) -> lookup (boundary (ar_par a) (ap_name p)) nds = Some (length (ap_base p)).

Section Serve.
  Variable fsum rsum : list F -> F.
  Variable edot : list F -> list F -> F.
  Variable tri : list (list F) -> list F -> list F.
  Variable A : arith F.
  Variable cast : string -> F -> F.
  Variable graph : device -> string -> list (tensor F) -> result (list (tensor F)).
  Variable sdef : sconfig F.
  Variable a : artifact F.

  (** [r] is what the artifact says on the device [d] of the rows [s .. s+c-1] of the inputs [I], with those rows of the
      parameters that are given per batch element and the other parameters as they are. *)
  Definition rows_say (nds : smap nat) (P I : smap (tensor F)) (b : nat) (d : device) (s c : Z) (r : smap (tensor F)) : Prop :=
    exists out, artifact_says fsum rsum edot tri A cast (graph d) sdef "float64" d a
                  (Some (on_dev d (chunk_params b (Z.to_nat s) (Z.to_nat c) nds P))) (on_dev d (chunk_map b (Z.to_nat s) (Z.to_nat c) I)) out /\
                renamed (boundary (ar_out a)) out r.
End Serve.

(** [out] has the results of the ranges [l] in place: the same names, and under each name, where the parts have a row per batch
    element, these rows at the positions of their range. *)
Definition in_place {V} (in_dev : device) (b : nat) (l : list (Z * Z)) (rs : list (smap (tensor V))) (out : smap (tensor V)) : Prop :=
  (forall r n, In r rs -> (lookup n out = None <-> lookup n r = None)) /\
  forall n t, lookup n out = Some t ->
    exists us, Forall2 (fun r u => lookup n r = Some u) rs us /\
      (Forall2 (fun x u => wf u /\ batched (Z.to_nat (snd x)) u) l us ->
       wf t /\ batched b t /\ Forall2 (fun x u => is_rows (Z.to_nat (fst x)) (Z.to_nat (snd x)) (to_dev in_dev t) (to_dev in_dev u)) l us) /\
      (t_dev t = in_dev \/ us = [t]).
