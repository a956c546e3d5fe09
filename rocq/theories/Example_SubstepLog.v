(** The cases of C35-C39, watched. *)
From Coq Require Import QArith Qcanon.
From Verif Require Import Base BaseProofs SpecMap SmapProofs Tensor Spec Broadcast SpecBroadcast Pack Implicit Substep SpecSubstep Mat Jac SubstepJac JacModel Log SubstepLog
     SpecSubstepLog SpecJac SpecAlgebra SpecDyadic SpecSubstepJac Example_Substep Example_SubstepJac.

(** A sink that takes every line; one that throws at its third. *)
Definition sx_say {V} (l : list (level * span_note V)) (lev : level) (m : span_note V) : result unit := Ok tt.
Definition sx_fussy {V} (l : list (level * span_note V)) (lev : level) (m : span_note V) : result unit :=
  if length l =? 2 then Err (StdExn "sink") else Ok tt.
Definition sx_on (lev : level) : result bool := Ok true.
Lemma sx_patient V : @patient V sx_say.
Proof. intros l lev m. reflexivity. Qed.
Lemma sx_asked : exists info debug, sx_on Info = Ok info /\ sx_on Debug = Ok debug.
Proof. exists true, true. split; reflexivity. Qed.

Definition sx_watch say capture level := watch_substepped fx say sx_on capture sx_masked sx_givens sx_unknowns level sx_st watch0.
Definition qx_ift := ift_of rationals Qcopp (dotx (a_zero rationals) (a_add rationals) (a_mul rationals)) qx_par qx_imp qx_given.
Definition qx_watch capture level := watch_substepped_d rationals sx_say sx_on capture (run_implicit_masked q0 qx_par qx_iseg) qx_ift sx_givens sx_unknowns level qx_st qx_ds watch0.
(** A line without its interval. *)
Definition counts {V} (e : span_event (V := V)) : list (list nat) :=
  match e with
  | ESolve _ => []
  | ELine _ (NSpan _ _ lev active conv fail) => [[lev; active; conv; fail]]
  | ELine _ (NSummary _ B sub depth solves) => [[B; sub; depth; solves]]
  end.
