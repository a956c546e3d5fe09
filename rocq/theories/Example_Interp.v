(** Concrete runs of the embedded interpreter (C64). *)
From Verif Require Import Base Interp SpecInterp.

(** A schedule: who moves next; the run ends early if that thread cannot. *)
Fixpoint follow (stdio : bool) (s : istate) (sched : list nat) : option (list ilabel * istate) :=
  match sched with
  | [] => Some ([], s)
  | i :: rest =>
      match istep stdio s i with
      | None => None
      | Some (l, s') => match follow stdio s' rest with None => None | Some (ls, e) => Some (l :: ls, e) end
      end
  end.
Lemma follow_exec stdio s0 sched : forall ls s ls' e, iexec stdio s0 ls s -> follow stdio s sched = Some (ls', e) ->
  iexec stdio s0 (ls ++ ls') e.
Proof.
  induction sched as [|i rest IH]; intros ls s ls' e R H; cbn [follow] in H.
  - injection H as <- <-. rewrite app_nil_r. exact R.
  - destruct (istep stdio s i) as [[l s']|] eqn:St; [|discriminate].
    destruct (follow stdio s' rest) as [[ls2 e2]|] eqn:Fo; [|discriminate]. injection H as <- <-.
    replace (ls ++ l :: ls2) with ((ls ++ [l]) ++ ls2) by (rewrite <- app_assoc; reflexivity).
    apply (IH (ls ++ [l]) s' ls2 e2); [|exact Fo]. exact (ix_step _ _ _ _ _ _ _ R St).
Qed.

(** A C++ host with two threads: the first starts the interpreter while the second waits for the mutex; the second gets
    in while the first's Python has let go of the GIL. *)
Definition two : list (list (list move)) := [[[Py; Yield; Py]]; [[Py]; [Py]]].
Definition two_sched : list nat := [0;0;0;0;0;0;0; 1;1;1; 0;0;0; 1;1;1;1;1;1; 0;0;0; 1;1; 0;0].
(** The stream set-up fails in the first thread; the second gets past the mutex and then waits for the GIL. *)
Definition fail_sched : list nat := [0;0;0;0; 1;1;1].
