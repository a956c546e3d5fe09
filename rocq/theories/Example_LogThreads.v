(** A concrete run of two logging threads (C67). *)
From Verif Require Import Base Shared Log LogThreads SpecLogThreads.

Fixpoint follow body (g : gstate) (sched : list nat) : option (list glabel * gstate) :=
  match sched with
  | [] => Some ([], g)
  | i :: rest =>
      match gstep body g i with
      | None => None
      | Some (l, g') => match follow body g' rest with None => None | Some (ls, e) => Some (l :: ls, e) end
      end
  end.
Lemma follow_exec body g0 sched : forall ls g ls' e, gexec body g0 ls g -> follow body g sched = Some (ls', e) -> gexec body g0 (ls ++ ls') e.
Proof.
  induction sched as [|i rest IH]; intros ls g ls' e R H; cbn [follow] in H.
  - injection H as <- <-. rewrite app_nil_r. exact R.
  - destruct (gstep body g i) as [[l g']|] eqn:St; [|discriminate].
    destruct (follow body g' rest) as [[ls2 e2]|] eqn:Fo; [|discriminate]. injection H as <- <-.
    replace (ls ++ l :: ls2) with ((ls ++ [l]) ++ ls2) by (rewrite <- app_assoc; reflexivity).
    apply (IH (ls ++ [l]) g' ls2 e2); [|exact Fo]. exact (gx_step _ _ _ _ _ _ _ R St).
Qed.

(** The sinks: the first Python one asks for a level, the second throws. *)
Definition bodies (s : sink) (l : level) (line : string) : code :=
  match s with
  | SPy 0 => Call (CLevel Newton) (fun _ => Yield (End (Ok tt)))
  | SPy _ => End (Err (StdExn "ValueError"))
  | _ => End (Ok tt)
  end.
(** A solver thread warns twice; a Python thread installs its sinks and warns. *)
Definition worker : code :=
  Call (CEmit Newton Warning "a") (fun _ => Call (CEmit Newton Warning "b") (fun _ => End (Ok tt))).
Definition script : code :=
  Call (CSetSink (Some (SPy 0))) (fun _ => Yield (
  Call (CEmit Linear Warning "c") (fun r => match r with
    | Ok _ => Call (CSetSink (Some (SPy 1))) (fun _ => Call (CEmit Linear Warning "d") (fun r => match r with
        | Ok _ => End (Ok tt)
        | Err x => Call CResetSink (fun _ => End (Err x)) end))
    | Err x => End (Err x) end))).
Definition duo : list (bool * code) := [(false, worker); (true, script)].
Definition start : gstate := gstart (Some "newton=debug"%string) duo.

(** Turn and turn about, as far as they can. *)
Fixpoint turns (fuel : nat) (g : gstate) (i : nat) : list nat :=
  match fuel with
  | O => []
  | S fuel => match gstep bodies g i with
              | Some (_, g') => i :: turns fuel g' (1 - i)
              | None => match gstep bodies g (1 - i) with
                        | Some (_, g') => (1 - i)%nat :: turns fuel g' i
                        | None => []
                        end
              end
  end.
Definition sched : list nat := turns 400 start 0.
Definition seen_in (o : option (list glabel * gstate)) : option (bool * list lcall * list (sink * level * string) * list (sink * level * string)) :=
  match o with
  | Some (ls, g) => Some (forallb (fun t => match t_phase t with PDone => true | _ => false end) (g_threads g),
                          map (fun h => fst (fst h)) (history ls), given_by 0 ls, given_by 1 ls)
  | None => None
  end.
Lemma seen_run g0 o h a b : (forall ls g, o = Some (ls, g) -> gexec bodies g0 ls g) -> seen_in o = Some (true, h, a, b) ->
  exists ls g, gexec bodies g0 ls g /\ ended g /\ map (fun h => fst (fst h)) (history ls) = h /\ given_by 0 ls = a /\ given_by 1 ls = b.
Proof.
  intros X E. destruct o as [[ls g]|]; [|discriminate]. injection E as P H G0 G1. exists ls, g. split; [exact (X ls g eq_refl)|].
  split; [|auto]. intros t Ht. rewrite forallb_forall in P. specialize (P t Ht). destruct (t_phase t); try discriminate. reflexivity.
Qed.
Lemma run_seen : seen_in (follow bodies start sched) = Some (true,
  [CEmit Newton Warning "a"; CSetSink (Some (SPy 0)); CEmit Newton Warning "b"; CEmit Linear Warning "c";
   CLevel Newton; CLevel Newton; CSetSink (Some (SPy 1)); CEmit Linear Warning "d"; CResetSink],
  [(SDefault, Warning, "[neml2:newton ][warn] a"%string); (SPy 0, Warning, "[neml2:newton ][warn] b"%string)],
  [(SPy 0, Warning, "[neml2:linear ][warn] c"%string); (SPy 1, Warning, "[neml2:linear ][warn] d"%string)]).
Proof. vm_compute. reflexivity. Qed.
