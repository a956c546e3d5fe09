(** C65: the custom op is registered at most once. *)
From Verif Require Import Base OpReg SpecOpReg OpRegProofs.

(** Whatever the interleaving of C++ constructors and imports: one schema at most, and every run ends. *)
Theorem C65_once impl_ok sides ls s : rexec impl_ok (rstart sides) ls s -> defs ls <= 1 /\ length ls <= 4 * length sides.
Proof.
  intros R. split.
  - rewrite (ri_defs _ _ _ _ (exec_rinv impl_ok sides ls s R)). destruct (r_schema s); lia.
  - pose proof (exec_left impl_ok sides ls s R). lia.
Qed.
Print Assumptions C65_once.

(** If C++'s kernel can be registered: at the end every actor has returned or raised, and the op is usable; an actor
    raises only if the other side was first. *)
Theorem C65_usable sides ls s : rexec true (rstart sides) ls s -> over true s -> sides <> [] ->
  usable s /\
  (forall i k, nth_error sides i = Some k -> at_pc s i k RReturned \/ at_pc s i k RRaised) /\
  (forall i k, at_pc s i k RRaised -> exists o k', r_schema s = Some o /\ nth_error sides o = Some k' /\ k' <> k).
Proof.
  intros R Ov Ne. pose proof (exec_rinv true sides ls s R) as V. pose proof (ended true sides s Ov ls V) as En.
  assert (All : forall i k, nth_error sides i = Some k -> at_pc s i k RReturned \/ at_pc s i k RRaised).
  { intros i k Q. rewrite <- (ri_sides _ _ _ _ V), nth_error_map in Q. destruct (nth_error (r_actors s) i) as [[k' pc]|] eqn:E; [|discriminate].
    injection Q as <-. unfold at_pc. rewrite E. cbn. destruct (En i _ E) as [P|P]; cbn in P; rewrite P; auto. }
  split; [|split; [exact All|]].
  - assert (Sch : r_schema s <> None).
    { destruct sides as [|k l]; [congruence|]. destruct (All 0 k eq_refl) as [A|A].
      - exact (ri_ran _ _ _ _ V k (ri_returned _ _ _ _ V 0 _ A eq_refl)).
      - destruct (ri_raised _ _ _ _ V eq_refl 0 _ A eq_refl) as (o & b & So & _). congruence. }
    split; [exact Sch|]. destruct (r_schema s) as [o|] eqn:So; [|congruence].
    destruct (ri_owner _ _ _ _ V o So) as (a & Q & [P|[(_ & K)|(_ & F & _)]]); [|exact K|discriminate].
    destruct (En o a Q) as [P'|P']; congruence.
  - intros i k A. destruct (ri_raised _ _ _ _ V eq_refl i _ A eq_refl) as (o & b & So & Q & Sd).
    exists o, (a_side b). split; [exact So|]. split; [exact (exec_side true sides ls s o b R Q)|exact Sd].
Qed.
Print Assumptions C65_usable.

(** A pure C++ process, or a pure Python one: nobody raises. *)
Theorem C65_alone sides k ls s : rexec true (rstart sides) ls s -> over true s -> (forall i k', nth_error sides i = Some k' -> k' = k) ->
  forall i k', nth_error sides i = Some k' -> at_pc s i k' RReturned.
Proof.
  intros R Ov Al i k' Q.
  assert (Ne : sides <> []) by (intros ->; destruct i; discriminate).
  destruct (C65_usable sides ls s R Ov Ne) as (_ & All & Ra). destruct (All i k' Q) as [A|A]; [exact A|]. exfalso.
  destruct (Ra i k' A) as (o & k2 & _ & Q2 & N). apply N. rewrite (Al i k' Q). exact (Al o k2 Q2).
Qed.
Print Assumptions C65_alone.

(** Constructors that come after an import has finished find its registration: none of them raises. *)
Theorem C65_python_first impl_ok sides ls s j ls' s' i :
  rexec impl_ok (rstart sides) ls s -> at_pc s j Pyth RReturned -> at_pc s i Cpp RStart ->
  rexec impl_ok s ls' s' -> ~ at_pc s' i Cpp RRaised /\ defs ls' = 0.
Proof.
  intros R A B R'. pose proof (exec_rinv impl_ok sides ls s R) as V.
  pose proof (ri_returned _ _ _ _ V j _ A eq_refl) as F. pose proof (ri_ran _ _ _ _ V Pyth F) as So. split.
  - intros C. unfold at_pc in *. destruct (late_cpp impl_ok s ls' s' i R' So B) as [Q|[Q|Q]]; unfold at_pc in Q; rewrite C in Q; discriminate.
  - pose proof (ri_defs _ _ _ _ V) as D. pose proof (ri_defs _ _ _ _ (exec_rinv impl_ok sides _ s' (rexec_trans _ _ _ _ _ _ R R'))) as D'.
    destruct (r_schema s) as [o|] eqn:Eo; [|congruence]. rewrite (exec_schema _ _ _ _ _ R' Eo) in D'.
    unfold defs in *. rewrite filter_app, app_length in D'. lia.
Qed.
Print Assumptions C65_python_first.

(** The other order fails, always: once a C++ constructor has registered the op before the package was imported, no
    import returns, however often it is tried. *)
Theorem C65_cpp_first_refuted impl_ok sides ls s o ls' s' :
  rexec impl_ok (rstart sides) ls s -> r_schema s = Some o -> nth_error sides o = Some Cpp ->
  rexec impl_ok s ls' s' -> forall i, ~ at_pc s' i Pyth RReturned.
Proof.
  intros R So Sd R' i. pose proof (rexec_trans _ _ _ _ _ _ R R') as RR.
  pose proof (exec_schema _ _ _ _ _ R' So) as So'.
  destruct (ri_owner _ _ _ _ (exec_rinv impl_ok sides _ s' RR) o So') as (a & Q & _).
  apply (import_fails impl_ok sides _ s' o a RR So' Q). pose proof (exec_side impl_ok sides _ s' o a RR Q). congruence.
Qed.
Print Assumptions C65_cpp_first_refuted.

Fixpoint follow (impl_ok : bool) (s : rstate) (sched : list nat) : option (list rlabel * rstate) :=
  match sched with
  | [] => Some ([], s)
  | i :: rest =>
      match rstep impl_ok s i with
      | None => None
      | Some (l, s') => match follow impl_ok s' rest with None => None | Some (ls, e) => Some (l :: ls, e) end
      end
  end.
Lemma follow_exec impl_ok s0 sched : forall ls s ls' e, rexec impl_ok s0 ls s -> follow impl_ok s sched = Some (ls', e) ->
  rexec impl_ok s0 (ls ++ ls') e.
Proof.
  induction sched as [|i rest IH]; intros ls s ls' e R H; cbn [follow] in H.
  - injection H as <- <-. rewrite app_nil_r. exact R.
  - destruct (rstep impl_ok s i) as [[l s']|] eqn:St; [|discriminate].
    destruct (follow impl_ok s' rest) as [[ls2 e2]|] eqn:Fo; [|discriminate]. injection H as <- <-.
    replace (ls ++ l :: ls2) with ((ls ++ [l]) ++ ls2) by (rewrite <- app_assoc; reflexivity).
    apply (IH (ls ++ [l]) s' ls2 e2); [|exact Fo]. exact (rx_step _ _ _ _ _ _ _ R St).
Qed.
Ltac run sched := match goal with |- exists ls s, rexec ?ok ?s0 ls s /\ _ =>
  let E := fresh in destruct (follow ok s0 sched) as [[ls s]|] eqn:E; [|vm_compute in E; discriminate];
  exists ls, s; split; [exact (follow_exec _ _ _ [] _ _ _ (rx_start _ _) E)|]; vm_compute in E; injection E as <- <- end.

(** C++'s kernel cannot be registered: the first constructor raises, the next one finds the schema and returns a model
    whose op has no kernel. *)
Theorem C65_kernel_refuted : exists ls s, rexec false (rstart [Cpp; Cpp]) ls s /\
  at_pc s 0 Cpp RRaised /\ at_pc s 1 Cpp RReturned /\ ~ usable s.
Proof. run [0;0;0;0;1;1]. split; [reflexivity|]. split; [reflexivity|]. intros [_ K]. discriminate. Qed.
Print Assumptions C65_kernel_refuted.
(** A constructor that looks for the op just before a concurrent import registers it raises. *)
Theorem C65_race_refuted : exists ls s, rexec true (rstart [Cpp; Pyth]) ls s /\
  at_pc s 0 Cpp RRaised /\ at_pc s 1 Pyth RReturned.
Proof. run [0;0;1;1;1;0]. split; reflexivity. Qed.
Print Assumptions C65_race_refuted.

(** Two constructors and two imports, the C++ side first. *)
Example C65_case : exists ls s, rexec true (rstart [Cpp; Pyth; Cpp; Pyth]) ls s /\
  over true s /\ usable s /\ r_schema s = Some 0 /\ at_pc s 1 Pyth RRaised /\ at_pc s 2 Cpp RReturned /\ at_pc s 3 Pyth RRaised.
Proof.
  run [0;0;1;0;0;2;1;3;3]. split; [|repeat split; discriminate].
  intros [|[|[|[|i]]]]; try reflexivity. unfold rstep. cbn [r_actors nth_error]. destruct i; reflexivity.
Qed.
(** An import first. *)
Example C65_python_case : exists ls s, rexec true (rstart [Pyth; Cpp; Cpp]) ls s /\
  over true s /\ usable s /\ r_schema s = Some 0 /\ at_pc s 1 Cpp RReturned /\ at_pc s 2 Cpp RReturned.
Proof.
  run [0;0;0;2;2;1]. split; [|repeat split; discriminate].
  intros [|[|[|i]]]; try reflexivity. unfold rstep. cbn [r_actors nth_error]. destruct i; reflexivity.
Qed.
