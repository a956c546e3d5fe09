(** Properties C48, C49 and C51: log levels and the capture flag. *)
From Verif Require Import Base Log SpecLog LogProofs.

(** After any history, any use of a channel's level (reporting it, testing it,
    emitting a message) goes by the documented order: environment entry,
    environment "all", programmatic entry, programmatic default, warning.  The
    environment is the value of NEML2_LOGS last read. *)
Theorem C48_resolution : forall v h ev c env,
  looks_up ev c -> env_read v (h ++ [ev]) env -> well_formed env ->
  exists L, resolves env h c L /\ shows ev c L (outcome v h ev).
Proof. exact lookup_resolves. Qed.
Print Assumptions C48_resolution.

(** The order determines one level. *)
Theorem C48_one_level : forall env h c,
  exists L, resolves env h c L /\ forall L', resolves env h c L' -> L' = L.
Proof. exact resolves_unique. Qed.
Print Assumptions C48_one_level.

(** No programmatic change overrides the environment. *)
Theorem C48_environment_wins : forall v h c env L,
  env_read v (h ++ [LEffective c]) env -> well_formed env ->
  env_entry env (channel_name c) L \/ (env_none env (channel_name c) /\ env_entry env "all" L) ->
  outcome v h (LEffective c) = Ok (OutLevel L).
Proof. exact environment_wins. Qed.
Print Assumptions C48_environment_wins.

(** reset_defaults restores what the environment alone gives. *)
Theorem C48_reset : forall v h1 h2 c env,
  (forall c' l, ~ In (LSet c' l) h2) -> (forall l, ~ In (LSetAll l) h2) ->
  env_read v ((h1 ++ LReset :: h2) ++ [LEffective c]) env -> well_formed env ->
  exists L, resolves env [] c L /\ outcome v (h1 ++ LReset :: h2) (LEffective c) = Ok (OutLevel L).
Proof. exact reset_restores. Qed.
Print Assumptions C48_reset.

(** A malformed NEML2_LOGS makes the first use raise a FatalError, ... *)
Theorem C49_first_use_partial : forall v h ev c env,
  looks_up ev c -> env_read v (h ++ [ev]) env -> no_uses h -> ~ well_formed env ->
  exists w, outcome v h ev = Err (Fatal w).
Proof. exact first_use_raises. Qed.
Print Assumptions C49_first_use_partial.

(** ... and every apply_env, ... *)
Theorem C49_apply_env_partial : forall v h,
  (well_formed (env_at v h) -> outcome v h LApply = Ok OutUnit) /\
  (~ well_formed (env_at v h) -> exists w, outcome v h LApply = Err (Fatal w)).
Proof. exact apply_raises. Qed.
Print Assumptions C49_apply_env_partial.

(** ... after which levels are looked up without complaint, as though the string
    ended before its first invalid entry. *)
Theorem C49_later_uses_partial : forall v h ev c env eff,
  looks_up ev c -> env_read v (h ++ [ev]) env -> ~ no_uses h -> in_effect env eff ->
  exists L, resolves eff h c L /\ shows ev c L (outcome v h ev).
Proof. exact lookup_after_error. Qed.
Print Assumptions C49_later_uses_partial.

(** So the property as stated fails: with "newton=debug,linear=loud,model=silent" the
    first use raises, the second one does not, the entry before the bad one is in
    force and the one after it is not. *)
Theorem C49_consistent_refuted :
  exists s w, ~ well_formed (Some s) /\
    outcome (Some s) [] (LEffective Newton) = Err (Fatal w) /\
    outcome (Some s) [LEffective Newton] (LEffective Newton) = Ok (OutLevel Debug) /\
    outcome (Some s) [LEffective Newton] (LEffective Model) = Ok (OutLevel Warning).
Proof.
  exists "newton=debug,linear=loud,model=silent"%string. eexists.
  split; [|split; [reflexivity|split; reflexivity]].
  intros W. apply well_formed_iff in W. inversion W as [|? ? _ W2]. inversion W2 as [|? ? W3 _].
  vm_compute in W3. discriminate.
Qed.
Print Assumptions C49_consistent_refuted.

(** Capture of failed solves is on exactly when the variable is set and, trimmed and
    in lower case, is none of the documented negatives. *)
Theorem C51_capture_flag : forall v,
  capture_enabled v = true <->
  exists s t, v = Some s /\ normal s t /\ ~ In t [""; "0"; "false"; "no"; "off"]%string.
Proof. exact capture_iff. Qed.
Print Assumptions C51_capture_flag.

(** ** Concrete cases *)
Example C48_case :
  let v := Some " Newton = Debug , all=1,,junk, LINEAR=off,newton=info"%string in
  let h := [LSet Newton Silent; LSetAll Debug; LSet Driver Info] in
  map (outcome v h) [LEffective Newton; LEffective Linear; LEffective Driver]
  = [Ok (OutLevel Info); Ok (OutLevel Silent); Ok (OutLevel Warning)] /\
  outcome v h (LEmit Newton Info "x") = Ok (OutLine (Some "[neml2:newton ][info] x"%string)) /\
  map (outcome None h) [LEffective Newton; LEffective Linear; LEffective Driver]
  = [Ok (OutLevel Silent); Ok (OutLevel Debug); Ok (OutLevel Info)] /\
  map (outcome None (h ++ [LReset])) [LEffective Newton; LEffective Linear]
  = [Ok (OutLevel Warning); Ok (OutLevel Warning)].
Proof. repeat split. Qed.

(** The hypotheses of the C48 theorems hold for that string. *)
Example C48_hypotheses :
  let v := Some " Newton = Debug , all=1,,junk, LINEAR=off,newton=info"%string in
  well_formed v /\ env_read v ([LSet Newton Silent] ++ [LEffective Newton]) v /\
  env_entry v "newton" Info /\ env_entry v "all" Warning.
Proof.
  cbn zeta. split; [apply well_formed_iff, Forall_forall, (proj1 (forallb_forall good _)); vm_compute; reflexivity|]. split.
  - exists [LSet Newton Silent], (LEffective Newton), []. split; [reflexivity|].
    split; [right; split; [exact I|intros e [<-|[]] U; exact U]|]. split; [intros []|reflexivity].
  - split; apply env_entry_iff; reflexivity.
Qed.

Example C49_hypotheses :
  in_effect (Some "newton=debug,linear=loud,model=silent"%string) (Some "newton=debug"%string).
Proof.
  right. exists "newton=debug,linear=loud,model=silent"%string, ["newton=debug"%string], "linear=loud"%string, ["model=silent"%string].
  split; [reflexivity|]. split; [apply pieces_iff; reflexivity|].
  split; [constructor; [apply valid_iff; reflexivity|constructor]|].
  split; [|reflexivity]. intros V. apply valid_iff in V. vm_compute in V. discriminate.
Qed.

Example C51_case :
  capture_enabled None = false /\ capture_enabled (Some ""%string) = false /\
  capture_enabled (Some "  Off "%string) = false /\ capture_enabled (Some "FALSE"%string) = false /\
  capture_enabled (Some "00"%string) = true /\ capture_enabled (Some " yes"%string) = true.
Proof. repeat split. Qed.
