(** Specification vocabulary for the log configuration, over strings directly. *)
From Verif Require Import Base Log.
Local Open Scope string_scope.

(** White space: tab, newline, vertical tab, form feed, carriage return, space. *)
Definition white (c : ascii) : Prop := In (nat_of_ascii c) [9; 10; 11; 12; 13; 32].
Definition chars (s : string) : list ascii := list_ascii_of_string s.
Definition blank (s : string) : Prop := Forall white (chars s).
Definition free_of (c : ascii) (s : string) : Prop := ~ In c (chars s).

(** [d] is [c] with the letters A-Z in lower case. *)
Definition lower_as (c d : ascii) : Prop :=
  (65 <= nat_of_ascii c <= 90 /\ nat_of_ascii d = nat_of_ascii c + 32) \/
  (~ 65 <= nat_of_ascii c <= 90 /\ d = c).

(** [t] is [s] without surrounding white space, in lower case. *)
Definition normal (s t : string) : Prop :=
  exists pre mid post, s = pre ++ mid ++ post /\ blank pre /\ blank post /\
    (forall c r, mid = String c r -> ~ white c) /\
    (forall r c, mid = r ++ String c "" -> ~ white c) /\
    Forall2 lower_as (chars mid) (chars t).

(** The comma-separated entries of a string. *)
Definition pieces (s : string) (l : list string) : Prop :=
  l <> [] /\ Forall (free_of ",") l /\ s = String.concat "," l.

(** An entry [key = value], split at its first equals sign. *)
Definition says (e k v : string) : Prop :=
  exists a b, e = a ++ "=" ++ b /\ free_of "=" a /\ normal a k /\ normal b v.

Inductive level_word : level -> string -> Prop :=
| w_silent w : In w ["silent"; "off"; "none"; "0"] -> level_word Silent w
| w_warning w : In w ["warning"; "warn"; "1"] -> level_word Warning w
| w_info w : In w ["info"; "2"] -> level_word Info w
| w_debug w : In w ["debug"; "3"] -> level_word Debug w.

Definition assigns (e k : string) (L : level) : Prop := exists v, says e k v /\ level_word L v.

(** An entry is valid if it is no assignment, or assigns a level to "all" or to a
    channel. *)
Definition valid_entry (e : string) : Prop :=
  forall k v, says e k v ->
    (exists L, level_word L v) /\ (k = "all" \/ exists c, k = channel_name c).
Definition well_formed (env : option string) : Prop :=
  forall s l, env = Some s -> pieces s l -> Forall valid_entry l.

(** The last assignment to [k] in the string, if any. *)
Definition env_entry (env : option string) (k : string) (L : level) : Prop :=
  exists s l1 e l2, env = Some s /\ pieces s (l1 ++ e :: l2)%list /\ assigns e k L /\
    forall e' L', In e' l2 -> ~ assigns e' k L'.
Definition env_none (env : option string) (k : string) : Prop :=
  forall s l e L, env = Some s -> pieces s l -> In e l -> ~ assigns e k L.

(** The programmatic layer after a history. *)
Local Open Scope list_scope.
Definition prog_entry (h : list levent) (c : channel) (L : level) : Prop :=
  exists h1 h2, h = h1 ++ LSet c L :: h2 /\ ~ In LReset h2 /\ forall L', ~ In (LSet c L') h2.
Definition prog_none (h : list levent) (c : channel) : Prop :=
  forall h1 L h2, h = h1 ++ LSet c L :: h2 -> In LReset h2.
Definition prog_all_entry (h : list levent) (L : level) : Prop :=
  exists h1 h2, h = h1 ++ LSetAll L :: h2 /\ ~ In LReset h2 /\ forall L', ~ In (LSetAll L') h2.
Definition prog_all_none (h : list levent) : Prop :=
  forall h1 L h2, h = h1 ++ LSetAll L :: h2 -> In LReset h2.

(** The documented order. *)
Inductive resolves (env : option string) (h : list levent) (c : channel) : level -> Prop :=
| by_env L : env_entry env (channel_name c) L -> resolves env h c L
| by_env_all L : env_none env (channel_name c) -> env_entry env "all" L -> resolves env h c L
| by_prog L : env_none env (channel_name c) -> env_none env "all" -> prog_entry h c L ->
    resolves env h c L
| by_prog_all L : env_none env (channel_name c) -> env_none env "all" -> prog_none h c ->
    prog_all_entry h L -> resolves env h c L
| by_default : env_none env (channel_name c) -> env_none env "all" -> prog_none h c ->
    prog_all_none h -> resolves env h c Warning.

(** The variable's value after a history, and the value that the log store has read:
    it reads at every apply_env and, the first time, at whatever uses a level. *)
Fixpoint env_at (v : option string) (h : list levent) : option string :=
  match h with
  | [] => v
  | LSetenv w :: h' => env_at w h'
  | _ :: h' => env_at v h'
  end.
Definition uses (ev : levent) : Prop :=
  match ev with LEffective _ | LEnabled _ _ | LEmit _ _ _ | LApply => True | _ => False end.
Definition reads (h1 : list levent) (ev : levent) : Prop :=
  ev = LApply \/ (uses ev /\ forall e, In e h1 -> ~ uses e).
Definition env_read (v : option string) (h : list levent) (env : option string) : Prop :=
  exists h1 ev h2, h = h1 ++ ev :: h2 /\ reads h1 ev /\ ~ In LApply h2 /\ env = env_at v h1.

(** The result of the last event of a history from a fresh process. *)
Definition outcome (v : option string) (h : list levent) (ev : levent) : result lout :=
  snd (lstep (lrun (linit v) h) ev).

(** What is in effect of an environment string: all of it, or its entries before the
    first invalid one. *)
Definition in_effect (env eff : option string) : Prop :=
  (well_formed env /\ eff = env) \/
  (exists s l1 b l2, env = Some s /\ pieces s (l1 ++ b :: l2) /\ Forall valid_entry l1 /\ ~ valid_entry b /\
     eff = match l1 with [] => None | _ => Some (String.concat "," l1) end).


(** No event so far has used a level. *)
Definition no_uses (h : list levent) : Prop := forall e, In e h -> ~ uses e.

(** The level used by any event that looks one up. *)
Definition looks_up (ev : levent) (c : channel) : Prop :=
  ev = LEffective c \/ (exists l, ev = LEnabled c l) \/ (exists l m, ev = LEmit c l m).


(** [l] is no more verbose than [L]. *)
Inductive at_least : level -> level -> Prop :=
| al_silent L : at_least L Silent
| al_warn_w : at_least Warning Warning | al_warn_i : at_least Info Warning | al_warn_d : at_least Debug Warning
| al_info_i : at_least Info Info | al_info_d : at_least Debug Info
| al_debug : at_least Debug Debug.

(** The event behaves as level [L] of its channel demands: reports it, answers
    whether a message of the given level passes, delivers it or drops it. *)
Definition shows (ev : levent) (c : channel) (L : level) (out : result lout) : Prop :=
  match ev with
  | LEffective _ => out = Ok (OutLevel L)
  | LEnabled _ l => exists b, out = Ok (OutBool b) /\ (b = true <-> at_least L l)
  | LEmit _ l m => exists o, out = Ok (OutLine o) /\
      (at_least L l -> o = Some (format c l m)) /\ (~ at_least L l -> o = None)
  | _ => False
  end.
