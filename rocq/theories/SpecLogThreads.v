(** Vocabulary for logging from many threads (C67), over what was observed. *)
From Verif Require Import Base Log LogThreads.

(** The calls one after the other: [h] is a history of calls with their answers and what is due to which sink. *)
Definition event_of (cl : lcall) : option levent :=
  match cl with
  | CLevel c => Some (LEffective c) | CEnabled c l => Some (LEnabled c l) | CEmit c l m => Some (LEmit c l m)
  | CSet c l => Some (LSet c l) | CSetAll l => Some (LSetAll l) | CReset => Some LReset | CApply => Some LApply
  | CSetSink _ | CResetSink => None
  end.
Inductive sequential : lstate -> sink -> list (lcall * result lout * option (sink * level * string)) -> Prop :=
| sq_nil s k : sequential s k []
| sq_log s k cl ev s' r h : event_of cl = Some ev -> lstep s ev = (s', r) -> sequential s' k h ->
    sequential s k ((cl, r, match cl, r with CEmit _ l _, Ok (OutLine (Some line)) => Some (k, l, line) | _, _ => None end) :: h)
| sq_set s k o h : sequential s (match o with Some k' => k' | None => SDefault end) h ->
    sequential s k ((CSetSink o, Ok OutUnit, None) :: h)
| sq_reset s k h : sequential s SDefault h -> sequential s k ((CResetSink, Ok OutUnit, None) :: h).

(** The calls in the order in which their critical sections ended. *)
Definition history (ls : list glabel) : list (lcall * result lout * option (sink * level * string)) :=
  flat_map (fun l => match l with GCommit _ cl r due => [(cl, r, due)] | _ => [] end) ls.
(** What was due to the sinks from the calls of thread [i], and what they were given. *)
Definition due_of (i : nat) (ls : list glabel) : list (sink * level * string) :=
  flat_map (fun l => match l with GCommit j _ _ (Some d) => if Nat.eqb i j then [d] else [] | _ => [] end) ls.
Definition given_by (i : nat) (ls : list glabel) : list (sink * level * string) :=
  flat_map (fun l => match l with GDeliver j s v line => if Nat.eqb i j then [(s, v, line)] else [] | _ => [] end) ls.

Definition ended (g : gstate) : Prop := forall t, In t (g_threads g) -> t_phase t = PDone.
Definition stopped body (g : gstate) : Prop := forall i, gstep body g i = None.

(** What thread [i] was seen doing: its critical sections and its calls of sinks. *)
Definition seen_of (i : nat) (ls : list glabel) : list glabel :=
  filter (fun l => match l with GTau _ => false | GCommit j _ _ _ | GDeliver j _ _ _ => Nat.eqb i j end) ls.
(** The same, read off the code alone, up to some point: [fs] is the code to go on with when it ends.  Every call gets
    the answer of its critical section; an emit that has a line for a sink runs the sink first, and throws what it
    throws. *)
Inductive acts (body : sink -> level -> string -> code) (i : nat) : list (result unit -> code) -> code -> list glabel -> Prop :=
| ac_stop fs c : acts body i fs c []
| ac_end f fs r tr : acts body i fs (f r) tr -> acts body i (f :: fs) (End r) tr
| ac_yield fs c tr : acts body i fs c tr -> acts body i fs (Yield c) tr
| ac_call fs cl k r tr : acts body i fs (k r) tr -> acts body i fs (Call cl k) (GCommit i cl r None :: tr)
| ac_due fs cl k r d : acts body i fs (Call cl k) [GCommit i cl r (Some d)]
| ac_sink fs cl k r s l line tr :
    acts body i ((fun e => k (match e with Ok _ => r | Err x => Err x end)) :: fs) (body s l line) tr ->
    acts body i fs (Call cl k) (GCommit i cl r (Some (s, l, line)) :: GDeliver i s l line :: tr).

(** Code that ends after at most [n] actions, whatever the answers; without [loud] it emits nothing. *)
Inductive takes (loud : bool) : nat -> code -> Prop :=
| tk_end n r : takes loud n (End r)
| tk_call n cl k : (loud = false -> match cl with CEmit _ _ _ => False | _ => True end) -> (forall r, takes loud n (k r)) ->
    takes loud (S n) (Call cl k)
| tk_yield n c : takes loud n c -> takes loud (S n) (Yield c).
