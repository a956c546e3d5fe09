(** aoti/log.cpp used by many threads, and the sinks of aoti/_aoti.cpp:672-707, as a transition system.  Definitions only.

    A step is one access to the mutex or to the GIL, one read or write of a cell of the store, the end of a critical
    section or one call of a sink.  The threads are solver threads of the host, which do not have the GIL, and Python
    threads, which run only with it and may give it up between any two actions.
    Simplifications: the environment variable does not change while the threads run; memory is sequentially consistent;
    a thread does nothing but log. *)
From Verif Require Import Base Shared Log.

(** log.h: a sink is the default one, one of the host's, or a Python callable. *)
Inductive sink : Type := SDefault | SHost (k : nat) | SPy (k : nat).

(** The public calls. *)
Inductive lcall : Type :=
| CLevel (c : channel) | CEnabled (c : channel) (l : level) | CEmit (c : channel) (l : level) (m : string)
| CSet (c : channel) (l : level) | CSetAll (l : level) | CReset | CApply
| CSetSink (s : option sink) | CResetSink.

(** What a thread does, depending on what the calls answer; [End (Err _)]: it throws. *)
Inductive code : Type :=
| End (r : result unit)
| Call (c : lcall) (k : result lout -> code)
| Yield (k : code).                              (* Python lets other threads run *)

(** ** The store: log.cpp:62-71 *)
Inductive cell : Type := Env (c : channel) | EnvAll | Prog (c : channel) | ProgAll.
Record store : Type := mkStore { st_log : lstate; st_sink : sink }.

Definition put_opt (y : layer) (c : channel) (v : option level) : layer :=
  mkLayer (fun c' => if channel_eqb c' c then v else ly_chan y c') (ly_all y).
Definition read (s : lstate) (x : cell) : option level :=
  match x with
  | Env c => ly_chan (lg_env s) c | EnvAll => ly_all (lg_env s)
  | Prog c => ly_chan (lg_prog s) c | ProgAll => ly_all (lg_prog s)
  end.
Definition write (s : lstate) (x : cell) (v : option level) : lstate :=
  match x with
  | Env c => mkLog (put_opt (lg_env s) c v) (lg_prog s) (lg_applied s) (lg_var s)
  | EnvAll => mkLog (mkLayer (ly_chan (lg_env s)) v) (lg_prog s) (lg_applied s) (lg_var s)
  | Prog c => mkLog (lg_env s) (put_opt (lg_prog s) c v) (lg_applied s) (lg_var s)
  | ProgAll => mkLog (lg_env s) (mkLayer (ly_chan (lg_prog s)) v) (lg_applied s) (lg_var s)
  end.

(** ** Critical sections, access by access *)
(** [Fin r due]: the answer, and for an enabled [emit] the sink it copied and what to give it. *)
Inductive micro : Type :=
| Fin (r : result lout) (due : option (sink * level * string))
| Get (x : cell) (k : option level -> micro)
| Put (x : cell) (v : option level) (k : micro)
| GetApplied (k : bool -> micro)
| PutApplied (k : micro)
| GetVar (k : option string -> micro)
| GetSink (k : sink -> micro)
| PutSink (s : sink) (k : micro).

(** log.h:56-64: the order of the arrays. *)
Definition channels : list channel := [Newton; Linear; Substep; Model; TensorC; Driver].
Definition put_all_of (f : channel -> cell) (k : micro) : micro := fold_right (fun c k => Put (f c) None k) k channels.

(** log.cpp:107-135: the loop. *)
Fixpoint entry_steps (l : list string) (k : micro) : micro :=
  match l with
  | [] => k
  | entry :: rest =>
      match split_at "=" entry with
      | None => entry_steps rest k
      | Some (key, v) =>
          let chan := trim_lower key in
          let lvl := trim_lower v in
          match parse_level lvl with
          | None => Fin (Err (Fatal ("NEML2_LOGS: unknown level '" ++ lvl ++ "'"))) None
          | Some L =>
              if String.eqb chan "all" then Put EnvAll (Some L) (entry_steps rest k)
              else match parse_channel chan with
                   | None => Fin (Err (Fatal ("NEML2_LOGS: unknown channel '" ++ chan ++ "'"))) None
                   | Some C => Put (Env C) (Some L) (entry_steps rest k)
                   end
          end
      end
  end.
(** log.cpp:95-136 [apply_env_locked]. *)
Definition apply_steps (k : micro) : micro :=
  put_all_of Env (Put EnvAll None (PutApplied (GetVar (fun v =>
    match v with None => k | Some spec => entry_steps (entries_of spec) k end)))).
(** log.cpp:138-153 [effective_locked]. *)
Definition resolve_steps (c : channel) (k : level -> micro) : micro :=
  Get (Env c) (fun o => match o with Some l => k l | None =>
  Get EnvAll (fun o => match o with Some l => k l | None =>
  Get (Prog c) (fun o => match o with Some l => k l | None =>
  Get ProgAll (fun o => match o with Some l => k l | None => k Warning end) end) end) end).
Definition effective_steps (c : channel) (k : level -> micro) : micro :=
  GetApplied (fun a => if a then resolve_steps c k else apply_steps (resolve_steps c k)).

(** log.cpp:176-190, 210-226, 240-287. *)
Definition call_steps (cl : lcall) : micro :=
  match cl with
  | CLevel c => effective_steps c (fun e => Fin (Ok (OutLevel e)) None)
  | CEnabled c l => effective_steps c (fun e => Fin (Ok (OutBool (Nat.leb (level_int l) (level_int e)))) None)
  | CEmit c l m => effective_steps c (fun e =>
      if Nat.leb (level_int l) (level_int e)
      then GetSink (fun s => Fin (Ok (OutLine (Some (format c l m)))) (Some (s, l, format c l m)))
      else Fin (Ok (OutLine None)) None)
  | CSet c l => Put (Prog c) (Some l) (Fin (Ok OutUnit) None)
  | CSetAll l => Put ProgAll (Some l) (Fin (Ok OutUnit) None)
  | CReset => put_all_of Prog (Put ProgAll None (Fin (Ok OutUnit) None))
  | CApply => apply_steps (Fin (Ok OutUnit) None)
  | CSetSink s => PutSink (match s with Some k => k | None => SDefault end) (Fin (Ok OutUnit) None)
  | CResetSink => PutSink SDefault (Fin (Ok OutUnit) None)
  end.

(** ** Threads *)
Inductive phase : Type :=
| PRun (c : code)
| PGil (c : code)                                                (* waits for the GIL *)
| PLock (cl : lcall) (k : result lout -> code)                   (* waits for the mutex *)
| PCrit (cl : lcall) (m : micro) (k : result lout -> code)       (* has it *)
| PSink (s : sink) (l : level) (line : string) (r : result lout) (k : result lout -> code)   (* log.cpp:225: about to call the sink *)
| PDone.
(** The code waiting for a sink to return: what it goes on with, whether it is Python. *)
Record frame : Type := mkFrame { f_k : result unit -> code; f_py : bool }.
(** [t_py]: the code it runs is Python. *)
Record lthread : Type := mkT { t_phase : phase; t_py : bool; t_stack : list frame }.
Record gstate : Type := mkG { g_store : store; g_mutex : option nat; g_gil : option nat; g_threads : list lthread }.

Inductive glabel : Type :=
| GTau (i : nat)
| GCommit (i : nat) (cl : lcall) (r : result lout) (due : option (sink * level * string))   (* a critical section ends *)
| GDeliver (i : nat) (s : sink) (l : level) (line : string).                                 (* a sink is called *)

Section Threads.
  (** What the sinks do: code of their own, which may log in its turn. *)
  Variable body : sink -> level -> string -> code.

  (** One step of thread [i]; [None]: it is blocked or has ended. *)
  Definition gstep (g : gstate) (i : nat) : option (glabel * gstate) :=
    match nth_error (g_threads g) i with
    | None => None
    | Some t =>
        let upd s m gil t' := mkG s m gil (set_nth i t' (g_threads g)) in
        let local t' := Some (GTau i, upd (g_store g) (g_mutex g) (g_gil g) t') in
        let go ph := mkT ph (t_py t) (t_stack t) in
        match t_phase t with
        | PRun (End r) =>
            match t_stack t with
            | [] => Some (GTau i, upd (g_store g) (g_mutex g) (if t_py t then None else g_gil g) (go PDone))
            | f :: fs =>
                (* _aoti.cpp:702: the end of gil_scoped_acquire gives the GIL up if it took it *)
                Some (GTau i, upd (g_store g) (g_mutex g) (if t_py t && negb (f_py f) then None else g_gil g) (mkT (PRun (f_k f r)) (f_py f) fs))
            end
        | PRun (Call cl k) => local (go (PLock cl k))
        | PRun (Yield c) =>
            if t_py t then Some (GTau i, upd (g_store g) (g_mutex g) None (go (PGil c))) else local (go (PRun c))
        | PGil c =>
            match g_gil g with
            | Some _ => None
            | None => Some (GTau i, upd (g_store g) (g_mutex g) (Some i) (go (PRun c)))
            end
        | PLock cl k =>
            match g_mutex g with
            | Some _ => None
            | None => Some (GTau i, upd (g_store g) (Some i) (g_gil g) (go (PCrit cl (call_steps cl) k)))
            end
        | PCrit cl m k =>
            let s := g_store g in
            let on s' m' := Some (GTau i, upd s' (g_mutex g) (g_gil g) (go (PCrit cl m' k))) in
            match m with
            | Fin r due =>
                Some (GCommit i cl r due,
                      upd s None (g_gil g) (go (match due with Some (sk, l, line) => PSink sk l line r k | None => PRun (k r) end)))
            | Get x f => on s (f (read (st_log s) x))
            | Put x v m' => on (mkStore (write (st_log s) x v) (st_sink s)) m'
            | GetApplied f => on s (f (lg_applied (st_log s)))
            | PutApplied m' => on (mkStore (mkLog (lg_env (st_log s)) (lg_prog (st_log s)) true (lg_var (st_log s))) (st_sink s)) m'
            | GetVar f => on s (f (lg_var (st_log s)))
            | GetSink f => on s (f (st_sink s))
            | PutSink sk m' => on (mkStore (st_log s) sk) m'
            end
        | PSink sk l line r k =>
            let f := mkFrame (fun e => k (match e with Ok _ => r | Err x => Err x end)) (t_py t) in
            let called py gil := Some (GDeliver i sk l line, upd (g_store g) (g_mutex g) gil (mkT (PRun (body sk l line)) py (f :: t_stack t))) in
            match sk with
            | SPy _ =>
                (* _aoti.cpp:700: gil_scoped_acquire *)
                if t_py t then called true (g_gil g)
                else match g_gil g with Some _ => None | None => called true (Some i) end
            | _ => called (t_py t) (g_gil g)
            end
        | PDone => None
        end
    end.

  (** The process at the start: the programs, and whether they are Python. *)
  Definition gstart (v : option string) (programs : list (bool * code)) : gstate :=
    mkG (mkStore (linit v) SDefault) None None
        (map (fun p : bool * code => mkT (if fst p then PGil (snd p) else PRun (snd p)) (fst p) []) programs).

  Inductive gexec (g0 : gstate) : list glabel -> gstate -> Prop :=
  | gx_start : gexec g0 [] g0
  | gx_step ls g i l g' : gexec g0 ls g -> gstep g i = Some (l, g') -> gexec g0 (ls ++ [l]) g'.
End Threads.
