(** aoti/log.cpp and the capture flag of aoti/solve.cpp.  Definitions only.
    Simplifications: the process-global state is a value passed along (every
    function of log.cpp locks [State::mtx] for its whole access, so calls are
    atomic); isspace and tolower are those of the C locale. *)
From Verif Require Import Base.

(** ** Strings *)

(** std::isspace in the C locale. *)
Definition is_space (c : ascii) : bool :=
  let n := nat_of_ascii c in Nat.eqb n 32 || (Nat.leb 9 n && Nat.leb n 13).
(** std::tolower in the C locale. *)
Definition to_lower (c : ascii) : ascii :=
  let n := nat_of_ascii c in
  if Nat.leb 65 n && Nat.leb n 90 then ascii_of_nat (n + 32) else c.

Fixpoint ltrim (s : string) : string :=
  match s with
  | EmptyString => EmptyString
  | String c r => if is_space c then ltrim r else s
  end.
Fixpoint rtrim (s : string) : string :=
  match s with
  | EmptyString => EmptyString
  | String c r =>
      match rtrim r with
      | EmptyString => if is_space c then EmptyString else String c EmptyString
      | t => String c t
      end
  end.
Fixpoint lower (s : string) : string :=
  match s with EmptyString => EmptyString | String c r => String (to_lower c) (lower r) end.

(** log.cpp:80-92 [trim_lower]; solve.cpp:58-61 does the same three steps. *)
Definition trim_lower (s : string) : string := lower (rtrim (ltrim s)).

(** [std::string::find(c)] followed by the two [substr] around it. *)
Fixpoint split_at (c : ascii) (s : string) : option (string * string) :=
  match s with
  | EmptyString => None
  | String d r =>
      if Ascii.eqb d c then Some (EmptyString, r)
      else match split_at c r with
           | Some (a, b) => Some (String d a, b)
           | None => None
           end
  end.

(** log.cpp:107-114: the entries visited by the loop over [spec]: what lies between
    commas, one entry more than there are commas. *)
Fixpoint entries_of (s : string) : list string :=
  match s with
  | EmptyString => [EmptyString]
  | String c r =>
      if Ascii.eqb c "," then EmptyString :: entries_of r
      else match entries_of r with
           | h :: t => String c h :: t
           | [] => [String c EmptyString]
           end
  end.

(** ** Levels and channels: log.h:56-74 *)
Inductive level := Silent | Warning | Info | Debug.
Definition level_int (l : level) : nat :=
  match l with Silent => 0 | Warning => 1 | Info => 2 | Debug => 3 end.
Inductive channel := Newton | Linear | Substep | Model | TensorC | Driver.
Definition channel_eqb (a b : channel) : bool :=
  match a, b with
  | Newton, Newton | Linear, Linear | Substep, Substep
  | Model, Model | TensorC, TensorC | Driver, Driver => true
  | _, _ => false
  end.

(** log.cpp:290-309 [channel_name]. *)
Definition channel_name (c : channel) : string :=
  match c with
  | Newton => "newton" | Linear => "linear" | Substep => "substep"
  | Model => "model" | TensorC => "tensor" | Driver => "driver"
  end.
(** log.cpp:158-173 [level_tag]. *)
Definition level_tag (l : level) : string :=
  match l with Silent => "slnt" | Warning => "warn" | Info => "info" | Debug => "dbg" end.

(** log.cpp:328-346 [parse_channel]. *)
Definition parse_channel (s : string) : option channel :=
  if String.eqb s "newton" then Some Newton
  else if String.eqb s "linear" then Some Linear
  else if String.eqb s "substep" then Some Substep
  else if String.eqb s "model" then Some Model
  else if String.eqb s "tensor" then Some TensorC
  else if String.eqb s "driver" then Some Driver
  else None.

(** log.cpp:348-362 [parse_level]. *)
Definition parse_level (s : string) : option level :=
  if String.eqb s "silent" || String.eqb s "off" || String.eqb s "none" || String.eqb s "0" then Some Silent
  else if String.eqb s "warning" || String.eqb s "warn" || String.eqb s "1" then Some Warning
  else if String.eqb s "info" || String.eqb s "2" then Some Info
  else if String.eqb s "debug" || String.eqb s "3" then Some Debug
  else None.

(** ** State: log.cpp:62-71.  A layer is the per-channel array and the baseline. *)
Record layer := mkLayer { ly_chan : channel -> option level; ly_all : option level }.
Definition no_layer : layer := mkLayer (fun _ => None) None.
Definition put_chan (y : layer) (c : channel) (l : level) : layer :=
  mkLayer (fun c' => if channel_eqb c' c then Some l else ly_chan y c') (ly_all y).
Definition put_all (y : layer) (l : level) : layer := mkLayer (ly_chan y) (Some l).

Record lstate := mkLog {
  lg_env : layer; lg_prog : layer; lg_applied : bool;
  lg_var : option string      (* the process environment's NEML2_LOGS *)
}.

(** log.cpp:107-135: the loop; a throw keeps what the earlier entries stored. *)
Fixpoint apply_entries (l : list string) (y : layer) : layer * option exn :=
  match l with
  | [] => (y, None)
  | entry :: rest =>
      match split_at "=" entry with
      | None => apply_entries rest y
      | Some (k, v) =>
          let chan := trim_lower k in
          let lvl := trim_lower v in
          match parse_level lvl with
          | None => (y, Some (Fatal ("NEML2_LOGS: unknown level '" ++ lvl ++ "'")))
          | Some L =>
              if String.eqb chan "all" then apply_entries rest (put_all y L)
              else match parse_channel chan with
                   | None => (y, Some (Fatal ("NEML2_LOGS: unknown channel '" ++ chan ++ "'")))
                   | Some C => apply_entries rest (put_chan y C L)
                   end
          end
      end
  end.

(** log.cpp:95-136 [apply_env_locked]. *)
Definition apply_env_locked (s : lstate) : lstate * option exn :=
  match lg_var s with
  | None => (mkLog no_layer (lg_prog s) true (lg_var s), None)
  | Some spec =>
      let '(y, e) := apply_entries (entries_of spec) no_layer in
      (mkLog y (lg_prog s) true (lg_var s), e)
  end.

(** log.cpp:138-153 [effective_locked]. *)
Definition resolve (s : lstate) (c : channel) : level :=
  match ly_chan (lg_env s) c with
  | Some l => l
  | None =>
  match ly_all (lg_env s) with
  | Some l => l
  | None =>
  match ly_chan (lg_prog s) c with
  | Some l => l
  | None =>
  match ly_all (lg_prog s) with
  | Some l => l
  | None => Warning
  end end end end.
Definition effective_locked (s : lstate) (c : channel) : lstate * result level :=
  let '(s, e) := if lg_applied s then (s, None) else apply_env_locked s in
  match e with
  | Some x => (s, Err x)
  | None => (s, Ok (resolve s c))
  end.

(** [std::string(n, ' ')] appended up to a width. *)
Fixpoint spaces (n : nat) : string :=
  match n with 0 => EmptyString | S m => String " " (spaces m) end.
(** log.cpp:192-207 [format]. *)
Definition format (c : channel) (l : level) (message : string) : string :=
  let cn := channel_name c in
  let lt := level_tag l in
  ("[neml2:" ++ cn ++ spaces (7 - String.length cn) ++ "][" ++
   lt ++ spaces (4 - String.length lt) ++ "] " ++ message)%string.

(** ** The public calls and what the host does to the environment *)
Inductive levent :=
| LEffective (c : channel)                          (* effective_level *)
| LEnabled (c : channel) (l : level)                (* enabled *)
| LEmit (c : channel) (l : level) (m : string)      (* emit *)
| LSet (c : channel) (l : level)                    (* set_default_level(channel, level) *)
| LSetAll (l : level)                               (* set_default_level(level) *)
| LReset                                            (* reset_defaults *)
| LApply                                            (* apply_env *)
| LSetenv (v : option string).                      (* setenv/unsetenv by the host *)

(** What the caller sees: a value returned, lines given to the sink, or a throw. *)
Inductive lout := OutLevel (l : level) | OutBool (b : bool) | OutLine (s : option string) | OutUnit.

Definition lstep (s : lstate) (ev : levent) : lstate * result lout :=
  match ev with
  | LEffective c => let '(s, r) := effective_locked s c in (s, rmap OutLevel r)
  | LEnabled c l =>
      let '(s, r) := effective_locked s c in
      (s, rmap (fun e => OutBool (Nat.leb (level_int l) (level_int e))) r)
  | LEmit c l m =>
      let '(s, r) := effective_locked s c in
      (s, rmap (fun e => OutLine (if Nat.leb (level_int l) (level_int e)
                                  then Some (format c l m) else None)) r)
  | LSet c l => (mkLog (lg_env s) (put_chan (lg_prog s) c l) (lg_applied s) (lg_var s), Ok OutUnit)
  | LSetAll l => (mkLog (lg_env s) (put_all (lg_prog s) l) (lg_applied s) (lg_var s), Ok OutUnit)
  | LReset => (mkLog (lg_env s) no_layer (lg_applied s) (lg_var s), Ok OutUnit)
  | LApply => let '(s, e) := apply_env_locked s in
              (s, match e with Some x => Err x | None => Ok OutUnit end)
  | LSetenv v => (mkLog (lg_env s) (lg_prog s) (lg_applied s) v, Ok OutUnit)
  end.

Definition linit (v : option string) : lstate := mkLog no_layer no_layer false v.
Fixpoint lrun (s : lstate) (h : list levent) : lstate :=
  match h with [] => s | ev :: h' => lrun (fst (lstep s ev)) h' end.

(** ** solve.cpp:48-63 [capture_solve_failure_enabled]; the argument is getenv's result. *)
Definition capture_enabled (v : option string) : bool :=
  match v with
  | None => false
  | Some raw =>
      let s := trim_lower raw in
      negb (String.eqb s "" || String.eqb s "0" || String.eqb s "false" ||
            String.eqb s "no" || String.eqb s "off")
  end.
