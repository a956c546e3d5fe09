(** aoti/newton.cpp with its console output and [collect_log].  Definitions only.

    Simplifications over [Newton]: none removed but that one.  A line of text is a [note] of the numbers in it; [say] is
    what [log::emit] does with it (a sink may throw), depending on what was emitted before in this solve; whether a level
    is enabled is asked once per solve, as in the code. *)
From Verif Require Import Base Float Newton Log.

Inductive reason := Both | AbsTol | RelTol | Mixed.
Inductive note :=
| NIter (i : nat) (r r0 : F)            (* newton.cpp:263-267, 343-347 *)
| NTrial (k : nat) (a r rc : F)         (* newton.cpp:236-242 *)
| NBegin | NEnd                         (* log.cpp:228-238 *)
| NPredictor (why : reason)             (* newton.cpp:359-362 *)
| NDiverged (i : nat)                   (* newton.cpp:380-382 *)
| NConverged (i : nat) (why : reason)   (* newton.cpp:395-398 *)
| NGaveUp (n : nat) (r r0 : F).         (* newton.cpp:414-417 *)

(** What a solve does, in order: calls of the system, emitted lines, collected lines. *)
Inductive event := ECall (c : call) | EEmit (l : level) (m : note) | EKeep (m : note).
Definition emitted (st : list event) : list (level * note) := flat_map (fun e => match e with EEmit l m => [(l, m)] | _ => [] end) st.
Definition kept (st : list event) : list note := flat_map (fun e => match e with EKeep m => [m] | _ => [] end) st.

Definition lio (A : Type) : Type := list event -> result A * list event.
Definition lret {A} (a : A) : lio A := fun st => (Ok a, st).
Definition lres {A} (r : result A) : lio A := fun st => (r, st).
Definition lbind {A B} (m : lio A) (f : A -> lio B) : lio B :=
  fun st => match m st with (Ok a, st') => f a st' | (Err e, st') => (Err e, st') end.
Definition lift {A} (x : io A) : lio A := fun st => (fst x, st ++ map ECall (snd x)).
Notation "'dol' x '<-' e1 'in' e2" := (lbind e1 (fun x => e2))
  (at level 200, x pattern, e1 at level 100, e2 at level 200, right associativity).

Section NewtonLog.
  Variable fsum : list F -> F.
  (** [max()] and [min()] of a tensor with entries; of one without they raise. *)
  Variables tmax tmin : list F -> F.
  Definition max_of (l : list F) : result F := match l with [] => Err (StdExn "max(): numel() == 0") | _ => Ok (tmax l) end.
  Definition min_of (l : list F) : result F := match l with [] => Err (StdExn "min(): numel() == 0") | _ => Ok (tmin l) end.
  Variable say : list (level * note) -> level -> note -> result unit.
  Variable is_on : level -> result bool.

  Definition put (l : level) (m : note) : lio unit := fun st => (say (emitted st) l m, st ++ [EEmit l m]).
  Definition keep (m : note) : lio unit := fun st => (Ok tt, st ++ [EKeep m]).
  Definition when (b : bool) (m : lio unit) : lio unit := if b then m else lret tt.
  (** newton.cpp:234-246, 261-271, 341-351 *)
  Definition trace (debug log : bool) (m : result note) : lio unit :=
    when (debug || log) (dol x <- lres m in dol _ <- when debug (put Debug x) in when log (keep x)).

  (** newton.cpp:207-251 *)
  Fixpoint line_search_l (cfg : config) (s : system) (debug log : bool) (u du : batch) (nb bd : list F)
           (more k : nat) (alpha : list F) : lio (batch * batch) :=
    let ut := trial alpha u du in
    dol bt <- lift (residual s ut) in
    let nt := norm_sq fsum bt in
    let crit := map2 (fun a p => criterion cfg a (fst p) (snd p)) alpha (combine nb bd) in
    dol _ <- trace debug log (let* a := min_of alpha in let* r := max_of (map fsqrt nt) in let* c := min_of (map fsqrt crit) in Ok (NTrial k a r c)) in
    let stop := map2 (fun q p => ls_stop cfg (fst q) (snd q) (fst p) (snd p)) (combine nt alpha) (combine nb bd) in
    if forallb (fun b => b) stop then lret (ut, bt)
    else match more with
         | 0 => lret (ut, bt)
         | S more' =>
             line_search_l cfg s debug log u du nb bd more' (S k)
               (map2 (fun (b : bool) a => if b then a else fdiv a (cf_ls_cutback cfg)) stop alpha)
         end.

  (** newton.cpp:169-274 *)
  Definition iterate_l (cfg : config) (s : system) (debug log : bool) (i : nat) (b0n : list F) (hist : list batch) (u b : batch)
             (frozen : option (list bool)) : lio (batch * batch) :=
    dol du0 <- lift (step s hist u) in
    let du := freeze frozen du0 in
    if negb (sizes_eqb (sy_rsizes s) (sy_usizes s)) then lres (Err (Fatal "pergroup_dot: vector size mismatch"))
    else
      let bd := map2 (row_dot fsum) b du in
      let nb := norm_sq fsum b in
      dol (u', b') <-
        (if cf_ls_max_iters cfg <=? 1
         then
           let ut := map2 (rows2 fadd) u du in
           dol bt <- lift (residual s ut) in
           lret (ut, bt)
         else line_search_l cfg s debug log u du nb bd (cf_ls_max_iters cfg - 2) 1 (map (fun _ => fone) u)) in
      dol _ <- trace debug log (let* r := max_of (norms fsum b') in let* r0 := max_of b0n in Ok (NIter i r r0)) in
      lret (u', b').

  (** newton.cpp:281-293 *)
  Definition why_converged (cfg : config) (bn b0n : list F) : reason :=
    let abs_all := forallb (fun x => flt x (cf_atol cfg)) bn in
    let rel_all := forallb (fun p => flt (fdiv (fst p) (snd p)) (cf_rtol cfg)) (combine bn b0n) in
    if abs_all && rel_all then Both else if abs_all then AbsTol else if rel_all then RelTol else Mixed.
  Definition closing (info : bool) (m : note) : lio unit := when info (dol _ <- put Info m in put Info NEnd).

  (** newton.cpp:370-433 *)
  Fixpoint solve_loop_l (cfg : config) (s : system) (debug info log : bool) (b0n : list F) (left i : nat) (hist : list batch) (u b : batch)
    : lio (batch * nat) :=
    match left with
    | 0 =>
        dol _ <- when info (dol m <- lres (let* r := max_of (norms fsum b) in let* r0 := max_of b0n in Ok (NGaveUp (cf_miters cfg) r r0)) in
                            dol _ <- put Info m in put Info NEnd) in
        lres (Err (Convergence "AOTI Newton failed to converge"))
    | S left' =>
        dol (u', b') <- iterate_l cfg s debug log i b0n hist u b None in
        match check_stop cfg (norms fsum b') b0n with
        | Diverged => dol _ <- closing info (NDiverged i) in lres (Err (Convergence "AOTI Newton diverged"))
        | Converged => dol _ <- closing info (NConverged i (why_converged cfg (norms fsum b') b0n)) in lret (u', i)
        | Continue => solve_loop_l cfg s debug info log b0n left' (S i) (hist ++ [u]) u' b'
        end
    end.

  (** newton.cpp:302-434; [log] is [collect_log].  Returns the iterate, the iteration count and the collected lines. *)
  Definition with_log {A} (m : lio A) : lio (A * list note) := fun st => match m st with (Ok a, st') => (Ok (a, kept st'), st') | (Err e, st') => (Err e, st') end.
  Definition solve_l (cfg : config) (log : bool) (s : system) (u0 : batch) : lio (batch * nat * list note) :=
    with_log (
    dol b <- lift (entry s u0) in
    let b0n := norms fsum b in
    dol debug <- lres (is_on Debug) in
    dol info <- lres (is_on Info) in
    dol _ <- when info (put Info NBegin) in
    dol _ <- trace debug log (let* r := max_of b0n in let* r0 := max_of b0n in Ok (NIter 0 r r0)) in
    if check_converged cfg b0n b0n
    then dol _ <- closing info (NPredictor (why_converged cfg b0n b0n)) in lret (u0, 0)
    else solve_loop_l cfg s debug info log b0n (cf_miters cfg - 1) 1 [] u0 b).

  (** newton.cpp:503-532 *)
  Fixpoint masked_loop_l (cfg : config) (s : system) (debug log : bool) (b0n : list F) (left i : nat)
           (frozen : option (list bool)) (conv : list bool) (hist : list batch) (u b : batch)
    : lio (batch * list bool * nat) :=
    match left with
    | 0 => lret (u, conv, i)
    | S left' =>
        dol (u', b') <- iterate_l cfg s debug log (S i) b0n hist u b frozen in
        let bn := norms fsum b' in
        let dun := norms fsum (map2 (rows2 fsub) u' u) in
        let un := norms fsum u' in
        let conv' := masked_converged cfg b0n bn dun un in
        let frozen' := or_mask frozen conv' in
        if forallb (fun b => b) (map2 (fun c x => c || negb (ffinite x)) conv' bn)
        then lret (u', conv', S i)
        else masked_loop_l cfg s debug log b0n left' (S i) (Some frozen') conv' (hist ++ [u]) u' b'
    end.

  (** newton.cpp:436-537: no line for the start, no banners. *)
  Definition solve_masked_l (cfg : config) (log : bool) (s : system) (u0 : batch) : lio (batch * list bool * nat * list note) :=
    with_log (
    dol b <- lift (entry s u0) in
    let b0n := norms fsum b in
    dol debug <- lres (is_on Debug) in
    let conv := map (fun x => flt x (cf_atol cfg)) b0n in
    if forallb (fun b => b) conv then lret (u0, conv, 0)
    else masked_loop_l cfg s debug log b0n (cf_miters cfg - 1) 0 None conv [] u0 b).
End NewtonLog.
