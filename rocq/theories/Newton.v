(** aoti/newton.cpp: the Newton solver.

    Representation.  The C++ keeps one tensor per group, its batch axes before its trailing axes.  Here a batch is
    the list of its rows (the dynamic batch axes flattened, row-major) and a row is the list of its
    groups, each the list of the entries along that group's trailing axes: the [group_trail]
    last axes that [pergroup_norm_sq], [pergroup_dot] and [alpha_for_group] reduce or
    broadcast over (newton.cpp:84-88,101-110,134-141,153-161).
    Simplifications:
    - all groups of a batch share the batch shape (no broadcasting between groups);
    - a system whose tensors have the wrong shape raises; torch would raise or broadcast;
    - console output and [collect_log] are left out, they do not feed back into the iteration;
    - [fsum] is the reduction [at::sum] performs over one row's entries: an arbitrary function, as
      torch does not fix the order; it is assumed to depend on that row's entries only. *)
From Verif Require Import Base Float.

Definition row := list (list F).
Definition batch := list row.

(** nonlinear_system.h:47-90 NonlinearSystem: [residual], the [du] part of [step] (the [b] part is
    unused, newton.cpp:181-182), and the sizes of the groups of either side.  A step may depend on what the system
    remembers (nonlinear_system_krylov.h:206-211): on the points at which it was asked for steps before, here its first
    argument. *)
Record system := mkSys {
  sy_usizes : list nat;
  sy_rsizes : list nat;
  sy_residual : batch -> result batch;
  sy_step : list batch -> batch -> result batch }.

(** Model.h SolverConfig *)
Record config := mkCfg {
  cf_atol : F; cf_rtol : F; cf_miters : nat;
  cf_ls_type : string; cf_ls_max_iters : nat; cf_ls_cutback : F; cf_ls_c : F;
  cf_del_tol : F }.

(** Calls into the system, in order: what the solver costs. *)
Inductive call := CResidual (u : batch) | CStep (u : batch).
Definition io (A : Type) : Type := result A * list call.
Definition ret {A} (a : A) : io A := (Ok a, []).
Definition throw {A} (e : exn) : io A := (Err e, []).
Definition iobind {A B} (x : io A) (f : A -> io B) : io B :=
  match x with
  | (Ok a, l) => let '(r, l') := f a in (r, l ++ l')
  | (Err e, l) => (Err e, l)
  end.
Notation "'do' x '<-' e1 'in' e2" := (iobind e1 (fun x => e2))
  (at level 200, x pattern, e1 at level 100, e2 at level 200, right associativity).

Definition sizes_eqb (a b : list nat) : bool := if list_eq_dec Nat.eq_dec a b then true else false.
Definition conforms (n : nat) (sizes : list nat) (x : batch) : bool :=
  (length x =? n) && forallb (fun r => sizes_eqb (map (@length F) r) sizes) x.

(** newton.cpp:180-187,203-206,217-219,320-326: call and check the group count. *)
Definition checked (n : nat) (sizes : list nat) (x : result batch) : result batch :=
  let* y := x in if conforms n sizes y then Ok y else Err (Fatal "Newton: wrong number of groups").
Definition residual (s : system) (u : batch) : io batch :=
  (checked (length u) (sy_rsizes s) (sy_residual s u), [CResidual u]).
Definition step (s : system) (hist : list batch) (u : batch) : io batch :=
  (checked (length u) (sy_usizes s) (sy_step s hist u), [CStep u]).

Definition map2 {A B C} (f : A -> B -> C) (a : list A) (b : list B) : list C :=
  map (fun p => f (fst p) (snd p)) (combine a b).
Definition rows2 (f : F -> F -> F) : row -> row -> row := map2 (map2 f).

Section Newton.
  Variable fsum : list F -> F.

  (** newton.cpp:93-118: groups are accumulated left to right, starting from the first one
      (a system without groups is refused in [entry]). *)
  Definition accumulate (l : list F) : F :=
    match l with [] => fzero | x :: l' => fold_left fadd l' x end.
  Definition row_norm_sq (r : row) : F :=
    accumulate (map (fun g => fsum (map (fun x => fmul x x) g)) r).
  Definition norm_sq (x : batch) : list F := map row_norm_sq x.
  Definition norms (x : batch) : list F := map (fun r => fsqrt (row_norm_sq r)) x.
  (** newton.cpp:123-149 *)
  Definition row_dot (a b : row) : F :=
    accumulate (map2 (fun g h => fsum (map2 fmul g h)) a b).

  (** newton.cpp:48-52 *)
  Definition row_converged (cfg : config) (bn b0 : F) : bool :=
    flt bn (cf_atol cfg) || flt (fdiv bn b0) (cf_rtol cfg).
  Definition check_converged (cfg : config) (bn b0 : list F) : bool :=
    forallb (fun p => row_converged cfg (fst p) (snd p)) (combine bn b0).

  (** newton.cpp:59-80 *)
  Inductive stop_status := Continue | Converged | Diverged.
  Definition check_stop (cfg : config) (bn b0 : list F) : stop_status :=
    if existsb (fun x => negb (ffinite x)) bn then Diverged
    else if check_converged cfg bn b0 then Converged else Continue.

  (** newton.cpp:208-214: the trial point [u + alpha * du] *)
  Definition trial (alpha : list F) (u du : batch) : batch :=
    map2 (fun a p => rows2 (fun x d => fadd x (fmul a d)) (fst p) (snd p)) alpha (combine u du).

  (** newton.cpp:221-226 *)
  Definition criterion (cfg : config) (alpha nb bd : F) : F :=
    if String.eqb (cf_ls_type cfg) "STRONG_WOLFE"
    then fmul (fsub fone (fmul (cf_ls_c cfg) alpha)) nb
    else fsub nb (fmul (fmul (fmul ftwo (cf_ls_c cfg)) alpha) bd).

  (** newton.cpp:246: per row, stop cutting back *)
  Definition ls_stop (cfg : config) (nt alpha nb bd : F) : bool :=
    fle nt (criterion cfg alpha nb bd) || fle nt (fmul (cf_atol cfg) (cf_atol cfg)).

  (** newton.cpp:207-251.  [more]: trials allowed after this one (the loop makes
      [ls_max_iters - 1 >= 1] trials). *)
  Fixpoint line_search (cfg : config) (s : system) (u du : batch) (nb bd : list F)
           (more : nat) (alpha : list F) : io (batch * batch) :=
    let ut := trial alpha u du in
    do bt <- residual s ut in
    let stop := map2 (fun q p => ls_stop cfg (fst q) (snd q) (fst p) (snd p))
                     (combine (norm_sq bt) alpha) (combine nb bd) in
    if forallb (fun b => b) stop then ret (ut, bt)
    else match more with
         | 0 => ret (ut, bt)
         | S more' =>
             line_search cfg s u du nb bd more'
               (map2 (fun (b : bool) a => if b then a else fdiv a (cf_ls_cutback cfg)) stop alpha)
         end.

  (** newton.cpp:192-197: the masked solve zeroes the step of frozen rows. *)
  Definition zero_row (r : row) : row := map (map (fun _ => fzero)) r.
  Definition freeze (frozen : option (list bool)) (du : batch) : batch :=
    match frozen with
    | None => du
    | Some m => map2 (fun (b : bool) r => if b then zero_row r else r) m du
    end.

  (** newton.cpp:169-274.  Returns the new iterate and its residual. *)
  Definition iterate (cfg : config) (s : system) (hist : list batch) (u b : batch) (frozen : option (list bool))
    : io (batch * batch) :=
    do du0 <- step s hist u in
    let du := freeze frozen du0 in
    (* newton.cpp:200 [pergroup_dot(b_outs, du, unknown_layout)]: evaluated in every iteration *)
    if negb (sizes_eqb (sy_rsizes s) (sy_usizes s)) then throw (Fatal "pergroup_dot: vector size mismatch")
    else
      let bd := map2 row_dot b du in
      let nb := norm_sq b in
      if cf_ls_max_iters cfg <=? 1
      then
        let ut := map2 (rows2 fadd) u du in
        do bt <- residual s ut in
        ret (ut, bt)
      else line_search cfg s u du nb bd (cf_ls_max_iters cfg - 2) (map (fun _ => fone) u).

  (** newton.cpp:302-330,436-466: common entry of both solves. *)
  Definition entry (s : system) (u0 : batch) : io batch :=
    if negb (conforms (length u0) (sy_usizes s) u0)
    then throw (Fatal "Newton::solve: u0 group count")
    else
      do b <- residual s u0 in
      match sy_rsizes s with
      | [] => throw (StdExn "undefined tensor")
      | _ => ret b
      end.

  (** newton.cpp:370-407: [left] iterations remain, [i] is the number of the next one. *)
  Fixpoint solve_loop (cfg : config) (s : system) (b0n : list F) (left i : nat) (hist : list batch) (u b : batch)
    : io (batch * nat) :=
    match left with
    | 0 => throw (Convergence "AOTI Newton failed to converge")
    | S left' =>
        do (u', b') <- iterate cfg s hist u b None in
        match check_stop cfg (norms b') b0n with
        | Diverged => throw (Convergence "AOTI Newton diverged")
        | Converged => ret (u', i)
        | Continue => solve_loop cfg s b0n left' (S i) (hist ++ [u]) u' b'
        end
    end.

  (** newton.cpp:302-434.  Returns the iterate and the iteration count. *)
  Definition solve (cfg : config) (s : system) (u0 : batch) : io (batch * nat) :=
    do b <- entry s u0 in
    let b0n := norms b in
    if check_converged cfg b0n b0n then ret (u0, 0)
    else solve_loop cfg s b0n (cf_miters cfg - 1) 1 [] u0 b.

  (** newton.cpp:489-495 *)
  Definition masked_row_converged (cfg : config) (b0 bn dun un : F) : bool :=
    flt bn (cf_atol cfg) ||
    (flt (fdiv bn b0) (cf_rtol cfg) && flt dun (fmul (cf_del_tol cfg) (fadd un (cf_atol cfg)))).
  Definition masked_converged (cfg : config) (b0n bn dun un : list F) : list bool :=
    map2 (fun p q => masked_row_converged cfg (fst p) (snd p) (fst q) (snd q))
         (combine b0n bn) (combine dun un).

  Definition or_mask (f : option (list bool)) (m : list bool) : list bool :=
    match f with None => m | Some f' => map2 orb f' m end.

  (** newton.cpp:503-532.  [left] iterations remain; [i] were done; [conv] is the mask so far. *)
  Fixpoint masked_loop (cfg : config) (s : system) (b0n : list F) (left i : nat)
           (frozen : option (list bool)) (conv : list bool) (hist : list batch) (u b : batch)
    : io (batch * list bool * nat) :=
    match left with
    | 0 => ret (u, conv, i)
    | S left' =>
        do (u', b') <- iterate cfg s hist u b frozen in
        let bn := norms b' in
        let dun := norms (map2 (rows2 fsub) u' u) in
        let un := norms u' in
        let conv' := masked_converged cfg b0n bn dun un in
        let frozen' := or_mask frozen conv' in
        if forallb (fun b => b) (map2 (fun c x => c || negb (ffinite x)) conv' bn)
        then ret (u', conv', S i)
        else masked_loop cfg s b0n left' (S i) (Some frozen') conv' (hist ++ [u]) u' b'
    end.

  (** newton.cpp:436-537.  Returns the iterate, the mask and the iteration count. *)
  Definition solve_masked (cfg : config) (s : system) (u0 : batch) : io (batch * list bool * nat) :=
    do b <- entry s u0 in
    let b0n := norms b in
    let conv := map (fun x => flt x (cf_atol cfg)) b0n in
    if forallb (fun b => b) conv then ret (u0, conv, 0)
    else masked_loop cfg s b0n (cf_miters cfg - 1) 0 None conv [] u0 b.
End Newton.
