(** The eager route into the Newton and Krylov solvers: aoti/nonlinear_system_eager.cpp, its bindings (aoti/_aoti.cpp:353-609)
    and their Python callers (solvers/newton.py:149-359, es/implicit.py:312-358, solvers/_krylov.py:98-123).  Definitions only.

    A module is the function it computes from raw tensors; it holds its parameters itself.  Simplifications: [torch.no_grad],
    the copying of tensors between the languages and the GIL (C64, C67) are left out; the widths of the groups, which the C++
    takes from the tensors, are those of the system's layout, and tensors that do not fit raise (SystemAoti.v). *)
From Verif Require Import Base Tensor Float Newton Log NewtonLog Krylov KrylovSystem Pack Implicit SystemAoti.
Local Open Scope string_scope.
Local Open Scope list_scope.

(** ** What crosses the boundary *)
(** A Python object: a tensor, a sequence (list or tuple), None, anything else. *)
Inductive pyval := PyT (t : tensor F) | PySeq (l : list pyval) | PyNone | PyObj.
(** pybind11 casts (stl.h; torch/csrc/utils/pybind.h): [cast<at::Tensor>], [cast<std::vector<at::Tensor>>] and
    [cast<std::pair<...>>], which throw a cast_error on anything else. *)
Definition cast_tensor (v : pyval) : result (tensor F) := match v with PyT t => Ok t | _ => Err (StdExn "cast_error") end.
Definition cast_list (v : pyval) : result groups := match v with PySeq l => mapM cast_tensor l | _ => Err (StdExn "cast_error") end.
Definition cast_pair (v : pyval) : result (groups * groups) :=
  match v with PySeq [a; b] => let* x := cast_list a in let* y := cast_list b in Ok (x, y) | _ => Err (StdExn "cast_error") end.
(** Integer arguments: [std::size_t] and [int64_t].  Others are refused with a TypeError before the call. *)
Definition type_error : exn := StdExn "TypeError: incompatible function arguments".
Definition as_size (z : Z) : result nat := if ((0 <=? z) && (z <? 2 ^ 64))%Z then Ok (Z.to_nat z) else Err type_error.
Definition as_int64 (z : Z) : result Z := if ((- 2 ^ 63 <=? z) && (z <? 2 ^ 63))%Z then Ok z else Err type_error.
(** A callable that raises: [Err]. *)
Definition py_list (l : groups) : pyval := PySeq (map PyT l).

(** ** nonlinear_system_eager.cpp *)
(** nonlinear_system_eager.cpp:40-76 *)
Definition eager_system (residual_fn step_fn : groups -> result pyval) (U R : list group_info) : gsystem :=
  mkGsys U R (fun u => let* v := residual_fn u in cast_list v) (fun _ u => let* v := step_fn u in cast_pair v).
(** nonlinear_system_eager.cpp:97-142.  [has_preconditioner] asks for the setup only; calling None raises. *)
Definition krylov_eager_ops (residual_fn : groups -> result pyval) (matvec_fn : groups -> groups -> result pyval)
           (setup_fn : option (groups -> result pyval)) (apply_fn : option (groups -> tensor F -> result pyval))
           (U R : list group_info) (kcfg : kconfig F) : ksystem F :=
  mkKsys (layouts U) (layouts R) kcfg
    (fun u => let* v := residual_fn u in cast_list v)
    (fun u w => let* v := matvec_fn u w in cast_list v)
    (match setup_fn with
     | None => None
     | Some setup =>
         Some (fun u => let* v := setup u in cast_list v,
               fun state r => match apply_fn with
                              | None => Err (StdExn "TypeError: 'NoneType' object is not callable")
                              | Some apply => let* v := apply state r in cast_tensor v
                              end)
     end).

(** The keyword arguments of the Newton entry points (_aoti.cpp:363-371), of the Krylov ones (_aoti.cpp:489-498). *)
Record pnewton := mkPN { pn_atol : F; pn_rtol : F; pn_miters : Z; pn_ls_type : string; pn_ls_max_iters : Z; pn_ls_cutback : F; pn_ls_c : F; pn_del_tol : F }.
Record pkrylov := mkPK { pk_method : string; pk_restart : Z; pk_max_its : Z; pk_abs_tol : F; pk_rel_tol : F; pk_cache : string; pk_cache_max_its : Z }.
(** newton.py:116-129, solvers/_krylov.py:50-97: the linear solver of an eager Newton with its modules (es/implicit.py): assembled, or matrix-free with its settings and its preconditioner's modules. *)
Inductive linear_solver :=
| Assembled (jacobian linear_solve : groups -> result groups)
| Iterative (q : pkrylov) (matvec : groups -> result groups) (pc_setup : option (groups -> result groups)) (pc_apply : option (groups -> result (tensor F))).

Section Eager.
  Variable fsum : list F -> F.
  Variables tmax tmin : list F -> F.
  Variable say : list (level * note) -> level -> note -> result unit.
  Variable is_on : level -> result bool.
  Variable rsum : list F -> F.
  Variable edot : list F -> list F -> F.
  Variable tri : list (list F) -> list F -> list F.

  (** Newton(cfg).solve(sys, u0) on group tensors, with what it writes (NewtonLog.v); [log]: [cfg.collect_log]. *)
  Definition run_newton (cfg : config) (log : bool) (s : gsystem) (us : groups) : result (groups * nat * list note) :=
    let* dyn := leading (gs_unknown s) us in
    let* u := to_rows (gs_unknown s) dyn us in
    let devs := map t_dev us in
    let* (u', k, notes) := fst (solve_l fsum tmax tmin say is_on cfg log (row_system s dyn devs) u []) in
    Ok (to_groups (gs_unknown s) dyn devs u', k, notes).
  Definition run_newton_masked (cfg : config) (log : bool) (s : gsystem) (us : groups) : result (groups * list bool * nat) :=
    let* dyn := leading (gs_unknown s) us in
    let* u := to_rows (gs_unknown s) dyn us in
    let devs := map t_dev us in
    let* (u', m, k, _) := fst (solve_masked_l fsum tmax tmin say is_on cfg log (row_system s dyn devs) u []) in
    Ok (to_groups (gs_unknown s) dyn devs u', m, k).

  (** nonlinear_system_eager.cpp:145-199.  A solve that returns has converged (newton.cpp:363,393). *)
  Definition run_eager_newton (cfg : config) (log : bool) (residual_fn step_fn : groups -> result pyval) (U R : list group_info) (u0 : groups)
    : result (groups * bool * nat * list note) :=
    let* (u, k, notes) := run_newton cfg log (eager_system residual_fn step_fn U R) u0 in Ok (u, true, k, notes).
  Definition run_eager_newton_masked (cfg : config) (log : bool) (residual_fn step_fn : groups -> result pyval) (U R : list group_info) (u0 : groups)
    : result (groups * list bool * nat) := run_newton_masked cfg log (eager_system residual_fn step_fn U R) u0.
  Definition run_eager_krylov (ncfg : config) (log : bool) (kcfg : kconfig F) (residual_fn : groups -> result pyval) (matvec_fn : groups -> groups -> result pyval)
             (setup_fn : option (groups -> result pyval)) (apply_fn : option (groups -> tensor F -> result pyval)) (U R : list group_info) (u0 : groups)
    : result (groups * bool * nat * list note) :=
    let* (u, k, notes) := run_newton ncfg log (krylov_system U R rsum edot tri (krylov_eager_ops residual_fn matvec_fn setup_fn apply_fn U R kcfg)) u0 in
    Ok (u, true, k, notes).

  (** ** _aoti.cpp *)
  (** _aoti.cpp:375-384 *)
  Definition newton_args (p : pnewton) : result config :=
    let* miters := as_size (pn_miters p) in
    let* ls := as_size (pn_ls_max_iters p) in
    Ok (mkCfg (pn_atol p) (pn_rtol p) miters (pn_ls_type p) ls (pn_ls_cutback p) (pn_ls_c p) (pn_del_tol p)).
  (** _aoti.cpp:503-521 *)
  Definition krylov_args (p : pkrylov) : result (kconfig F) :=
    let* restart := as_int64 (pk_restart p) in
    let* max_its := as_int64 (pk_max_its p) in
    let* bar := as_int64 (pk_cache_max_its p) in
    match parse_method (pk_method p) with
    | None => Err (Fatal "krylov_solve_eager: unknown method")
    | Some m =>
        match parse_cache (pk_cache p) with
        | None => Err (Fatal "krylov_solve_eager: unknown cache_strategy")
        | Some c => Ok (mkKcfg m c restart max_its (pk_abs_tol p) (pk_rel_tol p) bar)
        end
    end.
  (** _aoti.cpp:357-391 *)
  Definition newton_solve_eager (residual_fn step_fn : groups -> result pyval) (U R : list group_info) (u0 : groups) (p : pnewton) (collect_log : bool)
    : result (groups * bool * nat * list note) :=
    let* cfg := newton_args p in run_eager_newton cfg collect_log residual_fn step_fn U R u0.
  (** _aoti.cpp:422-453: [collect_log] stays at its default. *)
  Definition newton_solve_eager_masked (residual_fn step_fn : groups -> result pyval) (U R : list group_info) (u0 : groups) (p : pnewton)
    : result (groups * list bool * nat) :=
    let* cfg := newton_args p in run_eager_newton_masked cfg false residual_fn step_fn U R u0.
  (** _aoti.cpp:474-532 *)
  Definition krylov_solve_eager (residual_fn : groups -> result pyval) (matvec_fn : groups -> groups -> result pyval)
             (setup_fn : option (groups -> result pyval)) (apply_fn : option (groups -> tensor F -> result pyval)) (U R : list group_info) (u0 : groups)
             (p : pnewton) (collect_log : bool) (q : pkrylov) : result (groups * bool * nat * list note) :=
    let* cfg := newton_args p in
    let* kcfg := krylov_args q in
    run_eager_krylov cfg collect_log kcfg residual_fn matvec_fn setup_fn apply_fn U R u0.
  (** _aoti.cpp:577-603.  Only the increment is returned; the cache keeps its default (there is none to keep). *)
  Definition krylov_solve_linear (matvec_fn : tensor F -> result pyval) (b : tensor F) (method : string) (restart max_its : Z) (abs_tol rel_tol : F) : result (tensor F) :=
    let* cfg := krylov_args (mkPK method restart max_its abs_tol rel_tol "none" 10) in
    let* rows := rows_of b in
    let* res := fst (krylov_solve binary64 rsum edot tri
                       (fun v => let* y := matvec_fn (of_rows b v) in let* t := cast_tensor y in rows_of t)
                       (fun r => Ok r) rows cfg) in
    Ok (of_rows b (kr_du res)).

  (** ** Python *)
  Section Modules.
    (** RHS(system), the groups of the system's layouts, its givens and its unknowns *)
    Variable rhs : groups -> result groups.
    Variables U R : list group_info.
    Variables g u0 : groups.
    Definition residual_fn (u : groups) : result pyval := let* b := rhs (u ++ g) in Ok (py_list b).

    Section Dense.
      (** Jacobian(system), LinearSolve(system, linear_solver) *)
      Variable jacobian linear_solve : groups -> result groups.
      (** newton.py:200-210 *)
      Definition step_fn (u : groups) : result pyval :=
        let n_a := length R * length U in
        let* jac_out := jacobian (u ++ g) in
        let* du := linear_solve jac_out in
        Ok (PySeq [py_list du; py_list (skipn n_a jac_out)]).
      (** newton.py:149-229: the unknowns left in the system, whether the return code is SUCCESS, the iterations. *)
      Definition py_solve (p : pnewton) : result (groups * bool * nat) :=
        let* (u, ok, k, _) := newton_solve_eager residual_fn step_fn U R u0 p false in Ok (u, ok, k).
      (** newton.py:231-282 *)
      Definition py_solve_masked (p : pnewton) : result (groups * list bool * nat) :=
        newton_solve_eager_masked residual_fn step_fn U R u0 p.
    End Dense.

    Section Matrix_free.
      (** Matvec(system), the modules of the preconditioner *)
      Variable matvec : groups -> result groups.
      Variable pc_setup : option (groups -> result groups).
      Variable pc_apply : option (groups -> result (tensor F)).
      (** newton.py:316-334 *)
      Definition matvec_fn (u v : groups) : result pyval := let* y := matvec (u ++ g ++ v) in Ok (py_list y).
      Definition precond_setup_fn (u : groups) : result pyval :=
        match pc_setup with None => Err (StdExn "AssertionError") | Some f => let* y := f (u ++ g) in Ok (py_list y) end.
      Definition precond_apply_fn (state : groups) (r : tensor F) : result pyval :=
        match pc_apply with None => Err (StdExn "AssertionError") | Some f => let* z := f (state ++ [r]) in Ok (PyT z) end.
      (** newton.py:284-355 *)
      Definition py_solve_iterative (p : pnewton) (q : pkrylov) : result (groups * bool * nat) :=
        let given {A} (f : A) : option A := match pc_setup with Some _ => Some f | None => None end in
        let* (u, ok, k, _) := krylov_solve_eager residual_fn matvec_fn (given precond_setup_fn) (given precond_apply_fn) U R u0 p false q in
        Ok (u, ok, k).
    End Matrix_free.

    (** newton.py:166-167 *)
    Definition py_newton (l : linear_solver) (p : pnewton) : result (groups * bool * nat) :=
      match l with
      | Assembled jacobian linear_solve => py_solve jacobian linear_solve p
      | Iterative q matvec pc_setup pc_apply => py_solve_iterative matvec pc_setup pc_apply p q
      end.
  End Modules.

  (** es/implicit.py:312-358: the linear solves of the derivatives. *)
  Definition raw_matvec (n : nat) (A v : tensor F) : result pyval :=
    let* rows := infer A [n; n] in
    let* x := rows_of v in
    let* y := dense_matvec edot n (t_data A) rows x in
    Ok (PyT (of_rows v y)).
  Definition krylov_solve_raw (A b : tensor F) (method : string) (restart max_its : Z) (abs_tol rel_tol : F) : result (tensor F) :=
    let n := width A in
    if Nat.eqb (dim A) 0 then Err (StdExn "IndexError: tuple index out of range")
    else
      let* _ := infer A [n; n] in
      let one (rhs : tensor F) := krylov_solve_linear (raw_matvec n A) rhs method restart max_its abs_tol rel_tol in
      if Nat.eqb (dim b) (dim A - 1)
      then
        let* br := infer b [n] in
        let* x := one (mkT [br; n] (t_data b) (t_dev b)) in
        Ok (mkT (t_shape b) (t_data x) (t_dev x))
      else if Nat.eqb (dim b) 0 then Err (StdExn "IndexError: tuple index out of range")
      else
        let m := width b in
        let* br := infer b [n; m] in
        let* cols := mapM (fun j => let* x := one (mkT [br; n] (concat (pick n m br j (t_data b))) (t_dev b)) in rows_of x) (seq 0 m) in
        Ok (mkT (t_shape b) (stack_last n br cols) (t_dev b)).
End Eager.
