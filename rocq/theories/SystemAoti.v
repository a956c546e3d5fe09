(** The nonlinear system of an implicit segment: nonlinear_system_aoti.cpp, nonlinear_system_krylov_aoti.cpp,
    solve.cpp (_make_implicit_system), and the Newton solver driven with group tensors.  Definitions only. *)
From Verif Require Import Base Tensor Float Newton Krylov KrylovSystem Pack Implicit.

Notation groups := (list (tensor F)).

(** nonlinear_system.h:60-90 NonlinearSystem, with the metadata of the groups (the layouts are its structure and
    sub-batch shape, solve.cpp:215-223).  What a step keeps for later ones is given by the points of the earlier
    steps of the same solve, the first argument of [gs_step]. *)
Record gsystem := mkGsys {
  gs_unknown : list group_info;
  gs_residual : list group_info;
  gs_res : groups -> result groups;
  gs_step : list groups -> groups -> result (groups * groups) }.
Definition layouts (l : list group_info) : list glayout := map (fun g => mkLayout (g_structure g) (g_sub g)) l.

Section Systems.
  Variable U R : list group_info.
  Variable gs ps : groups.               (* _g, _params *)
  Variable residual_graph : groups -> result groups.

  (** nonlinear_system_aoti.cpp:56-68 (nonlinear_system_krylov_aoti.cpp:49-61 is the same). *)
  Definition build_inputs (u : groups) : groups := u ++ gs ++ ps.

  (** nonlinear_system_aoti.cpp:38-105. *)
  Definition aoti_system (jacobian_graph solve_graph : groups -> result groups) : gsystem :=
    mkGsys U R
      (fun u => residual_graph (build_inputs u))
      (fun _ u =>
         let n_u := length U in
         let n_r := length R in
         let* jac := jacobian_graph (build_inputs u) in
         let* _ := assert_ (Nat.eqb (length jac) (n_r * n_u + n_r)) "AOTINonlinearSystem::step: jacobian loader returned" in
         let* du := solve_graph jac in
         let* _ := assert_ (Nat.eqb (length du) n_u) "AOTINonlinearSystem::step: solve loader returned" in
         Ok (du, skipn (length jac - n_r) jac)).

  (** nonlinear_system_krylov_aoti.cpp:30-118: the operations of the matrix-free system. *)
  Definition krylov_ops (kcfg : kconfig F) (matvec_graph : groups -> result groups)
             (precond : option ((groups -> result groups) * (groups -> result groups))) : ksystem F :=
    mkKsys (layouts U) (layouts R) kcfg
      (fun u => residual_graph (build_inputs u))
      (fun u v => matvec_graph (build_inputs u ++ v))
      (match precond with
       | None => None
       | Some (setup, apply) =>
           Some (fun u => setup (build_inputs u),
                 fun state r =>
                   let* outs := apply (state ++ [r]) in
                   match outs with [z] => Ok z | _ => Err (Fatal "KrylovAOTINonlinearSystem: precond apply must return one tensor") end)
       end).

  (** nonlinear_system_krylov.h:75-169: the cache is fresh when the system is made, and each step leaves one for
      the next. *)
  Definition cache_after (rsum : list F -> F) (edot : list F -> list F -> F) (tri : list (list F) -> list F -> list F)
             (k : ksystem F) (hist : list groups) : kstate F :=
    fold_left (fun st v => snd (fst (kstep binary64 rsum edot tri k v st))) hist fresh_state.
  Definition krylov_system (rsum : list F -> F) (edot : list F -> list F -> F) (tri : list (list F) -> list F -> list F)
             (k : ksystem F) : gsystem :=
    mkGsys U R (ks_res k) (fun hist u => fst (fst (kstep binary64 rsum edot tri k u (cache_after rsum edot tri k hist)))).
End Systems.

(** newton.cpp:84-88: the trailing axes of a group, and their sizes. *)
Definition trail_shape (g : group_info) : list nat :=
  (if is_block g then g_sub g else []) ++ [fold_right Nat.add 0 (map (segment_size g) (g_vars g))].

(** Group tensors over the batch [dyn] as the rows of Newton.v, and back.  What is no tensor of that shape raises. *)
Definition fits_group (dyn : list nat) (g : group_info) (t : tensor F) : bool :=
  shape_eqb (t_shape t) (dyn ++ trail_shape g) && Nat.eqb (length (t_data t)) (numel (t_shape t)).
Definition to_rows (G : list group_info) (dyn : list nat) (ts : groups) : result batch :=
  if Nat.eqb (length ts) (length G) && forallb (fun p => fits_group dyn (fst p) (snd p)) (combine G ts)
  then Ok (map (fun i => map (fun p => row_data (numel (trail_shape (fst p))) i (t_data (snd p))) (combine G ts)) (seq 0 (numel dyn)))
  else Err (StdExn "group tensor of the wrong shape").
Definition to_groups (G : list group_info) (dyn : list nat) (devs : list device) (u : batch) : groups :=
  map (fun p => mkT (dyn ++ trail_shape (fst (snd p)))
                    (flat_map (fun r => match nth_error r (fst p) with Some x => x | None => [] end) u) (snd (snd p)))
      (combine (seq 0 (length G)) (combine G devs)).

(** The system as the Newton iteration sees it. *)
Definition row_system (s : gsystem) (dyn : list nat) (devs : list device) : system :=
  mkSys (map (fun g => numel (trail_shape g)) (gs_unknown s)) (map (fun g => numel (trail_shape g)) (gs_residual s))
    (fun u => let* b := gs_res s (to_groups (gs_unknown s) dyn devs u) in to_rows (gs_residual s) dyn b)
    (fun hist u => let* (du, _) := gs_step s (map (to_groups (gs_unknown s) dyn devs) hist) (to_groups (gs_unknown s) dyn devs u) in to_rows (gs_unknown s) dyn du).

(** The dynamic batch axes: those before the first group's trailing ones. *)
Definition leading (G : list group_info) (ts : groups) : result (list nat) :=
  match G, ts with
  | g :: _, t :: _ =>
      let* _ := assert_ (Nat.leb (length (trail_shape g)) (dim t)) "group tensor ndim < trail ndim" in
      Ok (firstn (dim t - length (trail_shape g)) (t_shape t))
  | _, _ => Err (StdExn "undefined tensor")
  end.

(** newton.cpp:302-434, 436-537 with group tensors. *)
Definition newton_solve (fsum : list F -> F) (cfg : config) (s : gsystem) (us : groups) : result groups :=
  let* dyn := leading (gs_unknown s) us in
  let* u := to_rows (gs_unknown s) dyn us in
  let devs := map t_dev us in
  let* (u', _) := fst (solve fsum cfg (row_system s dyn devs) u) in
  Ok (to_groups (gs_unknown s) dyn devs u').
Definition newton_solve_masked (fsum : list F -> F) (cfg : config) (s : gsystem) (us : groups) : result (groups * list bool) :=
  let* dyn := leading (gs_unknown s) us in
  let* u := to_rows (gs_unknown s) dyn us in
  let devs := map t_dev us in
  let* (u', m, _) := fst (solve_masked fsum cfg (row_system s dyn devs) u) in
  Ok (to_groups (gs_unknown s) dyn devs u', m).

(** What makes the steps: compiled Jacobian and solve graphs, or Krylov iterations (with the reductions of
    Krylov.v). *)
Inductive step_kind :=
| Direct (jacobian_graph solve_graph : groups -> result groups)
| MatrixFree (rsum : list F -> F) (edot : list F -> list F -> F) (tri : list (list F) -> list F -> list F)
             (kcfg : kconfig F) (matvec_graph : groups -> result groups)
             (precond : option ((groups -> result groups) * (groups -> result groups))).

(** The parts of an implicit Segment (internal.h:260-360). *)
Record solver_seg := mkSseg {
  ss_givens : list given_info; ss_unknowns : list var_info;
  ss_given_groups : list group_info; ss_unknown_groups : list group_info; ss_residual_groups : list group_info;
  ss_params : list string; ss_predictor : option (predictor F);
  ss_residual_graph : groups -> result groups;
  ss_kind : step_kind }.

(** solve.cpp:211-251 [_make_implicit_system]. *)
Definition make_system (s : solver_seg) (gs ps : groups) : gsystem :=
  match ss_kind s with
  | Direct jac sol => aoti_system (ss_unknown_groups s) (ss_residual_groups s) gs ps (ss_residual_graph s) jac sol
  | MatrixFree rsum edot tri kcfg mat pre =>
      krylov_system (ss_unknown_groups s) (ss_residual_groups s) rsum edot tri
        (krylov_ops (ss_unknown_groups s) (ss_residual_groups s) gs ps (ss_residual_graph s) kcfg mat pre)
  end.

(** solve.cpp:380-411,458-465: the segment with its Newton solves. *)
Definition seg_of (fsum : list F -> F) (cfg : config) (s : solver_seg) : iseg F :=
  mkIseg (ss_givens s) (ss_unknowns s) (ss_given_groups s) (ss_unknown_groups s) (ss_params s) (ss_predictor s)
    (fun gs ps us => newton_solve fsum cfg (make_system s gs ps) us)
    (fun gs ps us => newton_solve_masked fsum cfg (make_system s gs ps) us).
