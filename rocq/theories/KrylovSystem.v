(** aoti/krylov_flatten.h, aoti/nonlinear_system_krylov.h and the dense Krylov solve of the sensitivities
    (aoti/krylov.h): group tensors to and from (rows, unknowns) matrices, the Newton step by a Krylov
    solve, the preconditioner cache.  Definitions only. *)
From Verif Require Import Base Tensor Newton Krylov Pack.
Local Open Scope string_scope.
Local Open Scope list_scope.

(** nonlinear_system.h GroupLayout *)
Record glayout := mkLayout { gl_structure : string; gl_sub : list nat }.

(** krylov_flatten.h:51-57 *)
Record flat_spec := mkSpec { fs_batch : list nat; fs_widths : list nat; fs_n : nat }.

Section Flatten.
  Context {V : Type}.

  (** krylov_flatten.h:61-73 *)
  Definition assert_all_dense (l : list glayout) : result unit :=
    assert_ (forallb (fun g => negb (String.eqb (gl_structure g) "block")) l)
            "iterative (Krylov) linear solver requires dense groups".

  (** krylov_flatten.h:95-104: one group. *)
  Definition flatten_group (bflat : nat) (g : tensor V) : result (nat * tensor V) :=
    let* _ := assert_ (Nat.leb 1 (dim g)) "flatten_dense: group tensor is a scalar" in
    let* f := reshape g [bflat; width g] in
    Ok (width g, f).

  (** krylov_flatten.h:77-109.  The batch prefix of a scalar first group is an invalid range. *)
  Definition flatten_dense (groups : list (tensor V)) (layout : list glayout) : result (tensor V * flat_spec) :=
    let* _ := assert_ (Nat.eqb (length groups) (length layout)) "flatten_dense: tensor count != group count" in
    let* _ := assert_all_dense layout in
    match groups with
    | [] => Err (Fatal "flatten_dense: no groups")
    | g0 :: _ =>
        if Nat.eqb (dim g0) 0 then Err (OtherExn 0)
        else
          let batch := removelast (t_shape g0) in
          let* wf := mapM (flatten_group (numel batch)) groups in
          let* f := cat_last (map snd wf) in
          Ok (f, mkSpec batch (map fst wf) (fold_right Nat.add 0 (map fst wf)))
    end.

  (** [flat.slice(1, o, o + w)] of a matrix: the columns there are. *)
  Definition slice_cols (t : tensor V) (o w : nat) : result (tensor V) :=
    match t_shape t with
    | [n; c] =>
        Ok (mkT [n; Nat.min w (c - o)]
                (flat_map (fun i => firstn w (skipn o (row_data c i (t_data t)))) (seq 0 n)) (t_dev t))
    | _ => Err (StdExn "slice: dimension out of range")
    end.

  (** krylov_flatten.h:113-128, from column [o] on. *)
  Fixpoint unflatten_from (flat : tensor V) (batch : list nat) (o : nat) (widths : list nat) : result (list (tensor V)) :=
    match widths with
    | [] => Ok []
    | w :: widths' =>
        let* piece := slice_cols flat o w in
        let* t := reshape piece (batch ++ [w]) in
        let* rest := unflatten_from flat batch (o + w) widths' in
        Ok (t :: rest)
    end.
  Definition unflatten_dense (flat : tensor V) (spec : flat_spec) : result (list (tensor V)) :=
    unflatten_from flat (fs_batch spec) 0 (fs_widths spec).

  (** A matrix as the list of its rows, and back ([krylov.h] works on (B, N) tensors; [b.size(1)] needs two axes). *)
  Definition rows_of (t : tensor V) : result (list (list V)) :=
    match t_shape t with
    | [n; c] => Ok (map (fun i => row_data c i (t_data t)) (seq 0 n))
    | _ => Err (StdExn "Dimension out of range")
    end.
  Definition of_rows (like : tensor V) (rows : list (list V)) : tensor V := mkT (t_shape like) (concat rows) (t_dev like).
End Flatten.

Section System.
  Context {V : Type}.
  Variable N : num V.
  Variable rsum : list V -> V.
  Variable edot : list V -> list V -> V.
  Variable tri : list (list V) -> list V -> list V.
  Notation groups := (list (tensor V)).

  (** The operations of a concrete system (nonlinear_system_krylov.h:174-190; compiled graphs in
      nonlinear_system_krylov_aoti.cpp).  [ks_precond]: setup and apply. *)
  Record ksystem := mkKsys {
    ks_unknown : list glayout;
    ks_residual : list glayout;
    ks_cfg : kconfig V;
    ks_res : groups -> result groups;
    ks_mat : groups -> groups -> result groups;
    ks_precond : option ((groups -> result groups) * (groups -> tensor V -> result (tensor V))) }.

  (** The cache (nonlinear_system_krylov.h:211-215). *)
  Record kstate := mkKst { st_precond : groups; st_ready : bool; st_last : Z }.
  Definition fresh_state : kstate := mkKst [] false 0.

  (** nonlinear_system_krylov.h:193-205 *)
  Definition needs_rebuild (cfg : kconfig V) (st : kstate) : bool :=
    match k_cache cfg with
    | CacheNone => true
    | Chord => negb (st_ready st)
    | MaxLinearIters => negb (st_ready st) || (k_cache_max_its cfg <? st_last st)%Z
    end.

  (** What a step calls: a residual, a preconditioner setup, a linear solve (with the preconditioner
      state it was given, its own calls and the iteration count it reported). *)
  Inductive sys_call :=
    | SResidual (u : groups)
    | SSetup (u : groups)
    | SSolve (precond : groups) (calls : list (kcall V)) (iters : result nat).

  (** nonlinear_system_krylov.h:103-109: the operator on (rows, unknowns) matrices.  [like] is the flat
      right-hand side: the Krylov vectors have its shape. *)
  Definition flat_matvec (s : ksystem) (u : groups) (uspec : flat_spec) (like : tensor V) (v : list (list V)) : result (list (list V)) :=
    let* vg := unflatten_dense (of_rows like v) uspec in
    let* jv := ks_mat s u vg in
    let* (f, _) := flatten_dense jv (ks_residual s) in
    rows_of f.
  (** nonlinear_system_krylov.h:117-127 *)
  Definition flat_minv (s : ksystem) (precond : groups) (like : tensor V) (r : list (list V)) : result (list (list V)) :=
    match ks_precond s with
    | None => Ok r
    | Some (_, apply) => let* z := apply precond (of_rows like r) in rows_of z
    end.

  Definition sret {A} (r : result A) (st : kstate) (l : list sys_call) : result A * kstate * list sys_call := (r, st, l).

  (** nonlinear_system_krylov.h:118-127: the cached setup. *)
  Definition refresh (s : ksystem) (u : groups) (st : kstate) : result kstate * list sys_call :=
    match ks_precond s with
    | None => (Ok st, [])
    | Some (setup, _) =>
        if needs_rebuild (ks_cfg s) st
        then (let* p := setup u in Ok (mkKst p true (st_last st)), [SSetup u])
        else (Ok st, [])
    end.

  (** nonlinear_system_krylov.h:75-169 [step]: the increment and the right-hand side, the new cache, the calls. *)
  Definition kstep (s : ksystem) (u : groups) (st : kstate) : result (groups * groups) * kstate * list sys_call :=
    let head :=
      let* _ := assert_all_dense (ks_unknown s) in
      let* _ := assert_all_dense (ks_residual s) in
      Ok tt in
    match head with
    | Err e => sret (Err e) st []
    | Ok _ =>
        let flats :=
          let* b := ks_res s u in
          let* (bf, bspec) := flatten_dense b (ks_residual s) in
          let* (_, uspec) := flatten_dense u (ks_unknown s) in
          let* rows := rows_of bf in
          Ok (b, bf, rows, mkSpec (fs_batch bspec) (fs_widths uspec) (fs_n uspec)) in
        match flats with
        | Err e => sret (Err e) st [SResidual u]
        | Ok (b, bf, rows, uspec) =>
            match refresh s u st with
            | (Err e, l) => sret (Err e) st (SResidual u :: l)
            | (Ok st1, l) =>
                let '(r, calls) := krylov_solve N rsum edot tri (flat_matvec s u uspec bf)
                                                (flat_minv s (st_precond st1) bf) rows (ks_cfg s) in
                match r with
                | Err e => sret (Err e) st1 (SResidual u :: l ++ [SSolve (st_precond st1) calls (Err e)])
                | Ok res =>
                    let st2 := mkKst (st_precond st1) (st_ready st1) (Z.of_nat (kr_iters res)) in
                    sret (let* du := unflatten_dense (of_rows bf (kr_du res)) uspec in Ok (du, b))
                         st2 (SResidual u :: l ++ [SSolve (st_precond st1) calls (Ok (kr_iters res))])
                end
            end
        end
    end.

  (** The steps of one Newton solve, at the points [us]: the system is made afresh for each solve
      (solve.cpp:211-251, 380-385). *)
  Fixpoint ksteps (s : ksystem) (us : list groups) (st : kstate) : list (result (groups * groups) * list sys_call) :=
    match us with
    | [] => []
    | u :: us' =>
        let '(r, st', l) := kstep s u st in
        (r, l) :: (if is_ok r then ksteps s us' st' else [])
    end.

  (** ** krylov.h:411-433 [krylov_solve_dense] *)
  (** [reshape({-1, trail...})]: the leading axis is inferred; ambiguous if the rest is empty. *)
  Definition infer (t : tensor V) (trail : list nat) : result nat :=
    if Nat.eqb (numel trail) 0 then Err (StdExn "reshape: unspecified dimension size -1 can be any value")
    else if Nat.eqb (numel (t_shape t) mod numel trail) 0 then Ok (numel (t_shape t) / numel trail)
    else Err (StdExn "reshape: shape is invalid for input").
  (** [matmul(A2, v.unsqueeze(-1)).squeeze(-1)]; [a] has the rows of one matrix after the other. *)
  Definition dense_row (n : nat) (a : list V) (v : list V) : list V :=
    map (fun i => edot (row_data n i a) v) (seq 0 n).
  Definition dense_matvec (n : nat) (a2 : list V) (rows : nat) (v : list (list V)) : result (list (list V)) :=
    if Nat.eqb (length v) rows
    then Ok (map (fun p => dense_row n (row_data (n * n) (fst p) a2) (snd p)) (combine (seq 0 rows) v))
    else Err (StdExn "matmul: shape mismatch").
  (** Column [j] of the (rows, N, M) tensor with elements [d]. *)
  Definition pick (n m rows j : nat) (d : list V) : list (list V) :=
    map (fun i => flat_map (fun r => row_data 1 j (row_data m r (row_data (n * m) i d))) (seq 0 n)) (seq 0 rows).
  (** [stack(cols, -1)]: element (i, r, j) is [cols_j(i, r)]. *)
  Definition stack_last (n rows : nat) (cols : list (list (list V))) : list V :=
    flat_map (fun i => flat_map (fun r => flat_map (fun c => row_data 1 r (match nth_error c i with Some x => x | None => [] end)) cols)
                                (seq 0 n)) (seq 0 rows).

  Definition krylov_solve_dense (cfg : kconfig V) (A B : tensor V) : result (tensor V) :=
    let n := width A in
    if Nat.eqb (dim A) 0 then Err (StdExn "Dimension out of range")
    else
      let* rows := infer A [n; n] in
      let solve b := fst (krylov_solve N rsum edot tri (dense_matvec n (t_data A) rows) (fun r => Ok r) b cfg) in
      if Nat.eqb (dim B) (dim A - 1)
      then
        let* br := infer B [n] in
        let* res := solve (map (fun i => row_data n i (t_data B)) (seq 0 br)) in
        Ok (mkT (t_shape B) (concat (kr_du res)) (t_dev B))
      else if Nat.eqb (dim B) 0 then Err (StdExn "Dimension out of range")
      else
        let m := width B in
        let* br := infer B [n; m] in
        let* cols := mapM (fun j => let* res := solve (pick n m br j (t_data B)) in Ok (kr_du res)) (seq 0 m) in
        Ok (mkT (t_shape B) (stack_last n br cols) (t_dev B)).
End System.
Arguments ksystem V : clear implicits.
Arguments kstate V : clear implicits.
