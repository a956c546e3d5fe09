(** Vocabulary of the property of the Newton steps of an implicit segment (C66). *)
From Verif Require Import Base Tensor Float Newton SpecNewton Pack SpecPack Krylov SpecKrylov KrylovSystem SpecKrylovSystem SpecKrylovStep
     Implicit SystemAoti SpecSolved.

Definition on_batch (G : list group_info) (dyn : list nat) (ts : list (tensor F)) : Prop :=
  Forall2 (fun g t => exists d, group_tensor g dyn d t) G ts.
Definition widths (G : list group_info) : list nat := map (fun g => width_of g (g_vars g)) G.

(** The matrix whose rows are what the groups hold in the rows of the batch. *)
Definition sheet_of (dyn : list nat) (ts : list (tensor F)) : list (list F) := map (fun i => row_entries i ts) (seq 0 (numel dyn)).

(** On matrices, [op] does what the graph [f] does on groups over the batch [dyn]. *)
Definition stands_for (dyn : list nat) (d : device) (ins outs : list nat) (f : list (tensor F) -> result (list (tensor F)))
           (op : list (list F) -> result (list (list F))) : Prop :=
  forall x y, op x = Ok y ->
    exists v w, dense_groups dyn d v ins /\ sheet_of dyn v = x /\ f v = Ok w /\ dense_groups dyn d w outs /\ sheet_of dyn w = y.

(** [mi] is the preconditioner of a solve at [u]: none, or the one the policy prescribes after the steps at [points], whose
    linear solves took [its] iterations. *)
Definition preconditions (kcfg : kconfig F) (pre : option ((list (tensor F) -> result (list (tensor F))) * (list (tensor F) -> result (list (tensor F)))))
           (dyn : list nat) (d : device) (n : nat) (gs ps : list (tensor F)) (points : list (list (tensor F))) (its : list Z) (u : list (tensor F))
           (mi : list (list F) -> result (list (list F))) : Prop :=
  match pre with
  | None => forall x y, mi x = Ok y -> y = x
  | Some (setup, apply) =>
      exists j v state, last_rebuilt (k_cache kcfg) (k_cache_max_its kcfg) its (length points) j /\
        nth_error (points ++ [u]) j = Some v /\ setup (v ++ gs ++ ps) = Ok state /\
        stands_for [numel dyn] d [n] [n] (fun r => apply (state ++ r)) mi
  end.

(** [du] is the increment of the segment at [u]: from the segment's Jacobian there, or from a Krylov solve with the segment's
    residual there as right-hand side and its Jacobian action there as operator. *)
Definition increment (s : solver_seg) (dyn : list nat) (d : device) (gs ps : list (tensor F)) (points : list (list (tensor F))) (its : list Z)
           (u du : list (tensor F)) (k : Z) : Prop :=
  let nu := length (ss_unknown_groups s) in
  let nr := length (ss_residual_groups s) in
  match ss_kind s with
  | Direct jac sol => exists J, jac (u ++ gs ++ ps) = Ok J /\ length J = nr * nu + nr /\ sol J = Ok du /\ k = 0%Z
  | MatrixFree rsum edot tri kcfg mat pre =>
      exists b op mi res calls,
        ss_residual_graph s (u ++ gs ++ ps) = Ok b /\ dense_groups dyn d b (widths (ss_residual_groups s)) /\
        krylov_solve binary64 rsum edot tri op mi (sheet_of dyn b) kcfg = (Ok res, calls) /\
        stands_for dyn d (widths (ss_unknown_groups s)) (widths (ss_residual_groups s)) (fun v => mat (u ++ gs ++ ps ++ v)) op /\
        preconditions kcfg pre dyn d (sum_of (widths (ss_unknown_groups s))) gs ps points its u mi /\
        sheet_of dyn du = kr_du res /\ k = Z.of_nat (kr_iters res)
  end.

(** Newton's iteration from the guess [us0]: every row moves along its own increment, except that the rows [stop] holds
    of, after the points so far, stay where they are (they move by zero).  The points and their linear iteration counts are
    collected. *)
Definition stay (r : row) : row := map (map (fun _ => fzero)) r.
Inductive newton_path (cfg : config) (s : solver_seg) (stop : list (list (tensor F)) -> nat -> Prop) (dyn : list nat) (d : device)
          (gs ps us0 : list (tensor F)) : list (list (tensor F)) -> list Z -> list (tensor F) -> Prop :=
| path_guess : newton_path cfg s stop dyn d gs ps us0 [] [] us0
| path_next points its u du k u' :
    newton_path cfg s stop dyn d gs ps us0 points its u ->
    increment s dyn d gs ps points its u du k ->
    on_batch (ss_unknown_groups s) dyn du -> on_batch (ss_unknown_groups s) dyn u' -> map t_dev u' = map t_dev u ->
    (forall i, i < numel dyn ->
       let at_ := batch_row (ss_unknown_groups s) i in
       (~ stop (points ++ [u]) i -> advanced cfg (at_ u) (at_ du) (at_ u')) /\
       (stop (points ++ [u]) i -> advanced cfg (at_ u) (stay (at_ du)) (at_ u'))) ->
    newton_path cfg s stop dyn d gs ps us0 (points ++ [u]) (its ++ [k]) u'.

(** Row [i] met the tolerances after one of the steps. *)
Definition settled (fsum : list F -> F) (cfg : config) (s : solver_seg) (gs ps r0 : list (tensor F)) (points : list (list (tensor F))) (i : nat) : Prop :=
  exists j v v' r, nth_error points j = Some v /\ nth_error points (S j) = Some v' /\
    ss_residual_graph s (v' ++ gs ++ ps) = Ok r /\
    let at_ := batch_row (ss_unknown_groups s) i in
    meets_masked_tol cfg (rnorm fsum (batch_row (ss_residual_groups s) i r)) (rnorm fsum (batch_row (ss_residual_groups s) i r0))
      (rnorm fsum (diff_row (at_ v') (at_ v))) (rnorm fsum (at_ v')).

(** The graphs of a matrix-free segment answer on the device [d], in the shapes of the metadata. *)
Definition faithful (s : solver_seg) (d : device) : Prop :=
  match ss_kind s with
  | Direct _ _ => True
  | MatrixFree _ _ _ kcfg mat pre =>
      forall dyn u gs ps, on_batch (ss_unknown_groups s) dyn u ->
        (forall b, ss_residual_graph s (u ++ gs ++ ps) = Ok b -> Forall (fun t => t_dev t = d) b) /\
        (forall v w, dense_groups dyn d v (widths (ss_unknown_groups s)) -> mat (u ++ gs ++ ps ++ v) = Ok w ->
           dense_groups dyn d w (widths (ss_residual_groups s))) /\
        match pre with
        | None => True
        | Some (setup, apply) =>
            let n := sum_of (widths (ss_unknown_groups s)) in
            forall state r z, setup (u ++ gs ++ ps) = Ok state -> dense_groups [numel dyn] d [r] [n] -> apply (state ++ [r]) = Ok [z] ->
              dense_groups [numel dyn] d [z] [n]
        end
  end.
