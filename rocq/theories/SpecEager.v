(** Vocabulary of C71: an eager system and a compiled segment that are the same model. *)
From Verif Require Import Base Tensor Float Newton Krylov KrylovSystem Pack Implicit SystemAoti Eager.

(** The compiled graphs take the parameters as inputs, the eager modules hold them. *)
Definition same_function (U : list group_info) (gs ps : groups) (graph module : groups -> result groups) : Prop :=
  forall u, length u = length U -> graph (u ++ gs ++ ps) = module (u ++ gs).
(** The shapes of the lists the modules return (es/implicit.py:432-452, 614-666). *)
Definition returns (n : nat) (f : groups -> result groups) : Prop := forall x l, f x = Ok l -> length l = n.

Definition same_operator (U : list group_info) (gs ps : groups) (mat matvec : groups -> result groups) : Prop :=
  forall u v, length u = length U -> length v = length U -> mat ((u ++ gs ++ ps) ++ v) = matvec (u ++ gs ++ v).
Definition same_preconditioner (U : list group_info) (gs ps : groups) (pre : option ((groups -> result groups) * (groups -> result groups)))
           (pc_setup : option (groups -> result groups)) (pc_apply : option (groups -> result (tensor F))) : Prop :=
  match pre, pc_setup with
  | None, None => True
  | Some (setup, apply), Some setup' =>
      same_function U gs ps setup setup' /\
      exists apply', pc_apply = Some apply' /\ forall state r, apply (state ++ [r]) = let* z := apply' (state ++ [r]) in Ok [z]
  | _, _ => False
  end.
(** The settings as numbers. *)
Definition newton_says (p : pnewton) (cfg : config) : Prop :=
  cf_atol cfg = pn_atol p /\ cf_rtol cfg = pn_rtol p /\ Z.of_nat (cf_miters cfg) = pn_miters p /\ cf_ls_type cfg = pn_ls_type p /\
  Z.of_nat (cf_ls_max_iters cfg) = pn_ls_max_iters p /\ cf_ls_cutback cfg = pn_ls_cutback p /\ cf_ls_c cfg = pn_ls_c p /\ cf_del_tol cfg = pn_del_tol p.
Definition method_name (m : method) : string := match m with GMRES => "gmres" | BiCGStab => "bicgstab" end.
Definition cache_name (c : cache_strategy) : string := match c with CacheNone => "none" | Chord => "chord" | MaxLinearIters => "max_its" end.
Definition krylov_says (q : pkrylov) (c : kconfig F) : Prop :=
  pk_method q = method_name (k_method c) /\ pk_cache q = cache_name (k_cache c) /\ pk_restart q = k_restart c /\ pk_max_its q = k_max_its c /\
  pk_abs_tol q = k_abs_tol c /\ pk_rel_tol q = k_rel_tol c /\ pk_cache_max_its q = k_cache_max_its c.
(** Integers the languages share. *)
Definition in_size (z : Z) : Prop := (0 <= z < 2 ^ 64)%Z.
Definition in_int64 (z : Z) : Prop := (- 2 ^ 63 <= z < 2 ^ 63)%Z.
Definition newton_fits (p : pnewton) : Prop := in_size (pn_miters p) /\ in_size (pn_ls_max_iters p).
Definition krylov_fits (q : pkrylov) : Prop := in_int64 (pk_restart q) /\ in_int64 (pk_max_its q) /\ in_int64 (pk_cache_max_its q).

(** The eager solver steps as the segment does. *)
Definition same_steps (rsum : list F -> F) (edot : list F -> list F -> F) (tri : list (list F) -> list F -> list F)
           (gs ps : groups) (U R : list group_info) (k : step_kind) (l : linear_solver) : Prop :=
  match k, l with
  | Direct jac sol, Assembled jacobian linear_solve =>
      same_function U gs ps jac jacobian /\ (forall x, sol x = linear_solve x) /\
      returns (length R * length U + length R) jacobian /\ returns (length U) linear_solve
  | MatrixFree rsum' edot' tri' kcfg mat pre, Iterative q matvec pc_setup pc_apply =>
      rsum' = rsum /\ edot' = edot /\ tri' = tri /\ krylov_says q kcfg /\ krylov_fits q /\
      same_operator U gs ps mat matvec /\ same_preconditioner U gs ps pre pc_setup pc_apply
  | _, _ => False
  end.
(** One model: the compiled segment with givens and parameters in groups, the eager modules. *)
Definition same_model rsum edot tri (s : solver_seg) (gs ps : groups) (rhs : groups -> result groups) (l : linear_solver) : Prop :=
  same_function (ss_unknown_groups s) gs ps (ss_residual_graph s) rhs /\ same_steps rsum edot tri gs ps (ss_unknown_groups s) (ss_residual_groups s) (ss_kind s) l.

(** The batch has a row. *)
Definition numel_lead (s : gsystem) (us : groups) : Prop := forall dyn, leading (gs_unknown s) us = Ok dyn -> 0 < numel dyn.
