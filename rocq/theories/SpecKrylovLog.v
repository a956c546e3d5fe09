(** Vocabulary for the log of a linear solve (C75). *)
From Verif Require Import Base Newton Krylov SpecKrylov KrylovLog Log.

(** Nothing the sink does reaches the caller. *)
Definition accepts {V} (say : list (level * klog_note V) -> level -> klog_note V -> result unit) : Prop :=
  forall before l m, say before l m = Ok tt.
(** The last of the events, begun after [w], is a line the sink raised on. *)
Definition cut_short {V} (say : list (level * klog_note V) -> level -> klog_note V -> result unit)
    (w ev : list (kevent V)) (e : exn) : Prop :=
  exists before l m, ev = before ++ [KLine l m] /\ say (lines_in (w ++ before)) l m = Err e.
Definition begins {X} (a l : list X) : Prop := exists rest, l = a ++ rest.

(** The iterations the lines are about. *)
Definition iterations {V} (l : list (level * klog_note V)) : list nat :=
  flat_map (fun p => match snd p with NIter it _ _ => [it] | _ => [] end) l.
(** The same solve with a budget of [k] iterations; and with one cycle of [k] (GMRES rounds a budget up to whole cycles). *)
Definition with_budget {V} (cfg : kconfig V) (k : nat) : kconfig V :=
  mkKcfg (k_method cfg) (k_cache cfg) (k_restart cfg) (Z.of_nat k) (k_abs_tol cfg) (k_rel_tol cfg) (k_cache_max_its cfg).
Definition with_cycle {V} (cfg : kconfig V) (k : nat) : kconfig V :=
  mkKcfg (k_method cfg) (k_cache cfg) (Z.of_nat k) 1 (k_abs_tol cfg) (k_rel_tol cfg) (k_cache_max_its cfg).

(** The largest of some numbers is below [t] only if they all are. *)
Definition bounds_all {V} (N : num V) (vmax : list V -> V) : Prop :=
  forall l t x, n_lt N (vmax l) t = true -> In x l -> n_lt N x t = true.
(** The norms of the right-hand sides, floored. *)
Definition floored {V} (N : num V) (rsum : list V -> V) (b : list (list V)) : list V :=
  map (fun r => if n_lt N (norm N rsum r) (n_eps N) then n_eps N else norm N rsum r) b.
(** The line about iteration [i] says that the residual norms are [es]. *)
Definition line_says {V} (N : num V) (rsum vmax : list V -> V) (b : list (list V)) (i : nat) (es : list V) : level * klog_note V :=
  (Debug, NIter i (vmax es) (vmax (map2 (n_div N) es (floored N rsum b)))).
(** Row by row, the norm of [b - A x]. *)
Definition residual_norms {V} (N : num V) (rsum : list V -> V) (As : list (list V -> list V)) (b x : list (list V)) : list V :=
  map2 (fun q xi => norm N rsum (residual_of N (fst q) (snd q) xi)) (combine As b) x.
(** Each row has its own operator. *)
Definition all_rows {V} (As : list (list V -> list V)) (f : list (list V) -> result (list (list V))) : Prop :=
  forall i A, nth_error As i = Some A -> acts_on i A f.

(** The summary of a solve: how many rows failed, or, if asked, that none did. *)
Definition sums_up {V} (info : bool) (res : kresult V) (l : list (level * klog_note V)) : Prop :=
  (In false (kr_converged res) ->
     l = [(Warning, NNotConverged (kr_iters res) (count_occ Bool.bool_dec (kr_converged res) false))]) /\
  (~ In false (kr_converged res) -> l = if info then [(Info, NConverged (kr_iters res))] else []).
