(** Vocabulary of the properties of solved segments (C57). *)
From Verif Require Import Base Tensor Spec Float Newton SpecNewton Broadcast Pack SpecPack Implicit Jac JacModel SystemAoti.

(** The entries of a group tensor in row [i] of its batch. *)
Definition group_row (g : group_info) (i : nat) (t : tensor F) : list F :=
  let k := numel (axes g []) * width_of g (g_vars g) in firstn k (skipn (i * k) (t_data t)).
Definition batch_row (G : list group_info) (i : nat) (ts : list (tensor F)) : row :=
  map (fun p => group_row (fst p) i (snd p)) (combine G ts).

(** Every row of the residual [r] meets the tolerances, relative to the residual [r0], and is finite. *)
Definition balanced (fsum : list F -> F) (cfg : config) (R : list group_info) (dyn : list nat) (r0 r : list (tensor F)) : Prop :=
  forall i, i < numel dyn ->
    meets_tol cfg (rnorm fsum (batch_row R i r)) (rnorm fsum (batch_row R i r0)) /\ ffinite (rnorm fsum (batch_row R i r)) = true.

(** The rows of the residual marked [true] meet the tolerances and are no NaN. *)
Definition marked_balanced (fsum : list F -> F) (cfg : config) (R : list group_info) (mask : list bool) (r0 r : list (tensor F)) : Prop :=
  forall i, nth_error mask i = Some true ->
    meets_tol cfg (rnorm fsum (batch_row R i r)) (rnorm fsum (batch_row R i r0)) /\ fnan (rnorm fsum (batch_row R i r)) = false.

(** The metadata of a segment: groups of distinct unknowns, none of them a given. *)
Definition segment_ok (s : solver_seg) : Prop :=
  Forall group_ok (ss_unknown_groups s) /\ NoDup (names (ss_unknown_groups s)) /\
  (forall n, In n (names (ss_given_groups s)) -> ~ In n (names (ss_unknown_groups s))).

(** The residual at the unknowns, givens and parameters of the state [st'] and the one at the guess [us0] are
    related by [Q]. *)
Definition at_unknowns (par : string -> result (tensor F)) (s : solver_seg) (us0 : list (tensor F)) (st' : smap (tensor F))
           (Q : list nat -> list (tensor F) -> list (tensor F) -> Prop) : Prop :=
  exists dyn us gs ps r0 r,
    pack_groups st' (ss_unknown_groups s) = Ok us /\
    pack_groups st' (ss_given_groups s) = Ok gs /\
    mapM par (ss_params s) = Ok ps /\
    Forall2 (fun g t => exists d, group_tensor g dyn d t) (ss_unknown_groups s) us0 /\
    Forall2 (fun g t => exists d, group_tensor g dyn d t) (ss_unknown_groups s) us /\
    ss_residual_graph s (us0 ++ gs ++ ps) = Ok r0 /\
    ss_residual_graph s (us ++ gs ++ ps) = Ok r /\
    Forall2 (fun g t => exists d, group_tensor g dyn d t) (ss_residual_groups s) r0 /\
    Forall2 (fun g t => exists d, group_tensor g dyn d t) (ss_residual_groups s) r /\
    Q dyn r0 r.

(** The state [st'] solves the segment; and it does in the rows marked by [mask]. *)
Definition solves (fsum : list F -> F) (cfg : config) (par : string -> result (tensor F)) (s : solver_seg)
           (us0 : list (tensor F)) (st' : smap (tensor F)) : Prop :=
  at_unknowns par s us0 st' (balanced fsum cfg (ss_residual_groups s)).
Definition solves_marked (fsum : list F -> F) (cfg : config) (par : string -> result (tensor F)) (s : solver_seg)
           (us0 : list (tensor F)) (mask : list bool) (st' : smap (tensor F)) : Prop :=
  at_unknowns par s us0 st' (fun dyn r0 r => length mask = numel dyn /\ marked_balanced fsum cfg (ss_residual_groups s) mask r0 r).

(** The iteration of the segment on the state [st] starts from [us0]: zeros, or what the predictor makes of [st]. *)
Definition guessed (fsum : list F -> F) (cfg : config) (zero : F) (par : string -> result (tensor F)) (s : solver_seg)
           (st : smap (tensor F)) (us0 : list (tensor F)) : Prop :=
  exists st1 gs ps calls, prepare_solve zero par (seg_of fsum cfg s) st = (Ok (st1, gs, ps, us0), calls).

(** Names a segment may write. *)
Definition written {V} (sg : jseg V) (n : string) : Prop :=
  match sg with
  | JF f => In n (sg_out (jf_seg f))
  | JI i =>
      In n (map v_name (is_unknowns (ji_seg i))) \/ In n (names (is_unknown_groups (ji_seg i))) \/
      exists p, is_predictor (ji_seg i) = Some p /\ (In n (pr_outputs p) \/ (0 < fb_iterations (pr_feedback p))%Z /\ n = fb_input (pr_feedback p))
  end.
