(** Vocabulary of the Newton properties C30-C34 and C52. *)
From Verif Require Import Base Float Newton.

(** Euclidean norm of a row of residual groups, summed group by group. *)
Definition sumsq (fsum : list F -> F) (g : list F) : F := fsum (map (fun x => fmul x x) g).
Fixpoint plus_groups (fsum : list F -> F) (acc : F) (r : row) : F :=
  match r with [] => acc | g :: r' => plus_groups fsum (fadd acc (sumsq fsum g)) r' end.
Definition rnorm (fsum : list F -> F) (r : row) : F :=
  fsqrt match r with [] => fzero | g :: r' => plus_groups fsum (sumsq fsum g) r' end.

(** A residual of norm [n], [n0] at the start point, meets the tolerances. *)
Definition meets_tol (cfg : config) (n n0 : F) : Prop :=
  flt n (cf_atol cfg) = true \/ flt (fdiv n n0) (cf_rtol cfg) = true.

(** Every row of the iterate [u] meets the tolerances and has a finite residual. *)
Definition solved (fsum : list F -> F) (cfg : config) (s : system) (u0 u : batch) : Prop :=
  exists b0 b, sy_residual s u0 = Ok b0 /\ sy_residual s u = Ok b /\
    length b0 = length u0 /\ length b = length u /\ length u = length u0 /\
    forall i r r0, nth_error b i = Some r -> nth_error b0 i = Some r0 ->
      meets_tol cfg (rnorm fsum r) (rnorm fsum r0) /\ ffinite (rnorm fsum r) = true.

(** Some row of the iterate [u] does not meet the tolerances, or is not finite. *)
Definition unsolved (fsum : list F -> F) (cfg : config) (s : system) (u0 u : batch) : Prop :=
  exists b0 b i r r0, sy_residual s u0 = Ok b0 /\ sy_residual s u = Ok b /\
    nth_error b i = Some r /\ nth_error b0 i = Some r0 /\
    (~ meets_tol cfg (rnorm fsum r) (rnorm fsum r0) \/ ffinite (rnorm fsum r) = false).
Definition not_finite (fsum : list F -> F) (s : system) (u : batch) : Prop :=
  exists b r, sy_residual s u = Ok b /\ In r b /\ ffinite (rnorm fsum r) = false.

(** The step lengths 1, 1/c, 1/c^2, ... *)
Fixpoint cut (cutback : F) (k : nat) : F :=
  match k with 0 => fone | S k' => fdiv (cut cutback k') cutback end.

(** The row [r'] is [r] advanced along [d] by a step length the configuration allows. *)
Definition advance (f : F -> F -> F) (r d r' : row) : Prop :=
  length r' = length r /\
  forall g xs ds xs', nth_error r g = Some xs -> nth_error d g = Some ds -> nth_error r' g = Some xs' ->
    length xs' = length xs /\
    forall c x dx x', nth_error xs c = Some x -> nth_error ds c = Some dx -> nth_error xs' c = Some x' -> x' = f x dx.
Definition advanced (cfg : config) (r d r' : row) : Prop :=
  (cf_ls_max_iters cfg <= 1 /\ advance fadd r d r') \/
  (exists k, k + 2 <= cf_ls_max_iters cfg /\
             advance (fun x dx => fadd x (fmul (cut (cf_ls_cutback cfg) k) dx)) r d r').

(** One Newton update of the whole batch; [hist]: the points of the updates before. *)
Definition update (cfg : config) (s : system) (hist : list batch) (u u' : batch) : Prop :=
  exists du b', sy_step s hist u = Ok du /\ sy_residual s u' = Ok b' /\
    length u' = length u /\
    forall i r d r', nth_error u i = Some r -> nth_error du i = Some d -> nth_error u' i = Some r' ->
      advanced cfg r d r'.

(** Successive updates. *)
Inductive path (cfg : config) (s : system) (u0 : batch) : list batch -> batch -> Prop :=
| path_start : path cfg s u0 [] u0
| path_step l u u' : path cfg s u0 l u -> update cfg s (removelast (u0 :: l)) u u' -> path cfg s u0 (l ++ [u']) u'.

(** A system over [n] rows that never raises and returns what it should. *)
Definition shaped (sizes : list nat) (u : batch) : Prop := Forall (fun r => map (@length F) r = sizes) u.
Definition total_system (n : nat) (s : system) : Prop :=
  sy_usizes s <> [] /\ sy_rsizes s = sy_usizes s /\
  forall u, length u = n -> shaped (sy_usizes s) u ->
    (exists b, sy_residual s u = Ok b /\ length b = length u /\ shaped (sy_usizes s) b) /\
    (forall hist, exists d, sy_step s hist u = Ok d /\ length d = length u /\ shaped (sy_usizes s) d).

(** Cost. *)
Definition steps_of (t : list call) : nat := length (filter (fun c => match c with CStep _ => true | _ => false end) t).
Definition residuals_of (t : list call) : nat := length (filter (fun c => match c with CResidual _ => true | _ => false end) t).
Definition trials (cfg : config) : nat := Nat.max 1 (cf_ls_max_iters cfg - 1).

(** A batch of unrelated rows: each row has its own residual and step function (its own
    givens and parameters). *)
Record rowsys := mkRowsys { rw_residual : row -> row; rw_step : row -> row }.
Definition each (f : rowsys -> row -> row) (rs : list rowsys) (u : batch) : result batch :=
  if length u =? length rs then Ok (map2 f rs u) else Err (StdExn "batch size").
Definition rows_system (sizes : list nat) (rs : list rowsys) : system :=
  mkSys sizes sizes (each rw_residual rs) (fun _ => each rw_step rs).
Definition keeps_shape (sizes : list nat) (r : rowsys) : Prop :=
  forall x, map (@length F) x = sizes ->
    map (@length F) (rw_residual r x) = sizes /\ map (@length F) (rw_step r x) = sizes.

(** Line search of one row: the trial with step length [a] is accepted. *)
Definition row_dotp (fsum : list F -> F) (b d : row) : F :=
  match combine b d with
  | [] => fzero
  | (x, y) :: l =>
      fold_left (fun acc p => fadd acc (fsum (map (fun q => fmul (fst q) (snd q)) (combine (fst p) (snd p))))) l
                (fsum (map (fun q => fmul (fst q) (snd q)) (combine x y)))
  end.
Definition rsq (fsum : list F -> F) (r : row) : F :=
  match r with [] => fzero | g :: r' => plus_groups fsum (sumsq fsum g) r' end.
Definition acceptable_step (fsum : list F -> F) (cfg : config) (b d b' : row) (a : F) : Prop :=
  fle (rsq fsum b')
      (if String.eqb (cf_ls_type cfg) "STRONG_WOLFE"
       then fmul (fsub fone (fmul (cf_ls_c cfg) a)) (rsq fsum b)
       else fsub (rsq fsum b) (fmul (fmul (fmul ftwo (cf_ls_c cfg)) a) (row_dotp fsum b d))) = true
  \/ fle (rsq fsum b') (fmul (cf_atol cfg) (cf_atol cfg)) = true.
Definition moved (a : F) (r d : row) : row :=
  map (fun p => map (fun q => fadd (fst q) (fmul a (snd q))) (combine (fst p) (snd p))) (combine r d).
(** [k] is the first cut whose trial is accepted, or the last one tried. *)
Definition first_cut (fsum : list F -> F) (cfg : config) (rs : rowsys) (u b d : row) (k : nat) : Prop :=
  let tried j := acceptable_step fsum cfg b d (rw_residual rs (moved (cut (cf_ls_cutback cfg) j) u d))
                                 (cut (cf_ls_cutback cfg) j) in
  k + 2 <= cf_ls_max_iters cfg /\ (forall j, j < k -> ~ tried j) /\
  (tried k \/ k + 2 = cf_ls_max_iters cfg).

(** The same numbers, up to the sign of zero. *)
Definition same_num (x y : F) : Prop := x = y \/ (x = fneg_zero /\ y = fzero).
Definition same_row (r r' : row) : Prop := Forall2 (Forall2 same_num) r r'.
(** Ordinary numbers: finite and not minus zero. *)
Definition ordinary (r : row) : Prop := Forall (Forall (fun x => ffinite x = true /\ x <> fneg_zero)) r.
(** The step lengths the line search can reach are finite (it holds e.g. for the default
    cutback 2). *)
Definition finite_cuts (cfg : config) : Prop :=
  forall k, k + 2 <= cf_ls_max_iters cfg -> ffinite (cut (cf_ls_cutback cfg) k) = true.

(** What the masked solve calls converged. *)
Definition meets_masked_tol (cfg : config) (n n0 du un : F) : Prop :=
  flt n (cf_atol cfg) = true \/
  (flt (fdiv n n0) (cf_rtol cfg) = true /\ flt du (fmul (cf_del_tol cfg) (fadd un (cf_atol cfg))) = true).

(** The iterates a run went through: the points where a step was asked for. *)
Definition iterates_of (t : list call) : list batch :=
  flat_map (fun c => match c with CStep u => [u] | CResidual _ => [] end) t.

(** A sum of zeros is zero. *)
Definition sums_zeros (fsum : list F -> F) : Prop := forall l, Forall (eq fzero) l -> fsum l = fzero.
Definition diff_row (r r' : row) : row :=
  map (fun p => map (fun q => fsub (fst q) (snd q)) (combine (fst p) (snd p))) (combine r r').

(** The last iterate a step was taken from, if any. *)
Definition last_iterate (t : list call) : option batch := fold_left (fun _ v => Some v) (iterates_of t) None.
(** A mask is exact: a row is marked converged just if it meets the absolute tolerance, or the relative
    one with a small last step (from [prev]; there is only the absolute one if no step was taken). *)
Definition mask_exact (fsum : list F -> F) (cfg : config) (s : system) (u0 : batch) (prev : option batch)
           (u : batch) (m : list bool) : Prop :=
  exists b0 b, sy_residual s u0 = Ok b0 /\ sy_residual s u = Ok b /\
    length b0 = length u0 /\ length b = length u /\ length u = length u0 /\ length m = length u0 /\
    forall i bit r r0 x, nth_error m i = Some bit ->
      nth_error b i = Some r -> nth_error b0 i = Some r0 -> nth_error u i = Some x ->
      (bit = true <->
       match prev with
       | None => flt (rnorm fsum r) (cf_atol cfg) = true
       | Some v => exists x', nth_error v i = Some x' /\
           meets_masked_tol cfg (rnorm fsum r) (rnorm fsum r0) (rnorm fsum (diff_row x x')) (rnorm fsum x)
       end).

(** The row alone, [k] updates after the start. *)
Fixpoint solo (fsum : list F -> F) (cfg : config) (sizes : list nat) (rs : rowsys) (u0 : row) (k : nat) : result (row * row) :=
  match k with
  | 0 => Ok (u0, rw_residual rs u0)
  | S k' =>
      let* (u, b) := solo fsum cfg sizes rs u0 k' in
      match fst (iterate fsum cfg (rows_system sizes [rs]) [] [u] [b] None) with
      | Ok ([u'], [b']) => Ok (u', b')
      | Ok _ => Err (Fatal "")
      | Err e => Err e
      end
  end.
