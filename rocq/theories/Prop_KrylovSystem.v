(** Properties C42, C45, C46: flattening, the dense sensitivity solve, the preconditioner cache. *)
From Verif Require Import Base BaseProofs Tensor Float Broadcast SpecBroadcast Newton Krylov SpecKrylov KrylovSystem SpecKrylovSystem
     KrylovFlatProofs KrylovCacheProofs KrylovDenseProofs Example_Krylov.

(** ** C42: flattening is lossless *)
Theorem C42_roundtrip : forall V dyn d (ts : list (tensor V)) ws layout,
  ts <> [] -> length ts = length layout -> all_dense layout -> dense_groups dyn d ts ws ->
  exists flat spec, flatten_dense ts layout = Ok (flat, spec) /\ wf flat /\ t_dev flat = d /\
    t_shape flat = [numel dyn; sum_of ws] /\ spec = mkSpec dyn ws (sum_of ws) /\ unflatten_dense flat spec = Ok ts.
Proof. intros V. apply flatten_unflatten. Qed.
Print Assumptions C42_roundtrip.

Theorem C42_inverse : forall V dyn d (flat : tensor V) ws layout,
  ws <> [] -> length ws = length layout -> all_dense layout -> wf flat -> t_dev flat = d -> t_shape flat = [numel dyn; sum_of ws] ->
  exists ts, unflatten_dense flat (mkSpec dyn ws (sum_of ws)) = Ok ts /\ dense_groups dyn d ts ws /\
    flatten_dense ts layout = Ok (flat, mkSpec dyn ws (sum_of ws)).
Proof. intros V. apply unflatten_flatten. Qed.
Print Assumptions C42_inverse.

(** Column [c] of a group at batch index [b] is at row [b], in the column after those of the groups before. *)
Theorem C42_elements : forall V dyn d (xs : list (tensor V)) t ys wsx w wsy layout flat spec b c,
  length (xs ++ t :: ys) = length layout -> all_dense layout ->
  dense_groups dyn d (xs ++ t :: ys) (wsx ++ w :: wsy) -> length xs = length wsx ->
  flatten_dense (xs ++ t :: ys) layout = Ok (flat, spec) -> index_of dyn b -> c < w ->
  elem flat [ravel dyn b; sum_of wsx + c] = elem t (b ++ [c]).
Proof. intros V dyn d xs t ys wsx w wsy layout flat spec b c. apply flatten_elements. Qed.
Print Assumptions C42_elements.

(** A layout with a block group is refused. *)
Theorem C42_block_refused : forall V (ts : list (tensor V)) layout g,
  In g layout -> gl_structure g = "block"%string -> exists m, flatten_dense ts layout = Err (Fatal m).
Proof. intros V ts layout g I B. apply flatten_block. eauto. Qed.
Print Assumptions C42_block_refused.
Example C42_case : dense_groups [2; 1] cpu [kx_g1; kx_g2] [2; 1] /\ all_dense [mkLayout "dense"%string []; mkLayout "dense"%string []] /\
  flatten_dense [kx_g1; kx_g2] [mkLayout "dense"%string []; mkLayout "dense"%string []] =
    Ok (mkT [2; 3] [1; 2; 5; 3; 4; 6]%Z cpu, mkSpec [2; 1] [2; 1] 3).
Proof. split; [apply kx_dense|]. split; [apply kx_all_dense|]. reflexivity. Qed.

(** ** C45: the sensitivity solve *)
(** What is returned: a tensor of the shape of [B] whose columns are the solutions, one Krylov solve per column, of the
    systems with that column as right-hand side. *)
Theorem C45_columns : forall V (N : num V) rsum edot tri cfg pre n m (A B X : tensor V),
  k_method cfg = BiCGStab \/ (0 < k_restart cfg)%Z ->
  wf A -> t_shape A = pre ++ [n; n] -> wf B -> t_shape B = pre ++ [n; m] ->
  krylov_solve_dense N rsum edot tri cfg A B = Ok X ->
  t_shape X = t_shape B /\ t_dev X = t_dev B /\
  forall j, j < m -> exists b res l,
    krylov_solve N rsum edot tri (dense_matvec edot n (t_data A) (numel pre)) (fun r => Ok r) b cfg = (Ok res, l) /\
    length b = numel pre /\
    forall i, i < numel pre -> exists bi x,
      nth_error b i = Some bi /\ column_of (t_data B) n m i j bi /\
      nth_error (kr_du res) i = Some x /\ column_of (t_data X) n m i j x.
Proof. intros V N rsum edot tri cfg pre n m A B X. apply dense_columns. Qed.
Print Assumptions C45_columns.

(** In exact arithmetic, by BiCGStab: the columns whose solve stopped before its budget meet the tolerance.  Missing:
    those whose solve used it up, see [C45_refuted]; rounding; for GMRES see [C45_gmres_partial]. *)
Theorem C45_tolerance_partial : forall V (N : num V) rsum edot tri cfg pre n m (A B X : tensor V),
  ring_of N -> linear_dot N n edot -> k_method cfg = BiCGStab ->
  wf A -> t_shape A = pre ++ [n; n] -> wf B -> t_shape B = pre ++ [n; m] ->
  krylov_solve_dense N rsum edot tri cfg A B = Ok X ->
  forall j, j < m -> exists b res l,
    krylov_solve N rsum edot tri (dense_matvec edot n (t_data A) (numel pre)) (fun r => Ok r) b cfg = (Ok res, l) /\
    (kr_iters res < Z.to_nat (k_max_its cfg) ->
     forall i, i < numel pre -> exists a bi x, matrix_of (t_data A) n i a /\ column_of (t_data B) n m i j bi /\ column_of (t_data X) n m i j x /\
       within N rsum cfg bi (residual_of N (apply_matrix edot a) bi x)).
Proof. intros V N rsum edot tri cfg pre n m A B X. apply dense_exact. Qed.
Print Assumptions C45_tolerance_partial.
Example C45_case : ring_of qk_num /\ linear_dot qk_num 2 qk_dot /\ wf qk_A /\ wf qk_B /\
  is_ok (krylov_solve_dense qk_num qk_sum qk_dot qk_tri (qk_cfg 100) qk_A qk_B) = true.
Proof. split; [apply qk_ring|]. split; [apply qk_linear|]. split; [reflexivity|]. split; [reflexivity|]. vm_compute. reflexivity. Qed.

(** The flags of the solve are dropped.  For a permutation matrix BiCGStab breaks down; after the default 1000 iterations
    the values it has reached (about 2^155 for a solution (0, 1)) are returned like any other; and with no budget at all
    zero is. *)
Theorem C45_refuted :
  (exists A B X, wf A /\ wf B /\
     krylov_solve_dense binary64 kx_sum kx_dot kx_tri (kx_cfg BiCGStab 40 1000) A B = Ok X /\
     t_data A = [fzero; fone; fone; fzero] /\ t_data B = [fone; fzero] /\ t_shape X = [2] /\
     (exists x0 x1, t_data X = [x0; x1] /\ flt x0 (fopp (fnum 1 150)) = true) /\
     ~ within binary64 kx_sum (kx_cfg BiCGStab 40 1000) kx_e1 (residual_of binary64 kx_swap kx_e1 (t_data X))) /\
  (exists X, krylov_solve_dense binary64 kx_sum kx_dot kx_tri (kx_cfg GMRES 40 0) (mkT [1; 1; 1] [fone] cpu) (mkT [1; 1] [fone] cpu) = Ok X /\
     t_data X = [fzero]).
Proof.
  split; [|eexists; split; vm_compute; reflexivity].
  exists (mkT [2; 2] [fzero; fone; fone; fzero] cpu), (mkT [2] [fone; fzero] cpu).
  destruct (krylov_solve_dense _ _ _ _ _ _ _) as [X|e] eqn:E; vm_compute in E; [|discriminate].
  injection E as <-. eexists. split; [reflexivity|]. split; [reflexivity|]. split; [reflexivity|].
  split; [reflexivity|]. split; [reflexivity|]. split; [reflexivity|].
  split; [do 2 eexists; split; reflexivity|]. intros [H|H]; vm_compute in H; discriminate.
Qed.
Print Assumptions C45_refuted.

(** ** C46: the preconditioner cache *)
(** Over the steps of a Newton solve, at any points: a step that gets as far builds a preconditioner, at its own point,
    exactly if the policy says so; the policy is a function of the iteration counts the earlier solves reported. *)
Theorem C46_policy : forall V (N : num V) rsum edot tri s setup apply us i r l u,
  ks_precond s = Some (setup, apply) ->
  let run := ksteps N rsum edot tri s us fresh_state in
  let its := counts (concat (map snd run)) in
  nth_error run i = Some (r, l) -> nth_error us i = Some u -> reached l ->
  (rebuilt (k_cache (ks_cfg s)) (k_cache_max_its (ks_cfg s)) its i /\ setups l = [u]) \/
  (~ rebuilt (k_cache (ks_cfg s)) (k_cache_max_its (ks_cfg s)) its i /\ setups l = []).
Proof.
  intros V N rsum edot tri s setup apply us i r l u EP run its H Eu R.
  apply (ksteps_cache N rsum edot tri s setup apply [] [] us fresh_state i r l u EP ltac:(split; reflexivity) H Eu). exact R.
Qed.
Print Assumptions C46_policy.

(** The preconditioner a solve is given is the one built at the last step that built one. *)
Theorem C46_state : forall V (N : num V) rsum edot tri s setup apply us i r l u,
  ks_precond s = Some (setup, apply) ->
  let run := ksteps N rsum edot tri s us fresh_state in
  let its := counts (concat (map snd run)) in
  nth_error run i = Some (r, l) -> nth_error us i = Some u ->
  forall p calls k, In (SSolve p calls k) l ->
  exists j v, last_rebuilt (k_cache (ks_cfg s)) (k_cache_max_its (ks_cfg s)) its i j /\
    nth_error us j = Some v /\ setup v = Ok p.
Proof.
  intros V N rsum edot tri s setup apply us i r l u EP run its H Eu p calls k I.
  apply (ksteps_cache N rsum edot tri s setup apply [] [] us fresh_state i r l u EP ltac:(split; reflexivity) H Eu) with (1 := I).
Qed.
Print Assumptions C46_state.

(** Without a preconditioner none is built. *)
Theorem C46_no_preconditioner : forall V (N : num V) rsum edot tri s us st i r l,
  ks_precond s = None -> nth_error (ksteps N rsum edot tri s us st) i = Some (r, l) -> setups l = [].
Proof. intros V N rsum edot tri s us st i r l. apply ksteps_no_precond. Qed.
Print Assumptions C46_no_preconditioner.

(** Counts 1, 2, 1, 1, 2 and a bar of 1: built at the first and the third step; by the chord policy at the first. *)
Example C46_case :
  map (fun x => (is_ok (fst x), length (setups (snd x)), counts (snd x))) (kx_run MaxLinearIters 1) =
    [(true, 1, [1%Z]); (true, 0, [2%Z]); (true, 1, [1%Z]); (true, 0, [1%Z]); (true, 0, [2%Z])] /\
  map (fun x => length (setups (snd x))) (kx_run Chord 1) = [1; 0; 0; 0; 0] /\
  map (fun x => length (setups (snd x))) (kx_run CacheNone 1) = [1; 1; 1; 1; 1].
Proof. vm_compute. auto. Qed.
