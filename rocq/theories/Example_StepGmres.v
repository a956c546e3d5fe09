(** Concrete cases: a GMRES Newton step and a GMRES sensitivity solve over the real numbers; the operator swaps two entries. *)
From Coq Require Import Reals Lra.
From Verif Require Import Base BaseProofs Tensor Newton Pack Krylov SpecKrylov KrylovSystem SpecKrylovSystem SpecKrylovStep.
From Verif Require Import SpecGmres SpecStepGmres RealVec Example_Gmres.
Local Open Scope R_scope.
Local Open Scope string_scope.
Local Open Scope list_scope.

Definition sg_cfg : kconfig R := mkKcfg GMRES CacheNone 2 3 (1 / 4) 0 0.
Definition sg_u : list (tensor R) := [mkT [1; 2]%nat [0; 0] cpu].
Definition sg_b : list (tensor R) := [mkT [1; 2]%nat [1; 0] cpu].
Definition sg_du : list (tensor R) := [mkT [1; 2]%nat [0; 2 / 3] cpu].
Definition sg_sys : ksystem R :=
  mkKsys [mkLayout "dense" []] [mkLayout "dense" []] sg_cfg (fun _ => Ok sg_b)
    (fun _ v => Ok (map (fun t => mkT (t_shape t) (gx_swap (t_data t)) (t_dev t)) v)) None.
Definition sg_log : list (kcall R) := gx_log ++ [CMat [[0; 2 / 3]]; CPre [[1 - 2 / 3; 0 - 0]]].

(** Any row solve whose operator swaps the entries and that has no preconditioner. *)
Lemma sg_solve f g :
  (forall a b, f [[a; b]] = Ok [[b; a]]) -> (forall a b, g [[a; b]] = Ok [[a; b]]) ->
  krylov_solve gx_N real_sum real_dot back_solve f g [[1; 0]] sg_cfg = (Ok (mkKres [[0; 2 / 3]] 2 [true]), sg_log).
Proof.
  intros Hf Hg.
  assert (gx_m : forall a b, apply_m g [[a; b]] = (Ok [[a; b]], [CPre [[a; b]]])) by (intros; unfold apply_m, call_op; rewrite Hg; reflexivity).
  assert (gx_a : forall a b, apply_a f [[a; b]] = (Ok [[b; a]], [CMat [[a; b]]])) by (intros; unfold apply_a, call_op; rewrite Hf; reflexivity).
  unfold krylov_solve. cbn [k_method sg_cfg]. unfold gmres. replace (cycles_of sg_cfg) with (Ok 2%Z : result Z) by reflexivity.
  change (k_restart sg_cfg) with 2%Z.
  cbn [kbind Z.ltb Z.compare andb]. change (Z.to_nat 2) with 2%nat.
  cbn [map gmres_loop gmres_residual]. rewrite gx_m. cbn [kbind combine map2 map fst snd].
  change (gmres_begin gx_N real_sum sg_cfg) with (gmres_begin gx_N real_sum gx_cfg). rewrite gx_begin. cbn [forallb gr_done andb].
  cbn [gmres_cycle map]. change (last_v (gr_arn (mkG [0; 0] 0 false true gx_a0))) with [1; 0].
  rewrite gx_a. cbn [kbind]. rewrite gx_m. cbn [kbind combine map2 map fst snd].
  change (gmres_column gx_N real_sum real_dot sg_cfg) with (gmres_column gx_N real_sum real_dot gx_cfg).
  rewrite gx_col0. cbn [forallb gr_done andb map]. change (last_v (gr_arn (mkG [0; 0] 1 false true gx_a1))) with [0; 1].
  rewrite gx_a. cbn [kbind]. rewrite gx_m. cbn [kbind combine map2 map fst snd].
  rewrite gx_col1. cbn [forallb gr_done andb map kret kbind app]. rewrite gx_correct.
  cbn [gr_x]. rewrite gx_a. cbn [kbind combine map2 map fst snd vsub n_sub reals]. rewrite gx_m.
  cbn [kbind combine map2 map fst snd gmres_begin gr_done orb forallb andb kret app gr_x gr_iters]. reflexivity.
Qed.

(** The step, and the hypotheses about the system. *)
Lemma sg_runs : exists st l, kstep gx_N real_sum real_dot back_solve sg_sys sg_u (fresh_state (V:=R)) = (Ok (sg_du, sg_b), st, l) /\
  st_last st = 2%Z /\ l = SResidual sg_u :: [] ++ [SSolve (st_precond st) sg_log (Ok 2%nat)].
Proof.
  assert (E : exists f g, (forall a b, f [[a; b]] = Ok [[b; a]]) /\ (forall a b, g [[a; b]] = Ok [[a; b]]) /\
    kstep gx_N real_sum real_dot back_solve sg_sys sg_u (fresh_state (V:=R)) =
    match krylov_solve gx_N real_sum real_dot back_solve f g [[1; 0]] sg_cfg with
    | (Ok res, calls) => ((let* du := unflatten_dense (of_rows (mkT [1; 2]%nat [1; 0] cpu) (kr_du res)) (mkSpec [1]%nat [2]%nat 2) in Ok (du, sg_b)),
                          mkKst [] false (Z.of_nat (kr_iters res)), [SResidual sg_u; SSolve [] calls (Ok (kr_iters res))])
    | (Err e, calls) => (Err e, mkKst [] false 0, [SResidual sg_u; SSolve [] calls (Err e)])
    end).
  { exists (flat_matvec sg_sys sg_u (mkSpec [1]%nat [2]%nat 2) (mkT [1; 2]%nat [1; 0] cpu)), (flat_minv sg_sys [] (mkT [1; 2]%nat [1; 0] cpu)).
    split; [reflexivity|]. split; reflexivity. }
  destruct E as (f & g & Hf & Hg & ->). rewrite (sg_solve f g Hf Hg). eexists _, _. split; [reflexivity|]. split; reflexivity.
Qed.

Lemma sg_res r : ks_res sg_sys sg_u = Ok r -> dense_groups [1]%nat cpu r [2]%nat.
Proof. cbn. intros H. injection H as <-. repeat constructor. Qed.
Lemma sg_rows : row_operator [1]%nat cpu (map width sg_u) [2]%nat (fun _ => gx_swap) (ks_mat sg_sys sg_u).
Proof.
  intros v jv G H. cbn in H. injection H as <-. inversion G as [|t w r ws (W & D & Sh) G' E1 E2]; subst. inversion G'; subst. clear G G'. cbn in Sh.
  destruct t as [sh da dev]. cbn in W, D, Sh. subst. unfold wf in W. cbn in W.
  destruct da as [|a [|b [|c da]]]; try discriminate W. split; [repeat constructor|].
  intros [|i] Hi; [reflexivity|cbn in Hi; lia].
Qed.
Lemma sg_normalised : normalised 2 0 2 sg_log.
Proof.
  intros [|[|q]] x v Hq E Ev; [| |lia]; cbn in E; injection E as <-; cbn in Ev; injection Ev as <-; left;
    cbv [square real_dot real_sum map2 combine map fst snd fold_right]; lra.
Qed.

(** The same system as a dense sensitivity solve. *)
Definition sg_A : tensor R := mkT [1; 2; 2]%nat [0; 1; 1; 0] cpu.
Definition sg_B : tensor R := mkT [1; 2; 1]%nat [1; 0] cpu.
Definition sg_X : tensor R := mkT [1; 2; 1]%nat [0; 2 / 3] cpu.
Lemma sg_dense_op a b : dense_matvec real_dot 2 (t_data sg_A) 1 [[a; b]] = Ok [[b; a]].
Proof.
  transitivity (Ok [[0 * a + (1 * b + 0); 1 * a + (0 * b + 0)]]); [reflexivity|]. do 2 f_equal. entries.
Qed.
Lemma sg_dense_solve :
  krylov_solve gx_N real_sum real_dot back_solve (dense_matvec real_dot 2 (t_data sg_A) 1) (fun r => Ok r) [[1; 0]] sg_cfg
  = (Ok (mkKres [[0; 2 / 3]] 2 [true]), sg_log).
Proof. apply sg_solve; [apply sg_dense_op|reflexivity]. Qed.
Lemma sg_dense : krylov_solve_dense gx_N real_sum real_dot back_solve sg_cfg sg_A sg_B = Ok sg_X.
Proof.
  transitivity (let* cols := mapM (fun _ : nat =>
     let* res := fst (krylov_solve gx_N real_sum real_dot back_solve (dense_matvec real_dot 2 (t_data sg_A) 1) (fun r => Ok r) [[1; 0]] sg_cfg) in
     Ok (kr_du res)) [0%nat] in Ok (mkT (t_shape sg_B) (stack_last 2 1 cols) (t_dev sg_B))); [reflexivity|].
  rewrite sg_dense_solve. reflexivity.
Qed.
Lemma sg_matrix : matrix_of (t_data sg_A) 2 0 [[0; 1]; [1; 0]].
Proof.
  split; [reflexivity|]. split; [repeat constructor|]. intros [|[|r]] row c E Hc; cbn in E; try (destruct r; discriminate E);
    injection E as <-; destruct c as [|[|c]]; try lia; reflexivity.
Qed.
Lemma sg_bounded : bounded_below (1 / 2) 2 (apply_matrix real_dot [[0; 1]; [1; 0]]).
Proof.
  intros [|a [|b [|c x]]] L; try discriminate. cbv [square real_dot real_sum map2 combine map fst snd fold_right apply_matrix]. nra.
Qed.
