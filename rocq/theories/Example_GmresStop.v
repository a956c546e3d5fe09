(** A GMRES solve that stagnates: the swap of two entries, restarted after every iteration. *)
From Coq Require Import Reals Lra Lia.
From Verif Require Import Base Newton Krylov SpecKrylov SpecGmres RealVec Example_Gmres.
Local Open Scope R_scope.

Definition gs_cfg (k : Z) : kconfig R := mkKcfg GMRES CacheNone 1 k (1 / 4) 0 0.
Definition gs_run (k : Z) := gmres gx_N real_sum real_dot back_solve gx_mat gx_pre gx_b (gs_cfg k).

Lemma gs_begin k it a : gmres_begin gx_N real_sum (gs_cfg k) [1; 0] [1; 0] (mkG [0; 0] it false true a) = mkG [0; 0] it false true gx_a0.
Proof.
  unfold gmres_begin. rewrite (gx_norm1 1 0), gx_bnorm, gx_clamp1 by lra. cbn [gr_done gr_x gr_iters orb].
  change (meets gx_N (gs_cfg k) 1 1) with (meets gx_N gx_cfg 1 1).
  rewrite gx_meets by lra. cbn [negb map n_div reals]. unfold gx_a0. do 2 f_equal. f_equal. entries.
Qed.
Lemma gs_col k it : gmres_column gx_N real_sum real_dot (gs_cfg k) [1; 0] [0; 1] (mkG [0; 0] it false true gx_a0) = mkG [0; 0] (it + 1) false true gx_a1.
Proof.
  unfold gmres_column, gmres_test. cbn [gr_arn gr_active gr_done gr_x gr_iters negb andb orb]. rewrite gx_step0, gx_bnorm.
  change (meets gx_N (gs_cfg k) 1) with (meets gx_N gx_cfg 1).
  cbn [ar_last gx_a1 n_abs reals]. replace (Rabs (- 1)) with 1 by (rewrite Rabs_left; lra). rewrite gx_meets by lra. f_equal. lia.
Qed.
Lemma gs_correct it : gmres_correct gx_N real_dot back_solve (mkG [0; 0] it false true gx_a1) = mkG [0; 0] it false true gx_a1.
Proof.
  unfold gmres_correct. cbn [gr_arn gr_x gr_iters gr_done gr_active]. f_equal.
  cbv [gx_a1 ar_cols ar_g ar_vs regularized back_solve back_sub rev app map combine seq length fst snd Nat.eqb firstn map2 nth
       n_add n_mul n_eps n_one n_zero reals combination column flat_map nth_error real_dot real_sum fold_right vadd].
  replace (0 / (1 + 1 / 2 * 1)) with 0 by (field_simplify; lra). entries.
Qed.
Lemma gs_loop k c : forall first it a, exists l, gmres_loop gx_N real_sum real_dot back_solve gx_mat gx_pre (gs_cfg k) gx_b 1 first (S c) [mkG [0; 0] it false true a]
  = (Ok [mkG [0; 0] (it + S c) false true gx_a1], l).
Proof.
  induction c as [|c IH]; intros first it a.
  - cbn [gmres_loop]. unfold gmres_residual, gx_b.
    destruct first; cbn [map gr_x]; rewrite ?gx_a; cbn [kbind map2 combine map fst snd vsub n_sub reals];
      rewrite ?Rminus_0_r; rewrite gx_m; cbn [kbind combine map2 map fst snd]; rewrite gs_begin;
      cbn [forallb gr_done andb gmres_cycle map]; change (last_v (gr_arn (mkG [0; 0] it false true gx_a0))) with [1; 0];
      rewrite gx_a; cbn [kbind]; rewrite gx_m; cbn [kbind combine map2 map fst snd]; rewrite gs_col;
      cbn [forallb gr_done andb map kret kbind app]; rewrite gs_correct; eexists; reflexivity.
  - specialize (IH false (it + 1)%nat gx_a1). destruct IH as (l & IH). remember (S c) as c1. cbn [gmres_loop]. unfold gmres_residual. unfold gx_b in *.
    assert (Ei : (it + S c1 = it + 1 + c1)%nat) by lia. rewrite Ei.
    destruct first; cbn [map gr_x]; rewrite ?gx_a; cbn [kbind map2 combine map fst snd vsub n_sub reals];
      rewrite ?Rminus_0_r; rewrite gx_m; cbn [kbind combine map2 map fst snd]; rewrite gs_begin;
      cbn [forallb gr_done andb gmres_cycle map]; change (last_v (gr_arn (mkG [0; 0] it false true gx_a0))) with [1; 0];
      rewrite gx_a; cbn [kbind]; rewrite gx_m; cbn [kbind combine map2 map fst snd]; rewrite gs_col;
      cbn [forallb gr_done andb map kret kbind app]; rewrite gs_correct; rewrite IH; eexists; reflexivity.
Qed.
Lemma gs_stagnates k : (0 < k < 2 ^ 62)%Z -> exists l, gs_run k = (Ok (mkKres [[0; 0]] (Z.to_nat k) [false]), l).
Proof.
  intros Hk. unfold gs_run, gmres.
  assert (Ec : cycles_of (gs_cfg k) = Ok k).
  { unfold cycles_of, int64_ok. cbn [k_restart k_max_its gs_cfg]. rewrite Z.quot_1_r. replace (k + 1 - 1)%Z with k by lia.
    replace (_ || _) with false; [reflexivity|]. symmetry. repeat rewrite orb_false_iff. repeat split; try reflexivity; apply negb_false_iff, andb_true_intro; split; [apply Z.leb_le|apply Z.ltb_lt|apply Z.leb_le|apply Z.ltb_lt|apply Z.leb_le|apply Z.ltb_lt]; lia. }
  rewrite Ec. cbn [kbind k_restart gs_cfg]. replace (1 <? 0)%Z with false by reflexivity. cbn [andb]. change (Z.to_nat 1) with 1%nat.
  destruct (Z.to_nat k) as [|c] eqn:Ek; [lia|]. destruct (gs_loop k c true 0%nat (mkArn [] [] [] [] 0)) as (l & El).
  change (map (gmres_start gx_N) gx_b) with [mkG [0; 0] 0 false true (mkArn [] [] [] [] 0)]. rewrite El. cbn [kbind kret map gr_x gr_iters gr_done]. eexists. reflexivity.
Qed.
