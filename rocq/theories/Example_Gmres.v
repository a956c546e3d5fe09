(** A concrete GMRES solve over the real numbers: the operator swaps the two entries. *)
From Coq Require Import Reals Lra Lia.
From Verif Require Import Base Newton Krylov SpecKrylov SpecGmres RealVec.
Local Open Scope R_scope.

(** Back substitution, the last column first. *)
Fixpoint back_sub (rcols : list (list R)) (g : list R) : list R :=
  match rcols with
  | [] => []
  | c :: r =>
      let j := length r in
      let y := nth j g 0 / nth j c 0 in
      back_sub r (map2 (fun gi ci => gi - y * ci) (firstn j g) c) ++ [y]
  end.
Definition back_solve (cols : list (list R)) (g : list R) : list R := back_sub (rev cols) g.

Lemma map2_snoc {X Y Z} (f : X -> Y -> Z) a b x y : length a = length b -> map2 f (a ++ [x]) (b ++ [y]) = map2 f a b ++ [f x y].
Proof. revert b. induction a as [|u a IH]; intros [|v b]; try discriminate; [reflexivity|]. cbn. intros E. f_equal. apply IH. lia. Qed.
Lemma sum_app a b : real_sum (a ++ b) = real_sum a + real_sum b.
Proof. unfold real_sum. induction a as [|x a IH]; cbn [app fold_right]; [ring|]. rewrite IH. ring. Qed.

Lemma back_sub_len r g : length (back_sub r g) = length r.
Proof. revert g. induction r as [|c r IH]; intros g; [reflexivity|]. cbn [back_sub]. rewrite app_length, IH. cbn. lia. Qed.

Lemma back_solves : solves_upper back_solve.
Proof.
  intros cols. unfold back_solve. induction cols as [|c cols IH] using rev_ind; intros g Hc Lg.
  { split; [reflexivity|]. cbn. intros. lia. }
  split; [rewrite back_sub_len, rev_length; reflexivity|].
  assert (Hc0 : forall j col, nth_error cols j = Some col -> length col = S j /\ nth j col 0 <> 0).
  { intros j col E. apply Hc. rewrite nth_error_app1; [exact E|]. apply nth_error_Some. congruence. }
  destruct (Hc (length cols) c) as [Lc Dc].
  { rewrite nth_error_app2, Nat.sub_diag by lia. reflexivity. }
  rewrite app_length in *. cbn [length] in *.
  rewrite rev_app_distr. cbn [rev app back_sub]. rewrite rev_length.
  set (j := length cols) in *. set (y := nth j g 0 / nth j c 0).
  set (g' := map2 _ _ _).
  assert (Lg' : length g' = j).
  { unfold g'. clearbody y. clear - Lg Lc. assert (Lf : length (firstn j g) = j) by (rewrite firstn_length; lia).
    revert Lf. generalize (firstn j g). revert c Lc. generalize j as k. intros k. induction k as [|k IH]; intros [|x c] L [|z f] Lf; cbn in *; try lia.
    f_equal. apply IH; lia. }
  destruct (IH g' Hc0 Lg') as [_ Hs].
  assert (Ly : length (back_sub (rev cols) g') = length cols) by (rewrite back_sub_len, rev_length; reflexivity).
  intros i Hi. rewrite map2_snoc by exact Ly. rewrite sum_app.
  destruct (Nat.eq_dec i j) as [->|Ni].
  - replace (real_sum (map2 (fun y0 col => y0 * nth j col 0) (back_sub (rev cols) g') cols)) with 0.
    + cbn [real_sum fold_right]. unfold y. field. exact Dc.
    + symmetry. assert (Hz : forall a, (length a <= length cols)%nat -> real_sum (map2 (fun y0 col => y0 * nth j col 0) a cols) = 0); [|apply Hz; lia].
      assert (F : Forall (fun col => nth j col 0 = 0) cols).
      { apply Forall_forall. intros col I. apply In_nth_error in I as (t & Et). destruct (Hc0 t col Et) as [Lt _].
        assert (t < j)%nat by (apply nth_error_Some; congruence). apply nth_overflow. lia. }
      clear - F. clearbody j. induction F as [|col cl E F IHF]; intros [|x a] L; try reflexivity.
      change (x * nth j col 0 + real_sum (map2 (fun y0 col => y0 * nth j col 0) a cl) = 0).
      rewrite IHF by (cbn in L; lia). rewrite E. ring.
  - rewrite Hs by lia. cbn [real_sum fold_right].
    assert (E : nth i g' 0 = nth i g 0 - y * nth i c 0); [|rewrite E; ring].
    assert (Hi' : (i < j)%nat) by lia. unfold g'. clear g' Lg' Hs Ly IH. clearbody y. clear - Hi' Lc Lg. revert i g c Hi' Lc Lg.
    generalize j as k. intros k. induction k as [|k IH]; intros [|i] [|z g] [|x c] Hi Lc Lg; cbn in *; try lia; try reflexivity.
    apply IH; lia.
Qed.

Definition gx_cfg : kconfig R := mkKcfg GMRES CacheNone 2 2 (1 / 4) 0 0.
Definition gx_swap (x : list R) : list R := rev x.
Definition gx_b : list (list R) := [[1; 0]].
Definition gx_mat (x : list (list R)) : result (list (list R)) := Ok (map gx_swap x).
Definition gx_pre (x : list (list R)) : result (list (list R)) := Ok x.
Notation gx_N := (reals (1 / 2)).
Definition gx_run := gmres gx_N real_sum real_dot back_solve gx_mat gx_pre gx_b gx_cfg.

Lemma gx_clamp1 : clamp gx_N 1 = 1.
Proof. unfold clamp. cbn [n_lt n_eps reals]. destruct (Rlt_dec 1 (1 / 2)); [lra|reflexivity]. Qed.
Lemma gx_clamp0 : clamp gx_N 0 = 1 / 2.
Proof. unfold clamp. cbn [n_lt n_eps reals]. destruct (Rlt_dec 0 (1 / 2)); [reflexivity|lra]. Qed.
Lemma gx_norm1 x y : x * x + y * y = 1 -> row_norm gx_N real_sum [x; y] = 1.
Proof. intros E. unfold row_norm. cbn [map n_mul n_sqrt reals real_sum fold_right]. replace (x * x + (y * y + 0)) with 1 by lra. apply sqrt_1. Qed.
Lemma gx_norm0 : row_norm gx_N real_sum [0; 0] = 0.
Proof. unfold row_norm. cbn [map n_mul n_sqrt reals real_sum fold_right]. replace (0 * 0 + (0 * 0 + 0)) with 0 by lra. apply sqrt_0. Qed.
Definition gx_a0 : arnoldi R := mkArn [[1; 0]] [] [] [] 1.
Definition gx_a1 : arnoldi R := mkArn [[1; 0]; [0; 1]] [[1]] [(0, 1)] [0] (- 1).
Definition gx_a2 : arnoldi R := mkArn [[1; 0]; [0; 1]; [0; 0]] [[1]; [0; 1]] [(0, 1); (- 1, 0)] [0; 1] 0.
Ltac entries := repeat (apply (f_equal2 (@cons R)); [lra|]); reflexivity.
Lemma gx_p0 : project gx_N real_dot [[1; 0]] [0; 1] = ([0], [0; 1]).
Proof.
  cbv [project combination column map seq flat_map nth_error app length real_dot real_sum map2 combine fst snd fold_right vsub n_sub n_zero reals].
  f_equal; entries.
Qed.
Lemma gx_p1 : project gx_N real_dot [[1; 0]; [0; 1]] [1; 0] = ([1; 0], [0; 0]).
Proof.
  cbv [project combination column map seq flat_map nth_error app length real_dot real_sum map2 combine fst snd fold_right vsub n_sub n_zero reals].
  f_equal; entries.
Qed.
Lemma gx_p2 : project gx_N real_dot [[1; 0]; [0; 1]] [0; 0] = ([0; 0], [0; 0]).
Proof.
  cbv [project combination column map seq flat_map nth_error app length real_dot real_sum map2 combine fst snd fold_right vsub n_sub n_zero reals].
  f_equal; entries.
Qed.
Lemma gx_step0 : arnoldi_step gx_N real_sum real_dot [0; 1] gx_a0 = gx_a1.
Proof.
  unfold arnoldi_step, gx_a0, gx_a1. cbn [ar_vs ar_rot ar_cols ar_g ar_last]. rewrite gx_p0, gx_p0, (gx_norm1 0 1) by lra.
  rewrite gx_clamp1. cbn [rotate vadd map2 combine fst snd app length nth n_add n_mul n_div n_neg n_sqrt n_zero reals firstn map].
  replace ((0 + 0) * (0 + 0) + 1 * 1) with 1 by lra. rewrite sqrt_1, gx_clamp1.
  f_equal.
  - f_equal. f_equal. entries.
  - f_equal. f_equal. lra.
  - f_equal. f_equal; lra.
  - f_equal. lra.
  - lra.
Qed.
Lemma gx_step1 : arnoldi_step gx_N real_sum real_dot [1; 0] gx_a1 = gx_a2.
Proof.
  unfold arnoldi_step, gx_a1, gx_a2. cbn [ar_vs ar_rot ar_cols ar_g ar_last]. rewrite gx_p1, gx_p2, gx_norm0, gx_clamp0.
  cbn [rotate vadd map2 combine fst snd app length nth n_add n_mul n_div n_neg n_sqrt n_zero reals firstn map].
  match goal with |- context [clamp gx_N (sqrt ?e)] => replace e with 1 by lra end. rewrite sqrt_1, gx_clamp1.
  f_equal.
  - f_equal. f_equal. f_equal. entries.
  - f_equal. f_equal. entries.
  - f_equal. f_equal. f_equal; lra.
  - entries.
  - lra.
Qed.
Lemma gx_bnorm : bnorm gx_N real_sum [1; 0] = 1.
Proof. unfold bnorm. rewrite (gx_norm1 1 0) by lra. apply gx_clamp1. Qed.
Lemma gx_meets e : 1 / 4 <= e -> 0 <= e -> meets gx_N gx_cfg 1 e = false.
Proof.
  intros H1 H2. unfold meets. cbn [n_lt n_div reals k_abs_tol k_rel_tol gx_cfg].
  destruct (Rlt_dec e (1 / 4)); [lra|]. destruct (Rlt_dec (e / 1) 0); [lra|reflexivity].
Qed.
Lemma gx_meets0 : meets gx_N gx_cfg 1 0 = true.
Proof. unfold meets. cbn [n_lt reals k_abs_tol gx_cfg]. destruct (Rlt_dec 0 (1 / 4)); [reflexivity|lra]. Qed.
Definition gx_log : list (kcall R) :=
  [CPre [[1; 0]]; CMat [[1; 0]]; CPre [[0; 1]]; CMat [[0; 1]]; CPre [[1; 0]]].
Lemma gx_begin : gmres_begin gx_N real_sum gx_cfg [1; 0] [1; 0] (gmres_start gx_N [1; 0]) = mkG [0; 0] 0 false true gx_a0.
Proof.
  unfold gmres_begin. rewrite (gx_norm1 1 0), gx_bnorm, gx_clamp1 by lra. cbn [gmres_start gr_done gr_x gr_iters orb].
  rewrite gx_meets by lra. cbn [negb zeros map n_div n_zero reals]. unfold gx_a0. do 2 f_equal. f_equal. entries.
Qed.
Lemma gx_col0 : gmres_column gx_N real_sum real_dot gx_cfg [1; 0] [0; 1] (mkG [0; 0] 0 false true gx_a0) = mkG [0; 0] 1 false true gx_a1.
Proof.
  unfold gmres_column, gmres_test. cbn [gr_arn gr_active gr_done gr_x gr_iters negb andb orb]. rewrite gx_step0, gx_bnorm.
  cbn [ar_last gx_a1 n_abs reals]. replace (Rabs (- 1)) with 1 by (rewrite Rabs_left; lra). rewrite gx_meets by lra. reflexivity.
Qed.
Lemma gx_col1 : gmres_column gx_N real_sum real_dot gx_cfg [1; 0] [1; 0] (mkG [0; 0] 1 false true gx_a1) = mkG [0; 0] 2 true true gx_a2.
Proof.
  unfold gmres_column, gmres_test. cbn [gr_arn gr_active gr_done gr_x gr_iters negb andb orb]. rewrite gx_step1, gx_bnorm.
  cbn [ar_last gx_a2 n_abs reals]. rewrite Rabs_R0, gx_meets0. reflexivity.
Qed.
Lemma gx_correct : gmres_correct gx_N real_dot back_solve (mkG [0; 0] 2 true true gx_a2) = mkG [0; 2 / 3] 2 true true gx_a2.
Proof.
  unfold gmres_correct. cbn [gr_arn gr_x gr_iters gr_done gr_active]. f_equal.
  cbv [gx_a2 ar_cols ar_g ar_vs regularized back_solve back_sub rev app map combine seq length fst snd Nat.eqb firstn map2 nth
       n_add n_mul n_eps n_one n_zero reals combination column flat_map nth_error real_dot real_sum fold_right vadd].
  replace (1 / (1 + 1 / 2 * 1)) with (2 / 3) by lra.
  replace ((0 - 2 / 3 * (0 + 1 / 2 * 0)) / (1 + 1 / 2 * 1)) with 0 by (field_simplify; lra).
  entries.
Qed.

Lemma gx_m a b : apply_m gx_pre [[a; b]] = (Ok [[a; b]], [CPre [[a; b]]]).
Proof. reflexivity. Qed.
Lemma gx_a a b : apply_a gx_mat [[a; b]] = (Ok [[b; a]], [CMat [[a; b]]]).
Proof. reflexivity. Qed.
(** Two iterations; the row is flagged. *)
Lemma gx_done : gx_run = (Ok (mkKres [[0; 2 / 3]] 2 [true]), gx_log).
Proof.
  unfold gx_run, gmres. replace (cycles_of gx_cfg) with (Ok 1%Z : result Z) by reflexivity.
  change (k_restart gx_cfg) with 2%Z.
  cbn [kbind Z.ltb Z.compare andb]. change (Z.to_nat 2) with 2%nat. change (Z.to_nat 1) with 1%nat. unfold gx_b.
  cbn [map gmres_loop gmres_residual]. rewrite gx_m. cbn [kbind combine map2 map fst snd]. rewrite gx_begin. cbn [forallb gr_done andb].
  cbn [gmres_cycle map]. change (last_v (gr_arn (mkG [0; 0] 0 false true gx_a0))) with [1; 0].
  rewrite gx_a. cbn [kbind]. rewrite gx_m. cbn [kbind combine map2 map fst snd].
  rewrite gx_col0. cbn [forallb gr_done andb map]. change (last_v (gr_arn (mkG [0; 0] 1 false true gx_a1))) with [0; 1].
  rewrite gx_a. cbn [kbind]. rewrite gx_m. cbn [kbind combine map2 map fst snd].
  rewrite gx_col1. cbn [forallb gr_done andb map kret kbind app]. rewrite gx_correct. reflexivity.
Qed.

Lemma gx_linear : linear_op gx_N 2 gx_swap.
Proof.
  split; [|split].
  - intros [|a [|b [|c x]]] L; try discriminate. reflexivity.
  - intros [|a [|b [|c x]]] [|d [|e [|f y]]] Lx Ly; try discriminate. reflexivity.
  - intros k [|a [|b [|c x]]] L; try discriminate. reflexivity.
Qed.
Lemma gx_identity : linear_op gx_N 2 (fun x => x).
Proof. split; [intros x L; exact L|]. split; reflexivity. Qed.
Lemma gx_bounded : bounded_below (1 / 2) 2 gx_swap.
Proof.
  intros [|a [|b [|c x]]] L; try discriminate. cbv [square real_dot real_sum map2 combine map fst snd fold_right gx_swap rev app]. nra.
Qed.
Lemma gx_acts : acts_on 0 gx_swap gx_mat /\ acts_on 0 (fun x => x) gx_pre.
Proof.
  split; intros x y v E Ev.
  - injection E as <-. rewrite nth_error_map, Ev. reflexivity.
  - injection E as <-. exact Ev.
Qed.
Lemma gx_normalised : normalised 2 0 2 gx_log.
Proof.
  intros [|[|q]] x v Hq E Ev; [| |lia]; cbn in E; injection E as <-; cbn in Ev; injection Ev as <-; left;
    cbv [square real_dot real_sum map2 combine map fst snd fold_right]; lra.
Qed.
