(** Concrete Krylov solves: in binary64, and BiCGStab over the rationals. *)
From Coq Require Import QArith Qcanon.
From Verif Require Import Base Tensor Float Newton Krylov SpecKrylov KrylovSystem SpecKrylovSystem KrylovDenseProofs.
Local Close Scope Q_scope.
Local Open Scope string_scope.
Local Open Scope list_scope.

(** ** binary64 *)
Definition kx_dot (a b : list F) : F := fold_left (fun s p => fadd s (fmul (fst p) (snd p))) (combine a b) fzero.
Definition kx_sum (a : list F) : F := fold_left fadd a fzero.
(** Back substitution with the columns of an upper triangular matrix. *)
Fixpoint kx_back (k : nat) (cols : list (list F)) (g : list F) : list F :=
  match k with
  | 0 => []
  | S k' =>
      let col := nth k' cols [] in
      let x := fdiv (nth k' g fzero) (nth k' col fone) in
      kx_back k' cols (map2 (fun gi c => fsub gi (fmul x c)) g col) ++ [x]
  end.
Definition kx_tri (cols : list (list F)) (g : list F) : list F := kx_back (length cols) cols g.
Definition kx_mat (a : list (list F)) (v : list F) : list F := map (fun r => kx_dot r v) a.
Definition kx_id (v : list F) : list F := v.
Definition kx_rel : F := fdiv fone (fnum 10000 0).
(** The defaults of krylov.h:76-85 but for the method and the budget. *)
Definition kx_cfg (m : method) (restart its : Z) : kconfig F := mkKcfg m CacheNone restart its fzero kx_rel 10.
Definition kx_solve (b : list (list F)) (As Ms : list (list F -> list F)) (cfg : kconfig F) : kio F (kresult F) :=
  krylov_solve binary64 kx_sum kx_dot kx_tri (per_row As) (per_row Ms) b cfg.

(** A permutation matrix. *)
Definition kx_swap : list F -> list F := kx_mat [[fzero; fone]; [fone; fzero]].
(** A diagonal matrix for which one iteration meets the default tolerance, but is not exact. *)
Definition kx_near : list F -> list F := kx_mat [[fone; fzero]; [fzero; fadd fone (fnum 1 (-14))]].
Definition kx_e1 : list F := [fone; fzero].
Definition kx_ones : list F := [fone; fone].
Definition kx_diag (x y : Z) : list F -> list F := kx_mat [[fnum x 0; fzero]; [fzero; fnum y 0]].

(** Each of the operators keeps the width 2. *)
Lemma kx_mat_width a n : length a = n -> keeps_width n (kx_mat a).
Proof. intros <- x _. apply map_length. Qed.
Lemma kx_id_width n : keeps_width n kx_id.
Proof. intros x H. exact H. Qed.

(** ** The preconditioner cache *)
(** Two unknowns in one group.  The matrix is the identity at a point starting with 1 (one iteration) and
    diag(1, 2) elsewhere (two iterations); the preconditioner is the identity. *)
Definition kx_point (x : Z) : list (tensor F) := [mkT [1; 2] [fnum x 0; fzero] cpu].
Definition kx_first (u : list (tensor F)) : F := match u with t :: _ => nth 0 (t_data t) fzero | [] => fzero end.
Definition kx_layout : list glayout := [mkLayout "dense" []].
Definition kx_system (c : cache_strategy) (bar : Z) : ksystem F :=
  mkKsys kx_layout kx_layout (mkKcfg BiCGStab c 40 1000 fzero kx_rel bar)
    (fun u => Ok [mkT [1; 2] kx_ones cpu])
    (fun u v => match v with
                | [t] => Ok [mkT (t_shape t) (if SFeqb (kx_first u) fone then t_data t else kx_diag 1 2 (t_data t)) (t_dev t)]
                | _ => Err (StdExn "groups")
                end)
    (Some ((fun u => Ok u), (fun p r => Ok r))).
Definition kx_points : list (list (tensor F)) := map kx_point [1; 2; 1; 1; 2]%Z.
Definition kx_run (c : cache_strategy) (bar : Z) : list (result (list (tensor F) * list (tensor F)) * list (sys_call (V:=F))) :=
  ksteps binary64 kx_sum kx_dot kx_tri (kx_system c bar) kx_points fresh_state.

(** ** Dense groups *)
Definition kx_g1 : tensor Z := mkT [2; 1; 2] [1; 2; 3; 4]%Z cpu.
Definition kx_g2 : tensor Z := mkT [2; 1; 1] [5; 6]%Z cpu.
Lemma kx_dense : dense_groups [2; 1] cpu [kx_g1; kx_g2] [2; 1].
Proof. repeat constructor. Qed.
Lemma kx_all_dense : all_dense [mkLayout "dense" []; mkLayout "dense" []].
Proof. repeat constructor; cbn; discriminate. Qed.

(** ** Exact arithmetic *)
(** Rationals; norms are left squared. *)
Definition qk_lt (a b : Qc) : bool := negb (Qle_bool (this b) (this a)).
Definition qk_num : num Qc :=
  mkNum (Q2Qc 0) (Q2Qc 1) Qcplus Qcminus Qcmult Qcdiv Qcopp (fun x => x) (fun x => if qk_lt x (Q2Qc 0) then Qcopp x else x) qk_lt (Q2Qc (1 # 1000000)).
Definition qk_sum (l : list Qc) : Qc := fold_right Qcplus (Q2Qc 0) l.
Definition qk_dot (a b : list Qc) : Qc := qk_sum (map2 Qcmult a b).
Definition qk_tri (cols : list (list Qc)) (g : list Qc) : list Qc := g.
Definition qk_cfg (its : Z) : kconfig Qc := mkKcfg BiCGStab CacheNone 40 its (Q2Qc 0) (Q2Qc (1 # 10000000)) 10.
Definition qk (z : Z) : Qc := Q2Qc (inject_Z z).
Lemma qk_ring : ring_of qk_num.
Proof. exact Qcrt. Qed.
Lemma qk_dot_cons a0 a x0 x : qk_dot (a0 :: a) (x0 :: x) = Qcplus (Qcmult a0 x0) (qk_dot a x).
Proof. reflexivity. Qed.
Lemma qk_dot_add a x y : length x = length a -> length y = length a ->
  qk_dot a (map2 Qcplus x y) = Qcplus (qk_dot a x) (qk_dot a y).
Proof.
  revert x y. induction a as [|a0 a IH]; intros [|x0 x] [|y0 y] Lx Ly; try discriminate; [reflexivity|].
  change (map2 Qcplus (x0 :: x) (y0 :: y)) with (Qcplus x0 y0 :: map2 Qcplus x y). rewrite !qk_dot_cons.
  rewrite IH by (cbn in *; lia). ring.
Qed.
Lemma qk_dot_mul a c x : length x = length a -> qk_dot a (map (Qcmult c) x) = Qcmult c (qk_dot a x).
Proof.
  revert x. induction a as [|a0 a IH]; intros [|x0 x] Lx; try discriminate.
  - change (Q2Qc 0 = Qcmult c (Q2Qc 0)). ring.
  - cbn [map]. rewrite !qk_dot_cons. rewrite IH by (cbn in *; lia). ring.
Qed.
Lemma qk_linear n : linear_dot qk_num n qk_dot.
Proof. intros a La. split; intros; [apply qk_dot_add|apply qk_dot_mul]; congruence. Qed.
(** Two systems with two right-hand sides each: [[2,1],[1,3]] and the identity. *)
Definition qk_A : tensor Qc := mkT [2; 2; 2] (map qk [2; 1; 1; 3; 1; 0; 0; 1]%Z) cpu.
Definition qk_B : tensor Qc := mkT [2; 2; 2] (map qk [1; 0; 2; 1; 5; 1; 7; 1]%Z) cpu.
(** [[2,1],[1,3]] x = (1,2), one row. *)
Definition qk_mat : list Qc -> list Qc := apply_matrix qk_dot [[qk 2; qk 1]; [qk 1; qk 3]].
Lemma qk_mat_linear : linear_op qk_num 2 qk_mat.
Proof. apply linear_matrix; [apply qk_linear|reflexivity|repeat constructor]. Qed.
Definition qk_solve (its : Z) : kio Qc (kresult Qc) :=
  bicgstab qk_num qk_sum qk_dot (per_row [qk_mat]) (per_row [fun v => v]) [[qk 1; qk 2]] (qk_cfg its).
(** Converged in the second iteration, not in the first. *)
Lemma qk_flags : rmap kr_converged (fst (qk_solve 5)) = Ok [true] /\ rmap kr_iters (fst (qk_solve 5)) = Ok 2 /\
  rmap kr_converged (fst (qk_solve 1)) = Ok [false].
Proof. vm_compute. auto. Qed.
