(** GMRES over the real numbers, in the Newton step and in the sensitivity solve. *)
From Coq Require Import Reals Lra.
From Verif Require Import Base BaseProofs Tensor TensorProofs Newton Pack Krylov SpecKrylov KrylovProofs KrylovCostProofs KrylovExactProofs KrylovBudgetProofs
     KrylovSystem SpecKrylovSystem BroadcastProofs KrylovDenseProofs SpecKrylovStep KrylovStepProofs.
From Verif Require PackProofs.
From Verif Require Import SpecGmres SpecStepGmres RealVec GmresExactProofs GmresStopProofs.
Local Open Scope nat_scope.
Notation sum_ws := SpecKrylovSystem.sum_of.

(** A solve that stopped before its budget flagged every row. *)
Lemma gmres_flagged {V} (N : num V) rsum edot tri f g b cfg res l i x : (0 < k_restart cfg)%Z ->
  gmres N rsum edot tri f g b cfg = (Ok res, l) -> (Z.of_nat (kr_iters res) < k_max_its cfg)%Z ->
  nth_error (kr_du res) i = Some x -> nth_error (kr_converged res) i = Some true.
Proof.
  intros Hm H Lt Ex. destruct (gmres_exact N rsum edot tri f g b cfg res l Hm H) as (c & st & k & Ec & _ & E1 & E2 & _).
  rewrite E1, nth_error_map in Ex. rewrite E2, nth_error_map. destruct (nth_error st i) as [s|] eqn:Es; [|discriminate]. cbn [option_map].
  destruct (gr_done s) eqn:D; [reflexivity|exfalso].
  pose proof (cycles_least cfg c ltac:(lia) ltac:(lia) Ec) as LC.
  destruct (gmres_unconverged N rsum edot tri f g b cfg res l c Hm ltac:(lia) LC H) as [_ Q].
  destruct Q as [Q _]; [rewrite E2, <- D; apply in_map; eapply nth_error_In, Es|]. destruct LC as [LC _]. lia.
Qed.

Lemma gmres_near n eps tri f g b cfg res l i A M bi x :
  (0 < eps)%R -> solves_upper tri -> (0 < k_restart cfg)%Z ->
  acts_on i A f -> acts_on i M g -> linear_op (reals eps) n A -> linear_op (reals eps) n M ->
  bounded_below eps n (fun v => M (A v)) ->
  gmres (reals eps) real_sum real_dot tri f g b cfg = (Ok res, l) ->
  nth_error b i = Some bi -> length bi = n -> nth_error (kr_du res) i = Some x ->
  normalised (Z.to_nat (k_restart cfg)) i (kr_iters res) l -> (Z.of_nat (kr_iters res) < k_max_its cfg)%Z ->
  near eps cfg n (kr_iters res) bi x (M (residual_of (reals eps) A bi x)).
Proof.
  intros He ST Hm EA EM LA LM GB H Eb Lb Ex Hn Lt.
  destruct (gmres_reals n eps tri f g b cfg res l i A M bi x He ST Hm EA EM LA LM GB H Eb Lb Ex Hn) as (_ & Q & _).
  apply Q, (gmres_flagged (reals eps) real_sum real_dot tri f g b cfg res l i x Hm H Lt Ex).
Qed.

Lemma keeps_of {V} (N : num V) n A : linear_op N n A -> keeps_width n A.
Proof. intros [H _]. exact H. Qed.

Lemma step_gmres eps tri s u dyn d rws A M st du b st' l :
  sum_ws (map width u) = sum_ws rws ->
  (forall r, ks_res s u = Ok r -> dense_groups dyn d r rws) ->
  row_operator dyn d (map width u) rws A (ks_mat s u) ->
  (0 < eps)%R -> solves_upper tri -> k_method (ks_cfg s) = GMRES -> (0 < k_restart (ks_cfg s))%Z ->
  (forall i, i < numel dyn -> linear_op (reals eps) (sum_ws rws) (A i)) -> (forall i, i < numel dyn -> linear_op (reals eps) (sum_ws rws) (M i)) ->
  (forall i, i < numel dyn -> bounded_below eps (sum_ws rws) (fun v => M i (A i v))) ->
  kstep (reals eps) real_sum real_dot tri s u st = (Ok (du, b), st', l) ->
  precond_rows s (numel dyn) (sum_ws rws) d M (st_precond st') ->
  (st_last st' < k_max_its (ks_cfg s))%Z ->
  exists iters calls setup_calls, l = SResidual u :: setup_calls ++ [SSolve (st_precond st') calls (Ok iters)] /\
  forall i, i < numel dyn -> normalised (Z.to_nat (k_restart (ks_cfg s))) i iters calls ->
    near eps (ks_cfg s) (sum_ws rws) iters (row_entries i b) (row_entries i du)
         (M i (residual_of (reals eps) (A i) (row_entries i b) (row_entries i du))).
Proof.
  intros H1 H2 H3 He ST Em Hm LA LM GB H P Lt.
  destruct (step_solves (reals eps) real_sum real_dot tri s u dyn d rws A H1 H2 H3 st du b st' l M (or_intror Hm)
              (fun i Hi => keeps_of _ _ _ (LA i Hi)) (fun i Hi => keeps_of _ _ _ (LM i Hi)) H P)
    as (Eb & _ & iters & calls & sc & El & Ei & op & pre & res & Hk & Ac & Ed & Er).
  exists iters, calls, sc. split; [exact El|]. intros i Hi Hn. destruct (Ac i Hi) as [AA AM].
  unfold krylov_solve in Hk. rewrite Em in Hk. rewrite <- Er in *.
  apply (gmres_near (sum_ws rws) eps tri op pre (map (fun i => row_entries i b) (seq 0 (numel dyn))) (ks_cfg s) res calls i (A i) (M i)); auto.
  - rewrite nth_error_map, seq_nth_error by exact Hi. reflexivity.
  - pose proof (H2 b Eb) as Gb. rewrite row_entries_width. clear - Gb Hi. induction Gb as [|t w ts ws [W [_ S]] _ IH]; [reflexivity|].
    cbn [flat_map SpecKrylovSystem.sum_of fold_right]. rewrite app_length. f_equal; [|exact IH].
    assert (Ew : width t = w) by (unfold width; rewrite S; apply last_last). rewrite Ew.
    apply (row_data_len _ _ (numel dyn)); [|exact Hi]. rewrite W, S, numel_app, PackProofs.numel_one. reflexivity.
  - rewrite Ed, nth_error_map, seq_nth_error by exact Hi. reflexivity.
  - lia.
Qed.

Lemma real_linear eps n : linear_dot (reals eps) n real_dot.
Proof.
  intros a La. cbn [n_add n_mul reals]. split.
  - intros x y Lx Ly. apply (dot_plus n); assumption.
  - intros c x Lx. apply dot_times.
Qed.

Lemma dense_gmres eps tri cfg pre n m (A B X : tensor R) :
  (0 < eps)%R -> solves_upper tri -> k_method cfg = GMRES -> (0 < k_restart cfg)%Z ->
  wf A -> t_shape A = pre ++ [n; n] -> wf B -> t_shape B = pre ++ [n; m] ->
  krylov_solve_dense (reals eps) real_sum real_dot tri cfg A B = Ok X ->
  forall j, j < m -> exists b res l,
    krylov_solve (reals eps) real_sum real_dot tri (dense_matvec real_dot n (t_data A) (numel pre)) (fun r => Ok r) b cfg = (Ok res, l) /\
    length b = numel pre /\
    forall i, i < numel pre -> exists a bi x,
      matrix_of (t_data A) n i a /\ column_of (t_data B) n m i j bi /\ column_of (t_data X) n m i j x /\ nth_error b i = Some bi /\
      ((Z.of_nat (kr_iters res) < k_max_its cfg)%Z -> normalised (Z.to_nat (k_restart cfg)) i (kr_iters res) l ->
       bounded_below eps n (apply_matrix real_dot a) ->
       near eps cfg n (kr_iters res) bi x (residual_of (reals eps) (apply_matrix real_dot a) bi x)).
Proof.
  intros He ST Em Hm WA EA WB EB H j Hj.
  destruct (dense_columns (reals eps) real_sum real_dot tri cfg pre n m A B X (or_intror Hm) WA EA WB EB H) as (_ & _ & C).
  destruct (C j Hj) as (b & res & l & Hk & Lb & Ci). exists b, res, l. split; [exact Hk|]. split; [exact Lb|].
  intros i Hi. destruct (Ci i Hi) as (bi & x & Eb & Cb & Ex & Cx).
  assert (LA : length (t_data A) = numel pre * (n * n)) by (rewrite WA, EA, numel_app; cbn; lia).
  pose proof (rows_at_matrix real_sum real_dot tri n (t_data A) (numel pre) i LA Hi) as MA.
  exists (rows_at n (row_data (n * n) i (t_data A))), bi, x. split; [exact MA|]. split; [exact Cb|]. split; [exact Cx|]. split; [exact Eb|].
  intros Hlt Hn GB.
  unfold krylov_solve in Hk. rewrite Em in Hk.
  apply (gmres_near n eps tri (dense_matvec real_dot n (t_data A) (numel pre)) (fun r => Ok r) b cfg res l i _ (fun v => v) bi x); auto.
  - intros y z v Hy Ev. rewrite (dense_acts real_dot n (t_data A) (numel pre) i y z v Hy Ev). rewrite dense_row_apply. reflexivity.
  - apply id_acts.
  - apply linear_matrix; [apply real_linear|apply MA|apply MA].
  - split; [intros y L; exact L|]. split; reflexivity.
  - apply Cb.
Qed.

(** Cycles as long as a row: every row is flagged. *)

Lemma step_stops eps tri s u dyn d rws A M st du b st' l :
  sum_ws (map width u) = sum_ws rws ->
  (forall r, ks_res s u = Ok r -> dense_groups dyn d r rws) ->
  row_operator dyn d (map width u) rws A (ks_mat s u) ->
  (0 < eps)%R -> solves_upper tri -> k_method (ks_cfg s) = GMRES -> full_cycle (fun x => 0 < x)%R (ks_cfg s) (sum_ws rws) ->
  (forall i, i < numel dyn -> linear_op (reals eps) (sum_ws rws) (A i)) -> (forall i, i < numel dyn -> linear_op (reals eps) (sum_ws rws) (M i)) ->
  (forall i, i < numel dyn -> bounded_below eps (sum_ws rws) (fun v => M i (A i v))) ->
  kstep (reals eps) real_sum real_dot tri s u st = (Ok (du, b), st', l) ->
  precond_rows s (numel dyn) (sum_ws rws) d M (st_precond st') ->
  exists iters calls setup_calls, l = SResidual u :: setup_calls ++ [SSolve (st_precond st') calls (Ok iters)] /\
  ((forall i, i < numel dyn -> normalised (Z.to_nat (k_restart (ks_cfg s))) i (sum_ws rws) calls) ->
   iters <= sum_ws rws /\
   forall i, i < numel dyn -> met eps (ks_cfg s) (row_entries i b) (row_entries i du)
         (M i (residual_of (reals eps) (A i) (row_entries i b) (row_entries i du)))).
Proof.
  intros H1 H2 H3 He ST Em Fc LA LM GB H P.
  destruct (step_solves (reals eps) real_sum real_dot tri s u dyn d rws A H1 H2 H3 st du b st' l M (or_intror (proj1 Fc))
              (fun i Hi => keeps_of _ _ _ (LA i Hi)) (fun i Hi => keeps_of _ _ _ (LM i Hi)) H P)
    as (Eb & _ & iters & calls & sc & El & Ei & op & pre & res & Hk & Ac & Ed & Er).
  exists iters, calls, sc. split; [exact El|]. intros Hn.
  unfold krylov_solve in Hk. rewrite Em in Hk. rewrite <- Er in *.
  destruct (gmres_stops (sum_ws rws) eps tri op pre (map (fun i => row_entries i b) (seq 0 (numel dyn))) (ks_cfg s) res calls A M He ST Fc Hk) as (I & _ & Q).
  - intros i bi Ebi. assert (Hi : i < numel dyn).
    { rewrite <- (seq_length (numel dyn) 0), <- (map_length (fun i => row_entries i b)). apply nth_error_Some. congruence. }
    rewrite nth_error_map, seq_nth_error in Ebi by exact Hi. injection Ebi as <-. destruct (Ac i Hi) as [AA AM].
    split; [|repeat split; auto; try apply LA; try apply LM; auto].
    pose proof (H2 b Eb) as Gb. rewrite row_entries_width. clear - Gb Hi. induction Gb as [|t w ts ws [W [_ S]] _ IH]; [reflexivity|].
    cbn [flat_map SpecKrylovSystem.sum_of fold_right]. rewrite app_length. f_equal; [|exact IH].
    assert (Ew : width t = w) by (unfold width; rewrite S; apply last_last). cbn [Nat.add]. rewrite Ew.
    apply (row_data_len _ _ (numel dyn)); [|exact Hi]. rewrite W, S, numel_app, PackProofs.numel_one. reflexivity.
  - split; [exact I|]. intros i Hi. apply Q.
    + rewrite nth_error_map, seq_nth_error by exact Hi. reflexivity.
    + rewrite Ed, nth_error_map, seq_nth_error by exact Hi. reflexivity.
Qed.

Lemma dense_stops eps tri cfg pre n m (A B X : tensor R) :
  (0 < eps)%R -> solves_upper tri -> k_method cfg = GMRES -> full_cycle (fun x => 0 < x)%R cfg n ->
  wf A -> t_shape A = pre ++ [n; n] -> wf B -> t_shape B = pre ++ [n; m] ->
  (forall i a, i < numel pre -> matrix_of (t_data A) n i a -> bounded_below eps n (apply_matrix real_dot a)) ->
  krylov_solve_dense (reals eps) real_sum real_dot tri cfg A B = Ok X ->
  forall j, j < m -> exists b res l,
    krylov_solve (reals eps) real_sum real_dot tri (dense_matvec real_dot n (t_data A) (numel pre)) (fun r => Ok r) b cfg = (Ok res, l) /\
    length b = numel pre /\
    ((forall i, i < numel pre -> normalised (Z.to_nat (k_restart cfg)) i n l) ->
     kr_iters res <= n /\
     forall i, i < numel pre -> exists a bi x,
       matrix_of (t_data A) n i a /\ column_of (t_data B) n m i j bi /\ column_of (t_data X) n m i j x /\ nth_error b i = Some bi /\
       met eps cfg bi x (residual_of (reals eps) (apply_matrix real_dot a) bi x)).
Proof.
  intros He ST Em Fc WA EA WB EB GB H j Hj.
  destruct (dense_columns (reals eps) real_sum real_dot tri cfg pre n m A B X (or_intror (proj1 Fc)) WA EA WB EB H) as (_ & _ & C).
  destruct (C j Hj) as (b & res & l & Hk & Lb & Ci). exists b, res, l. split; [exact Hk|]. split; [exact Lb|]. intros Hn.
  assert (LA : length (t_data A) = numel pre * (n * n)) by (rewrite WA, EA, numel_app; cbn; lia).
  unfold krylov_solve in Hk. rewrite Em in Hk.
  destruct (gmres_stops n eps tri (dense_matvec real_dot n (t_data A) (numel pre)) (fun r => Ok r) b cfg res l
             (fun i => apply_matrix real_dot (rows_at n (row_data (n * n) i (t_data A)))) (fun _ v => v) He ST Fc Hk) as (I & _ & Q).
  - intros i bi Eb. assert (Hi : i < numel pre) by (rewrite <- Lb; apply nth_error_Some; congruence).
    pose proof (rows_at_matrix real_sum real_dot tri n (t_data A) (numel pre) i LA Hi) as MA.
    destruct (Ci i Hi) as (bi' & x & Eb' & Cb & _). rewrite Eb in Eb'. injection Eb' as <-. split; [apply Cb|].
    split; [intros y z v Hy Ev; rewrite (dense_acts real_dot n (t_data A) (numel pre) i y z v Hy Ev), dense_row_apply; reflexivity|].
    split; [apply id_acts|]. split; [apply linear_matrix; [apply real_linear|apply MA|apply MA]|].
    split; [split; [intros y L; exact L|split; reflexivity]|]. split; [exact (GB i _ Hi MA)|exact (Hn i Hi)].
  - split; [exact I|]. intros i Hi. destruct (Ci i Hi) as (bi & x & Eb & Cb & Ex & Cx).
    exists (rows_at n (row_data (n * n) i (t_data A))), bi, x. split; [exact (rows_at_matrix real_sum real_dot tri n (t_data A) (numel pre) i LA Hi)|].
    split; [exact Cb|]. split; [exact Cx|]. split; [exact Eb|]. apply (Q i bi x Eb Ex).
Qed.
