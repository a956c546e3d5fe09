(** GMRES stops: no more orthonormal directions than dimensions. *)
From Coq Require Import Reals Lra Psatz.
From Verif Require Import Base BaseProofs Newton Krylov SpecKrylov SpecGmres KrylovProofs KrylovCostProofs KrylovRowProofs
     KrylovGmresProofs KrylovSoloProofs RealVec GmresBasis GmresExactProofs.
Local Open Scope R_scope.

(** ** Dimension *)
Definition axis (n j : nat) : rvec := map (fun t => if Nat.eqb t j then 1 else 0) (seq 0 n).
Lemma axis_len n j : length (axis n j) = n.
Proof. unfold axis. rewrite map_length, seq_length. reflexivity. Qed.
Lemma dot_away u : forall s j, (j < s)%nat -> real_dot u (map (fun t => if Nat.eqb t j then 1 else 0) (seq s (length u))) = 0.
Proof.
  induction u as [|x u IH]; intros s j H; [reflexivity|]. cbn [length seq map]. rewrite dot_cons, IH by lia.
  destruct (Nat.eqb_spec s j); [lia|]. ring.
Qed.
Lemma dot_axis_from u : forall s j, (j < length u)%nat -> real_dot u (map (fun t => if Nat.eqb t (s + j) then 1 else 0) (seq s (length u))) = co j u.
Proof.
  induction u as [|x u IH]; intros s j H; [cbn in H; lia|]. cbn [length seq map]. rewrite dot_cons. destruct j as [|j].
  - rewrite Nat.add_0_r, Nat.eqb_refl, dot_away by lia. unfold co. cbn. ring.
  - cbn in H. destruct (Nat.eqb_spec s (s + S j)); [lia|]. replace (s + S j)%nat with (S s + j)%nat by lia. rewrite IH by lia. unfold co. cbn [nth]. ring.
Qed.
Lemma dot_axis n u j : length u = n -> (j < n)%nat -> real_dot u (axis n j) = co j u.
Proof. intros <- H. exact (dot_axis_from u 0 j H). Qed.
Lemma axis_square n j : (j < n)%nat -> square (axis n j) = 1.
Proof.
  intros H. unfold square. rewrite (dot_axis n) by (auto using axis_len). unfold co. apply nth_error_nth. unfold axis. rewrite nth_error_map, seq_nth_error by lia.
  cbn. rewrite Nat.eqb_refl. reflexivity.
Qed.
Lemma square_sum u : square u = real_sum (map (fun j => co j u * co j u) (seq 0 (length u))).
Proof.
  unfold square. induction u as [|x u IH]; [reflexivity|]. rewrite dot_cons, IH. cbn [length seq map real_sum fold_right]. rewrite <- seq_shift, map_map. reflexivity.
Qed.
Lemma real_sum_plus {X} (f g : X -> R) l : real_sum (map (fun x => f x + g x) l) = real_sum (map f l) + real_sum (map g l).
Proof. induction l as [|x l IH]; cbn [map real_sum fold_right]; [ring|]. fold (real_sum (map (fun x => f x + g x) l)) (real_sum (map f l)) (real_sum (map g l)). rewrite IH. ring. Qed.
Lemma real_sum_zero {X} (l : list X) : real_sum (map (fun _ => 0) l) = 0.
Proof. induction l as [|x l IH]; cbn [map real_sum fold_right]; [reflexivity|]. fold (real_sum (map (fun _ : X => 0) l)). rewrite IH. ring. Qed.
Lemma real_sum_swap {X Y} (f : X -> Y -> R) l k : real_sum (map (fun x => real_sum (map (f x) k)) l) = real_sum (map (fun y => real_sum (map (fun x => f x y) l)) k).
Proof.
  induction l as [|x l IH].
  - cbn [map]. symmetry. apply real_sum_zero.
  - cbn [map real_sum fold_right]. fold (real_sum (map (fun x => real_sum (map (f x) k)) l)). rewrite IH, <- real_sum_plus. reflexivity.
Qed.
Lemma real_sum_le {X} (f g : X -> R) l : (forall x, In x l -> f x <= g x) -> real_sum (map f l) <= real_sum (map g l).
Proof.
  induction l as [|x l IH]; intros H; cbn [map real_sum fold_right]; [lra|].
  pose proof (H x (or_introl eq_refl)). pose proof (IH (fun y I => H y (or_intror I))). unfold real_sum in *. lra.
Qed.
Lemma real_sum_ones {X} (l : list X) : real_sum (map (fun _ => 1) l) = INR (length l).
Proof. induction l as [|x l IH]; [reflexivity|]. cbn [map real_sum fold_right length]. fold (real_sum (map (fun _ : X => 1) l)). rewrite IH, S_INR. ring. Qed.

Section Dimension.
  Variable n : nat.
  Definition units (us : list rvec) : Prop := Forall (fun u => square u = 1) us.
  Lemma weigh_units h us : units us -> length h = length us -> weigh h us = real_sum (map (fun x => x * x) h).
  Proof.
    revert h. induction us as [|u us IH]; intros [|x h] U E; try discriminate; [reflexivity|]. inversion U as [|? ? U1 U2]; subst.
    cbn [weigh map real_sum fold_right]. fold (real_sum (map (fun x => x * x) h)). rewrite U1, IH by (auto; cbn in E; lia). ring.
  Qed.
  (** Bessel's inequality. *)
  Lemma bessel us e : all_len n us -> orth us -> units us -> length e = n -> real_sum (map (fun u => real_dot u e * real_dot u e) us) <= square e.
  Proof.
    intros L O U Le.
    assert (U' : Forall (fun v => square v = 1 \/ v = nil_v n) us) by (eapply Forall_impl; [|exact U]; auto).
    pose proof (project_orth n us e L O U' Le) as Po. set (h := dots us e) in *. set (w := minus e (comb n h us)) in *.
    assert (Lc : length (comb n h us) = n) by (apply comb_len; exact L).
    assert (Lw : length w = n) by (unfold w; vlen).
    assert (E : e = plus w (comb n h us)) by (unfold w; vec n; ring).
    assert (Z : real_dot w (comb n h us) = 0) by (apply dot_comb; auto; intros v I; rewrite dot_comm; apply Po, I).
    assert (Q : square e = square w + real_sum (map (fun x => x * x) h)).
    { rewrite E at 1. rewrite (square_plus n) by assumption. rewrite Z, square_comb by assumption. rewrite weigh_units by (auto; unfold h, dots; apply map_length). ring. }
    rewrite Q. unfold h, dots. rewrite map_map. pose proof (square_pos w). lra.
  Qed.
  Lemma at_most us : all_len n us -> orth us -> units us -> (length us <= n)%nat.
  Proof.
    intros L O U. apply INR_le.
    assert (E1 : INR (length us) = real_sum (map (fun u => real_sum (map (fun j => co j u * co j u) (seq 0 n))) us)).
    { rewrite <- real_sum_ones. f_equal. apply map_ext_in. intros u I. unfold units, all_len in *. rewrite Forall_forall in L, U. rewrite <- (U u I), square_sum, (L u I). reflexivity. }
    rewrite E1, real_sum_swap. rewrite <- (seq_length n 0) at 2. rewrite <- (real_sum_ones (seq 0 n)). apply real_sum_le. intros j Ij. apply in_seq in Ij.
    rewrite <- (axis_square n j) by lia. eapply Rle_trans; [|apply (bessel us (axis n j) L O U (axis_len n j))]. right. f_equal. apply map_ext_in. intros u I.
    rewrite (dot_axis n) by (try lia; unfold all_len in L; rewrite Forall_forall in L; auto). reflexivity.
  Qed.
End Dimension.

(** ** The solve *)
Section Stop.
  Variable n : nat.
  Variable eps : R.
  Hypothesis eps_pos : 0 < eps.
  Variable tri : list (list R) -> list R -> list R.
  Notation N := (reals eps).
  Variable A M : rvec -> rvec.
  Hypothesis LA : linear_op N n A.
  Hypothesis LM : linear_op N n M.
  Notation B := (fun v => M (A v)).
  Hypothesis GB : bounded_below eps n B.
  Variable bi : rvec.
  Hypothesis Lb : length bi = n.
  Notation ok cfg e := (meets N cfg (bnorm N real_sum bi) e).
  Variable matvec minv : list rvec -> result (list rvec).
  Variable b : list rvec.
  Variable i : nat.
  Hypothesis EA : acts_on i A matvec.
  Hypothesis EM : acts_on i M minv.
  Hypothesis Eb : nth_error b i = Some bi.

  (** A row that is done stays so and stops counting. *)
  Lemma cycle_keeps cfg more st st' l si :
    length st = length b -> gmres_cycle N real_sum real_dot matvec minv cfg b more st = (Ok st', l) -> nth_error st i = Some si -> gr_done si = true ->
    exists si', nth_error st' i = Some si' /\ gr_done si' = true /\ gr_iters si' = gr_iters si.
  Proof using EA EM Eb.
    revert st si l. induction more as [|more IH]; intros st si l L H Es D.
    { cbn in H. injection H as <- <-. eauto. }
    destruct (col_row N real_sum real_dot matvec minv b i A M bi EA EM Eb cfg more st st' l L H) as (l' & st1 & L1 & R & _ & Hn). specialize (Hn si Es).
    set (s1 := gmres_column _ _ _ _ _ _ _) in Hn. assert (D1 : gr_done s1 = true) by (unfold s1; cbn; rewrite D; reflexivity).
    assert (I1 : gr_iters s1 = gr_iters si) by (unfold s1; cbn; rewrite D, Bool.andb_false_r; reflexivity). clearbody s1.
    destruct (forallb gr_done st1); [injection R as <- <-; eauto|]. destruct (IH st1 s1 l' L1 R Hn D1) as (s' & X1 & X2 & X3). exists s'. split; [exact X1|]. split; [exact X2|congruence].
  Qed.
  Lemma loop_keeps cfg m first cycles st st' l si :
    length st = length b -> gmres_loop N real_sum real_dot tri matvec minv cfg b m first cycles st = (Ok st', l) -> nth_error st i = Some si -> gr_done si = true ->
    exists si', nth_error st' i = Some si' /\ gr_done si' = true /\ gr_iters si' = gr_iters si.
  Proof using EA EM Eb.
    revert first st si l. induction cycles as [|cycles IH]; intros first st si l L H Es D.
    { cbn in H. injection H as <- <-. eauto. }
    cbn [gmres_loop] in H. apply kbind_inv in H as (r & l1 & l2 & E & H & _).
    destruct (begin_row N real_sum matvec minv b i A M bi EA EM Eb cfg first st r l1 L E) as (L1 & Hn). cbv zeta in *. specialize (Hn si Es).
    set (st1 := map2 _ _ st) in *. set (s1 := gmres_begin _ _ _ _ _ si) in Hn.
    assert (D1 : gr_done s1 = true) by (unfold s1; cbn; rewrite D; reflexivity). assert (I1 : gr_iters s1 = gr_iters si) by reflexivity. clearbody st1 s1.
    destruct (forallb gr_done st1); [injection H as <- <-; eauto|].
    apply kbind_inv in H as (st2 & l3 & l4 & E2 & H & _). pose proof (cycle_length N real_sum real_dot matvec minv b cfg m st1 st2 l3 L1 E2) as L2.
    destruct (cycle_keeps cfg m st1 st2 l3 s1 L1 E2 Hn D1) as (s2 & X1 & X2 & X3).
    destruct (IH false (map (gmres_correct N real_dot tri) st2) (gmres_correct N real_dot tri s2) l4) as (s3 & Y1 & Y2 & Y3); [rewrite map_length; exact L2|exact H|rewrite nth_error_map, X1; reflexivity|exact X2|].
    exists s3. split; [exact Y1|]. split; [exact Y2|]. rewrite Y3. cbn [gmres_correct gr_iters]. congruence.
  Qed.

  (** A residual that is not zero leaves the last direction of norm one. *)
  Lemma alive r0 a us qs p k : holds n eps B r0 a us qs p k -> ar_last a <> 0 -> square (List.last us []) = 1.
  Proof using.
    intros (Iv & _) Z. destruct (i_alive _ _ _ _ _ _ _ _ _ _ _ _ Iv) as [(_ & H & _)|(H & _)]; [exact H|].
    pose proof (i_last _ _ _ _ _ _ _ _ _ _ _ _ Iv) as Q. rewrite H in Q. unfold square in Q. rewrite nil_dot in Q. exfalso. apply Z. nra.
  Qed.
  Lemma room r0 a us qs p k : holds n eps B r0 a us qs p k -> units us -> (S k <= n)%nat.
  Proof using.
    intros (Iv & _) U. rewrite <- (i_us _ _ _ _ _ _ _ _ _ _ _ _ Iv). apply (at_most n us); [apply (i_uslen _ _ _ _ _ _ _ _ _ _ _ _ Iv)|apply (i_usorth _ _ _ _ _ _ _ _ _ _ _ _ Iv)|exact U].
  Qed.

  Lemma cycle_stops cfg more st st' l si r0 us qs p k : ok cfg 0 = true ->
    length st = length b -> gmres_cycle N real_sum real_dot matvec minv cfg b more st = (Ok st', l) ->
    nth_error st i = Some si -> holds n eps B r0 (gr_arn si) us qs p k ->
    (gr_done si = false -> units us /\ gr_active si = true) -> (n <= k + more)%nat ->
    (forall j x v, (j < n - k)%nat -> nth_error (operands l) j = Some x -> nth_error x i = Some v -> clean v) ->
    exists si', nth_error st' i = Some si' /\ gr_done si' = true /\ (gr_iters si' <= gr_iters si + (n - k))%nat.
  Proof using eps_pos LA LM GB EA EM Eb Lb tri.
    intros O0. revert st si l us qs p k. induction more as [|more IH]; intros st si l us qs p k L H Es Ho Hf Hk Hcl.
    { destruct (gr_done si) eqn:D.
      - destruct (cycle_keeps cfg 0 st st' l si L H Es D) as (s' & X1 & X2 & X3). exists s'. split; [exact X1|]. split; [exact X2|lia].
      - destruct (Hf eq_refl) as [U _]. pose proof (room _ _ _ _ _ _ Ho U). lia. }
    destruct (gr_done si) eqn:D.
    { destruct (cycle_keeps cfg (S more) st st' l si L H Es D) as (s' & X1 & X2 & X3). exists s'. split; [exact X1|]. split; [exact X2|lia]. }
    destruct (Hf eq_refl) as [U Ac]. pose proof (room _ _ _ _ _ _ Ho U) as Rm.
    destruct (col_row N real_sum real_dot matvec minv b i A M bi EA EM Eb cfg more st st' l L H) as (l' & st1 & L1 & R1 & El & Hn).
    specialize (Hn si Es). rewrite El, operands_app in Hcl. cbn [operands flat_map app] in Hcl. fold (operands l') in Hcl.
    assert (Cl : clean (last_v (gr_arn si))).
    { apply (Hcl 0%nat _ (last_v (gr_arn si)) ltac:(lia) eq_refl). rewrite nth_error_map, Es. reflexivity. }
    pose proof (holds_clean n eps B r0 _ us qs p k Ho Cl) as Evs.
    destruct (step_holds n eps eps_pos B (linear_B n eps A M LA LM) GB r0 (gr_arn si) us qs p k (proj1 Ho) Evs) as [(us1 & qs1 & p1 & Ho1 & u1 & Eu) _].
    set (s1 := gmres_column N real_sum real_dot cfg bi (M (A (last_v (gr_arn si)))) si) in *.
    assert (Ea1 : gr_arn s1 = arnoldi_step N real_sum real_dot (M (A (last_v (gr_arn si)))) (gr_arn si)) by reflexivity.
    assert (Ed1 : gr_done s1 = ok cfg (Rabs (ar_last (gr_arn s1)))) by (unfold s1; cbn; rewrite D, Ac; reflexivity).
    assert (Ei1 : gr_iters s1 = S (gr_iters si)) by (unfold s1; cbn; rewrite D, Ac; reflexivity).
    assert (Eac : gr_active s1 = true) by exact Ac.
    rewrite <- Ea1 in Ho1. clearbody s1.
    destruct (forallb gr_done st1) eqn:Da.
    { injection R1 as <- <-. exists s1. split; [exact Hn|]. split; [|lia]. rewrite forallb_forall in Da. eapply Da, nth_error_In, Hn. }
    destruct (IH st1 s1 l' us1 qs1 p1 (S k) L1 R1 Hn Ho1) as (s2 & X1 & X2 & X3).
    - intros D1. split; [|exact Eac]. rewrite Eu. apply Forall_app. split; [exact U|]. constructor; [|constructor].
      assert (Z : ar_last (gr_arn s1) <> 0) by (intros Z; rewrite Ed1, Z, Rabs_R0, O0 in D1; discriminate).
      pose proof (alive _ _ _ _ _ _ Ho1 Z) as Q. rewrite Eu, last_snoc in Q. exact Q.
    - lia.
    - intros j x v Hj E1 E2. exact (Hcl (S j) x v ltac:(lia) E1 E2).
    - exists s2. split; [exact X1|]. split; [exact X2|lia].
  Qed.

  Lemma loop_stops cfg m c st st' l si : ok cfg 0 = true -> (n <= m)%nat -> length st = length b ->
    gmres_loop N real_sum real_dot tri matvec minv cfg b m true (S c) st = (Ok st', l) -> nth_error st i = Some si ->
    (forall q x v, (q < n)%nat -> nth_error (operands l) q = Some x -> nth_error x i = Some v -> clean v) ->
    exists si', nth_error st' i = Some si' /\ gr_done si' = true /\ (gr_iters si' <= gr_iters si + n)%nat.
  Proof using eps_pos LA LM GB EA EM Eb Lb.
    intros O0 Hm L H Es Hcl. cbn [gmres_loop] in H. apply kbind_inv in H as (r & l1 & l2 & E & H & El).
    destruct (begin_row N real_sum matvec minv b i A M bi EA EM Eb cfg true st r l1 L E) as (L1 & Hn). cbv zeta in *. specialize (Hn si Es).
    destruct (gmres_begin_step N real_sum matvec minv cfg b true st r l1 L E) as (_ & Ml1 & _ & _).
    set (st1 := map2 _ _ st) in *. set (z0 := M bi) in *. set (s1 := gmres_begin N real_sum cfg bi z0 si) in *.
    assert (Sd1 : gr_done s1 = gr_done si || ok cfg (sqrt (square z0))) by (unfold s1, gmres_begin; cbn [gr_done]; rewrite row_norm_sqrt; reflexivity).
    assert (Sa1 : gr_done s1 = false -> gr_active s1 = true) by (intros Q; unfold s1, gmres_begin in *; cbn [gr_done gr_active] in *; rewrite Q; reflexivity).
    assert (Sarn : gr_arn s1 = mkArn [map (fun x => x / clamp N (sqrt (square z0))) z0] [] [] [] (sqrt (square z0))) by (unfold s1, gmres_begin; cbn [gr_arn]; rewrite row_norm_sqrt; reflexivity).
    assert (I1 : gr_iters s1 = gr_iters si) by reflexivity. clearbody st1 s1.
    destruct (forallb gr_done st1) eqn:D.
    { injection H as <- <-. exists s1. split; [exact Hn|]. split; [|lia]. rewrite forallb_forall in D. eapply D, nth_error_In, Hn. }
    apply kbind_inv in H as (st2 & l3 & l4 & E2 & H & El2). pose proof (cycle_length N real_sum real_dot matvec minv b cfg m st1 st2 l3 L1 E2) as L2.
    assert (Lz : length z0 = n) by (apply LM; exact Lb).
    destruct (start_holds n eps eps_pos A M LA LM z0 Lz) as (us & qs & p & Ho). cbv zeta in Ho. rewrite <- Sarn in Ho.
    assert (Ol1 : operands l1 = []) by (apply length_zero_iff_nil; rewrite operands_len; exact Ml1).
    assert (Ol : operands l = operands l3 ++ operands l4) by (rewrite El, El2, !operands_app, Ol1; reflexivity).
    destruct (cycle_stops cfg m st1 st2 l3 s1 z0 us qs p 0%nat O0 L1 E2 Hn Ho) as (s2 & X1 & X2 & X3).
    - intros D1. split; [|apply Sa1, D1]. rewrite Sd1 in D1. apply orb_false_elim in D1 as [_ D1].
      assert (Z : ar_last (gr_arn s1) <> 0) by (rewrite Sarn; cbn [ar_last]; intros Z; rewrite Z, O0 in D1; discriminate).
      pose proof (alive _ _ _ _ _ _ Ho Z) as Q. pose proof (i_us _ _ _ _ _ _ _ _ _ _ _ _ (proj1 Ho)) as Lu. destruct us as [|u [|]]; try discriminate. constructor; [exact Q|constructor].
    - exact Hm.
    - intros j x v Hj E1 E3. apply (Hcl j x v); [lia| |exact E3]. rewrite Ol, nth_error_app1; [exact E1|]. apply nth_error_Some. congruence.
    - destruct (loop_keeps cfg m false c (map (gmres_correct N real_dot tri) st2) st' l4 (gmres_correct N real_dot tri s2)) as (s3 & Y1 & Y2 & Y3); [rewrite map_length; exact L2|exact H|rewrite nth_error_map, X1; reflexivity|exact X2|].
      exists s3. split; [exact Y1|]. split; [exact Y2|]. rewrite Y3. cbn [gmres_correct gr_iters]. lia.
  Qed.
End Stop.

Lemma positive_meets eps cfg x : 0 < eps -> 0 < k_abs_tol cfg \/ 0 < k_rel_tol cfg -> meets (reals eps) cfg (bnorm (reals eps) real_sum x) 0 = true.
Proof.
  intros He T. apply meets_tolerated. unfold tolerated. destruct T as [T|T]; [left; exact T|right]. unfold Rdiv. rewrite Rmult_0_l. exact T.
Qed.


Notation positive := (fun x => 0 < x).

Lemma gmres_row_stops n eps tri matvec minv b cfg res l i A M bi :
  0 < eps -> full_cycle positive cfg n ->
  acts_on i A matvec -> acts_on i M minv -> linear_op (reals eps) n A -> linear_op (reals eps) n M -> bounded_below eps n (fun v => M (A v)) ->
  gmres (reals eps) real_sum real_dot tri matvec minv b cfg = (Ok res, l) -> nth_error b i = Some bi -> length bi = n ->
  normalised (Z.to_nat (k_restart cfg)) i n l ->
  exists c st si, cycles_of cfg = Ok c /\
    gmres_loop (reals eps) real_sum real_dot tri matvec minv cfg b (Z.to_nat (k_restart cfg)) true (Z.to_nat c) (map (gmres_start (reals eps)) b) = (Ok st, l) /\
    kr_converged res = map gr_done st /\ kr_iters res = max_of (map gr_iters st) /\ length st = length b /\
    nth_error st i = Some si /\ gr_done si = true /\ (gr_iters si <= n)%nat.
Proof.
  intros He (Hr & Hn & Hm & T) EA EM LA LM GB H Eb Lb Hcl. destruct (gmres_run _ _ _ _ _ _ _ _ _ _ Hr H) as (c & st & Ec & Hl & _ & E2 & E3 & L & _).
  pose proof (cycles_some cfg c Hr Hm Ec) as Hc. exists c, st. destruct (Z.to_nat c) as [|c'] eqn:Zc; [lia|].
  destruct (loop_stops n eps He tri A M LA LM GB bi Lb matvec minv b i EA EM Eb cfg (Z.to_nat (k_restart cfg)) c' (map (gmres_start (reals eps)) b) st l (gmres_start (reals eps) bi)) as (s & X1 & X2 & X3).
  - apply positive_meets; assumption.
  - lia.
  - apply map_length.
  - exact Hl.
  - rewrite nth_error_map, Eb. reflexivity.
  - intros q x v Hq E1 E2'. apply (Hcl q x v Hq); [|exact E2']. unfold iteration_operand. rewrite Nat.div_small by lia. rewrite Nat.add_0_r. exact E1.
  - exists s. repeat split; assumption.
Qed.

Lemma one_step n m it (ds : list rvec) x : (1 <= m)%nat -> (it <= m)%nat -> (length ds * m < it + m)%nat -> Forall (fun d => length d = n) ds -> x = sum_of n ds ->
  real_sum (map square ds) = square x.
Proof.
  intros Hm Hi Hd F E. destruct ds as [|d [|d' ds]].
  - subst x. cbn [map real_sum fold_right]. unfold sum_of. cbn [fold_left]. symmetry. clear. unfold square. induction n as [|n IH]; [reflexivity|]. cbn [repeat]. rewrite dot_cons, IH. ring.
  - inversion F as [|? ? Ld _]; subst. cbn [map real_sum fold_right]. rewrite Rplus_0_r. f_equal. unfold sum_of. cbn [fold_left]. clear.
    induction d as [|y d IH]; [reflexivity|]. cbn [length repeat]. unfold map2 in *. cbn [combine map fst snd]. rewrite Rplus_0_l. f_equal. exact IH.
  - exfalso. cbn [length] in Hd. nia.
Qed.

Lemma max_of_le l k : Forall (fun x => (x <= k)%nat) l -> (max_of l <= k)%nat.
Proof. induction 1 as [|x l Hx _ IH]; cbn; [lia|]. unfold max_of in *. lia. Qed.

Lemma gmres_stops n eps tri matvec minv b cfg res l A M :
  0 < eps -> solves_upper tri -> full_cycle positive cfg n ->
  gmres (reals eps) real_sum real_dot tri matvec minv b cfg = (Ok res, l) ->
  (forall i bi, nth_error b i = Some bi -> length bi = n /\
     acts_on i (A i) matvec /\ acts_on i (M i) minv /\ linear_op (reals eps) n (A i) /\ linear_op (reals eps) n (M i) /\
     bounded_below eps n (fun v => M i (A i v)) /\ normalised (Z.to_nat (k_restart cfg)) i n l) ->
  (kr_iters res <= n)%nat /\ kr_converged res = repeat true (length b) /\
  forall i bi x, nth_error b i = Some bi -> nth_error (kr_du res) i = Some x -> length x = n /\ met eps cfg bi x (M i (residual_of (reals eps) (A i) bi x)).
Proof.
  intros He ST Fc H Hr. pose proof Fc as (Hm & Hn & Hk & _).
  destruct (gmres_run _ _ _ _ _ _ _ _ _ _ Hm H) as (c & st & Ec & Hl & _ & E2 & E3 & L & NE).
  assert (Each : forall i s, nth_error st i = Some s -> gr_done s = true /\ (gr_iters s <= n)%nat).
  { intros i s Es. destruct (nth_error b i) as [bi|] eqn:Eb.
    2:{ apply nth_error_None in Eb. assert (i < length st)%nat by (apply nth_error_Some; congruence). lia. }
    destruct (Hr i bi Eb) as (Lb & EA & EM & LA & LM & GB & Nz).
    destruct (gmres_row_stops n eps tri matvec minv b cfg res l i (A i) (M i) bi He Fc EA EM LA LM GB H Eb Lb Nz) as (c' & st' & s' & Ec' & Hl' & _ & _ & _ & Es' & D & I).
    rewrite Ec in Ec'. injection Ec' as <-. rewrite Hl in Hl'. injection Hl' as <-. rewrite Es in Es'. injection Es' as <-. auto. }
  assert (I1 : (kr_iters res <= n)%nat).
  { rewrite E3. apply max_of_le. rewrite Forall_map, Forall_forall. intros s Is. apply In_nth_error in Is as (i & Es). apply (Each i s Es). }
  split; [exact I1|]. split.
  { rewrite E2, <- L. assert (F : Forall (fun s => gr_done s = true) st) by (apply Forall_forall; intros s Is; apply In_nth_error in Is as (i & Es); apply (Each i s Es)).
    clear - F. induction F as [|s st D _ IH]; [reflexivity|]. cbn [map length repeat]. rewrite D, IH. reflexivity. }
  intros i bi x Eb Ex. destruct (Hr i bi Eb) as (Lb & EA & EM & LA & LM & GB & Nz).
  assert (Nz' : normalised (Z.to_nat (k_restart cfg)) i (kr_iters res) l) by (intros q y v Hq; apply Nz; lia).
  destruct (gmres_reals n eps tri matvec minv b cfg res l i (A i) (M i) bi x He ST Hm EA EM LA LM GB H Eb Lb Ex Nz') as (Lx & Q & _). split; [exact Lx|].
  destruct Q as (e & ds & P1 & P2 & P3 & P4 & P5 & P6).
  { rewrite E2, nth_error_map. destruct (nth_error st i) as [s|] eqn:Es; [cbn; f_equal; apply (Each i s Es)|]. apply nth_error_None in Es. assert (i < length b)%nat by (apply nth_error_Some; congruence). lia. }
  exists e. split; [exact P1|]. split; [exact P2|]. rewrite <- (one_step n (Z.to_nat (k_restart cfg)) (kr_iters res) ds x); [exact P6|lia|lia|exact P5|exact P3|exact P4].
Qed.
