(** A GMRES solve over the real numbers. *)
From Coq Require Import Reals Lra Psatz.
From Verif Require Import Base BaseProofs Newton Krylov SpecKrylov SpecGmres KrylovProofs KrylovCostProofs KrylovRowProofs
     KrylovGmresProofs KrylovSoloProofs RealVec GmresBasis.
Local Open Scope R_scope.

Lemma operands_app {V} (l1 l2 : list (kcall V)) : operands (l1 ++ l2) = operands l1 ++ operands l2.
Proof. apply flat_map_app. Qed.
Lemma operands_len {V} (l : list (kcall V)) : length (operands l) = mats l.
Proof.
  unfold mats. induction l as [|[x|x] l IH]; [reflexivity| |]; cbn [operands flat_map filter app length]; fold (operands l); auto.
Qed.
Lemma sum_snoc n ds d : sum_of n (ds ++ [d]) = plus (sum_of n ds) d.
Proof. unfold sum_of. rewrite fold_left_app. reflexivity. Qed.
Lemma real_sum_snoc l x : real_sum (l ++ [x]) = real_sum l + x.
Proof. induction l as [|y l IH]; cbn [real_sum app fold_right]; [unfold real_sum; cbn; ring|]. fold (real_sum (l ++ [x])) (real_sum l). rewrite IH. ring. Qed.
Lemma real_sum_pos l : Forall (fun x => 0 <= x) l -> 0 <= real_sum l.
Proof. induction 1 as [|x l H F IH]; [cbn; lra|]. change (0 <= x + real_sum l). lra. Qed.

Lemma div_times c z : map (fun y => y / c) z = times (/ c) z.
Proof. induction z as [|y z IH]; [reflexivity|]. rewrite times_cons. cbn [map]. rewrite IH. f_equal. unfold Rdiv. ring. Qed.

Section Exact.
  Variable n : nat.
  Variable eps : R.
  Hypothesis eps_pos : 0 < eps.
  Variable tri : list (list R) -> list R -> list R.
  Hypothesis ST : solves_upper tri.
  Notation N := (reals eps).
  Variable A M : rvec -> rvec.
  Hypothesis LA : linear_op N n A.
  Hypothesis LM : linear_op N n M.
  Notation B := (fun v => M (A v)).
  Hypothesis GB : bounded_below eps n B.
  Variable bi : rvec.
  Hypothesis Lb : length bi = n.

  Lemma linear_B : linear_op N n B.
  Proof using LA LM.
    destruct LA as (K1 & P1 & T1). destruct LM as (K2 & P2 & T2). split; [|split].
    - intros x L. auto.
    - intros x y Lx Ly. rewrite P1, P2 by auto. reflexivity.
    - intros c x L. rewrite T1, T2 by auto. reflexivity.
  Qed.

  (** The residual of an iterate. *)
  Definition resid (x : rvec) : rvec := M (minus bi (A x)).
  Lemma resid_len x : length x = n -> length (resid x) = n.
  Proof using LA LM Lb. intros L. apply LM. apply minus_len; [exact Lb|]. apply LA. exact L. Qed.
  Lemma linear_minus (L : rvec -> rvec) x y : linear_op N n L -> length x = n -> length y = n -> L (minus x y) = minus (L x) (L y).
  Proof using.
    intros HL Lx Ly. destruct HL as (K & P & T).
    replace (minus x y) with (plus x (times (-1) y)) by (vec n; ring).
    pose proof (P x (times (-1) y) Lx ltac:(vlen)) as E1. pose proof (T (-1) y Ly) as E2.
    change (L (plus x (times (-1) y)) = plus (L x) (L (times (-1) y))) in E1. change (L (times (-1) y) = times (-1) (L y)) in E2.
    rewrite E1, E2. pose proof (K x Lx). pose proof (K y Ly). vec n. ring.
  Qed.
  Lemma resid_step x d : length x = n -> length d = n -> resid (plus x d) = minus (resid x) (B d).
  Proof using LA LM Lb.
    intros Lx Ld. unfold resid. destruct LA as (KA & PA & TA).
    pose proof (PA x d Lx Ld) as E. change (A (plus x d) = plus (A x) (A d)) in E. rewrite E.
    pose proof (KA x Lx). pose proof (KA d Ld).
    replace (minus bi (plus (A x) (A d))) with (minus (minus bi (A x)) (A d)) by (vec n; ring).
    rewrite (linear_minus M) by (auto; vlen). reflexivity.
  Qed.
  Lemma resid_nil : resid (nil_v n) = M bi.
  Proof using LA LM Lb.
    unfold resid. rewrite (linear_nil n eps A LA). f_equal. vec n. ring.
  Qed.

  (** The test. *)
  Notation ok cfg e := (meets N cfg (bnorm N real_sum bi) e).
  Lemma meets_tolerated cfg e : ok cfg e = true <-> tolerated eps cfg bi e.
  Proof using.
    unfold meets, tolerated, bnorm. rewrite row_norm_sqrt. cbn [n_lt n_div reals].
    replace (clamp N (sqrt (square bi))) with (Rmax eps (sqrt (square bi))).
    - destruct (Rlt_dec e (k_abs_tol cfg)), (Rlt_dec (e / Rmax eps (sqrt (square bi))) (k_rel_tol cfg)); cbn; intuition lra.
    - unfold clamp, Rmax. cbn [n_lt n_eps reals]. destruct (Rle_dec eps (sqrt (square bi))), (Rlt_dec (sqrt (square bi)) eps); lra.
  Qed.
  Lemma tolerated_le cfg e e' : tolerated eps cfg bi e -> e' <= e -> tolerated eps cfg bi e'.
  Proof using eps_pos.
    intros [H|H] L; [left; lra|right]. eapply Rle_lt_trans; [|exact H].
    apply Rmult_le_compat_r; [|exact L]. left. apply Rinv_0_lt_compat. eapply Rlt_le_trans; [exact eps_pos|apply Rmax_l].
  Qed.
  Lemma meets_le cfg e e' : ok cfg e = true -> e' <= e -> ok cfg e' = true.
  Proof using eps_pos. intros H L. apply meets_tolerated. eapply tolerated_le; [apply meets_tolerated, H|exact L]. Qed.

  Variable matvec minv : list rvec -> result (list rvec).
  Variable b : list rvec.
  Variable i : nat.
  Hypothesis EA : acts_on i A matvec.
  Hypothesis EM : acts_on i M minv.
  Hypothesis Eb : nth_error b i = Some bi.

  Definition clean (v : rvec) : Prop := square v = 1 \/ square v = 0.

  Lemma cycle_exact cfg more st st' l si r0 us qs p k :
    length st = length b -> gmres_cycle N real_sum real_dot matvec minv cfg b more st = (Ok st', l) ->
    nth_error st i = Some si -> holds n eps B r0 (gr_arn si) us qs p k ->
    (gr_done si = false -> ok cfg (Rabs (ar_last (gr_arn si))) = false) ->
    (gr_done si = false -> gr_active si = true) ->
    (forall j x v, nth_error (operands l) j = Some x -> nth_error x i = Some v -> clean v) ->
    exists si' us' qs' p' k', nth_error st' i = Some si' /\ holds n eps B r0 (gr_arn si') us' qs' p' k' /\
      gr_x si' = gr_x si /\ ar_last (gr_arn si') * ar_last (gr_arn si') <= ar_last (gr_arn si) * ar_last (gr_arn si) /\
      (gr_done si = true -> gr_done si' = true) /\
      (gr_done si = false -> gr_done si' = true -> exists e, 0 <= e /\ ok cfg e = true /\ ar_last (gr_arn si') * ar_last (gr_arn si') <= e * e) /\
      (gr_done si' = false -> ok cfg (Rabs (ar_last (gr_arn si'))) = false).
  Proof using eps_pos LA LM GB EA EM Eb.
    revert st si l us qs p k. induction more as [|more IH]; intros st si l us qs p k L H Es Ho Hf Hact Hcl.
    { cbn in H. injection H as <- <-. exists si, us, qs, p, k. split; [exact Es|]. split; [exact Ho|]. split; [reflexivity|].
      split; [lra|]. split; [auto|]. split; [congruence|exact Hf]. }
    destruct (col_row N real_sum real_dot matvec minv b i A M bi EA EM Eb cfg more st st' l L H) as (l' & st1 & L1 & R1 & El & Hn).
    specialize (Hn si Es). rewrite El, operands_app in Hcl. cbn [operands flat_map app] in Hcl. fold (operands l') in Hcl.
    assert (Cl : clean (last_v (gr_arn si))).
    { apply (Hcl 0%nat _ (last_v (gr_arn si)) eq_refl). rewrite nth_error_map, Es. reflexivity. }
    pose proof (holds_clean n eps B r0 _ us qs p k Ho Cl) as Evs.
    destruct (step_holds n eps eps_pos B linear_B GB r0 (gr_arn si) us qs p k (proj1 Ho) Evs) as [(us1 & qs1 & p1 & Ho1 & _) Hl1].
    set (s1 := gmres_column N real_sum real_dot cfg bi (M (A (last_v (gr_arn si)))) si) in *.
    assert (Ea1 : gr_arn s1 = arnoldi_step N real_sum real_dot (M (A (last_v (gr_arn si)))) (gr_arn si)) by reflexivity.
    assert (Ex1 : gr_x s1 = gr_x si) by reflexivity.
    assert (Ed1 : gr_done s1 = gr_done si || (gr_active si && negb (gr_done si) && ok cfg (Rabs (ar_last (gr_arn s1))))) by reflexivity.
    assert (Eac : gr_active s1 = gr_active si) by reflexivity.
    rewrite <- Ea1 in Ho1, Hl1. clearbody s1.
    destruct (forallb gr_done st1) eqn:D.
    - injection R1 as <- <-. exists s1, us1, qs1, p1, (S k). split; [exact Hn|]. split; [exact Ho1|]. split; [exact Ex1|].
      split; [exact Hl1|]. split; [intros E; rewrite Ed1, E; reflexivity|]. split.
      + intros E E'. exists (Rabs (ar_last (gr_arn s1))). split; [apply Rabs_pos|]. split.
        * rewrite Ed1, E, (Hact E) in E'. cbn in E'. exact E'.
        * rewrite <- Rabs_mult. rewrite Rabs_right by nra. lra.
      + intros E. assert (Q : gr_done s1 = true); [|congruence]. rewrite forallb_forall in D. eapply D, nth_error_In, Hn.
    - assert (Hf1 : gr_done s1 = false -> ok cfg (Rabs (ar_last (gr_arn s1))) = false).
      { intros E. rewrite Ed1 in E. apply orb_false_elim in E as [E1 E2]. rewrite E1, (Hact E1) in E2. exact E2. }
      assert (Hact1 : gr_done s1 = false -> gr_active s1 = true).
      { intros E. rewrite Ed1 in E. apply orb_false_elim in E as [E1 _]. rewrite Eac. auto. }
      destruct (IH st1 s1 l' us1 qs1 p1 (S k) L1 R1 Hn Ho1 Hf1 Hact1) as (s2 & us2 & qs2 & p2 & k2 & Y1 & Y2 & Y3 & Y4 & Y5 & Y6 & Y7).
      { intros j x v E1 E2. exact (Hcl (S j) x v E1 E2). }
      exists s2, us2, qs2, p2, k2. split; [exact Y1|]. split; [exact Y2|]. split; [congruence|]. split; [lra|].
      split; [intros E; apply Y5; rewrite Ed1, E; reflexivity|]. split; [|exact Y7].
      intros E E'. destruct (gr_done s1) eqn:D1.
      + exists (Rabs (ar_last (gr_arn s1))). split; [apply Rabs_pos|]. split.
        * rewrite E, (Hact E) in Ed1. symmetry in Ed1. exact Ed1.
        * rewrite <- Rabs_mult. rewrite (Rabs_right (_ * _)) by nra. lra.
      + apply Y6; auto.
  Qed.

  Lemma start_holds z : length z = n -> let beta := sqrt (square z) in
    exists us qs p, holds n eps B z (mkArn [map (fun x => x / clamp N beta) z] [] [] [] beta) us qs p 0.
  Proof using eps_pos LA LM.
    intros Lz. cbv zeta. set (beta := sqrt (square z)).
    assert (Hb : 0 <= beta) by apply sqrt_pos.
    assert (Sb : beta * beta = square z) by (apply sqrt_sqrt, square_pos).
    pose proof (clamp_pos eps eps_pos beta) as Cp.
    destruct (Req_dec beta 0) as [Z|Z].
    - assert (Ez : z = nil_v n).
      { apply square_zero; [exact Lz|]. rewrite <- Sb, Z. ring. }
      exists [nil_v n], [], (nil_v n). split.
      + cbn [ar_cols ar_rot ar_g ar_last]. rewrite Z. rewrite Ez.
        replace (nil_v n) with (times 0 (nil_v n)) at 1 by (vec n; ring).
        apply inv_start; [exact linear_B|vlen|right; reflexivity|reflexivity].
      + exists [], (nil_v n), 1. split; [reflexivity|]. split; [|lra]. cbn [ar_vs app]. f_equal. rewrite Ez, div_nil. vec n. ring.
    - set (u := times (/ beta) z). assert (Lu : length u = n) by (unfold u; vlen).
      exists [u], [], u. split.
      + cbn [ar_cols ar_rot ar_g ar_last].
        assert (Eu : z = times beta u) by (unfold u; vec n; field; exact Z).
        rewrite Eu at 1. apply inv_start; [exact linear_B|exact Lu| |].
        * left. unfold u. rewrite square_times, <- Sb. field. exact Z.
        * intros Q. exfalso. rewrite Q in Eu. assert (E0 : square z = 0); [|nra].
          rewrite Eu, square_times. unfold square. rewrite nil_dot. ring.
      + exists [], u, (beta / clamp N beta). split; [reflexivity|]. split.
        * cbn [ar_vs app]. f_equal. rewrite div_times. unfold u. vec n. field. split; lra.
        * apply Rdiv_lt_0_compat; lra.
  Qed.

  (** A row between two cycles. *)
  Definition between cfg (first : bool) (ds : list rvec) (s : grow R) : Prop :=
    length (gr_x s) = n /\ (Forall (fun d => length d = n) ds /\ gr_x s = sum_of n ds) /\ (first = true -> gr_x s = nil_v n) /\
    (gr_done s = true -> exists e, 0 <= e /\ ok cfg e = true /\
       square (resid (gr_x s)) <= e * e + eps * eps * real_sum (map square ds)) /\
    (first = false -> gr_done s = false -> ok cfg (sqrt (square (resid (gr_x s)))) = false).

  Lemma sqrt_mono x y : 0 <= x -> y * y <= x -> Rabs y <= sqrt x.
  Proof using.
    intros Hx H. rewrite <- (sqrt_Rsqr_abs y). apply sqrt_le_1_alt. exact H.
  Qed.

  Lemma loop_exact cfg m first cycles st st' l si it :
    (1 <= m)%nat -> length st = length b -> gcounted it st ->
    gmres_loop N real_sum real_dot tri matvec minv cfg b m first cycles st = (Ok st', l) ->
    nth_error st i = Some si ->
    exists ks, spread m ks /\ gcounted (it + iters_total ks) st' /\ (forallb gr_done st = true -> ks = []) /\
      forall ds, between cfg first ds si ->
      (forall q x v, (q < iters_total ks)%nat -> nth_error (operands l) (q + q / m + (if first then 0 else 1)) = Some x ->
          nth_error x i = Some v -> clean v) ->
       exists si' ds', nth_error st' i = Some si' /\ length ds' = length ks /\
         between cfg (match cycles with 0%nat => first | S _ => false end) (ds ++ ds') si'.
  Proof using eps_pos LA LM GB EA EM Eb Lb ST.
    intros Hm. revert first st si l it. induction cycles as [|cycles IH]; intros first st si l it L C H Es.
    { cbn in H. injection H as <- <-. exists []. cbn [spread iters_total fold_right]. rewrite Nat.add_0_r.
      split; [exact I|]. split; [exact C|]. split; [reflexivity|].
      intros ds Bt _. exists si, []. rewrite app_nil_r. auto. }
    cbn [gmres_loop] in H. apply kbind_inv in H as (r & l1 & l2 & E & H & El).
    destruct (begin_row N real_sum matvec minv b i A M bi EA EM Eb cfg first st r l1 L E) as (L1 & Hn).
    destruct (gmres_begin_step N real_sum matvec minv cfg b first st r l1 L E) as (_ & Ml1 & _ & HH). cbv zeta in *.
    destruct HH as (_ & A1 & C1 & Hall).
    specialize (Hn si Es). specialize (C1 it C).
    set (st1 := map2 _ _ st) in *.
    assert (Dst : forallb gr_done st = true -> forallb gr_done st1 = true).
    { intros D. rewrite forallb_forall in *. intros s I. apply In_nth_error in I as (j & Ej).
      destruct (nth_same st1 b j s ltac:(congruence) Ej) as (bj & Ebj).
      destruct (nth_same st1 st j s ltac:(congruence) Ej) as (sj & Esj).
      destruct (Hall j bj sj Ebj Esj) as (rj & _ & E4). rewrite E4 in Ej. injection Ej as <-.
      cbn [gmres_begin gr_done]. rewrite (D sj (nth_error_In _ _ Esj)). reflexivity. }
    clearbody st1. clear Hall.
    set (z0 := if first then M bi else M (vsub N bi (A (gr_x si)))) in *.
    set (beta := sqrt (square z0)).
    assert (Hbeta : 0 <= beta) by apply sqrt_pos.
    assert (Sbeta : beta * beta = square z0) by (apply sqrt_sqrt, square_pos).
    set (s1 := gmres_begin N real_sum cfg bi z0 si) in *.
    assert (Sd1 : gr_done s1 = gr_done si || ok cfg beta).
    { unfold s1, gmres_begin. cbn [gr_done]. rewrite row_norm_sqrt. reflexivity. }
    assert (Sx1 : gr_x s1 = gr_x si) by reflexivity.
    assert (Sa1 : gr_done s1 = false -> gr_active s1 = true).
    { intros Q. unfold s1, gmres_begin in *. cbn [gr_done gr_active] in *. rewrite Q. reflexivity. }
    assert (Sarn : gr_arn s1 = mkArn [map (fun x => x / clamp N beta) z0] [] [] [] beta).
    { unfold s1, gmres_begin. cbn [gr_arn]. rewrite row_norm_sqrt. reflexivity. }
    clearbody s1.
    assert (Bd1 : forall ds, between cfg first ds si -> z0 = resid (gr_x si) /\
              (gr_done s1 = true -> exists e, 0 <= e /\ ok cfg e = true /\ square z0 <= e * e + eps * eps * real_sum (map square ds))).
    { intros ds (Lx & Ex & Ef & Bd & Bn).
      assert (Er : z0 = resid (gr_x si)).
      { unfold z0. destruct first; [|reflexivity]. rewrite (Ef eq_refl), resid_nil. reflexivity. }
      split; [exact Er|]. intros Q. destruct (gr_done si) eqn:Di; [rewrite Er; apply Bd; reflexivity|].
      rewrite Sd1 in Q. cbn in Q. exists beta. split; [exact Hbeta|]. split; [exact Q|]. rewrite Sbeta.
      assert (P : 0 <= real_sum (map square ds)).
      { apply real_sum_pos, Forall_forall. intros y (d & <- & _)%in_map_iff. apply square_pos. }
      assert (P' : 0 <= eps * eps * real_sum (map square ds)) by (apply Rmult_le_pos; [clear - eps_pos; nra|exact P]).
      clear - P'. lra. }
    destruct (forallb gr_done st1) eqn:D.
    { injection H as <- <-. exists []. cbn [spread iters_total fold_right]. rewrite Nat.add_0_r.
      split; [exact I|]. split; [exact C1|]. split; [reflexivity|].
      intros ds Bt _. destruct (Bd1 ds Bt) as [Er Bd2]. destruct Bt as (Lx & Ex & Ef & Bd & Bn).
      exists s1, []. rewrite app_nil_r. split; [exact Hn|]. split; [reflexivity|].
      assert (D1 : gr_done s1 = true) by (rewrite forallb_forall in D; eapply D, nth_error_In, Hn).
      split; [rewrite Sx1; exact Lx|]. split; [rewrite Sx1; exact Ex|]. split; [discriminate|].
      rewrite Sx1, <- Er. split; [exact Bd2|]. congruence. }
    apply kbind_inv in H as (st2 & l3 & l4 & E2 & H & El2).
    pose proof (cycle_length N real_sum real_dot matvec minv b cfg m st1 st2 l3 L1 E2) as L2.
    destruct (gmres_cycle_exact N real_sum real_dot tri matvec minv cfg b m st1 st2 l3 it L1 C1 A1 D E2) as (k & K1 & K2 & K3 & K4 & K5 & K6 & K7).
    assert (C2 : gcounted (it + k) (map (gmres_correct N real_dot tri) st2)).
    { destruct K1 as [I1 I2]. split; [rewrite Forall_map; exact I1|].
      destruct I2 as [I2|I2]; [auto|right; rewrite Exists_map; exact I2]. }
    assert (L2' : length (map (gmres_correct N real_dot tri) st2) = length b) by (rewrite map_length; exact L2).
    destruct (cycle_values N real_sum real_dot matvec minv b i A M bi EA EM Eb cfg m st1 st2 l3 _ L1 E2 Hn) as (s2 & Es2 & _ & _).
    assert (Es2' : nth_error (map (gmres_correct N real_dot tri) st2) i = Some (gmres_correct N real_dot tri s2)).
    { rewrite nth_error_map, Es2. reflexivity. }
    assert (Ol : operands l = operands l1 ++ operands l3 ++ operands l4).
    { rewrite El, El2, !operands_app. reflexivity. }
    assert (Ol1 : length (operands l1) = if first then 0%nat else 1%nat) by (rewrite operands_len; exact Ml1).
    assert (Ol3 : length (operands l3) = k) by (rewrite operands_len; exact K3).
    destruct (IH false (map (gmres_correct N real_dot tri) st2) (gmres_correct N real_dot tri s2) l4 (it + k)%nat L2' C2 H Es2')
      as (ks & S1 & S2 & S3 & S4).
    assert (k1 : (1 <= k)%nat).
    { destruct k; [|clear; lia]. destruct K7 as [K7|[K7 _]]; [|clear - K7 Hm; lia]. exfalso.
      destruct m as [|m]; [clear - Hm; lia|]. destruct (gmres_col _ _ _ _ _ _ _ _ _ _ _ L1 E2) as (av & w & l' & _ & _ & _ & _ & _ & _ & HH).
      cbv zeta in HH. destruct HH as (_ & _ & El3 & _). rewrite El3 in K3. rewrite mats_app in K3. cbn in K3. discriminate. }
    assert (Full : ks <> [] -> k = m).
    { intros Q. destruct K7 as [K7|[K7 _]]; [|exact K7]. exfalso. apply Q, S3.
      rewrite forallb_forall in K7 |- *. intros s (s3 & <- & I)%in_map_iff. cbn [gmres_correct gr_done]. auto. }
    exists (k :: ks). split.
    { destruct ks as [|k' ks]; [cbn; clear - k1 K5; lia|]. apply spread_cons; [discriminate|]. split; [apply Full; congruence|exact S1]. }
    cbn [iters_total fold_right]. fold (iters_total ks). rewrite Nat.add_assoc. split; [exact S2|].
    split; [intros Q; specialize (Dst Q); discriminate|].
    intros ds Bt Hcl. destruct (Bd1 ds Bt) as [Er Bd2]. destruct Bt as (Lx & Ex & Ef & Bd & Bn).
    assert (Lz : length z0 = n) by (rewrite Er; apply resid_len; exact Lx).
    destruct (start_holds z0 Lz) as (us & qs & p & Ho). cbv zeta in Ho. fold beta in Ho. rewrite <- Sarn in Ho.
    assert (Hl : ar_last (gr_arn s1) = beta) by (rewrite Sarn; reflexivity).
    destruct (cycle_exact cfg m st1 st2 l3 s1 z0 us qs p 0%nat L1 E2 Hn Ho) as (s2' & us' & qs' & p' & k' & Y1 & Y2 & Y3 & Y4 & Y5 & Y6 & Y7).
    { rewrite Hl. intros Q. rewrite Rabs_right by (clear - Hbeta; lra). rewrite Sd1 in Q. apply orb_false_elim in Q. tauto. }
    { exact Sa1. }
    { intros j x v Ej Ev.
      assert (Hj : (j < k)%nat) by (rewrite <- Ol3; apply nth_error_Some; congruence).
      apply (Hcl j x v); [clear - Hj; lia| |exact Ev]. rewrite (Nat.div_small j m) by (clear - Hj K5; lia). rewrite Ol.
      rewrite nth_error_app2 by (rewrite Ol1; clear; destruct first; lia). rewrite Ol1.
      replace (j + 0 + (if first then 0 else 1) - (if first then 0 else 1))%nat with j by (clear; destruct first; lia).
      rewrite nth_error_app1 by (rewrite Ol3; exact Hj). exact Ej. }
    rewrite Es2 in Y1. injection Y1 as <-.
    destruct (correction n eps eps_pos B linear_B tri ST z0 (gr_arn s2) us' qs' p' k' (gr_x s2) Y2 ltac:(rewrite Y3, Sx1; exact Lx))
      as [Ld Sq].
    set (d := combination real_dot _ _ _) in Ld, Sq.
    assert (Exc : gr_x (gmres_correct N real_dot tri s2) = plus (gr_x si) d).
    { cbn [gmres_correct gr_x]. fold d. rewrite Y3, Sx1. reflexivity. }
    assert (Edc : gr_done (gmres_correct N real_dot tri s2) = gr_done s2) by reflexivity.
    assert (Rc : resid (gr_x (gmres_correct N real_dot tri s2)) = minus z0 (B d)).
    { rewrite Exc, resid_step by assumption. rewrite Er. reflexivity. }
    assert (Bt2 : between cfg false (ds ++ [d]) (gmres_correct N real_dot tri s2)).
    { split; [rewrite Exc; vlen|]. split; [destruct Ex as [Fx Ex]; split; [apply Forall_app; split; [exact Fx|constructor; [exact Ld|constructor]]|rewrite Exc, sum_snoc, Ex; reflexivity]|]. split; [discriminate|].
      rewrite Rc, Edc. split.
      - intros Q. rewrite map_app. cbn [map]. rewrite real_sum_snoc, Sq.
        destruct (gr_done s1) eqn:D1.
        + destruct (Bd2 eq_refl) as (e & P1 & P2 & P3). exists e. split; [exact P1|]. split; [exact P2|].
          rewrite Hl in Y4. rewrite <- Sbeta in P3. clear - Y4 P3. rewrite Rmult_plus_distr_l. lra.
        + destruct (Y6 eq_refl Q) as (e & P1 & P2 & P3). exists e. split; [exact P1|]. split; [exact P2|].
          assert (P : 0 <= real_sum (map square ds)).
          { apply real_sum_pos, Forall_forall. intros y (d' & <- & _)%in_map_iff. apply square_pos. }
          assert (P' : 0 <= eps * eps * real_sum (map square ds)) by (apply Rmult_le_pos; [clear - eps_pos; nra|exact P]).
          clear - P3 P'. rewrite Rmult_plus_distr_l. lra.
      - intros _ Q. specialize (Y7 Q).
        destruct (ok cfg (sqrt (square (minus z0 (B d))))) eqn:Q2; [|reflexivity].
        rewrite (meets_le cfg _ _ Q2) in Y7; [discriminate|].
        apply sqrt_mono; [apply square_pos|]. rewrite Sq.
        assert (P' : 0 <= eps * eps * square d) by (apply Rmult_le_pos; [clear - eps_pos; nra|apply square_pos]). clear - P'. lra. }
    destruct (S4 (ds ++ [d]) Bt2) as (si' & ds' & Z1 & Z2 & Z3).
    { intros q x v Hq Eq Ev.
      assert (Hk : k = m) by (apply Full; intros Q0; rewrite Q0 in Hq; cbn in Hq; clear - Hq; lia).
      apply (Hcl (m + q)%nat x v); [rewrite Hk; clear - Hq; lia| |exact Ev].
      replace ((m + q) / m)%nat with (S (q / m)).
      2:{ replace (m + q)%nat with (q + 1 * m)%nat by (clear; lia). rewrite Nat.div_add by (clear - Hm; lia). clear; lia. }
      rewrite Ol. rewrite nth_error_app2 by (rewrite Ol1; clear; generalize (q / m)%nat; destruct first; intros; lia). rewrite Ol1.
      rewrite nth_error_app2 by (rewrite Ol3, Hk; clear; generalize (q / m)%nat; destruct first; intros; lia). rewrite Ol3, Hk.
      replace (m + q + S (q / m) + (if first then 0 else 1) - (if first then 0 else 1) - m)%nat with (q + q / m + 1)%nat by (clear; generalize (q / m)%nat; destruct first; intros; lia).
      exact Eq. }
    exists si', (d :: ds'). split; [exact Z1|]. split; [cbn; rewrite Z2; reflexivity|].
    rewrite <- app_assoc in Z3. cbn [app] in Z3. destruct cycles; exact Z3.
  Qed.
End Exact.

Lemma spread_count m ks : (1 <= m)%nat -> spread m ks -> (length ks * m < iters_total ks + m)%nat.
Proof.
  intros Hm. induction ks as [|k ks IH]; intros H; [cbn; lia|].
  destruct ks as [|k' ks].
  - cbn in H |- *. lia.
  - apply spread_cons in H as [-> H]; [|discriminate]. specialize (IH H).
    change (length (m :: k' :: ks)) with (S (length (k' :: ks))).
    change (iters_total (m :: k' :: ks)) with (m + iters_total (k' :: ks))%nat. lia.
Qed.
Lemma cycles_some {V} (cfg : kconfig V) c : (0 < k_restart cfg)%Z -> (0 < k_max_its cfg)%Z -> cycles_of cfg = Ok c -> (0 < c)%Z.
Proof.
  unfold cycles_of. intros Hm Hk H. destruct (_ || _); [discriminate|]. injection H as <-.
  rewrite Z.quot_div_nonneg by lia. apply Z.div_str_pos. lia.
Qed.

Lemma gmres_reals n eps tri matvec minv b cfg res l i A M bi x :
  0 < eps -> solves_upper tri -> (0 < k_restart cfg)%Z ->
  acts_on i A matvec -> acts_on i M minv -> linear_op (reals eps) n A -> linear_op (reals eps) n M ->
  bounded_below eps n (fun v => M (A v)) ->
  gmres (reals eps) real_sum real_dot tri matvec minv b cfg = (Ok res, l) ->
  nth_error b i = Some bi -> length bi = n -> nth_error (kr_du res) i = Some x ->
  normalised (Z.to_nat (k_restart cfg)) i (kr_iters res) l ->
  let z := M (residual_of (reals eps) A bi x) in
  length x = n /\
  (nth_error (kr_converged res) i = Some true ->
     exists e ds, 0 <= e /\ tolerated eps cfg bi e /\ Forall (fun d => length d = n) ds /\ x = sum_of n ds /\
       (length ds * Z.to_nat (k_restart cfg) < kr_iters res + Z.to_nat (k_restart cfg))%nat /\
       square z <= e * e + eps * eps * real_sum (map square ds)) /\
  (nth_error (kr_converged res) i = Some false -> (0 < k_max_its cfg)%Z -> ~ tolerated eps cfg bi (sqrt (square z))).
Proof.
  intros He ST Hm EA EM LA LM GB H Eb Lb Ex Hn. cbv zeta.
  destruct (gmres_run _ _ _ _ _ _ _ _ _ _ Hm H) as (c & st & Ec & Hl & E1 & E2 & E3 & L & NE).
  set (m := Z.to_nat (k_restart cfg)) in *.
  assert (Hm1 : (1 <= m)%nat) by (unfold m; lia).
  assert (Es0 : nth_error (map (gmres_start (reals eps)) b) i = Some (gmres_start (reals eps) bi)) by (rewrite nth_error_map, Eb; reflexivity).
  destruct (loop_exact n eps He tri ST A M LA LM GB bi Lb matvec minv b i EA EM Eb cfg m true _ _ st l _ 0%nat Hm1 (map_length _ _) (gcounted_start _ b) Hl Es0)
    as (ks & S1 & S2 & _ & S4).
  assert (Ei : kr_iters res = iters_total ks) by (rewrite E3; apply (gcounted_max _ _ NE S2)).
  destruct (S4 []) as (s & ds & F1 & F2 & F3 & [F0 F4] & _ & F5 & F6).
  { split; [|split; [|split; [|split]]]; try discriminate.
    - cbn [gmres_start gr_x]. unfold zeros. rewrite map_length. exact Lb.
    - split; [constructor|]. cbn [gmres_start gr_x]. unfold zeros, sum_of. cbn [fold_left n_zero reals]. subst n. clear. induction bi; cbn; congruence.
    - intros _. cbn [gmres_start gr_x]. unfold zeros, nil_v. cbn [n_zero reals]. subst n. clear. induction bi; cbn; congruence. }
  { intros q x0 v Hq Eq Ev. apply (Hn q x0 v); [lia| |exact Ev]. unfold iteration_operand. rewrite Nat.add_0_r in Eq. exact Eq. }
  rewrite E1, nth_error_map, F1 in Ex. injection Ex as <-.
  change (M (residual_of (reals eps) A bi (gr_x s))) with (resid A M bi (gr_x s)).
  rewrite E2, nth_error_map, F1. cbn [option_map app] in *.
  split; [exact F3|]. split.
  - intros Q. injection Q as Q. destruct (F5 Q) as (e & P1 & P2 & P3). exists e, ds.
    split; [exact P1|]. split; [apply meets_tolerated, P2|]. split; [exact F0|]. split; [exact F4|].
    split; [rewrite F2, Ei; apply spread_count; assumption|exact P3].
  - intros Q Hk. injection Q as Q. pose proof (cycles_some cfg c Hm Hk Ec) as Hc.
    destruct (Z.to_nat c) eqn:Zc; [lia|]. intros T. apply meets_tolerated in T. rewrite (F6 eq_refl Q) in T. discriminate.
Qed.
