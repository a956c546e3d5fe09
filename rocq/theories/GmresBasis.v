(** The Arnoldi process and the rotations over the real numbers. *)
From Coq Require Import Reals Lra Psatz.
From Verif Require Import Base BaseProofs Newton Krylov SpecKrylov SpecGmres KrylovProofs KrylovRowProofs KrylovGmresProofs RealVec.
Local Open Scope R_scope.

Lemma length_S {A} (l : list A) k : length l = S k -> exists l' x, l = l' ++ [x] /\ length l' = k.
Proof.
  intros H. destruct (exists_last (l := l)) as (l' & x & ->); [destruct l; discriminate|].
  exists l', x. rewrite app_length in H. cbn in H. split; [reflexivity|lia].
Qed.
Lemma nth_app_at {A} (l : list A) x l' d : nth (length l) (l ++ x :: l') d = x.
Proof. rewrite app_nth2, Nat.sub_diag by lia. reflexivity. Qed.
Lemma firstn_app_at {A} (l l' : list A) : firstn (length l) (l ++ l') = l.
Proof. rewrite firstn_app, Nat.sub_diag, firstn_O, app_nil_r. apply firstn_all. Qed.

Section Basis.
  Variable n : nat.
  Variable eps : R.
  Hypothesis eps_pos : 0 < eps.
  Variable B : rvec -> rvec.
  Hypothesis LB : linear_op (reals eps) n B.
  Hypothesis GB : bounded_below eps n B.
  Notation N := (reals eps).
  Notation comb := (comb n).
  Notation all_len := (all_len n).
  Notation rotate := (rotate N).

  Lemma B_len x : length x = n -> length (B x) = n.
  Proof using LB. apply LB. Qed.
  Hint Resolve B_len : vec.
  Lemma B_plus x y : length x = n -> length y = n -> B (plus x y) = plus (B x) (B y).
  Proof using LB. apply LB. Qed.
  Lemma B_times c x : length x = n -> B (times c x) = times c (B x).
  Proof using LB. apply LB. Qed.
  Lemma B_nil : B (nil_v n) = nil_v n.
  Proof using LB. exact (linear_nil n eps B LB). Qed.

  (** ** Rotations *)
  Lemma rotate_snoc rot h l : length h = S (length rot) -> rotate rot (h ++ l) = rotate rot h ++ l.
  Proof using.
    revert h. induction rot as [|[c s] rot IH]; intros h L; [reflexivity|].
    destruct h as [|a [|b h]]; try discriminate. cbn [Krylov.rotate app]. f_equal.
    apply (IH (_ :: h)). cbn in *. lia.
  Qed.
  Lemma rotate_len rot h : length (rotate rot h) = length h.
  Proof using.
    revert h. induction rot as [|[c s] rot IH]; intros h; [reflexivity|].
    destruct h as [|a [|b h]]; try reflexivity. cbn [Krylov.rotate length]. rewrite IH. reflexivity.
  Qed.
  Lemma rotate_next rot h c s a b h' : length rot = length h -> (rotate rot (h ++ [a]) = h' ++ [b])%list ->
    forall z, rotate (rot ++ [(c, s)]) (h ++ [a; z]) = h' ++ [c * b + s * z; - s * b + c * z].
  Proof using.
    revert h a h'. induction rot as [|[c0 s0] rot IH]; intros h a h' L E z.
    - destruct h; [|discriminate]. cbn in *. destruct h' as [|x [|y h']]; try discriminate. injection E as ->. reflexivity.
    - destruct h as [|x h]; [discriminate|]. destruct h as [|y h].
      + destruct rot; [|discriminate]. cbn in E. destruct h' as [|x' [|y' [|? ?]]]; try discriminate.
        injection E as <- <-. cbn. reflexivity.
      + cbn [app Krylov.rotate n_add n_mul n_neg reals] in *. destruct h' as [|x' h'].
        { injection E as _ E. apply (f_equal (@length R)) in E. rewrite rotate_len in E. cbn in E. rewrite app_length in E. cbn in E. lia. }
        cbn [app] in E. injection E as E1 E2. rewrite E1. cbn [app]. f_equal.
        apply (IH (_ :: h) a h'); [cbn in *; lia|exact E2].
  Qed.
  Lemma rotate_zero rot k : rotate rot (nil_v k) = nil_v k.
  Proof using.
    revert k. induction rot as [|[c s] rot IH]; intros k; [reflexivity|].
    destruct k as [|[|k]]; try reflexivity. unfold nil_v in *. cbn [repeat Krylov.rotate].
    cbn [n_add n_mul n_neg reals]. replace (c * 0 + s * 0) with 0 by ring. f_equal.
    replace (- s * 0 + c * 0) with 0 by ring. exact (IH (S k)).
  Qed.

  (** ** The invariant: [us] the basis, [qs] and [p] the rotated one. *)
  Record inv (r0 : rvec) (us : list rvec) (cols : list rvec) (rot : list (R * R)) (g : rvec) (last : R)
             (qs : list rvec) (p : rvec) (k : nat) : Prop := {
    i_us : length us = S k; i_uslen : all_len us; i_usorth : orth us;
    i_unit : Forall (fun v => square v = 1 \/ v = nil_v n) us;
    i_qs : length qs = k; i_qslen : all_len qs; i_p : length p = n; i_qorth : orth (qs ++ [p]);
    i_span : forall u, length u = n -> (forall v, In v us -> real_dot u v = 0) ->
             real_dot u p = 0 /\ forall q, In q qs -> real_dot u q = 0;
    i_change : forall h, length h = S k -> comb h us = comb (rotate rot h) (qs ++ [p]);
    i_rot : length rot = k; i_g : length g = k; i_cols : length cols = k;
    i_col : forall j col v, nth_error cols j = Some col -> nth_error us j = Some v ->
            length col = S j /\ 0 <= nth j col 0 /\ B v = comb col qs;
    i_r0 : r0 = plus (comb g qs) (times last p);
    i_norms : map square qs = map square (firstn k us);
    i_last : last * last * square p = last * last;
    i_alive : (square p = 1 /\ square (List.last us []) = 1 /\
               forall t, length t = k -> exists y, length y = k /\ B (comb y us) = comb t qs) \/
              (p = nil_v n /\ List.last us [] = nil_v n) }.

  Lemma inv_start r : length r = n -> square r = 1 \/ r = nil_v n -> forall beta, (r = nil_v n -> beta = 0) ->
    inv (times beta r) [r] [] [] [] beta [] r 0.
  Proof using LB.
    intros Lr H beta Hb. constructor; cbn [length orth app map firstn]; auto.
    - repeat constructor; assumption.
    - split; [|exact I]. intros w [].
    - constructor.
    - split; [|exact I]. intros w [].
    - intros u Lu O. split; [apply O; left; reflexivity|intros q []].
    - intros [|j] col v Ec; discriminate.
    - cbn [RealVec.comb]. vec n. ring.
    - destruct H as [H|H]; [rewrite H; ring|]. rewrite (Hb H). ring.
    - cbn [List.last]. destruct H as [H|H]; [left|right; auto]. split; [exact H|]. split; [exact H|].
      intros [|t ts] L; [|discriminate]. exists []. split; [reflexivity|]. cbn [RealVec.comb]. apply B_nil.
  Qed.

  Lemma last_snoc (us : list rvec) v d : List.last (us ++ [v]) d = v.
  Proof using. apply List.last_last. Qed.
  Lemma all_snoc us v : all_len us -> length v = n -> all_len (us ++ [v]).
  Proof using. intros A L. apply Forall_app. split; [exact A|repeat constructor; exact L]. Qed.
  Lemma comb_one x v : length v = n -> comb [x] [v] = times x v.
  Proof using. intros L. cbn [RealVec.comb]. vec n. ring. Qed.
  Lemma comb_snoc h x us v : all_len us -> length v = n -> length h = length us ->
    comb (h ++ [x]) (us ++ [v]) = plus (comb h us) (times x v).
  Proof using.
    intros A L E. rewrite comb_app; auto; [|repeat constructor; exact L]. rewrite comb_one by exact L. reflexivity.
  Qed.
  Lemma comb_two h x y us v w : all_len us -> length v = n -> length w = n -> length h = length us ->
    comb (h ++ [x; y]) (us ++ [v; w]) = plus (comb h us) (plus (times x v) (times y w)).
  Proof using.
    intros A L1 L2 E. rewrite comb_app; auto; [|repeat constructor; assumption]. f_equal. cbn [RealVec.comb]. vec n. ring.
  Qed.

  (** A step adds the direction [u] and the rotation (c, s). *)
  Lemma extend r0 us cols rot g last qs p k u c' a hj c s d :
    inv r0 us cols rot g last qs p k ->
    length u = n -> (forall v, In v us -> real_dot u v = 0) -> length c' = k ->
    B (List.last us []) = plus (comb c' qs) (plus (times a p) (times hj u)) ->
    square u = 1 \/ (u = nil_v n /\ hj = 0) ->
    a = c * d -> hj = s * d -> 0 <= d ->
    (square p = 1 /\ square (List.last us []) = 1 /\ c * c + s * s = 1 /\ 0 < d) \/
    (p = nil_v n /\ List.last us [] = nil_v n /\ u = nil_v n /\ a = 0 /\ c = 0 /\ s = 0 /\ hj = 0) ->
    (hj = 0 -> s = 0) ->
    inv r0 (us ++ [u]) (cols ++ [c' ++ [c * a + s * hj]]) (rot ++ [(c, s)]) (g ++ [c * last]) (- s * last)
        (qs ++ [plus (times c p) (times s u)]) (plus (times (- s) p) (times c u)) (S k).
  Proof using LB GB.
    intros I Lu Ou Lc' EB Hu Ea Ehj Hd Hcase Hs0.
    destruct I as [I1 I2 I3 I4 I5 I6 I7 I8 I9 I10 I11 I12 I13 I14 I15 I16 I17 I18].
    destruct (length_S us k I1) as (us0 & v & Eus & Lus0).
    assert (Ev : List.last us [] = v) by (rewrite Eus; apply last_snoc). rewrite Ev in *.
    assert (A0 : all_len us0 /\ length v = n).
    { rewrite Eus in I2. apply Forall_app in I2 as [X Y]. inversion Y; subst. auto. }
    destruct A0 as [A0 Lv].
    destruct (I9 u Lu Ou) as [Op Oq].
    set (q := plus (times c p) (times s u)). set (p' := plus (times (- s) p) (times c u)).
    assert (Lq : length q = n) by (unfold q; vlen). assert (Lp' : length p' = n) by (unfold p'; vlen).
    assert (Qp : forall q0, In q0 qs -> real_dot q0 p = 0).
    { apply orth_app in I8 as (_ & _ & X). intros q0 I0. apply X; [exact I0|left; reflexivity]. }
    assert (Qorth : orth qs) by (apply orth_app in I8; tauto).
    assert (Lqs0 : forall q0, In q0 qs -> length q0 = n).
    { intros q0 I0. unfold RealVec.all_len in I6. rewrite Forall_forall in I6. auto. }
    assert (Dead0 : p = nil_v n -> u = nil_v n -> q = nil_v n /\ p' = nil_v n).
    { intros -> ->. unfold q, p'. split; vec n; ring. }
    assert (Eqp : real_dot q p' = 0).
    { unfold q, p'. rewrite (plus_dot n), !(dot_plus n) by vlen. rewrite !times_dot, !dot_times.
      rewrite (dot_comm p u), Op. fold (square p) (square u).
      destruct Hcase as [(H1 & H2 & H3 & H4)|(-> & _ & -> & _)]; [|unfold square; rewrite !dot_nil; ring].
      destruct Hu as [Hu|[-> Hj]]; [rewrite H1, Hu; ring|]. rewrite (Hs0 Hj). unfold square. rewrite dot_nil. ring. }
    assert (Sq : square q = c * c * square p + s * s * square u).
    { unfold q. rewrite (square_plus n) by vlen. rewrite !square_times, times_dot, dot_times, (dot_comm p u), Op. ring. }
    assert (Sp' : square p' = s * s * square p + c * c * square u).
    { unfold p'. rewrite (square_plus n) by vlen. rewrite !square_times, times_dot, dot_times, (dot_comm p u), Op. ring. }
    constructor.
    - rewrite app_length, I1. cbn. lia.
    - apply all_snoc; assumption.
    - apply orth_app. split; [exact I3|]. split; [split; [intros w []|exact I]|].
      intros a0 w Ia [<-|[]]. rewrite dot_comm. auto.
    - apply Forall_app. split; [exact I4|]. constructor; [|constructor]. destruct Hu as [Hu|[Hu _]]; auto.
    - rewrite app_length, I5. cbn. lia.
    - apply all_snoc; assumption.
    - exact Lp'.
    - apply orth_app. split.
      { apply orth_app. split; [exact Qorth|]. split; [split; [intros w []|exact I]|].
        intros q0 w I0 [<-|[]]. unfold q. rewrite (dot_plus n) by vlen. rewrite !dot_times, Qp, (dot_comm q0 u), Oq by assumption. ring. }
      split; [split; [intros w []|exact I]|].
      intros q0 w I0 [<-|[]]. apply in_app_or in I0 as [I0|[<-|[]]]; [|exact Eqp].
      unfold p'. rewrite (dot_plus n) by vlen. rewrite !dot_times, Qp, (dot_comm q0 u), Oq by assumption. ring.
    - intros x Lx Ox. assert (Oxu : forall v0, In v0 us -> real_dot x v0 = 0).
      { intros v0 I0. apply Ox, in_or_app. auto. }
      assert (Ox1 : real_dot x u = 0) by (apply Ox, in_or_app; right; left; reflexivity).
      destruct (I9 x Lx Oxu) as [X1 X2]. split.
      + unfold p'. rewrite (dot_plus n) by vlen. rewrite !dot_times, X1, Ox1. ring.
      + intros q0 I0. apply in_app_or in I0 as [I0|[<-|[]]]; [auto|].
        unfold q. rewrite (dot_plus n) by vlen. rewrite !dot_times, X1, Ox1. ring.
    - intros h Lh. destruct (length_S h (S k) Lh) as (h1 & z & -> & Lh1).
      rewrite comb_snoc by (auto; congruence).
      rewrite (I10 h1 Lh1).
      destruct (length_S (rotate rot h1) k ltac:(rewrite rotate_len; exact Lh1)) as (h' & b & Er & Lh').
      rewrite Er. rewrite comb_snoc by (auto; congruence).
      destruct (length_S h1 k Lh1) as (h0 & x & Eh1 & Lh0). subst h1. rewrite <- app_assoc. cbn [app].
      rewrite (rotate_next rot h0 c s x b h' ltac:(congruence) Er). rewrite <- app_assoc. cbn [app].
      rewrite comb_two by (auto; congruence). unfold q, p'.
      destruct Hcase as [(H1 & H2 & H3 & H4)|(-> & _ & -> & _)].
      + vec n. replace (co t p) with ((c * c + s * s) * co t p) at 1 by (rewrite H3; ring).
        replace (co t u) with ((c * c + s * s) * co t u) at 1 by (rewrite H3; ring). ring.
      + vec n. ring.
    - rewrite app_length, I11. cbn. lia.
    - rewrite app_length, I12. cbn. lia.
    - rewrite app_length, I13. cbn. lia.
    - intros j col v0 Ec Ev0. destruct (Nat.lt_ge_cases j k) as [Hj|Hj].
      + rewrite nth_error_app1 in Ec by lia. rewrite nth_error_app1 in Ev0 by lia.
        destruct (I14 j col v0 Ec Ev0) as (Y1 & Y2 & Y3). split; [exact Y1|]. split; [exact Y2|].
        rewrite Y3, comb_more_le by lia. reflexivity.
      + assert (Hj2 : (j < length (us ++ [u]) - 1)%nat).
        { assert (Q : nth_error (cols ++ [(c' ++ [c * a + s * hj])%list]) j <> None) by congruence.
          apply nth_error_Some in Q. rewrite app_length in *. cbn in *. lia. }
        assert (j = k) by (rewrite app_length, I1 in Hj2; cbn in Hj2; lia).
        subst j. rewrite nth_error_app2, I13, Nat.sub_diag in Ec by lia. cbn in Ec. injection Ec as <-.
        assert (v0 = v). { rewrite nth_error_app1 in Ev0 by lia. rewrite Eus, nth_error_app2, Lus0, Nat.sub_diag in Ev0 by lia. cbn in Ev0. congruence. }
        subst v0. split; [rewrite app_length, Lc'; cbn; lia|].
        assert (Ed : c * a + s * hj = (c * c + s * s) * d) by (subst a hj; ring).
        split.
        { rewrite <- Lc', nth_app_at, Ed. apply Rmult_le_pos; [nra|exact Hd]. }
        rewrite EB, comb_snoc by (auto; congruence). unfold q.
        destruct Hcase as [(H1 & H2 & H3 & H4)|(-> & _ & -> & _)].
        * rewrite Ed, H3, Ea, Ehj. vec n. ring.
        * vec n. ring.
    - rewrite I15 at 1. rewrite comb_snoc by (auto; congruence). unfold q, p'.
      destruct Hcase as [(H1 & H2 & H3 & H4)|(-> & _ & -> & _)].
      + vec n. replace (co t p) with ((c * c + s * s) * co t p) at 1 by (rewrite H3; ring). ring.
      + vec n. ring.
    - rewrite map_app, I16. cbn [map]. rewrite Eus, <- app_assoc. cbn [app].
      rewrite <- Lus0 at 1. rewrite firstn_app_at.
      replace (S k) with (length (us0 ++ [v])) by (rewrite app_length, Lus0; cbn; lia).
      replace (us0 ++ [v; u]) with ((us0 ++ [v]) ++ [u]) by (rewrite <- app_assoc; reflexivity).
      rewrite firstn_app_at, map_app. cbn [map]. do 2 f_equal. rewrite Sq.
      destruct Hcase as [(H1 & H2 & H3 & H4)|(-> & -> & -> & _)].
      + rewrite H1, H2. destruct Hu as [Hu|[-> Hj]]; [rewrite Hu; lra|]. rewrite (Hs0 Hj) in *. unfold square at 1. rewrite dot_nil. lra.
      + unfold square. rewrite dot_nil. ring.
    - rewrite Sp'. destruct Hcase as [(H1 & H2 & H3 & H4)|(-> & -> & -> & _ & -> & -> & _)]; [|ring].
      destruct Hu as [Hu|[-> Hj]]; [rewrite H1, Hu; nra|]. rewrite (Hs0 Hj). ring.
    - rewrite last_snoc. destruct Hcase as [(H1 & H2 & H3 & H4)|(E1 & E2 & E3 & E4 & E5 & E6 & E7)].
      + destruct Hu as [Hu|[Hu Hj]].
        * left. split; [rewrite Sp', H1, Hu; nra|]. split; [exact Hu|].
          intros t Lt. destruct (length_S t k Lt) as (t0 & tau & -> & Lt0).
          destruct I18 as [(_ & _ & Sol)|(Z1 & Z2)].
          2:{ exfalso. rewrite Z1 in H1. unfold square in H1. rewrite dot_nil in H1. lra. }
          set (y := tau / d).
          destruct (Sol (minus t0 (times y c')) ltac:(vlen)) as (ys & Ly & Ey).
          exists (ys ++ [y]). split; [rewrite app_length, Ly; cbn; lia|].
          rewrite comb_more_le by (rewrite app_length, Ly, I1; cbn; lia).
          rewrite Eus, comb_snoc by (auto; congruence).
          rewrite Eus, comb_more_le in Ey by (rewrite Ly, Lus0; lia).
          rewrite B_plus, B_times, Ey, EB by vlen.
          rewrite comb_minus by (auto; unfold times; rewrite map_length; congruence).
          rewrite comb_times by assumption.
          rewrite comb_snoc by (auto; congruence). unfold q.
          assert (Ya : y * a = tau * c) by (unfold y; rewrite Ea; field; lra).
          assert (Yh : y * hj = tau * s) by (unfold y; rewrite Ehj; field; lra).
          vec n. rewrite !Rmult_plus_distr_l, <- !Rmult_assoc, Ya, Yh. ring.
        * right. split; [|exact Hu]. unfold p'. rewrite Hu, (Hs0 Hj). vec n. ring.
      + right. split; [|exact E3]. apply Dead0; assumption.
  Qed.

  (** ** The model's step *)
  Lemma map_sq w : map (fun x => n_mul N x x) w = map2 Rmult w w.
  Proof using. induction w as [|x w IH]; [reflexivity|]. cbn [map]. rewrite IH. reflexivity. Qed.
  Lemma row_norm_sqrt w : row_norm N real_sum w = sqrt (square w).
  Proof using. unfold row_norm. rewrite map_sq. reflexivity. Qed.
  Lemma clamp_ge x : eps <= x -> clamp N x = x.
  Proof using. intros H. unfold clamp. cbn [n_lt n_eps reals]. destruct (Rlt_dec x eps); [lra|reflexivity]. Qed.
  Lemma clamp_lt x : x < eps -> clamp N x = eps.
  Proof using. intros H. unfold clamp. cbn [n_lt n_eps reals]. destruct (Rlt_dec x eps); [reflexivity|lra]. Qed.
  Lemma clamp_pos x : 0 < clamp N x.
  Proof using eps_pos. destruct (Rlt_dec x eps); [rewrite clamp_lt; lra|rewrite clamp_ge; lra]. Qed.

  Definition dots (vs : list rvec) (w : rvec) : rvec := map (fun v => real_dot v w) vs.
  Lemma dot_comb_in vs h v i : all_len vs -> orth vs -> nth_error vs i = Some v -> length h = length vs ->
    real_dot v (comb h vs) = nth i h 0 * square v.
  Proof using.
    intros A. revert h i. induction A as [|v0 vs Lv A IH]; intros [|x h] i O E L; try discriminate; [destruct i; discriminate|].
    destruct O as [O1 O2]. cbn [RealVec.comb]. destruct i as [|i].
    - cbn in E. injection E as ->. rewrite (dot_plus n) by vlen. rewrite dot_times, (dot_comb n) by auto. cbn. unfold square. ring.
    - cbn in E. cbn [nth]. assert (Lv' : length v = n).
      { unfold RealVec.all_len in A. rewrite Forall_forall in A. apply A. eapply nth_error_In, E. }
      rewrite (dot_plus n) by vlen. rewrite dot_times, (dot_comm v v0), (O1 v) by (eapply nth_error_In; exact E).
      rewrite (IH h i O2 E) by (cbn in L; lia). ring.
  Qed.
  Lemma project_orth vs w : all_len vs -> orth vs -> Forall (fun v => square v = 1 \/ v = nil_v n) vs -> length w = n ->
    forall v, In v vs -> real_dot v (minus w (comb (dots vs w) vs)) = 0.
  Proof using.
    intros A O U Lw v I. apply In_nth_error in I as (i & E).
    assert (Lv : length v = n).
    { unfold RealVec.all_len in A. rewrite Forall_forall in A. apply A. eapply nth_error_In, E. }
    rewrite (dot_minus n) by vlen. rewrite (dot_comb_in vs _ v i) by (auto; unfold dots; apply map_length).
    assert (Q : nth i (dots vs w) 0 = real_dot v w).
    { unfold dots. apply nth_error_nth. rewrite nth_error_map, E. reflexivity. }
    rewrite Q. rewrite Forall_forall in U. destruct (U v (nth_error_In _ _ E)) as [->| ->]; [ring|]. unfold square. rewrite !nil_dot. ring.
  Qed.
  Lemma dots_zero vs w : (forall v, In v vs -> real_dot v w = 0) -> dots vs w = nil_v (length vs).
  Proof using.
    induction vs as [|v vs IH]; intros H; [reflexivity|]. cbn [dots map nil_v repeat length]. rewrite H by (left; reflexivity).
    f_equal. apply IH. intros; apply H; right; assumption.
  Qed.
  Lemma comb_zero k vs : all_len vs -> comb (nil_v k) vs = nil_v n.
  Proof using.
    intros A. revert k. induction A as [|v vs Lv A IH]; intros [|k]; try reflexivity.
    cbn [nil_v repeat RealVec.comb]. fold (nil_v k). rewrite IH. vec n. ring.
  Qed.
  Lemma project_eq vs w : all_len vs -> length w = n ->
    project N real_dot vs w = (dots vs w, minus w (comb (dots vs w) vs)).
  Proof using. intros A L. unfold project. rewrite (combination_comb n) by assumption. reflexivity. Qed.

  Lemma div_nil k x : map (fun y => y / x) (nil_v k) = nil_v k.
  Proof using. induction k as [|k IH]; [reflexivity|]. cbn [nil_v repeat map]. unfold Rdiv at 1. rewrite Rmult_0_l. f_equal. exact IH. Qed.

  (** The state of a row against the invariant: the last direction may be scaled. *)
  Definition holds (r0 : rvec) (a : arnoldi R) (us : list rvec) (qs : list rvec) (p : rvec) (k : nat) : Prop :=
    inv r0 us (ar_cols a) (ar_rot a) (ar_g a) (ar_last a) qs p k /\
    exists us0 u rho, us = us0 ++ [u] /\ ar_vs a = us0 ++ [times rho u] /\ 0 < rho.

  Lemma holds_clean r0 a us qs p k : holds r0 a us qs p k -> square (last_v a) = 1 \/ square (last_v a) = 0 -> ar_vs a = us.
  Proof using.
    intros (I & us0 & u & rho & -> & E & Hr) H. unfold last_v in H. rewrite E, last_snoc, square_times in H.
    rewrite E. f_equal. f_equal.
    pose proof (i_unit _ _ _ _ _ _ _ _ _ I) as U. apply Forall_app in U as [_ U]. inversion U as [|? ? U1 _]; subst.
    pose proof (i_uslen _ _ _ _ _ _ _ _ _ I) as L. apply Forall_app in L as [_ L]. inversion L as [|? ? L1 _]; subst.
    destruct U1 as [U1|U1].
    - rewrite U1 in H. assert (rho = 1) by nra. subst rho. vec (length u). ring.
    - rewrite U1. apply nil_times.
  Qed.

  Lemma step_holds r0 a us qs p k :
    inv r0 us (ar_cols a) (ar_rot a) (ar_g a) (ar_last a) qs p k -> ar_vs a = us ->
    let a' := arnoldi_step N real_sum real_dot (B (last_v a)) a in
    (exists us' qs' p', holds r0 a' us' qs' p' (S k) /\ exists u, us' = us ++ [u]) /\
    ar_last a' * ar_last a' <= ar_last a * ar_last a.
  Proof using eps_pos LB GB.
    intros I Evs. cbv zeta.
    pose proof I as [I1 I2 I3 I4 I5 I6 I7 I8 I9 I10 I11 I12 I13 I14 I15 I16 I17 I18].
    unfold last_v. rewrite Evs. set (v := List.last us []) in *.
    assert (Iv : In v us).
    { apply last_in. destruct us; [discriminate|discriminate]. }
    assert (Lv : length v = n).
    { unfold RealVec.all_len in I2. rewrite Forall_forall in I2. auto. }
    pose proof (B_len v Lv) as Lw. set (w := B v) in *.
    unfold arnoldi_step. rewrite Evs. rewrite (project_eq us w) by assumption.
    set (h := dots us w). set (w1 := minus w (comb h us)).
    assert (Lw1 : length w1 = n) by (unfold w1; vlen).
    assert (Lh : length h = S k) by (unfold h, dots; rewrite map_length; exact I1).
    pose proof (project_orth us w I2 I3 I4 Lw) as O1. fold h in O1. fold w1 in O1.
    rewrite (project_eq us w1) by assumption. rewrite (dots_zero us w1 O1).
    rewrite comb_zero by assumption.
    replace (minus w1 (nil_v n)) with w1 by (vec n; ring).
    replace (vadd N h (nil_v (length us))) with h.
    2:{ change (vadd N h (nil_v (length us))) with (plus h (nil_v (length us))). rewrite I1. vec (S k). ring. }
    rewrite row_norm_sqrt. set (hj := sqrt (square w1)).
    assert (Hhj : 0 <= hj) by apply sqrt_pos.
    assert (Hsq : hj * hj = square w1) by (apply sqrt_sqrt, square_pos).
    rewrite rotate_snoc by (rewrite I11; exact Lh).
    destruct (length_S (rotate (ar_rot a) h) k ltac:(rewrite rotate_len; exact Lh)) as (c' & al & Er & Lc').
    rewrite Er. rewrite <- app_assoc. cbn [app]. rewrite I11. cbn [n_zero reals].
    replace (nth k (c' ++ [al; hj]) 0) with al by (rewrite <- Lc', nth_app_at; reflexivity).
    replace (nth (S k) (c' ++ [al; hj]) 0) with hj.
    2:{ replace (c' ++ [al; hj]) with ((c' ++ [al]) ++ [hj]) by (rewrite <- app_assoc; reflexivity).
        replace (S k) with (length (c' ++ [al])) by (rewrite app_length, Lc'; cbn; lia). rewrite nth_app_at. reflexivity. }
    replace (firstn k (c' ++ [al; hj])) with c' by (rewrite <- Lc', firstn_app_at; reflexivity).
    cbn [n_sqrt n_add n_mul n_div n_neg reals].
    set (d := clamp N (sqrt (al * al + hj * hj))).
    (* the direction *)
    assert (exists u, length u = n /\ (forall x, In x us -> real_dot u x = 0) /\ w1 = times hj u /\
              ((square u = 1 /\ hj <> 0) \/ (u = nil_v n /\ hj = 0)) /\
              exists rho, 0 < rho /\ map (fun x => x / clamp N hj) w1 = times rho u) as (u & Lu & Ou & Ew1 & Hu & rho & Hrho & Erho).
    { destruct (Req_dec hj 0) as [Z|NZ].
      - assert (w1 = nil_v n) as Zw by (apply square_zero; [exact Lw1|]; rewrite <- Hsq, Z; ring).
        exists (nil_v n). split; [apply nil_len|]. split; [intros; apply nil_dot|].
        split; [rewrite nil_times; exact Zw|]. split; [auto|]. exists 1. split; [lra|].
        rewrite Zw, nil_times. apply div_nil.
      - exists (times (/ hj) w1). split; [vlen|]. split.
        { intros x Ix. rewrite times_dot, dot_comm, O1 by exact Ix. ring. }
        split; [vec n; field; exact NZ|]. split; [left; split; [rewrite square_times, <- Hsq; field; exact NZ|exact NZ]|].
        pose proof (clamp_pos hj) as Cp.
        exists (hj / clamp N hj). split; [apply Rdiv_lt_0_compat; lra|].
        replace (map (fun x => x / clamp N hj) w1) with (times (/ clamp N hj) w1).
        2:{ unfold times. apply map_ext. intros x. unfold Rdiv. ring. }
        vec n. field. split; lra. }
    assert (EB : B (List.last us []) = plus (comb c' qs) (plus (times al p) (times hj u))).
    { fold v. fold w. replace w with (plus (comb h us) w1) by (unfold w1; vec n; ring).
      rewrite (I10 h Lh), Er, comb_snoc by (auto; congruence). rewrite Ew1. vec n. ring. }
    (* the rotation *)
    assert (Hd : 0 < d) by apply clamp_pos.
    assert (Hcase : (square p = 1 /\ square (List.last us []) = 1 /\ al / d * (al / d) + hj / d * (hj / d) = 1 /\ 0 < d) \/
      (p = nil_v n /\ List.last us [] = nil_v n /\ u = nil_v n /\ al = 0 /\ al / d = 0 /\ hj / d = 0 /\ hj = 0)).
    { fold v. destruct I18 as [(P1 & P2 & Sol)|(P1 & P2)].
      - left. split; [exact P1|]. split; [exact P2|]. split; [|exact Hd].
        destruct (length_S us k I1) as (us0 & v' & Eus & Lus0).
        assert (v' = v) by (unfold v; rewrite Eus; symmetry; apply last_snoc). subst v'.
        assert (A0 : all_len us0) by (rewrite Eus in I2; apply Forall_app in I2; tauto).
        destruct (Sol (times (-1) c') ltac:(vlen)) as (y & Ly & Ey).
        rewrite Eus, comb_more_le in Ey by lia.
        pose proof (GB (comb (y ++ [1]) us) ltac:(vlen)) as G.
        rewrite (square_comb n) in G by assumption.
        assert (G1 : 1 <= weigh (y ++ [1]) us).
        { rewrite Eus. clear -P2 Ly Lus0. revert us0 k Ly Lus0. induction y as [|y0 y IH]; intros [|u0 us0] k Ly Lus0; cbn [length] in *; try lia; cbn [app weigh].
          - rewrite P2. lra.
          - pose proof (square_pos u0). specialize (IH us0 (pred k) ltac:(lia) ltac:(lia)). nra. }
        assert (Ex : B (comb (y ++ [1]) us) = plus (times al p) (times hj u)).
        { rewrite Eus, comb_snoc by (auto; congruence). rewrite B_plus, B_times, Ey by vlen.
          fold w. change w with (B v). fold v in EB. rewrite EB. rewrite comb_times by assumption. vec n. ring. }
        rewrite Ex in G. rewrite (square_plus n), !square_times, times_dot, dot_times in G by vlen.
        destruct (I9 u Lu Ou) as [Op _]. rewrite (dot_comm p u), Op, P1 in G.
        assert (G2 : hj * hj * square u = hj * hj) by (destruct Hu as [[-> _]|[_ ->]]; ring).
        assert (G3 : eps * eps <= al * al + hj * hj) by (nra).
        assert (G4 : eps <= sqrt (al * al + hj * hj)).
        { rewrite <- (sqrt_square eps) by lra. apply sqrt_le_1_alt. exact G3. }
        assert (G5 : d * d = al * al + hj * hj).
        { unfold d. rewrite clamp_ge by exact G4. apply sqrt_sqrt. nra. }
        replace (al / d * (al / d) + hj / d * (hj / d)) with ((al * al + hj * hj) / (d * d)) by (field; lra).
        rewrite <- G5. field. lra.
      - right. assert (Zw : w = nil_v n) by (unfold w; rewrite P2; apply B_nil).
        assert (Zh : h = nil_v (S k)).
        { unfold h. rewrite dots_zero; [rewrite I1; reflexivity|]. intros x _. rewrite Zw. apply dot_nil. }
        assert (Zw1 : w1 = nil_v n).
        { unfold w1. rewrite Zw, Zh, comb_zero by assumption. vec n. ring. }
        assert (Zhj : hj = 0). { unfold hj. rewrite Zw1. unfold square. rewrite dot_nil. apply sqrt_0. }
        assert (Zal : al = 0).
        { rewrite Zh, rotate_zero in Er. assert (Q : nth k (c' ++ [al]) 0 = 0) by (rewrite <- Er; apply co_nil).
          rewrite <- Lc', nth_app_at in Q. exact Q. }
        assert (Zu : u = nil_v n).
        { destruct Hu as [[_ Hu]|[Hu _]]; [contradiction|exact Hu]. }
        rewrite Zhj, Zal. unfold Rdiv. rewrite Rmult_0_l. repeat split; auto. }
    split.
    - exists (us ++ [u]), (qs ++ [plus (times (al / d) p) (times (hj / d) u)]), (plus (times (- (hj / d)) p) (times (al / d) u)).
      split; [|exists u; reflexivity]. split; cbn [ar_vs ar_cols ar_rot ar_g ar_last].
      + apply (extend r0 us (ar_cols a) (ar_rot a) (ar_g a) (ar_last a) qs p k u c' al hj (al / d) (hj / d) d); auto.
        * destruct Hu as [[Hu _]|Hu]; auto.
        * field. lra.
        * field. lra.
        * lra.
        * intros ->. unfold Rdiv. ring.
      + exists us, u, rho. rewrite Erho. auto.
    - cbn [ar_last]. destruct Hcase as [(_ & _ & H & _)|(_ & _ & _ & _ & _ & -> & _)]; [|nra].
      assert (hj / d * (hj / d) <= 1) by nra. set (s := hj / d) in *. set (l := ar_last a). nra.
  Qed.

  (** ** The correction *)
  Variable tri : list (list R) -> list R -> list R.
  Hypothesis ST : solves_upper tri.

  Definition pad (k : nat) (col : rvec) : rvec := map (fun i => nth i col 0) (seq 0 k).
  Lemma pad_len k col : length (pad k col) = k.
  Proof using. unfold pad. rewrite map_length, seq_length. reflexivity. Qed.
  Lemma pad_eq k col : (length col <= k)%nat -> pad k col = col ++ nil_v (k - length col).
  Proof using.
    intros H. apply (nth_ext _ _ 0 0).
    - rewrite pad_len, app_length, nil_len. lia.
    - rewrite pad_len. intros i Hi. unfold pad.
      rewrite (nth_indep _ 0 (nth 0 col 0)) by (rewrite map_length, seq_length; exact Hi).
      rewrite (map_nth (fun i => nth i col 0)), seq_nth by exact Hi. cbn [Nat.add].
      destruct (Nat.lt_ge_cases i (length col)) as [L|L].
      + rewrite app_nth1 by exact L. reflexivity.
      + rewrite app_nth2 by exact L. rewrite nth_overflow by exact L. symmetry. apply (co_nil _ _).
  Qed.
  Lemma comb_pad k col qs : all_len qs -> length qs = k -> (length col <= k)%nat -> comb (pad k col) qs = comb col qs.
  Proof using.
    intros A L H. rewrite pad_eq by exact H.
    rewrite <- (firstn_skipn (length col) qs).
    assert (AA : all_len (firstn (length col) qs) /\ all_len (skipn (length col) qs)).
    { apply Forall_app. rewrite firstn_skipn. exact A. }
    destruct AA as [A1 A2].
    assert (L1 : length col = length (firstn (length col) qs)) by (rewrite firstn_length; lia).
    rewrite comb_app by assumption. rewrite comb_zero by assumption. rewrite (comb_more n col) by assumption. vec n. ring.
  Qed.

  Definition times_cols (k : nat) (y : rvec) (cols : list rvec) : rvec :=
    map (fun i => real_sum (map2 (fun y col => y * nth i col 0) y cols)) (seq 0 k).
  Lemma times_cols_len k y cols : length (times_cols k y cols) = k.
  Proof using. unfold times_cols. rewrite map_length, seq_length. reflexivity. Qed.
  Lemma times_cols_cons k y0 y col cols : times_cols k (y0 :: y) (col :: cols) = plus (times y0 (pad k col)) (times_cols k y cols).
  Proof using.
    unfold times_cols, pad, plus, times. generalize (seq 0 k) as is. intros is. induction is as [|i is IH]; [reflexivity|].
    cbn [map]. rewrite IH. reflexivity.
  Qed.
  Lemma times_cols_nil k y cols : y = [] \/ cols = [] -> times_cols k y cols = nil_v k.
  Proof using.
    intros H. unfold times_cols. rewrite <- (seq_length k 0) at 2. generalize (seq 0 k) as is. intros is.
    induction is as [|i is IH]; [reflexivity|]. cbn [map length nil_v repeat]. f_equal; [|exact IH].
    destruct H as [-> | ->]; [reflexivity|destruct y; reflexivity].
  Qed.
  Lemma comb_cols k y cols vs qs : all_len qs -> length qs = k ->
    length y = length cols -> length vs = length cols ->
    (forall j col v, nth_error cols j = Some col -> nth_error vs j = Some v -> (length col <= k)%nat /\ B v = comb col qs) ->
    comb y (map B vs) = comb (times_cols k y cols) qs.
  Proof using.
    intros A L. revert y vs. induction cols as [|col cols IH]; intros [|y0 y] [|v vs] L1 L2 H; try discriminate.
    - rewrite times_cols_nil by auto. rewrite comb_zero by assumption. reflexivity.
    - rewrite times_cols_cons. cbn [map RealVec.comb]. destruct (H 0%nat col v eq_refl eq_refl) as [Hc Hv].
      rewrite comb_plus by (auto; unfold times; rewrite map_length, pad_len, times_cols_len; reflexivity).
      rewrite comb_times, comb_pad, Hv by assumption. f_equal. apply IH; try (cbn in *; lia).
      intros j c0 v0 E1 E2. exact (H (S j) c0 v0 E1 E2).
  Qed.

  (** The regularised columns. *)
  Lemma seq_nth_error i len s : (i < len)%nat -> nth_error (seq s len) i = Some (s + i)%nat.
  Proof using.
    revert i s. induction len as [|len IH]; intros i s H; [lia|]. destruct i as [|i]; cbn [seq nth_error]; [f_equal; lia|].
    rewrite IH by lia. f_equal. lia.
  Qed.
  Lemma regularized_nth cols j col' : nth_error (regularized N cols) j = Some col' ->
    exists col, nth_error cols j = Some col /\ length col' = length col /\
      forall i, (length col = S j)%nat -> nth i col' 0 = nth i col 0 + eps * (if Nat.eqb i j then 1 else 0).
  Proof using.
    unfold regularized. rewrite nth_error_map, combine_nth. destruct (nth_error cols j) as [col|] eqn:E; [|destruct (nth_error (seq _ _) j); discriminate].
    assert (Hj : (j < length cols)%nat) by (apply nth_error_Some; congruence).
    rewrite seq_nth_error by exact Hj. cbn [option_map fst snd Nat.add]. intros [= <-]. exists col. split; [reflexivity|].
    split; [rewrite map_length, combine_length, seq_length; lia|].
    intros i Lc. destruct (Nat.lt_ge_cases i (length col)) as [H|H].
    - erewrite (nth_error_nth _ i 0 (x := nth i col 0 + eps * (if Nat.eqb i j then 1 else 0))); [reflexivity|].
      rewrite nth_error_map, combine_nth, seq_nth_error by exact H.
      destruct (nth_error col i) as [x|] eqn:Ex; [|apply nth_error_None in Ex; lia].
      cbn. rewrite (nth_error_nth _ _ _ Ex). reflexivity.
    - rewrite (nth_overflow col) by exact H. rewrite nth_overflow by (rewrite map_length, combine_length, seq_length; lia).
      destruct (Nat.eqb_spec i j); [lia|]. ring.
  Qed.
  Lemma regularized_len cols : length (regularized N cols) = length cols.
  Proof using. unfold regularized. rewrite map_length, combine_length, seq_length. lia. Qed.

  Lemma sum_regular y : forall cols cols' i s, length y = length cols -> length cols' = length cols ->
    (forall j col col', nth_error cols j = Some col -> nth_error cols' j = Some col' ->
       nth i col' 0 = nth i col 0 + eps * (if Nat.eqb i (s + j) then 1 else 0)) ->
    real_sum (map2 (fun y col => y * nth i col 0) y cols') =
    real_sum (map2 (fun y col => y * nth i col 0) y cols) + eps * (if Nat.ltb i s then 0 else nth (i - s) y 0).
  Proof using.
    induction y as [|y0 y IH]; intros [|col cols] [|col' cols'] i s L L' H; try discriminate.
    - replace (nth (i - s) (@nil R) 0) with 0 by (destruct (i - s)%nat; reflexivity).
      change (0 = 0 + eps * (if Nat.ltb i s then 0 else 0)). destruct (Nat.ltb i s); ring.
    - change (y0 * nth i col' 0 + real_sum (map2 (fun y col => y * nth i col 0) y cols') =
              y0 * nth i col 0 + real_sum (map2 (fun y col => y * nth i col 0) y cols) +
              eps * (if Nat.ltb i s then 0 else nth (i - s) (y0 :: y) 0)).
      rewrite (H 0%nat col col' eq_refl eq_refl). rewrite (IH cols cols' i (S s)); try (cbn in *; lia).
      + rewrite Nat.add_0_r. destruct (Nat.ltb_spec i s) as [Q|Q].
        * destruct (Nat.eqb_spec i s); [lia|]. destruct (Nat.ltb_spec i (S s)); [ring|lia].
        * destruct (Nat.eqb_spec i s) as [->|Q2].
          -- destruct (Nat.ltb_spec s (S s)); [|lia]. rewrite Nat.sub_diag. cbn [nth]. ring.
          -- destruct (Nat.ltb_spec i (S s)); [lia|]. replace (i - s)%nat with (S (i - S s)) by lia. cbn [nth]. ring.
      + intros j c0 c0' E1 E2. rewrite (H (S j) c0 c0' E1 E2). replace (s + S j)%nat with (S s + j)%nat by lia. reflexivity.
  Qed.

  Lemma correction r0 a us qs p k x : holds r0 a us qs p k -> length x = n ->
    let dx := combination real_dot (tri (regularized N (ar_cols a)) (ar_g a)) (firstn (length (ar_cols a)) (ar_vs a)) x in
    length dx = n /\ square (minus r0 (B dx)) = ar_last a * ar_last a + eps * eps * square dx.
  Proof using eps_pos LB ST.
    intros (I & us0 & u & rho & Eus & Evs & _) Lx. cbv zeta.
    destruct I as [I1 I2 I3 I4 I5 I6 I7 I8 I9 I10 I11 I12 I13 I14 I15 I16 I17 I18].
    assert (Lus0 : length us0 = k) by (rewrite Eus, app_length in I1; cbn in I1; lia).
    assert (A0 : all_len us0) by (rewrite Eus in I2; apply Forall_app in I2; tauto).
    assert (O0 : orth us0) by (rewrite Eus in I3; apply orth_app in I3; tauto).
    rewrite I13, Evs. replace (firstn k (us0 ++ [times rho u])) with us0 by (rewrite <- Lus0, firstn_app_at; reflexivity).
    rewrite (combination_comb n) by assumption.
    assert (Cj : forall j col v, nth_error (ar_cols a) j = Some col -> nth_error us0 j = Some v ->
                 length col = S j /\ 0 <= nth j col 0 /\ B v = comb col qs).
    { intros j col v E1 E2. apply (I14 j col v E1). rewrite Eus, nth_error_app1; [exact E2|].
      apply nth_error_Some. congruence. }
    assert (Cj' : forall j col, nth_error (ar_cols a) j = Some col -> length col = S j /\ 0 <= nth j col 0).
    { intros j col E. destruct (nth_error us0 j) as [v|] eqn:Ev.
      - destruct (Cj j col v E Ev) as (Q1 & Q2 & _). auto.
      - apply nth_error_None in Ev. assert (Q : nth_error (ar_cols a) j <> None) by congruence. apply nth_error_Some in Q. lia. }
    set (y := tri (regularized N (ar_cols a)) (ar_g a)).
    destruct (ST (regularized N (ar_cols a)) (ar_g a)) as [Ly Sy].
    { intros j col' E. destruct (regularized_nth _ _ _ E) as (col & Ec & Lc & Nc). destruct (Cj' j col Ec) as [Q1 Q2].
      split; [congruence|]. rewrite (Nc j Q1), Nat.eqb_refl. lra. }
    { rewrite regularized_len. congruence. }
    fold y in Ly, Sy. rewrite regularized_len, I13 in Ly. rewrite regularized_len, I13 in Sy.
    split; [vlen|].
    assert (Eg : ar_g a = plus (times_cols k y (ar_cols a)) (times eps y)).
    { apply (nth_ext _ _ 0 0).
      - rewrite I12. symmetry. apply plus_len; [apply times_cols_len|apply times_len; exact Ly].
      - rewrite I12. intros i Hi. rewrite <- (Sy i Hi).
        rewrite (sum_regular y (ar_cols a) (regularized N (ar_cols a)) i 0); try (rewrite ?regularized_len; congruence).
        + cbn [Nat.ltb Nat.leb]. rewrite Nat.sub_0_r. fold (co i (plus (times_cols k y (ar_cols a)) (times eps y))).
          rewrite (co_plus k) by (auto using times_cols_len, times_len). rewrite co_times. f_equal.
          unfold co, times_cols. set (f := fun i => real_sum (map2 (fun y col => y * nth i col 0) y (ar_cols a))).
          rewrite (nth_indep _ 0 (f 0%nat)) by (rewrite map_length, seq_length; exact Hi).
          rewrite (map_nth f), seq_nth by exact Hi. reflexivity.
        + intros j col col' E1 E2. destruct (regularized_nth _ _ _ E2) as (col0 & Ec & _ & Nc).
          assert (col0 = col) by congruence. subst col0. cbn [Nat.add]. apply Nc. apply (Cj' j col E1). }
    rewrite (linear_comb n eps B) by assumption.
    assert (Cq : forall j col v, nth_error (ar_cols a) j = Some col -> nth_error us0 j = Some v ->
                 (length col <= k)%nat /\ B v = comb col qs).
    { intros j col v E1 E2. destruct (Cj j col v E1 E2) as (Q1 & _ & Q3). split; [|exact Q3].
      assert (Q : nth_error (ar_cols a) j <> None) by congruence. apply nth_error_Some in Q. lia. }
    rewrite (comb_cols k y (ar_cols a) us0 qs I6 I5 ltac:(congruence) ltac:(congruence) Cq).
    replace (minus r0 (comb (times_cols k y (ar_cols a)) qs)) with (comb (times eps y ++ [ar_last a]) (qs ++ [p])).
    - rewrite (square_comb n) by (try apply all_snoc; assumption).
      rewrite (square_comb n) by assumption.
      rewrite <- (weigh_same y qs us0).
      2:{ rewrite I16, Eus. rewrite <- Lus0, firstn_app_at. reflexivity. }
      assert (W : forall h q0 z w, length h = length q0 -> weigh (h ++ [z]) (q0 ++ [w]) = weigh h q0 + z * z * square w).
      { clear. induction h as [|a h IH]; intros [|b q0] z w L; try discriminate; cbn [app weigh]; [ring|].
        rewrite IH by (cbn in L; lia). ring. }
      rewrite W by (unfold times; rewrite map_length; congruence). rewrite weigh_times, I17. ring.
    - rewrite I15, Eg. rewrite comb_snoc by (auto; unfold times; rewrite map_length; congruence).
      rewrite comb_plus by (auto; rewrite times_cols_len; unfold times; rewrite map_length; congruence). vec n. ring.
  Qed.
End Basis.
