(** Vectors of real numbers as lists. *)
From Coq Require Import Reals Lra Psatz.
From Verif Require Import Base BaseProofs Newton Krylov SpecKrylov SpecGmres KrylovProofs KrylovRowProofs.
Local Open Scope R_scope.

Notation rvec := (list R).
Definition plus (a b : rvec) : rvec := map2 Rplus a b.
Definition minus (a b : rvec) : rvec := map2 Rminus a b.
Definition times (c : R) (a : rvec) : rvec := map (Rmult c) a.
Definition nil_v (n : nat) : rvec := repeat 0 n.

Lemma plus_cons a b x y : plus (a :: x) (b :: y) = (a + b) :: plus x y.
Proof. reflexivity. Qed.
Lemma minus_cons a b x y : minus (a :: x) (b :: y) = (a - b) :: minus x y.
Proof. reflexivity. Qed.
Lemma times_cons c a x : times c (a :: x) = c * a :: times c x.
Proof. reflexivity. Qed.
Lemma dot_cons a b x y : real_dot (a :: x) (b :: y) = a * b + real_dot x y.
Proof. reflexivity. Qed.

Lemma plus_len n a b : length a = n -> length b = n -> length (plus a b) = n.
Proof. intros A B. apply map2_same; assumption. Qed.
Lemma minus_len n a b : length a = n -> length b = n -> length (minus a b) = n.
Proof. intros A B. apply map2_same; assumption. Qed.
Lemma times_len n c a : length a = n -> length (times c a) = n.
Proof. intros. unfold times. rewrite map_length. assumption. Qed.
Lemma nil_len n : length (nil_v n) = n.
Proof. apply repeat_length. Qed.
Global Hint Resolve plus_len minus_len times_len nil_len : vec.

(** Coordinates. *)
Definition co (t : nat) (v : rvec) : R := nth t v 0.
Lemma co_plus n t a b : length a = n -> length b = n -> co t (plus a b) = co t a + co t b.
Proof.
  revert t a b. induction n as [|n IH]; intros t [|x a] [|y b]; try discriminate; intros La Lb.
  - unfold co. destruct t; cbn; lra.
  - rewrite plus_cons. destruct t as [|t]; unfold co in *; cbn [nth]; [reflexivity|]. apply IH; cbn in *; lia.
Qed.
Lemma co_minus n t a b : length a = n -> length b = n -> co t (minus a b) = co t a - co t b.
Proof.
  revert t a b. induction n as [|n IH]; intros t [|x a] [|y b]; try discriminate; intros La Lb.
  - unfold co. destruct t; cbn; lra.
  - rewrite minus_cons. destruct t as [|t]; unfold co in *; cbn [nth]; [reflexivity|]. apply IH; cbn in *; lia.
Qed.
Lemma co_times t c a : co t (times c a) = c * co t a.
Proof.
  revert t. induction a as [|x a IH]; intros t; unfold co in *.
  - destruct t; cbn; lra.
  - rewrite times_cons. destruct t; cbn [nth]; [reflexivity|apply IH].
Qed.
Lemma co_nil n t : co t (nil_v n) = 0.
Proof. unfold co, nil_v. revert t. induction n as [|n IH]; intros [|t]; cbn; auto. Qed.
Lemma ext n a b : length a = n -> length b = n -> (forall t, co t a = co t b) -> a = b.
Proof.
  intros La Lb H. apply (nth_ext a b 0 0); [congruence|]. intros t _. apply (H t).
Qed.
Ltac vlen := eauto 20 with vec.
Ltac vec n :=
  apply (ext n); [solve [vlen]|solve [vlen]|];
  let t := fresh "t" in intros t;
  repeat first [rewrite (co_plus n t) by vlen | rewrite (co_minus n t) by vlen | rewrite co_times | rewrite co_nil].

(** Dot product. *)
Lemma dot_plus n a b c : length a = n -> length b = n -> length c = n -> real_dot a (plus b c) = real_dot a b + real_dot a c.
Proof.
  revert a b c. induction n as [|n IH]; intros [|x a] [|y b] [|z c]; try discriminate; intros La Lb Lc.
  - cbn. lra.
  - rewrite plus_cons, !dot_cons, IH by (cbn in *; lia). lra.
Qed.
Lemma dot_times a c b : real_dot a (times c b) = c * real_dot a b.
Proof.
  revert b. induction a as [|x a IH]; intros [|y b]; try (cbn; lra).
  rewrite times_cons, !dot_cons, IH. lra.
Qed.
Lemma dot_comm a b : real_dot a b = real_dot b a.
Proof. revert b. induction a as [|x a IH]; intros [|y b]; try reflexivity. rewrite !dot_cons, IH. lra. Qed.
Lemma dot_nil n a : real_dot a (nil_v n) = 0.
Proof.
  revert a. induction n as [|n IH]; intros [|x a]; try reflexivity. cbn [nil_v repeat]. rewrite dot_cons.
  fold (nil_v n). rewrite IH. lra.
Qed.
Lemma dot_minus n a b c : length a = n -> length b = n -> length c = n -> real_dot a (minus b c) = real_dot a b - real_dot a c.
Proof.
  intros La Lb Lc. replace (minus b c) with (plus b (times (-1) c)) by (vec n; ring).
  rewrite (dot_plus n) by vlen. rewrite dot_times. lra.
Qed.
Lemma plus_dot n a b c : length a = n -> length b = n -> length c = n -> real_dot (plus b c) a = real_dot b a + real_dot c a.
Proof. intros. rewrite dot_comm, (dot_plus n) by assumption. rewrite (dot_comm a b), (dot_comm a c). reflexivity. Qed.
Lemma minus_dot n a b c : length a = n -> length b = n -> length c = n -> real_dot (minus b c) a = real_dot b a - real_dot c a.
Proof. intros. rewrite dot_comm, (dot_minus n) by assumption. rewrite (dot_comm a b), (dot_comm a c). reflexivity. Qed.
Lemma times_dot a c b : real_dot (times c b) a = c * real_dot b a.
Proof. rewrite dot_comm, dot_times, dot_comm. reflexivity. Qed.
Lemma nil_dot n a : real_dot (nil_v n) a = 0.
Proof. rewrite dot_comm. apply dot_nil. Qed.
Lemma square_pos a : 0 <= square a.
Proof.
  unfold square. induction a as [|x a IH]; [cbn; lra|]. rewrite dot_cons. nra.
Qed.
Lemma square_zero n a : length a = n -> square a = 0 -> a = nil_v n.
Proof.
  revert a. induction n as [|n IH]; intros [|x a]; try discriminate; [reflexivity|].
  intros La H. unfold square in *. rewrite dot_cons in H. pose proof (square_pos a) as P. unfold square in P.
  cbn [nil_v repeat]. fold (nil_v n). f_equal; [nra|]. apply IH; [cbn in La; lia|]. nra.
Qed.

(** Linear combinations. *)
Section Comb.
  Variable n : nat.
  Fixpoint comb (h : list R) (vs : list rvec) : rvec :=
    match h, vs with
    | x :: h', v :: vs' => plus (times x v) (comb h' vs')
    | _, _ => nil_v n
    end.
  Lemma comb_nil h : comb h [] = nil_v n.
  Proof. destruct h; reflexivity. Qed.
  Lemma nil_plus : plus (nil_v n) (nil_v n) = nil_v n.
  Proof. vec n. ring. Qed.
  Lemma nil_times c : times c (nil_v n) = nil_v n.
  Proof. vec n. ring. Qed.
  Definition all_len (vs : list rvec) : Prop := Forall (fun v => length v = n) vs.
  Lemma comb_len h vs : all_len vs -> length (comb h vs) = n.
  Proof.
    revert h. induction vs as [|v vs IH]; intros [|x h] F; cbn [comb]; auto using nil_len.
    inversion F; subst. apply plus_len; [apply times_len; assumption|auto].
  Qed.
  Hint Resolve comb_len : vec.
  Lemma comb_app h1 h2 vs1 vs2 : all_len vs1 -> all_len vs2 -> length h1 = length vs1 ->
    comb (h1 ++ h2) (vs1 ++ vs2) = plus (comb h1 vs1) (comb h2 vs2).
  Proof.
    intros F1 F2. revert h1. induction F1 as [|v vs1 Lv F1 IH]; intros [|x h1] L; try discriminate; cbn [comb app].
    - vec n. ring.
    - rewrite IH by (cbn in L; lia). vec n. ring.
  Qed.
  Lemma comb_more h vs1 vs2 : all_len vs1 -> length h = length vs1 -> comb h (vs1 ++ vs2) = comb h vs1.
  Proof.
    intros F1. revert h. induction F1 as [|v vs1 Lv F1 IH]; intros [|x h] L; try discriminate; cbn [comb app].
    - destruct vs2; reflexivity.
    - rewrite IH by (cbn in L; lia). reflexivity.
  Qed.
  Lemma comb_more_le h vs1 vs2 : (length h <= length vs1)%nat -> comb h (vs1 ++ vs2) = comb h vs1.
  Proof.
    revert h. induction vs1 as [|v vs1 IH]; intros [|x h] L; cbn [length] in L; cbn [comb app]; try reflexivity; try lia.
    rewrite IH by lia. reflexivity.
  Qed.
  Lemma comb_plus h k vs : all_len vs -> length h = length k -> comb (plus h k) vs = plus (comb h vs) (comb k vs).
  Proof.
    intros F. revert h k. induction F as [|v vs Lv F IH]; intros [|x h] [|y k] L; try discriminate;
      rewrite ?comb_nil, ?nil_plus; try reflexivity.
    { cbn [comb]. rewrite nil_plus. reflexivity. }
    rewrite plus_cons. cbn [comb]. rewrite IH by (cbn in L; lia). vec n. ring.
  Qed.
  Lemma comb_times c h vs : all_len vs -> comb (times c h) vs = times c (comb h vs).
  Proof.
    intros F. revert h. induction F as [|v vs Lv F IH]; intros [|x h]; rewrite ?comb_nil, ?nil_times; try reflexivity.
    rewrite times_cons. cbn [comb]. rewrite IH. vec n. ring.
  Qed.
  Lemma comb_minus h k vs : all_len vs -> length h = length k -> comb (minus h k) vs = minus (comb h vs) (comb k vs).
  Proof.
    intros F L. replace (minus h k) with (plus h (times (-1) k)) by (vec (length k); ring).
    rewrite comb_plus by (auto; unfold times; rewrite map_length; assumption). rewrite comb_times by assumption. vec n. ring.
  Qed.
  (** The dot product with a combination. *)
  Lemma dot_comb u h vs : length u = n -> all_len vs -> (forall v, In v vs -> real_dot u v = 0) -> real_dot u (comb h vs) = 0.
  Proof.
    intros Lu F. revert h. induction F as [|v vs Lv F IH]; intros [|x h] H; cbn [comb]; try apply dot_nil.
    rewrite (dot_plus n) by vlen. rewrite dot_times, H by (left; reflexivity).
    rewrite IH by (intros; apply H; right; assumption). lra.
  Qed.

  (** Orthogonal families. *)
  Fixpoint orth (vs : list rvec) : Prop :=
    match vs with [] => True | v :: vs' => (forall w, In w vs' -> real_dot v w = 0) /\ orth vs' end.
  Lemma orth_app vs ws : orth (vs ++ ws) <-> orth vs /\ orth ws /\ (forall v w, In v vs -> In w ws -> real_dot v w = 0).
  Proof.
    induction vs as [|v vs IH]; cbn [orth app].
    - split; [intros H; repeat split; auto; contradiction|tauto].
    - rewrite IH. split.
      + intros (H1 & H2 & H3 & H4). repeat split; auto.
        * intros w I. apply H1, in_or_app. auto.
        * intros a w [<-|I] Iw; [apply H1, in_or_app; auto|auto].
      + intros ((H1 & H2) & H3 & H4). repeat split; auto.
        * intros w I. apply in_app_or in I as [I|I]; [auto|]. apply H4; [left; reflexivity|exact I].
        * intros a w I Iw. apply H4; [right; exact I|exact Iw].
  Qed.
  Fixpoint weigh (h : list R) (vs : list rvec) : R :=
    match h, vs with x :: h', v :: vs' => x * x * square v + weigh h' vs' | _, _ => 0 end.
  Lemma square_plus a b : length a = n -> length b = n -> square (plus a b) = square a + 2 * real_dot a b + square b.
  Proof.
    intros La Lb. unfold square. rewrite (plus_dot n), !(dot_plus n) by vlen. rewrite (dot_comm b a). ring.
  Qed.
  Lemma square_times c a : square (times c a) = c * c * square a.
  Proof. unfold square. rewrite dot_times, times_dot. ring. Qed.
  Lemma square_comb h vs : all_len vs -> orth vs -> square (comb h vs) = weigh h vs.
  Proof.
    intros F. revert h. induction F as [|v vs Lv F IH]; intros [|x h] O; cbn [comb weigh]; try apply dot_nil.
    destruct O as [O1 O2]. rewrite square_plus, square_times, IH by vlen.
    rewrite times_dot, dot_comb by auto. ring.
  Qed.
  (** Coefficients are dot products. *)
  Lemma weigh_pos h vs : 0 <= weigh h vs.
  Proof.
    revert h. induction vs as [|v vs IH]; intros [|x h]; cbn [weigh]; try lra.
    pose proof (square_pos v). specialize (IH h). nra.
  Qed.
  Lemma weigh_same h vs ws : map square vs = map square ws -> weigh h vs = weigh h ws.
  Proof.
    revert h ws. induction vs as [|v vs IH]; intros [|x h] [|w ws] E; try discriminate; cbn [weigh]; try reflexivity.
    cbn in E. injection E as E1 E2. rewrite E1, (IH h ws E2). reflexivity.
  Qed.
  Lemma weigh_times c h vs : weigh (times c h) vs = c * c * weigh h vs.
  Proof.
    revert h. induction vs as [|v vs IH]; intros [|x h]; try rewrite times_cons; cbn [weigh times map]; try lra.
    fold (times c h). rewrite IH. ring.
  Qed.

  (** A linear operator and a combination. *)
  Lemma linear_comb eps B h vs : linear_op (reals eps) n B -> all_len vs -> B (comb h vs) = comb h (map B vs).
  Proof.
    intros (K & P & T) F.
    assert (Z : B (nil_v n) = nil_v n).
    { pose proof (T 0 (nil_v n) (nil_len n)) as E. change (B (times 0 (nil_v n)) = times 0 (B (nil_v n))) in E.
      rewrite nil_times in E. rewrite E. pose proof (K _ (nil_len n)). vec n. ring. }
    revert h. induction F as [|v vs Lv F IH]; intros [|x h]; cbn [comb map]; try exact Z.
    pose proof (P (times x v) (comb h vs) ltac:(vlen) ltac:(vlen)) as E.
    change (B (plus (times x v) (comb h vs)) = plus (B (times x v)) (B (comb h vs))) in E. rewrite E, IH. f_equal.
    exact (T x v Lv).
  Qed.
  Lemma linear_nil eps B : linear_op (reals eps) n B -> B (nil_v n) = nil_v n.
  Proof. intros L. exact (linear_comb eps B [] [] L (Forall_nil _)). Qed.

  (** The model's combination. *)
  Lemma column_cons v vs t : (t < length v)%nat -> column (v :: vs) t = co t v :: column vs t.
  Proof.
    intros H. cbn [column flat_map]. destruct (nth_error v t) as [x|] eqn:E.
    - cbn [app]. f_equal. unfold co. symmetry. apply nth_error_nth. exact E.
    - apply nth_error_None in E. lia.
  Qed.
  Lemma co_comb_dot h vs t : all_len vs -> (t < n)%nat -> real_dot h (column vs t) = co t (comb h vs).
  Proof.
    intros F Ht. revert h. induction F as [|v vs Lv F IH]; intros [|x h]; try rewrite column_cons by lia; cbn [comb].
    1-3: rewrite co_nil; try reflexivity.
    rewrite dot_cons, (co_plus n) by vlen. rewrite co_times, IH. reflexivity.
  Qed.
  Lemma combination_comb h vs w : all_len vs -> length w = n -> combination real_dot h vs w = comb h vs.
  Proof.
    intros F Lw. unfold combination. rewrite Lw.
    apply (nth_ext _ _ 0 0).
    - rewrite map_length, seq_length, comb_len by assumption. reflexivity.
    - intros t Ht. rewrite map_length, seq_length in Ht.
      rewrite (nth_indep _ 0 (real_dot h (column vs 0))) by (rewrite map_length, seq_length; exact Ht).
      rewrite (map_nth (fun t => real_dot h (column vs t))). rewrite seq_nth by exact Ht. cbn [Nat.add].
      rewrite co_comb_dot by assumption. reflexivity.
  Qed.
End Comb.
Global Hint Resolve comb_len : vec.
