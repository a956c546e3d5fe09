(** Halving in exact arithmetic. *)
From Coq Require Import QArith Qcanon Field.
From Verif Require Import Base Tensor Pack Implicit Substep SpecSubstep SpecDyadic.
Local Close Scope Q_scope.

Lemma rationals_exact : exact_ends rationals.
Proof. intros x y. cbn [rationals a_add a_sub a_mul a_zero a_one]. split; ring. Qed.

Lemma pow_pos n : (Z.of_nat (2 ^ n) > 0)%Z.
Proof. induction n as [|n IH]; cbn [Nat.pow]; lia. Qed.
Lemma pow_cast n : Zpos (Pos.of_nat (2 ^ n)) = Z.of_nat (2 ^ n).
Proof. rewrite <- positive_nat_Z, Nat2Pos.id; [reflexivity|]. pose proof (pow_pos n). lia. Qed.

Lemma this_canon q : (this (Q2Qc q) == q)%Q.
Proof. exact (Qred_correct q). Qed.
Lemma this_add x y : (this (x + y)%Qc == this x + this y)%Q.
Proof. exact (Qred_correct _). Qed.
Lemma this_mul x y : (this (x * y)%Qc == this x * this y)%Q.
Proof. exact (Qred_correct _). Qed.
Lemma dyadic_step k n : dyadic (2 * k) (S n) = dyadic k n.
Proof.
  apply Qc_is_canon. unfold dyadic. rewrite !this_canon. unfold Qeq. cbn [Qnum Qden]. rewrite !pow_cast. cbn [Nat.pow]. lia.
Qed.
Lemma dyadic_mid k n : middle rationals (dyadic k n) (dyadic (S k) n) = dyadic (S (2 * k)) (S n).
Proof.
  apply Qc_is_canon. unfold middle, dyadic. cbn [rationals a_mul a_half a_add].
  rewrite this_mul, this_add, !this_canon. unfold Qeq, Qmult, Qplus. cbn [Qnum Qden].
  rewrite !Pos2Z.inj_mul, !pow_cast. rewrite Nat.pow_succ_r, !Nat2Z.inj_succ, !Nat2Z.inj_mul by lia. change (Z.of_nat 2) with 2%Z. ring.
Qed.

Lemma halved_dyadic n x y : halved (middle rationals) n (a_zero rationals) (a_one rationals) x y ->
  exists k, (k < 2 ^ n)%nat /\ x = dyadic k n /\ y = dyadic (S k) n.
Proof.
  replace (a_zero rationals) with (dyadic 0 0) by (apply Qc_is_canon; reflexivity).
  replace (a_one rationals) with (dyadic 1 0) by (apply Qc_is_canon; reflexivity).
  enough (G : forall n m k a b x y, a = dyadic k m -> b = dyadic (S k) m -> halved (middle rationals) n a b x y ->
    exists j, (j < 2 ^ n)%nat /\ x = dyadic (k * 2 ^ n + j) (m + n) /\ y = dyadic (S (k * 2 ^ n + j)) (m + n)).
  { intros H. destruct (G n 0 0 _ _ x y eq_refl eq_refl H) as [j [Hj E]]. exists j. split; [exact Hj|exact E]. }
  clear. induction n as [|n IH]; intros m k a b x y Ea Eb H; inversion H; subst.
  - exists 0. cbn [Nat.pow]. split; [lia|]. replace (k * 1 + 0) with k by lia. rewrite Nat.add_0_r. split; reflexivity.
  - destruct (IH (S m) (2 * k) _ _ x y (eq_sym (dyadic_step k m)) (dyadic_mid k m) ltac:(eassumption)) as [j [Hj [-> ->]]].
    exists j. replace (k * 2 ^ S n + j) with (2 * k * 2 ^ n + j) by (cbn [Nat.pow]; nia). rewrite Nat.add_succ_r. cbn [Nat.pow].
    split; [lia|split; reflexivity].
  - assert (E : dyadic (S k) m = dyadic (S (S (2 * k))) (S m)) by (rewrite <- dyadic_step; f_equal; lia).
    destruct (IH (S m) (S (2 * k)) _ _ x y (dyadic_mid k m) E ltac:(eassumption)) as [j [Hj [-> ->]]].
    exists (2 ^ n + j). replace (k * 2 ^ S n + (2 ^ n + j)) with (S (2 * k) * 2 ^ n + j) by (cbn [Nat.pow]; nia). rewrite Nat.add_succ_r. cbn [Nat.pow].
    split; [lia|split; reflexivity].
Qed.
