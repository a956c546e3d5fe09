(** The budget of a Krylov solve. *)
From Verif Require Import Base BaseProofs Newton Krylov SpecKrylov KrylovProofs KrylovCostProofs KrylovRowProofs KrylovGmresProofs KrylovExactProofs KrylovSoloProofs.

Lemma least_unique k m c c' : (0 < m)%Z -> least_cycles k m c -> least_cycles k m c' -> c = c'.
Proof.
  intros Hm (A & B & C) (A' & B' & C'). destruct (Z.lt_trichotomy c c') as [H|[H|H]]; [|exact H|].
  - specialize (B' ltac:(lia)). nia.
  - specialize (B ltac:(lia)). nia.
Qed.

Section Budget.
  Context {V : Type}.
  Variable N : num V.
  Variable rsum : list V -> V.
  Variable edot : list V -> list V -> V.
  Variable tri : list (list V) -> list V -> list V.
  Variable matvec minv : list (list V) -> result (list (list V)).

  Lemma bicgstab_bound b cfg :
    mats (snd (bicgstab N rsum edot matvec minv b cfg)) <= 2 * Z.to_nat (k_max_its cfg) /\
    pres (snd (bicgstab N rsum edot matvec minv b cfg)) <= 2 * Z.to_nat (k_max_its cfg).
  Proof.
    clear tri. unfold bicgstab.
    destruct (bicg_loop_bound N rsum edot matvec minv cfg b (Z.to_nat (k_max_its cfg)) (map (bicg_start N rsum cfg) b)) as [B1 B2].
    destruct (bicg_loop _ _ _ _ _ _ _ _ _) as [[st|e] l]; cbn [kbind snd] in *; [rewrite app_nil_r|]; auto.
  Qed.

  Lemma gmres_snd b cfg c : (0 < k_restart cfg)%Z -> cycles_of cfg = Ok c ->
    snd (gmres N rsum edot tri matvec minv b cfg) =
    snd (gmres_loop N rsum edot tri matvec minv cfg b (Z.to_nat (k_restart cfg)) true (Z.to_nat c) (map (gmres_start N) b)).
  Proof.
    intros Hm Ec. unfold gmres. rewrite Ec. cbn [kbind]. cbv zeta. destruct (Z.ltb_spec (k_restart cfg) 0); [lia|]. cbn [andb].
    destruct (gmres_loop _ _ _ _ _ _ _ _ _ _ _ _) as [[st|e] l]; cbn [kbind snd app]; [rewrite app_nil_r|]; reflexivity.
  Qed.

  Lemma gmres_bound b cfg c : (0 < k_restart cfg)%Z -> (0 <= k_max_its cfg)%Z -> least_cycles (k_max_its cfg) (k_restart cfg) c ->
    (Z.of_nat (mats (snd (gmres N rsum edot tri matvec minv b cfg))) <= c * k_restart cfg + Z.max 0 (c - 1))%Z /\
    (Z.of_nat (pres (snd (gmres N rsum edot tri matvec minv b cfg))) <= c * (k_restart cfg + 1))%Z.
  Proof.
    intros Hm Hk Hc. destruct (cycles_of cfg) as [c'|e] eqn:Ec.
    - assert (c' = c) by (eapply least_unique; [exact Hm|apply cycles_least; eassumption|exact Hc]). subst c'.
      rewrite (gmres_snd b cfg c Hm Ec).
      destruct (gmres_loop_bound N rsum edot tri matvec minv cfg b (Z.to_nat (k_restart cfg)) true (Z.to_nat c) (map (gmres_start N) b)) as [B1 B2].
      destruct Hc as (_ & _ & C0). split; [|nia].
      revert B1. generalize (mats (snd (gmres_loop N rsum edot tri matvec minv cfg b (Z.to_nat (k_restart cfg)) true (Z.to_nat c) (map (gmres_start N) b)))).
      intros k Hk1. apply inj_le in Hk1. rewrite Nat2Z.inj_add, Nat2Z.inj_mul, !Z2Nat.id in Hk1 by lia. lia.
    - unfold gmres. rewrite Ec. cbn. destruct Hc as (_ & _ & C0). nia.
  Qed.

  Lemma gmres_bad_restart b cfg : (k_restart cfg <= 0)%Z -> mats (snd (gmres N rsum edot tri matvec minv b cfg)) = 0.
  Proof.
    intros Hm. unfold gmres. destruct (cycles_of cfg) as [c|e] eqn:Ec; [|reflexivity]. cbn [kbind]. cbv zeta.
    destruct (Z.eq_dec (k_restart cfg) 0) as [E|Ne].
    { rewrite cycles_none in Ec by exact E. discriminate. }
    destruct (Z.ltb_spec (k_restart cfg) 0); [|lia]. cbn [andb]. destruct (Z.ltb_spec 0 c) as [Hc|Hc].
    - destruct (apply_m minv b) as [[r|e] l] eqn:Ea; unfold apply_m, call_op in Ea; cbn [kbind].
      + injection Ea as _ <-. destruct (forallb _ _); reflexivity.
      + injection Ea as _ <-. reflexivity.
    - replace (Z.to_nat c) with 0 by lia. reflexivity.
  Qed.

  Lemma gmres_unconverged b cfg res l c : (0 < k_restart cfg)%Z -> (0 <= k_max_its cfg)%Z ->
    least_cycles (k_max_its cfg) (k_restart cfg) c ->
    gmres N rsum edot tri matvec minv b cfg = (Ok res, l) ->
    (Z.of_nat (kr_iters res) <= c * k_restart cfg)%Z /\
    (In false (kr_converged res) ->
     Z.of_nat (kr_iters res) = (c * k_restart cfg)%Z /\ Z.of_nat (mats l) = (c * k_restart cfg + Z.max 0 (c - 1))%Z).
  Proof.
    intros Hm Hk Hc H. destruct (gmres_exact N rsum edot tri matvec minv b cfg res l Hm H) as (c' & st & k & Ec & _ & _ & E2 & _ & M1 & _ & Kc & _ & It & D).
    assert (c' = c) by (eapply least_unique; [exact Hm|apply cycles_least; eassumption|exact Hc]). subst c'.
    destruct Hc as (_ & _ & C0). split; [nia|]. intros I. destruct D as [D|[D1 D2]].
    - exfalso. rewrite E2 in I. apply in_map_iff in I as (s & Es & I). rewrite forallb_forall in D. specialize (D s I). congruence.
    - subst k. rewrite M1, D1. split; [nia|]. rewrite Nat2Z.inj_add, Nat2Z.inj_mul, !Z2Nat.id by lia. lia.
  Qed.

  Lemma bicgstab_unconverged b cfg res l :
    bicgstab N rsum edot matvec minv b cfg = (Ok res, l) -> In false (kr_converged res) ->
    kr_iters res = Z.to_nat (k_max_its cfg) /\ mats l = 2 * Z.to_nat (k_max_its cfg).
  Proof.
    clear tri. intros H I. destruct (bicgstab_exact N rsum edot matvec minv b cfg res l H) as (st & _ & E2 & _ & _ & M1 & _ & _ & [D|D]).
    - exfalso. rewrite E2 in I. apply in_map_iff in I as (s & Es & I). unfold all_done in D. rewrite forallb_forall in D. specialize (D s I). congruence.
    - rewrite M1, D. auto.
  Qed.

  Lemma solve_empty cfg : is_ok (fst (krylov_solve N rsum edot tri matvec minv [] cfg)) = false.
  Proof.
    destruct (fst (krylov_solve N rsum edot tri matvec minv [] cfg)) as [res|e] eqn:E; [exfalso|reflexivity].
    unfold krylov_solve in E. destruct (k_method cfg).
    - unfold gmres in E. destruct (cycles_of cfg) as [c|e]; [|discriminate]. cbn [kbind] in E. cbv zeta in E. destruct (_ && _).
      + destruct (apply_m minv []) as [[r|e] l]; [|discriminate]. cbn in E. discriminate.
      + destruct (Z.to_nat c) as [|c']; [discriminate|]. cbn [gmres_loop map gmres_residual] in E.
        destruct (apply_m minv []) as [[r|e] l]; [|discriminate]. cbn in E. discriminate.
    - unfold bicgstab in E. destruct (Z.to_nat (k_max_its cfg)); cbn in E; discriminate.
  Qed.
End Budget.
