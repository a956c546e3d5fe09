(** A row of a batch, solved alone. *)
From Verif Require Import Base BaseProofs Newton Krylov SpecKrylov KrylovProofs KrylovCostProofs KrylovRowProofs KrylovGmresProofs.

Section Solo.
  Context {V : Type}.
  Variable N : num V.
  Variable rsum : list V -> V.
  Variable edot : list V -> list V -> V.
  Variable tri : list (list V) -> list V -> list V.
  Notation vec := (list V).

  Lemma one_sheet n (A : vec -> vec) : keeps_width n A -> answers_sheets 1 n (per_row [A]).
  Proof. intros K. apply (per_row_sheets n [A]). constructor; [exact K|constructor]. Qed.
  Lemma one_acts (A : vec -> vec) : acts_on 0 A (per_row [A]).
  Proof. apply per_row_acts. reflexivity. Qed.
  Lemma one_row n (b : vec) : length b = n -> sheet 1 n [b].
  Proof. split; [reflexivity|]. constructor; [assumption|constructor]. Qed.

  Lemma bicgstab_solo n matvec minv b cfg res l i A M bi :
    acts_on i A matvec -> acts_on i M minv -> keeps_width n A -> keeps_width n M ->
    bicgstab N rsum edot matvec minv b cfg = (Ok res, l) ->
    nth_error b i = Some bi -> length bi = n ->
    exists solo l1 x d, bicgstab N rsum edot (per_row [A]) (per_row [M]) [bi] cfg = (Ok solo, l1) /\
      kr_du solo = [x] /\ kr_converged solo = [d] /\
      nth_error (kr_du res) i = Some x /\ nth_error (kr_converged res) i = Some d /\ kr_iters solo <= kr_iters res.
  Proof.
    clear tri. intros EA EM KA KM H Eb Lb.
    destruct (bicgstab_returns N rsum edot 1 n _ _ (one_sheet n A KA) (one_sheet n M KM) [bi] cfg ltac:(lia) (one_row n bi Lb)) as (solo & l1 & Hs).
    destruct (bicgstab_exact N rsum edot _ _ b cfg res l H) as (st & E1 & E2 & L & Hl & C1 & _).
    destruct (bicgstab_exact N rsum edot _ _ [bi] cfg solo l1 Hs) as (st1 & F1 & F2 & L1 & Hl1 & D1 & _).
    pose proof (bicg_rows N rsum edot _ _ cfg b _ _ st l i A M bi (bicg_start N rsum cfg bi) (map_length _ _) Hl EA EM Eb
      ltac:(rewrite nth_error_map, Eb; reflexivity)) as Er.
    pose proof (bicg_rows N rsum edot _ _ cfg [bi] _ _ st1 l1 0 A M bi (bicg_start N rsum cfg bi) (map_length _ _) Hl1 (one_acts A) (one_acts M) eq_refl eq_refl) as Er1.
    set (s := bicg_row N rsum edot A M cfg bi (Z.to_nat (k_max_its cfg)) (bicg_start N rsum cfg bi)) in *.
    destruct st1 as [|s1 [|? ?]]; try discriminate. cbn in Er1. assert (Es : s1 = s) by congruence. subst s1.
    exists solo, l1, (br_x s), (br_done s). split; [exact Hs|]. split; [exact F1|]. split; [exact F2|].
    rewrite E1, E2, !nth_error_map, Er. split; [reflexivity|]. split; [reflexivity|].
    unfold bicgstab in H, Hs. rewrite Hl in H. rewrite Hl1 in Hs. cbn [kbind] in H, Hs.
    assert (Q : finish (map br_x st) (map br_iters st) (map br_done st) = Ok res) by congruence.
    assert (Q1 : finish (map br_x [s]) (map br_iters [s]) (map br_done [s]) = Ok solo) by congruence.
    apply finish_inv in Q as (_ & _ & Q & _). apply finish_inv in Q1 as (_ & _ & Q1 & _). rewrite Q, Q1. cbn [map max_of fold_right].
    rewrite Nat.max_0_r. apply max_of_ge. rewrite Exists_map. apply (nth_exists _ st i s Er). lia.
  Qed.

  (** Some row takes all the iterations. *)
  Lemma bicgstab_slowest matvec minv b cfg res l :
    bicgstab N rsum edot matvec minv b cfg = (Ok res, l) ->
    exists st i s, bicg_loop N rsum edot matvec minv cfg b (Z.to_nat (k_max_its cfg)) (map (bicg_start N rsum cfg) b) = (Ok st, l) /\
      nth_error st i = Some s /\ br_iters s = kr_iters res.
  Proof.
    clear tri. intros H. destruct (bicgstab_exact N rsum edot _ _ b cfg res l H) as (st & E1 & E2 & L & Hl & _).
    unfold bicgstab in H. rewrite Hl in H. cbn [kbind] in H.
    assert (Q : finish (map br_x st) (map br_iters st) (map br_done st) = Ok res) by congruence.
    apply finish_inv in Q as (NE & _ & Q & _).
    assert (X : exists s, In s st /\ br_iters s = max_of (map br_iters st)).
    { clear -NE. induction st as [|s st IH]; [contradiction|]. cbn [map max_of fold_right]. fold (max_of (map br_iters st)).
      destruct st as [|s2 st]; [exists s; cbn; split; [auto|lia]|].
      destruct (IH ltac:(discriminate)) as (s' & I & E).
      destruct (Nat.max_spec (br_iters s) (max_of (map br_iters (s2 :: st)))) as [[Lt Em]|[Lt Em]]; rewrite Em.
      - exists s'. split; [right; exact I|exact E].
      - exists s. split; [left; reflexivity|reflexivity]. }
    destruct X as (s & [i I]%In_nth_error & E). exists st, i, s. rewrite Q. auto.
  Qed.

  Lemma bicgstab_iters n As Ms b cfg res l :
    length As = length b -> length Ms = length b -> Forall (keeps_width n) As -> Forall (keeps_width n) Ms -> Forall (fun r => length r = n) b ->
    bicgstab N rsum edot (per_row As) (per_row Ms) b cfg = (Ok res, l) ->
    exists i A M bi solo l1, nth_error As i = Some A /\ nth_error Ms i = Some M /\ nth_error b i = Some bi /\
      bicgstab N rsum edot (per_row [A]) (per_row [M]) [bi] cfg = (Ok solo, l1) /\ kr_iters solo = kr_iters res.
  Proof.
    clear tri. intros LA LM KA KM Lb H.
    destruct (bicgstab_slowest _ _ b cfg res l H) as (st & i & s & Hl & Es & Ei).
    destruct (bicgstab_exact N rsum edot _ _ b cfg res l H) as (st2 & _ & _ & L & Hl2 & _).
    assert (st2 = st) by congruence. subst st2.
    destruct (nth_same st b i s L Es) as (bi & Eb).
    destruct (nth_same b As i bi (eq_sym LA) Eb) as (A & EA). destruct (nth_same b Ms i bi (eq_sym LM) Eb) as (M & EM).
    pose proof (forall_nth _ _ _ _ KA EA) as KA'. pose proof (forall_nth _ _ _ _ KM EM) as KM'. pose proof (forall_nth _ _ _ _ Lb Eb) as Lb'. cbn in Lb'.
    destruct (bicgstab_returns N rsum edot 1 n _ _ (one_sheet n A KA') (one_sheet n M KM') [bi] cfg ltac:(lia) (one_row n bi Lb')) as (solo & l1 & Hs).
    exists i, A, M, bi, solo, l1. split; [exact EA|]. split; [exact EM|]. split; [exact Eb|]. split; [exact Hs|].
    destruct (bicgstab_exact N rsum edot _ _ [bi] cfg solo l1 Hs) as (st1 & F1 & F2 & L1 & Hl1 & _).
    pose proof (bicg_rows N rsum edot _ _ cfg b _ _ st l i A M bi (bicg_start N rsum cfg bi) (map_length _ _) Hl (per_row_acts _ _ _ EA) (per_row_acts _ _ _ EM) Eb
      ltac:(rewrite nth_error_map, Eb; reflexivity)) as Er.
    pose proof (bicg_rows N rsum edot _ _ cfg [bi] _ _ st1 l1 0 A M bi (bicg_start N rsum cfg bi) (map_length _ _) Hl1 (one_acts A) (one_acts M) eq_refl eq_refl) as Er1.
    destruct st1 as [|s1 [|? ?]]; try discriminate. cbn in Er1.
    unfold bicgstab in Hs. rewrite Hl1 in Hs. cbn [kbind] in Hs.
    assert (Q1 : finish (map br_x [s1]) (map br_iters [s1]) (map br_done [s1]) = Ok solo) by congruence.
    apply finish_inv in Q1 as (_ & _ & Q1 & _). rewrite Q1. cbn [map max_of fold_right]. rewrite Nat.max_0_r. congruence.
  Qed.

  (** ** Larger budgets *)
  Lemma bicg_loop_tol matvec minv cfg cfg' b more st :
    k_abs_tol cfg' = k_abs_tol cfg -> k_rel_tol cfg' = k_rel_tol cfg ->
    bicg_loop N rsum edot matvec minv cfg' b more st = bicg_loop N rsum edot matvec minv cfg b more st.
  Proof.
    destruct cfg as [m1 c1 r1 i1 a t k1], cfg' as [m2 c2 r2 i2 a' t' k2]. cbn. intros -> ->.
    revert st. induction more as [|more IH]; intros st; [reflexivity|]. cbn [bicg_loop].
    destruct (all_done st); [reflexivity|]. cbv zeta. unfold apply_a, apply_m.
    destruct (call_op minv _ _) as [[ph|] l1]; [|reflexivity]. cbn [kbind].
    destruct (call_op matvec _ _) as [[v|] l2]; [|reflexivity]. cbn [kbind].
    destruct (call_op minv _ _) as [[sh|] l3]; [|reflexivity]. cbn [kbind].
    destruct (call_op matvec _ _) as [[u|] l4]; [|reflexivity]. cbn [kbind].
    rewrite IH. reflexivity.
  Qed.
  Lemma bicg_start_tol cfg cfg' (b : list vec) :
    k_abs_tol cfg' = k_abs_tol cfg -> k_rel_tol cfg' = k_rel_tol cfg ->
    map (bicg_start N rsum cfg') b = map (bicg_start N rsum cfg) b.
  Proof. destruct cfg as [m1 c1 r1 i1 a t k1], cfg' as [m2 c2 r2 i2 a' t' k2]. cbn. intros -> ->. reflexivity. Qed.

  Lemma bicgstab_frozen matvec minv b cfg cfg' res l res' l' i x :
    k_abs_tol cfg' = k_abs_tol cfg -> k_rel_tol cfg' = k_rel_tol cfg ->
    (k_max_its cfg <= k_max_its cfg')%Z ->
    bicgstab N rsum edot matvec minv b cfg = (Ok res, l) ->
    bicgstab N rsum edot matvec minv b cfg' = (Ok res', l') ->
    nth_error (kr_converged res) i = Some true -> nth_error (kr_du res) i = Some x ->
    nth_error (kr_converged res') i = Some true /\ nth_error (kr_du res') i = Some x.
  Proof.
    clear tri. intros Ea Er Hk H H' Hc Hx.
    destruct (bicgstab_exact N rsum edot _ _ b cfg res l H) as (st & E1 & E2 & L & Hl & _).
    destruct (bicgstab_exact N rsum edot _ _ b _ res' l' H') as (st' & F1 & F2 & L' & Hl' & _).
    rewrite (bicg_loop_tol _ _ cfg cfg'), (bicg_start_tol cfg cfg') in Hl' by assumption.
    replace (Z.to_nat (k_max_its cfg')) with (Z.to_nat (k_max_its cfg) + (Z.to_nat (k_max_its cfg') - Z.to_nat (k_max_its cfg))) in Hl' by lia.
    destruct (bicg_extend N rsum edot _ _ cfg b _ _ _ st l st' l' Hl Hl') as (j & l2 & Hj).
    rewrite E2, nth_error_map in Hc. rewrite E1, nth_error_map in Hx.
    destruct (nth_error st i) as [s|] eqn:Es; [|discriminate]. cbn in Hc, Hx.
    pose proof (bicg_frozen N rsum edot _ _ cfg b j st st' l2 i s L Hj Es ltac:(congruence)) as Q.
    rewrite F1, F2, !nth_error_map, Q. cbn. auto.
  Qed.

  (** ** GMRES *)
  Lemma gmres_cycles matvec minv b cfg res l : gmres N rsum edot tri matvec minv b cfg = (Ok res, l) -> exists c, cycles_of cfg = Ok c.
  Proof. unfold gmres. destruct (cycles_of cfg) as [c|e]; [eauto|discriminate]. Qed.

  Lemma gmres_run matvec minv b cfg res l : (0 < k_restart cfg)%Z ->
    gmres N rsum edot tri matvec minv b cfg = (Ok res, l) ->
    exists c st, cycles_of cfg = Ok c /\
      gmres_loop N rsum edot tri matvec minv cfg b (Z.to_nat (k_restart cfg)) true (Z.to_nat c) (map (gmres_start N) b) = (Ok st, l) /\
      kr_du res = map gr_x st /\ kr_converged res = map gr_done st /\ kr_iters res = max_of (map gr_iters st) /\ length st = length b /\ st <> [].
  Proof.
    intros Hm H. destruct (gmres_exact N rsum edot tri _ _ b cfg res l Hm H) as (c & st & k & Ec & Hl & E1 & E2 & L & _).
    exists c, st. split; [exact Ec|]. split; [exact Hl|]. split; [exact E1|]. split; [exact E2|].
    unfold gmres in H. rewrite Ec in H. cbn [kbind] in H. cbv zeta in H.
    destruct (Z.ltb_spec (k_restart cfg) 0); [lia|]. cbn [andb] in H. rewrite Hl in H. cbn [kbind] in H.
    assert (Q : finish (map gr_x st) (map gr_iters st) (map gr_done st) = Ok res) by congruence.
    apply finish_inv in Q as (NE & _ & Q & _). split; [exact Q|]. split; [exact L|]. intros ->. apply NE. reflexivity.
  Qed.

  Lemma gmres_solo n matvec minv b cfg res l i A M bi : (0 < k_restart cfg)%Z ->
    acts_on i A matvec -> acts_on i M minv -> keeps_width n A -> keeps_width n M ->
    gmres N rsum edot tri matvec minv b cfg = (Ok res, l) ->
    nth_error b i = Some bi -> length bi = n ->
    exists solo l1 x d, gmres N rsum edot tri (per_row [A]) (per_row [M]) [bi] cfg = (Ok solo, l1) /\
      kr_du solo = [x] /\ kr_converged solo = [d] /\ nth_error (kr_converged res) i = Some d /\ kr_iters solo <= kr_iters res /\
      (kr_iters solo = kr_iters res -> nth_error (kr_du res) i = Some x).
  Proof.
    intros Hm EA EM KA KM H Eb Lb.
    destruct (gmres_run _ _ b cfg res l Hm H) as (c & st & Ec & Hl & E1 & E2 & E3 & L & NE).
    destruct (gmres_returns N rsum edot tri 1 n _ _ (one_sheet n A KA) (one_sheet n M KM) [bi] cfg c ltac:(lia) (one_row n bi Lb) Hm Ec) as (solo & l1 & Hs).
    destruct (gmres_run _ _ [bi] cfg solo l1 Hm Hs) as (c1 & st1 & Ec1 & Hl1 & F1 & F2 & F3 & L1 & NE1).
    assert (c1 = c) by congruence. subst c1.
    destruct st1 as [|s1 [|? ?]]; try discriminate.
    assert (Ei : nth_error (map (gmres_start N) b) i = Some (gmres_start N bi)) by (rewrite nth_error_map, Eb; reflexivity).
    destruct (loop_agrees N rsum edot tri _ _ b i A M bi EA EM Eb cfg _ true _ _ st l (gmres_start N bi) (map_length _ _) Hl Ei) as (s & Es & Ag).
    destruct (loop_agrees N rsum edot tri _ _ [bi] 0 A M bi (one_acts A) (one_acts M) eq_refl cfg _ true _ _ [s1] l1 (gmres_start N bi) (map_length _ _) Hl1 eq_refl) as (s' & Es' & Ag').
    destruct (Ag eq_refl) as [G1 G2]. destruct (Ag' eq_refl) as [G1' G2']. cbn in Es'. assert (s' = s1) by congruence. subst s'.
    exists solo, l1, (gr_x s1), (gr_done s1). split; [exact Hs|]. split; [exact F1|]. split; [exact F2|].
    rewrite E2, nth_error_map, Es. split; [cbn; congruence|].
    assert (Q : kr_iters solo = gr_iters s) by (rewrite F3; cbn [map max_of fold_right]; rewrite Nat.max_0_r; congruence).
    split.
    { rewrite Q, E3. apply max_of_ge. rewrite Exists_map. apply (nth_exists _ st i s Es). lia. }
    intros Eq. rewrite E1, nth_error_map, Es. cbn [option_map]. f_equal.
    assert (P1 : 1 <= Z.to_nat (k_restart cfg)) by lia.
    destruct (loop_values N rsum edot tri _ _ b i A M bi EA EM Eb cfg _ true _ _ st l (gmres_start N bi) 0 P1 (map_length _ _) ltac:(apply gcounted_start) Hl Ei)
      as (sa & ks & Ea & Sp & Gc & Ex & _).
    destruct (loop_values N rsum edot tri _ _ [bi] 0 A M bi (one_acts A) (one_acts M) eq_refl cfg _ true _ _ [s1] l1 (gmres_start N bi) 0 P1 (map_length _ _) ltac:(apply (gcounted_start N [bi])) Hl1 eq_refl)
      as (sb & ks' & Eb' & Sp' & Gc' & Ex' & _).
    assert (sa = s) by congruence. subst sa. cbn in Eb'. assert (sb = s1) by congruence. subst sb.
    cbn [Nat.add] in Gc, Gc'.
    pose proof (gcounted_max _ _ NE Gc) as M1.
    pose proof (gcounted_max _ _ NE1 Gc') as M2.
    assert (ks = ks') by (apply (spread_unique (Z.to_nat (k_restart cfg))); auto; congruence).
    subst ks'. congruence.
  Qed.

  (** Two batches that share a row and take the same number of iterations. *)
  Lemma gmres_same_iters matvec minv b res l i mv2 mi2 b2 res2 l2 i2 cfg A M bi : (0 < k_restart cfg)%Z ->
    acts_on i A matvec -> acts_on i M minv -> acts_on i2 A mv2 -> acts_on i2 M mi2 ->
    gmres N rsum edot tri matvec minv b cfg = (Ok res, l) -> gmres N rsum edot tri mv2 mi2 b2 cfg = (Ok res2, l2) ->
    nth_error b i = Some bi -> nth_error b2 i2 = Some bi -> kr_iters res = kr_iters res2 ->
    nth_error (kr_du res) i = nth_error (kr_du res2) i2.
  Proof.
    intros Hm EA EM EA2 EM2 H H2 Eb Eb2 Eq.
    destruct (gmres_run _ _ b cfg res l Hm H) as (c & st & Ec & Hl & E1 & E2 & E3 & L & NE).
    destruct (gmres_run _ _ b2 cfg res2 l2 Hm H2) as (c1 & st1 & Ec1 & Hl1 & F1 & F2 & F3 & L1 & NE1).
    assert (P1 : 1 <= Z.to_nat (k_restart cfg)) by lia.
    destruct (loop_values N rsum edot tri _ _ b i A M bi EA EM Eb cfg _ true _ _ st l (gmres_start N bi) 0 P1 (map_length _ _) ltac:(apply gcounted_start) Hl
      ltac:(rewrite nth_error_map, Eb; reflexivity)) as (sa & ks & Ea & Sp & Gc & Ex & _).
    destruct (loop_values N rsum edot tri _ _ b2 i2 A M bi EA2 EM2 Eb2 cfg _ true _ _ st1 l2 (gmres_start N bi) 0 P1 (map_length _ _) ltac:(apply gcounted_start) Hl1
      ltac:(rewrite nth_error_map, Eb2; reflexivity)) as (sb & ks' & Eb' & Sp' & Gc' & Ex' & _).
    cbn [Nat.add] in Gc, Gc'.
    pose proof (gcounted_max _ _ NE Gc) as M1.
    pose proof (gcounted_max _ _ NE1 Gc') as M2.
    assert (ks = ks') by (apply (spread_unique (Z.to_nat (k_restart cfg))); auto; congruence).
    rewrite E1, F1, !nth_error_map, Ea, Eb'. cbn. congruence.
  Qed.
End Solo.
