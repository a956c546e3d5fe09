(** The lines of a whole solve and the summary of a step (C75). *)
From Verif Require Import Base BaseProofs Tensor TensorProofs Newton Krylov SpecKrylov KrylovProofs KrylovCostProofs KrylovRowProofs KrylovExactProofs
     KrylovSystem Log KrylovLog SpecKrylovLog KrylovLogProofs KrylovLinesProofs.

Section Solve.
  Context {V : Type}.
  Variable N : num V.
  Variable rsum : list V -> V.
  Variable edot : list V -> list V -> V.
  Variable tri : list (list V) -> list V -> list V.
  Variable vmax : list V -> V.
  Variable say : list (level * klog_note V) -> level -> klog_note V -> result unit.
  Variable matvec minv : list (list V) -> result (list (list V)).
  Variable hook : bool.

  Lemma all_true (A : Type) (f : A -> bool) l : forallb f l = true -> Forall (eq true) (map f l).
  Proof. intros H. rewrite Forall_map. apply Forall_forall. rewrite forallb_forall in H. intros x I. symmetry. auto. Qed.

  Lemma bicg_more_done cfg b k st st1 l1 j st2 l2 :
    bicg_loop N rsum edot matvec minv cfg b k st = (Ok st1, l1) -> all_done st1 = true -> k <= j ->
    bicg_loop N rsum edot matvec minv cfg b j st = (Ok st2, l2) -> st2 = st1.
  Proof.
    revert j st l1 l2. induction k as [|k IH]; intros j st l1 l2 H D Le H2.
    - injection H as <- <-. destruct j; cbn [bicg_loop] in H2; [injection H2; auto|]. rewrite D in H2. injection H2; auto.
    - destruct j as [|j]; [lia|]. cbn [bicg_loop] in H, H2. destruct (all_done st).
      { injection H as <- _. injection H2; auto. }
      cbv zeta in H, H2.
      apply kbind_inv in H as (phat & a1 & k1 & E1 & H & _). apply kbind_inv in H2 as (phat' & a1' & k1' & E1' & H2 & _).
      assert (phat' = phat) by congruence. subst phat'.
      apply kbind_inv in H as (v & a2 & k2 & E2 & H & _). apply kbind_inv in H2 as (v' & a2' & k2' & E2' & H2 & _).
      assert (v' = v) by congruence. subst v'.
      apply kbind_inv in H as (sh & a3 & k3 & E3 & H & _). apply kbind_inv in H2 as (sh' & a3' & k3' & E3' & H2 & _).
      assert (sh' = sh) by congruence. subst sh'.
      apply kbind_inv in H as (t & a4 & k4 & E4 & H & _). apply kbind_inv in H2 as (t' & a4' & k4' & E4' & H2 & _).
      assert (t' = t) by congruence. subst t'.
      eapply IH; [exact H|exact D| |exact H2]. lia.
  Qed.

  Lemma bicg_length cfg b k st st1 l1 :
    length st = length b -> bicg_loop N rsum edot matvec minv cfg b k st = (Ok st1, l1) -> length st1 = length b.
  Proof.
    revert st l1. induction k as [|k IH]; intros st l1 L H; [injection H as <- _; exact L|].
    destruct (all_done st) eqn:D; [cbn [bicg_loop] in H; rewrite D in H; injection H as <- _; exact L|].
    destruct (bicg_iter N rsum edot matvec minv cfg b k st st1 l1 L D H)
      as (p & phat & v & s & shat & t & l' & _ & _ & _ & _ & _ & _ & _ & _ & _ & _ & _ & _ & _ & _ & _ & _ & HH).
    cbv zeta in HH. destruct HH as (L1 & R & _ & _). exact (IH _ _ L1 R).
  Qed.

  Lemma bicg_snoc cfg b j st st0 l0 st1 l1 :
    bicg_loop N rsum edot matvec minv cfg b j st = (Ok st0, l0) -> bicg_loop N rsum edot matvec minv cfg b (S j) st = (Ok st1, l1) ->
    exists l, l1 = l0 ++ l /\ bicg_loop N rsum edot matvec minv cfg b 1 st0 = (Ok st1, l).
  Proof.
    revert st l0 l1. induction j as [|j IH]; intros st l0 l1 H1 H2.
    { injection H1 as <- <-. exists l1. split; [reflexivity|exact H2]. }
    cbn [bicg_loop] in H1. change (S (S j)) with (S (1 + j)) in H2. cbn [bicg_loop] in H2. destruct (all_done st) eqn:D.
    { injection H1 as <- <-. injection H2 as <- <-. exists []. split; [reflexivity|]. cbn [bicg_loop]. rewrite D. reflexivity. }
    cbv zeta in H1, H2.
    apply kbind_inv in H1 as (a1 & x1 & y1 & E1 & H1 & ->). apply kbind_inv in H2 as (a1' & x1' & y1' & E1' & H2 & ->).
    assert (a1' = a1) by congruence; assert (x1' = x1) by congruence; subst a1' x1'.
    apply kbind_inv in H1 as (a2 & x2 & y2 & E2 & H1 & ->). apply kbind_inv in H2 as (a2' & x2' & y2' & E2' & H2 & ->).
    assert (a2' = a2) by congruence; assert (x2' = x2) by congruence; subst a2' x2'.
    apply kbind_inv in H1 as (a3 & x3 & y3 & E3 & H1 & ->). apply kbind_inv in H2 as (a3' & x3' & y3' & E3' & H2 & ->).
    assert (a3' = a3) by congruence; assert (x3' = x3) by congruence; subst a3' x3'.
    apply kbind_inv in H1 as (a4 & x4 & y4 & E4 & H1 & ->). apply kbind_inv in H2 as (a4' & x4' & y4' & E4' & H2 & ->).
    assert (a4' = a4) by congruence; assert (x4' = x4) by congruence; subst a4' x4'.
    destruct (IH _ _ _ H1 H2) as (l & -> & Q). exists l. split; [rewrite !app_assoc; reflexivity|exact Q].
  Qed.

  (** In the state after an iteration a row is done exactly if its norm meets the tolerances. *)
  Definition judged cfg (b : list (list V)) (st : list (brow V)) : Prop :=
    forall i bi s, nth_error b i = Some bi -> nth_error st i = Some s -> br_done s = meets N cfg (bnorm N rsum bi) (row_norm N rsum (br_r s)).
  Lemma judged_loop cfg b k st st1 l1 :
    length st = length b -> judged cfg b st -> bicg_loop N rsum edot matvec minv cfg b k st = (Ok st1, l1) -> judged cfg b st1.
  Proof.
    revert st l1. induction k as [|k IH]; intros st l1 L J H; [injection H as <- _; exact J|].
    destruct (all_done st) eqn:D; [cbn [bicg_loop] in H; rewrite D in H; injection H as <- _; exact J|].
    destruct (bicg_iter N rsum edot matvec minv cfg b k st st1 l1 L D H)
      as (p & phat & v & s & shat & t & l' & _ & _ & _ & _ & _ & _ & _ & _ & _ & _ & _ & _ & _ & _ & _ & _ & HH).
    cbv zeta in HH. destruct HH as (L1 & R & _ & Hn). set (st2 := map2 _ _ st) in *. clearbody st2.
    apply (IH st2 l' L1); [|exact R].
    intros i bi s2 Eb Es2. destruct (nth_same b st i bi ltac:(congruence) Eb) as (si & Es).
    destruct (Hn i bi si Eb Es) as (ph & vi & shi & ti & _ & _ & _ & _ & _ & _ & E). rewrite E in Es2. injection Es2 as <-.
    unfold bicg_update. destruct (br_done si) eqn:Di; [exact (J i bi si Eb Es)|reflexivity].
  Qed.

  Lemma bicgstab_lines b cfg r ev :
    log_bicgstab N rsum edot vmax say matvec minv hook b cfg [] = (r, ev) ->
    let ls := lines_in ev in
    (hook = false -> ls = []) /\
    (forall j ln, nth_error ls j = Some ln -> exists es, length es = length b /\ ln = line N rsum vmax b (S j) es /\
       (all_meet N rsum cfg b es -> length ls = S j /\ forall res, r = Ok res -> Forall (eq true) (kr_converged res))) /\
    (forall res, hook = true -> r = Ok res -> length ls = kr_iters res).
  Proof.
    intros H. unfold log_bicgstab, lbind in H. destruct (log_bicg_loop _ _ _ _ _ _ _ _ _ _ _ _ _ _) as [rl wl] eqn:E.
    destruct (bicg_lines N rsum edot tri vmax say matvec minv hook _ _ _ _ _ _ _ _ E) as (ev1 & Ew & K1 & K2 & K3 & K4).
    cbn [app] in Ew. subst wl. cbv zeta in K3.
    pose proof (judged_loop cfg b) as JJ.
    assert (J0 : judged cfg b (map (bicg_start N rsum cfg) b)).
    { intros i bi s Eb Es. rewrite nth_error_map, Eb in Es. injection Es as <-. reflexivity. }
    assert (L0 : length (map (bicg_start N rsum cfg) b) = length b) by apply map_length.
    assert (Met : forall j ln, nth_error (lines_in ev1) j = Some ln -> exists st1 l1,
        bicg_loop N rsum edot matvec minv cfg b (S j) (map (bicg_start N rsum cfg) b) = (Ok st1, l1) /\
        ln = line N rsum vmax b (S j) (bnorms N rsum st1) /\ length st1 = length b /\
        (all_meet N rsum cfg b (bnorms N rsum st1) -> all_done st1 = true)).
    { intros j ln Ej. destruct (K3 j ln Ej) as (st0 & l0 & st1 & l1 & P1 & P2 & P3 & P4). exists st1, l1.
      split; [exact P3|]. split; [exact P4|]. pose proof (bicg_length cfg b (S j) _ st1 l1 L0 P3) as Ls. split; [exact Ls|].
      intros M. apply forallb_forall. intros s I. apply In_nth_error in I as (i & Ei).
      destruct (nth_same st1 b i s Ls Ei) as (bi & Eb).
      rewrite (JJ _ _ _ _ L0 J0 P3 i bi s Eb Ei). apply (M i bi _ Eb). unfold bnorms. rewrite nth_error_map, Ei. reflexivity. }
    assert (Last : forall j ln st1 l1, nth_error (lines_in ev1) j = Some ln ->
        bicg_loop N rsum edot matvec minv cfg b (S j) (map (bicg_start N rsum cfg) b) = (Ok st1, l1) -> all_done st1 = true ->
        length (lines_in ev1) = S j).
    { intros j ln st1 l1 Ej P1 D. assert (j < length (lines_in ev1)) by (apply nth_error_Some; congruence).
      destruct (nth_error (lines_in ev1) (S j)) as [ln'|] eqn:E'; [|apply nth_error_None in E'; lia]. exfalso.
      destruct (K3 _ _ E') as (st0 & l0 & _ & _ & Q1 & Q2 & _). rewrite P1 in Q1. injection Q1 as <- _. congruence. }
    destruct (tracks_bicg say N rsum edot vmax matvec minv hook cfg b 0 (Z.to_nat (k_max_its cfg)) (map (bicg_start N rsum cfg) b) _ _ _ E)
      as (ev1' & Ew' & T). cbn [app] in Ew'. subst ev1'.
    destruct rl as [st|e].
    - destruct T as [[T1 T2]|(e & Q & _)]; [|discriminate]. cbn [over] in T1.
      assert (El : bicg_loop N rsum edot matvec minv cfg b (Z.to_nat (k_max_its cfg)) (map (bicg_start N rsum cfg) b) = (Ok st, calls_in ev1)).
      { destruct (bicg_loop N rsum edot matvec minv cfg b (Z.to_nat (k_max_its cfg)) (map (bicg_start N rsum cfg) b)). cbn [fst snd] in *. congruence. }
      unfold quiet in H. cbn [fst snd map] in H. rewrite app_nil_r in H. injection H as Hr <-. cbv zeta.
      split; [exact K2|]. split.
      + intros j ln Ej. destruct (Met j ln Ej) as (st1 & l1 & P1 & P2 & P3 & P4). exists (bnorms N rsum st1).
        split; [unfold bnorms; rewrite map_length; exact P3|]. split; [exact P2|]. intros M. specialize (P4 M).
        split; [exact (Last j ln st1 l1 Ej P1 P4)|]. intros res Er. rewrite Er in Hr. apply finish_inv in Hr as (_ & _ & _ & ->).
        assert (j < length (lines_in ev1)) by (apply nth_error_Some; congruence).
        rewrite (bicg_more_done cfg b (S j) _ st1 l1 (Z.to_nat (k_max_its cfg)) st _ P1 P4 ltac:(lia) El). apply all_true. exact P4.
      + intros res Hh Er. rewrite Er in Hr. pose proof (K4 st Hh eq_refl) as Q.
        assert (Hb : bicgstab N rsum edot matvec minv b cfg = (Ok res, calls_in ev1)).
        { unfold bicgstab. rewrite El. cbn [kbind]. rewrite Hr, app_nil_r. reflexivity. }
        destruct (bicgstab_exact N rsum edot matvec minv b cfg res _ Hb) as (_ & _ & _ & _ & _ & Q2 & _). lia.
    - injection H as <- <-. cbv zeta. split; [exact K2|]. split; [|discriminate].
      intros j ln Ej. destruct (Met j ln Ej) as (st1 & l1 & P1 & P2 & P3 & P4). exists (bnorms N rsum st1).
      split; [unfold bnorms; rewrite map_length; exact P3|]. split; [exact P2|]. intros M. specialize (P4 M).
      split; [exact (Last j ln st1 l1 Ej P1 P4)|]. discriminate.
  Qed.

  Lemma gmres_lines b cfg r ev :
    log_gmres N rsum edot tri vmax say matvec minv hook b cfg [] = (r, ev) ->
    let ls := lines_in ev in
    (hook = false -> ls = []) /\
    (forall j ln, nth_error ls j = Some ln -> exists es, length es = length b /\ ln = line N rsum vmax b (S j) es /\
       (all_meet N rsum cfg b es -> length ls = S j /\ forall res, r = Ok res -> Forall (eq true) (kr_converged res))) /\
    (forall res, hook = true -> r = Ok res -> length ls = kr_iters res).
  Proof.
    intros H. unfold log_gmres in H.
    assert (none : forall k e, r = Err e -> ev = map KCall k -> let ls := lines_in ev in
      (hook = false -> ls = []) /\
      (forall j ln, nth_error ls j = Some ln -> exists es, length es = length b /\ ln = line N rsum vmax b (S j) es /\
         (all_meet N rsum cfg b es -> length ls = S j /\ forall res, r = Ok res -> Forall (eq true) (kr_converged res))) /\
      (forall res, hook = true -> r = Ok res -> length ls = kr_iters res)).
    { clear. intros k e -> ->. cbv zeta. rewrite lines_calls. split; [reflexivity|]. split; [intros [|j] ln E; discriminate|discriminate]. }
    apply quiet_bind in H as [(cycles & _ & H)|(e & _ & -> & ->)]; [|exact (none _ e eq_refl eq_refl)].
    cbn [snd map app] in H. cbv zeta in H. unfold lbind at 1 in H.
    destruct ((k_restart cfg <? 0)%Z && (0 <? cycles)%Z).
    - destruct (lbind (quiet (apply_m minv b)) _ []) as [rl wl] eqn:E.
      apply quiet_bind in E as [(rr & E1 & E)|(e & _ & -> & ->)].
      2:{ injection H as <- <-. exact (none [CPre b] e eq_refl eq_refl). }
      destruct (forallb gr_done _) eqn:D in E.
      2:{ unfold quiet in E. cbn [fst snd map app] in E. injection E as <- <-. rewrite ?app_nil_r in H. injection H as <- <-.
          exact (none [CPre b] _ eq_refl eq_refl). }
      injection E as <- <-. unfold quiet in H. cbn [fst snd map app] in H. rewrite ?app_nil_r in H. injection H as Hr <-. clear none.
      cbv zeta. cbn [app]. rewrite ?lines_calls. cbn [lines_in flat_map snd map]. split; [reflexivity|]. split; [intros [|j] ln E; discriminate|].
      intros res _ Er. rewrite Er in Hr. apply finish_inv in Hr as (_ & _ & -> & _). cbn [length]. symmetry.
      apply Nat.le_0_r, max_of_le. rewrite Forall_map. apply nth_forall. intros i s Es. rewrite map2_nth in Es.
      destruct (nth_error (combine b rr) i) as [p|]; [|discriminate].
      destruct (nth_error (map (gmres_start N) b) i) as [s0|] eqn:Es0; [|discriminate]. injection Es as <-.
      rewrite nth_error_map in Es0. destruct (nth_error b i); [|discriminate]. injection Es0 as <-. cbn. lia.
    - destruct (log_loop _ _ _ _ _ _ _ _ _ _ _ _ _ _ _ _ _) as [rl wl] eqn:E. clear none.
      destruct (loop_lines N rsum edot tri vmax say matvec minv hook cfg b _ true 0 _ _ _ _ _ (map_length _ _) (gcounted_start N b) E)
        as (ev1 & Ew & K1 & K2 & K3 & _). cbn [app] in Ew. subst wl. cbv zeta in K2, K3. cbn [Nat.add] in K2, K3.
      destruct rl as [st|e].
      + unfold quiet in H. cbn [fst snd map] in H. rewrite app_nil_r in H. injection H as Hr <-. cbv zeta.
        split; [exact K1|]. split.
        * intros j ln Ej. destruct (K2 j ln Ej) as (st1 & P1 & P2 & P3). exists (gnorms N st1).
          split; [unfold gnorms; rewrite map_length; exact P1|]. split; [exact P2|]. intros M. destruct (P3 M) as [X Y].
          split; [exact X|]. intros res Er. rewrite Er in Hr. apply finish_inv in Hr as (_ & _ & _ & ->). apply all_true. exact (Y st eq_refl).
        * intros res Hh Er. rewrite Er in Hr. apply finish_inv in Hr as (F0 & _ & -> & _). destruct (K3 st eq_refl) as [_ C].
          symmetry. apply gcounted_max; [|exact (C Hh)]. intros ->. apply F0. reflexivity.
      + injection H as <- <-. cbv zeta. split; [exact K1|]. split; [|discriminate].
        intros j ln Ej. destruct (K2 j ln Ej) as (st1 & P1 & P2 & P3). exists (gnorms N st1).
        split; [unfold gnorms; rewrite map_length; exact P1|]. split; [exact P2|]. intros M. destruct (P3 M) as [X _].
        split; [exact X|discriminate].
  Qed.

  Lemma solve_lines b cfg r ev :
    log_solve N rsum edot tri vmax say matvec minv hook b cfg [] = (r, ev) ->
    let ls := lines_in ev in
    (hook = false -> ls = []) /\
    (forall j ln, nth_error ls j = Some ln -> exists es, length es = length b /\ ln = line N rsum vmax b (S j) es /\
       (all_meet N rsum cfg b es -> length ls = S j /\ forall res, r = Ok res -> Forall (eq true) (kr_converged res))) /\
    (forall res, hook = true -> r = Ok res -> length ls = kr_iters res).
  Proof. unfold log_solve. destruct (k_method cfg); [apply gmres_lines|apply bicgstab_lines]. Qed.

  Lemma numbered_iterations (f : list V -> list V) (b : list (list V)) ls k :
    (forall j (ln : level * klog_note V), nth_error ls j = Some ln -> exists es, ln = line N rsum vmax b (k + j) es) -> iterations ls = seq k (length ls).
  Proof.
    clear f. revert k. induction ls as [|ln ls IH]; intros k H; [reflexivity|].
    destruct (H 0 ln eq_refl) as (es & E). rewrite Nat.add_0_r in E. subst ln. cbn [iterations flat_map line snd length seq app].
    f_equal. apply IH. intros j ln Ej. destruct (H (S j) ln Ej) as (es' & E). exists es'. rewrite E. f_equal. lia.
  Qed.

  Lemma below_all_meet cfg (b : list (list V)) es :
    bounds_all N vmax -> length es = length b ->
    n_lt N (vmax es) (k_abs_tol cfg) = true \/ n_lt N (vmax (map2 (n_div N) es (map (bnorm N rsum) b))) (k_rel_tol cfg) = true ->
    all_meet N rsum cfg b es.
  Proof.
    intros B L H i bi e Eb Ee. unfold meets. destruct H as [H|H].
    - rewrite (B es _ e H (nth_error_In _ _ Ee)). reflexivity.
    - rewrite (B _ _ (n_div N e (bnorm N rsum bi)) H); [apply orb_true_r|].
      apply (nth_error_In _ i). rewrite map2_nth, Ee, nth_error_map, Eb. reflexivity.
  Qed.

  (** The lines of BiCGStab, in exact arithmetic. *)
  Lemma bicgstab_residuals n As Ms b cfg r ev ln i w q :
    ring_of N -> length As = length b -> length Ms = length b -> all_rows As matvec -> all_rows Ms minv ->
    Forall (linear_op N n) As -> Forall (keeps_width n) Ms -> Forall (fun x => length x = n) b ->
    log_bicgstab N rsum edot vmax say matvec minv hook b cfg [] = (r, ev) ->
    In ln (lines_in ev) -> ln = (Debug, NIter i w q) ->
    exists res l, bicgstab N rsum edot matvec minv b (with_budget cfg i) = (Ok res, l) /\
      ln = line N rsum vmax b i (residual_norms N rsum As b (kr_du res)) /\ kr_iters res = i /\ i <= Z.to_nat (k_max_its cfg).
  Proof.
    intros R LA LM EA EM FA FM Fb H I Eln. unfold log_bicgstab, lbind in H.
    destruct (log_bicg_loop _ _ _ _ _ _ _ _ _ _ _ _ _ _) as [rl wl] eqn:E.
    destruct (bicg_lines N rsum edot tri vmax say matvec minv hook _ _ _ _ _ _ _ _ E) as (ev1 & Ew & K1 & K2 & K3 & K4).
    cbn [app] in Ew. subst wl. cbv zeta in K3.
    assert (Hev : lines_in ev = lines_in ev1).
    { destruct rl; [|congruence]. unfold quiet in H. cbn [fst snd map] in H. rewrite app_nil_r in H. congruence. }
    rewrite Hev in I. apply In_nth_error in I as (j & Ej). clear H Hev E.
    destruct (K3 j ln Ej) as (st0 & l0 & st1 & l1 & P1 & P2 & P3 & P4).
    assert (Ei : i = S j) by (rewrite Eln in P4; injection P4; auto). subst i. cbn [Nat.add] in P4.
    assert (L0 : length (map (bicg_start N rsum cfg) b) = length b) by apply map_length.
    pose proof (bicg_length cfg b (S j) _ st1 l1 L0 P3) as Ls.
    assert (Nb : b <> []).
    { intros ->. cbn in P1. destruct j; cbn in P1; injection P1 as <- _; discriminate. }
    assert (Same : forall k st, bicg_loop N rsum edot matvec minv (with_budget cfg (S j)) b k st = bicg_loop N rsum edot matvec minv cfg b k st).
    { clear. induction k as [|k IH]; intros st; [reflexivity|]. cbn [bicg_loop]. destruct (all_done st); [reflexivity|]. cbv zeta.
      unfold kbind at 1 5. destruct (apply_m minv _) as [[phat|e] a1]; [|reflexivity].
      unfold kbind at 1 4. destruct (apply_a matvec _) as [[v|e] a2]; [|reflexivity].
      unfold kbind at 1 3. destruct (apply_m minv _) as [[sh|e] a3]; [|reflexivity].
      unfold kbind at 1 2. destruct (apply_a matvec _) as [[t|e] a4]; [|reflexivity].
      change (bicg_update N rsum edot (with_budget cfg (S j))) with (bicg_update N rsum edot cfg). rewrite IH. reflexivity. }
    assert (Fin : exists res, finish (map br_x st1) (map br_iters st1) (map br_done st1) = Ok res).
    { destruct st1; [|eexists; reflexivity]. destruct b; [congruence|discriminate]. }
    destruct Fin as (res & Fin).
    assert (Hb : bicgstab N rsum edot matvec minv b (with_budget cfg (S j)) = (Ok res, l1)).
    { unfold bicgstab. rewrite Same. cbn [with_budget k_max_its].
      change (map (bicg_start N rsum (with_budget cfg (S j))) b) with (map (bicg_start N rsum cfg) b). rewrite Nat2Z.id, P3. cbn [kbind].
      rewrite Fin, app_nil_r. reflexivity. }
    exists res, l1. split; [exact Hb|]. pose proof Fin as Fin'. apply finish_inv in Fin' as (_ & F1 & F2 & F3).
    assert (Er : bnorms N rsum st1 = residual_norms N rsum As b (kr_du res)).
    { rewrite F1. unfold bnorms, residual_norms. clear P4 K3 K4 Ej. apply nth_error_ext. intros i.
      destruct (nth_error st1 i) as [s|] eqn:Es.
      - destruct (nth_same st1 b i s Ls Es) as (bi & Eb). destruct (nth_same b As i bi ltac:(congruence) Eb) as (A & Ea).
        destruct (nth_same b Ms i bi ltac:(congruence) Eb) as (M & Em).
        rewrite map2_nth, combine_nth, !nth_error_map, Es, Ea, Eb. cbn [option_map fst snd]. f_equal.
        assert (Lb : length bi = n) by exact (forall_nth _ _ _ _ Fb Eb).
        pose proof (forall_nth _ _ _ _ FA Ea) as LinA. pose proof (forall_nth _ _ _ _ FM Em) as KM. cbn beta in LinA, KM.
        pose proof (bicg_rows N rsum edot matvec minv cfg b (S j) _ st1 l1 i A M bi (bicg_start N rsum cfg bi) L0 P3 (EA i A Ea) (EM i M Em) Eb
          ltac:(rewrite nth_error_map, Eb; reflexivity)) as Er.
        rewrite Es in Er. apply (f_equal (fun o => match o with Some x => x | None => s end)) in Er. cbv beta iota in Er.
        pose proof (honest_row N rsum edot R A M n cfg bi (S j) _ Lb LinA KM (honest_start N rsum edot R A n cfg bi Lb LinA)) as (_ & _ & _ & _ & Hr & _).
        rewrite <- Er in Hr. unfold norm, residual_of. rewrite Hr. reflexivity.
      - rewrite map2_nth, !nth_error_map, Es. cbn [option_map]. destruct (nth_error (combine As b) i); reflexivity. }
    split; [rewrite <- Er; exact P4|].
    assert (j < length (lines_in ev1)) by (apply nth_error_Some; congruence). split; [|lia].
    destruct (bicg_exact N rsum edot matvec minv cfg b (S j) _ st1 l1 0 L0 (counted_start N rsum cfg b) P3) as (k & C1 & C0 & _ & C2 & _ & C3).
    rewrite F2. cbn [Nat.add] in C1. rewrite (counted_max k st1); [|intros ->; destruct b; [congruence|discriminate]|exact C1].
    destruct (bicg_exact N rsum edot matvec minv cfg b j _ st0 l0 0 L0 (counted_start N rsum cfg b) P1) as (k0 & _ & M0 & _ & _ & L00 & D3).
    destruct D3 as [D3|D3]; [congruence|]. subst k0.
    destruct (bicg_snoc cfg b j _ st0 l0 st1 l1 P1 P3) as (l' & Q1 & Q2).
    destruct (bicg_iter N rsum edot matvec minv cfg b 0 st0 st1 l' L00 P2 Q2)
      as (p & phat & v & s & shat & t & l2 & _ & _ & _ & _ & _ & _ & _ & _ & _ & _ & _ & _ & _ & _ & _ & _ & HH).
    cbv zeta in HH. destruct HH as (_ & _ & El' & _). rewrite Q1, mats_app, El', mats_app in C0. cbn [mats filter length] in C0. unfold mats in *. cbn in C0. lia.
  Qed.
End Solve.
