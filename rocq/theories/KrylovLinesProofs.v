(** What the lines of a logged solve say. *)
From Verif Require Import Base BaseProofs Tensor Newton Krylov SpecKrylov KrylovProofs KrylovCostProofs KrylovRowProofs
     KrylovSystem Log KrylovLog SpecKrylovLog KrylovLogProofs.

Section Lines.
  Context {V : Type}.
  Variable N : num V.
  Variable rsum : list V -> V.
  Variable edot : list V -> list V -> V.
  Variable tri : list (list V) -> list V -> list V.
  Variable vmax : list V -> V.
  Variable say : list (level * klog_note V) -> level -> klog_note V -> result unit.
  Variable matvec minv : list (list V) -> result (list (list V)).
  Variable hook : bool.

  (** The line with the residual norms [es]. *)
  Definition line (b : list (list V)) (it : nat) (es : list V) : level * klog_note V :=
    (Debug, NIter it (vmax es) (vmax (map2 (n_div N) es (map (bnorm N rsum) b)))).
  Definition bnorms (st : list (brow V)) : list V := map (fun s => row_norm N rsum (br_r s)) st.
  Definition gnorms (st : list (grow V)) : list V := map (fun s => n_abs N (ar_last (gr_arn s))) st.

  Notation bloop := (bicg_loop N rsum edot matvec minv).
  Lemma bicg_lines cfg b it more st w r w' :
    log_bicg_loop N rsum edot vmax say matvec minv hook cfg b it more st w = (r, w') ->
    exists ev, w' = w ++ ev /\ let ls := lines_in ev in
      length ls <= more /\ (hook = false -> ls = []) /\
      (forall j ln, nth_error ls j = Some ln -> exists st0 l0 st1 l1,
         bloop cfg b j st = (Ok st0, l0) /\ all_done st0 = false /\ bloop cfg b (S j) st = (Ok st1, l1) /\
         ln = line b (it + S j) (bnorms st1)) /\
      (forall st', hook = true -> r = Ok st' -> mats (calls_in ev) = 2 * length ls).
  Proof.
    revert it st w. induction more as [|more IH]; intros it st w H.
    { injection H as <- <-. exists []. rewrite app_nil_r. split; [reflexivity|]. cbn.
      repeat split; auto. intros [|j] ln E; discriminate. }
    cbn [log_bicg_loop] in H. destruct (all_done st) eqn:D.
    { injection H as <- <-. exists []. rewrite app_nil_r. split; [reflexivity|]. cbn.
      repeat split; auto; try lia. intros [|j] ln E; discriminate. }
    cbv zeta in H.
    assert (stop : forall k e, r = Err e -> w' = w ++ map KCall k -> exists ev, w' = w ++ ev /\ let ls := lines_in ev in
      length ls <= S more /\ (hook = false -> ls = []) /\
      (forall j ln, nth_error ls j = Some ln -> exists st0 l0 st1 l1,
         bloop cfg b j st = (Ok st0, l0) /\ all_done st0 = false /\ bloop cfg b (S j) st = (Ok st1, l1) /\
         ln = line b (it + S j) (bnorms st1)) /\
      (forall st', hook = true -> r = Ok st' -> mats (calls_in ev) = 2 * length ls)).
    { clear. intros k e -> ->. exists (map KCall k). split; [reflexivity|]. cbv zeta. rewrite lines_calls. cbn [length].
      split; [lia|]. split; [reflexivity|]. split; [intros [|j] ln E; discriminate|]. discriminate. }
    apply quiet_bind in H as [(phat & E1 & H)|(e & _ & -> & ->)]; [|exact (stop _ e eq_refl eq_refl)].
    apply quiet_bind in H as [(v & E2 & H)|(e & _ & -> & ->)];
      [|rewrite <- ?app_assoc, <- ?map_app in stop |- *; exact (stop _ e eq_refl eq_refl)].
    apply quiet_bind in H as [(shat & E3 & H)|(e & _ & -> & ->)];
      [|rewrite <- ?app_assoc, <- ?map_app in stop |- *; exact (stop _ e eq_refl eq_refl)].
    apply quiet_bind in H as [(t & E4 & H)|(e & _ & -> & ->)];
      [|rewrite <- ?app_assoc, <- ?map_app in stop |- *; exact (stop _ e eq_refl eq_refl)].
    clear stop. apply call_ok in E1, E2, E3, E4.
    rewrite <- !app_assoc, <- !map_app in H.
    set (k := snd _ ++ _) in H.
    assert (Hk : mats k = 2) by reflexivity. clearbody k.
    set (st1 := map2 _ _ st) in H. change (map (fun s => row_norm N rsum (br_r s)) st1) with (bnorms st1) in H.
    assert (U : forall j, exists l, bloop cfg b (S j) st = (fst (bloop cfg b j st1), l)).
    { intros j. cbn [bicg_loop]. rewrite D. cbv zeta. rewrite E1. cbn [kbind]. rewrite E2. cbn [kbind]. rewrite E3. cbn [kbind].
      rewrite E4. cbn [kbind]. fold st1. destruct (bloop cfg b j st1) as [rj lj]. cbn [fst]. eexists. reflexivity. }
    assert (U0 : forall j st2 l2, bloop cfg b j st1 = (Ok st2, l2) -> exists l, bloop cfg b (S j) st = (Ok st2, l)).
    { intros j st2 l2 Ej. destruct (U j) as (l & El). rewrite Ej in El. eauto. }
    clearbody st1. clear U E1 E2 E3 E4.
    apply on_iter_bind in H as (ev1 & Hev & H).
    assert (L0 : forall ln, ln = line b (it + 1) (bnorms st1) -> exists st0 l0 st2 l2,
        bloop cfg b 0 st = (Ok st0, l0) /\ all_done st0 = false /\ bloop cfg b 1 st = (Ok st2, l2) /\
        ln = line b (it + 1) (bnorms st2)).
    { intros ln ->. destruct (U0 0 st1 [] eq_refl) as (l & El). exists st, [], st1, l. split; [reflexivity|]. auto. }
    destruct H as [H|(e & -> & ->)].
    - destruct (IH _ _ _ H) as (ev & -> & K1 & K2 & K3 & K4). cbv zeta in K3.
      exists (map KCall k ++ ev1 ++ ev). split; [rewrite !app_assoc; reflexivity|]. cbv zeta.
      rewrite !lines_app, lines_calls, !calls_app, calls_calls, !mats_app, Hk. cbn [app].
      destruct Hev as [[Hh ->]|[Hh ->]].
      + cbn [lines_in flat_map app length calls_in]. rewrite (K2 Hh). split; [cbn; lia|]. split; [reflexivity|].
        split; [intros [|j] ln E; discriminate|]. intros st' Q. congruence.
      + cbn [lines_in flat_map app length calls_in]. fold (lines_in ev). split; [lia|]. split; [congruence|]. split.
        * intros [|j] ln E.
          -- injection E as <-. apply L0. reflexivity.
          -- cbn [nth_error] in E. destruct (K3 j ln E) as (st0 & l0 & st2 & l2 & P1 & P2 & P3 & P4).
             destruct (U0 j st0 l0 P1) as (l0' & Q1). destruct (U0 (S j) st2 l2 P3) as (l2' & Q2).
             exists st0, l0', st2, l2'. split; [exact Q1|]. split; [exact P2|]. split; [exact Q2|].
             rewrite P4. f_equal. lia.
        * intros st' _ Q. rewrite (K4 st' Hh Q). cbn. lia.
    - exists (map KCall k ++ ev1). split; [rewrite app_assoc; reflexivity|]. cbv zeta. rewrite lines_app, lines_calls. cbn [app].
      destruct Hev as [[Hh ->]|[Hh ->]]; cbn [lines_in flat_map app length].
      + split; [lia|]. split; [reflexivity|]. split; [intros [|j] ln E; discriminate|]. discriminate.
      + split; [lia|]. split; [congruence|]. split; [|discriminate].
        intros [|[|j]] ln E; try discriminate. injection E as <-. apply L0. reflexivity.
  Qed.

  Notation gcycle := (gmres_cycle N rsum edot matvec minv).
  Lemma cycle_lines cfg b it more st w r w' :
    log_cycle N rsum edot vmax say matvec minv hook cfg b it more st w = (r, w') ->
    exists ev, w' = w ++ ev /\ let ls := lines_in ev in
      length ls <= more /\ (hook = false -> ls = []) /\
      (forall j ln, nth_error ls j = Some ln -> exists st1 l1,
         (gcycle cfg b (S j) st = (Ok st1, l1) /\ mats l1 = S j) /\ ln = line b (it + S j) (gnorms st1) /\
         (forallb gr_done st1 = true -> length ls = S j /\ forall p, r = Ok p -> snd p = st1)) /\
      (forall it' st', r = Ok (it', st') -> it' = it + mats (calls_in ev) /\ (hook = true -> mats (calls_in ev) = length ls)).
  Proof.
    revert it st w. induction more as [|more IH]; intros it st w H.
    { injection H as <- <-. exists []. rewrite app_nil_r. split; [reflexivity|]. cbn. split; [lia|]. split; [reflexivity|].
      split; [intros [|j] ln E; discriminate|]. intros it' st' E. injection E as <- <-. split; [lia|reflexivity]. }
    cbn [log_cycle] in H.
    assert (stop : forall k e, r = Err e -> w' = w ++ map KCall k -> exists ev, w' = w ++ ev /\ let ls := lines_in ev in
      length ls <= S more /\ (hook = false -> ls = []) /\
      (forall j ln, nth_error ls j = Some ln -> exists st1 l1,
         (gcycle cfg b (S j) st = (Ok st1, l1) /\ mats l1 = S j) /\ ln = line b (it + S j) (gnorms st1) /\
         (forallb gr_done st1 = true -> length ls = S j /\ forall p, r = Ok p -> snd p = st1)) /\
      (forall it' st', r = Ok (it', st') -> it' = it + mats (calls_in ev) /\ (hook = true -> mats (calls_in ev) = length ls))).
    { clear. intros k e -> ->. exists (map KCall k). split; [reflexivity|]. cbv zeta. rewrite lines_calls. cbn [length].
      split; [lia|]. split; [reflexivity|]. split; [intros [|j] ln E; discriminate|]. discriminate. }
    apply quiet_bind in H as [(av & E1 & H)|(e & _ & -> & ->)]; [|exact (stop _ e eq_refl eq_refl)].
    apply quiet_bind in H as [(wv & E2 & H)|(e & _ & -> & ->)];
      [|rewrite <- ?app_assoc, <- ?map_app in stop |- *; exact (stop _ e eq_refl eq_refl)].
    clear stop. apply call_ok in E1, E2.
    rewrite <- !app_assoc, <- !map_app in H. cbv zeta in H.
    set (k := snd _ ++ _) in H.
    assert (Hk : mats k = 1) by reflexivity. clearbody k.
    set (st1 := map2 _ _ st) in H. change (map (fun s => n_abs N (ar_last (gr_arn s))) st1) with (gnorms st1) in H.
    assert (U0 : exists l, gcycle cfg b 1 st = (Ok st1, l) /\ mats l = 1).
    { cbn [gmres_cycle]. rewrite E1. cbn [kbind]. rewrite E2. cbn [kbind]. fold st1. destruct (forallb gr_done st1); eexists; (split; [reflexivity|]); reflexivity. }
    assert (U1 : forall j st2 l2, forallb gr_done st1 = false -> gcycle cfg b j st1 = (Ok st2, l2) -> exists l, gcycle cfg b (S j) st = (Ok st2, l) /\ mats l = S (mats l2)).
    { intros j st2 l2 Dn Ej. cbn [gmres_cycle]. rewrite E1. cbn [kbind]. rewrite E2. cbn [kbind]. fold st1. rewrite Dn, Ej. eexists. split; [reflexivity|]. rewrite !mats_app. reflexivity. }
    clearbody st1. clear E1 E2.
    apply on_iter_bind in H as (ev1 & Hev & H).
    destruct H as [H|(e & -> & ->)].
    - destruct (forallb gr_done st1) eqn:D1.
      + injection H as <- <-. exists (map KCall k ++ ev1). split; [rewrite !app_assoc; reflexivity|]. cbv zeta.
        rewrite lines_app, lines_calls, calls_app, calls_calls, mats_app, Hk. cbn [app].
        destruct Hev as [[Hh ->]|[Hh ->]]; cbn [lines_in flat_map app length calls_in mats filter].
        * split; [lia|]. split; [reflexivity|]. split; [intros [|j] ln E; discriminate|].
          intros it' st' E. injection E as <- <-. split; [lia|]. congruence.
        * split; [lia|]. split; [congruence|]. split.
          -- intros [|[|j]] ln E; try discriminate. injection E as <-. destruct U0 as (l & U0). exists st1, l.
             split; [exact U0|]. split; [reflexivity|]. intros _. split; [reflexivity|]. intros p Ep. injection Ep as <-. reflexivity.
          -- intros it' st' E. injection E as <- <-. split; [lia|]. reflexivity.
      + destruct (IH _ _ _ H) as (ev & -> & K1 & K2 & K3 & K4). cbv zeta in K3.
        exists (map KCall k ++ ev1 ++ ev). split; [rewrite !app_assoc; reflexivity|]. cbv zeta.
        rewrite !lines_app, lines_calls, !calls_app, calls_calls, !mats_app, Hk. cbn [app].
        destruct Hev as [[Hh ->]|[Hh ->]]; cbn [lines_in flat_map app length calls_in mats filter]; fold (lines_in ev); fold (calls_in ev).
        * split; [rewrite (K2 Hh); cbn; lia|]. split; [exact K2|]. rewrite (K2 Hh).
          split; [intros [|j] ln E; discriminate|].
          intros it' st' E. destruct (K4 it' st' E) as [Q1 Q2]. split; [unfold mats in *; lia|]. congruence.
        * split; [lia|]. split; [congruence|]. split.
          -- intros [|j] ln E.
             ++ injection E as <-. destruct U0 as (l & U0). exists st1, l.
                split; [exact U0|]. split; [reflexivity|]. congruence.
             ++ cbn [nth_error] in E. destruct (K3 j ln E) as (st2 & l2 & [P1 P1'] & P2 & P3).
                destruct (U1 (S j) st2 l2 eq_refl P1) as (l & Q & Q'). exists st2, l. split; [split; [exact Q|congruence]|].
                split; [rewrite P2; f_equal; lia|]. intros Dn. destruct (P3 Dn) as [X1 X2]. split; [lia|exact X2].
          -- intros it' st' E. destruct (K4 it' st' E) as [Q1 Q2]. specialize (Q2 Hh). unfold mats in *. split; [lia|]. intros _. lia.
    - exists (map KCall k ++ ev1). split; [rewrite app_assoc; reflexivity|]. cbv zeta. rewrite lines_app, lines_calls. cbn [app].
      destruct Hev as [[Hh ->]|[Hh ->]]; cbn [lines_in flat_map app length].
      + split; [lia|]. split; [reflexivity|]. split; [intros [|j] ln E; discriminate|]. discriminate.
      + split; [lia|]. split; [congruence|]. split; [|discriminate].
        intros [|[|j]] ln E; try discriminate. injection E as <-. destruct U0 as (l & U0). exists st1, l.
        split; [exact U0|]. split; [reflexivity|]. intros _. split; [reflexivity|]. discriminate.
  Qed.

  (** A batch whose rows all meet the tolerances. *)
  Definition all_meet cfg (b : list (list V)) (es : list V) : Prop :=
    forall i bi e, nth_error b i = Some bi -> nth_error es i = Some e -> meets N cfg (bnorm N rsum bi) e = true.

  Notation gloop := (gmres_loop N rsum edot tri matvec minv).
  (** A loop begun with every row done only computes a residual. *)
  Lemma loop_all_done cfg b m first it cycles st w r w' :
    length st = length b -> forallb gr_done st = true ->
    log_loop N rsum edot tri vmax say matvec minv hook cfg b m first it cycles st w = (r, w') ->
    exists ev, w' = w ++ ev /\ lines_in ev = [] /\ (forall st', r = Ok st' -> forallb gr_done st' = true).
  Proof.
    intros L D H. destruct cycles as [|cycles]; cbn [log_loop] in H.
    { injection H as <- <-. exists []. rewrite app_nil_r. split; [reflexivity|]. split; [reflexivity|]. intros st' E. injection E as <-. exact D. }
    apply quiet_bind in H as [(rr & E1 & H)|(e & _ & -> & ->)].
    2:{ eexists. split; [reflexivity|]. split; [apply lines_calls|]. discriminate. }
    apply call_ok in E1. destruct (gmres_begin_step N rsum matvec minv cfg b first st rr _ L E1) as (_ & _ & _ & HH).
    cbv zeta in HH, H. destruct HH as (L1 & _ & _ & Hn). set (st1 := map2 _ _ st) in *. clearbody st1.
    assert (D1 : forallb gr_done st1 = true).
    { apply forallb_forall. intros s I. apply In_nth_error in I as (i & Ei).
      destruct (nth_same st1 b i s ltac:(congruence) Ei) as (bi & Eb).
      destruct (nth_same st1 st i s ltac:(congruence) Ei) as (si & Es).
      destruct (Hn i bi si Eb Es) as (ri & _ & E4). rewrite E4 in Ei. injection Ei as <-.
      cbn [gmres_begin gr_done]. rewrite forallb_forall in D. rewrite (D si (nth_error_In _ _ Es)). reflexivity. }
    rewrite D1 in H. injection H as <- <-. eexists. split; [reflexivity|]. split; [apply lines_calls|].
    intros st' E. injection E as <-. exact D1.
  Qed.

  (** After a column, a row not done before whose number meets the tolerances is done. *)
  Lemma cycle_meets cfg b j st st1 l :
    length st = length b -> gactive st -> gcycle cfg b (S j) st = (Ok st1, l) -> all_meet cfg b (gnorms st1) -> forallb gr_done st1 = true.
  Proof.
    revert st l. induction j as [|j IH]; intros st l L A H M.
    - destruct (gmres_col N rsum edot matvec minv cfg b 0 st st1 l L H) as (av & w & l' & _ & _ & _ & _ & _ & _ & HH).
      cbv zeta in HH. destruct HH as (L1 & R & _ & Hn). set (st2 := map2 _ _ st) in *.
      clearbody st2. assert (Q : st2 = st1) by (destruct (forallb gr_done st2); injection R; auto). rewrite Q in *. clear R Q st2.
      apply forallb_forall. intros s I. apply In_nth_error in I as (i & Ei).
      destruct (nth_same st1 b i s ltac:(congruence) Ei) as (bi & Eb).
      destruct (nth_same st1 st i s ltac:(congruence) Ei) as (si & Es).
      destruct (Hn i bi si Eb Es) as (ai & wi & _ & _ & E). rewrite E in Ei.
      specialize (M i bi (n_abs N (ar_last (gr_arn s))) Eb ltac:(unfold gnorms; rewrite nth_error_map, E; injection Ei as <-; reflexivity)).
      injection Ei as <-. pose proof (forall_nth _ _ _ _ A Es) as Ai. cbn beta in Ai.
      cbn [gmres_column gmres_test gr_iters gr_done gr_active gr_arn] in M |- *.
      destruct (gr_done si); [reflexivity|]. rewrite Ai by reflexivity. cbn. exact M.
    - destruct (gmres_col N rsum edot matvec minv cfg b (S j) st st1 l L H) as (av & w & l' & _ & _ & _ & _ & _ & _ & HH).
      cbv zeta in HH. destruct HH as (L1 & R & _ & Hn). set (st2 := map2 _ _ st) in *. clearbody st2.
      destruct (forallb gr_done st2) eqn:D; [cbn in R; injection R as <- <-; exact D|].
      apply (IH st2 l' L1); auto.
      apply nth_forall. intros i s1 E1.
      destruct (nth_same st2 b i s1 ltac:(congruence) E1) as (bi & Eb).
      destruct (nth_same st2 st i s1 ltac:(congruence) E1) as (si & Es).
      destruct (Hn i bi si Eb Es) as (ai & wi & _ & _ & E). rewrite E in E1. injection E1 as <-.
      pose proof (forall_nth _ _ _ _ A Es) as Ai. cbn beta in Ai.
      cbn [gmres_column gmres_test gr_iters gr_done gr_active gr_arn].
      intros Q. apply orb_false_elim in Q as [Q _]. auto.
  Qed.

  Lemma cycle_len cfg b more st st1 l : length st = length b -> gcycle cfg b more st = (Ok st1, l) -> length st1 = length b.
  Proof.
    revert st l. induction more as [|more IH]; intros st l L H; [injection H as <- _; exact L|].
    destruct (gmres_col N rsum edot matvec minv cfg b more st st1 l L H) as (av & w & l' & _ & _ & _ & _ & _ & _ & HH).
    cbv zeta in HH. destruct HH as (L1 & R & _ & _). set (st2 := map2 _ _ st) in *. clearbody st2.
    destruct (forallb gr_done st2); [injection R as <- _; exact L1|]. exact (IH st2 l' L1 R).
  Qed.

  Notation begun cfg b rr st := (map2 (fun q s => gmres_begin N rsum cfg (fst q) (snd q) s) (combine b rr) st).
  Lemma loop_lines cfg b m first it cycles st w r w' :
    length st = length b -> gcounted it st ->
    log_loop N rsum edot tri vmax say matvec minv hook cfg b m first it cycles st w = (r, w') ->
    exists ev, w' = w ++ ev /\ let ls := lines_in ev in
      (hook = false -> ls = []) /\
      (forall j ln, nth_error ls j = Some ln -> exists st1, length st1 = length b /\ ln = line b (it + S j) (gnorms st1) /\
         (all_meet cfg b (gnorms st1) -> length ls = S j /\ forall st', r = Ok st' -> forallb gr_done st' = true)) /\
      (forall st', r = Ok st' -> length st' = length b /\ (hook = true -> gcounted (it + length ls) st')) /\
      (forall j ln, nth_error ls j = Some ln -> j < m -> exists rr l0 st1 l1,
         gmres_residual N matvec minv b first st = (Ok rr, l0) /\ forallb gr_done (begun cfg b rr st) = false /\
         (gcycle cfg b (S j) (begun cfg b rr st) = (Ok st1, l1) /\ mats l1 = S j) /\ ln = line b (it + S j) (gnorms st1)).
  Proof.
    revert first it st w. induction cycles as [|cycles IH]; intros first it st w L C H.
    { injection H as <- <-. exists []. rewrite app_nil_r. split; [reflexivity|]. cbv zeta. cbn [lines_in flat_map length].
      split; [reflexivity|]. split; [intros [|j] ln E; discriminate|]. split; [|intros [|j] ln E; discriminate].
      intros st' E. injection E as <-. split; [exact L|]. intros _. rewrite Nat.add_0_r. exact C. }
    cbn [log_loop] in H.
    apply quiet_bind in H as [(rr & E1 & H)|(e & _ & -> & ->)].
    2:{ eexists. split; [reflexivity|]. cbv zeta. rewrite lines_calls. cbn [length].
        split; [reflexivity|]. split; [intros [|j] ln E; discriminate|]. split; [discriminate|intros [|j] ln E; discriminate]. }
    apply call_ok in E1. destruct (gmres_begin_step N rsum matvec minv cfg b first st rr _ L E1) as (_ & _ & _ & HH).
    cbv zeta in HH, H. destruct HH as (L1 & A1 & C1 & _). specialize (C1 it C).
    assert (Eb : exists l0, gmres_residual N matvec minv b first st = (Ok rr, l0)) by eauto. clear E1.
    set (k := snd _) in H. clearbody k.
    set (st1 := map2 _ _ st) in *.
    destruct (forallb gr_done st1) eqn:D.
    { injection H as <- <-. eexists. split; [reflexivity|]. cbv zeta. rewrite lines_calls. cbn [length].
      split; [reflexivity|]. split; [intros [|j] ln E; discriminate|]. split; [|intros [|j] ln E; discriminate].
      intros st' E. injection E as <-. split; [exact L1|]. intros _. rewrite Nat.add_0_r. exact C1. }
    unfold lbind in H. destruct (log_cycle _ _ _ _ _ _ _ _ _ _ _ _ _ _) as [rc wc] eqn:E2.
    destruct (cycle_lines _ _ _ _ _ _ _ _ E2) as (ev1 & Ew1 & K1 & K2 & K3 & K4). cbv zeta in K3.
    destruct (tracks_cycle say N rsum edot vmax matvec minv hook cfg b it m st1 _ _ _ E2) as (ev1' & Ew1' & T).
    assert (ev1' = ev1) by (rewrite Ew1 in Ew1'; apply app_inv_head in Ew1'; auto). subst ev1'. clear Ew1'.
    assert (Row : forall j ln, nth_error (lines_in ev1) j = Some ln -> exists rr l0 st2 l1,
         gmres_residual N matvec minv b first st = (Ok rr, l0) /\ forallb gr_done (begun cfg b rr st) = false /\
         (gcycle cfg b (S j) (begun cfg b rr st) = (Ok st2, l1) /\ mats l1 = S j) /\ ln = line b (it + S j) (gnorms st2)).
    { intros j ln E. destruct (K3 j ln E) as (st2 & l1 & P1 & P2 & _). destruct Eb as (l0 & Eb).
      exists rr, l0, st2, l1. auto. }
    destruct rc as [[it2 st2]|e].
    2:{ injection H as <- <-. exists (map KCall k ++ ev1). split; [rewrite Ew1, app_assoc; reflexivity|]. cbv zeta.
        rewrite lines_app, lines_calls. cbn [app]. split; [exact K2|]. split; [|split; [discriminate|intros j ln E _; exact (Row j ln E)]].
        intros j ln E. destruct (K3 j ln E) as (st2 & l2 & [P1 _] & P2 & P3). exists st2.
        split; [exact (cycle_len _ _ _ _ _ _ L1 P1)|]. split; [exact P2|]. intros M.
        destruct (P3 (cycle_meets cfg b j st1 st2 l2 L1 A1 P1 M)) as [X _]. split; [exact X|discriminate]. }
    destruct T as [[T1 T2]|(e & Q & _)]; [|discriminate]. cbn [over snd] in T1.
    assert (Ec : gcycle cfg b m st1 = (Ok st2, calls_in ev1)).
    { destruct (gcycle cfg b m st1) as [rg lg]. cbn [fst snd] in T1, T2. congruence. }
    destruct (gmres_cycle_exact N rsum edot tri matvec minv cfg b m st1 st2 (calls_in ev1) it L1 C1 A1 D Ec)
      as (kk & G1 & _ & G3 & _ & G5 & G6 & G7).
    destruct (K4 it2 st2 eq_refl) as [I1 I2]. rewrite G3 in I1, I2. subst it2.
    set (st3 := map (gmres_correct N edot tri) st2) in H.
    assert (L3 : length st3 = length b) by (unfold st3; rewrite map_length; exact G6).
    assert (C3 : gcounted (it + kk) st3).
    { destruct G1 as [J1 J2]. split; [unfold st3; rewrite Forall_map; exact J1|].
      destruct J2 as [J2|J2]; [auto|right; unfold st3; rewrite Exists_map; exact J2]. }
    assert (D3 : forallb gr_done st2 = true -> forallb gr_done st3 = true).
    { intros Q. rewrite forallb_forall in Q |- *. unfold st3. intros s (s2 & <- & I)%in_map_iff. cbn [gmres_correct gr_done]. auto. }
    clearbody st3.
    destruct (IH false (it + kk) st3 wc L3 C3 H) as (ev2 & -> & M1 & M2 & M3 & _). cbv zeta in M2, M3.
    assert (Rest : forallb gr_done st2 = true -> lines_in ev2 = [] /\ forall st', r = Ok st' -> forallb gr_done st' = true).
    { intros Q. destruct (loop_all_done cfg b m false (it + kk) cycles st3 wc r (wc ++ ev2) L3 (D3 Q) H) as (ev3 & Ew3 & Z1 & Z2).
      apply app_inv_head in Ew3. subst ev3. auto. }
    exists (map KCall k ++ ev1 ++ ev2). split; [rewrite Ew1, !app_assoc; reflexivity|]. cbv zeta.
    rewrite !lines_app, lines_calls. cbn [app].
    split; [intros Q; rewrite (K2 Q), (M1 Q); reflexivity|].
    assert (Len : forall j ln, nth_error (lines_in ev1 ++ lines_in ev2) j = Some ln -> hook = true).
    { intros j ln E. destruct hook; [reflexivity|]. rewrite (K2 eq_refl), (M1 eq_refl) in E. destruct j; discriminate. }
    split; [|split].
    - intros j ln E. pose proof (Len j ln E) as Hh. destruct (Nat.ltb_spec j (length (lines_in ev1))) as [Lj|Lj].
      + rewrite nth_error_app1 in E by exact Lj. destruct (K3 j ln E) as (sj & lj & [P1 _] & P2 & P3). exists sj.
        split; [exact (cycle_len _ _ _ _ _ _ L1 P1)|]. split; [exact P2|]. intros M.
        destruct (P3 (cycle_meets cfg b j st1 sj lj L1 A1 P1 M)) as [X Y]. specialize (Y _ eq_refl). cbn [snd] in Y. subst sj.
        destruct (Rest (cycle_meets cfg b j st1 st2 lj L1 A1 P1 M)) as [Z1 Z2]. rewrite Z1, app_nil_r. auto.
      + rewrite nth_error_app2 in E by exact Lj. destruct (M2 _ ln E) as (sj & P1 & P2 & P3). exists sj. split; [exact P1|].
        rewrite <- (I2 Hh) in Lj, P2, P3. split; [rewrite P2; f_equal; lia|]. intros M. destruct (P3 M) as [X Y].
        split; [rewrite app_length, <- (I2 Hh); lia|exact Y].
    - intros st' E. destruct (M3 st' E) as [X Y]. split; [exact X|]. intros Hh. rewrite app_length, <- (I2 Hh), Nat.add_assoc. exact (Y Hh).
    - intros j ln E Lm. pose proof (Len j ln E) as Hh. destruct (Nat.ltb_spec j (length (lines_in ev1))) as [Lj|Lj].
      + rewrite nth_error_app1 in E by exact Lj. exact (Row j ln E).
      + exfalso. rewrite <- (I2 Hh) in Lj. destruct G7 as [G7|[G7 _]]; [|lia].
        rewrite (proj1 (Rest G7)), app_nil_r in E.
        assert (nth_error (lines_in ev1) j <> None) by congruence. apply nth_error_Some in H0. rewrite <- (I2 Hh) in H0. lia.
  Qed.
End Lines.
