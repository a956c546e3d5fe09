(** Rows of a GMRES solve. *)
From Verif Require Import Base BaseProofs Newton Krylov SpecKrylov KrylovProofs KrylovCostProofs KrylovRowProofs.

(** Cycle lengths: all of width [m] but the last. *)
Fixpoint spread (m : nat) (ks : list nat) : Prop :=
  match ks with
  | [] => True
  | [k] => 1 <= k <= m
  | k :: ks' => k = m /\ spread m ks'
  end.
Definition iters_total (ks : list nat) : nat := fold_right Nat.add 0 ks.

Lemma spread_cons m k ks : ks <> [] -> spread m (k :: ks) <-> k = m /\ spread m ks.
Proof. destruct ks; [contradiction|]. intros _. reflexivity. Qed.
Lemma spread_pos m ks : 1 <= m -> ks <> [] -> spread m ks -> 1 <= iters_total ks.
Proof.
  destruct ks as [|k [|k' ks]]; [contradiction| |]; intros Hm _ H; cbn [iters_total fold_right].
  - cbn in H. lia.
  - apply spread_cons in H as [-> _]; [lia|discriminate].
Qed.
Lemma spread_unique m ks ks' : 1 <= m -> spread m ks -> spread m ks' -> iters_total ks = iters_total ks' -> ks = ks'.
Proof.
  intros Hm. revert ks'. induction ks as [|k ks IH]; intros ks' H H' E.
  - destruct ks' as [|k' ks']; [reflexivity|].
    pose proof (spread_pos m (k' :: ks') Hm ltac:(discriminate) H'). cbn in E, H0. lia.
  - destruct ks' as [|k' ks'].
    { pose proof (spread_pos m (k :: ks) Hm ltac:(discriminate) H). cbn in E, H0. lia. }
    cbn [iters_total fold_right] in E. fold (iters_total ks) (iters_total ks') in E.
    destruct ks as [|k2 ks]; destruct ks' as [|k2' ks'].
    + cbn in E. f_equal. lia.
    + apply spread_cons in H' as [-> H']; [|discriminate].
      pose proof (spread_pos m (k2' :: ks') Hm ltac:(discriminate) H'). cbn [spread] in H. cbn [iters_total fold_right] in E, H0. lia.
    + apply spread_cons in H as [-> H]; [|discriminate].
      pose proof (spread_pos m (k2 :: ks) Hm ltac:(discriminate) H). cbn [spread] in H'. cbn [iters_total fold_right] in E, H0. lia.
    + apply spread_cons in H as [-> H]; [|discriminate]. apply spread_cons in H' as [-> H']; [|discriminate].
      f_equal. apply IH; auto. lia.
Qed.

Section Gmres.
  Context {V : Type}.
  Variable N : num V.
  Variable rsum : list V -> V.
  Variable edot : list V -> list V -> V.
  Variable tri : list (list V) -> list V -> list V.
  Notation vec := (list V).

  (** ** The values of a row, from the cycle lengths *)
  Fixpoint columns_row (A M : vec -> vec) (k : nat) (a : arnoldi V) : arnoldi V :=
    match k with
    | 0 => a
    | S k' => columns_row A M k' (arnoldi_step N rsum edot (M (A (last_v a))) a)
    end.
  Definition fresh (r : vec) : arnoldi V :=
    mkArn [map (fun x => n_div N x (clamp N (row_norm N rsum r))) r] [] [] [] (row_norm N rsum r).
  Definition correct_row (x : vec) (a : arnoldi V) : vec :=
    vadd N x (combination edot (tri (regularized N (ar_cols a)) (ar_g a)) (firstn (length (ar_cols a)) (ar_vs a)) x).
  Fixpoint values_row (A M : vec -> vec) (b : vec) (first : bool) (x : vec) (ks : list nat) : vec :=
    match ks with
    | [] => x
    | k :: ks' =>
        let r := if first then M b else M (vsub N b (A x)) in
        values_row A M b false (correct_row x (columns_row A M k (fresh r))) ks'
    end.

  (** ** The flags of a row on its own *)
  Fixpoint cycle_row (A M : vec -> vec) (cfg : kconfig V) (b : vec) (more : nat) (s : grow V) : grow V :=
    match more with
    | 0 => s
    | S more' =>
        let s1 := gmres_column N rsum edot cfg b (M (A (last_v (gr_arn s)))) s in
        if gr_done s1 then s1 else cycle_row A M cfg b more' s1
    end.
  Fixpoint loop_row (A M : vec -> vec) (cfg : kconfig V) (b : vec) (m : nat) (first : bool) (cycles : nat) (s : grow V) : grow V :=
    match cycles with
    | 0 => s
    | S cycles' =>
        let s1 := gmres_begin N rsum cfg b (if first then M b else M (vsub N b (A (gr_x s)))) s in
        if gr_done s1 then s1
        else loop_row A M cfg b m false cycles' (gmres_correct N edot tri (cycle_row A M cfg b m s1))
    end.

  Variable matvec minv : list vec -> result (list vec).
  Variable b : list vec.
  Variable i : nat.
  Variable A M : vec -> vec.
  Variable bi : vec.
  Hypothesis EA : acts_on i A matvec.
  Hypothesis EM : acts_on i M minv.
  Hypothesis Eb : nth_error b i = Some bi.

  Lemma col_row cfg more st st' l :
    length st = length b ->
    gmres_cycle N rsum edot matvec minv cfg b (S more) st = (Ok st', l) ->
    exists l' st1, length st1 = length b /\
      (if forallb gr_done st1 then kret st1 else gmres_cycle N rsum edot matvec minv cfg b more st1) = (Ok st', l') /\
      l = [CMat (map (fun s => last_v (gr_arn s)) st); CPre (match matvec (map (fun s => last_v (gr_arn s)) st) with Ok a => a | Err _ => [] end)] ++ l' /\
      forall si, nth_error st i = Some si ->
        nth_error st1 i = Some (gmres_column N rsum edot cfg bi (M (A (last_v (gr_arn si)))) si).
  Proof using EA EM Eb.
    intros L H. destruct (gmres_col N rsum edot matvec minv cfg b more st st' l L H) as (av & w & l' & H1 & _ & H2 & _ & _ & _ & HH).
    cbv zeta in HH. destruct HH as (L1 & R & El & Hn).
    exists l'. eexists. split; [exact L1|]. split; [exact R|]. split; [rewrite H1; exact El|].
    intros si Es. destruct (Hn i bi si Eb Es) as (ai & wi & Ea & Ew & E). rewrite E.
    pose proof (EA _ _ (last_v (gr_arn si)) H1) as Q.
    rewrite Q in Ea by (rewrite nth_error_map, Es; reflexivity). injection Ea as <-.
    pose proof (EM _ _ _ H2 (Q ltac:(rewrite nth_error_map, Es; reflexivity))) as Q2.
    rewrite Ew in Q2. injection Q2 as ->. reflexivity.
  Qed.

  Lemma begin_row cfg first st r l :
    length st = length b ->
    gmres_residual N matvec minv b first st = (Ok r, l) ->
    let st1 := map2 (fun q s => gmres_begin N rsum cfg (fst q) (snd q) s) (combine b r) st in
    length st1 = length b /\
    forall si, nth_error st i = Some si ->
      nth_error st1 i = Some (gmres_begin N rsum cfg bi (if first then M bi else M (vsub N bi (A (gr_x si)))) si).
  Proof using EA EM Eb.
    intros L H. destruct (gmres_begin_step N rsum matvec minv cfg b first st r l L H) as (Lr & _ & _ & HH).
    cbv zeta in *. destruct HH as (L1 & _ & _ & Hn). split; [exact L1|].
    intros si Es. destruct (Hn i bi si Eb Es) as (ri & Er & E). rewrite E.
    assert (Q : ri = if first then M bi else M (vsub N bi (A (gr_x si)))); [|rewrite Q; reflexivity].
    clear E Hn L1. destruct first; cbn [gmres_residual] in H.
    - apply call_op_inv in H as (H & _). pose proof (EM _ _ bi H Eb) as Q. congruence.
    - apply kbind_inv in H as (ax & l1 & l2 & E1 & H & _).
      apply call_op_inv in E1 as (E1 & _). apply call_op_inv in H as (H & _).
      pose proof (EA _ _ (gr_x si) E1 ltac:(rewrite nth_error_map, Es; reflexivity)) as Q1.
      pose proof (EM _ _ (vsub N bi (A (gr_x si))) H) as Q2.
      rewrite map2_nth, Eb, Q1 in Q2. specialize (Q2 eq_refl). congruence.
  Qed.

  (** ** Flags and counters *)
  Lemma cycle_done cfg more st st' l si :
    length st = length b -> gmres_cycle N rsum edot matvec minv cfg b more st = (Ok st', l) ->
    nth_error st i = Some si -> gr_done si = true ->
    exists si', nth_error st' i = Some si' /\ gr_done si' = true /\ gr_iters si' = gr_iters si.
  Proof using EA EM Eb.
    revert st si l. induction more as [|more IH]; intros st si l L H Es Di.
    { cbn in H. injection H as <- _. eauto. }
    destruct (col_row cfg more st st' l L H) as (l' & st1 & L1 & R & _ & Hn).
    specialize (Hn si Es).
    assert (D1 : gr_done (gmres_column N rsum edot cfg bi (M (A (last_v (gr_arn si)))) si) = true).
    { cbn [gmres_column gmres_test gr_done]. rewrite Di. reflexivity. }
    assert (I1 : gr_iters (gmres_column N rsum edot cfg bi (M (A (last_v (gr_arn si)))) si) = gr_iters si).
    { cbn [gmres_column gmres_test gr_iters gr_active gr_done]. rewrite Di, andb_false_r. reflexivity. }
    destruct (forallb gr_done st1).
    - injection R as <- _. eauto.
    - destruct (IH st1 _ l' L1 R Hn D1) as (si' & E & D & I). rewrite I1 in I. eauto.
  Qed.

  (** The batch's row against the row alone. *)
  Definition agrees (s s' : grow V) : Prop :=
    s' = s \/ (gr_done s = true /\ gr_done s' = true /\ gr_iters s' = gr_iters s).

  Lemma cycle_agrees cfg more st st' l si :
    length st = length b -> gmres_cycle N rsum edot matvec minv cfg b more st = (Ok st', l) ->
    nth_error st i = Some si ->
    exists si', nth_error st' i = Some si' /\ (gr_done si = false -> agrees (cycle_row A M cfg bi more si) si').
  Proof using EA EM Eb.
    revert st si l. induction more as [|more IH]; intros st si l L H Es.
    { cbn in H. injection H as <- _. exists si. split; [exact Es|]. left. reflexivity. }
    destruct (col_row cfg more st st' l L H) as (l' & st1 & L1 & R & _ & Hn).
    specialize (Hn si Es). cbn [cycle_row]. set (s1 := gmres_column _ _ _ _ _ _ si) in *. clearbody s1.
    destruct (forallb gr_done st1) eqn:D.
    - injection R as <- _. exists s1. split; [exact Hn|]. intros _.
      assert (D1 : gr_done s1 = true).
      { rewrite forallb_forall in D. eapply D, nth_error_In, Hn. }
      rewrite D1. left. reflexivity.
    - destruct (gr_done s1) eqn:D1.
      + destruct (cycle_done cfg more st1 st' l' s1 L1 R Hn D1) as (si' & E & D' & I').
        exists si'. split; [exact E|]. intros _. right. auto.
      + destruct (IH st1 s1 l' L1 R Hn) as (si' & E & Ag). exists si'. split; [exact E|]. auto.
  Qed.

  Lemma loop_done cfg m first cycles st st' l si :
    length st = length b -> gmres_loop N rsum edot tri matvec minv cfg b m first cycles st = (Ok st', l) ->
    nth_error st i = Some si -> gr_done si = true ->
    exists si', nth_error st' i = Some si' /\ gr_done si' = true /\ gr_iters si' = gr_iters si.
  Proof using EA EM Eb.
    revert first st si l. induction cycles as [|cycles IH]; intros first st si l L H Es Di.
    { cbn in H. injection H as <- _. eauto. }
    cbn [gmres_loop] in H. apply kbind_inv in H as (r & l1 & l2 & E & H & _).
    destruct (begin_row cfg first st r l1 L E) as (L1 & Hn). cbv zeta in *.
    specialize (Hn si Es).
    set (st1 := map2 _ _ st) in *. clearbody st1.
    set (s1 := gmres_begin N rsum cfg bi (if first then _ else _) si) in *.
    assert (D1 : gr_done s1 = true) by (cbn; rewrite Di; reflexivity).
    assert (I1 : gr_iters s1 = gr_iters si) by reflexivity. clearbody s1.
    destruct (forallb gr_done st1); [injection H as <- _; eauto|].
    apply kbind_inv in H as (st2 & l3 & l4 & E2 & H & _).
    destruct (cycle_done cfg m st1 st2 l3 s1 L1 E2 Hn D1) as (s2 & Es2 & D2 & I2).
    assert (L2 : length st2 = length b).
    { clear -L1 E2. revert st1 l3 L1 E2. induction m as [|m IH]; intros st1 l3 L1 E2.
      - cbn in E2. injection E2 as <- _. exact L1.
      - destruct (gmres_col _ _ _ _ _ _ _ _ _ _ _ L1 E2) as (av & w & l' & _ & _ & _ & _ & _ & _ & HH).
        cbv zeta in HH. destruct HH as (L2 & R & _). destruct (forallb _ _); [injection R as <- _; exact L2|]. eauto. }
    destruct (IH false (map (gmres_correct N edot tri) st2) (gmres_correct N edot tri s2) l4) as (s3 & E3 & D3 & I3); auto.
    { rewrite map_length. exact L2. } { rewrite nth_error_map, Es2. reflexivity. }
    exists s3. split; [exact E3|]. split; [exact D3|]. rewrite I3. cbn [gmres_correct gr_iters]. congruence.
  Qed.

  Lemma cycle_length cfg m st1 st2 l3 :
    length st1 = length b -> gmres_cycle N rsum edot matvec minv cfg b m st1 = (Ok st2, l3) -> length st2 = length b.
  Proof using.
    revert st1 l3. induction m as [|m IH]; intros st1 l3 L1 E2.
    - cbn in E2. injection E2 as <- _. exact L1.
    - destruct (gmres_col _ _ _ _ _ _ _ _ _ _ _ L1 E2) as (av & w & l' & _ & _ & _ & _ & _ & _ & HH).
      cbv zeta in HH. destruct HH as (L2 & R & _). destruct (forallb _ _); [injection R as <- _; exact L2|]. eauto.
  Qed.

  Lemma loop_agrees cfg m first cycles st st' l si :
    length st = length b -> gmres_loop N rsum edot tri matvec minv cfg b m first cycles st = (Ok st', l) ->
    nth_error st i = Some si ->
    exists si', nth_error st' i = Some si' /\
      (gr_done si = false ->
       gr_done si' = gr_done (loop_row A M cfg bi m first cycles si) /\
       gr_iters si' = gr_iters (loop_row A M cfg bi m first cycles si)).
  Proof using EA EM Eb.
    revert first st si l. induction cycles as [|cycles IH]; intros first st si l L H Es.
    { cbn in H. injection H as <- _. exists si. auto. }
    cbn [gmres_loop] in H. apply kbind_inv in H as (r & l1 & l2 & E & H & _).
    destruct (begin_row cfg first st r l1 L E) as (L1 & Hn). cbv zeta in *.
    specialize (Hn si Es). cbn [loop_row].
    set (st1 := map2 _ _ st) in *. clearbody st1.
    set (s1 := gmres_begin N rsum cfg bi (if first then _ else _) si) in *. clearbody s1.
    destruct (forallb gr_done st1) eqn:D.
    { injection H as <- _. exists s1. split; [exact Hn|].
      assert (D1 : gr_done s1 = true).
      { rewrite forallb_forall in D. eapply D, nth_error_In, Hn. }
      rewrite D1. auto. }
    apply kbind_inv in H as (st2 & l3 & l4 & E2 & H & _).
    pose proof (cycle_length cfg m st1 st2 l3 L1 E2) as L2.
    destruct (gr_done s1) eqn:D1.
    - destruct (cycle_done cfg m st1 st2 l3 s1 L1 E2 Hn D1) as (s2 & Es2 & D2 & I2).
      destruct (loop_done cfg m false cycles (map (gmres_correct N edot tri) st2) st' l4 (gmres_correct N edot tri s2))
        as (s3 & E3 & D3 & I3); auto.
      { rewrite map_length. exact L2. } { rewrite nth_error_map, Es2. reflexivity. }
      exists s3. split; [exact E3|]. intros _. split; [congruence|]. rewrite I3. cbn [gmres_correct gr_iters]. exact I2.
    - destruct (cycle_agrees cfg m st1 st2 l3 s1 L1 E2 Hn) as (s2 & Es2 & Ag). specialize (Ag D1).
      assert (Es2' : nth_error (map (gmres_correct N edot tri) st2) i = Some (gmres_correct N edot tri s2)).
      { rewrite nth_error_map, Es2. reflexivity. }
      assert (L2' : length (map (gmres_correct N edot tri) st2) = length b) by (rewrite map_length; exact L2).
      set (s2' := cycle_row A M cfg bi m s1) in *. clearbody s2'.
      destruct Ag as [->|(G1 & G2 & G3)].
      + destruct (gr_done s2') eqn:D2.
        * destruct (loop_done cfg m false cycles _ st' l4 _ L2' H Es2' D2) as (s3 & E3 & D3 & I3).
          exists s3. split; [exact E3|]. intros _. rewrite D3, I3. clear -D2.
          destruct cycles as [|cycles]; cbn [loop_row gmres_begin gr_done gmres_correct]; rewrite D2; cbn; try rewrite D2; auto.
        * destruct (IH false _ _ l4 L2' H Es2') as (s3 & E3 & Ag3).
          exists s3. split; [exact E3|]. intros _. apply Ag3. exact D2.
      + destruct (loop_done cfg m false cycles _ st' l4 _ L2' H Es2' G2) as (s3 & E3 & D3 & I3).
        exists s3. split; [exact E3|]. intros _. rewrite D3, I3. cbn [gmres_correct gr_iters]. rewrite G3. clear -G1.
        destruct cycles as [|cycles]; cbn [loop_row gmres_begin gr_done gmres_correct]; rewrite G1; cbn; try rewrite G1; auto.
  Qed.

  (** ** Values *)
  Lemma cycle_values cfg more st st' l si :
    length st = length b -> gmres_cycle N rsum edot matvec minv cfg b more st = (Ok st', l) ->
    nth_error st i = Some si ->
    exists si', nth_error st' i = Some si' /\ gr_x si' = gr_x si /\ gr_arn si' = columns_row A M (mats l) (gr_arn si).
  Proof using EA EM Eb.
    revert st si l. induction more as [|more IH]; intros st si l L H Es.
    { cbn in H. injection H as <- <-. eauto. }
    destruct (col_row cfg more st st' l L H) as (l' & st1 & L1 & R & -> & Hn).
    specialize (Hn si Es). rewrite mats_app. cbn [mats filter length Nat.add columns_row].
    destruct (forallb gr_done st1).
    - injection R as <- <-. eexists. split; [exact Hn|]. split; reflexivity.
    - destruct (IH st1 _ l' L1 R Hn) as (si' & E & X & Ar). exists si'. split; [exact E|]. split; [exact X|exact Ar].
  Qed.

  Lemma loop_values cfg m first cycles st st' l si it :
    1 <= m -> length st = length b -> gcounted it st ->
    gmres_loop N rsum edot tri matvec minv cfg b m first cycles st = (Ok st', l) ->
    nth_error st i = Some si ->
    exists si' ks, nth_error st' i = Some si' /\ spread m ks /\ gcounted (it + iters_total ks) st' /\
      gr_x si' = values_row A M bi first (gr_x si) ks /\ (forallb gr_done st = true -> ks = []).
  Proof using EA EM Eb.
    intros Hm. revert first st si l it. induction cycles as [|cycles IH]; intros first st si l it L C H Es.
    { cbn in H. injection H as <- _. exists si, []. cbn. rewrite Nat.add_0_r. auto. }
    cbn [gmres_loop] in H. apply kbind_inv in H as (r & l1 & l2 & E & H & _).
    destruct (begin_row cfg first st r l1 L E) as (L1 & Hn).
    destruct (gmres_begin_step N rsum matvec minv cfg b first st r l1 L E) as (_ & _ & _ & HH). cbv zeta in *.
    destruct HH as (_ & A1 & C1 & Hall).
    specialize (Hn si Es). specialize (C1 it C).
    set (st1 := map2 _ _ st) in *.
    assert (Dst : forallb gr_done st = true -> forallb gr_done st1 = true).
    { intros D. rewrite forallb_forall in *. intros s I. apply In_nth_error in I as (j & Ej).
      destruct (nth_same st1 b j s ltac:(congruence) Ej) as (bj & Ebj).
      destruct (nth_same st1 st j s ltac:(congruence) Ej) as (sj & Esj).
      destruct (Hall j bj sj Ebj Esj) as (rj & _ & E4). rewrite E4 in Ej. injection Ej as <-.
      cbn [gmres_begin gr_done]. rewrite (D sj (nth_error_In _ _ Esj)). reflexivity. }
    clearbody st1. clear Hall.
    destruct (forallb gr_done st1) eqn:D.
    { injection H as <- _. eexists. exists []. split; [exact Hn|]. cbn. rewrite Nat.add_0_r. auto. }
    apply kbind_inv in H as (st2 & l3 & l4 & E2 & H & _).
    pose proof (cycle_length cfg m st1 st2 l3 L1 E2) as L2.
    destruct (gmres_cycle_exact N rsum edot tri matvec minv cfg b m st1 st2 l3 it L1 C1 A1 D E2) as (k & K1 & K2 & K3 & K4 & K5 & K6 & K7).
    destruct (cycle_values cfg m st1 st2 l3 _ L1 E2 Hn) as (s2 & Es2 & X2 & Ar2). rewrite K3 in Ar2.
    assert (C2 : gcounted (it + k) (map (gmres_correct N edot tri) st2)).
    { destruct K1 as [I1 I2]. split; [rewrite Forall_map; exact I1|].
      destruct I2 as [I2|I2]; [auto|right; rewrite Exists_map; exact I2]. }
    destruct (IH false (map (gmres_correct N edot tri) st2) (gmres_correct N edot tri s2) l4 (it + k)) as (s3 & ks & E3 & Sp & Ct & X3 & Z3); auto.
    { rewrite map_length. exact L2. } { rewrite nth_error_map, Es2. reflexivity. }
    assert (k1 : 1 <= k).
    { destruct k; [|lia]. destruct K7 as [K7|[K7 _]]; [|lia]. exfalso.
      destruct m as [|m]; [lia|]. destruct (gmres_col _ _ _ _ _ _ _ _ _ _ _ L1 E2) as (av & w & l' & _ & _ & _ & _ & _ & _ & HH).
      cbv zeta in HH. destruct HH as (_ & _ & El & _). rewrite El in K3. rewrite mats_app in K3. cbn in K3. lia. }
    exists s3, (k :: ks). split; [exact E3|]. split.
    { destruct ks as [|k' ks]; [cbn; lia|]. apply spread_cons; [discriminate|]. split; [|exact Sp].
      destruct K7 as [K7|[-> _]]; [|reflexivity]. exfalso.
      enough (Q : k' :: ks = []) by discriminate Q. apply Z3. rewrite forallb_forall in *.
      intros s (s0 & <- & I)%in_map_iff. cbn. auto. }
    cbn [iters_total fold_right]. fold (iters_total ks). rewrite Nat.add_assoc. split; [exact Ct|].
    split; [|intros Q; discriminate (Dst Q)].
    rewrite X3. cbn [values_row]. cbn [gmres_correct gr_x]. unfold correct_row.
    cbn [gmres_begin gr_x gr_arn] in X2, Ar2. unfold fresh. rewrite Ar2, X2. reflexivity.
  Qed.
End Gmres.
