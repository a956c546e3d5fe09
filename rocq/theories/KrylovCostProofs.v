(** Exact cost of a Krylov solve that returns. *)
From Verif Require Import Base BaseProofs Newton Krylov SpecKrylov KrylovProofs.

Lemma nth_forall {A} (P : A -> Prop) l : (forall i x, nth_error l i = Some x -> P x) -> Forall P l.
Proof. intros H. apply Forall_forall. intros x [i E]%In_nth_error. eauto. Qed.
Lemma forall_nth {A} (P : A -> Prop) l i x : Forall P l -> nth_error l i = Some x -> P x.
Proof. intros H E. rewrite Forall_forall in H. eapply H, nth_error_In, E. Qed.
Lemma nth_exists {A} (P : A -> Prop) l i x : nth_error l i = Some x -> P x -> Exists P l.
Proof. intros E H. apply Exists_exists. eauto using nth_error_In. Qed.
Lemma forallb_nth {A} (f : A -> bool) l :
  forallb f l = false -> exists i x, nth_error l i = Some x /\ f x = false.
Proof.
  intros H. assert (E : exists x, In x l /\ f x = false).
  { clear -H. induction l as [|a l IH]; [discriminate|]. cbn in H.
    destruct (f a) eqn:E; [|exists a; cbn; auto].
    destruct (IH H) as (x & I & F). exists x. cbn. auto. }
  destruct E as (x & [i I]%In_nth_error & F). eauto.
Qed.
Lemma nth_same {A B} (a : list A) (b : list B) i x :
  length a = length b -> nth_error a i = Some x -> exists y, nth_error b i = Some y.
Proof.
  intros L E. destruct (nth_error b i) as [y|] eqn:F; [eauto|].
  apply nth_error_None in F. assert (i < length a) by (apply nth_error_Some; congruence). lia.
Qed.

Section Exact.
  Context {V : Type}.
  Variable N : num V.
  Variable rsum : list V -> V.
  Variable edot : list V -> list V -> V.
  Variable tri : list (list V) -> list V -> list V.
  Variable matvec minv : list (list V) -> result (list (list V)).

  (** ** BiCGStab *)
  Definition counted (it : nat) (st : list (brow V)) : Prop :=
    Forall (fun s => br_iters s <= it /\ (br_done s = false -> br_iters s = it)) st /\
    (it = 0 \/ Exists (fun s => it = br_iters s) st).

  Lemma bicg_iter cfg b more st st' l :
    length st = length b -> all_done st = false ->
    bicg_loop N rsum edot matvec minv cfg b (S more) st = (Ok st', l) ->
    exists p phat v s shat t l',
      p = map2 (bicg_p N edot) b st /\ length p = length b /\
      minv p = Ok phat /\ like p phat = true /\ length phat = length b /\
      matvec phat = Ok v /\ like phat v = true /\ length v = length b /\
      s = map2 (fun q st => bicg_s N edot (fst q) (snd q) st) (combine b v) st /\ length s = length b /\
      minv s = Ok shat /\ like s shat = true /\ length shat = length b /\
      matvec shat = Ok t /\ like shat t = true /\ length t = length b /\
      let st1 := map2 (fun q st => bicg_update N rsum edot cfg (fst (fst q)) (fst (snd (fst q))) (snd (snd (fst q)))
                                           (fst (fst (snd q))) (snd (fst (snd q))) (snd (snd q)) st)
                  (combine (combine b (combine p phat)) (combine (combine v shat) t)) st in
      length st1 = length b /\
      bicg_loop N rsum edot matvec minv cfg b more st1 = (Ok st', l') /\
      l = [CPre p; CMat phat; CPre s; CMat shat] ++ l' /\
      (forall i bi si, nth_error b i = Some bi -> nth_error st i = Some si ->
        exists ph vi shi ti, nth_error phat i = Some ph /\ nth_error v i = Some vi /\
          nth_error shat i = Some shi /\ nth_error t i = Some ti /\
          nth_error p i = Some (bicg_p N edot bi si) /\
          nth_error s i = Some (bicg_s N edot bi vi si) /\
          nth_error st1 i = Some (bicg_update N rsum edot cfg bi (bicg_p N edot bi si) ph vi shi ti si)).
  Proof.
    intros L D H. cbn [bicg_loop] in H. rewrite D in H. cbv zeta in H.
    apply kbind_inv in H as (phat & l1 & k1 & E1 & H & ->).
    apply kbind_inv in H as (v & l2 & k2 & E2 & H & ->).
    apply kbind_inv in H as (shat & l3 & k3 & E3 & H & ->).
    apply kbind_inv in H as (t & l4 & k4 & E4 & H & ->).
    apply call_op_inv in E1 as (M1 & K1 & -> & L1). apply call_op_inv in E2 as (M2 & K2 & -> & L2).
    apply call_op_inv in E3 as (M3 & K3 & -> & L3). apply call_op_inv in E4 as (M4 & K4 & -> & L4).
    assert (Lp : length (map2 (bicg_p N edot) b st) = length b) by (apply map2_same; auto).
    rewrite Lp in L1.
    assert (Ls : length (map2 (fun q st => bicg_s N edot (fst q) (snd q) st) (combine b v) st) = length b).
    { apply map2_same; [apply combine_same|]; congruence. }
    rewrite Ls in L3. 
    do 7 eexists. split; [reflexivity|]. do 3 (split; [eassumption|]). split; [exact L1|].
    do 2 (split; [eassumption|]). split; [congruence|]. split; [reflexivity|]. split; [exact Ls|].
    do 2 (split; [eassumption|]). split; [exact L3|]. do 2 (split; [eassumption|]). split; [congruence|].
    cbv zeta. split.
    { apply map2_same; [|exact L]. repeat apply combine_same; congruence. }
    split; [exact H|]. split; [reflexivity|].
    intros i bi si Eb Es.
    destruct (nth_same b phat i bi ltac:(congruence) Eb) as (ph & E1).
    destruct (nth_same b v i bi ltac:(congruence) Eb) as (vi & E2).
    destruct (nth_same b shat i bi ltac:(congruence) Eb) as (shi & E3).
    destruct (nth_same b t i bi ltac:(congruence) Eb) as (ti & E4).
    exists ph, vi, shi, ti. do 4 (split; [assumption|]).
    split; [rewrite map2_nth, Eb, Es; reflexivity|].
    split; [rewrite map2_nth, combine_nth, Eb, E2, Es; reflexivity|].
    rewrite !map2_nth, !combine_nth, !map2_nth, Eb, Es, E1, E2, E3, E4. reflexivity.
  Qed.

  Lemma bicg_exact cfg b more st st' l it :
    length st = length b -> counted it st ->
    bicg_loop N rsum edot matvec minv cfg b more st = (Ok st', l) ->
    exists k, counted (it + k) st' /\ mats l = 2 * k /\ pres l = 2 * k /\ k <= more /\ length st' = length b /\
      (all_done st' = true \/ k = more).
  Proof.
    clear tri. revert st it l. induction more as [|more IH]; intros st it l L C H.
    { cbn in H. injection H as <- <-. exists 0. rewrite Nat.add_0_r. cbn. auto 10. }
    destruct (all_done st) eqn:D.
    { cbn [bicg_loop] in H. rewrite D in H. injection H as <- <-. exists 0.
      rewrite Nat.add_0_r. cbn. repeat split; auto; try lia; apply C. }
    destruct (bicg_iter cfg b more st st' l L D H)
      as (p & phat & v & s & shat & t & l' & _ & _ & _ & _ & _ & _ & _ & _ & _ & _ & _ & _ & _ & _ & _ & _ & HH).
    cbv zeta in HH. destruct HH as (L1 & R & -> & Hn).
    set (st1 := map2 _ _ st) in *. clearbody st1.
    destruct C as [C1 C2].
    assert (Cn : counted (S it) st1).
    { split.
      - apply nth_forall. intros i s1 E1.
        destruct (nth_same st1 b i s1 ltac:(congruence) E1) as (bi & Eb).
        destruct (nth_same st1 st i s1 ltac:(congruence) E1) as (si & Es).
        destruct (Hn i bi si Eb Es) as (ph & vi & shi & ti & _ & _ & _ & _ & _ & _ & E).
        rewrite E in E1. injection E1 as <-.
        pose proof (forall_nth _ _ _ _ C1 Es) as [I1 I2].
        unfold bicg_update. destruct (br_done si) eqn:Di; [rewrite Di; split; [lia|discriminate]|].
        cbn [br_iters br_done]. rewrite I2; auto.
      - right. destruct (forallb_nth _ _ D) as (i & si & Es & Di).
        destruct (nth_same st b i si L Es) as (bi & Eb).
        destruct (Hn i bi si Eb Es) as (ph & vi & shi & ti & _ & _ & _ & _ & _ & _ & E).
        eapply nth_exists; [exact E|]. unfold bicg_update. rewrite Di. cbn [br_iters].
        pose proof (forall_nth _ _ _ _ C1 Es) as [I1 I2]. rewrite I2; auto. }
    destruct (IH st1 (S it) l' L1 Cn R) as (k & K1 & K2 & K3 & K4 & K5 & K6).
    exists (S k). rewrite Nat.add_succ_r. split; [exact K1|].
    rewrite mats_app, pres_app, K2, K3. cbn [mats pres filter length].
    repeat split; try lia; auto.
  Qed.

  Lemma counted_start cfg b : counted 0 (map (bicg_start N rsum cfg) b).
  Proof.
    split; [|auto]. apply Forall_forall. intros s (x & <- & _)%in_map_iff. cbn. auto.
  Qed.

  Lemma counted_max it st : st <> [] -> counted it st -> max_of (map br_iters st) = it.
  Proof.
    intros E [C1 C2].
    assert (H : max_of (map br_iters st) <= it).
    { apply max_of_le. rewrite Forall_map. eapply Forall_impl; [|exact C1]. cbn. intuition. }
    destruct C2 as [->|C2]; [lia|].
    assert (it <= max_of (map br_iters st)); [|lia].
    apply max_of_ge. rewrite Exists_map. exact C2.
  Qed.

  Lemma finish_inv (x : list (list V)) it d res :
    finish x it d = Ok res -> it <> [] /\ kr_du res = x /\ kr_iters res = max_of it /\ kr_converged res = d.
  Proof. destruct it; [discriminate|]. cbn [finish]. intros H. injection H as <-. cbn. repeat split; auto. discriminate. Qed.

  Lemma bicgstab_exact b cfg res l :
    bicgstab N rsum edot matvec minv b cfg = (Ok res, l) ->
    exists st', kr_du res = map br_x st' /\ kr_converged res = map br_done st' /\ length st' = length b /\
      bicg_loop N rsum edot matvec minv cfg b (Z.to_nat (k_max_its cfg)) (map (bicg_start N rsum cfg) b) = (Ok st', l) /\
      mats l = 2 * kr_iters res /\ pres l = 2 * kr_iters res /\ kr_iters res <= Z.to_nat (k_max_its cfg) /\
      (all_done st' = true \/ kr_iters res = Z.to_nat (k_max_its cfg)).
  Proof.
    clear tri. unfold bicgstab. intros H. apply kbind_inv in H as (st' & l1 & l2 & E & H & ->).
    assert (F : finish (map br_x st') (map br_iters st') (map br_done st') = Ok res) by congruence.
    assert (l2 = []) by congruence. subst l2. rewrite app_nil_r.
    apply finish_inv in F as (F0 & F1 & F2 & F3).
    destruct (bicg_exact cfg b _ _ _ _ 0 (map_length _ _) (counted_start cfg b) E) as (k & K1 & K2 & K3 & K4 & K5 & K6).
    cbn [Nat.add] in K1.
    assert (F4 : kr_iters res = k).
    { rewrite F2. apply counted_max; [|exact K1]. intros ->. apply F0. reflexivity. }
    exists st'. rewrite F4. repeat split; auto.
  Qed.

  (** ** GMRES *)
  Definition gcounted (it : nat) (st : list (grow V)) : Prop :=
    Forall (fun s => gr_iters s <= it /\ (gr_done s = false -> gr_iters s = it)) st /\
    (it = 0 \/ Exists (fun s => it = gr_iters s) st).
  (** Within a cycle a row that is not done is active. *)
  Definition gactive (st : list (grow V)) : Prop := Forall (fun s => gr_done s = false -> gr_active s = true) st.

  Lemma gmres_col cfg b more st st' l :
    length st = length b ->
    gmres_cycle N rsum edot matvec minv cfg b (S more) st = (Ok st', l) ->
    exists av w l',
      matvec (map (fun s => last_v (gr_arn s)) st) = Ok av /\ like (map (fun s => last_v (gr_arn s)) st) av = true /\
      minv av = Ok w /\ like av w = true /\ length av = length b /\ length w = length b /\
      let st1 := map2 (fun q s => gmres_column N rsum edot cfg (fst q) (snd q) s) (combine b w) st in
      length st1 = length b /\
      (if forallb gr_done st1 then kret st1 else gmres_cycle N rsum edot matvec minv cfg b more st1) = (Ok st', l') /\
      l = [CMat (map (fun s => last_v (gr_arn s)) st); CPre av] ++ l' /\
      (forall i bi si, nth_error b i = Some bi -> nth_error st i = Some si ->
        exists ai wi, nth_error av i = Some ai /\ nth_error w i = Some wi /\
          nth_error st1 i = Some (gmres_column N rsum edot cfg bi wi si)).
  Proof.
    intros L H. cbn [gmres_cycle] in H.
    apply kbind_inv in H as (av & l1 & k1 & E1 & H & ->).
    apply kbind_inv in H as (w & l2 & k2 & E2 & H & ->).
    apply call_op_inv in E1 as (M1 & K1 & -> & L1). apply call_op_inv in E2 as (M2 & K2 & -> & L2).
    rewrite map_length in L1.
    exists av, w, k2. do 4 (split; [assumption|]). split; [congruence|]. split; [congruence|].
    cbv zeta. split; [apply map2_same; [apply combine_same|]; congruence|].
    split; [exact H|]. split; [reflexivity|].
    intros i bi si Eb Es.
    destruct (nth_same b av i bi ltac:(congruence) Eb) as (ai & Ea).
    destruct (nth_same b w i bi ltac:(congruence) Eb) as (wi & Ew).
    exists ai, wi. split; [exact Ea|]. split; [exact Ew|].
    rewrite map2_nth, combine_nth, Eb, Ew, Es. reflexivity.
  Qed.

  Lemma gmres_cycle_exact cfg b more st st' l it :
    length st = length b -> gcounted it st -> gactive st -> forallb gr_done st = false ->
    gmres_cycle N rsum edot matvec minv cfg b more st = (Ok st', l) ->
    exists k, gcounted (it + k) st' /\ gactive st' /\ mats l = k /\ pres l = k /\ k <= more /\ length st' = length b /\
      (forallb gr_done st' = true \/ (k = more /\ forallb gr_done st' = false)).
  Proof.
    revert st it l. induction more as [|more IH]; intros st it l L C A D H.
    { cbn in H. injection H as <- <-. exists 0. rewrite Nat.add_0_r. cbn. auto 10. }
    destruct (gmres_col cfg b more st st' l L H) as (av & w & l' & _ & _ & _ & _ & _ & _ & HH).
    cbv zeta in HH. destruct HH as (L1 & R & -> & Hn).
    set (st1 := map2 _ _ st) in *. clearbody st1.
    destruct C as [C1 C2].
    assert (Cn : gcounted (S it) st1).
    { split.
      - apply nth_forall. intros i s1 E1.
        destruct (nth_same st1 b i s1 ltac:(congruence) E1) as (bi & Eb).
        destruct (nth_same st1 st i s1 ltac:(congruence) E1) as (si & Es).
        destruct (Hn i bi si Eb Es) as (ai & wi & _ & _ & E). rewrite E in E1. injection E1 as <-.
        pose proof (forall_nth _ _ _ _ C1 Es) as [I1 I2].
        pose proof (forall_nth _ _ _ _ A Es) as Ai. cbn beta in Ai.
        cbn [gmres_column gmres_test gr_iters gr_done gr_active gr_arn].
        destruct (gr_done si); cbn [negb andb orb].
        + rewrite andb_false_r. split; [lia|discriminate].
        + rewrite Ai by reflexivity. cbn [andb]. rewrite I2 by reflexivity. auto.
      - right. destruct (forallb_nth _ _ D) as (i & si & Es & Di).
        destruct (nth_same st b i si L Es) as (bi & Eb).
        destruct (Hn i bi si Eb Es) as (ai & wi & _ & _ & E).
        eapply nth_exists; [exact E|].
        pose proof (forall_nth _ _ _ _ C1 Es) as [I1 I2].
        pose proof (forall_nth _ _ _ _ A Es) as Ai. cbn beta in Ai.
        cbn [gmres_column gmres_test gr_iters gr_done gr_active gr_arn].
        rewrite Di, Ai by exact Di. cbn [andb negb]. rewrite I2; auto. }
    assert (An : gactive st1).
    { apply nth_forall. intros i s1 E1.
      destruct (nth_same st1 b i s1 ltac:(congruence) E1) as (bi & Eb).
      destruct (nth_same st1 st i s1 ltac:(congruence) E1) as (si & Es).
      destruct (Hn i bi si Eb Es) as (ai & wi & _ & _ & E). rewrite E in E1. injection E1 as <-.
      pose proof (forall_nth _ _ _ _ A Es) as Ai. cbn beta in Ai.
      cbn [gmres_column gmres_test gr_iters gr_done gr_active gr_arn].
      intros Q. apply orb_false_elim in Q as [Q _]. auto. }
    destruct (forallb gr_done st1) eqn:D1.
    - injection R as <- <-. exists 1. rewrite Nat.add_1_r. cbn [mats pres filter length app].
      repeat split; auto; try lia; apply Cn.
    - destruct (IH st1 (S it) l' L1 Cn An D1 R) as (k & K1 & K2 & K3 & K4 & K5 & K6 & K7).
      exists (S k). rewrite Nat.add_succ_r. split; [exact K1|]. split; [exact K2|].
      rewrite mats_app, pres_app, K3, K4. cbn [mats pres filter length].
      repeat split; try lia; auto.
  Qed.

  Lemma gmres_begin_step cfg b first st r l :
    length st = length b ->
    gmres_residual N matvec minv b first st = (Ok r, l) ->
    length r = length b /\ mats l = (if first then 0 else 1) /\ pres l = 1 /\
    let st1 := map2 (fun q s => gmres_begin N rsum cfg (fst q) (snd q) s) (combine b r) st in
    length st1 = length b /\ gactive st1 /\
    (forall it, gcounted it st -> gcounted it st1) /\
    (forall i bi si, nth_error b i = Some bi -> nth_error st i = Some si ->
       exists ri, nth_error r i = Some ri /\ nth_error st1 i = Some (gmres_begin N rsum cfg bi ri si)).
  Proof.
    intros L H.
    assert (HR : length r = length b /\ mats l = (if first then 0 else 1) /\ pres l = 1).
    { destruct first; cbn [gmres_residual] in H.
      - apply call_op_inv in H as (_ & _ & -> & Lr). auto.
      - apply kbind_inv in H as (ax & l1 & l2 & E & H & ->).
        apply call_op_inv in E as (_ & _ & -> & La). apply call_op_inv in H as (_ & _ & -> & Lr).
        rewrite map_length in La. rewrite Lr. split; [apply map2_same; congruence|auto]. }
    destruct HR as (Lr & HM & HP). do 3 (split; [assumption|]). cbv zeta.
    assert (L1 : length (map2 (fun q s => gmres_begin N rsum cfg (fst q) (snd q) s) (combine b r) st) = length b).
    { apply map2_same; [apply combine_same|]; congruence. }
    split; [exact L1|].
    assert (Hn : forall i bi si, nth_error b i = Some bi -> nth_error st i = Some si ->
       exists ri, nth_error r i = Some ri /\
         nth_error (map2 (fun q s => gmres_begin N rsum cfg (fst q) (snd q) s) (combine b r) st) i
         = Some (gmres_begin N rsum cfg bi ri si)).
    { intros i bi si Eb Es. destruct (nth_same b r i bi ltac:(congruence) Eb) as (ri & Er).
      exists ri. split; [exact Er|]. rewrite map2_nth, combine_nth, Eb, Er, Es. reflexivity. }
    set (st1 := map2 _ _ st) in *. clearbody st1.
    split; [|split; [|exact Hn]].
    - apply nth_forall. intros i s1 E1.
      destruct (nth_same st1 b i s1 ltac:(congruence) E1) as (bi & Eb).
      destruct (nth_same st1 st i s1 ltac:(congruence) E1) as (si & Es).
      destruct (Hn i bi si Eb Es) as (ri & _ & E). rewrite E in E1. injection E1 as <-.
      cbn [gmres_begin gr_done gr_active]. intros ->. reflexivity.
    - intros it [C1 C2]. split.
      + apply nth_forall. intros i s1 E1.
        destruct (nth_same st1 b i s1 ltac:(congruence) E1) as (bi & Eb).
        destruct (nth_same st1 st i s1 ltac:(congruence) E1) as (si & Es).
        destruct (Hn i bi si Eb Es) as (ri & _ & E). rewrite E in E1. injection E1 as <-.
        pose proof (forall_nth _ _ _ _ C1 Es) as [I1 I2].
        cbn [gmres_begin gr_done gr_active gr_iters]. split; [exact I1|].
        intros Q. apply orb_false_elim in Q as [Q _]. auto.
      + destruct C2 as [->|C2]; [auto|]. right.
        apply Exists_exists in C2 as (si & Es & Ei). apply In_nth_error in Es as (i & Es).
        destruct (nth_same st b i si L Es) as (bi & Eb).
        destruct (Hn i bi si Eb Es) as (ri & _ & E). eapply nth_exists; [exact E|exact Ei].
  Qed.

  (** [c] cycles begun, [k] iterations in all. *)
  Lemma gmres_loop_exact cfg b m first cycles st st' l it :
    length st = length b -> gcounted it st -> 1 <= m ->
    gmres_loop N rsum edot tri matvec minv cfg b m first cycles st = (Ok st', l) ->
    exists k c, gcounted (it + k) st' /\ length st' = length b /\
      mats l = k + (if first then c - 1 else c) /\ pres l = k + c /\ c <= cycles /\ (cycles <> 0 -> c <> 0) /\
      k <= c * m /\ (forallb gr_done st' = true \/ (k = cycles * m /\ c = cycles)).
  Proof.
    revert first st it l. induction cycles as [|cycles IH]; intros first st it l L C Hm H.
    { cbn in H. injection H as <- <-. exists 0, 0. rewrite Nat.add_0_r. cbn.
      repeat split; auto; try apply C; destruct first; auto. }
    cbn [gmres_loop] in H.
    apply kbind_inv in H as (r & l1 & l2 & E & H & ->).
    destruct (gmres_begin_step cfg b first st r l1 L E) as (Lr & M1 & P1 & HH). cbv zeta in HH.
    destruct HH as (L1 & A1 & C1 & _). cbv zeta in H.
    set (st1 := map2 _ _ st) in *. clearbody st1. specialize (C1 it C).
    destruct (forallb gr_done st1) eqn:D.
    { injection H as <- <-. exists 0, 1. rewrite Nat.add_0_r, app_nil_r, M1, P1.
      repeat split; try apply C1; auto; try lia. }
    apply kbind_inv in H as (st2 & l3 & l4 & E2 & H & ->).
    destruct (gmres_cycle_exact cfg b m st1 st2 l3 it L1 C1 A1 D E2) as (k & K1 & K2 & K3 & K4 & K5 & K6 & K7).
    assert (C2 : gcounted (it + k) (map (gmres_correct N edot tri) st2)).
    { destruct K1 as [I1 I2]. split; [rewrite Forall_map; exact I1|].
      destruct I2 as [I2|I2]; [auto|right; rewrite Exists_map; exact I2]. }
    destruct (IH false (map (gmres_correct N edot tri) st2) (it + k) l4) as (k' & c & J1 & J2 & J3 & J4 & J5 & J6 & J7 & J8); auto.
    { rewrite map_length. exact K6. }
    exists (k + k'), (S c). rewrite Nat.add_assoc. split; [exact J1|]. split; [exact J2|].
    rewrite !mats_app, !pres_app, M1, P1, K3, K4, J3, J4.
    split; [destruct first; lia|]. split; [lia|]. split; [lia|]. split; [lia|]. split; [nia|].
    destruct J8 as [J8|[J8 J9]]; [auto|].
    destruct K7 as [K7|[K7 K8]].
    - (* the cycle ended because all rows are done: the next one only tests *)
      left. clear IH. revert H. 
      assert (Hd : forallb gr_done (map (gmres_correct N edot tri) st2) = true).
      { rewrite forallb_forall in K7 |- *. intros s (s2 & <- & I)%in_map_iff. cbn [gmres_correct gr_done]. auto. }
      destruct cycles as [|cycles]; cbn [gmres_loop]; intros H.
      { injection H as <- _. exact Hd. }
      apply kbind_inv in H as (r' & l5 & l6 & E3 & H & _).
      destruct (gmres_begin_step cfg b false (map (gmres_correct N edot tri) st2) r' l5) as (_ & _ & _ & HH); auto.
      { rewrite map_length. exact K6. }
      cbv zeta in HH, H. destruct HH as (L3 & _ & _ & Hn).
      set (st3 := map2 _ _ (map _ st2)) in *. clearbody st3.
      assert (D3 : forallb gr_done st3 = true).
      { apply forallb_forall. intros s I. apply In_nth_error in I as (i & Ei).
        destruct (nth_same st3 b i s ltac:(congruence) Ei) as (bi & Eb).
        destruct (nth_same st3 (map (gmres_correct N edot tri) st2) i s ltac:(rewrite map_length; congruence) Ei) as (si & Es).
        destruct (Hn i bi si Eb Es) as (ri & _ & E4). rewrite E4 in Ei. injection Ei as <-.
        cbn [gmres_begin gr_done]. rewrite forallb_forall in Hd. rewrite (Hd si (nth_error_In _ _ Es)). reflexivity. }
      rewrite D3 in H. injection H as <- _. exact D3.
    - right. split; [|lia]. rewrite J8, K7. lia.
  Qed.

  Lemma gcounted_start b : gcounted 0 (map (gmres_start N) b).
  Proof. split; [|auto]. apply Forall_forall. intros s (x & <- & _)%in_map_iff. cbn. auto. Qed.

  Lemma gcounted_max it st : st <> [] -> gcounted it st -> max_of (map gr_iters st) = it.
  Proof.
    intros E [C1 C2].
    assert (H : max_of (map gr_iters st) <= it).
    { apply max_of_le. rewrite Forall_map. eapply Forall_impl; [|exact C1]. cbn. intuition. }
    destruct C2 as [->|C2]; [lia|].
    assert (it <= max_of (map gr_iters st)); [|lia].
    apply max_of_ge. rewrite Exists_map. exact C2.
  Qed.

  Lemma gmres_exact b cfg res l :
    (0 < k_restart cfg)%Z ->
    gmres N rsum edot tri matvec minv b cfg = (Ok res, l) ->
    let m := Z.to_nat (k_restart cfg) in
    exists cycles st' c, cycles_of cfg = Ok cycles /\
      gmres_loop N rsum edot tri matvec minv cfg b m true (Z.to_nat cycles) (map (gmres_start N) b) = (Ok st', l) /\
      kr_du res = map gr_x st' /\ kr_converged res = map gr_done st' /\ length st' = length b /\
      mats l = kr_iters res + (c - 1) /\ pres l = kr_iters res + c /\ c <= Z.to_nat cycles /\
      (Z.to_nat cycles <> 0 -> c <> 0) /\ kr_iters res <= c * m /\
      (forallb gr_done st' = true \/ (kr_iters res = Z.to_nat cycles * m /\ c = Z.to_nat cycles)).
  Proof.
    intros Hm H m. unfold gmres in H.
    apply kbind_inv in H as (cycles & l1 & l2 & E & H & ->).
    assert (Ec : cycles_of cfg = Ok cycles) by congruence. assert (l1 = []) by congruence. subst l1. cbn [app].
    cbv zeta in H. destruct (Z.ltb_spec (k_restart cfg) 0); [lia|]. cbn [andb] in H.
    apply kbind_inv in H as (st' & l3 & l4 & El & H & ->).
    assert (F : finish (map gr_x st') (map gr_iters st') (map gr_done st') = Ok res) by congruence.
    assert (l4 = []) by congruence. subst l4. rewrite app_nil_r.
    apply finish_inv in F as (F0 & F1 & F2 & F3).
    destruct (gmres_loop_exact cfg b m true (Z.to_nat cycles) (map (gmres_start N) b) st' l3 0) as (k & c & K1 & K2 & K3 & K4 & K5 & K6 & K7 & K8); auto.
    { apply map_length. } { apply gcounted_start. } { subst m. lia. }
    cbn [Nat.add] in K1.
    assert (F4 : kr_iters res = k).
    { rewrite F2. apply gcounted_max; [|exact K1]. intros ->. apply F0. reflexivity. }
    exists cycles, st', c. rewrite F4. auto 20.
  Qed.
End Exact.
