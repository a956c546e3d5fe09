(** Rows of a Krylov solve: it returns, and how its rows are related. *)
From Verif Require Import Base BaseProofs Newton Krylov SpecKrylov KrylovProofs KrylovCostProofs.

Lemma sheet_like {V} rows n (x y : list (list V)) : sheet rows n x -> sheet rows n y -> like x y = true.
Proof.
  intros [Lx Fx] [Ly Fy]. unfold like.
  replace (map (@length V) y) with (map (@length V) x); [apply sizes_eqb_refl|].
  assert (R : forall z, length z = rows -> Forall (fun r : list V => length r = n) z -> map (@length V) z = repeat n rows).
  { clear. intros z <- H. induction H as [|r z Hr _ IH]; [reflexivity|]. cbn. rewrite Hr, IH. reflexivity. }
  rewrite (R x), (R y); auto.
Qed.

Lemma sheet_row {V} rows n (x : list (list V)) i r : sheet rows n x -> nth_error x i = Some r -> length r = n.
Proof. intros [_ H]. apply (forall_nth (fun r => length r = n) x i r H). Qed.

Lemma per_row_sheets {V} n (fs : list (list V -> list V)) :
  Forall (keeps_width n) fs -> answers_sheets (length fs) n (per_row fs).
Proof.
  intros H x [L F]. unfold per_row. rewrite L, Nat.eqb_refl. eexists. split; [reflexivity|].
  split; [apply map2_same; auto|]. apply nth_forall. intros i r E. rewrite map2_nth in E.
  destruct (nth_error fs i) as [f|] eqn:Ef; [|discriminate].
  destruct (nth_error x i) as [v|] eqn:Ev; [|discriminate]. injection E as <-.
  apply (forall_nth _ _ _ _ H Ef). exact (forall_nth _ _ _ _ F Ev).
Qed.

Lemma per_row_nth {V} (fs : list (list V -> list V)) x y i f v :
  per_row fs x = Ok y -> nth_error fs i = Some f -> nth_error x i = Some v -> nth_error y i = Some (f v).
Proof.
  unfold per_row. destruct (Nat.eqb _ _); [|discriminate]. intros H Ef Ev. injection H as <-.
  rewrite map2_nth, Ef, Ev. reflexivity.
Qed.

Lemma per_row_acts {V} (fs : list (list V -> list V)) i f : nth_error fs i = Some f -> acts_on i f (per_row fs).
Proof. intros E x y v H Ev. eapply per_row_nth; eauto. Qed.

Lemma call_sheet {V} rows n f c (x : list (list V)) :
  answers_sheets rows n f -> sheet rows n x -> exists y, call_op f c x = (Ok y, [c]) /\ sheet rows n y.
Proof.
  intros H S. destruct (H x S) as (y & E & Sy). exists y. split; [|exact Sy].
  unfold call_op. rewrite E. cbn. rewrite (sheet_like rows n); auto.
Qed.

Lemma kbind_ok {V A B} (x : kio V A) (f : A -> kio V B) a l :
  x = (Ok a, l) -> kbind x f = (fst (f a), l ++ snd (f a)).
Proof. intros ->. cbn [kbind]. destruct (f a). reflexivity. Qed.

Lemma kbind_fst {V A B} (x : kio V A) (f : A -> kio V B) a l r :
  x = (Ok a, l) -> fst (f a) = Ok r -> fst (kbind x f) = Ok r.
Proof. intros -> E. rewrite (kbind_ok _ _ a l); auto. Qed.

Section Rows.
  Context {V : Type}.
  Variable N : num V.
  Variable rsum : list V -> V.
  Variable edot : list V -> list V -> V.
  Variable tri : list (list V) -> list V -> list V.
  Notation vec := (list V).

  Lemma vadd_len a b n : length a = n -> length b = n -> length (vadd N a b) = n.
  Proof. apply map2_same. Qed.
  Lemma vsub_len a b n : length a = n -> length b = n -> length (vsub N a b) = n.
  Proof. apply map2_same. Qed.
  Lemma vscale_len a b n : length b = n -> length (vscale N a b) = n.
  Proof. intros <-. apply map_length. Qed.

  (** ** Solves return *)
  Definition brow_ok (n : nat) (s : brow V) : Prop :=
    length (br_x s) = n /\ length (br_r s) = n /\ length (br_p s) = n /\ length (br_v s) = n.

  Lemma bicg_p_len n b s : length b = n -> brow_ok n s -> length (bicg_p N edot b s) = n.
  Proof. intros L (X & R & P & W). apply vadd_len; auto. apply vscale_len, vsub_len; auto. apply vscale_len; auto. Qed.
  Lemma bicg_s_len n b v s : length v = n -> brow_ok n s -> length (bicg_s N edot b v s) = n.
  Proof. intros L (X & R & P & W). apply vsub_len; auto. apply vscale_len; auto. Qed.
  Lemma bicg_update_ok n cfg b p ph v sh t s :
    length p = n -> length ph = n -> length v = n -> length sh = n -> length t = n -> brow_ok n s ->
    brow_ok n (bicg_update N rsum edot cfg b p ph v sh t s).
  Proof.
    intros Lp Lph Lv Lsh Lt Hs. unfold bicg_update. destruct (br_done s); [exact Hs|].
    pose proof Hs as (X & R & P & W). repeat split; cbn; auto.
    - apply vadd_len; [apply vadd_len|]; auto using vscale_len.
    - apply vsub_len; auto using vscale_len. apply bicg_s_len; auto.
  Qed.

  Section Returns.
    Variable rows n : nat.
    Variable matvec minv : list vec -> result (list vec).
    Hypothesis HA : answers_sheets rows n matvec.
    Hypothesis HM : answers_sheets rows n minv.

    Lemma sheet_map2 {A} (f : vec -> A -> vec) (P : A -> Prop) b st :
      sheet rows n b -> length st = rows -> Forall P st -> (forall x a, length x = n -> P a -> length (f x a) = n) ->
      sheet rows n (map2 f b st).
    Proof using.
      intros [L F] Ls Fs H. split; [apply map2_same; congruence|]. apply nth_forall. intros i r E.
      rewrite map2_nth in E. destruct (nth_error b i) as [x|] eqn:Eb; [|discriminate].
      destruct (nth_error st i) as [a|] eqn:Es; [|discriminate]. injection E as <-.
      apply H; [exact (forall_nth _ _ _ _ F Eb)|exact (forall_nth _ _ _ _ Fs Es)].
    Qed.

    Lemma bicg_returns cfg b more st :
      sheet rows n b -> length st = rows -> Forall (brow_ok n) st ->
      exists st', fst (bicg_loop N rsum edot matvec minv cfg b more st) = Ok st' /\ length st' = rows.
    Proof using HA HM.
      intros Hb. revert st. induction more as [|more IH]; intros st L F; [cbn; eauto|].
      cbn [bicg_loop]. destruct (all_done st); [cbn; eauto|].
      assert (Sp : sheet rows n (map2 (bicg_p N edot) b st)).
      { eapply sheet_map2; eauto. intros x a. apply bicg_p_len. }
      destruct (call_sheet rows n minv (CPre (map2 (bicg_p N edot) b st)) _ HM Sp) as (ph & E1 & Sph).
      destruct (call_sheet rows n matvec (CMat ph) _ HA Sph) as (v & E2 & Sv).
      set (s := map2 (fun q st => bicg_s N edot (fst q) (snd q) st) (combine b v) st).
      assert (Ss : sheet rows n s).
      { split; [apply map2_same; [apply combine_same|]; try apply Hb; try apply Sv; auto|].
        apply nth_forall. intros i r E. unfold s in E. rewrite map2_nth, combine_nth in E.
        destruct (nth_error b i) as [x|] eqn:Eb; [|discriminate].
        destruct (nth_error v i) as [vi|] eqn:Ev; [|discriminate].
        destruct (nth_error st i) as [a|] eqn:Es; [|discriminate]. injection E as <-.
        apply bicg_s_len; [exact (sheet_row _ _ _ _ _ Sv Ev)|exact (forall_nth _ _ _ _ F Es)]. }
      destruct (call_sheet rows n minv (CPre s) _ HM Ss) as (sh & E3 & Ssh).
      destruct (call_sheet rows n matvec (CMat sh) _ HA Ssh) as (t & E4 & St).
      set (st1 := map2 (fun q st => bicg_update N rsum edot cfg (fst (fst q)) (fst (snd (fst q))) (snd (snd (fst q)))
                                           (fst (fst (snd q))) (snd (fst (snd q))) (snd (snd q)) st)
                  (combine (combine b (combine (map2 (bicg_p N edot) b st) ph)) (combine (combine v sh) t)) st).
      destruct (IH st1) as (st' & E & L').
      { apply map2_same; [|exact L].
        repeat apply combine_same; try apply Hb; try apply Sp; try apply Sph; try apply Sv; try apply Ssh; apply St. }
      { apply nth_forall. intros i s1 E. unfold st1 in E. rewrite map2_nth, !combine_nth in E.
        destruct (nth_error b i) as [x|] eqn:Eb; [|discriminate].
        destruct (nth_error (map2 (bicg_p N edot) b st) i) as [pi|] eqn:Ep; [|discriminate].
        destruct (nth_error ph i) as [phi|] eqn:Eph; [|discriminate].
        destruct (nth_error v i) as [vi|] eqn:Ev; [|discriminate].
        destruct (nth_error sh i) as [shi|] eqn:Esh; [|discriminate].
        destruct (nth_error t i) as [ti|] eqn:Et; [|discriminate].
        destruct (nth_error st i) as [a|] eqn:Es; [|discriminate]. injection E as <-.
        apply bicg_update_ok; [exact (sheet_row _ _ _ _ _ Sp Ep)|exact (sheet_row _ _ _ _ _ Sph Eph)|exact (sheet_row _ _ _ _ _ Sv Ev)
          |exact (sheet_row _ _ _ _ _ Ssh Esh)|exact (sheet_row _ _ _ _ _ St Et)|exact (forall_nth _ _ _ _ F Es)]. }
      exists st'. split; [|exact L'].
      eapply kbind_fst; [exact E1|]. eapply kbind_fst; [exact E2|]. fold s.
      eapply kbind_fst; [exact E3|]. eapply kbind_fst; [exact E4|]. exact E.
    Qed.

    Lemma bicg_start_ok cfg b : sheet rows n b -> Forall (brow_ok n) (map (bicg_start N rsum cfg) b).
    Proof using.
      intros [L F]. rewrite Forall_map. eapply Forall_impl; [|exact F]. intros x Lx. cbn in Lx.
      repeat split; cbn; auto; unfold zeros; rewrite map_length; auto.
    Qed.

    Lemma bicgstab_returns b cfg : 0 < rows -> sheet rows n b ->
      exists res l, bicgstab N rsum edot matvec minv b cfg = (Ok res, l).
    Proof using HA HM.
      clear tri. intros H0 Hb.
      destruct (bicg_returns cfg b (Z.to_nat (k_max_its cfg)) (map (bicg_start N rsum cfg) b)) as (st' & E & L); auto.
      { rewrite map_length. apply Hb. } { apply bicg_start_ok. exact Hb. }
      unfold bicgstab. destruct (bicg_loop _ _ _ _ _ _ _ _ _) as [r l]. cbn in E. subst r. cbn [kbind].
      destruct st' as [|s st']; [cbn in L; lia|]. cbn. eauto.
    Qed.

    Definition arn_ok (a : arnoldi V) : Prop := ar_vs a <> [] /\ Forall (fun v => length v = n) (ar_vs a).
    Definition grow_ok (s : grow V) : Prop := length (gr_x s) = n /\ arn_ok (gr_arn s).

    Lemma last_in {A} (l : list A) d : l <> [] -> In (last l d) l.
    Proof using.
      clear. induction l as [|x l IH]; [contradiction|]. intros _. destruct l as [|y l]; [left; reflexivity|].
      right. apply IH. discriminate.
    Qed.
    Lemma last_v_len a : arn_ok a -> length (last_v a) = n.
    Proof using. intros [H F]. rewrite Forall_forall in F. apply F. apply last_in. exact H. Qed.

    Lemma combination_len h vs w : length (combination edot h vs w) = length w.
    Proof using. unfold combination. rewrite map_length, seq_length. reflexivity. Qed.
    Lemma project_len vs w : length (snd (project N edot vs w)) = length w.
    Proof using. cbn. apply vsub_len; [reflexivity|]. apply combination_len. Qed.

    Lemma arnoldi_step_ok w a : length w = n -> arn_ok a -> arn_ok (arnoldi_step N rsum edot w a).
    Proof using.
      intros L [H F]. unfold arnoldi_step.
      pose proof (project_len (ar_vs a) w) as L1. destruct (project N edot (ar_vs a) w) as [h1 w1] eqn:E1. cbn [snd] in L1.
      pose proof (project_len (ar_vs a) w1) as L2. destruct (project N edot (ar_vs a) w1) as [h2 w2] eqn:E2. cbn [snd] in L2.
      split; cbn [ar_vs].
      - destruct (ar_vs a); discriminate.
      - apply Forall_app. split; [exact F|]. constructor; [|constructor]. rewrite map_length. congruence.
    Qed.

    Lemma gmres_cycle_returns cfg b more st :
      sheet rows n b -> length st = rows -> Forall grow_ok st ->
      exists st', fst (gmres_cycle N rsum edot matvec minv cfg b more st) = Ok st' /\ length st' = rows /\ Forall grow_ok st'.
    Proof using HA HM.
      intros Hb. revert st. induction more as [|more IH]; intros st L F; [cbn; eauto|].
      cbn [gmres_cycle].
      assert (Sv : sheet rows n (map (fun s => last_v (gr_arn s)) st)).
      { split; [rewrite map_length; exact L|]. rewrite Forall_map. eapply Forall_impl; [|exact F].
        intros s [_ Hs]. apply last_v_len. exact Hs. }
      destruct (call_sheet rows n matvec (CMat (map (fun s => last_v (gr_arn s)) st)) _ HA Sv) as (av & E1 & Sav).
      destruct (call_sheet rows n minv (CPre av) _ HM Sav) as (w & E2 & Sw).
      set (st1 := map2 (fun q s => gmres_column N rsum edot cfg (fst q) (snd q) s) (combine b w) st).
      assert (L1 : length st1 = rows).
      { apply map2_same; [apply combine_same|]; try apply Hb; try apply Sw; auto. }
      assert (F1 : Forall grow_ok st1).
      { apply nth_forall. intros i s1 E. unfold st1 in E. rewrite map2_nth, combine_nth in E.
        destruct (nth_error b i) as [x|] eqn:Eb; [|discriminate].
        destruct (nth_error w i) as [wi|] eqn:Ew; [|discriminate].
        destruct (nth_error st i) as [a|] eqn:Es; [|discriminate]. injection E as <-.
        destruct (forall_nth _ _ _ _ F Es) as [Lx Ha]. split; cbn [gmres_column gmres_test gr_x gr_arn fst snd]; [exact Lx|].
        apply arnoldi_step_ok; [exact (sheet_row _ _ _ _ _ Sw Ew)|exact Ha]. }
      assert (R : exists st', fst (if forallb gr_done st1 then kret st1 else gmres_cycle N rsum edot matvec minv cfg b more st1) = Ok st'
                              /\ length st' = rows /\ Forall grow_ok st').
      { destruct (forallb gr_done st1); [cbn; eauto|]. apply IH; auto. }
      destruct R as (st' & E & L' & F'). exists st'. split; [|auto].
      eapply kbind_fst; [exact E1|]. eapply kbind_fst; [exact E2|]. exact E.
    Qed.

    Lemma gmres_residual_returns b first st :
      sheet rows n b -> length st = rows -> Forall (fun s => length (gr_x s) = n) st ->
      exists r, fst (gmres_residual N matvec minv b first st) = Ok r /\ sheet rows n r.
    Proof using HA HM.
      intros Hb L F. destruct first; cbn [gmres_residual].
      - destruct (call_sheet rows n minv (CPre b) _ HM Hb) as (r & E & Sr). exists r. unfold apply_m. rewrite E. auto.
      - assert (Sx : sheet rows n (map gr_x st)) by (split; [rewrite map_length; exact L|rewrite Forall_map; exact F]).
        destruct (call_sheet rows n matvec (CMat (map gr_x st)) _ HA Sx) as (ax & E & Sax).
        assert (Sd : sheet rows n (map2 (vsub N) b ax)).
        { eapply sheet_map2; [exact Hb|apply Sax|apply Sax|]. intros x a. apply vsub_len. }
        destruct (call_sheet rows n minv (CPre (map2 (vsub N) b ax)) _ HM Sd) as (r & E2 & Sr).
        exists r. split; [|exact Sr]. eapply kbind_fst; [exact E|]. unfold apply_m. rewrite E2. reflexivity.
    Qed.

    Lemma gmres_begin_ok cfg b r st :
      sheet rows n b -> sheet rows n r -> length st = rows -> Forall (fun s => length (gr_x s) = n) st ->
      let st1 := map2 (fun q s => gmres_begin N rsum cfg (fst q) (snd q) s) (combine b r) st in
      length st1 = rows /\ Forall grow_ok st1.
    Proof using.
      intros Hb Sr L F. cbv zeta. split.
      { apply map2_same; [apply combine_same|]; try apply Hb; try apply Sr; auto. }
      apply nth_forall. intros i s1 E. rewrite map2_nth, combine_nth in E.
      destruct (nth_error b i) as [x|] eqn:Eb; [|discriminate].
      destruct (nth_error r i) as [ri|] eqn:Er; [|discriminate].
      destruct (nth_error st i) as [a|] eqn:Es; [|discriminate]. injection E as <-.
      split; cbn [gmres_begin gr_x gr_arn fst snd].
      - exact (forall_nth _ _ _ _ F Es).
      - split; cbn [ar_vs]; [discriminate|]. constructor; [|constructor]. rewrite map_length. exact (sheet_row _ _ _ _ _ Sr Er).
    Qed.

    Lemma gmres_loop_returns cfg b m first cycles st :
      sheet rows n b -> length st = rows -> Forall (fun s => length (gr_x s) = n) st ->
      exists st', fst (gmres_loop N rsum edot tri matvec minv cfg b m first cycles st) = Ok st' /\ length st' = rows.
    Proof using HA HM.
      intros Hb. revert first st. induction cycles as [|cycles IH]; intros first st L F; [cbn; eauto|].
      cbn [gmres_loop].
      destruct (gmres_residual_returns b first st Hb L F) as (r & E & Sr).
      destruct (gmres_residual N matvec minv b first st) as [r0 l0] eqn:E0. cbn in E. subst r0.
      destruct (gmres_begin_ok cfg b r st Hb Sr L F) as [L1 F1].
      set (st1 := map2 (fun q s => gmres_begin N rsum cfg (fst q) (snd q) s) (combine b r) st) in *.
      destruct (forallb gr_done st1) eqn:D.
      - exists st1. split; [|exact L1]. eapply kbind_fst; [reflexivity|]. cbv zeta. fold st1. rewrite D. reflexivity.
      - destruct (gmres_cycle_returns cfg b m st1 Hb L1 F1) as (st2 & E2 & L2 & F2).
        destruct (gmres_cycle N rsum edot matvec minv cfg b m st1) as [q l2] eqn:E3. cbn in E2. subst q.
        destruct (IH false (map (gmres_correct N edot tri) st2)) as (st' & E4 & L4).
        { rewrite map_length. exact L2. }
        { rewrite Forall_map. eapply Forall_impl; [|exact F2]. intros s [Lx _]. cbn [gmres_correct gr_x].
          apply vadd_len; [exact Lx|]. rewrite combination_len. exact Lx. }
        exists st'. split; [|exact L4]. eapply kbind_fst; [reflexivity|]. cbv zeta. fold st1. rewrite D.
        eapply kbind_fst; [exact E3|]. exact E4.
    Qed.

    Lemma gmres_returns b cfg cycles : 0 < rows -> sheet rows n b ->
      (0 < k_restart cfg)%Z -> cycles_of cfg = Ok cycles ->
      exists res l, gmres N rsum edot tri matvec minv b cfg = (Ok res, l).
    Proof using HA HM.
      intros H0 Hb Hm Hc.
      destruct (gmres_loop_returns cfg b (Z.to_nat (k_restart cfg)) true (Z.to_nat cycles) (map (gmres_start N) b)) as (st' & E & L); auto.
      { rewrite map_length. apply Hb. }
      { rewrite Forall_map. eapply Forall_impl; [|apply Hb]. intros x Lx. cbn in *. unfold zeros. rewrite map_length. exact Lx. }
      unfold gmres. rewrite Hc. cbn [kbind]. cbv zeta. destruct (Z.ltb_spec (k_restart cfg) 0); [lia|]. cbn [andb].
      destruct (gmres_loop _ _ _ _ _ _ _ _ _ _ _ _) as [r l]. cbn in E. subst r. cbn [kbind].
      destruct st' as [|s st']; [cbn in L; lia|]. cbn. eauto.
    Qed.
  End Returns.

  (** ** BiCGStab row by row *)
  Fixpoint bicg_row (A M : vec -> vec) (cfg : kconfig V) (b : vec) (more : nat) (s : brow V) : brow V :=
    match more with
    | 0 => s
    | S more' =>
        if br_done s then s
        else
          let p := bicg_p N edot b s in
          let phat := M p in
          let v := A phat in
          let sv := bicg_s N edot b v s in
          let shat := M sv in
          bicg_row A M cfg b more' (bicg_update N rsum edot cfg b p phat v shat (A shat) s)
    end.

  Lemma bicg_row_done A M cfg b more s : br_done s = true -> bicg_row A M cfg b more s = s.
  Proof. intros H. destruct more; cbn [bicg_row]; [|rewrite H]; reflexivity. Qed.

  Lemma bicg_rows matvec minv cfg b more st st' l i A M bi si :
    length st = length b ->
    bicg_loop N rsum edot matvec minv cfg b more st = (Ok st', l) ->
    acts_on i A matvec -> acts_on i M minv -> nth_error b i = Some bi -> nth_error st i = Some si ->
    nth_error st' i = Some (bicg_row A M cfg bi more si).
  Proof.
    intros L H EA EM Eb. revert st si l L H. induction more as [|more IH]; intros st si l L H Es.
    { cbn in *. injection H as <- _. exact Es. }
    destruct (all_done st) eqn:D.
    { cbn [bicg_loop] in H. rewrite D in H. injection H as <- _.
      rewrite bicg_row_done; [exact Es|]. unfold all_done in D. rewrite forallb_forall in D. eapply D, nth_error_In, Es. }
    destruct (bicg_iter N rsum edot matvec minv cfg b more st st' l L D H)
      as (p & phat & v & s & shat & t & l' & Ep & _ & M1 & _ & _ & M2 & _ & _ & Esv & _ & M3 & _ & _ & M4 & _ & _ & HH).
    cbv zeta in HH. destruct HH as (L1 & R & _ & Hn).
    destruct (Hn i bi si Eb Es) as (ph & vi & shi & ti & E1 & E2 & E3 & E4 & E5 & E6 & E7).
    rewrite (IH _ _ l' L1 R E7). cbn [bicg_row].
    pose proof (EM _ _ _ M1 E5) as Q1. rewrite E1 in Q1. injection Q1 as ->.
    pose proof (EA _ _ _ M2 E1) as Q2. rewrite E2 in Q2. injection Q2 as ->.
    pose proof (EM _ _ _ M3 E6) as Q3. rewrite E3 in Q3. injection Q3 as ->.
    pose proof (EA _ _ _ M4 E3) as Q4. rewrite E4 in Q4. injection Q4 as ->.
    destruct (br_done si) eqn:Di; [|reflexivity].
    unfold bicg_update. rewrite Di. rewrite bicg_row_done; auto.
  Qed.

  (** A row that is done keeps its state, whatever the operators. *)
  Lemma bicg_frozen matvec minv cfg b more st st' l i si :
    length st = length b ->
    bicg_loop N rsum edot matvec minv cfg b more st = (Ok st', l) ->
    nth_error st i = Some si -> br_done si = true -> nth_error st' i = Some si.
  Proof.
    intros L H Es Di. revert st l L H Es. induction more as [|more IH]; intros st l L H Es.
    { cbn in *. injection H as <- _. exact Es. }
    destruct (all_done st) eqn:D.
    { cbn [bicg_loop] in H. rewrite D in H. injection H as <- _. exact Es. }
    destruct (bicg_iter N rsum edot matvec minv cfg b more st st' l L D H)
      as (p & phat & v & s & shat & t & l' & _ & _ & _ & _ & _ & _ & _ & _ & _ & _ & _ & _ & _ & _ & _ & _ & HH).
    cbv zeta in HH. destruct HH as (L1 & R & _ & Hn).
    destruct (nth_same st b i si L Es) as (bi & Eb).
    destruct (Hn i bi si Eb Es) as (ph & vi & shi & ti & _ & _ & _ & _ & _ & _ & E7).
    replace (bicg_update N rsum edot cfg bi (bicg_p N edot bi si) ph vi shi ti si) with si in E7
      by (unfold bicg_update; rewrite Di; reflexivity). exact (IH _ l' L1 R E7).
  Qed.

  (** A larger budget continues the run. *)
  Lemma bicg_extend matvec minv cfg b k j st st' l st'' l'' :
    bicg_loop N rsum edot matvec minv cfg b k st = (Ok st', l) ->
    bicg_loop N rsum edot matvec minv cfg b (k + j) st = (Ok st'', l'') ->
    exists j' l2, bicg_loop N rsum edot matvec minv cfg b j' st' = (Ok st'', l2).
  Proof.
    revert st l l''. induction k as [|k IH]; intros st l l'' H1 H2.
    { cbn in H1. injection H1 as <- _. cbn [Nat.add] in H2. eauto. }
    cbn [Nat.add bicg_loop] in H1, H2. destruct (all_done st) eqn:D.
    { injection H1 as <- _. injection H2 as <- _. exists 0, []. reflexivity. }
    cbv zeta in H1, H2.
    apply kbind_inv in H1 as (a1 & x1 & y1 & E1 & H1 & _). apply kbind_inv in H2 as (a1' & x1' & y1' & E1' & H2 & _).
    assert (a1' = a1) by congruence; subst a1'.
    apply kbind_inv in H1 as (a2 & x2 & y2 & E2 & H1 & _). apply kbind_inv in H2 as (a2' & x2' & y2' & E2' & H2 & _).
    assert (a2' = a2) by congruence; subst a2'.
    apply kbind_inv in H1 as (a3 & x3 & y3 & E3 & H1 & _). apply kbind_inv in H2 as (a3' & x3' & y3' & E3' & H2 & _).
    assert (a3' = a3) by congruence; subst a3'.
    apply kbind_inv in H1 as (a4 & x4 & y4 & E4 & H1 & _). apply kbind_inv in H2 as (a4' & x4' & y4' & E4' & H2 & _).
    assert (a4' = a4) by congruence; subst a4'.
    exact (IH _ _ _ H1 H2).
  Qed.
End Rows.
