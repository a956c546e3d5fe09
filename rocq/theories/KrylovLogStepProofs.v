(** A Newton step whose linear solve is logged (C75). *)
From Verif Require Import Base BaseProofs Tensor Newton Krylov SpecKrylov KrylovProofs KrylovCostProofs KrylovRowProofs
     KrylovSystem Log KrylovLog SpecKrylovLog KrylovLogProofs KrylovLinesProofs KrylovLogSolveProofs.

Section Step.
  Context {V : Type}.
  Variable N : num V.
  Variable rsum : list V -> V.
  Variable edot : list V -> list V -> V.
  Variable tri : list (list V) -> list V -> list V.
  Variable vmax : list V -> V.
  Variable say : list (level * klog_note V) -> level -> klog_note V -> result unit.
  Variable is_on : level -> result bool.

  Lemma failed_count l : length (filter negb l) = count_occ Bool.bool_dec l false.
  Proof. induction l as [|[|] l IH]; cbn; congruence. Qed.

  Lemma emit_cases l m w r w' : emit_line say l m w = (r, w') ->
    w' = w ++ [KLine l m] /\ r = say (lines_in w) l m.
  Proof. unfold emit_line. intros H. injection H as <- <-. auto. Qed.

  (** The summary changes nothing but the log, unless something it asks raises. *)
  Lemma summary_said res w r w' : log_summary say is_on res w = (r, w') ->
    exists ev, w' = w ++ ev /\ calls_in ev = [] /\
      (r = Ok tt \/ exists e, r = Err e /\ ((exists lv, is_on lv = Err e) \/ cut_short say w ev e)) /\
      (r = Ok tt -> is_on Warning = Ok false -> ev = []) /\
      (r = Ok tt -> is_on Warning = Ok true -> forall info, is_on Info = Ok info -> sums_up info res (lines_in ev)).
  Proof.
    unfold log_summary. intros H.
    apply quiet_bind in H as [(warn & Ew & H)|(e & Ew & -> & ->)]; cbn [fst snd map] in *.
    2:{ exists []. split; [reflexivity|]. split; [reflexivity|]. split; [right; exists e; split; [reflexivity|]; left; exists Warning; exact Ew|].
        split; discriminate. }
    rewrite app_nil_r in H. destruct warn.
    2:{ injection H as <- <-. exists []. rewrite app_nil_r. repeat split; auto; congruence. }
    destruct (forallb (fun c => c) (kr_converged res)) eqn:F; cbn [negb] in H.
    - assert (NF : ~ In false (kr_converged res)).
      { intros I. rewrite forallb_forall in F. specialize (F _ I). discriminate. }
      apply quiet_bind in H as [(info & Ei & H)|(e & Ei & -> & ->)]; cbn [fst snd map] in *.
      2:{ exists []. split; [reflexivity|]. split; [reflexivity|]. split; [right; exists e; split; [reflexivity|]; left; exists Info; exact Ei|].
          split; [discriminate|]. congruence. }
      rewrite app_nil_r in H. destruct info.
      + apply emit_cases in H as [-> ->]. eexists. split; [reflexivity|]. split; [reflexivity|]. split.
        { destruct (say _ _ _) as [[]|e] eqn:Es; [auto|]. right. exists e. split; [reflexivity|]. right.
          exists [], Info, (NConverged (kr_iters res)). rewrite app_nil_r. auto. }
        split; [congruence|]. intros _ _ info E. assert (info = true) by congruence. subst info. split; [contradiction|reflexivity].
      + injection H as <- <-. exists []. rewrite app_nil_r. repeat split; auto; try contradiction. intros _. assert (info = false) by congruence. subst info. reflexivity.
    - assert (In false (kr_converged res)).
      { clear - F. induction (kr_converged res) as [|[|] l IH]; [discriminate| |left; reflexivity]. right. apply IH. exact F. }
      apply emit_cases in H as [-> ->]. eexists. split; [reflexivity|]. split; [reflexivity|]. split.
      { destruct (say _ _ _) as [[]|e] eqn:Es; [auto|]. right. exists e. split; [reflexivity|]. right.
        eexists [], Warning, _. rewrite app_nil_r. split; [reflexivity|exact Es]. }
      split; [congruence|]. intros _ _ info E. split; [|contradiction]. intros _. rewrite <- failed_count. reflexivity.
  Qed.

  (** A logged step is the silent step, unless the log raises. *)
  Lemma step_watched s u st r st' l ev :
    log_kstep N rsum edot tri vmax say is_on s u st = ((r, st', l), ev) ->
    (r, st', l) = kstep N rsum edot tri s u st \/
    (exists e, r = Err e /\ ((exists lv, is_on lv = Err e) \/ cut_short say [] ev e)).
  Proof.
    unfold log_kstep, kstep, sret. intros H.
    destruct (let* _ := assert_all_dense (ks_unknown s) in _) as [[]|e]; [|left; congruence]. cbv zeta in H |- *.
    destruct (let* b := ks_res s u in _) as [[[[b bf] rows] uspec]|e]; [|left; congruence].
    destruct (refresh s u st) as [[st1|e] lr]; [|left; congruence].
    destruct (is_on Debug) as [hook|e] eqn:Ed; [|right; exists e; split; [congruence|left; eauto]].
    destruct (log_solve _ _ _ _ _ _ _ _ _ _ _ _) as [rs evs] eqn:Es.
    destruct (tracks_solve say N rsum edot tri vmax _ _ hook rows (ks_cfg s) _ _ _ Es) as (ev0 & Eev & T). cbn [app] in Eev. subst evs.
    destruct T as [[T1 T2]|(e & -> & T2 & _)]; [|right; exists e; split; [congruence|]; right; congruence].
    destruct (krylov_solve _ _ _ _ _ _ _ _) as [rk lk]. cbn [fst snd] in T1, T2.
    assert (Q : rs = rk) by (destruct rs; exact T1). rewrite <- Q, <- T2. clear Q T1 T2 rk lk.
    destruct rs as [res|e]; [|left; congruence]. cbv zeta in H |- *.
    destruct (log_summary _ _ _ _) as [said ev'] eqn:Em.
    destruct (summary_said res _ _ _ Em) as (ev1 & -> & _ & C & _).
    destruct C as [->|(e & -> & C)]; [left; cbn [bind] in H; congruence|].
    right. exists e. split; [cbn [bind] in H; congruence|].
    assert (ev = ev0 ++ ev1) by congruence. subst ev. destruct C as [C|C]; [left; exact C|right]. exact (cut_app say [] ev0 ev1 e C).
  Qed.

  Lemma step_silent s u st r st' l ev :
    accepts say -> (forall lv, exists o, is_on lv = Ok o) ->
    log_kstep N rsum edot tri vmax say is_on s u st = ((r, st', l), ev) -> (r, st', l) = kstep N rsum edot tri s u st.
  Proof.
    intros Ha Hon H. destruct (step_watched _ _ _ _ _ _ _ H) as [E|(e & _ & [(lv & E)|C])]; [exact E| |].
    - destruct (Hon lv). congruence.
    - destruct C as (bf & lv & m & _ & E). rewrite Ha in E. discriminate.
  Qed.

  (** What a successful step has written. *)
  Lemma step_lines s u st du b st' l ev :
    log_kstep N rsum edot tri vmax say is_on s u st = ((Ok (du, b), st', l), ev) ->
    exists hook warn rows bf uspec st1 calls res lr iters sum,
      is_on Debug = Ok hook /\ is_on Warning = Ok warn /\
      krylov_solve N rsum edot tri (flat_matvec s u uspec bf) (flat_minv s (st_precond st1) bf) rows (ks_cfg s) = (Ok res, calls) /\
      l = SResidual u :: lr ++ [SSolve (st_precond st1) calls (Ok (kr_iters res))] /\
      unflatten_dense (of_rows bf (kr_du res)) uspec = Ok du /\
      lines_in ev = iters ++ sum /\
      (if hook then iterations iters = seq 1 (kr_iters res) /\ length iters = kr_iters res else iters = []) /\
      (warn = false -> sum = []) /\ (warn = true -> forall info, is_on Info = Ok info -> sums_up info res sum).
  Proof.
    unfold log_kstep, sret. intros H.
    destruct (let* _ := assert_all_dense (ks_unknown s) in _) as [[]|e]; [|discriminate]. cbv zeta in H.
    destruct (let* b := ks_res s u in _) as [[[[b0 bf] rows] uspec]|e]; [|discriminate].
    destruct (refresh s u st) as [[st1|e] lr]; [|discriminate].
    destruct (is_on Debug) as [hook|e] eqn:Ed; [|discriminate].
    destruct (log_solve _ _ _ _ _ _ _ _ _ _ _ _) as [rs evs] eqn:Es.
    destruct (solve_lines N rsum edot tri vmax say _ _ hook _ _ _ _ Es) as (S1 & S2 & S3). cbv zeta in S2, S3.
    destruct (tracks_solve say N rsum edot tri vmax _ _ hook rows (ks_cfg s) _ _ _ Es) as (ev0 & Eev & T). cbn [app] in Eev. subst evs.
    destruct rs as [res|e]; [|discriminate]. cbv zeta in H.
    destruct T as [[T1 T2]|(e & Q & _)]; [|discriminate].
    destruct (log_summary _ _ _ _) as [said ev'] eqn:Em.
    destruct (summary_said res _ _ _ Em) as (ev1 & -> & C0 & C & C1 & C2).
    destruct C as [->|(e & -> & _)]; [|cbn [bind] in H; discriminate].
    destruct (is_on Warning) as [warn|e] eqn:Ewn.
    2:{ exfalso. unfold log_summary in Em. rewrite Ewn in Em. discriminate. }
    cbn [bind] in H.
    destruct (unflatten_dense _ _) as [du'|e] eqn:Eu in H; [|discriminate]. cbn [bind] in H.
    exists hook, warn, rows, bf, uspec, st1, (calls_in ev0), res, lr, (lines_in ev0), (lines_in ev1).
    split; [reflexivity|]. split; [reflexivity|]. split.
    { destruct (krylov_solve _ _ _ _ _ _ _ _) as [rk lk]. cbn [fst snd over] in T1, T2. congruence. }
    split; [congruence|]. split; [congruence|]. split.
    { assert (ev = ev0 ++ ev1) by congruence. subst ev. apply lines_app. }
    split.
    { destruct hook; [|auto]. specialize (S3 _ eq_refl eq_refl). split; [|exact S3]. rewrite <- S3.
      apply (numbered_iterations N rsum edot tri vmax say (fun x => Ok x) (fun x => Ok x) (fun x => x) rows). intros j ln Ej. destruct (S2 j ln Ej) as (es & _ & E & _). exists es. exact E. }
    split; intros ->; [rewrite (C1 eq_refl eq_refl); reflexivity|exact (C2 eq_refl eq_refl)].
  Qed.
End Step.
