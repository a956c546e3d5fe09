(** Lemmas about the Newton solver with its output. *)
From Verif Require Import Base BaseProofs Float Newton SpecNewton NewtonProofs Log NewtonLog SpecNewtonLog.

Lemma calls_app a b : calls (a ++ b) = calls a ++ calls b.
Proof. unfold calls. rewrite flat_map_app. reflexivity. Qed.
Lemma calls_lift l : calls (map ECall l) = l.
Proof. induction l as [|c l IH]; [reflexivity|]. cbn. rewrite <- IH at 2. reflexivity. Qed.

Section LogProofs.
  Variables (fsum tmax tmin : list F -> F) (say : list (level * note) -> level -> note -> result unit) (is_on : level -> result bool).
  Notation max_of := (max_of tmax). Notation min_of := (min_of tmin).

  Lemma max_of_some l : l <> [] -> max_of l = Ok (tmax l).
  Proof. destruct l; [congruence|reflexivity]. Qed.
  Lemma min_of_some l : l <> [] -> min_of l = Ok (tmin l).
  Proof. destruct l; [congruence|reflexivity]. Qed.
  Lemma some_of {A} (l : list A) n : length l = S n -> l <> [].
  Proof. destruct l; [discriminate|congruence]. Qed.

  (** ** The same run *)
  Definition thrown {A} (m : lio A) (t : list call) (st : list event) : Prop :=
    exists es l x e more, m st = (Err e, st ++ es ++ [EEmit l x]) /\ say (emitted (st ++ es)) l x = Err e /\ t = calls es ++ more.
  Definition agrees {A} (m : lio A) (x : io A) : Prop :=
    forall st, (exists es, m st = (fst x, st ++ es) /\ calls es = snd x) \/ thrown m (snd x) st.

  Lemma agrees_bind {A B} (m : lio A) (x : io A) (f : A -> lio B) (g : A -> io B) :
    agrees m x -> (forall a t, x = (Ok a, t) -> agrees (f a) (g a)) -> agrees (lbind m f) (iobind x g).
  Proof.
    intros Hm Hf st. destruct (Hm st) as [[es [E C]]|[es [l [y [e [more [E [S T]]]]]]]].
    - destruct x as [[a|e] t]; cbn in E, C.
      + specialize (Hf a t eq_refl (st ++ es)). unfold lbind. unfold iobind. destruct (g a) as [rg tg] eqn:G. cbn [fst snd] in Hf |- *.
        destruct Hf as [[es2 [E2 C2]]|[es2 [l [y [e [more [E2 [S T]]]]]]]].
        * left. exists (es ++ es2). rewrite E. rewrite E2, <- app_assoc, calls_app, C, C2. split; reflexivity.
        * right. exists (es ++ es2), l, y, e, more. unfold lbind. rewrite E, E2. split; [rewrite !app_assoc; reflexivity|]. split.
          -- rewrite <- S, app_assoc. reflexivity.
          -- rewrite calls_app, C, T, app_assoc. reflexivity.
      + left. exists es. unfold lbind. rewrite E. split; [reflexivity|exact C].
    - right. assert (X : exists more', snd (iobind x g) = snd x ++ more').
      { destruct x as [[a|e'] t]; cbn; [|exists []; rewrite app_nil_r; reflexivity]. destruct (g a); cbn. eauto. }
      destruct X as [more' X]. exists es, l, y, e, (more ++ more'). unfold lbind. rewrite E. split; [reflexivity|].
      split; [exact S|]. rewrite X, T, app_assoc. reflexivity.
  Qed.
  Lemma agrees_lift {A} (x : io A) : agrees (lift x) x.
  Proof. intros st. left. exists (map ECall (snd x)). split; [reflexivity|apply calls_lift]. Qed.
  Lemma agrees_ret {A} (a : A) : agrees (lret a) (ret a).
  Proof. intros st. left. exists []. rewrite app_nil_r. split; reflexivity. Qed.
  Lemma agrees_throw {A} e : agrees (lres (Err e : result A)) (throw e).
  Proof. intros st. left. exists []. rewrite app_nil_r. split; reflexivity. Qed.
  Lemma agrees_res {A} (a : A) : agrees (lres (Ok a)) (ret a).
  Proof. intros st. left. exists []. rewrite app_nil_r. split; reflexivity. Qed.
  Lemma agrees_put l x : agrees (put say l x) (ret tt).
  Proof.
    intros st. unfold put. destruct (say (emitted st) l x) as [[]|e] eqn:E.
    - left. exists [EEmit l x]. split; reflexivity.
    - right. exists [], l, x, e, []. cbn. unfold put. rewrite app_nil_r, E. repeat split; reflexivity.
  Qed.
  Lemma agrees_keep x : agrees (keep x) (ret tt).
  Proof. intros st. left. exists [EKeep x]. split; reflexivity. Qed.
  Lemma agrees_when b m : agrees m (ret tt) -> agrees (when b m) (ret tt).
  Proof. intros H. destruct b; [exact H|apply agrees_ret]. Qed.
  (** A silent step before the rest. *)
  Lemma agrees_after {A} (m : lio unit) (f : unit -> lio A) (x : io A) :
    agrees m (ret tt) -> agrees (f tt) x -> agrees (lbind m f) x.
  Proof.
    intros Hm Hf. assert (E : x = iobind (ret tt) (fun _ => x)) by (cbn; destruct x; reflexivity). rewrite E.
    apply agrees_bind; [exact Hm|]. intros [] t _. exact Hf.
  Qed.
  Lemma agrees_trace debug log x : agrees (trace say debug log (Ok x)) (ret tt).
  Proof.
    unfold trace. apply agrees_when. intros st. cbn [lbind lres].
    apply (agrees_after (when debug (put say Debug x)) (fun _ => when log (keep x)) (ret tt)).
    - apply agrees_when, agrees_put.
    - apply agrees_when, agrees_keep.
  Qed.
  Lemma agrees_closing info x : agrees (closing say info x) (ret tt).
  Proof. unfold closing. apply agrees_when, agrees_after; apply agrees_put. Qed.

  Lemma trial_length alpha u du : length (trial alpha u du) = Nat.min (length alpha) (Nat.min (length u) (length du)).
  Proof. unfold trial. rewrite map2_length, combine_length. reflexivity. Qed.
  Lemma norms_length x : length (norms fsum x) = length x.
  Proof. apply map_length. Qed.
  Lemma norm_sq_length x : length (norm_sq fsum x) = length x.
  Proof. apply map_length. Qed.
  Lemma freeze_length fr n du : match fr with None => True | Some m => length m = n end -> length du = n -> length (freeze fr du) = n.
  Proof. destruct fr as [m|]; cbn; intros H L; [|exact L]. rewrite map2_length. lia. Qed.

  (** The note of a trial can be written. *)
  Lemma trial_note cfg n (alpha : list F) (nt nb bd : list F) k :
    length alpha = S n -> length nt = S n -> length nb = S n -> length bd = S n ->
    (let* a := min_of alpha in let* r := max_of (map fsqrt nt) in
     let* c := min_of (map fsqrt (map2 (fun a p => criterion cfg a (fst p) (snd p)) alpha (combine nb bd))) in Ok (NTrial k a r c))
    = Ok (NTrial k (tmin alpha) (tmax (map fsqrt nt)) (tmin (map fsqrt (map2 (fun a p => criterion cfg a (fst p) (snd p)) alpha (combine nb bd))))).
  Proof.
    intros A T B D. rewrite min_of_some by (eapply some_of; eassumption). cbn [bind].
    rewrite max_of_some by (eapply some_of; rewrite map_length; eassumption). cbn [bind].
    rewrite min_of_some; [reflexivity|]. eapply some_of. rewrite map_length, map2_length, combine_length, A, B, D. cbn.
    rewrite !Nat.min_id. reflexivity.
  Qed.

  Lemma ls_agrees cfg s debug log u du nb bd n : length u = S n -> length du = S n -> length nb = S n -> length bd = S n ->
    forall more k alpha, length alpha = S n ->
    agrees (line_search_l fsum tmax tmin say cfg s debug log u du nb bd more k alpha) (line_search fsum cfg s u du nb bd more alpha).
  Proof.
    intros Lu Ld Ln Lb. induction more as [|more IH]; intros k alpha La.
    all: cbn [line_search_l line_search]; cbv zeta; apply agrees_bind; [apply agrees_lift|]; intros bt t R;
      apply residual_ok in R; destruct R as [_ [R _]]; rewrite trial_length, La, Lu, Ld, !Nat.min_id in R.
    all: rewrite trial_note with (n := n) by (rewrite ?norm_sq_length; assumption).
    all: apply agrees_after; [apply agrees_trace|].
    all: match goal with |- context [forallb _ ?st] => set (stp := st) end.
    all: destruct (forallb (fun b => b) stp); [apply agrees_ret|]; try apply agrees_ret.
    apply IH. rewrite map2_length. subst stp. rewrite map2_length, !combine_length, norm_sq_length, R, La, Ln, Lb.
    rewrite !Nat.min_id. reflexivity.
  Qed.

  Lemma ls_lengths cfg s u du nb bd n u' b' : length u = S n -> length du = S n -> length nb = S n -> length bd = S n ->
    forall more alpha t, length alpha = S n ->
    line_search fsum cfg s u du nb bd more alpha = (Ok (u', b'), t) -> length u' = S n /\ length b' = S n.
  Proof.
    intros Lu Ld Ln Lb. induction more as [|more IH]; intros alpha t La H.
    all: cbn [line_search] in H; cbv zeta in H; apply io_ok in H; destruct H as [bt [t3 [t4 [R [H _]]]]];
      apply residual_ok in R; destruct R as [_ [R _]]; rewrite trial_length in R; pose proof (trial_length alpha u du) as TL.
    all: match type of H with context [forallb _ ?st] => set (stp := st) in * end.
    all: destruct (forallb (fun b => b) stp); [unfold ret in H; inversion H; subst; lia|].
    - unfold ret in H; inversion H; subst; lia.
    - eapply IH; [|exact H]. rewrite map2_length. subst stp.
      rewrite map2_length, !combine_length, norm_sq_length. lia.
  Qed.
  Lemma iterate_agrees cfg s debug log i b0n hist u b fr n :
    length u = S n -> length b = S n -> length b0n = S n -> match fr with None => True | Some m => length m = S n end ->
    agrees (iterate_l fsum tmax tmin say cfg s debug log i b0n hist u b fr) (iterate fsum cfg s hist u b fr).
  Proof.
    intros Lu Lb L0 Lf. unfold iterate_l, iterate. apply agrees_bind; [apply agrees_lift|]. intros d t D.
    apply step_ok in D. destruct D as [_ [D _]]. rewrite Lu in D.
    pose proof (freeze_length fr (S n) d Lf D) as Lz. cbv zeta. set (du := freeze fr d) in *. clearbody du.
    destruct (negb (sizes_eqb (sy_rsizes s) (sy_usizes s))); [apply agrees_throw|].
    assert (X : forall x (m : lio (batch * batch)), agrees m x -> (forall u' b' t', x = (Ok (u', b'), t') -> length b' = S n) ->
      agrees (dol (u', b') <- m in
              dol _ <- trace say debug log (let* r := max_of (norms fsum b') in let* r0 := max_of b0n in Ok (NIter i r r0)) in
              lret (u', b')) x).
    { intros x m Hm Hl. assert (E : x = iobind x (fun a => ret a)).
      { destruct x as [[a|e] tx]; cbn; [rewrite app_nil_r|]; reflexivity. }
      rewrite E. apply agrees_bind; [exact Hm|]. intros [u' b'] tx Ex. specialize (Hl u' b' tx Ex).
      rewrite (max_of_some (norms fsum b')) by (eapply some_of; rewrite norms_length; exact Hl).
      rewrite (max_of_some b0n) by (eapply some_of; exact L0). cbn [bind].
      apply agrees_after; [apply agrees_trace|apply agrees_ret]. }
    destruct (cf_ls_max_iters cfg <=? 1).
    - apply X.
      + apply agrees_bind; [apply agrees_lift|]. intros bt tb R. apply agrees_ret.
      + intros u' b' t' H. apply io_ok in H. destruct H as [bt [t1 [t2 [R [H _]]]]]. injection H as <- <- _.
        apply residual_ok in R. destruct R as [_ [R _]]. rewrite R, map2_length. lia.
    - apply X.
      + apply ls_agrees with (n := n); rewrite ?norm_sq_length, ?map2_length, ?map_length; lia.
      + intros u' b' t' H. eapply (ls_lengths cfg s u du _ _ n) in H; rewrite ?norm_sq_length, ?map2_length, ?map_length; try lia; apply H.
  Qed.
  Lemma iterate_lengths cfg s hist u b fr u' b' t n : iterate fsum cfg s hist u b fr = (Ok (u', b'), t) ->
    length u = S n -> length b = S n -> match fr with None => True | Some m => length m = S n end -> length u' = S n /\ length b' = S n.
  Proof.
    intros H Lu Lb Lf. unfold iterate in H. apply io_ok in H. destruct H as [d [t1 [t2 [D [H _]]]]].
    apply step_ok in D. destruct D as [_ [D _]]. rewrite Lu in D.
    pose proof (freeze_length fr (S n) d Lf D) as Lz. cbv zeta in H. set (du := freeze fr d) in *. clearbody du.
    destruct (negb (sizes_eqb (sy_rsizes s) (sy_usizes s))); [discriminate H|].
    destruct (cf_ls_max_iters cfg <=? 1).
    - apply io_ok in H. destruct H as [bt [t3 [t4 [R [H _]]]]]. unfold ret in H. inversion H; subst.
      apply residual_ok in R. destruct R as [_ [R _]]. rewrite R, map2_length. lia.
    - eapply (ls_lengths cfg s u du _ _ n) in H; rewrite ?norm_sq_length, ?map2_length, ?map_length; try lia; exact H.
  Qed.

  Lemma loop_agrees cfg s debug info log b0n n : length b0n = S n -> forall left i hist u b, length u = S n -> length b = S n ->
    agrees (solve_loop_l fsum tmax tmin say cfg s debug info log b0n left i hist u b) (solve_loop fsum cfg s b0n left i hist u b).
  Proof.
    intros L0. induction left as [|left IH]; intros i hist u b Lu Lb; cbn [solve_loop_l solve_loop].
    - apply agrees_after; [|apply agrees_throw]. apply agrees_when.
      rewrite (max_of_some (norms fsum b)) by (eapply some_of; rewrite norms_length; exact Lb).
      rewrite (max_of_some b0n) by (eapply some_of; exact L0). cbn [bind].
      intros st. cbn [lbind lres].
      apply (agrees_after (put say Info _) (fun _ => put say Info NEnd) (ret tt)); apply agrees_put.
    - apply agrees_bind; [apply iterate_agrees with (n := n); trivial; exact I|].
      intros [u' b'] t H. destruct (iterate_lengths _ _ _ _ _ _ _ _ _ n H Lu Lb I) as [Lu' Lb'].
      destruct (check_stop cfg (norms fsum b') b0n).
      + apply IH; assumption.
      + apply agrees_after; [apply agrees_closing|apply agrees_ret].
      + apply agrees_after; [apply agrees_closing|apply agrees_throw].
  Qed.
  Lemma masked_loop_agrees cfg s debug log b0n n : length b0n = S n -> forall left i fr conv hist u b,
    length u = S n -> length b = S n -> match fr with None => True | Some m => length m = S n end ->
    agrees (masked_loop_l fsum tmax tmin say cfg s debug log b0n left i fr conv hist u b) (masked_loop fsum cfg s b0n left i fr conv hist u b).
  Proof.
    intros L0. induction left as [|left IH]; intros i fr conv hist u b Lu Lb Lf; cbn [masked_loop_l masked_loop]; [apply agrees_ret|].
    apply agrees_bind; [apply iterate_agrees with (n := n); trivial|].
    intros [u' b'] t H. destruct (iterate_lengths _ _ _ _ _ _ _ _ _ n H Lu Lb Lf) as [Lu' Lb']. cbv zeta.
    match goal with |- context [forallb _ ?x] => destruct (forallb (fun b => b) x) end; [apply agrees_ret|].
    apply IH; try assumption. cbn.
    assert (X : length (masked_converged cfg b0n (norms fsum b') (norms fsum (map2 (rows2 fsub) u' u)) (norms fsum u')) = S n).
    { unfold masked_converged. rewrite map2_length, !combine_length, !norms_length, map2_length. lia. }
    destruct fr as [m|]; cbn [or_mask]; [|exact X]. rewrite map2_length, X. lia.
  Qed.
  Lemma with_log_agrees {A} (m : lio A) x : agrees m x -> forall st,
    (exists es, with_log m st = (rmap (fun a => (a, kept (st ++ es))) (fst x), st ++ es) /\ calls es = snd x) \/ thrown (with_log m) (snd x) st.
  Proof.
    intros H st. unfold with_log. destruct (H st) as [[es [E C]]|[es [l [y [e [more [E [S T]]]]]]]].
    - left. exists es. rewrite E. split; [|exact C]. destruct (fst x); reflexivity.
    - right. exists es, l, y, e, more. rewrite E. repeat split; assumption.
  Qed.
  Lemma entry_length s u0 b t : entry s u0 = (Ok b, t) -> length b = length u0 /\ sy_residual s u0 = Ok b /\ t = [CResidual u0].
  Proof.
    unfold entry. destruct (negb _); [discriminate|]. intros H. apply io_ok in H. destruct H as [b1 [t1 [t2 [R [H E]]]]].
    apply residual_ok in R. destruct R as [R [L [_ T]]]. destruct (sy_rsizes s); [discriminate|]. unfold ret in H. inversion H; subst. auto.
  Qed.
  Lemma agrees_known {A B} (r : result A) a (f : A -> lio B) x : r = Ok a -> agrees (f a) x -> agrees (lbind (lres r) f) x.
  Proof. intros -> H. exact H. Qed.
  Lemma solve_agrees cfg log s u0 d i n : length u0 = S n -> is_on Debug = Ok d -> is_on Info = Ok i -> forall st,
    let x := solve fsum cfg s u0 in
    let m := solve_l fsum tmax tmin say is_on cfg log s u0 in
    (exists es, m st = (rmap (fun a => (a, kept (st ++ es))) (fst x), st ++ es) /\ calls es = snd x) \/ thrown m (snd x) st.
  Proof.
    intros L Hd Hi st. cbv zeta. unfold solve_l. apply with_log_agrees. unfold solve.
    apply agrees_bind; [apply agrees_lift|]. intros b t E. apply entry_length in E. destruct E as [Lb _]. rewrite L in Lb. cbv zeta.
    apply (agrees_known _ d _ _ Hd). apply (agrees_known _ i _ _ Hi).
    apply agrees_after; [apply agrees_when, agrees_put|].
    rewrite (max_of_some (norms fsum b)) by (eapply some_of; rewrite norms_length; exact Lb). cbn [bind].
    apply agrees_after; [apply agrees_trace|].
    destruct (check_converged cfg (norms fsum b) (norms fsum b)).
    - apply agrees_after; [apply agrees_closing|apply agrees_ret].
    - apply loop_agrees with (n := n); rewrite ?norms_length; assumption.
  Qed.
  Lemma solve_masked_agrees cfg log s u0 d n : length u0 = S n -> is_on Debug = Ok d -> forall st,
    let x := solve_masked fsum cfg s u0 in
    let m := solve_masked_l fsum tmax tmin say is_on cfg log s u0 in
    (exists es, m st = (rmap (fun a => (a, kept (st ++ es))) (fst x), st ++ es) /\ calls es = snd x) \/ thrown m (snd x) st.
  Proof.
    intros L Hd st. cbv zeta. unfold solve_masked_l. apply with_log_agrees. unfold solve_masked.
    apply agrees_bind; [apply agrees_lift|]. intros b t E. apply entry_length in E. destruct E as [Lb _]. rewrite L in Lb. cbv zeta.
    apply (agrees_known _ d _ _ Hd). destruct (forallb _ _); [apply agrees_ret|].
    apply masked_loop_agrees with (n := n); rewrite ?norms_length; trivial.
  Qed.

  (** ** The notes *)
  Hypothesis quiet : never_throws say.

  Lemma lift_run {A} (x : io A) st : lift x st = (fst x, st ++ map ECall (snd x)).
  Proof. reflexivity. Qed.
  Lemma lbind_run {A B} (m : lio A) (f : A -> lio B) st : lbind m f st = match m st with (Ok a, st') => f a st' | (Err e, st') => (Err e, st') end.
  Proof. reflexivity. Qed.
  Lemma lres_run {A} (r : result A) st : lres r st = (r, st).
  Proof. reflexivity. Qed.
  Lemma put_run l x st : put say l x st = (Ok tt, st ++ [EEmit l x]).
  Proof. unfold put. rewrite quiet. reflexivity. Qed.
  Definition line (debug log : bool) (x : note) : list event := (if debug then [EEmit Debug x] else []) ++ (if log then [EKeep x] else []).
  Lemma trace_run debug log x st : trace say debug log (Ok x) st = (Ok tt, st ++ line debug log x).
  Proof.
    unfold trace, line, when. destruct debug, log; cbn [orb]; unfold lbind, lres, lret; rewrite ?put_run; unfold keep; cbn [app];
      rewrite <- ?app_assoc, ?app_nil_r; reflexivity.
  Qed.
  Lemma calls_line d l x : calls (line d l x) = [].
  Proof. destruct d, l; reflexivity. Qed.
  Lemma infos_line d l x : notes_at Info (line d l x) = [].
  Proof. destruct d, l; reflexivity. Qed.
  Lemma infos_app a b : notes_at Info (a ++ b) = notes_at Info a ++ notes_at Info b.
  Proof. unfold notes_at. rewrite flat_map_app. reflexivity. Qed.
  Lemma closing_run info x st : closing say info x st = (Ok tt, st ++ if info then [EEmit Info x; EEmit Info NEnd] else []).
  Proof.
    unfold closing, when. destruct info; [|unfold lret; rewrite app_nil_r; reflexivity].
    unfold lbind. rewrite !put_run, <- app_assoc. reflexivity.
  Qed.
  Lemma worst_norms b : tmax (norms fsum b) = worst fsum tmax b.
  Proof. unfold worst. rewrite (norms_map fsum b). reflexivity. Qed.
  Lemma worst_sqrt b : tmax (map fsqrt (norm_sq fsum b)) = worst fsum tmax b.
  Proof. rewrite <- worst_norms. unfold norm_sq, norms. rewrite map_map. reflexivity. Qed.

  (** *** The summaries *)
  Lemma ls_infos cfg s debug log u du nb bd n : length u = S n -> length du = S n -> length nb = S n -> length bd = S n ->
    forall more k alpha st, length alpha = S n ->
    exists es, snd (line_search_l fsum tmax tmin say cfg s debug log u du nb bd more k alpha st) = st ++ es /\ notes_at Info es = [] /\
    match fst (line_search_l fsum tmax tmin say cfg s debug log u du nb bd more k alpha st) with
    | Ok (u', b') => sy_residual s u' = Ok b' | Err _ => ends_in_call es end.
  Proof.
    intros Lu Ld Ln Lb. induction more as [|more IH]; intros k alpha st La; cbn [line_search_l]; cbv zeta; rewrite lbind_run, lift_run.
    all: destruct (residual s (trial alpha u du)) as [[bt|e] t] eqn:R; cbn [fst snd].
    2,4: unfold residual in R; inversion R; eexists; split; [reflexivity|split; [reflexivity|]]; exists [], (CResidual (trial alpha u du)); reflexivity.
    all: apply residual_ok in R; destruct R as [Rr [R [_ ->]]]; rewrite trial_length, La, Lu, Ld, !Nat.min_id in R.
    all: rewrite trial_note with (n := n) by (rewrite ?norm_sq_length; assumption); rewrite lbind_run, trace_run; cbv iota beta.
    all: match goal with |- context [forallb _ ?sp] => set (stp := sp) end.
    all: match goal with |- context [line _ _ ?y] => set (x := y) end.
    all: assert (I : notes_at Info (map ECall [CResidual (trial alpha u du)] ++ line debug log x) = []) by (rewrite infos_app, infos_line; reflexivity).
    all: destruct (forallb (fun b => b) stp); [unfold lret; cbn [fst snd]; eexists; split; [rewrite <- app_assoc; reflexivity|split; [exact I|exact Rr]]|].
    - unfold lret; cbn [fst snd]. eexists; split; [rewrite <- app_assoc; reflexivity|split; [exact I|exact Rr]].
    - assert (La' : length (map2 (fun (b : bool) a => if b then a else fdiv a (cf_ls_cutback cfg)) stp alpha) = S n).
      { rewrite map2_length. subst stp. rewrite map2_length, !combine_length, norm_sq_length. lia. }
      destruct (IH (S k) _ ((st ++ map ECall [CResidual (trial alpha u du)]) ++ line debug log x) La') as [es [E [Ei O]]].
      rewrite <- app_assoc in E. rewrite <- app_assoc in O. exists ((map ECall [CResidual (trial alpha u du)] ++ line debug log x) ++ es).
      rewrite <- app_assoc, E, infos_app, I, Ei, <- !app_assoc. split; [reflexivity|]. split; [reflexivity|].
      rewrite <- !app_assoc in *. destruct (fst _) as [[u' b']|e]; [exact O|].
      destruct O as [e0 [c ->]]. exists ((map ECall [CResidual (trial alpha u du)] ++ line debug log x) ++ e0), c. rewrite <- !app_assoc. reflexivity.
  Qed.

  Lemma after_call (es es' : list event) : ends_in_call es' -> ends_in_call (es ++ es').
  Proof. intros [e0 [c ->]]. exists (es ++ e0), c. apply app_assoc. Qed.

  Definition landed (s : system) (n : nat) (es : list event) (r : result (batch * batch)) : Prop :=
    match r with Ok (u', b') => length u' = S n /\ length b' = S n /\ sy_residual s u' = Ok b' | Err _ => ends_in_call es end.
  Lemma landed_after s n es es' r : landed s n es' r -> landed s n (es ++ es') r.
  Proof. destruct r as [[u' b']|e]; [exact (fun h => h)|apply after_call]. Qed.

  Lemma iterate_infos cfg s debug log i b0n hist u b fr n st :
    length u = S n -> length b = S n -> length b0n = S n -> match fr with None => True | Some m => length m = S n end ->
    exists es, snd (iterate_l fsum tmax tmin say cfg s debug log i b0n hist u b fr st) = st ++ es /\ notes_at Info es = [] /\
    landed s n es (fst (iterate_l fsum tmax tmin say cfg s debug log i b0n hist u b fr st)).
  Proof.
    intros Lu Lb L0 Lf. unfold iterate_l. rewrite lbind_run, lift_run.
    destruct (step s hist u) as [[d|e] t] eqn:D; cbn [fst snd].
    2:{ unfold step in D. inversion D. eexists. split; [reflexivity|]. split; [reflexivity|]. exists [], (CStep u). reflexivity. }
    apply step_ok in D. destruct D as [_ [D [_ ->]]]. rewrite Lu in D.
    pose proof (freeze_length fr (S n) d Lf D) as Lz. cbv zeta. set (du := freeze fr d) in *. clearbody du.
    destruct (negb (sizes_eqb (sy_rsizes s) (sy_usizes s))).
    { eexists. split; [reflexivity|]. split; [reflexivity|]. exists [], (CStep u). reflexivity. }
    rewrite lbind_run.
    assert (X : forall m st1 es1, m st1 = (fst (m st1), st1 ++ es1) -> notes_at Info es1 = [] ->
      landed s n es1 (fst (m st1)) ->
      let res := match m st1 with
                 | (Ok a, st') => (let '(u', b') := a in
                     dol _ <- trace say debug log (let* r := max_of (norms fsum b') in let* r0 := max_of b0n in Ok (NIter i r r0)) in lret (u', b')) st'
                 | (Err e, st') => (Err e, st') end in
      exists es2, snd res = st1 ++ es2 /\ notes_at Info es2 = [] /\
      landed s n es2 (fst res)).
    { intros m st1 es1 E I O. cbv zeta. rewrite E. destruct (fst (m st1)) as [[u' b']|e]; [|exists es1; auto].
      destruct O as [O1 [O2 O3]]. rewrite (max_of_some (norms fsum b')) by (eapply some_of; rewrite norms_length; exact O2).
      rewrite (max_of_some b0n) by (eapply some_of; exact L0). cbn [bind]. rewrite lbind_run, trace_run. unfold lret. cbn [fst snd].
      eexists. split; [rewrite <- app_assoc; reflexivity|]. rewrite infos_app, I, infos_line. cbn. auto. }
    cbv zeta in X.
    destruct (cf_ls_max_iters cfg <=? 1).
    - match goal with |- context [match ?m ?st1 with _ => _ end] => specialize (X m st1) end.
      destruct (residual s (map2 (rows2 fadd) u du)) as [[bt|e] t] eqn:R.
      + apply residual_ok in R. destruct R as [Rr [R [_ ->]]]. rewrite map2_length, Lu, Lz, Nat.min_id in R.
        edestruct X as [es2 [X1 [X2 X3]]]; [reflexivity|reflexivity| |].
        { cbn. rewrite map2_length. split; [lia|]. auto. }
        exists (map ECall [CStep u] ++ es2). rewrite app_assoc. split; [exact X1|]. split; [rewrite infos_app, X2; reflexivity|].
        apply landed_after. exact X3.
      + assert (t = [CResidual (map2 (rows2 fadd) u du)]) by (unfold residual in R; inversion R; reflexivity). subst t. clear R.
        edestruct X as [es2 [X1 [X2 X3]]]; [reflexivity|reflexivity| |].
        { cbn. exists [], (CResidual (map2 (rows2 fadd) u du)). reflexivity. }
        exists (map ECall [CStep u] ++ es2). rewrite app_assoc. split; [exact X1|]. split; [rewrite infos_app, X2; reflexivity|].
        apply landed_after. exact X3.
    - match goal with |- context [match ?m ?st1 with _ => _ end] => specialize (X m st1);
        pose proof (ls_agrees cfg s debug log u du (norm_sq fsum b) (map2 (row_dot fsum) b du) n Lu Lz) as A end.
      rewrite norm_sq_length, map2_length, Lb, Lz, Nat.min_id in A.
      destruct (ls_infos cfg s debug log u du (norm_sq fsum b) (map2 (row_dot fsum) b du) n Lu Lz) with
        (more := cf_ls_max_iters cfg - 2) (k := 1) (alpha := map (fun _ : row => fone) u) (st := st ++ map ECall [CStep u]) as [es1 [E1 [E2 E3]]];
        rewrite ?norm_sq_length, ?map2_length, ?map_length, ?Lb, ?Lz, ?Nat.min_id; auto.
      edestruct X with (es1 := es1) as [es2 [X1 [X2 X3]]].
      + rewrite <- E1. apply surjective_pairing.
      + exact E2.
      + destruct (A eq_refl eq_refl (cf_ls_max_iters cfg - 2) 1 (map (fun _ : row => fone) u) ltac:(rewrite map_length; exact Lu) (st ++ map ECall [CStep u]))
          as [[es3 [A1 A2]]|[es3 [l [y [e [more [A1 [A2 A3]]]]]]]]; [|rewrite quiet in A2; discriminate].
        rewrite A1 in E3 |- *. cbn [fst] in E3 |- *.
        destruct (line_search fsum cfg s u du (norm_sq fsum b) (map2 (row_dot fsum) b du) (cf_ls_max_iters cfg - 2) (map (fun _ : row => fone) u)) as [[[u' b']|e] t] eqn:Q;
          cbn [fst] in E3 |- *; [|exact E3].
        eapply ls_lengths with (n := n) in Q; rewrite ?norm_sq_length, ?map2_length, ?map_length; try lia. destruct Q. cbn. auto.
      + exists (map ECall [CStep u] ++ es2). rewrite app_assoc. split; [exact X1|]. split; [rewrite infos_app, X2; reflexivity|].
        apply landed_after. exact X3.
  Qed.

  Lemma why_truth cfg s u0 u b0 b : sy_residual s u0 = Ok b0 -> sy_residual s u = Ok b ->
    truthful fsum cfg s (why_converged cfg (norms fsum b) (norms fsum b0)) u0 u.
  Proof.
    intros E0 E c0 c F0 Fc. rewrite E0 in F0. rewrite E in Fc. injection F0 as <-. injection Fc as <-.
    unfold why_converged. rewrite !(norms_map fsum). cbv zeta.
    set (A := forallb (fun x => flt x (cf_atol cfg)) (map (rnorm fsum) b)).
    set (R := forallb (fun p => flt (fdiv (fst p) (snd p)) (cf_rtol cfg)) (combine (map (rnorm fsum) b) (map (rnorm fsum) b0))).
    assert (HA : A = true <-> forall r, In r b -> flt (rnorm fsum r) (cf_atol cfg) = true).
    { subst A. rewrite forallb_forall. split.
      - intros H r I. apply H, in_map, I.
      - intros H x I. apply in_map_iff in I. destruct I as [r [<- I]]. apply H, I. }
    assert (HR : R = true <-> forall i r r0, nth_error b i = Some r -> nth_error b0 i = Some r0 ->
      flt (fdiv (rnorm fsum r) (rnorm fsum r0)) (cf_rtol cfg) = true).
    { subst R. rewrite forallb_forall. split.
      - intros H i r r0 I I0. apply (H (rnorm fsum r, rnorm fsum r0)). apply nth_error_In with (n := i).
        rewrite nth_combine, !nth_error_map, I, I0. reflexivity.
      - intros H [x y] I. apply In_nth_error in I. destruct I as [i I]. rewrite nth_combine, !nth_error_map in I.
        destruct (nth_error b i) as [r|] eqn:Eb; [|discriminate]. destruct (nth_error b0 i) as [r0|] eqn:E0'; [|discriminate].
        cbn in I. injection I as <- <-. eapply H; eassumption. }
    rewrite <- HA, <- HR. clearbody A R. destruct A, R; cbn; intuition congruence.
  Qed.

  Definition fits (cfg : config) (s : system) (u0 : batch) (r : result (batch * nat)) (x : note) : Prop :=
    summary fsum tmax cfg s u0 (rmap (fun a => (a, [])) r) x.
  Lemma loop_infos cfg s debug log u0 b0 n : sy_residual s u0 = Ok b0 -> length b0 = S n -> forall left i hist u b st,
    length u = S n -> length b = S n -> sy_residual s u = Ok b -> 0 < i ->
    exists es, snd (solve_loop_l fsum tmax tmin say cfg s debug true log (norms fsum b0) left i hist u b st) = st ++ es /\
    (notes_at Info es = [] /\ ends_in_call es /\ (exists e, fst (solve_loop_l fsum tmax tmin say cfg s debug true log (norms fsum b0) left i hist u b st) = Err e) \/
     exists x, notes_at Info es = [x; NEnd] /\ fits cfg s u0 (fst (solve_loop_l fsum tmax tmin say cfg s debug true log (norms fsum b0) left i hist u b st)) x).
  Proof.
    intros E0 L0. induction left as [|left IH]; intros i hist u b st Lu Lb Eb Hi; cbn [solve_loop_l].
    - unfold when. rewrite (max_of_some (norms fsum b)) by (eapply some_of; rewrite norms_length; exact Lb).
      rewrite (max_of_some (norms fsum b0)) by (eapply some_of; rewrite norms_length; exact L0). cbn [bind].
      match goal with |- context [snd ?x] => assert (E : x = (Err (Convergence "AOTI Newton failed to converge"),
        st ++ [EEmit Info (NGaveUp (cf_miters cfg) (tmax (norms fsum b)) (tmax (norms fsum b0))); EEmit Info NEnd])) end.
      { unfold lres, lbind. rewrite !put_run, <- app_assoc. reflexivity. }
      rewrite E. clear E. cbn [fst snd]. eexists. split; [reflexivity|]. right. eexists. split; [reflexivity|].
      unfold fits; cbn [rmap summary]. right. split; [reflexivity|]. exists b, b0. split; [exact E0|]. split; [eauto|]. rewrite !worst_norms. reflexivity.
    - rewrite lbind_run.
      destruct (iterate_infos cfg s debug log i (norms fsum b0) hist u b None n st) as [es [I1 [I2 I3]]]; rewrite ?norms_length; trivial.
      destruct (iterate_l fsum tmax tmin say cfg s debug log i (norms fsum b0) hist u b None st) as [[[u' b']|e] st'].
      2:{ cbn [fst snd] in *. exists es. split; [exact I1|]. left. split; [exact I2|]. split; [exact I3|]. eauto. }
      cbn [fst snd] in I1, I3. subst st'. destruct I3 as [Lu' [Lb' Eb']].
      destruct (check_stop cfg (norms fsum b') (norms fsum b0)).
      + destruct (IH (S i) (hist ++ [u]) u' b' (st ++ es) Lu' Lb' Eb' ltac:(lia)) as [es2 [J1 J2]].
        exists (es ++ es2). rewrite app_assoc. split; [exact J1|]. rewrite infos_app, I2.
        destruct J2 as [[J2 [J3 J4]]|[x [J2 J3]]]; [left|right; exists x; split; [exact J2|exact J3]].
        split; [exact J2|]. split; [apply after_call, J3|exact J4].
      + rewrite lbind_run, closing_run. unfold lret. cbn [fst snd]. eexists. split; [rewrite <- app_assoc; reflexivity|].
        right. eexists. rewrite infos_app, I2. split; [reflexivity|]. unfold fits; cbn [rmap summary]. exists (why_converged cfg (norms fsum b') (norms fsum b0)).
        split; [apply why_truth; assumption|]. right. split; [exact Hi|reflexivity].
      + rewrite lbind_run, closing_run. unfold lres. cbn [fst snd]. eexists. split; [rewrite <- app_assoc; reflexivity|].
        right. eexists. rewrite infos_app, I2. split; [reflexivity|]. unfold fits; cbn [rmap summary]. left. split; [reflexivity|]. eauto.
  Qed.
  Lemma solve_infos cfg log s u0 d n st : length u0 = S n -> is_on Debug = Ok d -> is_on Info = Ok true ->
    let res := solve_l fsum tmax tmin say is_on cfg log s u0 st in
    exists es, snd res = st ++ es /\
    ((notes_at Info es = [] \/ notes_at Info es = [NBegin] /\ ends_in_call es) /\ (exists e, fst res = Err e) \/
     exists x, notes_at Info es = [NBegin; x; NEnd] /\ summary fsum tmax cfg s u0 (fst res) x).
  Proof.
    intros L Hd Hi. cbv zeta. unfold solve_l, with_log. rewrite lbind_run, lift_run.
    destruct (entry s u0) as [[b|e] t] eqn:E; cbn [fst snd].
    2:{ exists (map ECall t). split; [reflexivity|]. left. split; [left|eauto]. clear. induction t; [reflexivity|exact IHt]. }
    apply entry_length in E. destruct E as [Lb [Eb ->]]. rewrite L in Lb.
    rewrite lbind_run, Hd, lres_run. cbn iota beta. rewrite lbind_run, Hi, lres_run. cbn iota beta.
    unfold when. rewrite lbind_run, put_run.
    rewrite (max_of_some (norms fsum b)) by (eapply some_of; rewrite norms_length; exact Lb). cbn [bind].
    rewrite lbind_run, trace_run.
    set (st1 := ((st ++ map ECall [CResidual u0]) ++ [EEmit Info NBegin]) ++ line d log (NIter 0 (tmax (norms fsum b)) (tmax (norms fsum b)))).
    assert (X : exists e1, st1 = st ++ e1 /\ notes_at Info e1 = [NBegin]).
    { eexists. split; [subst st1; rewrite <- !app_assoc; reflexivity|]. rewrite !infos_app, infos_line. reflexivity. }
    clearbody st1. destruct X as [e1 [-> X]].
    destruct (check_converged cfg (norms fsum b) (norms fsum b)).
    - match goal with |- context [snd ?x] => assert (E : x = (Ok (u0, 0, kept ((st ++ e1) ++ [EEmit Info (NPredictor (why_converged cfg (norms fsum b) (norms fsum b))); EEmit Info NEnd])),
        (st ++ e1) ++ [EEmit Info (NPredictor (why_converged cfg (norms fsum b) (norms fsum b))); EEmit Info NEnd])) end.
      { rewrite lbind_run, closing_run. reflexivity. }
      rewrite E. clear E. cbn [fst snd]. eexists. split; [rewrite <- app_assoc; reflexivity|].
      right. eexists. rewrite infos_app, X. split; [reflexivity|]. cbn [summary].
      exists (why_converged cfg (norms fsum b) (norms fsum b)). split; [apply why_truth; assumption|]. left. auto.
    - destruct (loop_infos cfg s d log u0 b n Eb Lb (cf_miters cfg - 1) 1 [] u0 b (st ++ e1) L Lb Eb ltac:(lia)) as [es [J1 J2]].
      destruct (solve_loop_l fsum tmax tmin say cfg s d true log (norms fsum b) (cf_miters cfg - 1) 1 [] u0 b (st ++ e1)) as [r st']. cbn [fst snd] in J1, J2.
      exists (e1 ++ es). split; [destruct r as [[u k]|e]; cbn [snd]; rewrite J1, app_assoc; reflexivity|]. rewrite infos_app, X.
      destruct J2 as [[J2 [J3 [e ->]]]|[x [J2 J3]]].
      + left. split; [right; rewrite J2; split; [reflexivity|apply after_call, J3]|]. exists e. reflexivity.
      + right. exists x. rewrite J2. split; [reflexivity|]. unfold fits in J3. destruct r as [[u k]|e]; exact J3.
  Qed.
End LogProofs.
