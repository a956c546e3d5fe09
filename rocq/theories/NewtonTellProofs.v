(** The lines of a solve tell its calls. *)
From Verif Require Import Base BaseProofs Float Newton SpecNewton NewtonProofs Log NewtonLog SpecNewtonLog NewtonLogProofs.

Section Tell.
  Variables (fsum tmax tmin : list F -> F) (say : list (level * note) -> level -> note -> result unit) (is_on : level -> result bool).
  Hypothesis quiet : never_throws say.
  Variables (cfg : config) (s : system) (debug log : bool).
  (** Where the lines are read. *)
  Variable pick : event -> list note.
  Hypothesis pick_call : forall c, pick (ECall c) = [].
  Hypothesis pick_info : forall x, pick (EEmit Info x) = [].
  Hypothesis pick_line : forall x, flat_map pick (line debug log x) = [x].
  Notation max_of := (max_of tmax). Notation min_of := (min_of tmin).
  Notation picks := (flat_map pick).
  Notation worst := (worst fsum tmax).
  Notation rest := (rest fsum tmax cfg s).
  Notation tries := (tries fsum tmax cfg s).

  Lemma picks_calls l : picks (map ECall l) = [].
  Proof. induction l as [|c l IH]; [reflexivity|]. cbn. rewrite pick_call. exact IH. Qed.

  Lemma ls_tells b0 u du nb bd n : length u = S n -> length du = S n -> length nb = S n -> length bd = S n -> 1 < cf_ls_max_iters cfg ->
    forall more k alpha st, length alpha = S n ->
    let m := line_search_l fsum tmax tmin say cfg s debug log u du nb bd more k alpha in
    exists es, snd (m st) = st ++ es /\ landed s n es (fst (m st)) /\ forall i,
    match fst (m st) with
    | Ok (_, b') => forall cs ns w t, rest b0 (S i) cs ns w t ->
        tries b0 i k (calls es ++ cs) (picks es ++ NIter (S i) (worst b') (worst b0) :: ns) w t
    | Err _ => tries b0 i k (calls es) (picks es) false i
    end.
  Proof.
    intros Lu Ld Ln Lb Hl. induction more as [|more IH]; intros k alpha st La; cbv zeta; cbn [line_search_l]; cbv zeta; rewrite lbind_run, lift_run.
    all: destruct (residual s (trial alpha u du)) as [[bt|e] t] eqn:R; cbn [fst snd].
    2,4: assert (t = [CResidual (trial alpha u du)]) by (unfold residual in R; inversion R; reflexivity); subst t;
         eexists; split; [reflexivity|]; split; [exists [], (CResidual (trial alpha u du)); reflexivity|];
         intros i; rewrite calls_lift, picks_calls; apply tr_cut.
    all: apply residual_ok in R; destruct R as [Rr [R [_ ->]]]; rewrite trial_length, La, Lu, Ld, !Nat.min_id in R.
    all: rewrite trial_note with (n := n) by (rewrite ?norm_sq_length; assumption); rewrite lbind_run, trace_run by exact quiet; cbv iota beta.
    all: match goal with |- context [forallb _ ?sp] => set (stp := sp) end.
    all: rewrite worst_sqrt; match goal with |- context [NTrial _ ?a _ ?c] => set (al := a); set (cr := c) end.
    all: assert (C : forall es, calls ((map ECall [CResidual (trial alpha u du)] ++ line debug log (NTrial k al (worst bt) cr)) ++ es) = CResidual (trial alpha u du) :: calls es)
           by (intros es; rewrite !calls_app, calls_line; reflexivity).
    all: assert (P : forall es, picks ((map ECall [CResidual (trial alpha u du)] ++ line debug log (NTrial k al (worst bt) cr)) ++ es) = NTrial k al (worst bt) cr :: picks es)
           by (intros es; rewrite !flat_map_app, pick_line, picks_calls; reflexivity).
    all: assert (F : forall (es0 := (map ECall [CResidual (trial alpha u du)] ++ line debug log (NTrial k al (worst bt) cr)) ++ []) i cs ns w t, rest b0 (S i) cs ns w t ->
           tries b0 i k (calls es0 ++ cs) (picks es0 ++ NIter (S i) (worst bt) (worst b0) :: ns) w t).
    1,3: intros es0 i cs ns w t H; subst es0; rewrite C, P; cbn [app calls flat_map];
         apply (tr_last fsum tmax cfg s b0 i k (trial alpha u du) bt [NTrial k al (worst bt) cr] cs ns w t Rr); [right; eauto|exact H].
    all: assert (Ld0 : length (trial alpha u du) = S n) by (rewrite trial_length; lia).
    all: destruct (forallb (fun b => b) stp);
      [unfold lret; cbn [fst snd]; exists ((map ECall [CResidual (trial alpha u du)] ++ line debug log (NTrial k al (worst bt) cr)) ++ []);
       split; [rewrite app_nil_r, <- app_assoc; reflexivity|]; split; [cbn; auto|exact F]|].
    - unfold lret; cbn [fst snd]. exists ((map ECall [CResidual (trial alpha u du)] ++ line debug log (NTrial k al (worst bt) cr)) ++ []).
      split; [rewrite app_nil_r, <- app_assoc; reflexivity|]. split; [cbn; auto|exact F].
    - assert (La' : length (map2 (fun (b : bool) a => if b then a else fdiv a (cf_ls_cutback cfg)) stp alpha) = S n).
      { rewrite map2_length. subst stp. rewrite map2_length, !combine_length, norm_sq_length. lia. }
      destruct (IH (S k) _ ((st ++ map ECall [CResidual (trial alpha u du)]) ++ line debug log (NTrial k al (worst bt) cr)) La') as [es [E [Ei O]]].
      exists ((map ECall [CResidual (trial alpha u du)] ++ line debug log (NTrial k al (worst bt) cr)) ++ es).
      split; [rewrite E, <- !app_assoc; reflexivity|]. split; [apply landed_after, Ei|]. intros i. specialize (O i). rewrite C, P.
      match goal with |- match ?r with _ => _ end => destruct r as [[u' b']|e] end.
      + intros cs ns w t H. cbn [app]. apply tr_more; [exact Rr|exact Hl|]. apply O, H.
      + apply tr_more; [exact Rr|exact Hl|exact O].
  Qed.

  Lemma iterate_tells b0 i hist u b fr n st :
    length u = S n -> length b = S n -> length b0 = S n -> match fr with None => True | Some m => length m = S n end ->
    let m := iterate_l fsum tmax tmin say cfg s debug log (S i) (norms fsum b0) hist u b fr in
    exists es, snd (m st) = st ++ es /\ landed s n es (fst (m st)) /\
    match fst (m st) with
    | Ok (_, b') => forall cs ns w t, rest b0 (S i) cs ns w t -> rest b0 i (calls es ++ cs) (picks es ++ ns) w t
    | Err _ => rest b0 i (calls es) (picks es) false i
    end.
  Proof.
    intros Lu Lb L0 Lf. cbv zeta. unfold iterate_l. rewrite lbind_run, lift_run.
    destruct (step s hist u) as [[d|e] t] eqn:D; cbn [fst snd].
    2:{ assert (t = [CStep u]) by (unfold step in D; inversion D; reflexivity). subst t.
        eexists. split; [reflexivity|]. split; [exists [], (CStep u); reflexivity|]. rewrite calls_lift, picks_calls. apply rs_cut. }
    apply step_ok in D. destruct D as [_ [D [_ ->]]]. rewrite Lu in D.
    pose proof (freeze_length fr (S n) d Lf D) as Lz. cbv zeta. set (du := freeze fr d) in *. clearbody du.
    destruct (negb (sizes_eqb (sy_rsizes s) (sy_usizes s))).
    { eexists. split; [reflexivity|]. split; [exists [], (CStep u); reflexivity|]. cbn [fst lres]. rewrite calls_lift, picks_calls. apply rs_cut. }
    rewrite lbind_run.
    assert (X : forall m st1 es1, snd (m st1) = st1 ++ es1 -> landed s n es1 (fst (m st1)) ->
      match fst (m st1) with
      | Ok (_, b') => forall cs ns w t, rest b0 (S i) cs ns w t ->
          tries b0 i 1 (calls es1 ++ cs) (picks es1 ++ NIter (S i) (worst b') (worst b0) :: ns) w t
      | Err _ => tries b0 i 1 (calls es1) (picks es1) false i
      end ->
      let res := match m st1 with
                 | (Ok a, st') => (let '(u', b') := a in
                     dol _ <- trace say debug log (let* r := max_of (norms fsum b') in let* r0 := max_of (norms fsum b0) in Ok (NIter (S i) r r0)) in lret (u', b')) st'
                 | (Err e, st') => (Err e, st') end in
      exists es2, snd res = st1 ++ es2 /\ landed s n es2 (fst res) /\
      match fst res with
      | Ok (_, b') => forall cs ns w t, rest b0 (S i) cs ns w t -> tries b0 i 1 (calls es2 ++ cs) (picks es2 ++ ns) w t
      | Err _ => tries b0 i 1 (calls es2) (picks es2) false i
      end).
    { intros m st1 es1 E O Q. cbv zeta. destruct (m st1) as [[[u' b']|e] st']; cbn [fst snd] in E, O, Q |- *; [|exists es1; auto].
      destruct O as [O1 [O2 O3]]. rewrite (max_of_some tmax (norms fsum b')) by (eapply some_of; rewrite norms_length; exact O2).
      rewrite (max_of_some tmax (norms fsum b0)) by (eapply some_of; rewrite norms_length; exact L0). cbn [bind].
      rewrite lbind_run, trace_run by exact quiet. unfold lret. cbn [fst snd].
      exists (es1 ++ line debug log (NIter (S i) (tmax (norms fsum b')) (tmax (norms fsum b0)))).
      split; [rewrite E, <- app_assoc; reflexivity|]. split; [cbn; auto|].
      intros cs ns w t H. rewrite calls_app, calls_line, app_nil_r, flat_map_app, pick_line, <- app_assoc, !worst_norms. apply Q, H. }
    assert (Y : forall res es2, snd res = (st ++ map ECall [CStep u]) ++ es2 -> landed s n es2 (fst res) ->
      match fst res with
      | Ok (_, b') => forall cs ns w t, rest b0 (S i) cs ns w t -> tries b0 i 1 (calls es2 ++ cs) (picks es2 ++ ns) w t
      | Err _ => tries b0 i 1 (calls es2) (picks es2) false i
      end ->
      exists es, snd res = st ++ es /\ landed s n es (fst res) /\
      match fst res with
      | Ok (_, b') => forall cs ns w t, rest b0 (S i) cs ns w t -> rest b0 i (calls es ++ cs) (picks es ++ ns) w t
      | Err _ => rest b0 i (calls es) (picks es) false i
      end).
    { intros res es2 Y1 Y2 Y3. exists (map ECall [CStep u] ++ es2). split; [rewrite Y1, <- app_assoc; reflexivity|].
      split; [apply landed_after, Y2|]. rewrite calls_app, calls_lift, flat_map_app, picks_calls. cbn [app].
      destruct (fst res) as [[u' b']|e].
      - intros cs ns w t H. apply rs_step, Y3, H.
      - apply rs_step, Y3. }
    cbv zeta in X.
    destruct (cf_ls_max_iters cfg <=? 1) eqn:Hl; [apply Nat.leb_le in Hl|apply Nat.leb_gt in Hl].
    - match goal with |- context [match ?m ?st1 with _ => _ end] => specialize (X m st1) end.
      destruct (residual s (map2 (rows2 fadd) u du)) as [[bt|e] t] eqn:R.
      + apply residual_ok in R. destruct R as [Rr [R [_ ->]]]. rewrite map2_length, Lu, Lz, Nat.min_id in R.
        edestruct X as [es2 [X1 [X2 X3]]]; [reflexivity| | |exact (Y _ es2 X1 X2 X3)].
        * cbn. rewrite map2_length. split; [lia|]. auto.
        * cbn [fst lbind lift lret snd]. intros cs ns w t H. rewrite calls_lift, picks_calls. cbn [app].
          apply (tr_last fsum tmax cfg s b0 i 1 _ bt [] cs ns w t Rr); [left; auto|exact H].
      + assert (t = [CResidual (map2 (rows2 fadd) u du)]) by (unfold residual in R; inversion R; reflexivity). subst t. clear R.
        edestruct X as [es2 [X1 [X2 X3]]]; [reflexivity| | |exact (Y _ es2 X1 X2 X3)].
        * exists [], (CResidual (map2 (rows2 fadd) u du)). reflexivity.
        * cbn [fst lbind lift lret snd]. rewrite calls_lift, picks_calls. apply tr_cut.
    - destruct (ls_tells b0 u du (norm_sq fsum b) (map2 (row_dot fsum) b du) n Lu Lz) with
        (more := cf_ls_max_iters cfg - 2) (k := 1) (alpha := map (fun _ : row => fone) u) (st := st ++ map ECall [CStep u]) as [es1 [E1 [E2 E3]]];
        rewrite ?norm_sq_length, ?map2_length, ?map_length, ?Lb, ?Lz, ?Nat.min_id; auto.
      edestruct X with (1 := E1) (2 := E2) (3 := E3 i) as [es2 [X1 [X2 X3]]]. exact (Y _ es2 X1 X2 X3).
  Qed.

  Lemma loop_tells info b0 n : length b0 = S n -> forall left i hist u b st, length u = S n -> length b = S n ->
    let m := solve_loop_l fsum tmax tmin say cfg s debug info log (norms fsum b0) left (S i) hist u b in
    exists es w t, snd (m st) = st ++ es /\ rest b0 i (calls es) (picks es) w t /\ (w = false -> ends_in_call es) /\
    match fst (m st) with Ok (_, k) => w = true /\ t = k | Err _ => True end.
  Proof.
    intros L0. assert (K : forall x, calls (if info then [EEmit Info x; EEmit Info NEnd] else []) = [] /\
      picks (if info then [EEmit Info x; EEmit Info NEnd] else []) = []).
    { intros x. destruct info; [|split; reflexivity]. split; [reflexivity|]. cbn. rewrite !pick_info. reflexivity. }
    induction left as [|left IH]; intros i hist u b st Lu Lb; cbv zeta; cbn [solve_loop_l].
    - rewrite (max_of_some tmax (norms fsum b)) by (eapply some_of; rewrite norms_length; exact Lb).
      rewrite (max_of_some tmax (norms fsum b0)) by (eapply some_of; rewrite norms_length; exact L0). cbn [bind].
      match goal with |- context [snd ?x] => assert (E : exists es, x = (Err (Convergence "AOTI Newton failed to converge"), st ++ es) /\ calls es = [] /\ picks es = []) end.
      { destruct (K (NGaveUp (cf_miters cfg) (tmax (norms fsum b)) (tmax (norms fsum b0)))) as [K1 K2].
        eexists. split; [|split; [exact K1|exact K2]]. destruct info; unfold when, lres, lbind, lret; [rewrite !put_run by exact quiet; rewrite <- app_assoc|rewrite app_nil_r]; reflexivity. }
      destruct E as [es [-> [E1 E2]]]. exists es, true, i. rewrite E1, E2. split; [reflexivity|]. split; [apply rs_end|]. split; [discriminate|exact I].
    - rewrite lbind_run.
      destruct (iterate_tells b0 i hist u b None n st Lu Lb L0 I) as [es [I1 [I2 I3]]].
      destruct (iterate_l fsum tmax tmin say cfg s debug log (S i) (norms fsum b0) hist u b None st) as [[[u' b']|e] st'].
      2:{ cbn [fst snd] in *. exists es, false, i. split; [exact I1|]. split; [exact I3|]. split; [intros _; exact I2|exact I]. }
      cbn [fst snd] in I1, I2, I3. subst st'. destruct I2 as [Lu' [Lb' Eb']].
      assert (Z : forall x, rest b0 i (calls (es ++ if info then [EEmit Info x; EEmit Info NEnd] else [])) (picks (es ++ if info then [EEmit Info x; EEmit Info NEnd] else [])) true (S i)).
      { intros x. rewrite calls_app, flat_map_app. destruct (K x) as [-> ->]. apply I3, rs_end. }
      destruct (check_stop cfg (norms fsum b') (norms fsum b0)).
      + destruct (IH (S i) (hist ++ [u]) u' b' (st ++ es) Lu' Lb') as [es2 [w [t [J1 [J2 [J3 J4]]]]]].
        exists (es ++ es2), w, t. rewrite app_assoc. split; [exact J1|]. rewrite calls_app, flat_map_app. split; [apply I3, J2|].
        split; [intros W; apply after_call, J3, W|exact J4].
      + rewrite lbind_run, closing_run by exact quiet. unfold lret. cbn [fst snd]. eexists _, true, (S i).
        split; [rewrite <- app_assoc; reflexivity|]. split; [apply Z|]. split; [discriminate|auto].
      + rewrite lbind_run, closing_run by exact quiet. unfold lres. cbn [fst snd]. eexists _, true, (S i).
        split; [rewrite <- app_assoc; reflexivity|]. split; [apply Z|]. split; [discriminate|auto].
  Qed.

  Lemma masked_loop_tells b0 n : length b0 = S n -> forall left i fr conv hist u b st,
    length u = S n -> length b = S n -> match fr with None => True | Some m => length m = S n end ->
    let m := masked_loop_l fsum tmax tmin say cfg s debug log (norms fsum b0) left i fr conv hist u b in
    exists es w t, snd (m st) = st ++ es /\ rest b0 i (calls es) (picks es) w t /\ (w = false -> ends_in_call es) /\
    match fst (m st) with Ok (_, _, k) => w = true /\ t = k | Err _ => True end.
  Proof.
    intros L0. induction left as [|left IH]; intros i fr conv hist u b st Lu Lb Lf; cbv zeta; cbn [masked_loop_l].
    - exists [], true, i. rewrite app_nil_r. split; [reflexivity|]. split; [apply rs_end|]. split; [discriminate|]. cbn. auto.
    - rewrite lbind_run.
      destruct (iterate_tells b0 i hist u b fr n st Lu Lb L0 Lf) as [es [I1 [I2 I3]]].
      destruct (iterate_l fsum tmax tmin say cfg s debug log (S i) (norms fsum b0) hist u b fr st) as [[[u' b']|e] st'].
      2:{ cbn [fst snd] in *. exists es, false, i. split; [exact I1|]. split; [exact I3|]. split; [intros _; exact I2|exact I]. }
      cbn [fst snd] in I1, I2, I3. subst st'. destruct I2 as [Lu' [Lb' Eb']]. cbv zeta.
      match goal with |- context [forallb _ ?x] => destruct (forallb (fun b => b) x) end.
      + unfold lret. cbn [fst snd]. exists es, true, (S i). split; [reflexivity|]. split; [|split; [discriminate|auto]].
        rewrite <- (app_nil_r (calls es)), <- (app_nil_r (picks es)). apply I3, rs_end.
      + match goal with |- context [masked_loop_l _ _ _ _ _ _ _ _ _ left ?i' ?fr' ?cv ?h _ _ ?st'] =>
          destruct (IH i' fr' cv h u' b' st' Lu' Lb') as [es2 [w [t [J1 [J2 [J3 J4]]]]]] end.
        { cbn. assert (X : length (masked_converged cfg (norms fsum b0) (norms fsum b') (norms fsum (map2 (rows2 fsub) u' u)) (norms fsum u')) = S n).
          { unfold masked_converged. rewrite map2_length, !combine_length, !norms_length, map2_length. lia. }
          destruct fr as [m|]; cbn [or_mask]; [|exact X]. rewrite map2_length, X. lia. }
        exists (es ++ es2), w, t. rewrite app_assoc. split; [exact J1|]. rewrite calls_app, flat_map_app. split; [apply I3, J2|].
        split; [intros W; apply after_call, J3, W|exact J4].
  Qed.

  Lemma solve_tells u0 i n st : length u0 = S n -> is_on Debug = Ok debug -> is_on Info = Ok i ->
    let res := solve_l fsum tmax tmin say is_on cfg log s u0 st in
    exists es w t, snd res = st ++ es /\ tells fsum tmax cfg s (calls es) (picks es) w t /\ (w = false -> es = [] \/ ends_in_call es) /\
    match fst res with Ok (_, k, _) => w = true /\ t = k | Err _ => True end.
  Proof.
    intros L Hd Hi. cbv zeta. unfold solve_l, with_log. rewrite lbind_run, lift_run.
    destruct (entry s u0) as [[b|e] t] eqn:E; cbn [fst snd].
    2:{ exists (map ECall t), false, 0. split; [reflexivity|]. rewrite calls_lift, picks_calls.
        assert (T : t = [] \/ t = [CResidual u0]).
        { unfold entry in E. destruct (negb _); [unfold throw in E; inversion E; auto|]. apply io_err in E.
          destruct E as [E|[b [t1 [t2 [E1 [E2 ->]]]]]]; [unfold residual in E; inversion E; auto|].
          apply residual_ok in E1. destruct E1 as [_ [_ [_ ->]]]. destruct (sy_rsizes s); [unfold throw in E2; inversion E2; auto|discriminate]. }
        destruct T as [->| ->]; (split; [constructor|]); (split; [|exact I]); intros _; [left; reflexivity|right; exists [], (CResidual u0); reflexivity]. }
    apply entry_length in E. destruct E as [Lb [Eb ->]]. rewrite L in Lb.
    rewrite lbind_run, Hd, lres_run. cbn iota beta. rewrite lbind_run, Hi, lres_run. cbn iota beta.
    match goal with |- context [when i (put say Info NBegin)] => assert (W : forall st0, when i (put say Info NBegin) st0 = (Ok tt, st0 ++ if i then [EEmit Info NBegin] else [])) end.
    { intros st0. destruct i; cbn [when]; [apply put_run, quiet|unfold lret; rewrite app_nil_r; reflexivity]. }
    rewrite lbind_run, W. clear W.
    rewrite (max_of_some tmax (norms fsum b)) by (eapply some_of; rewrite norms_length; exact Lb). cbn [bind].
    rewrite lbind_run, trace_run by exact quiet.
    set (st1 := ((st ++ map ECall [CResidual u0]) ++ (if i then [EEmit Info NBegin] else [])) ++ line debug log (NIter 0 (tmax (norms fsum b)) (tmax (norms fsum b)))).
    assert (X : exists e1, st1 = st ++ e1 /\ calls e1 = [CResidual u0] /\ picks e1 = [NIter 0 (worst b) (worst b)]).
    { eexists. split; [subst st1; rewrite <- !app_assoc; reflexivity|].
      rewrite !calls_app, calls_line, !flat_map_app, pick_line, !worst_norms, picks_calls. destruct i; cbn; rewrite ?pick_info; auto. }
    clearbody st1. destruct X as [e1 [-> [X1 X2]]].
    destruct (check_converged cfg (norms fsum b) (norms fsum b)).
    - set (x := NPredictor (why_converged cfg (norms fsum b) (norms fsum b))).
      match goal with |- context [snd ?z] => assert (E : z = (Ok (u0, 0, kept ((st ++ e1) ++ if i then [EEmit Info x; EEmit Info NEnd] else [])),
        (st ++ e1) ++ if i then [EEmit Info x; EEmit Info NEnd] else [])) end.
      { rewrite lbind_run, closing_run by exact quiet. reflexivity. }
      rewrite E. clear E. cbn [fst snd]. eexists _, true, 0. split; [rewrite <- app_assoc; reflexivity|].
      split; [|split; [discriminate|auto]]. rewrite calls_app, flat_map_app, X1, X2.
      assert (K : calls (if i then [EEmit Info x; EEmit Info NEnd] else []) = [] /\ picks (if i then [EEmit Info x; EEmit Info NEnd] else []) = []).
      { destruct i; [|split; reflexivity]. split; [reflexivity|]. cbn. rewrite !pick_info. reflexivity. }
      destruct K as [-> ->]. cbn [app]. apply tl_start; [exact Eb|apply rs_end].
    - destruct (loop_tells i b n Lb (cf_miters cfg - 1) 0 [] u0 b (st ++ e1) L Lb) as [es [w [t [J1 [J2 [J3 J4]]]]]].
      destruct (solve_loop_l fsum tmax tmin say cfg s debug i log (norms fsum b) (cf_miters cfg - 1) 1 [] u0 b (st ++ e1)) as [r st']. cbn [fst snd] in J1, J4.
      exists (e1 ++ es), w, t. split; [destruct r as [[u k]|e]; cbn [snd]; rewrite J1, app_assoc; reflexivity|].
      rewrite calls_app, flat_map_app, X1, X2. cbn [app]. split; [apply tl_start; assumption|].
      split; [intros Hw; right; apply after_call, J3, Hw|]. destruct r as [[u k]|e]; exact J4.
  Qed.
  Lemma solve_masked_tells u0 n st : length u0 = S n -> is_on Debug = Ok debug ->
    let res := solve_masked_l fsum tmax tmin say is_on cfg log s u0 st in
    forall u k l, fst res = Ok (u, k, l) ->
    exists es b0, snd res = st ++ es /\ sy_residual s u0 = Ok b0 /\ exists cs, calls es = CResidual u0 :: cs /\ rest b0 0 cs (picks es) true k.
  Proof.
    intros L Hd. cbv zeta. unfold solve_masked_l, with_log. rewrite lbind_run, lift_run. intros u k l H.
    destruct (entry s u0) as [[b|e] t] eqn:E; cbn [fst snd] in *; [|discriminate].
    apply entry_length in E. destruct E as [Lb [Eb ->]]. rewrite L in Lb.
    rewrite lbind_run, Hd, lres_run in H |- *. cbn iota beta in H |- *.
    destruct (forallb _ _).
    - unfold lret in H |- *. cbn [fst snd] in H |- *. inversion H; subst. eexists _, b. split; [reflexivity|]. split; [exact Eb|]. exists [].
      rewrite calls_lift, picks_calls. split; [reflexivity|apply rs_end].
    - match type of H with context [masked_loop_l _ _ _ _ _ _ _ _ ?n0 ?lf ?i ?fr ?cv ?h ?u1 ?b1 ?st'] =>
        destruct (masked_loop_tells b n Lb lf i fr cv h u1 b1 st' L Lb I) as [es [w [t [J1 [J2 [J3 J4]]]]]];
        destruct (masked_loop_l fsum tmax tmin say cfg s debug log n0 lf i fr cv h u1 b1 st') as [r st2] end.
      cbn [fst snd] in J1, J4. destruct r as [[[u2 c2] k2]|e]; cbn [fst snd] in H |- *; [|discriminate]. inversion H; subst.
      destruct J4 as [-> ->]. eexists _, b. split; [rewrite <- app_assoc; reflexivity|]. split; [exact Eb|]. exists (calls es).
      rewrite calls_app, calls_lift, flat_map_app, picks_calls. split; [reflexivity|exact J2].
  Qed.
End Tell.

(** What holds of the lines written together holds of a whole solve. *)
Section Closed.
  Variables (fsum tmax tmin : list F -> F) (say : list (level * note) -> level -> note -> result unit) (is_on : level -> result bool).
  Hypothesis quiet : never_throws say.
  Variables (debug log : bool) (R : list event -> Prop).
  Hypothesis R_nil : R [].
  Hypothesis R_app : forall a b, R a -> R b -> R (a ++ b).
  Hypothesis R_call : forall c, R [ECall c].
  Hypothesis R_info : forall x, R [EEmit Info x].
  Hypothesis R_line : forall x, R (line debug log x).

  Definition adds {A} (m : lio A) : Prop := forall st, exists es, snd (m st) = st ++ es /\ R es.
  Lemma adds_bind {A B} (m : lio A) (f : A -> lio B) : adds m -> (forall a, adds (f a)) -> adds (lbind m f).
  Proof.
    intros Hm Hf st. rewrite lbind_run. destruct (Hm st) as [es [E H]]. destruct (m st) as [[a|e] st']; cbn [snd] in E; subst st'.
    - destruct (Hf a (st ++ es)) as [es2 [E2 H2]]. exists (es ++ es2). rewrite E2, app_assoc. auto.
    - exists es. auto.
  Qed.
  Lemma adds_lift {A} (x : io A) : adds (lift x).
  Proof. intros st. exists (map ECall (snd x)). split; [reflexivity|]. induction (snd x) as [|c l IH]; [exact R_nil|]. apply (R_app [ECall c]); auto. Qed.
  Lemma adds_ret {A} (a : A) : adds (lret a).
  Proof. intros st. exists []. rewrite app_nil_r. auto. Qed.
  Lemma adds_res {A} (r : result A) : adds (lres r).
  Proof. intros st. exists []. rewrite app_nil_r. auto. Qed.
  Lemma adds_info x : adds (put say Info x).
  Proof. intros st. exists [EEmit Info x]. auto. Qed.
  Lemma adds_when b m : adds m -> adds (when b m).
  Proof. destruct b; [auto|intros _; apply adds_ret]. Qed.
  Lemma adds_trace r : adds (trace say debug log r).
  Proof.
    destruct r as [x|e].
    - intros st. exists (line debug log x). rewrite trace_run by exact quiet. auto.
    - unfold trace. apply adds_when. intros st. exists []. rewrite app_nil_r. auto.
  Qed.
  Lemma adds_closing b x : adds (closing say b x).
  Proof. unfold closing. apply adds_when, adds_bind; intros; apply adds_info. Qed.
  Lemma adds_with_log {A} (m : lio A) : adds m -> adds (with_log m).
  Proof. intros H st. destruct (H st) as [es [E Q]]. exists es. unfold with_log. destruct (m st) as [[a|e] st']; auto. Qed.
  Hint Resolve adds_lift adds_ret adds_res adds_info adds_when adds_trace adds_closing adds_bind adds_with_log : adds.

  Lemma ls_adds cfg s u du nb bd : forall more k alpha, adds (line_search_l fsum tmax tmin say cfg s debug log u du nb bd more k alpha).
  Proof.
    induction more as [|more IH]; intros k alpha; cbn [line_search_l]; cbv zeta.
    all: apply adds_bind; [apply adds_lift|intros bt]; apply adds_bind; [apply adds_trace|intros _].
    all: match goal with |- context [forallb _ ?x] => destruct (forallb (fun b => b) x) end; auto with adds.
  Qed.
  Lemma iterate_adds cfg s i b0n hist u b fr : adds (iterate_l fsum tmax tmin say cfg s debug log i b0n hist u b fr).
  Proof.
    unfold iterate_l. apply adds_bind; [apply adds_lift|intros d]. cbv zeta. destruct (negb _); [apply adds_res|].
    apply adds_bind.
    - destruct (_ <=? _); [|apply ls_adds]. apply adds_bind; auto with adds.
    - intros [u' b']. apply adds_bind; auto with adds.
  Qed.
  Lemma loop_adds cfg s info b0n : forall left i hist u b, adds (solve_loop_l fsum tmax tmin say cfg s debug info log b0n left i hist u b).
  Proof.
    induction left as [|left IH]; intros i hist u b; cbn [solve_loop_l].
    - apply adds_bind; [|auto with adds]. apply adds_when. apply adds_bind; [apply adds_res|intros m]. apply adds_bind; auto with adds.
    - apply adds_bind; [apply iterate_adds|intros [u' b']]. destruct (check_stop _ _ _); [apply IH| |]; apply adds_bind; auto with adds.
  Qed.
  Lemma solve_adds cfg s u0 : is_on Debug = Ok debug -> adds (solve_l fsum tmax tmin say is_on cfg log s u0).
  Proof.
    intros Hd. apply adds_with_log, adds_bind; [apply adds_lift|intros b]. cbv zeta.
    rewrite Hd. intros st. rewrite lbind_run, lres_run. revert st.
    apply adds_bind; [apply adds_res|intros i]. apply adds_bind; [apply adds_when, adds_info|intros _].
    apply adds_bind; [apply adds_trace|intros _]. destruct (check_converged _ _ _); [apply adds_bind; auto with adds|apply loop_adds].
  Qed.
  Lemma masked_loop_adds cfg s b0n : forall left i fr conv hist u b, adds (masked_loop_l fsum tmax tmin say cfg s debug log b0n left i fr conv hist u b).
  Proof.
    induction left as [|left IH]; intros i fr conv hist u b; cbn [masked_loop_l]; [apply adds_ret|].
    apply adds_bind; [apply iterate_adds|intros [u' b']]. cbv zeta. destruct (forallb _ _); [apply adds_ret|apply IH].
  Qed.
  Lemma masked_adds cfg s u0 : is_on Debug = Ok debug -> adds (solve_masked_l fsum tmax tmin say is_on cfg log s u0).
  Proof.
    intros Hd. apply adds_with_log, adds_bind; [apply adds_lift|intros b]. cbv zeta.
    rewrite Hd. intros st. rewrite lbind_run, lres_run. revert st. destruct (forallb _ _); [apply adds_ret|].
    apply masked_loop_adds.
  Qed.
End Closed.
