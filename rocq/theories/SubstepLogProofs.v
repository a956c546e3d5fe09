(** Lemmas about the watched substepping drivers (SubstepLog.v). *)
From Verif Require Import Base BaseProofs SpecMap SmapProofs Tensor Spec TensorProofs BatchChunk Broadcast Pack Implicit Substep SpecSubstep DriveProofs
     RowTableProofs SubstepProofs SubstepRunProofs Jac SubstepJac SubstepJacProofs SubstepJacRunProofs Log SubstepLog SpecSubstepLog.

(** ** Masks *)
Lemma positions_count x mask : forall i, length (positions x i mask) = count x mask.
Proof.
  unfold count. induction mask as [|y mask IH]; intros i; [reflexivity|]. cbn [positions filter].
  destruct (Bool.eqb x y); cbn [length]; rewrite IH; reflexivity.
Qed.
Lemma chosen_left_over active mask : chosen false active mask = left_over active mask.
Proof. reflexivity. Qed.
Lemma pick_positions pre l x m fg :
  pick (pre ++ l) (positions x (Z.of_nat (length pre)) m) = Ok fg -> fg = chosen x l m.
Proof.
  revert pre l fg. induction m as [|y m IH]; intros pre l fg H.
  - injection H as <-. unfold chosen. rewrite combine_nil. reflexivity.
  - cbn [positions] in H. unfold chosen. destruct l as [|z l].
    + cbn [combine filter map]. rewrite app_nil_r in H. destruct (Bool.eqb x y) eqn:E.
      * unfold pick in H. cbn [mapM] in H. rewrite Nat2Z.id in H.
        rewrite (proj2 (nth_error_None pre (length pre))) in H by lia. discriminate.
      * assert (Q : forall m i, (Z.of_nat (length pre) <= i)%Z -> forall fg, pick pre (positions x i m) = Ok fg -> fg = []).
        { clear. intros m. induction m as [|y m IH]; intros i Hi fg H; [injection H as <-; reflexivity|]. cbn [positions] in H.
          destruct (Bool.eqb x y); [|apply (IH (i + 1)%Z); [lia|exact H]].
          unfold pick in H. cbn [mapM] in H. rewrite (proj2 (nth_error_None pre (Z.to_nat i))) in H by lia. discriminate. }
        apply (Q m (Z.of_nat (length pre) + 1)%Z); [lia|exact H].
    + cbn [combine filter snd]. specialize (IH (pre ++ [z]) l). rewrite <- app_assoc in IH. cbn [app] in IH.
      rewrite app_length in IH. cbn [length] in IH. rewrite Nat2Z.inj_add in IH. change (Z.of_nat 1) with 1%Z in IH.
      destruct (Bool.eqb x y); [|exact (IH fg H)]. unfold pick in H, IH. cbn [mapM] in H.
      rewrite Nat2Z.id, nth_error_app2, Nat.sub_diag in H by lia. cbn [nth_error bind] in H.
      destruct (mapM _ (positions x (Z.of_nat (length pre) + 1) m)) as [fg'|e] eqn:E; [|discriminate]. injection H as <-.
      cbn [map fst]. f_equal. exact (IH fg' eq_refl).
Qed.
Lemma pick_left_over active mask fg : pick active (positions false 0 mask) = Ok fg -> fg = left_over active mask.
Proof. intros H. rewrite <- chosen_left_over. exact (pick_positions [] active false mask fg H). Qed.
Lemma positions_none mask i : positions false i mask = [] <-> ~ In false mask.
Proof.
  revert i. induction mask as [|y mask IH]; intros i; [split; [intros _ []|reflexivity]|]. cbn [positions]. destruct y; cbn [Bool.eqb].
  - rewrite IH. cbn [In]. intuition discriminate.
  - split; [discriminate|]. intros H. destruct H. left. reflexivity.
Qed.

Lemma solves_app {V} (l l' : list (span_event (V := V))) : solves_of (l ++ l') = solves_of l ++ solves_of l'.
Proof. apply flat_map_app. Qed.

Section Halved.
  Context {V : Type}.
  Variable half_way : V -> V -> V.
  Lemma halved_more n a b x y : halved half_way n a b x y ->
    halved half_way (S n) a b x (half_way x y) /\ halved half_way (S n) a b (half_way x y) y.
  Proof.
    induction 1 as [a b|n a b x y H [H1 H2]|n a b x y H [H1 H2]].
    - split; [apply halved_left|apply halved_right]; apply halved_none.
    - split; apply halved_left; assumption.
    - split; apply halved_right; assumption.
  Qed.
End Halved.

Section Told.
  Context {V : Type}.
  Variable half_way : V -> V -> V.
  Variables lo hi : V.
  Lemma told_weak debug l : told half_way lo hi debug true l -> forall c, told half_way lo hi debug c l.
  Proof.
    intros H c. remember true as t eqn:Et. induction H; try discriminate; try (constructor; auto; fail).
  Qed.
  Lemma told_app debug c l l' : told half_way lo hi debug true l -> told half_way lo hi debug c l' -> told half_way lo hi debug c (l ++ l').
  Proof.
    intros H H'. remember true as t eqn:Et. induction H; cbn [app]; try discriminate; [exact H'|apply told_solve; auto|apply told_line; auto].
  Qed.
End Told.

(** ** What is said, whatever the outcome and whatever the sink does *)
Section Watched.
  Context {V Bufs Span : Type}.
  Variable A : arith V.
  Notation vmap := (smap (tensor V)).
  Variable say : list (level * span_note V) -> level -> span_note V -> result unit.
  Variable capture debug : bool.
  Variable unknowns : list var_info.
  Variable dyn : option (list nat).
  Variable solve : V -> V -> list Z -> Bufs -> result (Span * list bool).
  Variable values : Span -> vmap.
  Variable save : list Z -> list Z -> Span -> Bufs -> result Bufs.
  Notation go := (watch_to A say capture debug unknowns dyn solve values save).
  Notation half_way := (middle A).

  Definition first_failed (l : list (solve_log (V := V))) : nat :=
    match l with [] => 0 | (_, _, _, mask) :: _ => count false mask end.

  (** One solve, up to what is stored. *)
  Definition head (lev : nat) (a b : V) (active : list Z) (bufs : Bufs) (w : watch) : result (Bufs * list bool) * watch :=
    match solve a b active bufs with
    | Err e => (Err e, w)
    | Ok (span, mask) =>
        let w1 := snd (count_solve lev (a, b, active, mask) (count false mask) w) in
        match capture_at capture unknowns values lev mask span w1 with
        | (Err e, w2) => (Err e, w2)
        | (Ok _, w2) =>
            match wwhen debug (emit say Debug (NSpan a b lev (length active) (count true mask) (count false mask))) w2 with
            | (Err e, w3) => (Err e, w3)
            | (Ok _, w3) => match save active (positions true 0 mask) span bufs with Err e => (Err e, w3) | Ok bufs' => (Ok (bufs', mask), w3) end
            end
        end
    end.
  Definition rest (left lev : nat) (a b : V) (active : list Z) (bufs : Bufs) (mask : list bool) : wio (V := V) Bufs :=
    if forallb (fun x => x) mask then wret bufs
    else match left with
         | 0 => give_up capture unknowns dyn (count false mask) lev
         | S left' => fun w =>
             match pick active (positions false 0 mask) with
             | Err e => (Err e, w)
             | Ok fg =>
                 match go left' (S lev) a (half_way a b) fg bufs w with
                 | (Err e, w1) => (Err e, w1)
                 | (Ok bufs1, w1) => go left' (S lev) (half_way a b) b fg bufs1 w1
                 end
             end
         end.
  Lemma forallb_none mask : forallb (fun x => x) mask = match positions false 0 mask with [] => true | _ => false end.
  Proof using.
    destruct (positions false 0 mask) eqn:E.
    - apply forallb_forall. intros [] I; [reflexivity|]. apply positions_none in E. contradiction.
    - destruct (forallb (fun x => x) mask) eqn:F; [|reflexivity]. rewrite forallb_forall in F.
      assert (Q : positions false 0 mask = []) by (apply positions_none; intros I; specialize (F _ I); discriminate). rewrite Q in E. discriminate.
  Qed.
  Lemma watch_step left lev a b active bufs w : go left lev a b active bufs w =
    match head lev a b active bufs w with
    | (Err e, w1) => (Err e, w1)
    | (Ok (bufs', mask), w1) => rest left lev a b active bufs' mask w1
    end.
  Proof.
    destruct left as [|left]; cbn [watch_to]; unfold head, wbind at 1, wres at 1;
      (destruct (solve a b active bufs) as [[span mask]|e]; [|reflexivity]); rewrite !positions_count; unfold wbind at 1;
      destruct (count_solve lev (a, b, active, mask) (count false mask) w) as [q w1] eqn:E1; unfold count_solve in E1; injection E1 as <- <-;
      unfold count_solve; cbn [snd]; set (w1 := mkWatch _ _ _ _ _ _ _); unfold wbind at 1;
      (destruct (capture_at capture unknowns values lev mask span w1) as [[[]|e] w2]; [|reflexivity]); unfold wbind at 1;
      (destruct (wwhen debug _ w2) as [[[]|e] w3]; [|reflexivity]); unfold wbind at 1, wres at 1;
      (destruct (save active (positions true 0 mask) span bufs) as [bufs'|e]; [|reflexivity]); unfold rest; rewrite forallb_none;
      destruct (positions false 0 mask) as [|p ps] eqn:Ep; try reflexivity; rewrite <- Ep; reflexivity.
  Qed.

  Lemma head_told lev a b active bufs w r w1 :
    halved half_way lev (a_zero A) (a_one A) a b -> head lev a b active bufs w = (r, w1) ->
    exists new, w_events w1 = w_events w ++ new /\
      told half_way (a_zero A) (a_one A) debug (is_ok r || negb capture) new /\
      w_solves w1 = w_solves w + length (solves_of new) /\
      w_attached w1 = w_attached w /\ w_raised w1 = w_raised w /\
      (forall bufs' mask, r = Ok (bufs', mask) -> solves_of new = [(a, b, active, mask)] /\
         told half_way (a_zero A) (a_one A) debug true new /\
         w_depth w1 = Nat.max (w_depth w) lev /\ w_sub w1 = if lev =? 0 then count false mask else w_sub w).
  Proof.
    intros Hh H. unfold head in H. destruct (solve a b active bufs) as [[span mask]|e].
    2: { injection H as <- <-. exists []. rewrite app_nil_r. split; [reflexivity|]. split; [constructor|]. split; [cbn; lia|].
         split; [reflexivity|]. split; [reflexivity|]. intros; discriminate. }
    unfold count_solve in H. cbn [snd] in H. set (w0 := mkWatch _ _ _ _ _ _ _) in H.
    assert (C : forall q w2, capture_at capture unknowns values lev mask span w0 = (q, w2) ->
      w_events w2 = w_events w0 /\ w_solves w2 = w_solves w0 /\ w_attached w2 = w_attached w0 /\ w_raised w2 = w_raised w0 /\
      w_depth w2 = w_depth w0 /\ w_sub w2 = w_sub w0 /\ (capture = false -> q = Ok tt)).
    { intros q w2 Hq. unfold capture_at, wwhen in Hq. destruct (capture && (lev =? 0)) eqn:Ec.
      - unfold wbind, wres in Hq. destruct (take_all _ _ _) as [us|e].
        + injection Hq as <- <-. cbn [w_events w_solves w_attached w_raised w_depth w_sub]. repeat split.
        + injection Hq as <- <-. repeat split. intros ->. discriminate.
      - injection Hq as <- <-. repeat split. }
    destruct (capture_at capture unknowns values lev mask span w0) as [[[]|e] w2] eqn:E2; destruct (C _ _ eq_refl) as [C1 [C2 [C3 [C4 [C5 [C6 C7]]]]]]; clear C.
    2: { injection H as <- <-. exists [ESolve (a, b, active, mask)]. rewrite C1, C2, C3, C4. cbn [w_events w_solves w_attached w_raised w0].
         split; [reflexivity|]. split.
         { cbn [is_ok orb]. destruct capture; [apply told_cut|]. specialize (C7 eq_refl). discriminate. }
         split; [cbn; lia|]. split; [reflexivity|]. split; [reflexivity|]. intros; discriminate. }
    set (line := NSpan a b lev (length active) (count true mask) (count false mask)) in H.
    set (new := ESolve (a, b, active, mask) :: if debug then [ELine Debug line] else []).
    assert (T : told half_way (a_zero A) (a_one A) debug true new).
    { unfold new. destruct debug; [|apply told_solve; [reflexivity|constructor]]. unfold line. apply told_line; [reflexivity|exact Hh|constructor]. }
    assert (D : forall q w3, wwhen debug (emit say Debug line) w2 = (q, w3) ->
      w_events w3 = w_events w ++ new /\ w_solves w3 = S (w_solves w) /\ w_attached w3 = w_attached w /\ w_raised w3 = w_raised w /\
      w_depth w3 = Nat.max (w_depth w) lev /\ w_sub w3 = if lev =? 0 then count false mask else w_sub w).
    { intros q w3 Hq. unfold wwhen, emit, wret in Hq. unfold new. destruct debug; injection Hq as <- <-;
        cbn [w_events w_solves w_attached w_raised w_depth w_sub]; rewrite C1, C2, C3, C4, C5, C6; cbn [w_events w_solves w_attached w_raised w_depth w_sub w0];
        rewrite <- ?app_assoc; repeat split. }
    assert (L : length (solves_of new) = 1) by (unfold new; destruct debug; reflexivity).
    assert (S1 : solves_of new = [(a, b, active, mask)]) by (unfold new; destruct debug; reflexivity).
    destruct (wwhen debug (emit say Debug line) w2) as [[[]|e] w3]; destruct (D _ _ eq_refl) as [D1 [D2 [D3 [D4 [D5 D6]]]]]; clear D.
    - destruct (save active (positions true 0 mask) span bufs) as [bufs'|e]; injection H as <- <-; exists new.
      + split; [exact D1|]. split; [apply told_weak; exact T|]. split; [rewrite D2, L; lia|]. split; [exact D3|]. split; [exact D4|].
        intros bf mk E. injection E as <- <-. split; [exact S1|]. split; [exact T|]. split; [exact D5|exact D6].
      + split; [exact D1|]. split; [apply told_weak; exact T|]. split; [rewrite D2, L; lia|]. split; [exact D3|]. split; [exact D4|]. intros; discriminate.
    - injection H as <- <-. exists new.
      split; [exact D1|]. split; [apply told_weak; exact T|]. split; [rewrite D2, L; lia|]. split; [exact D3|]. split; [exact D4|]. intros; discriminate.
  Qed.

  Lemma watch_told left : forall lev a b active bufs w r w',
    halved half_way lev (a_zero A) (a_one A) a b ->
    go left lev a b active bufs w = (r, w') ->
    exists new, w_events w' = w_events w ++ new /\
      told half_way (a_zero A) (a_one A) debug (is_ok r || negb capture) new /\
      w_solves w' = w_solves w + length (solves_of new) /\
      (forall x, r = Ok x -> told half_way (a_zero A) (a_one A) debug true new /\
         exists d, bisected half_way lev a b active (solves_of new) d /\ lev <= d /\
         w_depth w' = Nat.max (w_depth w) d /\ w_sub w' = (if lev =? 0 then first_failed (solves_of new) else w_sub w) /\
         w_attached w' = w_attached w /\ w_raised w' = w_raised w).
  Proof.
    induction left as [|left IH]; intros lev a b active bufs w r w' Hh H; rewrite watch_step in H;
      destruct (head lev a b active bufs w) as [[[bufs1 mask]|e] w1] eqn:Eh; destruct (head_told _ _ _ _ _ _ _ _ Hh Eh) as [new [E1 [T1 [L1 [A1 [R1 G]]]]]].
    2,4: injection H as <- <-; exists new; split; [exact E1|]; split; [exact T1|]; split; [exact L1|]; intros x Hx; discriminate.
    all: destruct (G _ _ eq_refl) as [S1 [T1' [D1 U1]]]; clear G; unfold rest in H; destruct (forallb (fun x => x) mask) eqn:Ef.
    1,3: injection H as <- <-; exists new; split; [exact E1|]; split; [exact T1|]; split; [exact L1|]; intros x Hx; split; [exact T1'|]; exists lev;
      rewrite S1; split; [constructor; rewrite forallb_none in Ef; apply (positions_none mask 0); destruct (positions false 0 mask); [reflexivity|discriminate]|];
      split; [lia|]; split; [exact D1|]; split; [exact U1|]; split; [exact A1|exact R1].
    - (* at the last level *)
      assert (Q : w_events w' = w_events w1 /\ w_solves w' = w_solves w1 /\ is_ok r = false).
      { unfold give_up in H. destruct capture.
        - destruct (w_cap w1) as [[mk us]|].
          + unfold wbind, wres in H. destruct (put_results unknowns us dyn []) as [stuck|e]; [|injection H as <- <-; repeat split].
            destruct (reshape_mask mk dyn) as [[sh mk']|e]; injection H as <- <-; repeat split.
          + injection H as <- <-. repeat split.
        - injection H as <- <-. repeat split. }
      destruct Q as [Q1 [Q2 Q3]]. exists new. rewrite Q1, Q2, Q3. split; [exact E1|]. split; [apply told_weak; exact T1'|]. split; [exact L1|].
      intros x ->. discriminate.
    - destruct (pick active (positions false 0 mask)) as [fg|e] eqn:Ep.
      2: { injection H as <- <-. exists new. split; [exact E1|]. split; [apply told_weak; exact T1'|]. split; [exact L1|]. intros x Hx; discriminate. }
      apply pick_left_over in Ep. subst fg. destruct (halved_more _ _ _ _ _ _ Hh) as [Ha Hb].
      assert (Fm : In false mask).
      { destruct (in_dec bool_dec false mask) as [I|I]; [exact I|]. rewrite forallb_none in Ef. rewrite (proj2 (positions_none mask 0) I) in Ef. discriminate. }
      destruct (go left (S lev) a (half_way a b) (left_over active mask) bufs1 w1) as [[bufs2|e] w2] eqn:G1.
      + destruct (IH _ _ _ _ _ _ _ _ Ha G1) as [n1 [E2 [_ [L2 G2]]]]. destruct (G2 _ eq_refl) as [T2 [d1 [B1 [Hd1 [D2 [U2 [A2 R2]]]]]]]. clear G2.
        destruct (IH _ _ _ _ _ _ _ _ Hb H) as [n2 [E3 [T3 [L3 G3]]]].
        exists (new ++ n1 ++ n2). rewrite !solves_app, S1. cbn [app].
        split; [rewrite E3, E2, E1, !app_assoc; reflexivity|]. split; [apply told_app; [exact T1'|]; apply told_app; assumption|].
        split; [rewrite L3, L2, L1, S1; cbn [length]; rewrite app_length; lia|].
        intros x Hx. destruct (G3 x Hx) as [T3' [d2 [B2 [Hd2 [D3 [U3 [A3 R3]]]]]]]. split; [apply told_app; [exact T1'|]; apply told_app; assumption|].
        exists (Nat.max d1 d2). split; [constructor; assumption|]. split; [lia|]. split; [rewrite D3, D2, D1; lia|].
        split; [|split; [rewrite A3, A2; exact A1|rewrite R3, R2; exact R1]]. rewrite U3, U2, U1. cbn [Nat.eqb]. reflexivity.
      + injection H as <- <-. destruct (IH _ _ _ _ _ _ _ _ Ha G1) as [n1 [E2 [T2 [L2 _]]]].
        exists (new ++ n1). rewrite solves_app, S1. split; [rewrite E2, E1, app_assoc; reflexivity|].
        split; [apply told_app; assumption|]. split; [rewrite L2, L1, S1; cbn [app length]; lia|]. intros x Hx. discriminate.
  Qed.

  (** ** The same without watching *)
  Hypothesis patience : patient say.
  Variable ok_rows : list Z -> Prop.
  Variable good : Bufs -> Prop.
  Hypothesis rows_left : forall active mask, ok_rows active -> ok_rows (left_over active mask).
  Hypothesis good_step : forall a b active buf span mask buf', ok_rows active -> good buf ->
    solve a b active buf = Ok (span, mask) -> save active (positions true 0 mask) span buf = Ok buf' -> good buf'.

  Definition bare (a b : V) (active : list Z) (buf : Bufs) : result (list bool * result Bufs) :=
    match solve a b active buf with
    | Err e => Err e
    | Ok (span, mask) => Ok (mask, save active (positions true 0 mask) span buf)
    end.
  (** An error that is not the driver's own. *)
  Definition broke (e : exn) : Prop := exists a b active buf, ok_rows active /\ good buf /\
    (solve a b active buf = Err e \/
     exists span mask, solve a b active buf = Ok (span, mask) /\
       (save active (positions true 0 mask) span buf = Err e \/ pick active (positions false 0 mask) = Err e)).
  (** The context, if there is to be one, can be built. *)
  Definition ready (c : option (context (V := V))) (cap : option (list bool * vmap)) : Prop :=
    if capture then exists mask us stuck sh mk, cap = Some (mask, us) /\ put_results unknowns us dyn [] = Ok stuck /\
                      reshape_mask mask dyn = Ok (sh, mk) /\ c = Some (mkContext sh mk stuck)
    else c = None.
  Definition last_failed (l : list (solve_log (V := V))) (k : nat) : Prop :=
    exists l' a b rows mask, l = l' ++ [(a, b, rows, mask)] /\ In false mask /\ k = count false mask.
  Definition gave_up (c : option (context (V := V))) (top : nat) (l : list (solve_log (V := V))) (w : watch (V := V)) : Prop :=
    w_attached w = c /\ exists k, w_raised w = Some (k, top) /\ last_failed l k.

  Lemma give_up_ready c failed lev w : ready c (w_cap w) ->
    give_up (Bufs := Bufs) capture unknowns dyn failed lev w = throw_failed failed lev c w.
  Proof.
    unfold ready, give_up. destruct capture; [|intros ->; reflexivity].
    intros [mask [us [stuck [sh [mk [-> [E1 [E2 ->]]]]]]]]. unfold wbind, wres. rewrite E1, E2. reflexivity.
  Qed.
  (** The solves so far. *)
  Definition made (w : watch (V := V)) : list (solve_log (V := V)) := solves_of (w_events w).
  Lemma wwhen_patient m w : exists w', wwhen debug (emit say Debug m) w = (Ok tt, w') /\ w_cap w' = w_cap w /\ made w' = made w /\
    w_attached w' = w_attached w /\ w_raised w' = w_raised w.
  Proof.
    unfold wwhen, emit, wret, made. destruct debug; eexists; [rewrite patience|]; (split; [reflexivity|]); repeat split.
    cbn [w_events]. rewrite solves_app. cbn. rewrite app_nil_r. reflexivity.
  Qed.

  Lemma last_failed_more l1 l k : last_failed l k -> last_failed (l1 ++ l) k.
  Proof. intros [l' [a [b [rows [mask [-> H]]]]]]. exists (l1 ++ l'), a, b, rows, mask. rewrite app_assoc. split; [reflexivity|exact H]. Qed.
  Lemma gave_up_more c top l1 l w : gave_up c top l w -> gave_up c top (l1 ++ l) w.
  Proof. intros [H [k [R L]]]. split; [exact H|]. exists k. split; [exact R|]. apply last_failed_more. exact L. Qed.

  (** The head of a solve whose rows need no capturing. *)
  Lemma head_bare lev a b active bufs w : lev <> 0 \/ capture = false ->
    exists w1, w_cap w1 = w_cap w /\ w_attached w1 = w_attached w /\ w_raised w1 = w_raised w /\
      made w1 = made w ++ match bare a b active bufs with Err _ => [] | Ok (mask, _) => [(a, b, active, mask)] end /\
      head lev a b active bufs w =
      (match bare a b active bufs with
       | Err e => Err e
       | Ok (_, Err e) => Err e
       | Ok (mask, Ok buf) => Ok (buf, mask)
       end, w1).
  Proof.
    intros Hl. unfold head, bare. destruct (solve a b active bufs) as [[span mask]|e]; [|exists w; rewrite app_nil_r; repeat split].
    unfold count_solve. cbn [snd]. set (w0 := mkWatch _ _ _ _ _ _ _).
    assert (E : capture_at capture unknowns values lev mask span w0 = (Ok tt, w0)).
    { unfold capture_at, wwhen. replace (capture && (lev =? 0)) with false; [reflexivity|]. symmetry. destruct Hl as [Hl| ->]; [|reflexivity].
      apply Nat.eqb_neq in Hl. rewrite Hl. apply andb_false_r. }
    rewrite E. destruct (wwhen_patient (NSpan a b lev (length active) (count true mask) (count false mask)) w0) as [w3 [E3 [C1 [M1 [C2 C3]]]]]. rewrite E3.
    exists w3. split; [exact C1|]. split; [exact C2|]. split; [exact C3|]. split; [rewrite M1; exact (solves_app (w_events w) [ESolve (a, b, active, mask)])|]. destruct (save active (positions true 0 mask) span bufs); reflexivity.
  Qed.

  Lemma bare_step a b active bufs mask buf' : ok_rows active -> good bufs -> bare a b active bufs = Ok (mask, Ok buf') -> good buf'.
  Proof.
    intros O G H. unfold bare in H. destruct (solve a b active bufs) as [[span mk]|e] eqn:E; [|discriminate]. injection H as <- H.
    exact (good_step _ _ _ _ _ _ _ O G E H).
  Qed.
  Lemma bare_err a b active bufs e : ok_rows active -> good bufs ->
    bare a b active bufs = Err e \/ (exists mask, bare a b active bufs = Ok (mask, Err e)) -> broke e.
  Proof.
    intros O G H. exists a, b, active, bufs. split; [exact O|]. split; [exact G|]. unfold bare in H.
    destruct (solve a b active bufs) as [[span mk]|e'].
    - right. exists span, mk. split; [reflexivity|]. left. destruct H as [H|[mask H]]; [discriminate|]. injection H as _ H. exact H.
    - left. destruct H as [H|[mask H]]; [injection H as <-; reflexivity|discriminate].
  Qed.
  Lemma none_at mask : positions false 0 mask = [] <-> forallb (fun x => x) mask = true.
  Proof using. rewrite forallb_none. destruct (positions false 0 mask); [split; reflexivity|split; discriminate]. Qed.
  Lemma some_false mask : forallb (fun x => x) mask = false -> In false mask.
  Proof using.
    intros H. destruct (in_dec bool_dec false mask) as [I|I]; [exact I|]. apply (positions_none mask 0) in I. apply none_at in I. rewrite I in H. discriminate.
  Qed.

  (** The error left by a run over [left] more levels from level [lev]. *)
  Definition ended (c : option context) (top : nat) (w w' : watch) (r : result Bufs) (l : list (solve_log (V := V))) : Prop :=
    made w' = made w ++ l /\
    match r with
    | Ok bufs => good bufs /\ w_attached w' = w_attached w /\ w_raised w' = w_raised w
    | Err e => gave_up c top l w' \/ (broke e /\ w_attached w' = w_attached w /\ w_raised w' = w_raised w)
    end.

  Definition tail (left : nat) (a b : V) (active : list Z) (mask : list bool) (buf : Bufs) : result Bufs * list (solve_log (V := V)) :=
    match positions false 0 mask with
    | [] => (Ok buf, [(a, b, active, mask)])
    | _ =>
        match left with
        | 0 => (Err (Convergence "aoti::Model substepping: element(s) failed to converge at max_substepping_level"), [(a, b, active, mask)])
        | S left' =>
            match pick active (positions false 0 mask) with
            | Err e => (Err e, [(a, b, active, mask)])
            | Ok fail_g =>
                let (r1, l1) := drive half_way bare left' a (half_way a b) fail_g buf in
                match r1 with
                | Err e => (Err e, (a, b, active, mask) :: l1)
                | Ok buf => let (r2, l2) := drive half_way bare left' (half_way a b) b fail_g buf in (r2, (a, b, active, mask) :: l1 ++ l2)
                end
            end
        end
    end.
  Lemma drive_tail left a b active bufs : drive half_way bare left a b active bufs =
    match bare a b active bufs with
    | Err e => (Err e, [])
    | Ok (mask, Err e) => (Err e, [(a, b, active, mask)])
    | Ok (mask, Ok buf) => tail left a b active mask buf
    end.
  Proof using. destruct left; reflexivity. Qed.

  Definition follows (left : nat) : Prop := forall lev a b active bufs w c,
    (lev <> 0 \/ capture = false) -> ready c (w_cap w) -> ok_rows active -> good bufs ->
    exists w', go left lev a b active bufs w = (fst (drive half_way bare left a b active bufs), w') /\ w_cap w' = w_cap w /\
      ended c (lev + left) w w' (fst (drive half_way bare left a b active bufs)) (snd (drive half_way bare left a b active bufs)).

  Lemma rest_tail left lev a b active buf1 mask w1 c : (forall left', left = S left' -> follows left') ->
    ready c (w_cap w1) -> ok_rows active -> good buf1 -> (forall e, pick active (positions false 0 mask) = Err e -> broke e) ->
    exists w', rest left lev a b active buf1 mask w1 = (fst (tail left a b active mask buf1), w') /\ w_cap w' = w_cap w1 /\
      forall w, made w1 = made w ++ [(a, b, active, mask)] -> w_attached w1 = w_attached w -> w_raised w1 = w_raised w ->
        ended c (lev + left) w w' (fst (tail left a b active mask buf1)) (snd (tail left a b active mask buf1)).
  Proof.
    intros IH Hr Ho Hg1 Hb. unfold rest, tail. destruct (forallb (fun x => x) mask) eqn:Ef.
    { rewrite (proj2 (none_at mask) Ef). cbn [fst snd]. exists w1. split; [reflexivity|]. split; [reflexivity|]. intros w M A1 R1. split; [exact M|]. split; [exact Hg1|]. split; assumption. }
    destruct (positions false 0 mask) as [|p ps] eqn:Ep; [apply none_at in Ep; rewrite Ep in Ef; discriminate|]. rewrite <- Ep in *. clear p ps Ep.
    destruct left as [|left].
    - rewrite (give_up_ready c) by exact Hr. cbn [fst snd]. eexists. split; [reflexivity|]. cbn [w_cap]. split; [reflexivity|]. intros w M A1 R1. split; [exact M|]. left. split; [reflexivity|].
      cbn [w_raised]. exists (count false mask). rewrite Nat.add_0_r. split; [reflexivity|]. exists [], a, b, active, mask. split; [reflexivity|].
      split; [apply some_false; exact Ef|reflexivity].
    - specialize (IH left eq_refl). destruct (pick active (positions false 0 mask)) as [fg|e] eqn:Ek.
      2: { cbn [fst snd]. exists w1. split; [reflexivity|]. split; [reflexivity|]. intros w M A1 R1. split; [exact M|]. right. split; [|split; assumption]. apply Hb. reflexivity. }
      pose proof (pick_left_over _ _ _ Ek) as ->. clear Ek. specialize (rows_left active mask Ho) as Ho1.
      destruct (IH (S lev) a (half_way a b) (left_over active mask) buf1 w1 c) as [w2 [G1 [C2 N1]]]; [left; discriminate|exact Hr|exact Ho1|exact Hg1|].
      rewrite G1. destruct (drive half_way bare left a (half_way a b) (left_over active mask) buf1) as [[buf2|e] l1]; cbn [fst snd] in *.
      + destruct N1 as [M1 [Hg2 [A2 R2]]].
        destruct (IH (S lev) (half_way a b) b (left_over active mask) buf2 w2 c) as [w3 [G2 [C3 N2]]];
          [left; discriminate|rewrite C2; exact Hr|exact Ho1|exact Hg2|].
        rewrite G2. destruct (drive half_way bare left (half_way a b) b (left_over active mask) buf2) as [r2 l2]. cbn [fst snd] in *.
        exists w3. split; [reflexivity|]. split; [rewrite C3, C2; reflexivity|]. rewrite Nat.add_succ_r. cbn [Nat.add] in N2. destruct N2 as [M2 N2]. intros w M A1 R1.
        split; [rewrite M2, M1, M, <- !app_assoc; reflexivity|]. destruct r2 as [buf3|e].
        * destruct N2 as [Hg3 [A3 R3]]. split; [exact Hg3|]. rewrite A3, A2, R3, R2. split; assumption.
        * destruct N2 as [N2|[N2 [A3 R3]]]; [left|right; split; [exact N2|]; rewrite A3, A2, R3, R2; split; assumption].
          apply (gave_up_more _ _ ((a, b, active, mask) :: l1)). exact N2.
      + exists w2. split; [reflexivity|]. split; [exact C2|]. rewrite Nat.add_succ_r. cbn [Nat.add] in N1. destruct N1 as [M1 N1]. intros w M A1 R1.
        split; [rewrite M1, M, <- app_assoc; reflexivity|].
        destruct N1 as [N1|[N1 [A2 R2]]]; [left|right; split; [exact N1|]; rewrite A2, R2; split; assumption].
        apply (gave_up_more _ _ [(a, b, active, mask)]). exact N1.
  Qed.

  Lemma bare_pick a b active bufs mask q e : ok_rows active -> good bufs -> bare a b active bufs = Ok (mask, q) ->
    pick active (positions false 0 mask) = Err e -> broke e.
  Proof.
    intros Ho Hg Eb Ek. unfold bare in Eb. destruct (solve a b active bufs) as [[span mk]|e'] eqn:Es; [|discriminate]. injection Eb as -> Eb.
    exists a, b, active, bufs. split; [exact Ho|]. split; [exact Hg|]. right. exists span, mask. split; [exact Es|]. right. exact Ek.
  Qed.
  Lemma watch_bare left : follows left.
  Proof.
    induction left as [|left IH]; intros lev a b active bufs w c Hl Hr Ho Hg; rewrite watch_step, drive_tail;
      destruct (head_bare lev a b active bufs w Hl) as [w1 [C1 [A1 [R1 [M1 ->]]]]];
      destruct (bare a b active bufs) as [[mask [buf1|e]]|e] eqn:Eb; cbn [fst snd].
    2,3,5,6: exists w1; split; [reflexivity|]; split; [exact C1|]; split; [exact M1|]; right; split; [|split; assumption]; apply (bare_err a b active bufs e Ho Hg); rewrite Eb; eauto.
    all: pose proof (bare_step a b active bufs mask buf1 Ho Hg Eb) as Hg1.
    - destruct (rest_tail 0 lev a b active buf1 mask w1 c) as [w' [G [C' N]]]; [discriminate|rewrite C1; exact Hr|exact Ho|exact Hg1|
        intros e Ek; exact (bare_pick _ _ _ _ _ _ _ Ho Hg Eb Ek)|].
      exists w'. split; [exact G|]. split; [rewrite C'; exact C1|]. exact (N w M1 A1 R1).
    - destruct (rest_tail (S left) lev a b active buf1 mask w1 c) as [w' [G [C' N]]]; [intros l' El; injection El as <-; exact IH|rewrite C1; exact Hr|exact Ho|exact Hg1|
        intros e Ek; exact (bare_pick _ _ _ _ _ _ _ Ho Hg Eb Ek)|].
      exists w'. split; [exact G|]. split; [rewrite C'; exact C1|]. exact (N w M1 A1 R1).
  Qed.

  (** What a failure of the run that starts with this solve is to carry. *)
  Definition carries (c : option (context (V := V))) (span : Span) (mask : list bool) : Prop :=
    if capture then exists us stuck sh mk,
      take_all (unknown_srcs unknowns) (values span) [] = Ok us /\ put_results unknowns us dyn [] = Ok stuck /\
      reshape_mask mask dyn = Ok (sh, mk) /\ c = Some (mkContext sh mk stuck)
    else c = None.

  Lemma watch_top left a b active bufs w : ok_rows active -> good bufs ->
    (forall span mask, solve a b active bufs = Ok (span, mask) -> exists c, carries c span mask) ->
    exists w', go left 0 a b active bufs w = (fst (drive half_way bare left a b active bufs), w') /\
      ((exists e, solve a b active bufs = Err e /\ w' = w) \/
       exists span mask c, solve a b active bufs = Ok (span, mask) /\ carries c span mask /\
         ended c left w w' (fst (drive half_way bare left a b active bufs)) (snd (drive half_way bare left a b active bufs))).
  Proof.
    intros Ho Hg Hc. rewrite watch_step, drive_tail. unfold head.
    assert (Eb : bare a b active bufs = match solve a b active bufs with Err e => Err e | Ok (span, mask) => Ok (mask, save active (positions true 0 mask) span bufs) end) by reflexivity.
    destruct (solve a b active bufs) as [[span mask]|e]; rewrite Eb; [|exists w; split; [reflexivity|left; exists e; split; reflexivity]].
    destruct (Hc span mask eq_refl) as [c Hcc]. unfold count_solve. cbn [snd]. set (w0 := mkWatch _ _ _ _ _ _ _).
    assert (E : exists w2, capture_at capture unknowns values 0 mask span w0 = (Ok tt, w2) /\ ready c (w_cap w2) /\ made w2 = made w ++ [(a, b, active, mask)] /\
      w_attached w2 = w_attached w /\ w_raised w2 = w_raised w).
    { unfold capture_at, wwhen, ready, carries in *. destruct capture; cbn [andb Nat.eqb].
      - destruct Hcc as [us [stuck [sh [mk [E1 [E2 [E3 ->]]]]]]]. unfold wbind, wres. rewrite E1. eexists. split; [reflexivity|]. cbn [w_cap w_attached w_raised w0].
        split; [|split; [exact (solves_app (w_events w) [ESolve (a, b, active, mask)])|split; reflexivity]]. exists mask, us, stuck, sh, mk. repeat split; assumption.
      - exists w0. split; [reflexivity|]. split; [exact Hcc|]. split; [exact (solves_app (w_events w) [ESolve (a, b, active, mask)])|]. split; reflexivity. }
    destruct E as [w2 [-> [Hr [M2 [A2 R2]]]]].
    destruct (wwhen_patient (NSpan a b 0 (length active) (count true mask) (count false mask)) w2) as [w3 [-> [C3 [M3 [A3 R3]]]]]. rewrite A2 in A3. rewrite R2 in R3.
    destruct (save active (positions true 0 mask) span bufs) as [buf1|e] eqn:Es.
    - pose proof (bare_step a b active bufs mask buf1 Ho Hg Eb) as Hg1.
      destruct (rest_tail left 0 a b active buf1 mask w3 c) as [w' [G [C' N]]]; [intros l' _; apply watch_bare|rewrite C3; exact Hr|exact Ho|exact Hg1|
        intros e Ek; exact (bare_pick _ _ _ _ _ _ _ Ho Hg Eb Ek)|].
      exists w'. split; [exact G|]. right. exists span, mask, c. split; [reflexivity|]. split; [exact Hcc|]. rewrite M2 in M3. exact (N w M3 A3 R3).
    - exists w3. split; [reflexivity|]. right. exists span, mask, c. split; [reflexivity|]. split; [exact Hcc|]. split; [rewrite M3; exact M2|]. right. split; [|split; assumption].
      apply (bare_err a b active bufs e Ho Hg). right. exists mask. exact Eb.
  Qed.
End Watched.
