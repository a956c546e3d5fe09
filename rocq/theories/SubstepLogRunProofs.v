(** Lemmas about the whole of the watched substepping drivers. *)
From Verif Require Import Base Log BaseProofs SpecMap SmapProofs Tensor Spec TensorProofs BatchChunk SelectProofs Broadcast BroadcastProofs Pack Implicit ImplicitProofs
     Substep SpecSubstep DriveProofs RowTableProofs SubstepProofs SubstepRunProofs Mat Jac SubstepJac SpecSubstepJac SubstepJacProofs SubstepJacRunProofs
     SubstepLog SpecSubstepLog SubstepLogProofs.

(** ** After the start: the questions to the log, the recursion, the summary, and what is done with the result *)
Section Finish.
  Context {V Bufs Span X : Type}.
  Variable A : arith V.
  Notation vmap := (smap (tensor V)).
  Variable say : list (level * span_note V) -> level -> span_note V -> result unit.
  Variable is_on : level -> result bool.
  Variable capture : bool.
  Variable unknowns : list var_info.
  Variable dyn : option (list nat).
  Variable solve : V -> V -> list Z -> Bufs -> result (Span * list bool).
  Variable values : Span -> vmap.
  Variable save : list Z -> list Z -> Span -> Bufs -> result Bufs.
  Variable path : string.
  Variable put : Bufs -> result X.
  Notation half_way := (middle A).

  Definition finish (level B : nat) (bufs : Bufs) : wio (V := V) X := fun w =>
    match is_on Info with
    | Err e => (Err e, w)
    | Ok info =>
        match is_on Debug with
        | Err e => (Err e, w)
        | Ok debug =>
            match watch_to A say capture debug unknowns dyn solve values save level 0 (a_zero A) (a_one A) (map Z.of_nat (seq 0 B)) bufs w with
            | (Err e, w1) => (Err e, w1)
            | (Ok bufs', w1) =>
                match summary say info path B w1 with
                | (Err e, w2) => (Err e, w2)
                | (Ok _, w2) => (put bufs', w2)
                end
            end
        end
    end.

  Lemma finish_said level B bufs info debug r w : is_on Info = Ok info -> is_on Debug = Ok debug ->
    finish level B bufs watch0 = (r, w) -> said A path info debug (is_ok r || negb capture) (is_ok r) (w_events w).
  Proof.
    intros Ei Ed H. unfold finish in H. rewrite Ei, Ed in H.
    destruct (watch_to A say capture debug unknowns dyn solve values save level 0 (a_zero A) (a_one A) (map Z.of_nat (seq 0 B)) bufs watch0) as [[bufs'|e] w1] eqn:E;
      destruct (watch_told A say capture debug unknowns dyn solve values save level 0 _ _ _ _ _ _ _ (halved_none half_way (a_zero A) (a_one A)) E) as [new [E1 [T1 [L1 G]]]];
      cbn [w_events watch0 app] in E1.
    2: { injection H as <- <-. exists new. cbn zeta. rewrite E1. split; [exact T1|]. left. split; [reflexivity|]. reflexivity. }
    destruct (G bufs' eq_refl) as [T2 [d [Bi [_ [D1 [U1 _]]]]]]. clear G.
    assert (Sh : exists mask later, solves_of new = (a_zero A, a_one A, map Z.of_nat (seq 0 B), mask) :: later).
    { inversion Bi; eexists _, _; reflexivity. }
    destruct Sh as [mask [later Sh]].
    assert (U2 : w_sub w1 = count false mask) by (rewrite U1, Sh; reflexivity).
    cbn [w_depth w_solves watch0 Nat.max Nat.add] in D1, L1.
    unfold summary, wwhen in H. destruct info.
    - unfold emit in H. rewrite E1, D1, L1, U2 in H.
      assert (Q : w_events w = new ++ [ELine Info (NSummary path B (count false mask) d (length (solves_of new)))]).
      { destruct (say _ _ _); injection H as <- <-; reflexivity. }
      exists new. cbn zeta. rewrite Q. split; [apply told_weak; exact T2|]. right. split; [reflexivity|]. split; [exact T2|].
      exists B, mask, later, d. split; [exact Sh|]. split; [exact Bi|reflexivity].
    - unfold wret in H. injection H as <- <-. exists new. cbn zeta. rewrite E1. split; [apply told_weak; exact T2|]. left. split; [reflexivity|discriminate].
  Qed.

  Hypothesis patience : patient say.
  Hypothesis asked : exists info debug, is_on Info = Ok info /\ is_on Debug = Ok debug.
  Variable ok_rows : list Z -> Prop.
  Variable good : Bufs -> Prop.
  Hypothesis rows_left : forall active mask, ok_rows active -> ok_rows (left_over active mask).
  Hypothesis good_step : forall a b active buf span mask buf', ok_rows active -> good buf ->
    solve a b active buf = Ok (span, mask) -> save active (positions true 0 mask) span buf = Ok buf' -> good buf'.

  (** The same calls, the same result; and what a failure carries. *)
  Lemma finish_same level B bufs : ok_rows (map Z.of_nat (seq 0 B)) -> good bufs ->
    (forall span mask, solve (a_zero A) (a_one A) (map Z.of_nat (seq 0 B)) bufs = Ok (span, mask) -> exists c, carries capture unknowns dyn values c span mask) ->
    exists w, finish level B bufs watch0 =
      (let* bufs' := fst (drive half_way (bare solve save) level (a_zero A) (a_one A) (map Z.of_nat (seq 0 B)) bufs) in put bufs', w) /\
      solves_of (w_events w) = snd (drive half_way (bare solve save) level (a_zero A) (a_one A) (map Z.of_nat (seq 0 B)) bufs) /\
      match fst (drive half_way (bare solve save) level (a_zero A) (a_one A) (map Z.of_nat (seq 0 B)) bufs) with
      | Ok _ => w_attached w = None /\ w_raised w = None
      | Err e => broke solve save ok_rows good e /\ w_attached w = None /\ w_raised w = None \/
          exists span mask c, solve (a_zero A) (a_one A) (map Z.of_nat (seq 0 B)) bufs = Ok (span, mask) /\ carries capture unknowns dyn values c span mask /\
            gave_up c level (snd (drive half_way (bare solve save) level (a_zero A) (a_one A) (map Z.of_nat (seq 0 B)) bufs)) w
      end.
  Proof.
    intros Ho Hg Hc. unfold finish. destruct asked as [info [debug [-> ->]]].
    destruct (watch_top A say capture debug unknowns dyn solve values save patience ok_rows good rows_left good_step level (a_zero A) (a_one A) (map Z.of_nat (seq 0 B)) bufs watch0 Ho Hg Hc)
      as [w1 [-> N]].
    set (dr := drive half_way (bare solve save) level (a_zero A) (a_one A) (map Z.of_nat (seq 0 B)) bufs) in *.
    destruct N as [[e [Es ->]]|[span [mask [c [Es [Hcc [M N]]]]]]].
    - assert (Ed : dr = (Err e, [])).
      { unfold dr. rewrite drive_tail. unfold bare. rewrite Es. reflexivity. }
      rewrite Ed. cbn [fst snd bind]. eexists. split; [reflexivity|]. split; [reflexivity|]. left. split; [|split; reflexivity].
      eexists _, _, _, _. split; [exact Ho|]. split; [exact Hg|]. left. exact Es.
    - destruct (fst dr) as [bufs'|e]; cbn [bind].
      + destruct N as [_ [A1 R1]].
        assert (Q : exists w2, summary say info path B w1 = (Ok tt, w2) /\ solves_of (w_events w2) = solves_of (w_events w1) /\
          w_attached w2 = w_attached w1 /\ w_raised w2 = w_raised w1).
        { unfold summary, wwhen. destruct info.
          - unfold emit. rewrite patience. eexists. split; [reflexivity|]. cbn [w_events w_attached w_raised]. rewrite solves_app. cbn. rewrite app_nil_r. repeat split.
          - exists w1. repeat split. }
        destruct Q as [w2 [-> [Q1 [Q2 Q3]]]]. exists w2. split; [reflexivity|]. split; [rewrite Q1; exact M|]. rewrite Q2, Q3, A1, R1. split; reflexivity.
      + exists w1. split; [reflexivity|]. split; [exact M|]. destruct N as [N|[N1 [N2 N3]]].
        * right. exists span, mask, c. split; [exact Es|]. split; [exact Hcc|exact N].
        * left. split; [exact N1|]. split; [exact N2|exact N3].
  Qed.
End Finish.

(** ** The solves of a run *)
Section Rows.
  Context {V Buf : Type}.
  Variable half_way : V -> V -> V.
  Variable solve : V -> V -> list Z -> Buf -> result (list bool * result Buf).

  Lemma left_over_incl rows mask : incl (left_over rows mask) rows.
  Proof. rewrite <- chosen_left_over. intros i. apply chosen_incl. Qed.

  Lemma drive_rows_incl left : forall a b active buf r l, drive half_way solve left a b active buf = (r, l) ->
    forall x y rows mk, In (x, y, rows, mk) l -> incl rows active.
  Proof.
    induction left as [|left IH]; intros a b active buf r l H x y rows mk I; cbn [drive] in H.
    - destruct (solve a b active buf) as [[mask [buf'|e]]|e]; [destruct (positions false 0 mask)| |]; injection H as <- <-;
        try contradiction; destruct I as [I|[]]; injection I as <- <- <- <-; apply incl_refl.
    - destruct (solve a b active buf) as [[mask [buf'|e]]|e]; [| |injection H as <- <-; contradiction].
      2: { injection H as <- <-. destruct I as [I|[]]. injection I as <- <- <- <-. apply incl_refl. }
      destruct (positions false 0 mask) as [|p ps] eqn:Ep; [injection H as <- <-; destruct I as [I|[]]; injection I as <- <- <- <-; apply incl_refl|].
      rewrite <- Ep in H. destruct (pick active (positions false 0 mask)) as [fg|e] eqn:Ek; [|injection H as <- <-; destruct I as [I|[]]; injection I as <- <- <- <-; apply incl_refl].
      apply pick_left_over in Ek. subst fg.
      destruct (drive half_way solve left a (half_way a b) (left_over active mask) buf') as [[b1|e1] l1] eqn:E1.
      + destruct (drive half_way solve left (half_way a b) b (left_over active mask) b1) as [r2 l2] eqn:E2. injection H as <- <-.
        destruct I as [I|I]; [injection I as <- <- <- <-; apply incl_refl|]. apply (incl_tran (m := left_over active mask)); [|apply left_over_incl].
        apply in_app_iff in I as [I|I]; [exact (IH _ _ _ _ _ _ E1 _ _ _ _ I)|exact (IH _ _ _ _ _ _ E2 _ _ _ _ I)].
      + injection H as <- <-. destruct I as [I|I]; [injection I as <- <- <- <-; apply incl_refl|].
        apply (incl_tran (m := left_over active mask)); [|apply left_over_incl]. exact (IH _ _ _ _ _ _ E1 _ _ _ _ I).
  Qed.
  Lemma drive_first left a b active buf mask buf' : solve a b active buf = Ok (mask, Ok buf') ->
    exists later, snd (drive half_way solve left a b active buf) = (a, b, active, mask) :: later /\
      forall x y rows mk, In (x, y, rows, mk) later -> incl rows (left_over active mask).
  Proof.
    intros H. destruct left as [|left]; cbn [drive]; rewrite H.
    - exists []. split; [destruct (positions false 0 mask); reflexivity|intros ? ? ? ? []].
    - destruct (positions false 0 mask) as [|p ps] eqn:Ep; [exists []; split; [reflexivity|intros ? ? ? ? []]|]. rewrite <- Ep.
      destruct (pick active (positions false 0 mask)) as [fg|e] eqn:Ek; [|exists []; split; [reflexivity|intros ? ? ? ? []]].
      apply pick_left_over in Ek. subst fg.
      destruct (drive half_way solve left a (half_way a b) (left_over active mask) buf') as [[b1|e1] l1] eqn:E1.
      + destruct (drive half_way solve left (half_way a b) b (left_over active mask) b1) as [r2 l2] eqn:E2. exists (l1 ++ l2). split; [reflexivity|].
        intros x y rows mk I. apply in_app_iff in I as [I|I]; [exact (drive_rows_incl _ _ _ _ _ _ _ E1 _ _ _ _ I)|exact (drive_rows_incl _ _ _ _ _ _ _ E2 _ _ _ _ I)].
      + exists l1. split; [reflexivity|]. intros x y rows mk I. exact (drive_rows_incl _ _ _ _ _ _ _ E1 _ _ _ _ I).
  Qed.

  Variable inv : Buf -> Prop.
  Variable B : nat.
  Hypothesis solve_total : forall a b active buf, inv buf -> idx_ok B active -> NoDup active ->
    exists mask buf', solve a b active buf = Ok (mask, Ok buf') /\ length mask = length active /\ inv buf'.

  Lemma drive_last left : forall a b active buf e, inv buf -> idx_ok B active -> NoDup active ->
    fst (drive half_way solve left a b active buf) = Err e ->
    exists l' x y rows mk, snd (drive half_way solve left a b active buf) = l' ++ [(x, y, rows, mk)] /\ halved half_way left a b x y /\ In false mk.
  Proof.
    induction left as [|left IH]; intros a b active buf e Hi Ha N H; cbn [drive] in *; destruct (solve_total a b active buf Hi Ha N) as [mask [buf' [E [L Hi']]]];
      rewrite E in *; destruct (positions false 0 mask) as [|p ps] eqn:Ep; try discriminate.
    - exists [], a, b, active, mask. split; [reflexivity|]. split; [constructor|]. apply (positions_in false mask 0). rewrite Ep. discriminate.
    - rewrite <- Ep in *. assert (Ek : pick active (positions false 0 mask) = Ok (chosen false active mask)) by (apply pick_chosen; lia). rewrite Ek in *.
      assert (Hf : idx_ok B (chosen false active mask)) by (eapply idx_ok_incl; [apply chosen_incl|exact Ha]).
      assert (Nf : NoDup (chosen false active mask)) by (apply chosen_nodup; exact N).
      pose proof (IH a (half_way a b) (chosen false active mask) buf') as I1.
      pose proof (drive_total half_way solve inv B solve_total left a (half_way a b) _ _ Hi' Hf Nf) as [r1 [l1 [E1 [_ V1]]]]. rewrite E1 in *. cbn [fst snd] in *.
      destruct r1 as [b1|e1].
      + pose proof (IH (half_way a b) b (chosen false active mask) b1 e V1 Hf Nf) as I2.
        destruct (drive half_way solve left (half_way a b) b (chosen false active mask) b1) as [r2 l2]. cbn [fst snd] in *.
        destruct (I2 H) as [l' [x [y [rows [mk [-> [Hh F]]]]]]]. exists ((a, b, active, mask) :: l1 ++ l'), x, y, rows, mk.
        split; [cbn [app]; rewrite <- app_assoc; reflexivity|]. split; [apply halved_right; exact Hh|exact F].
      + destruct (I1 e1 Hi' Hf Nf eq_refl) as [l' [x [y [rows [mk [-> [Hh F]]]]]]]. exists ((a, b, active, mask) :: l'), x, y, rows, mk.
        split; [reflexivity|]. split; [apply halved_left; exact Hh|exact F].
  Qed.
End Rows.

Lemma left_over_all n mask i : In i (left_over (map Z.of_nat (seq 0 n)) mask) -> exists k, i = Z.of_nat k /\ nth_error mask k = Some false.
Proof.
  rewrite <- chosen_left_over. intros I. apply chosen_in in I as [k [K1 K2]]. exists k. split; [|exact K2].
  rewrite nth_error_map in K1. destruct (nth_error (seq 0 n) k) as [j|] eqn:E; [|discriminate]. injection K1 as <-.
  assert (k < n) by (rewrite <- (seq_length n 0); apply nth_error_Some; congruence). apply nth_error_nth with (d := 0) in E. rewrite seq_nth in E by assumption. subst j. reflexivity.
Qed.

(** ** What is attached *)
Section Attached.
  Context {V Span : Type}.
  Notation vmap := (smap (tensor V)).
  Variable d : device.
  Variable dyn : list nat.
  Variable unknowns : list var_info.
  Hypothesis distinct : NoDup (unknown_names unknowns).
  Variable values : Span -> vmap.
  Notation batch := (if negb (length dyn =? 1) then Some dyn else None).

  Lemma carries_ok span mask :
    (forall u, In u unknowns -> exists t, lookup (v_name u) (values span) = Some t /\ rowsof d (numel dyn) (trailing u) t) -> length mask = numel dyn ->
    exists c, carries true unknowns batch values (Some c) span mask /\ context_of d dyn unknowns (values span) mask c.
  Proof.
    intros Hu Lm.
    destruct (forall2_build (fun u t => lookup (v_name u) (values span) = Some t) (fun u t => rowsof d (numel dyn) (trailing u) t) unknowns Hu) as [ts [F1 F2]].
    destruct (table_build d (numel dyn) v_name trailing unknowns ts distinct F2) as [_ Q].
    set (us := put_all (combine (map v_name unknowns) ts) []) in *.
    assert (Et : take_all (unknown_srcs unknowns) (values span) [] = Ok us).
    { rewrite (take_all_put _ _ ts); [unfold unknown_srcs; rewrite map_map; reflexivity|]. clear - F1. unfold unknown_srcs. induction F1; cbn [map]; constructor; assumption. }
    assert (Lu : forall u, In u unknowns -> exists t, lookup (v_name u) us = Some t /\ lookup (v_name u) (values span) = Some t /\ rowsof d (numel dyn) (trailing u) t).
    { intros u I. destruct (Q u 0 I) as [t [L [J _]]]. exists t. split; [exact L|]. split; [exact (forall2_in _ _ _ _ _ F1 J)|exact (forall2_in _ _ _ _ _ F2 J)]. }
    destruct (put_results_ok d dyn unknowns us distinct) with (st := @nil (string * tensor V)) as [stuck [Es [H1 H2]]].
    { intros u I. destruct (Lu u I) as [t [L [_ R]]]. exists t. split; [exact L|exact R]. }
    assert (Er : reshape_mask mask batch = Ok (dyn, mask)).
    { unfold reshape_mask. destruct (length dyn =? 1) eqn:El; cbn [negb].
      - apply Nat.eqb_eq in El. destruct dyn as [|n [|m l]]; try discriminate. rewrite Lm. cbn [numel fold_right]. rewrite Nat.mul_1_r. reflexivity.
      - rewrite Lm, Nat.eqb_refl. reflexivity. }
    exists (mkContext dyn mask stuck). split.
    { exists us, stuck, dyn, mask. split; [exact Et|]. split; [exact Es|]. split; [exact Er|reflexivity]. }
    split; [reflexivity|]. split; [reflexivity|]. split; [exact Lm|]. split; [|split].
    - intros u I. destruct (H1 u I) as [t [r [L [W [D [S _]]]]]]. exists t. split; [exact L|]. split; [exact W|]. split; [exact D|exact S].
    - intros i Hi. cbn [cx_unknowns]. unfold entries, rows_of_names, unknown_names. rewrite map_map. apply map_ext_in. intros u I.
      destruct (H1 u I) as [t [r [L [_ [_ [_ [Lr Er']]]]]]]. destruct (Lu u I) as [t' [L' [Lv _]]]. rewrite L' in Lr. injection Lr as <-.
      rewrite L. unfold val. rewrite Lv. apply Er'.
    - intros n J. cbn [cx_unknowns]. rewrite H2 by exact J. reflexivity.
  Qed.
  Lemma carries_fun c c' span mask : carries true unknowns batch values c span mask -> carries true unknowns batch values c' span mask -> c = c'.
  Proof.
    intros [us [stuck [sh [mk [E1 [E2 [E3 ->]]]]]]] [us' [stuck' [sh' [mk' [F1 [F2 [F3 ->]]]]]]].
    rewrite E1 in F1. injection F1 as <-. rewrite E2 in F2. injection F2 as <-. rewrite E3 in F3. injection F3 as <- <-. reflexivity.
  Qed.
End Attached.

(** ** The value path *)
Section Value.
  Context {V : Type}.
  Variable A : arith V.
  Notation vmap := (smap (tensor V)).
  Variable say : list (level * span_note V) -> level -> span_note V -> result unit.
  Variable is_on : level -> result bool.
  Variable capture : bool.
  Variable masked : vmap -> result (vmap * list bool).
  Variable givens : list given_info.
  Variable unknowns : list var_info.

  Definition start_of (st : vmap) : result (option (list nat) * (vmap * nat * (vmap * vmap))) :=
    match givens with
    | [] => Err (OtherExn 0)
    | g0 :: _ =>
        let v0 := gv_var g0 in
        let* t0 := at_ (v_name v0) st in
        if Nat.ltb (dim t0) (var_trail v0) then Err (OtherExn 0)
        else
          let dyn := firstn (dim t0 - var_trail v0) (t_shape t0) in
          let needed := negb (Nat.eqb (length dyn) 1) in
          let* s := (let* flat := if needed then flatten_givens givens st else Ok st in
                     let* orig := collect_givens givens flat [] in
                     let* f0 := at_ (v_name v0) orig in
                     match firstn (dim f0 - var_trail v0) (t_shape f0) with
                     | [] => Err (OtherExn 0)
                     | B :: rest =>
                         let* ch := collect_givens (filter is_old_state givens) orig [] in
                         let res := fold_left (fun m u => set_ (v_name u)
                                      (zeros (a_zero A) (B :: rest ++ v_sub u ++ v_base u) (t_dev f0)) m) unknowns [] in
                         Ok (orig, B, (res, ch))
                     end) in
          Ok (if needed then Some dyn else None, s)
    end.

  Definition value_solve (orig : vmap) (a b : V) (active : list Z) (bufs : vmap * vmap) := solve_span A masked givens orig a b active (snd bufs).

  Lemma run_is level st : run_substepped A masked givens unknowns level st =
    match start_of st with
    | Err e => (Err e, [])
    | Ok (batch, (orig, B, bufs)) =>
        let (r, l) := solve_to A masked givens unknowns orig level (a_zero A) (a_one A) (map Z.of_nat (seq 0 B)) bufs in
        (let* bufs := r in put_results unknowns (fst bufs) batch st, l)
    end.
  Proof.
    unfold run_substepped, start_of. destruct givens as [|g0 gs]; [reflexivity|]. set (G := g0 :: gs).
    destruct (at_ (v_name (gv_var g0)) st) as [t0|e]; [|reflexivity]. cbn [bind]. destruct (dim t0 <? var_trail (gv_var g0)); [reflexivity|].
    set (dyn := firstn _ _). set (needed := negb _). destruct (if needed then flatten_givens G st else Ok st) as [flat|e]; [|reflexivity]. cbn [bind].
    destruct (collect_givens G flat []) as [orig|e]; [|reflexivity]. cbn [bind]. destruct (at_ (v_name (gv_var g0)) orig) as [f0|e]; [|reflexivity]. cbn [bind].
    destruct (firstn (dim f0 - var_trail (gv_var g0)) (t_shape f0)) as [|B rest]; [reflexivity|].
    destruct (collect_givens (filter is_old_state G) orig []) as [ch|e]; reflexivity.
  Qed.
  Lemma watch_is level st w : watch_substepped A say is_on capture masked givens unknowns level st w =
    match start_of st with
    | Err e => (Err e, w)
    | Ok (batch, (orig, B, bufs)) =>
        finish A say is_on capture unknowns batch (value_solve orig) (fun span => span) (store givens unknowns) "value"
               (fun bufs => put_results unknowns (fst bufs) batch st) level B bufs w
    end.
  Proof.
    unfold watch_substepped, start_of, value_solve. destruct givens as [|g0 gs]; [reflexivity|]. set (G := g0 :: gs). unfold wbind at 1, wres at 1.
    destruct (at_ (v_name (gv_var g0)) st) as [t0|e]; [|reflexivity]. cbn [bind]. destruct (dim t0 <? var_trail (gv_var g0)); [reflexivity|].
    set (dyn := firstn _ _). set (needed := negb _). unfold wbind at 1, wres at 1.
    destruct (if needed then flatten_givens G st else Ok st) as [flat|e]; [|reflexivity]. cbn [bind].
    destruct (collect_givens G flat []) as [orig|e]; [|reflexivity]. cbn [bind]. destruct (at_ (v_name (gv_var g0)) orig) as [f0|e]; [|reflexivity]. cbn [bind].
    destruct (firstn (dim f0 - var_trail (gv_var g0)) (t_shape f0)) as [|B rest]; [reflexivity|].
    destruct (collect_givens (filter is_old_state G) orig []) as [ch|e]; [|reflexivity]. cbn [bind].
    unfold finish, wbind, wres. destruct (is_on Info) as [info|e]; [|reflexivity]. destruct (is_on Debug) as [debug|e]; [|reflexivity].
    destruct (watch_to _ _ _ _ _ _ _ _ _ _ _ _ _ _ _ w) as [[bufs'|e] w1]; reflexivity.
  Qed.

  Lemma value_said level st info debug r w : is_on Info = Ok info -> is_on Debug = Ok debug ->
    watch_substepped A say is_on capture masked givens unknowns level st watch0 = (r, w) ->
    said A "value" info debug (is_ok r || negb capture) (is_ok r) (w_events w).
  Proof.
    intros Ei Ed H. rewrite watch_is in H. destruct (start_of st) as [[batch [[orig B] bufs]]|e].
    - exact (finish_said _ _ _ _ _ _ _ _ _ _ _ _ _ _ _ _ _ _ Ei Ed H).
    - injection H as <- <-. exists []. split; [constructor|]. left. split; [reflexivity|]. reflexivity.
  Qed.

  Lemma bare_value orig : bare (value_solve orig) (store givens unknowns) = span_solve A masked givens unknowns orig.
  Proof. reflexivity. Qed.

  Hypothesis patience : patient say.
  Hypothesis asked : exists info debug, is_on Info = Ok info /\ is_on Debug = Ok debug.

  Lemma value_same level st : capture = false ->
    exists r w, watch_substepped A say is_on capture masked givens unknowns level st watch0 = (r, w) /\
      run_substepped A masked givens unknowns level st = (r, solves_of (w_events w)) /\ w_attached w = None.
  Proof.
    intros Hcap. rewrite watch_is, run_is. destruct (start_of st) as [[batch [[orig B] bufs]]|e]; [|eexists _, _; repeat split].
    destruct (finish_same A say is_on capture unknowns batch (value_solve orig) (fun span => span) (store givens unknowns) "value"
                (fun bufs => put_results unknowns (fst bufs) batch st) patience asked (fun _ => True) (fun _ => True) (fun _ _ _ => I)
                (fun _ _ _ _ _ _ _ _ _ _ _ => I) level B bufs I I) as [w [E [M N]]].
    { intros span mask _. exists None. unfold carries. rewrite Hcap. reflexivity. }
    rewrite bare_value in *. change (middle A) with (mid_of A) in *. eexists _, w. split; [exact E|]. rewrite M, solve_to_drive.
    destruct (drive (mid_of A) (span_solve A masked givens unknowns orig) level (a_zero A) (a_one A) (map Z.of_nat (seq 0 B)) bufs) as [r l]. cbn [fst snd] in *.
    split; [reflexivity|]. destruct r as [b|e]; [apply N|].
    destruct N as [N|[span [mask [c [_ [Hc [N _]]]]]]]; [apply N|]. rewrite N. unfold carries in Hc. rewrite Hcap in Hc. exact Hc.
  Qed.
End Value.

(** ** The path with derivatives *)
Lemma drive_ext {V Buf} (half_way : V -> V -> V) (f g : V -> V -> list Z -> Buf -> result (list bool * result Buf)) :
  (forall a b active buf, f a b active buf = g a b active buf) ->
  forall left a b active buf, drive half_way f left a b active buf = drive half_way g left a b active buf.
Proof.
  intros H left. induction left as [|left IH]; intros a b active buf; cbn [drive]; rewrite H; [reflexivity|].
  destruct (g a b active buf) as [[mask [buf'|e]]|e]; try reflexivity. destruct (positions false 0 mask); [reflexivity|].
  destruct (pick active _) as [fg|e]; [|reflexivity]. rewrite IH. destruct (drive half_way g left a (half_way a b) fg buf') as [[b1|e1] l1]; [|reflexivity].
  rewrite IH. reflexivity.
Qed.

Section Jacobian.
  Context {V : Type}.
  Variable A : arith V.
  Notation vmap := (smap (tensor V)).
  Variable say : list (level * span_note V) -> level -> span_note V -> result unit.
  Variable is_on : level -> result bool.
  Variable capture : bool.
  Variable masked : vmap -> result (vmap * list bool).
  Variable ift : vmap -> vmap -> result vmap.
  Variable givens : list given_info.
  Variable unknowns : list var_info.

  Definition start_of_d (st ds : vmap) : result (option (list nat) * (vmap * vmap * nat * bufs4 (V := V))) :=
    match givens with
    | [] => Err (OtherExn 0)
    | g0 :: _ =>
        let v0 := gv_var g0 in
        let* t0 := at_ (v_name v0) st in
        if Nat.ltb (dim t0) (var_trail v0) then Err (OtherExn 0)
        else
          let dyn := firstn (dim t0 - var_trail v0) (t_shape t0) in
          let needed := negb (Nat.eqb (length dyn) 1) in
          let* s := (let* flat := if needed then flatten_givens givens st else Ok st in
                     let* flat_d := if needed then flatten_carriers givens ds else Ok ds in
                     let* orig := collect_givens givens flat [] in
                     let* orig_d := collect_givens givens flat_d [] in
                     let* f0 := at_ (v_name v0) orig in
                     match firstn (dim f0 - var_trail v0) (t_shape f0) with
                     | [] => Err (OtherExn 0)
                     | B :: rest =>
                         let* d0 := at_ (v_name v0) orig_d in
                         let* M := size_at d0 (-1) in
                         let* ch := collect_givens (filter is_old_state givens) orig [] in
                         let* ch_d := collect_givens (filter is_old_state givens) orig_d [] in
                         let res := fold_left (fun m u => set_ (v_name u)
                                      (zeros (a_zero A) (B :: rest ++ v_sub u ++ v_base u) (t_dev f0)) m) unknowns [] in
                         let res_d := fold_left (fun m u => set_ (v_name u)
                                      (zeros (a_zero A) (B :: rest ++ [var_size u; M]) (t_dev f0)) m) unknowns [] in
                         Ok (orig, orig_d, B, ((res, ch), (res_d, ch_d)))
                     end) in
          Ok (if needed then Some dyn else None, s)
    end.

  Definition jac_solve (orig orig_d : vmap) (a b : V) (active : list Z) (bufs : bufs4 (V := V)) : result ((vmap * vmap) * list bool) :=
    let* r := solve_span_d A masked givens orig orig_d a b active (snd (fst bufs)) (snd (snd bufs)) in
    Ok ((fst (fst r), snd r), snd (fst r)).
  Definition jac_save (active conv : list Z) (span : vmap * vmap) (bufs : bufs4 (V := V)) :=
    store_d ift givens unknowns active conv (fst span) (snd span) bufs.
  Definition jac_put (batch : option (list nat)) (st ds : vmap) (bufs : bufs4 (V := V)) : result (vmap * vmap) :=
    let* st := put_results unknowns (fst (fst bufs)) batch st in
    let* ds := put_tangents unknowns (fst (snd bufs)) batch ds in
    Ok (st, ds).

  Lemma run_is_d level st ds : run_substepped_d A masked ift givens unknowns level st ds =
    match start_of_d st ds with
    | Err e => (Err e, [])
    | Ok (batch, (orig, orig_d, B, bufs)) =>
        let (r, l) := solve_to_d A masked ift givens unknowns orig orig_d level (a_zero A) (a_one A) (map Z.of_nat (seq 0 B)) bufs in
        (let* bufs := r in jac_put batch st ds bufs, l)
    end.
  Proof.
    unfold run_substepped_d, start_of_d. destruct givens as [|g0 gs]; [reflexivity|]. set (G := g0 :: gs).
    destruct (at_ (v_name (gv_var g0)) st) as [t0|e]; [|reflexivity]. cbn [bind]. destruct (dim t0 <? var_trail (gv_var g0)); [reflexivity|].
    set (dyn := firstn _ _). set (needed := negb _). destruct (if needed then flatten_givens G st else Ok st) as [flat|e]; [|reflexivity]. cbn [bind].
    destruct (if needed then flatten_carriers G ds else Ok ds) as [flat_d|e]; [|reflexivity]. cbn [bind].
    destruct (collect_givens G flat []) as [orig|e]; [|reflexivity]. cbn [bind]. destruct (collect_givens G flat_d []) as [orig_d|e]; [|reflexivity]. cbn [bind].
    destruct (at_ (v_name (gv_var g0)) orig) as [f0|e]; [|reflexivity]. cbn [bind].
    destruct (firstn (dim f0 - var_trail (gv_var g0)) (t_shape f0)) as [|B rest]; [reflexivity|].
    destruct (at_ (v_name (gv_var g0)) orig_d) as [d0|e]; [|reflexivity]. cbn [bind]. destruct (size_at d0 (-1)) as [M|e]; [|reflexivity]. cbn [bind].
    destruct (collect_givens (filter is_old_state G) orig []) as [ch|e]; [|reflexivity]. cbn [bind].
    destruct (collect_givens (filter is_old_state G) orig_d []) as [ch_d|e]; reflexivity.
  Qed.
  Lemma watch_is_d level st ds w : watch_substepped_d A say is_on capture masked ift givens unknowns level st ds w =
    match start_of_d st ds with
    | Err e => (Err e, w)
    | Ok (batch, (orig, orig_d, B, bufs)) =>
        finish A say is_on capture unknowns batch (jac_solve orig orig_d) (fun span => fst span) jac_save "jacobian" (jac_put batch st ds) level B bufs w
    end.
  Proof.
    unfold watch_substepped_d, start_of_d, jac_solve, jac_save. destruct givens as [|g0 gs]; [reflexivity|]. set (G := g0 :: gs). unfold wbind at 1, wres at 1.
    destruct (at_ (v_name (gv_var g0)) st) as [t0|e]; [|reflexivity]. cbn [bind]. destruct (dim t0 <? var_trail (gv_var g0)); [reflexivity|].
    set (dyn := firstn _ _). set (needed := negb _). unfold wbind at 1, wres at 1.
    destruct (if needed then flatten_givens G st else Ok st) as [flat|e]; [|reflexivity]. cbn [bind].
    destruct (if needed then flatten_carriers G ds else Ok ds) as [flat_d|e]; [|reflexivity]. cbn [bind].
    destruct (collect_givens G flat []) as [orig|e]; [|reflexivity]. cbn [bind]. destruct (collect_givens G flat_d []) as [orig_d|e]; [|reflexivity]. cbn [bind].
    destruct (at_ (v_name (gv_var g0)) orig) as [f0|e]; [|reflexivity]. cbn [bind].
    destruct (firstn (dim f0 - var_trail (gv_var g0)) (t_shape f0)) as [|B rest]; [reflexivity|].
    destruct (at_ (v_name (gv_var g0)) orig_d) as [d0|e]; [|reflexivity]. cbn [bind]. destruct (size_at d0 (-1)) as [M|e]; [|reflexivity]. cbn [bind].
    destruct (collect_givens (filter is_old_state G) orig []) as [ch|e]; [|reflexivity]. cbn [bind].
    destruct (collect_givens (filter is_old_state G) orig_d []) as [ch_d|e]; [|reflexivity]. cbn [bind].
    unfold finish, wbind, wres. destruct (is_on Info) as [info|e]; [|reflexivity]. destruct (is_on Debug) as [debug|e]; [|reflexivity].
    destruct (watch_to _ _ _ _ _ _ _ _ _ _ _ _ _ _ _ w) as [[bufs'|e] w1]; reflexivity.
  Qed.

  Lemma jac_said level st ds info debug r w : is_on Info = Ok info -> is_on Debug = Ok debug ->
    watch_substepped_d A say is_on capture masked ift givens unknowns level st ds watch0 = (r, w) ->
    said A "jacobian" info debug (is_ok r || negb capture) (is_ok r) (w_events w).
  Proof.
    intros Ei Ed H. rewrite watch_is_d in H. destruct (start_of_d st ds) as [[batch [[[orig orig_d] B] bufs]]|e].
    - exact (finish_said _ _ _ _ _ _ _ _ _ _ _ _ _ _ _ _ _ _ Ei Ed H).
    - injection H as <- <-. exists []. split; [constructor|]. left. split; [reflexivity|]. reflexivity.
  Qed.

  Lemma bare_jac orig orig_d a b active bufs :
    bare (jac_solve orig orig_d) jac_save a b active bufs = span_solve_d A masked ift givens unknowns orig orig_d a b active bufs.
  Proof.
    unfold bare, jac_solve, span_solve_d.
    destruct (solve_span_d A masked givens orig orig_d a b active (snd (fst bufs)) (snd (snd bufs))) as [[[span mask] span_d]|e]; reflexivity.
  Qed.
  Lemma drive_jac orig orig_d level a b active bufs :
    drive (middle A) (bare (jac_solve orig orig_d) jac_save) level a b active bufs =
    solve_to_d A masked ift givens unknowns orig orig_d level a b active bufs.
  Proof. rewrite solve_to_d_drive. apply drive_ext. apply bare_jac. Qed.

  Hypothesis patience : patient say.
  Hypothesis asked : exists info debug, is_on Info = Ok info /\ is_on Debug = Ok debug.

  Lemma jac_same level st ds : capture = false ->
    exists r w, watch_substepped_d A say is_on capture masked ift givens unknowns level st ds watch0 = (r, w) /\
      run_substepped_d A masked ift givens unknowns level st ds = (r, solves_of (w_events w)) /\ w_attached w = None.
  Proof.
    intros Hcap. rewrite watch_is_d, run_is_d. destruct (start_of_d st ds) as [[batch [[[orig orig_d] B] bufs]]|e]; [|eexists _, _; repeat split].
    destruct (finish_same A say is_on capture unknowns batch (jac_solve orig orig_d) (fun span => fst span) jac_save "jacobian"
                (jac_put batch st ds) patience asked (fun _ => True) (fun _ => True) (fun _ _ _ => I)
                (fun _ _ _ _ _ _ _ _ _ _ _ => I) level B bufs I I) as [w [E [M N]]].
    { intros span mask _. exists None. unfold carries. rewrite Hcap. reflexivity. }
    rewrite drive_jac in *. eexists _, w. split; [exact E|]. rewrite M.
    destruct (solve_to_d A masked ift givens unknowns orig orig_d level (a_zero A) (a_one A) (map Z.of_nat (seq 0 B)) bufs) as [r l]. cbn [fst snd] in *.
    split; [reflexivity|]. destruct r as [b|e]; [apply N|].
    destruct N as [N|[span [mask [c [_ [Hc [N _]]]]]]]; [apply N|]. rewrite N. unfold carries in Hc. rewrite Hcap in Hc. exact Hc.
  Qed.
End Jacobian.
