(** Lemmas about what a failed substepping driver raises and attaches. *)
From Verif Require Import Base Log BaseProofs SpecMap SmapProofs Tensor Spec TensorProofs BatchChunk SelectProofs Broadcast BroadcastProofs Pack Implicit ImplicitProofs
     Substep SpecSubstep DriveProofs RowTableProofs SubstepProofs SubstepRunProofs Mat Jac SubstepJac SpecSubstepJac SubstepJacProofs SubstepJacRunProofs
     SubstepLog SpecSubstepLog SubstepLogProofs SubstepLogRunProofs.

Section Total.
  Context {V Bufs Span X : Type}.
  Variable A : arith V.
  Notation vmap := (smap (tensor V)).
  Variable say : list (level * span_note V) -> level -> span_note V -> result unit.
  Variable is_on : level -> result bool.
  Variable capture : bool.
  Variable d : device.
  Variable dyn : list nat.
  Variable unknowns : list var_info.
  Hypothesis distinct : NoDup (unknown_names unknowns).
  Variable solve : V -> V -> list Z -> Bufs -> result (Span * list bool).
  Variable values : Span -> vmap.
  Variable save : list Z -> list Z -> Span -> Bufs -> result Bufs.
  Variable path : string.
  Variable put : Bufs -> result X.
  Hypothesis patience : patient say.
  Hypothesis asked : exists info debug, is_on Info = Ok info /\ is_on Debug = Ok debug.
  Variable inv : Bufs -> Prop.
  Notation B := (numel dyn).
  Notation batch := (if negb (length dyn =? 1) then Some dyn else None).
  Hypothesis total : forall a b active buf, inv buf -> idx_ok B active -> NoDup active ->
    exists span mask buf', solve a b active buf = Ok (span, mask) /\ save active (positions true 0 mask) span buf = Ok buf' /\
      length mask = length active /\ inv buf' /\
      forall u, In u unknowns -> exists t, lookup (v_name u) (values span) = Some t /\ rowsof d (length active) (trailing u) t.

  Lemma bare_total : forall a b active buf, inv buf -> idx_ok B active -> NoDup active ->
    exists mask buf', bare solve save a b active buf = Ok (mask, Ok buf') /\ length mask = length active /\ inv buf'.
  Proof.
    intros a b active buf Hi Ha N. destruct (total a b active buf Hi Ha N) as [span [mask [buf' [E [Es [L [Hi' _]]]]]]].
    exists mask, buf'. unfold bare. rewrite E, Es. split; [reflexivity|]. split; [exact L|exact Hi'].
  Qed.
  Lemma not_broke e : ~ broke solve save (fun rows => idx_ok B rows /\ NoDup rows) inv e.
  Proof.
    intros [a [b [active [buf [[Ha N] [Hi H]]]]]]. destruct (total a b active buf Hi Ha N) as [span [mask [buf' [E [Es [L _]]]]]].
    destruct H as [H|[span0 [mask0 [H1 H2]]]]; [congruence|]. rewrite E in H1. injection H1 as <- <-. destruct H2 as [H2|H2]; [congruence|].
    rewrite pick_chosen in H2 by lia. discriminate.
  Qed.

  (** What a call does, and what a failed one leaves. *)
  Lemma finish_total level bufs : inv bufs ->
    exists w, finish A say is_on capture unknowns batch solve values save path put level B bufs watch0 =
      (let* bufs' := fst (drive (middle A) (bare solve save) level (a_zero A) (a_one A) (map Z.of_nat (seq 0 B)) bufs) in put bufs', w) /\
      solves_of (w_events w) = snd (drive (middle A) (bare solve save) level (a_zero A) (a_one A) (map Z.of_nat (seq 0 B)) bufs) /\
      match fst (drive (middle A) (bare solve save) level (a_zero A) (a_one A) (map Z.of_nat (seq 0 B)) bufs) with
      | Ok bufs' => inv bufs' /\ w_attached w = None /\ w_raised w = None
      | Err _ => exists span mask, solve (a_zero A) (a_one A) (map Z.of_nat (seq 0 B)) bufs = Ok (span, mask) /\
          failure A B level (solves_of (w_events w)) mask (w_raised w) /\
          if capture then exists c, w_attached w = Some c /\ context_of d dyn unknowns (values span) mask c else w_attached w = None
      end.
  Proof.
    intros Hi. destruct (all_rows_ok B) as [Ia [Na _]]. unfold all_rows in *.
    destruct (total (a_zero A) (a_one A) (map Z.of_nat (seq 0 B)) bufs Hi Ia Na) as [span [mask [buf' [E [Es [L [Hi' Hu]]]]]]].
    rewrite map_length, seq_length in L, Hu.
    destruct (carries_ok d dyn unknowns distinct values span mask Hu L) as [c0 [C0 C1]].
    destruct (finish_same A say is_on capture unknowns batch solve values save path put patience asked (fun rows => idx_ok B rows /\ NoDup rows) inv) with
      (level := level) (B := B) (bufs := bufs) as [w [F [M N]]].
    { intros active m [H1 H2]. rewrite <- chosen_left_over. split; [eapply idx_ok_incl; [apply chosen_incl|exact H1]|apply chosen_nodup; exact H2]. }
    { intros a b active buf sp m b' [H1 H2] Hb E1 E2. destruct (total a b active buf Hb H1 H2) as [sp0 [m0 [b0 [F1 [F2 [_ [Hb' _]]]]]]].
      rewrite E1 in F1. injection F1 as <- <-. rewrite E2 in F2. injection F2 as <-. exact Hb'. }
    { split; assumption. }
    { exact Hi. }
    { intros sp m E1. rewrite E in E1. injection E1 as <- <-. unfold carries. destruct capture; [|exists None; reflexivity]. exists (Some c0). exact C0. }
    exists w. split; [exact F|]. split; [exact M|]. rewrite M.
    assert (Eb : bare solve save (a_zero A) (a_one A) (map Z.of_nat (seq 0 B)) bufs = Ok (mask, Ok buf')) by (unfold bare; rewrite E, Es; reflexivity).
    destruct (drive_first (middle A) (bare solve save) level _ _ _ _ _ _ Eb) as [later [Fi Fl]].
    pose proof (drive_last (middle A) (bare solve save) inv B bare_total level (a_zero A) (a_one A) (map Z.of_nat (seq 0 B)) bufs) as La.
    destruct (drive_total (middle A) (bare solve save) inv B bare_total level (a_zero A) (a_one A) (map Z.of_nat (seq 0 B)) bufs Hi Ia Na) as [r [l [Ed [_ Hr]]]].
    rewrite Ed in *. cbn [fst snd] in *. destruct r as [b1|e]; [split; [exact Hr|exact N]|].
    destruct N as [[N _]|[sp [m [c [E1 [Hc [Ha [k [Hk Hl]]]]]]]]]; [contradiction (not_broke e N)|]. rewrite E in E1. injection E1 as <- <-.
    exists span, mask. split; [exact E|].
    destruct (La e Hi Ia Na eq_refl) as [l' [x [y [rows [mk [El [Hh Hf]]]]]]].
    split.
    - split; [|split].
      + exists later. split; [exact Fi|]. intros x0 y0 rows0 mk0 i J1 J2. apply (left_over_all B). apply (Fl _ _ _ _ J1). exact J2.
      + destruct (positions false 0 mask) as [|p ps] eqn:Ep; [|apply (positions_in false mask 0); rewrite Ep; discriminate].
        exfalso. destruct level; cbn [drive] in Ed; rewrite Eb, Ep in Ed; discriminate.
      + exists l', x, y, rows, mk. split; [exact El|]. split; [exact Hh|]. split; [exact Hf|]. rewrite Hk.
        destruct Hl as [l2 [a2 [b2 [r2 [m2 [El2 [_ ->]]]]]]]. rewrite El in El2. apply app_inj_tail in El2 as [_ El2]. injection El2 as -> -> -> ->. reflexivity.
    - destruct capture.
      + exists c0. split; [|exact C1]. rewrite Ha. exact (carries_fun dyn unknowns values c (Some c0) span mask Hc C0).
      + rewrite Ha. exact Hc.
  Qed.
End Total.

(** ** The value path *)
Section Value.
  Context {V : Type}.
  Variable A : arith V.
  Variable d : device.
  Notation vmap := (smap (tensor V)).
  Variable masked : vmap -> result (vmap * list bool).
  Variable givens : list given_info.
  Variable unknowns : list var_info.
  Hypothesis seg : seg_ok givens unknowns.

  Lemma start_ok (st : vmap) dyn : over d dyn (map gv_var givens) st -> solid dyn (map gv_var givens) ->
    exists orig res ch, table d (numel dyn) (given_shapes givens) orig /\
      table d (numel dyn) (unknown_shapes unknowns) res /\ table d (numel dyn) (given_shapes (old_states givens)) ch /\
      (forall i, rows_of_names orig (given_names givens) i = entries (map gv_var givens) st i) /\
      (forall i, rows_of_names ch (given_names (old_states givens)) i = entries (map gv_var (old_states givens)) st i) /\
      start_of A givens unknowns st = Ok (if negb (length dyn =? 1) then Some dyn else None, (orig, numel dyn, (res, ch))).
  Proof.
    intros O Sd. destruct seg as [Ne [Ng [Nu _]]].
    destruct (start_parts d givens st dyn Ng O Sd) as [st1 [orig [ch [E1 [E2 [E3 [T2 [T3 [R2 [R3 F1]]]]]]]]]].
    set (res := fold_left (fun m u => set_ (v_name u) (zeros (a_zero A) (numel dyn :: [] ++ v_sub u ++ v_base u) d) m) unknowns []).
    exists orig, res, ch. split; [exact T2|]. split; [apply zeros_ok; [exact Nu|reflexivity]|]. split; [exact T3|]. split; [exact R2|]. split; [exact R3|].
    destruct givens as [|g0 gs] eqn:Eg; [contradiction Ne; reflexivity|]. rewrite <- Eg in *.
    assert (I0 : In g0 givens) by (rewrite Eg; left; reflexivity). destruct (F1 g0 I0) as [t0 [L0 [S0 [D0 L0']]]].
    assert (Hd : dim t0 = length dyn + var_trail (gv_var g0)) by (unfold dim; rewrite S0, app_length, trail_length; reflexivity).
    assert (Hlt : dim t0 <? var_trail (gv_var g0) = false) by (apply Nat.ltb_ge; lia).
    assert (Hf : firstn (dim t0 - var_trail (gv_var g0)) (t_shape t0) = dyn)
      by (rewrite Hd, Nat.add_sub, S0, firstn_app, Nat.sub_diag, firstn_all; cbn [firstn]; apply app_nil_r).
    assert (Hf' : firstn (dim (flat dyn (gv_var g0) t0) - var_trail (gv_var g0)) (t_shape (flat dyn (gv_var g0) t0)) = [numel dyn]).
    { unfold dim, flat. cbn [t_shape length]. rewrite trail_length, Nat.sub_succ_l, Nat.sub_diag by lia. reflexivity. }
    assert (HD : t_dev (flat dyn (gv_var g0) t0) = d) by exact D0.
    unfold start_of. rewrite Eg at 1. unfold at_ at 1. fold (given_name g0). rewrite L0. cbn [bind]. rewrite Hlt, Hf, E1. cbn [bind]. rewrite E2. cbn [bind].
    unfold at_ at 1. rewrite L0'. cbn [bind]. rewrite Hf', E3. cbn [bind]. rewrite HD. reflexivity.
  Qed.

  Lemma solve_span_is B (orig ch : vmap) a b active : table d B (given_shapes givens) orig -> table d B (given_shapes (old_states givens)) ch -> idx_ok B active ->
    exists span, table d (length active) (given_shapes givens) span /\
      (forall k i, nth_error active k = Some i -> rows_of_names span (given_names givens) k =
         map (row_input A givens (rows_of_names orig (given_names givens) (Z.to_nat i)) (rows_of_names ch (given_names (old_states givens)) (Z.to_nat i)) a b) givens) /\
      solve_span A masked givens orig a b active ch = masked span.
  Proof.
    intros To Tc Ia. destruct seg as [_ [Ng [_ [_ Pf]]]].
    destruct (table_select d B _ orig active To Ia) as [o [Eo [To' Vo]]]. destruct (table_select d B _ ch active Tc Ia) as [c [Ec [Tc' Vc]]].
    destruct (span_ok A d givens Ng (fun g => trailing (gv_var g)) Pf (length active) o c a b To' Tc') as [span [Es [Ts Rs]]].
    exists span. split; [exact Ts|]. split.
    - intros k i Hk. rewrite Rs. f_equal. f_equal; apply map_ext; intros n; [apply Vo|apply Vc]; exact Hk.
    - unfold solve_span. rewrite Eo. cbn [bind]. rewrite Ec. cbn [bind]. rewrite Es. reflexivity.
  Qed.

  Variable say : list (level * span_note V) -> level -> span_note V -> result unit.
  Variable is_on : level -> result bool.
  Variable capture : bool.
  Hypothesis patience : patient say.
  Hypothesis asked : exists info debug, is_on Info = Ok info /\ is_on Debug = Ok debug.
  Hypothesis ans : answers d givens unknowns masked.

  Lemma value_context level (st : vmap) dyn : over d dyn (map gv_var givens) st -> solid dyn (map gv_var givens) ->
    exists r w, watch_substepped A say is_on capture masked givens unknowns level st watch0 = (r, w) /\
      run_substepped A masked givens unknowns level st = (r, solves_of (w_events w)) /\
      match r with
      | Ok _ => w_raised w = None /\ w_attached w = None
      | Err _ => exists span span' mask, full_step A d givens st dyn span /\ masked span = Ok (span', mask) /\
          failure A (numel dyn) level (solves_of (w_events w)) mask (w_raised w) /\
          if capture then exists c, w_attached w = Some c /\ context_of d dyn unknowns span' mask c else w_attached w = None
      end.
  Proof.
    intros O Sd. destruct (start_ok st dyn O Sd) as [orig [res [ch [To [Tr [Tc [Ro [Rc Es]]]]]]]].
    rewrite watch_is, run_is, Es. pose proof seg as [_ [_ [Nu _]]].
    assert (I0 : inv d givens unknowns (numel dyn) (res, ch)) by (split; assumption).
    destruct (finish_total A say is_on capture d dyn unknowns Nu (value_solve A masked givens orig) (fun span => span) (store givens unknowns) "value"
                (fun bufs => put_results unknowns (fst bufs) (if negb (length dyn =? 1) then Some dyn else None) st) patience asked
                (inv d givens unknowns (numel dyn))) with (level := level) (bufs := (res, ch)) as [w [F [M N]]].
    { intros a b active buf Hi Ia Na. destruct (span_solve_total A d masked givens unknowns orig seg (numel dyn) To ans a b active buf Hi Ia Na) as [mask [buf' [E [L Hi']]]].
      destruct (solve_span_is (numel dyn) orig (snd buf) a b active To (proj2 Hi) Ia) as [span [Ts [_ Em]]].
      destruct (ans _ _ Ts) as [span' [mask' [Ea [_ Hu]]]]. rewrite Ea in Em.
      unfold span_solve in E. rewrite Em in E. injection E as <- E. exists span', mask', buf'. unfold value_solve.
      split; [exact Em|]. split; [exact E|]. split; [exact L|]. split; [exact Hi'|exact Hu]. }
    { exact I0. }
    rewrite bare_value in *. change (middle A) with (mid_of A) in F, M, N at 1.
    eexists _, w. split; [exact F|]. rewrite M, solve_to_drive. unfold all_rows in *.
    destruct (drive (mid_of A) (span_solve A masked givens unknowns orig) level (a_zero A) (a_one A) (map Z.of_nat (seq 0 (numel dyn))) (res, ch)) as [r l] eqn:Ed.
    cbn [fst snd] in *. split; [reflexivity|]. destruct r as [b1|e]; cbn [bind].
    - destruct N as [[Tu _] [N1 N2]].
      destruct (put_results_ok d dyn unknowns (fst b1) Nu) with (st := st) as [st' [Ep _]].
      { intros u I. apply (table_get d _ _ _ _ _ Tu). unfold unknown_shapes.
        apply lookup_nodup; [|apply (in_map (fun u => (v_name u, trailing u))); exact I]. unfold keys. rewrite map_map. exact Nu. }
      rewrite Ep. split; [exact N2|exact N1].
    - destruct N as [span' [mask [E [Hf Hc]]]]. destruct (all_rows_ok (numel dyn)) as [Ia [Na _]]. unfold all_rows in *.
      destruct (solve_span_is (numel dyn) orig ch (a_zero A) (a_one A) _ To Tc Ia) as [span [Ts [Rs Em]]]. unfold value_solve in E. cbn [snd] in E. rewrite Em in E.
      rewrite map_length, seq_length in Ts. exists span, span', mask. split; [|split; [exact E|split; [rewrite <- M; exact Hf|exact Hc]]].
      split; [exact Ts|]. intros i Hi. rewrite <- Ro, <- Rc. rewrite (Rs i (Z.of_nat i)); [rewrite Nat2Z.id; reflexivity|].
      rewrite nth_error_map. rewrite (nth_error_nth' (seq 0 (numel dyn)) 0) by (rewrite seq_length; exact Hi). rewrite seq_nth by exact Hi. reflexivity.
  Qed.
End Value.

(** ** The path with derivatives *)
Section Jacobian.
  Context {V : Type}.
  Variable A : arith V.
  Variable d : device.
  Notation vmap := (smap (tensor V)).
  Variable masked : vmap -> result (vmap * list bool).
  Variable ift : vmap -> vmap -> result vmap.
  Variable givens : list given_info.
  Variable unknowns : list var_info.
  Variable M : nat.
  Hypothesis seg : seg_ok givens unknowns.

  Lemma start_ok_d (st ds : vmap) dyn : over d dyn (map gv_var givens) st -> solid dyn (map gv_var givens) ->
    over d dyn (map (carrier M) (map gv_var givens)) ds -> length dyn = 1 \/ M <> 0 ->
    exists orig orig_d res ch res_d ch_d, table d (numel dyn) (given_shapes givens) orig /\ table d (numel dyn) (given_carriers M givens) orig_d /\
      inv_d d givens unknowns M (numel dyn) ((res, ch), (res_d, ch_d)) /\
      (forall i, rows_of_names orig (given_names givens) i = entries (map gv_var givens) st i) /\
      (forall i, rows_of_names ch (given_names (old_states givens)) i = entries (map gv_var (old_states givens)) st i) /\
      start_of_d A givens unknowns st ds = Ok (if negb (length dyn =? 1) then Some dyn else None, (orig, orig_d, numel dyn, ((res, ch), (res_d, ch_d)))).
  Proof.
    intros O Sd Od Md. destruct seg as [Ne [Ng [Nu _]]].
    destruct (start_parts d givens st dyn Ng O Sd) as [st1 [orig [ch [E1 [E2 [E3 [T2 [T3 [R2 [R3 F1]]]]]]]]]].
    destruct (start_parts d (map (given_carrier M) givens) ds dyn) as [ds1 [orig_d [ch_d [E1d [E2d [E3d [T2d [T3d [R2d [R3d F1d]]]]]]]]]].
    { rewrite names_carriers. exact Ng. }
    { rewrite vars_carriers. exact Od. }
    { destruct Md as [Md|Md]; [left; exact Md|]. destruct Sd as [Sd|Sd]; [left; exact Sd|]. right. intros v I. rewrite vars_carriers in I.
      apply in_map_iff in I as [w [<- I]]. specialize (Sd w I). unfold trailing in *. cbn [carrier v_sub v_base app numel fold_right].
      rewrite numel_app in Sd. unfold var_size. lia. }
    rewrite names_carriers in R2d. rewrite olds_carriers in T3d, R3d. rewrite names_carriers in R3d. rewrite !vars_carriers in R2d, R3d.
    rewrite shapes_carriers in T2d, T3d. rewrite <- flatten_carriers_givens in E1d. rewrite <- collect_carriers in E2d.
    change (filter is_old_state (map (given_carrier M) givens)) with (old_states (map (given_carrier M) givens)) in E3d.
    rewrite olds_carriers, <- collect_carriers in E3d.
    set (res := fold_left (fun m u => set_ (v_name u) (zeros (a_zero A) (numel dyn :: [] ++ v_sub u ++ v_base u) d) m) unknowns []).
    set (res_d := fold_left (fun m u => set_ (v_name u) (zeros (a_zero A) (numel dyn :: [] ++ [var_size u; M]) d) m) unknowns []).
    exists orig, orig_d, res, ch, res_d, ch_d. split; [exact T2|]. split; [exact T2d|]. split.
    { split; [split; [apply zeros_ok; [exact Nu|reflexivity]|exact T3]|]. cbn [fst snd]. split; [|exact T3d].
      replace (unknown_carriers unknowns M) with (unknown_shapes (map (carrier M) unknowns))
        by (unfold unknown_shapes, unknown_carriers; rewrite map_map; reflexivity).
      replace res_d with (fold_left (fun m u => set_ (v_name u) (zeros (a_zero A) (numel dyn :: [] ++ v_sub u ++ v_base u) d) m) (map (carrier M) unknowns) []).
      - apply zeros_ok; [rewrite unames_carriers; exact Nu|reflexivity].
      - unfold res_d. generalize (@nil (string * tensor V)). clear. induction unknowns as [|u l IH]; intros acc; [reflexivity|]. cbn [map fold_left]. apply IH. }
    split; [exact R2|]. split; [exact R3|].
    destruct givens as [|g0 gs] eqn:Eg; [contradiction Ne; reflexivity|]. rewrite <- Eg in *.
    assert (I0 : In g0 givens) by (rewrite Eg; left; reflexivity). destruct (F1 g0 I0) as [t0 [L0 [S0 [D0 L0']]]].
    destruct (F1d (given_carrier M g0) (in_map _ _ _ I0)) as [u0 [Lu0 [Su0 [Du0 Lu0']]]].
    change (given_name (given_carrier M g0)) with (given_name g0) in Lu0, Lu0'.
    assert (Hd : dim t0 = length dyn + var_trail (gv_var g0)) by (unfold dim; rewrite S0, app_length, trail_length; reflexivity).
    assert (Hlt : dim t0 <? var_trail (gv_var g0) = false) by (apply Nat.ltb_ge; lia).
    assert (Hf : firstn (dim t0 - var_trail (gv_var g0)) (t_shape t0) = dyn)
      by (rewrite Hd, Nat.add_sub, S0, firstn_app, Nat.sub_diag, firstn_all; cbn [firstn]; apply app_nil_r).
    assert (Hf' : firstn (dim (flat dyn (gv_var g0) t0) - var_trail (gv_var g0)) (t_shape (flat dyn (gv_var g0) t0)) = [numel dyn]).
    { unfold dim, flat. cbn [t_shape length]. rewrite trail_length, Nat.sub_succ_l, Nat.sub_diag by lia. reflexivity. }
    assert (HM : size_at (flat dyn (gv_var (given_carrier M g0)) u0) (-1)%Z = Ok M) by reflexivity.
    assert (HD : t_dev (flat dyn (gv_var g0) t0) = d) by exact D0.
    unfold start_of_d. rewrite Eg at 1. unfold at_ at 1. fold (given_name g0). rewrite L0. cbn [bind]. rewrite Hlt, Hf, E1. cbn [bind]. rewrite E1d. cbn [bind].
    rewrite E2. cbn [bind]. rewrite E2d. cbn [bind]. unfold at_ at 1. rewrite L0'. cbn [bind]. rewrite Hf'. unfold at_ at 1. rewrite Lu0'. cbn [bind].
    rewrite HM. cbn [bind]. rewrite E3. cbn [bind].
    unfold old_states in E3d. change (filter (fun g => String.eqb (gv_role g) "old_state") givens) with (filter is_old_state givens) in E3d.
    rewrite E3d. cbn [bind]. rewrite HD. reflexivity.
  Qed.

  Lemma solve_span_d_is B (orig orig_d ch ch_d : vmap) a b active : table d B (given_shapes givens) orig -> table d B (given_shapes (old_states givens)) ch ->
    table d B (given_carriers M givens) orig_d -> table d B (given_carriers M (old_states givens)) ch_d -> idx_ok B active ->
    exists span span_d, table d (length active) (given_shapes givens) span /\
      (forall k i, nth_error active k = Some i -> rows_of_names span (given_names givens) k =
         map (row_input A givens (rows_of_names orig (given_names givens) (Z.to_nat i)) (rows_of_names ch (given_names (old_states givens)) (Z.to_nat i)) a b) givens) /\
      solve_span_d A masked givens orig orig_d a b active ch ch_d = (let* sm := masked span in Ok (sm, span_d)).
  Proof.
    intros To Tc Tod Tcd Ia. destruct seg as [_ [Ng [_ [_ Pf]]]].
    destruct (table_select d B _ orig active To Ia) as [o [Eo [To' Vo]]]. destruct (table_select d B _ ch active Tc Ia) as [c [Ec [Tc' Vc]]].
    destruct (table_select d B _ orig_d active Tod Ia) as [od [Eod [Tod' _]]]. destruct (table_select d B _ ch_d active Tcd Ia) as [cd [Ecd [Tcd' _]]].
    destruct (span_ok A d givens Ng (fun g => trailing (gv_var g)) Pf (length active) o c a b To' Tc') as [span [Es [Ts Rs]]].
    assert (Pd : forall g, In g givens -> forced g -> exists g', In g' givens /\ given_name g' = gv_pair g /\
                   [var_size (gv_var g'); M] = [var_size (gv_var g); M]).
    { intros g I F. destruct (Pf g I F) as [g' [I' [E' S']]]. exists g'. split; [exact I'|]. split; [exact E'|]. rewrite (size_trailing _ _ S'). reflexivity. }
    destruct (span_ok A d givens Ng (fun g => [var_size (gv_var g); M]) Pd (length active) od cd a b Tod' Tcd') as [span_d [Esd _]].
    exists span, span_d. split; [exact Ts|]. split.
    - intros k i Hk. rewrite Rs. f_equal. f_equal; apply map_ext; intros n; [apply Vo|apply Vc]; exact Hk.
    - unfold solve_span_d. rewrite Eo. cbn [bind]. rewrite Ec. cbn [bind]. rewrite Eod. cbn [bind]. rewrite Ecd. cbn [bind]. rewrite Es. cbn [bind]. rewrite Esd. reflexivity.
  Qed.

  Variable say : list (level * span_note V) -> level -> span_note V -> result unit.
  Variable is_on : level -> result bool.
  Variable capture : bool.
  Hypothesis patience : patient say.
  Hypothesis asked : exists info debug, is_on Info = Ok info /\ is_on Debug = Ok debug.
  Hypothesis ans : answers_all d givens unknowns masked.
  Variable solve_row : list (list V) -> list (list V) * bool.
  Hypothesis row_by_row : rowwise d givens unknowns masked solve_row.
  Variable ift_row : list (list V) -> list (list V) -> list (list V) -> list (list V).
  Hypothesis tangent_rows : tangents_by_row d givens unknowns M solve_row ift ift_row.

  Lemma jac_context level (st ds : vmap) dyn : over d dyn (map gv_var givens) st -> solid dyn (map gv_var givens) ->
    over d dyn (map (carrier M) (map gv_var givens)) ds -> length dyn = 1 \/ M <> 0 ->
    exists r w, watch_substepped_d A say is_on capture masked ift givens unknowns level st ds watch0 = (r, w) /\
      run_substepped_d A masked ift givens unknowns level st ds = (r, solves_of (w_events w)) /\
      match r with
      | Ok _ => w_raised w = None /\ w_attached w = None
      | Err _ => exists span span' mask, full_step A d givens st dyn span /\ masked span = Ok (span', mask) /\
          failure A (numel dyn) level (solves_of (w_events w)) mask (w_raised w) /\
          if capture then exists c, w_attached w = Some c /\ context_of d dyn unknowns span' mask c else w_attached w = None
      end.
  Proof.
    intros O Sd Od Md. destruct (start_ok_d st ds dyn O Sd Od Md) as [orig [orig_d [res [ch [res_d [ch_d [To [Td [I0 [Ro [Rc Es]]]]]]]]]]].
    rewrite watch_is_d, run_is_d, Es. pose proof seg as [_ [_ [Nu _]]].
    destruct (finish_total A say is_on capture d dyn unknowns Nu (jac_solve A masked givens orig orig_d) (fun span => fst span) (jac_save ift givens unknowns) "jacobian"
                (jac_put unknowns (if negb (length dyn =? 1) then Some dyn else None) st ds) patience asked
                (inv_d d givens unknowns M (numel dyn))) with (level := level) (bufs := ((res, ch), (res_d, ch_d))) as [w [F [Mw N]]].
    { intros a b active buf Hi Ia Na.
      destruct (span_of_d A d masked ift givens unknowns orig orig_d M seg ans (numel dyn) To Td solve_row row_by_row ift_row tangent_rows a b active buf Hi Ia Na)
        as [mask [buf' [E [_ [L [Hi' _]]]]]].
      destruct Hi as [[_ Hc] [_ Hcd]].
      destruct (solve_span_d_is (numel dyn) orig orig_d (snd (fst buf)) (snd (snd buf)) a b active To Hc Td Hcd Ia) as [span [span_d [Ts [_ Em]]]].
      destruct (answers_some d masked givens unknowns ans _ _ Ts) as [span' [mask' [Ea [_ Hu]]]]. rewrite Ea in Em. cbn [bind] in Em.
      unfold span_solve_d in E. rewrite Em in E. injection E as <- E. exists (span', span_d), mask', buf'. unfold jac_solve. rewrite Em.
      split; [reflexivity|]. split; [exact E|]. split; [exact L|]. split; [exact Hi'|exact Hu]. }
    { exact I0. }
    rewrite drive_jac in *.
    eexists _, w. split; [exact F|]. rewrite Mw.
    destruct (solve_to_d A masked ift givens unknowns orig orig_d level (a_zero A) (a_one A) (map Z.of_nat (seq 0 (numel dyn))) ((res, ch), (res_d, ch_d))) as [r l] eqn:Ed.
    cbn [fst snd] in *. split; [reflexivity|]. destruct r as [b1|e]; cbn [bind].
    - destruct N as [[[Tu _] [Tud _]] [N1 N2]].
      destruct (put_results_ok d dyn unknowns (fst (fst b1)) Nu) with (st := st) as [st' [Ep _]].
      { intros u I. apply (table_get d _ _ _ _ _ Tu). unfold unknown_shapes.
        apply lookup_nodup; [|apply (in_map (fun u => (v_name u, trailing u))); exact I]. unfold keys. rewrite map_map. exact Nu. }
      unfold jac_put. rewrite Ep. cbn [bind]. rewrite (put_tangents_results M).
      destruct (put_results_ok d dyn (map (carrier M) unknowns) (fst (snd b1))) with (st := ds) as [ds' [Epd _]].
      { rewrite map_map. exact Nu. }
      { intros u I. apply in_map_iff in I as [x [<- I]]. apply (table_get d _ _ _ _ _ Tud). unfold unknown_carriers.
        apply lookup_nodup; [|apply (in_map (fun u => (v_name u, [var_size u; M])) _ x); exact I]. unfold keys. rewrite map_map. exact Nu. }
      rewrite Epd. cbn [bind]. split; [exact N2|exact N1].
    - destruct N as [spans [mask [E [Hf Hc]]]]. destruct (all_rows_ok (numel dyn)) as [Ia [Na _]]. unfold all_rows in *.
      destruct I0 as [[_ Tc] [_ Tcd]]. cbn [fst snd] in Tc, Tcd.
      destruct (solve_span_d_is (numel dyn) orig orig_d ch ch_d (a_zero A) (a_one A) _ To Tc Td Tcd Ia) as [span [span_d [Ts [Rs Em]]]].
      unfold jac_solve in E. cbn [fst snd] in E. rewrite Em in E. destruct (masked span) as [[span' mask']|e1] eqn:Ema; [|discriminate]. cbn [bind fst snd] in E.
      injection E as <- <-. cbn [fst] in Hc.
      rewrite map_length, seq_length in Ts. exists span, span', mask'. split; [|split; [exact Ema|split; [rewrite <- Mw; exact Hf|exact Hc]]].
      split; [exact Ts|]. intros i Hi. rewrite <- Ro, <- Rc. rewrite (Rs i (Z.of_nat i)); [rewrite Nat2Z.id; reflexivity|].
      rewrite nth_error_map. rewrite (nth_error_nth' (seq 0 (numel dyn)) 0) by (rewrite seq_length; exact Hi). rewrite seq_nth by exact Hi. reflexivity.
  Qed.
End Jacobian.

(** ** Row by row *)
Section Rows.
  Context {V : Type}.
  Variable A : arith V.
  Variable d : device.
  Notation vmap := (smap (tensor V)).
  Variable masked : vmap -> result (vmap * list bool).
  Variable givens : list given_info.
  Variable unknowns : list var_info.
  Variable solve_row : list (list V) -> list (list V) * bool.
  Hypothesis row_by_row : rowwise d givens unknowns masked solve_row.

  Lemma context_rows (st span span' : vmap) dyn mask c : full_step A d givens st dyn span -> masked span = Ok (span', mask) ->
    context_of d dyn unknowns span' mask c -> forall i, i < numel dyn ->
    solve_row (map (row_input A givens (entries (map gv_var givens) st i) (entries (map gv_var (old_states givens)) st i) (a_zero A) (a_one A)) givens) =
      (entries unknowns (cx_unknowns c) i, nth i (cx_mask c) false).
  Proof.
    intros [T R] E [_ [Cm [Lm [_ [Cu _]]]]] i Hi. destruct (row_by_row _ _ _ _ T E i Hi) as [U M]. rewrite (R i Hi) in U, M.
    rewrite Cu, Cm by exact Hi. rewrite U. apply nth_error_nth with (d := false) in M. rewrite M. destruct (solve_row _). reflexivity.
  Qed.
End Rows.
