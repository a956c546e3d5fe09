(** The lines of the first GMRES cycle, over the real numbers (C75). *)
From Coq Require Import Reals Lra Psatz.
From Verif Require Import Base BaseProofs Newton Krylov SpecKrylov SpecGmres KrylovProofs KrylovCostProofs KrylovRowProofs
     KrylovGmresProofs KrylovSoloProofs RealVec GmresBasis GmresExactProofs KrylovSystem Log KrylovLog SpecKrylovLog KrylovLogProofs KrylovLinesProofs.

Section Trial.
  Context {V : Type}.
  Variable N : num V.
  Variable rsum : list V -> V.
  Variable edot : list V -> list V -> V.
  Variable tri : list (list V) -> list V -> list V.
  Variable vmax : list V -> V.
  Variable say : list (level * klog_note V) -> level -> klog_note V -> result unit.
  Variable matvec minv : list (list V) -> result (list (list V)).
  Variable hook : bool.

  Lemma same_cycle cfg k b more st :
    gmres_cycle N rsum edot matvec minv (with_cycle cfg k) b more st = gmres_cycle N rsum edot matvec minv cfg b more st.
  Proof.
    revert st. induction more as [|more IH]; intros st; [reflexivity|]. cbn [gmres_cycle].
    unfold kbind at 1 3. destruct (apply_a matvec _) as [[av|e] a1]; [|reflexivity].
    unfold kbind at 1 2. destruct (apply_m minv _) as [[w|e] a2]; [|reflexivity]. cbv zeta.
    change (gmres_column N rsum edot (with_cycle cfg k)) with (gmres_column N rsum edot cfg).
    destruct (forallb gr_done _); [reflexivity|]. rewrite IH. reflexivity.
  Qed.

  Lemma first_cycle_line b cfg r ev i w q :
    (0 < k_restart cfg)%Z ->
    log_gmres N rsum edot tri vmax say matvec minv hook b cfg [] = (r, ev) ->
    In (Debug, NIter i w q) (lines_in ev) -> (Z.of_nat i <= k_restart cfg)%Z ->
    exists rr st0 st1 l1 res, minv b = Ok rr /\ like b rr = true /\ 1 <= i /\
      st0 = map2 (fun q s => gmres_begin N rsum cfg (fst q) (snd q) s) (combine b rr) (map (gmres_start N) b) /\
      gmres_cycle N rsum edot matvec minv cfg b i st0 = (Ok st1, l1) /\ mats l1 = i /\ length st1 = length b /\
      gmres N rsum edot tri matvec minv b (with_cycle cfg i) = (Ok res, CPre b :: l1) /\
      kr_du res = map (fun s => gr_x (gmres_correct N edot tri s)) st1 /\ kr_iters res = i /\
      (Debug, NIter i w q) = line N rsum vmax b i (gnorms N st1).
  Proof.
    intros Hm H I Li. unfold log_gmres in H.
    apply quiet_bind in H as [(cycles & Ec & H)|(e & _ & -> & ->)]; [|destruct I]. cbn [fst] in Ec.
    cbn [snd map app] in H. cbv zeta in H. unfold lbind at 1 in H.
    destruct (Z.ltb_spec (k_restart cfg) 0) as [Q|_]; [lia|]. cbn [andb] in H.
    destruct (log_loop _ _ _ _ _ _ _ _ _ _ _ _ _ _ _ _ _) as [rl wl] eqn:E.
    destruct (loop_lines N rsum edot tri vmax say matvec minv hook cfg b _ true 0 _ _ _ _ _ (map_length _ _) (gcounted_start N b) E)
      as (ev1 & Ew & K1 & K2 & _ & K4). cbn [app] in Ew. subst wl. cbv zeta in K4, K2. cbn [Nat.add] in K2, K4.
    assert (Hev : lines_in ev = lines_in ev1).
    { destruct rl; [|congruence]. unfold quiet in H. cbn [fst snd map] in H. rewrite app_nil_r in H. congruence. }
    rewrite Hev in I. clear H Hev. apply In_nth_error in I as (j & Ej).
    assert (Ei : i = S j).
    { destruct (K2 j _ Ej) as (st1 & _ & P & _). unfold line in P. injection P. auto. }
    subst i. destruct (K4 j _ Ej ltac:(lia)) as (rr & l0 & st1 & l1 & P1 & P2 & [P3 Pm] & P4).
    assert (Cb : (0 < cycles)%Z).
    { destruct (Z.ltb_spec 0 cycles); [assumption|]. exfalso. replace (Z.to_nat cycles) with 0 in E by lia. cbn [log_loop] in E.
      unfold lret in E. injection E as _ <-. destruct j; discriminate. }
    assert (Mx : (0 < k_max_its cfg)%Z /\ (k_max_its cfg + k_restart cfg < 2 ^ 63)%Z).
    { unfold cycles_of in Ec. cbv zeta in Ec. destruct (_ || _) eqn:Q in Ec; [discriminate|]. injection Ec as Ec. clear K1 K2 K4 E P1 P2 P3 P4.
      apply orb_false_elim in Q as [Q _]. apply orb_false_elim in Q as [Q _]. apply orb_false_elim in Q as [_ Q].
      apply negb_false_iff in Q. unfold int64_ok in Q. apply andb_prop in Q as [_ Q]. apply Z.ltb_lt in Q. split; [|exact Q].
      destruct (Z.ltb_spec 0 (k_max_its cfg)); [assumption|]. exfalso. subst cycles.
      assert (Z.quot (k_max_its cfg + k_restart cfg - 1) (k_restart cfg) <= 0)%Z; [|lia].
      destruct (Z.leb_spec 0 (k_max_its cfg + k_restart cfg - 1)).
      - rewrite Z.quot_small; lia.
      - replace (k_max_its cfg + k_restart cfg - 1)%Z with (- (- (k_max_its cfg + k_restart cfg - 1)))%Z by lia.
        rewrite Z.quot_opp_l by lia. pose proof (Z.quot_pos (- (k_max_its cfg + k_restart cfg - 1)) (k_restart cfg) ltac:(lia) Hm). lia. }
    assert (Ec1 : cycles_of (with_cycle cfg (S j)) = Ok 1%Z).
    { unfold cycles_of, with_cycle. cbn [k_restart k_max_its]. cbv zeta.
      assert (I64 : forall z, (0 <= z < 2 ^ 63)%Z -> int64_ok z = true).
      { intros z [X Y]. unfold int64_ok. apply andb_true_intro. split; [apply Z.leb_le; lia|apply Z.ltb_lt; lia]. }
      destruct (Z.eqb_spec (Z.of_nat (S j)) 0); [lia|].
      assert (Eq : (Z.quot (1 + Z.of_nat (S j) - 1) (Z.of_nat (S j)) = 1)%Z).
      { replace (1 + Z.of_nat (S j) - 1)%Z with (Z.of_nat (S j)) by lia. apply Z.quot_same. lia. }
      rewrite Eq, (I64 (1 + Z.of_nat (S j))%Z), (I64 (1 + Z.of_nat (S j) - 1)%Z) by lia. reflexivity. }
    clear K1 K2 K4 E.
    cbn [gmres_residual] in P1. pose proof P1 as P1'. apply call_op_inv in P1 as (M1 & M2 & -> & _).
    destruct (gmres_begin_step N rsum matvec minv cfg b true (map (gmres_start N) b) rr [CPre b] (map_length _ _) P1') as (_ & _ & _ & HH).
    cbv zeta in HH. destruct HH as (L1 & A1 & C1 & _). specialize (C1 0 (gcounted_start N b)).
    set (st0 := map2 _ _ (map (gmres_start N) b)) in *.
    pose proof (cycle_len N rsum edot matvec minv cfg b (S j) st0 st1 l1 L1 P3) as Ls.
    destruct (gmres_cycle_exact N rsum edot tri matvec minv cfg b (S j) st0 st1 l1 0 L1 C1 A1 P2 P3) as (k & G1 & _ & G3 & _ & G5 & _ & G7).
    assert (Nb : b <> []) by (intros ->; discriminate).
    assert (Ek : mats l1 = S j) by exact Pm. rewrite <- G3 in G1.
    set (xs := map gr_x (map (gmres_correct N edot tri) st1)). set (ds := map gr_done (map (gmres_correct N edot tri) st1)).
    assert (Es : finish xs (map gr_iters (map (gmres_correct N edot tri) st1)) ds = Ok (mkKres xs (S j) ds)).
    { assert (Q : map gr_iters (map (gmres_correct N edot tri) st1) = map gr_iters st1) by (rewrite map_map; reflexivity).
      rewrite Q. assert (Q2 : max_of (map gr_iters st1) = S j).
      { replace (S j) with (0 + mats l1) by (rewrite Ek; reflexivity). apply gcounted_max; [|exact G1]. intros ->. destruct b; [congruence|discriminate]. }
      rewrite <- Q2. destruct st1 as [|s1 st1]; [destruct b; [congruence|discriminate]|]. reflexivity. }
    exists rr, st0, st1, l1. eexists. split; [exact M1|]. split; [exact M2|]. split; [lia|]. split; [reflexivity|].
    split; [exact P3|]. split; [exact Pm|]. split; [exact Ls|]. split.
    { unfold gmres. rewrite Ec1. cbn [kbind]. cbv zeta. cbn [with_cycle k_restart].
      destruct (Z.ltb_spec (Z.of_nat (S j)) 0) as [Q|_]; [lia|]. cbn [andb]. change (Z.to_nat 1) with 1. rewrite Nat2Z.id.
      cbn [gmres_loop]. unfold gmres_residual. rewrite P1'. cbn [kbind]. cbv zeta.
      change (gmres_begin N rsum (with_cycle cfg (S j))) with (gmres_begin N rsum cfg). fold st0. rewrite P2, same_cycle, P3.
      cbn [kbind kret]. fold xs ds. rewrite Es, ?app_nil_r. reflexivity. }
    cbn [kr_du kr_iters]. split; [unfold xs; rewrite map_map; reflexivity|]. split; [reflexivity|]. exact P4.
  Qed.
End Trial.

Lemma zeros_nil eps bi : zeros (reals eps) bi = nil_v (length bi).
Proof. unfold zeros, nil_v. cbn [n_zero reals]. induction bi; cbn; congruence. Qed.

Local Open Scope R_scope.
Lemma gmres_line_row n eps tri matvec minv b cfg rr st0 st1 l1 res i k A M bi x e :
  0 < eps -> solves_upper tri ->
  minv b = Ok rr -> like b rr = true ->
  st0 = map2 (fun q s => gmres_begin (reals eps) real_sum cfg (fst q) (snd q) s) (combine b rr) (map (gmres_start (reals eps)) b) ->
  gmres_cycle (reals eps) real_sum real_dot matvec minv cfg b i st0 = (Ok st1, l1) -> mats l1 = i ->
  gmres (reals eps) real_sum real_dot tri matvec minv b (with_cycle cfg i) = (Ok res, CPre b :: l1) ->
  kr_du res = map (fun s => gr_x (gmres_correct (reals eps) real_dot tri s)) st1 -> kr_iters res = i ->
  acts_on k A matvec -> acts_on k M minv -> linear_op (reals eps) n A -> linear_op (reals eps) n M ->
  bounded_below eps n (fun v => M (A v)) ->
  nth_error b k = Some bi -> length bi = n -> nth_error (kr_du res) k = Some x -> nth_error (gnorms (reals eps) st1) k = Some e ->
  normalised i k i (CPre b :: l1) ->
  length x = n /\ 0 <= e /\ square (M (residual_of (reals eps) A bi x)) = e * e + eps * eps * square x.
Proof.
  intros He ST M1 M2 -> Hc Hml Hg Ed Ei EA EM LA LM GB Eb Lb Ex Ee Hn.
  assert (P1 : gmres_residual (reals eps) matvec minv b true (map (gmres_start (reals eps)) b) = (Ok rr, [CPre b])).
  { cbn [gmres_residual]. unfold apply_m, call_op. rewrite M1. cbn [bind]. rewrite M2. reflexivity. }
  destruct (begin_row (reals eps) real_sum matvec minv b k A M bi EA EM Eb cfg true _ rr _ (map_length _ _) P1) as (L1 & Hb).
  assert (Es0 : nth_error (map (gmres_start (reals eps)) b) k = Some (gmres_start (reals eps) bi)) by (rewrite nth_error_map, Eb; reflexivity).
  specialize (Hb _ Es0). cbn [andb] in Hb. set (st0 := map2 _ _ _) in *. clearbody st0.
  set (z0 := M bi) in *.
  assert (Lz : length z0 = n) by (apply LM; exact Lb).
  set (beta := sqrt (square z0)).
  assert (Hbeta : 0 <= beta) by apply sqrt_pos.
  set (s1 := gmres_begin (reals eps) real_sum cfg bi z0 (gmres_start (reals eps) bi)) in *.
  assert (Sd1 : gr_done s1 = meets (reals eps) cfg (bnorm (reals eps) real_sum bi) beta).
  { unfold s1, gmres_begin. cbn [gr_done gmres_start orb]. rewrite row_norm_sqrt. reflexivity. }
  assert (Sx1 : gr_x s1 = nil_v n) by (unfold s1; cbn [gmres_begin gr_x gmres_start]; rewrite zeros_nil, Lb; reflexivity).
  assert (Sa1 : gr_done s1 = false -> gr_active s1 = true).
  { intros Q. unfold s1, gmres_begin in *. cbn [gr_done gr_active] in *. rewrite Q. reflexivity. }
  assert (Sarn : gr_arn s1 = mkArn [map (fun x => x / clamp (reals eps) beta) z0] [] [] [] beta).
  { unfold s1, gmres_begin. cbn [gr_arn]. rewrite row_norm_sqrt. reflexivity. }
  clearbody s1.
  destruct (start_holds n eps He A M LA LM z0 Lz) as (us & qs & p & Ho). cbv zeta in Ho. fold beta in Ho. rewrite <- Sarn in Ho.
  destruct (cycle_exact n eps He A M LA LM GB bi matvec minv b k EA EM Eb cfg i st0 st1 l1 s1 z0 us qs p 0%nat L1 Hc Hb Ho)
    as (s2 & us' & qs' & p' & k' & Y1 & Y2 & Y3 & _).
  { rewrite Sarn. cbn [ar_last]. intros Q. rewrite Rabs_right by (clear - Hbeta; lra). rewrite <- Sd1. exact Q. }
  { exact Sa1. }
  { intros j x0 v Ej Ev.
    assert (Hj : (j < mats l1)%nat) by (rewrite <- operands_len; apply nth_error_Some; congruence).
    assert (Hji : (j < i)%nat) by (rewrite <- Hml; exact Hj).
    apply (Hn j x0 v); [exact Hji| |exact Ev]. unfold iteration_operand. rewrite Nat.div_small by exact Hji. rewrite Nat.add_0_r. exact Ej. }
  destruct (correction n eps He (fun v => M (A v)) (linear_B n eps A M LA LM) tri ST z0 (gr_arn s2) us' qs' p' k' (gr_x s2) Y2
              ltac:(rewrite Y3, Sx1; unfold nil_v; apply repeat_length)) as [Ld Sq].
  set (d := combination real_dot _ _ _) in Ld, Sq.
  rewrite Ed, nth_error_map, Y1 in Ex. unfold gnorms in Ee. rewrite nth_error_map, Y1 in Ee. cbn [option_map] in Ex, Ee.
  assert (Ex' : x = gr_x (gmres_correct (reals eps) real_dot tri s2)) by congruence. injection Ee as <-. rewrite Ex'. clear Ex Ex'.
  assert (Exc : gr_x (gmres_correct (reals eps) real_dot tri s2) = d).
  { cbn [gmres_correct gr_x]. fold d. rewrite Y3, Sx1. change (plus (nil_v n) d = d). vec n. ring. }
  rewrite Exc. split; [exact Ld|]. cbn [n_abs reals]. split; [apply Rabs_pos|].
  change (M (residual_of (reals eps) A bi d)) with (resid A M bi d).
  replace d with (plus (nil_v n) d) at 1 by (vec n; ring).
  rewrite (resid_step n eps A M LA LM bi Lb) by (exact Ld || (unfold nil_v; apply repeat_length)).
  rewrite (resid_nil n eps A M LA LM bi Lb). fold z0. rewrite Sq.
  assert (Q : forall a, Rabs a * Rabs a = a * a) by (intros a; rewrite <- Rabs_mult; apply Rabs_right; clear; nra). rewrite Q. reflexivity.
Qed.
