(** Lemmas about the substepping driver with tangents (SubstepJac.v). *)
From Verif Require Import Base BaseProofs SpecMap SmapProofs Tensor Spec TensorProofs BatchChunk SelectProofs BroadcastProofs Pack Implicit ImplicitProofs
     Substep SpecSubstep DriveProofs RowTableProofs SubstepProofs SubstepRunProofs Jac SubstepJac SpecSubstepJac.

(** ** More about the recursion *)
Section DriveMore.
  Context {V Buf : Type}.
  Variable half_way : V -> V -> V.
  Variable solve : V -> V -> list Z -> Buf -> result (list bool * result Buf).
  Variable inv : Buf -> Prop.
  Variable B : nat.
  Hypothesis solve_total : forall a b active buf, inv buf -> idx_ok B active -> NoDup active ->
    exists mask buf', solve a b active buf = Ok (mask, Ok buf') /\ length mask = length active /\ inv buf'.

  Section Steps.
    Context {R : Type}.
    Variable view : Buf -> nat -> R.
    Variable rstep : V -> V -> nat -> R -> R * bool.
    Hypothesis solve_rows : forall a b active buf mask buf', inv buf -> idx_ok B active -> NoDup active ->
      solve a b active buf = Ok (mask, Ok buf') ->
      (forall k i, nth_error active k = Some i ->
         nth_error mask k = Some (snd (rstep a b (Z.to_nat i) (view buf (Z.to_nat i)))) /\
         view buf' (Z.to_nat i) =
           (if snd (rstep a b (Z.to_nat i) (view buf (Z.to_nat i))) then fst (rstep a b (Z.to_nat i) (view buf (Z.to_nat i)))
            else view buf (Z.to_nat i))) /\
      (forall i, i < B -> ~ In (Z.of_nat i) active -> view buf' i = view buf i).

    (** Accepted steps one after the other. *)
    Inductive rsteps (i : nat) : list (V * V) -> R -> R -> Prop :=
    | rsteps_none x : rsteps i [] x x
    | rsteps_more a b l x y : snd (rstep a b i x) = true -> rsteps i l (fst (rstep a b i x)) y -> rsteps i ((a, b) :: l) x y.
    Lemma rsteps_app i l1 l2 x y z : rsteps i l1 x y -> rsteps i l2 y z -> rsteps i (l1 ++ l2) x z.
    Proof. clear. intros H. induction H; intros G; [exact G|]. cbn [app]. constructor; [assumption|]. apply IHrsteps. exact G. Qed.

    Lemma drive_steps left : forall a b active buf buf' l, inv buf -> idx_ok B active -> NoDup active ->
      drive half_way solve left a b active buf = (Ok buf', l) ->
      masks_fit l /\ inv buf' /\
      forall i, i < B -> rsteps i (accepted (Z.of_nat i) l) (view buf i) (view buf' i).
    Proof.
      induction left as [|left IH]; intros a b active buf buf' l Hi Ha N H; cbn [drive] in H;
        destruct (solve_total a b active buf Hi Ha N) as [mask [buf1 [Es [L I1]]]]; rewrite Es in H;
        destruct (solve_rows a b active buf mask buf1 Hi Ha N Es) as [Rw Ro];
        assert (Yes : forall i, In (Z.of_nat i) (chosen true active mask) -> snd (rstep a b i (view buf i)) = true /\
                        view buf1 i = fst (rstep a b i (view buf i)))
          by (intros i J; apply chosen_in in J as [k [J1 J2]]; destruct (Rw k _ J1) as [R1 R2]; rewrite Nat2Z.id in R1, R2;
              rewrite R1 in J2; injection J2 as J2; rewrite J2 in R2; split; assumption);
        assert (No : forall i, i < B -> ~ In (Z.of_nat i) (chosen true active mask) -> view buf1 i = view buf i)
          by (intros i Bi J; destruct (in_dec Z.eq_dec (Z.of_nat i) active) as [K|K]; [|apply Ro; assumption];
              destruct (chosen_cases active mask _ L K) as [C|C]; [contradiction|];
              apply chosen_in in C as [k [C1 C2]]; destruct (Rw k _ C1) as [R1 R2]; rewrite Nat2Z.id in R1, R2;
              rewrite R1 in C2; injection C2 as C2; rewrite C2 in R2; exact R2).
      - destruct (positions false 0 mask) as [|p ps] eqn:Ep; [|discriminate]. injection H as <- <-.
        split; [repeat constructor; exact L|]. split; [exact I1|]. intros i Bi.
        destruct (in_dec Z.eq_dec (Z.of_nat i) (chosen true active mask)) as [C|C].
        + rewrite accepted_cons_yes by exact C. destruct (Yes i C) as [Y1 Y2]. constructor; [exact Y1|]. rewrite <- Y2. constructor.
        + rewrite accepted_cons_no by exact C. rewrite (No i Bi C). constructor.
      - assert (One : forall l', (forall i, i < B -> rsteps i (accepted (Z.of_nat i) l') (view buf1 i) (view buf' i)) ->
            forall i, i < B -> rsteps i (accepted (Z.of_nat i) ((a, b, active, mask) :: l')) (view buf i) (view buf' i)).
        { intros l' Hl i Bi. destruct (in_dec Z.eq_dec (Z.of_nat i) (chosen true active mask)) as [C|C].
          - rewrite accepted_cons_yes by exact C. destruct (Yes i C) as [Y1 Y2]. constructor; [exact Y1|]. rewrite <- Y2. apply Hl. exact Bi.
          - rewrite accepted_cons_no by exact C. rewrite <- (No i Bi C). apply Hl. exact Bi. }
        destruct (positions false 0 mask) as [|p ps] eqn:Ep.
        + injection H as <- <-. split; [repeat constructor; exact L|]. split; [exact I1|]. apply One. intros i _. constructor.
        + rewrite <- Ep, pick_chosen in H by lia.
          assert (Hf : idx_ok B (chosen false active mask)) by (eapply idx_ok_incl; [apply chosen_incl|exact Ha]).
          pose proof (chosen_nodup false active mask N) as Nf.
          destruct (drive half_way solve left a (half_way a b) (chosen false active mask) buf1) as [[b1|e1] l1] eqn:E1; [|discriminate].
          destruct (drive half_way solve left (half_way a b) b (chosen false active mask) b1) as [r2 l2] eqn:E2. injection H as -> <-.
          destruct (IH _ _ _ _ _ _ I1 Hf Nf E1) as [M1 [J1 S1]]. destruct (IH _ _ _ _ _ _ J1 Hf Nf E2) as [M2 [J2 S2]].
          split; [constructor; [exact L|apply Forall_app; split; assumption]|]. split; [exact J2|]. apply One. intros i Bi.
          rewrite accepted_app. eapply rsteps_app; [apply S1|apply S2]; exact Bi.
    Qed.
  End Steps.

  (** Two solvers that agree, through [f], on the buffers. *)
  Context {Buf' : Type}.
  Variable solve' : V -> V -> list Z -> Buf' -> result (list bool * result Buf').
  Variable f : Buf -> Buf'.
  Hypothesis solve_same : forall a b active buf mask buf', inv buf -> idx_ok B active -> NoDup active ->
    solve a b active buf = Ok (mask, Ok buf') -> solve' a b active (f buf) = Ok (mask, Ok (f buf')).
  Lemma drive_same left : forall a b active buf, inv buf -> idx_ok B active -> NoDup active ->
    drive half_way solve' left a b active (f buf) =
    (let (r, l) := drive half_way solve left a b active buf in (rmap f r, l)).
  Proof.
    induction left as [|left IH]; intros a b active buf Hi Ha N; cbn [drive];
      destruct (solve_total a b active buf Hi Ha N) as [mask [buf1 [Es [L I1]]]]; rewrite Es, (solve_same _ _ _ _ _ _ Hi Ha N Es);
      destruct (positions false 0 mask) as [|p ps] eqn:Ep; try reflexivity.
    rewrite <- Ep, pick_chosen by lia.
    assert (Hf : idx_ok B (chosen false active mask)) by (eapply idx_ok_incl; [apply chosen_incl|exact Ha]).
    pose proof (chosen_nodup false active mask N) as Nf. rewrite (IH _ _ _ _ I1 Hf Nf).
    destruct (drive_total half_way solve inv B solve_total left a (half_way a b) _ buf1 I1 Hf Nf) as [r1 [l1 [E1 [_ R1]]]]. rewrite E1.
    destruct r1 as [b1|e1]; cbn [rmap]; [|reflexivity]. rewrite (IH _ _ _ _ R1 Hf Nf).
    destruct (drive half_way solve left (half_way a b) b (chosen false active mask) b1) as [r2 l2]. reflexivity.
  Qed.
End DriveMore.

(** ** Storing, when the rows are selected first *)
Section StoreTaken.
  Context {V : Type}.
  Variable d : device.
  Notation vmap := (smap (tensor V)).

  Lemma take_all_put l (sp : vmap) : forall ts acc, Forall2 (fun ns t => lookup (snd ns) sp = Some t) l ts ->
    take_all l sp acc = Ok (put_all (combine (map fst l) ts) acc).
  Proof.
    induction l as [|[name src] l IH]; intros ts acc F; inversion F as [|? t ? ts' L F']; subst; [reflexivity|]. cbn [take_all].
    cbn [snd] in L. unfold at_. rewrite L. cbn [bind]. rewrite (IH ts') by exact F'. reflexivity.
  Qed.
  Lemma rows_at_select n ks (m m' : vmap) idx l : table d n ks m -> idx_ok n idx -> index_select_batch m idx = Ok m' ->
    (forall e, In e l -> lookup (snd e) m <> None) -> forall acc, rows_at l m idx acc = take_all l m' acc.
  Proof.
    intros T I E. unfold index_select_batch in E. rewrite (vmapM_ok _ (sel idx)) in E.
    2:{ intros k t J. destruct (table_in _ _ _ _ _ _ T J) as [sh [_ R]]. destruct (rowsof_batched _ _ _ _ R) as [r Hr].
        unfold dim. rewrite Hr. cbn [length Nat.leb]. apply (index_select0_ok n); [eapply rowsof_batched; exact R|exact I]. }
    injection E as <-. induction l as [|[name src] l IH]; intros H acc; [reflexivity|]. cbn [rows_at take_all]. unfold at_.
    rewrite lookup_vmap. destruct (lookup src m) as [t|] eqn:L; [|destruct (H (name, src) (or_introl eq_refl)); exact L]. cbn [option_map bind].
    destruct (table_in _ _ _ _ _ _ T (lookup_in _ _ _ L)) as [sh [_ R]].
    rewrite (index_select0_ok n) by (try exact I; eapply rowsof_batched; exact R). cbn [bind]. apply IH. intros e J. apply H. right. exact J.
  Qed.

  Lemma store_taken B (l : list (string * string * list nat)) (sp dst : vmap) (idx : list Z) :
    NoDup (map (fun e => fst (fst e)) l) ->
    (forall e, In e l -> exists t, lookup (snd (fst e)) sp = Some t /\ rowsof d (length idx) (snd e) t) ->
    table d B (map (fun e => (fst (fst e), snd e)) l) dst -> idx_ok B idx -> NoDup idx ->
    exists sub dst', take_all (map fst l) sp [] = Ok sub /\ scatter_batch dst idx sub = Ok dst' /\
      table d B (map (fun e => (fst (fst e), snd e)) l) dst' /\
      (forall e j i, In e l -> nth_error idx j = Some i -> val dst' (fst (fst e)) (Z.to_nat i) = val sp (snd (fst e)) j) /\
      (forall n i, i < B -> ~ In (Z.of_nat i) idx -> val dst' n i = val dst n i).
  Proof.
    intros N H T Ia Na.
    destruct (forall2_build (fun e t => lookup (snd (fst e)) sp = Some t) (fun e t => rowsof d (length idx) (snd e) t) l H) as [ts [F1 F2]].
    destruct (table_build d (length idx) (fun e : string * string * list nat => fst (fst e)) (fun e => snd e) l ts N F2) as [Ts Vs].
    set (sub := put_all (combine (map (fun e : string * string * list nat => fst (fst e)) l) ts) []) in *.
    exists sub. destruct (table_scatter d B _ dst sub idx T Ts Ia Na) as [dst' [E [T' [Q1 Q2]]]].
    exists dst'. split; [|split; [exact E|split; [exact T'|split; [|intros n i Hi J; apply Q2; assumption]]]].
    - rewrite (take_all_put _ _ ts); [unfold sub; rewrite map_map; reflexivity|]. clear - F1. induction F1; cbn [map]; constructor; assumption.
    - intros e j i I Hj. rewrite (Q1 _ j i Hj). destruct (Vs e j I) as [t [_ [J ->]]]. apply (forall2_in _ _ _ _ _ F1) in J.
      unfold val. rewrite J. reflexivity.
  Qed.
End StoreTaken.

(** ** The driver with tangents *)
Section DriverJac.
  Context {V : Type}.
  Variable A : arith V.
  Variable d : device.
  Notation vmap := (smap (tensor V)).
  Variable masked : vmap -> result (vmap * list bool).
  Variable ift : vmap -> vmap -> result vmap.
  Variable givens : list given_info.
  Variable unknowns : list var_info.
  Variable orig orig_d : vmap.
  Variable M : nat.

  Definition span_solve_d (a b : V) (active : list Z) (bufs : bufs4) : result (list bool * result bufs4) :=
    match solve_span_d A masked givens orig orig_d a b active (snd (fst bufs)) (snd (snd bufs)) with
    | Err e => Err e
    | Ok ((span, mask), span_d) => Ok (mask, store_d ift givens unknowns active (positions true 0 mask) span span_d bufs)
    end.

  Lemma solve_to_d_drive left : forall a b active bufs,
    solve_to_d A masked ift givens unknowns orig orig_d left a b active bufs = drive (mid_of A) span_solve_d left a b active bufs.
  Proof.
    induction left as [|left IH]; intros a b active bufs; cbn [solve_to_d drive]; unfold span_solve_d at 1;
      destruct (solve_span_d A masked givens orig orig_d a b active (snd (fst bufs)) (snd (snd bufs))) as [[[span mask] span_d]|e]; try reflexivity;
      destruct (store_d ift givens unknowns active (positions true 0 mask) span span_d bufs) as [bufs'|e]; try reflexivity.
    destruct (positions false 0 mask); try reflexivity. destruct (pick active _) as [fg|e]; [|reflexivity].
    rewrite IH. fold (mid_of A a b). destruct (drive (mid_of A) span_solve_d left a (mid_of A a b) fg bufs') as [[b1|e] l1]; [|reflexivity].
    rewrite IH. reflexivity.
  Qed.

  Hypothesis seg : seg_ok givens unknowns.
  Hypothesis ans : answers_all d givens unknowns masked.
  Variable B : nat.
  Hypothesis orig_ok : table d B (given_shapes givens) orig.
  Hypothesis orig_d_ok : table d B (given_carriers M givens) orig_d.
  Variable solve_row : list (list V) -> list (list V) * bool.
  Hypothesis row_by_row : rowwise d givens unknowns masked solve_row.
  Variable ift_row : list (list V) -> list (list V) -> list (list V) -> list (list V).
  Hypothesis tangent_rows : tangents_by_row d givens unknowns M solve_row ift ift_row.

  Lemma answers_some : answers d givens unknowns masked.
  Proof using ans.
    intros n span T. destruct (ans n span T) as [span' [mask [ks [E [L [T' [Hu _]]]]]]]. exists span', mask.
    split; [exact E|]. split; [exact L|]. intros u I. apply (table_get d _ _ _ _ _ T'). apply Hu. exact I.
  Qed.

  Definition unknown_carriers : smap (list nat) := map (fun u => (v_name u, [var_size u; M])) unknowns.
  Definition inv_d (bufs : bufs4 (V := V)) : Prop :=
    inv d givens unknowns B (fst bufs) /\
    table d B unknown_carriers (fst (snd bufs)) /\ table d B (given_carriers M (old_states givens)) (snd (snd bufs)).

  Lemma size_trailing v w : trailing v = trailing w -> var_size v = var_size w.
  Proof. unfold trailing, var_size. intros E. rewrite <- !numel_app. rewrite E. reflexivity. Qed.

  Definition rows_o i := rows_of_names orig (given_names givens) i.
  Definition rows_od i := rows_of_names orig_d (given_names givens) i.
  Definition view_u (m : vmap) i := rows_of_names m (unknown_names unknowns) i.
  Definition view_c (m : vmap) i := rows_of_names m (given_names (old_states givens)) i.

  Lemma span_of_d a b active bufs : inv_d bufs -> idx_ok B active -> NoDup active ->
    exists mask bufs', span_solve_d a b active bufs = Ok (mask, Ok bufs') /\
      span_solve A masked givens unknowns orig a b active (fst bufs) = Ok (mask, Ok (fst bufs')) /\
      length mask = length active /\ inv_d bufs' /\
      (forall k i, nth_error active k = Some i -> nth_error mask k = Some true -> let j := Z.to_nat i in
         view_u (fst (snd bufs')) j = ift_row (map (row_input A givens (rows_o j) (view_c (snd (fst bufs)) j) a b) givens)
                                              (view_u (fst (fst bufs')) j)
                                              (map (row_input A givens (rows_od j) (view_c (snd (snd bufs)) j) a b) givens) /\
         view_c (snd (snd bufs')) j = carried givens unknowns (view_u (fst (snd bufs')) j)) /\
      (forall i, i < B -> ~ In (Z.of_nat i) (chosen true active mask) ->
         view_u (fst (snd bufs')) i = view_u (fst (snd bufs)) i /\ view_c (snd (snd bufs')) i = view_c (snd (snd bufs)) i).
  Proof using seg ans orig_ok orig_d_ok row_by_row tangent_rows.
    intros [Iv [Iud Icd]] Ia Na. destruct bufs as [[res ch] [res_d ch_d]]. cbn [fst snd] in *. pose proof Iv as [Iu Ic]. cbn [fst snd] in Iu, Ic.
    pose proof seg as [_ [Ng [Nu [Po Pf]]]].
    destruct (table_select d B _ orig active orig_ok Ia) as [orig_a [Eo [To Vo]]].
    destruct (table_select d B _ ch active Ic Ia) as [ch_a [Ec [Tc Vc]]].
    destruct (table_select d B _ orig_d active orig_d_ok Ia) as [orig_da [Eod [Tod Vod]]].
    destruct (table_select d B _ ch_d active Icd Ia) as [ch_da [Ecd [Tcd Vcd]]].
    destruct (span_ok A d givens Ng (fun g => trailing (gv_var g)) Pf (length active) orig_a ch_a a b To Tc) as [span [Es [Ts Rs]]].
    assert (Pd : forall g, In g givens -> forced g -> exists g', In g' givens /\ given_name g' = gv_pair g /\
                   [var_size (gv_var g'); M] = [var_size (gv_var g); M]).
    { intros g I F. destruct (Pf g I F) as [g' [I' [E' S']]]. exists g'. split; [exact I'|]. split; [exact E'|]. rewrite (size_trailing _ _ S'). reflexivity. }
    destruct (span_ok A d givens Ng (fun g => [var_size (gv_var g); M]) Pd (length active) orig_da ch_da a b Tod Tcd) as [span_d [Esd [Tsd Rsd]]].
    destruct (ans (length active) span Ts) as [span' [mask [ks [Em [Lm [Ts' [Hu Hg]]]]]]].
    destruct (span_of A d masked givens unknowns orig seg B orig_ok answers_some a b active (res, ch) Iv Ia Na)
      as [span0 [span0' [mask0 [[res1 ch1] [_ [_ [_ [Ev [Iv' _]]]]]]]]].
    pose proof (span_solve_rows A d masked givens unknowns orig seg B orig_ok answers_some solve_row row_by_row a b active (res, ch) mask0 (res1, ch1)
                  Iv Ia Na Ev) as [Rv _].
    pose proof Ev as Ev'. unfold span_solve, solve_span in Ev'. cbn [snd] in Ev'. rewrite Eo in Ev'. cbn [bind] in Ev'. rewrite Ec in Ev'. cbn [bind] in Ev'.
    rewrite Es in Ev'. cbn [bind] in Ev'. rewrite Em in Ev'. injection Ev' as <- St.
    (* the converged rows *)
    set (conv := positions true 0 mask) in *. set (cg := chosen true active mask).
    assert (Lc : length conv = length cg) by (apply positions_length; lia).
    assert (Icv : idx_ok (length active) conv) by (apply conv_ok; exact Lm).
    assert (Icg : idx_ok B cg) by (eapply idx_ok_incl; [apply chosen_incl|exact Ia]).
    assert (Ncg : NoDup cg) by (apply chosen_nodup; exact Na).
    assert (Pick : pick active conv = Ok cg) by (apply pick_chosen; lia).
    destruct (table_select d (length active) ks span' conv Ts' Icv) as [csp [Ecs [Tcs Vcs]]].
    destruct (table_select d (length active) _ span_d conv Tsd Icv) as [csd [Ecsd [Tcsd Vcsd]]].
    (* position in the converged rows *)
    assert (Pos : forall j, j < length conv -> exists k i, nth_error conv j = Some (Z.of_nat k) /\ nth_error cg j = Some i /\
                    nth_error active k = Some i /\ nth_error mask k = Some true).
    { intros j Hj. destruct (nth_error conv j) as [p|] eqn:Ep; [|apply nth_error_None in Ep; lia].
      destruct (conv_pair active mask true j p ltac:(lia) Ep) as [i [Hc Hp]].
      unfold idx_ok in Icv. rewrite Forall_forall in Icv. specialize (Icv p (nth_error_In _ _ Ep)).
      exists (Z.to_nat p), i. rewrite Z2Nat.id by lia. split; [reflexivity|]. split; [exact Hc|]. split; [exact Hp|].
      assert (J : In i cg) by (eapply nth_error_In; exact Hc). apply chosen_in in J as [k' [K1 K2]].
      assert (k' = Z.to_nat p) by (eapply NoDup_nth_error; [exact Na|apply nth_error_Some; congruence|congruence]). congruence. }
    assert (Solved : forall k i, nth_error active k = Some i -> nth_error mask k = Some true ->
              solve_row (rows_of_names span (given_names givens) k) = (rows_of_names span' (unknown_names unknowns) k, true)).
    { intros k i Hk Hm. assert (Kn : k < length active) by (apply nth_error_Some; congruence).
      destruct (row_by_row _ _ _ _ Ts Em k Kn) as [U Mk]. rewrite Hm in Mk. injection Mk as Mk. rewrite U.
      destruct (solve_row _) as [us ok]. cbn [fst snd] in *. rewrite <- Mk. reflexivity. }
    assert (Gv : forall g i, In g givens -> val span' (given_name g) i = val span (given_name g) i) by (intros g i I; unfold val; rewrite Hg by exact I; reflexivity).
    assert (Gks : forall g, In g givens -> lookup (given_name g) ks = Some (trailing (gv_var g))).
    { intros g I. assert (Lg : lookup (given_name g) (given_shapes givens) = Some (trailing (gv_var g)))
        by (apply (lookup_shapes (fun g => trailing (gv_var g)) givens g Ng I)).
      destruct (table_get d _ _ _ _ _ Ts Lg) as [t [Lt [_ [_ St1]]]]. rewrite <- Hg in Lt by exact I.
      destruct (table_in _ _ _ _ _ _ Ts' (lookup_in _ _ _ Lt)) as [sh [Lsh [_ [_ St2]]]]. rewrite Lsh. congruence. }
    assert (Csel : forall j k i, nth_error conv j = Some (Z.of_nat k) -> nth_error active k = Some i ->
              rows_of_names csp (given_names givens) j = rows_of_names span (given_names givens) k /\
              rows_of_names csp (unknown_names unknowns) j = rows_of_names span' (unknown_names unknowns) k /\
              rows_of_names csd (given_names givens) j = rows_of_names span_d (given_names givens) k).
    { intros j k i Hj Hk. unfold rows_of_names. split; [|split].
      - unfold given_names. rewrite !map_map. apply map_ext_in. intros g I. rewrite (Vcs _ _ _ Hj), Nat2Z.id. apply Gv. exact I.
      - apply map_ext. intros n. rewrite (Vcs _ _ _ Hj), Nat2Z.id. reflexivity.
      - apply map_ext. intros n. rewrite (Vcsd _ _ _ Hj), Nat2Z.id. reflexivity. }
    (* nothing converged *)
    destruct conv as [|p ps] eqn:Ecv.
    { exists mask, ((res, ch), (res_d, ch_d)). unfold store in St. injection St as <- <-.
      assert (Emp : cg = []) by (destruct cg; [reflexivity|discriminate Lc]).
      split; [|split; [exact Ev|split; [exact Lm|split; [split; [exact Iv|split; assumption]|split]]]].
      - unfold span_solve_d, solve_span_d. cbn [fst snd]. rewrite Eo. cbn [bind]. rewrite Ec. cbn [bind]. rewrite Eod. cbn [bind]. rewrite Ecd. cbn [bind].
        rewrite Es. cbn [bind]. rewrite Esd. cbn [bind]. rewrite Em. cbn [bind]. fold conv. rewrite Ecv. reflexivity.
      - intros k i Hk Hm. pose proof (positions_at true mask 0 k Hm) as P. fold conv in P. rewrite Ecv in P. contradiction.
      - intros i _ _. split; reflexivity. }
    rewrite <- Ecv in *. assert (Pos0 : 0 < length conv) by (rewrite Ecv; cbn; lia).
    destruct (tangent_rows (length conv) ks csp csd Pos0 Tcs Hu Gks Tcsd) as [csd' [Ei [Hi Ri]]].
    { intros j Hj. destruct (Pos j Hj) as [k [i [P1 [P2 [P3 P4]]]]]. destruct (Csel j k i P1 P3) as [C1 [C2 _]]. rewrite C1, C2. apply (Solved k i); assumption. }
    set (ud := map (fun u => (v_name u, v_name u, [var_size u; M])) unknowns : list (string * string * list nat)).
    set (od := map (fun g => (given_name g, gv_pair g, [var_size (gv_var g); M])) (old_states givens) : list (string * string * list nat)).
    assert (Fu : map (fun e : string * string * list nat => (fst (fst e), snd e)) ud = unknown_carriers)
      by (unfold ud; rewrite map_map; reflexivity).
    assert (Fo : map (fun e : string * string * list nat => (fst (fst e), snd e)) od = given_carriers M (old_states givens))
      by (unfold od; rewrite map_map; reflexivity).
    assert (No : NoDup (given_names (old_states givens))) by (apply (nodup_filter_names givens Ng)).
    destruct (store_taken d B ud csd' res_d cg) as [cs1 [res_d' [E1 [E2 [T1 [Q1 Q2]]]]]]; try assumption.
    { unfold ud. rewrite map_map. exact Nu. }
    { intros e I. apply in_map_iff in I as [u [<- I]]. cbn [fst snd]. rewrite <- Lc. apply Hi. exact I. }
    { rewrite Fu. exact Iud. }
    destruct (store_taken d B od csd' ch_d cg) as [cc1 [ch_d' [E3 [E4 [T2 [Q3 Q4]]]]]]; try assumption.
    { unfold od. rewrite map_map. exact No. }
    { intros e I. apply in_map_iff in I as [g [<- I]]. cbn [fst snd]. apply filter_In in I as [I R]. apply String.eqb_eq in R.
      destruct (Po g I R) as [u [J [<- Tu]]]. rewrite <- Lc, <- (size_trailing _ _ Tu). apply Hi. exact J. }
    { rewrite Fo. exact Icd. }
    rewrite Fu in T1. rewrite Fo in T2.
    exists mask, ((res1, ch1), (res_d', ch_d')).
    assert (St' : store_d ift givens unknowns active conv span' span_d ((res, ch), (res_d, ch_d)) = Ok ((res1, ch1), (res_d', ch_d'))).
    { unfold store in St. rewrite Ecv in St. rewrite <- Ecv in St. rewrite Pick in St. cbn [bind fst snd] in St.
      rewrite (rows_at_select d _ _ _ _ _ _ Ts' Icv Ecs) in St.
      2:{ intros e I. apply in_map_iff in I as [u [<- I]]. cbn [snd]. destruct (table_get d _ _ _ _ _ Ts' (Hu u I)) as [t [L _]]. congruence. }
      rewrite (rows_at_select d _ _ _ _ _ _ Ts' Icv Ecs) in St.
      2:{ intros e I. apply in_map_iff in I as [g [<- I]]. cbn [snd]. apply filter_In in I as [I R]. apply String.eqb_eq in R.
          destruct (Po g I R) as [u [J [<- _]]]. destruct (table_get d _ _ _ _ _ Ts' (Hu u J)) as [t [L _]]. congruence. }
      unfold store_d. rewrite Ecv. rewrite <- Ecv. rewrite Pick. cbn [bind]. rewrite Ecs. cbn [bind]. rewrite Ecsd. cbn [bind]. rewrite Ei. cbn [bind].
      unfold unknown_srcs, old_srcs.
      destruct (take_all (map (fun u : var_info => (v_name u, v_name u)) unknowns) csp []) as [cs|e]; [|discriminate St]. cbn [bind] in St |- *.
      replace (map (fun u => (v_name u, v_name u)) unknowns) with (map fst ud) by (unfold ud; rewrite map_map; reflexivity).
      rewrite E1. cbn [bind]. destruct (scatter_batch res cg cs) as [r1|e]; [|discriminate St]. cbn [bind] in St |- *. rewrite E2. cbn [bind].
      destruct (take_all (map (fun g : given_info => (v_name (gv_var g), gv_pair g)) (filter is_old_state givens)) csp []) as [cc|e]; [|discriminate St].
      cbn [bind] in St |- *.
      replace (map (fun g => (v_name (gv_var g), gv_pair g)) (filter is_old_state givens)) with (map fst od) by (unfold od; rewrite map_map; reflexivity).
      rewrite E3. cbn [bind]. destruct (scatter_batch ch cg cc) as [c1|e]; [|discriminate St]. cbn [bind] in St |- *. rewrite E4. cbn [bind].
      injection St as -> ->. reflexivity. }
    split; [|split; [exact Ev|split; [exact Lm|split; [split; [exact Iv'|split; assumption]|split]]]].
    - unfold span_solve_d, solve_span_d. cbn [fst snd]. rewrite Eo. cbn [bind]. rewrite Ec. cbn [bind]. rewrite Eod. cbn [bind]. rewrite Ecd. cbn [bind].
      rewrite Es. cbn [bind]. rewrite Esd. cbn [bind]. rewrite Em. cbn [bind]. fold conv. rewrite St'. reflexivity.
    - intros k i Hk Hm. cbn zeta. cbn [fst snd]. pose proof (positions_at true mask 0 k Hm) as P. cbn [Z.add] in P. fold conv in P.
      apply In_nth_error in P as [j Hj]. assert (Jn : j < length conv) by (apply nth_error_Some; congruence).
      destruct (conv_pair active mask true j _ ltac:(lia) Hj) as [i' [Hc Ha]]. rewrite Nat2Z.id, Hk in Ha. injection Ha as <-.
      destruct (Csel j k i Hj Hk) as [C1 [C2 C3]].
      assert (U : view_u res_d' (Z.to_nat i) = rows_of_names csd' (unknown_names unknowns) j).
      { unfold view_u, rows_of_names, unknown_names. rewrite !map_map. apply map_ext_in. intros u I.
        apply (Q1 (v_name u, v_name u, [var_size u; M]) j i); [|exact Hc]. unfold ud. apply (in_map (fun u => (v_name u, v_name u, [var_size u; M]))). exact I. }
      split.
      + assert (Sp : rows_of_names span (given_names givens) k = map (row_input A givens (rows_o (Z.to_nat i)) (view_c ch (Z.to_nat i)) a b) givens).
        { rewrite Rs. f_equal. f_equal; apply map_ext; intros n; [apply Vo|apply Vc]; exact Hk. }
        assert (Spd : rows_of_names span_d (given_names givens) k = map (row_input A givens (rows_od (Z.to_nat i)) (view_c ch_d (Z.to_nat i)) a b) givens).
        { rewrite Rsd. f_equal. f_equal; apply map_ext; intros n; [apply Vod|apply Vcd]; exact Hk. }
        assert (V1 : view_u res1 (Z.to_nat i) = rows_of_names span' (unknown_names unknowns) k).
        { destruct (Rv k i Hk) as [R1 R2]. pose proof (Solved k i Hk Hm) as Sv. rewrite Sp in Sv.
          unfold row_step in R2. unfold view in R2. cbn [fst snd] in R2. unfold rows_o, view_c in Sv. rewrite Sv in R2. cbn [fst snd] in R2.
          injection R2 as R2 _. exact R2. }
        rewrite U, (Ri j Jn), C1, C2, C3, Sp, Spd, V1. reflexivity.
      + unfold view_c, carried, rows_of_names at 1, given_names. rewrite map_map. apply map_ext_in. intros g I.
        rewrite U, getrow_val.
        * apply (Q3 (given_name g, gv_pair g, [var_size (gv_var g); M]) j i); [|exact Hc]. unfold od.
          apply (in_map (fun g => (given_name g, gv_pair g, [var_size (gv_var g); M]))). exact I.
        * apply filter_In in I as [I R]. apply String.eqb_eq in R. destruct (Po g I R) as [u [J [<- _]]]. apply in_map. exact J.
    - intros i Bi J. cbn [fst snd]. split; apply map_ext; intros n; [apply Q2|apply Q4]; assumption.
  Qed.
End DriverJac.
