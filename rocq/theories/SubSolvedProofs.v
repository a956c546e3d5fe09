(** Proofs about solved substepped segments. *)
From Verif Require Import Base BaseProofs SpecMap SmapProofs Tensor Spec TensorProofs Float Newton BatchChunk Broadcast SpecBroadcast BroadcastProofs Pack SpecPack PackProofs
     Implicit ImplicitProofs Substep SpecSubstep DriveProofs RowTableProofs SubstepProofs SubstepRunProofs Jac JacModel FwdModel SystemAoti SpecSolved SolvedProofs SpecSubSolved.

Section DriveRel.
  Context {V Buf : Type}.
  Variable half_way : V -> V -> V.
  Variable solve : V -> V -> list Z -> Buf -> result (list bool * result Buf).
  Variable inv : Buf -> Prop.
  Variable B : nat.
  Context {R : Type}.
  Variable view : Buf -> nat -> R.
  Variable step : V -> V -> nat -> R -> R -> Prop.
  Hypothesis solve_rel : forall a b active buf mask buf', inv buf -> idx_ok B active -> NoDup active ->
    solve a b active buf = Ok (mask, Ok buf') ->
    length mask = length active /\ inv buf' /\
    (forall k i, nth_error active k = Some i -> nth_error mask k = Some true ->
       step a b (Z.to_nat i) (view buf (Z.to_nat i)) (view buf' (Z.to_nat i))) /\
    (forall i, i < B -> ~ In (Z.of_nat i) (chosen true active mask) -> view buf' i = view buf i).

  Inductive reaches : nat -> V -> V -> nat -> R -> R -> Prop :=
  | reach_once left a b i x y : step a b i x y -> reaches left a b i x y
  | reach_halves left a b i x y z : reaches left a (half_way a b) i x y -> reaches left (half_way a b) b i y z -> reaches (S left) a b i x z.

  Lemma drive_reaches left : forall a b active buf buf' l, inv buf -> idx_ok B active -> NoDup active ->
    drive half_way solve left a b active buf = (Ok buf', l) ->
    inv buf' /\ (forall i, In (Z.of_nat i) active -> reaches left a b i (view buf i) (view buf' i)) /\
    (forall i, i < B -> ~ In (Z.of_nat i) active -> view buf' i = view buf i).
  Proof.
    induction left as [|left IH]; intros a b active buf buf' l Hi Ha N H; cbn [drive] in H;
      destruct (solve a b active buf) as [[mask [buf1|e]]|e] eqn:Es; try discriminate;
      destruct (solve_rel a b active buf mask buf1 Hi Ha N Es) as [L [I1 [Rw Ro]]];
      assert (Yes : forall i, In (Z.of_nat i) (chosen true active mask) -> step a b i (view buf i) (view buf1 i))
        by (intros i J; apply chosen_in in J as [k [J1 J2]]; specialize (Rw k _ J1 J2); rewrite Nat2Z.id in Rw; exact Rw);
      assert (Out : forall i, i < B -> ~ In (Z.of_nat i) active -> view buf1 i = view buf i)
        by (intros i Bi J; apply Ro; [exact Bi|intros C; apply J; eapply chosen_incl; exact C]).
    - destruct (positions false 0 mask) as [|p ps] eqn:Ep; [|discriminate]. injection H as <- _. split; [exact I1|]. split; [|exact Out].
      intros i J. destruct (chosen_cases active mask _ L J) as [C|C]; [apply reach_once, Yes, C|].
      apply (positions_nil false active mask) in Ep; [|lia]. rewrite Ep in C. contradiction.
    - destruct (positions false 0 mask) as [|p ps] eqn:Ep.
      + injection H as <- _. split; [exact I1|]. split; [|exact Out].
        intros i J. destruct (chosen_cases active mask _ L J) as [C|C]; [apply reach_once, Yes, C|].
        apply (positions_nil false active mask) in Ep; [|lia]. rewrite Ep in C. contradiction.
      + rewrite <- Ep, pick_chosen in H by lia.
        assert (Hf : idx_ok B (chosen false active mask)) by (eapply idx_ok_incl; [apply chosen_incl|exact Ha]).
        pose proof (chosen_nodup false active mask N) as Nf.
        destruct (drive half_way solve left a (half_way a b) (chosen false active mask) buf1) as [[b1|e1] l1] eqn:E1; [|discriminate].
        destruct (drive half_way solve left (half_way a b) b (chosen false active mask) b1) as [[b2|e2] l2] eqn:E2; [|discriminate].
        injection H as <- _.
        destruct (IH _ _ _ _ _ _ I1 Hf Nf E1) as [V1 [P1 Q1]]. destruct (IH _ _ _ _ _ _ V1 Hf Nf E2) as [V2 [P2 Q2]].
        split; [exact V2|]. split.
        * intros i J. assert (Bi : i < B). { unfold idx_ok in Ha. rewrite Forall_forall in Ha. specialize (Ha _ J). lia. }
          destruct (chosen_cases active mask _ L J) as [C|C].
          -- assert (D : ~ In (Z.of_nat i) (chosen false active mask)) by (intros D; exact (chosen_not_both active mask _ N C D)).
             rewrite Q2, Q1 by assumption. apply reach_once, Yes, C.
          -- assert (D : ~ In (Z.of_nat i) (chosen true active mask)) by (intros D; exact (chosen_not_both active mask _ N D C)).
             apply reach_halves with (y := view b1 i); [|apply P2; exact C]. rewrite <- (Ro i Bi D). apply P1. exact C.
        * intros i Bi J. rewrite Q2, Q1, Out; try assumption; try reflexivity; intros D; apply J; eapply chosen_incl; exact D.
  Qed.
End DriveRel.

Section Paths.
  Context {V : Type}.
  Variable A : arith V.
  Variable d : device.
  Notation vmap := (smap (tensor V)).
  Variable masked : vmap -> result (vmap * list bool).
  Variable givens : list given_info.
  Variable unknowns : list var_info.
  Hypothesis seg : seg_ok givens unknowns.
  Hypothesis keeps : keeps_rows d givens unknowns masked.

  Definition piece orig (a b : V) (i : nat) (x y : list (list V) * list (list V)) : Prop :=
    accepted_by d givens unknowns masked (map (row_input A givens (rows_of_names orig (given_names givens) i) (snd x) a b) givens) (fst y) /\
    snd y = carried givens unknowns (fst y).

  Lemma span_solve_rel B orig : table d B (given_shapes givens) orig ->
    forall a b active buf mask buf', inv d givens unknowns B buf -> idx_ok B active -> NoDup active ->
    span_solve A masked givens unknowns orig a b active buf = Ok (mask, Ok buf') ->
    length mask = length active /\ inv d givens unknowns B buf' /\
    (forall k i, nth_error active k = Some i -> nth_error mask k = Some true ->
       piece orig a b (Z.to_nat i) (view givens unknowns buf (Z.to_nat i)) (view givens unknowns buf' (Z.to_nat i))) /\
    (forall i, i < B -> ~ In (Z.of_nat i) (chosen true active mask) -> view givens unknowns buf' i = view givens unknowns buf i).
  Proof.
    intros To a b active buf mask buf' I Ia Na E.
    destruct (span_parts A d masked givens unknowns orig seg B To a b active buf I Ia Na) as [span [Ts [Es [R1 St]]]].
    unfold span_solve in E. rewrite Es in E. destruct (masked span) as [[span' mask']|] eqn:Em; [|discriminate].
    injection E as <- E. destruct (keeps _ _ _ _ Ts Em) as [Lm Hu].
    destruct (St span' mask' Lm Hu) as [bufs' [Eb [I' [R2 R3]]]]. rewrite E in Eb. injection Eb as <-.
    split; [exact Lm|]. split; [exact I'|]. split.
    - intros k i Hk Hm. destruct (R2 k i Hk Hm) as [A1 A2]. unfold piece, view. cbn [fst snd]. split; [|rewrite A1; exact A2].
      exists (length active), span, span', mask', k. split; [exact Ts|]. split; [exact Em|]. split; [exact Hm|].
      split; [apply R1; exact Hk|symmetry; exact A1].
    - intros i Bi J. destruct (R3 i Bi J) as [A1 A2]. unfold view. rewrite A1, A2. reflexivity.
  Qed.

  Lemma reaches_advances orig left : forall a b i x y,
    reaches (mid_of A) (piece orig) left a b i x y ->
    advances A givens unknowns (accepted_by d givens unknowns masked) (rows_of_names orig (given_names givens) i) left a b (snd x) (fst y) (snd y).
  Proof.
    intros a b i x y H. induction H as [left a b i x y [S1 S2]|left a b i x y z H1 IH1 H2 IH2].
    - rewrite S2. apply advances_once. exact S1.
    - eapply advances_halves; [exact IH1|exact IH2].
  Qed.

  Lemma run_paths level (st st' : vmap) dyn : over d dyn (map gv_var givens) st -> solid dyn (map gv_var givens) ->
    fst (run_substepped A masked givens unknowns level st) = Ok st' ->
    over d dyn unknowns st' /\ (forall n, ~ In n (unknown_names unknowns) -> lookup n st' = lookup n st) /\
    forall i, i < numel dyn -> exists c,
      advances A givens unknowns (accepted_by d givens unknowns masked) (entries (map gv_var givens) st i) level (a_zero A) (a_one A)
        (entries (map gv_var (old_states givens)) st i) (entries unknowns st' i) c.
  Proof.
    intros O Sd. destruct (run_start A d masked givens unknowns seg level st dyn O Sd) as [orig [res [ch [To [Tr [Tc [Ro [Rc ->]]]]]]]].
    rewrite solve_to_drive. destruct (all_rows_ok (numel dyn)) as [Ia [Na In_]].
    assert (I0 : inv d givens unknowns (numel dyn) (res, ch)) by (split; assumption).
    destruct (drive (mid_of A) _ level _ _ _ _) as [[bufs|e] l] eqn:E; cbn [fst bind]; [|discriminate].
    destruct (drive_reaches (mid_of A) (span_solve A masked givens unknowns orig) (inv d givens unknowns (numel dyn)) (numel dyn)
                (view givens unknowns) (piece orig) (span_solve_rel (numel dyn) orig To)
                level (a_zero A) (a_one A) (all_rows (numel dyn)) (res, ch) bufs l I0 Ia Na E) as [[Tu _] [P _]].
    destruct seg as [_ [_ [Nu _]]].
    destruct (put_results_ok d dyn unknowns (fst bufs) Nu) with (st := st) as [st2 [Ep [H1 H2]]].
    { intros u I. apply (table_get d _ _ _ _ _ Tu). unfold unknown_shapes.
      apply lookup_nodup; [|apply (in_map (fun u => (v_name u, trailing u))); exact I].
      unfold keys. rewrite map_map. exact Nu. }
    rewrite Ep. intros H. injection H as <-. split; [|split; [exact H2|]].
    - intros u I. destruct (H1 u I) as [t [_ [L [W [D [S _]]]]]]. exists t. auto.
    - intros i Hi. apply In_ in Hi. specialize (P i Hi). apply reaches_advances in P. exists (snd (view givens unknowns bufs i)).
      rewrite <- Ro, <- Rc. cbn [view fst snd] in P.
      replace (entries unknowns st2 i) with (rows_of_names (fst bufs) (unknown_names unknowns) i); [exact P|].
      unfold rows_of_names, unknown_names, entries. rewrite map_map. apply map_ext_in. intros u I.
      destruct (H1 u I) as [t [r [L [_ [_ [_ [Lr Er]]]]]]]. unfold val. rewrite L, Lr. symmetry. apply Er.
  Qed.
End Paths.

Lemma advances_impl {V} (A : arith V) givens unknowns (P Q : list (list V) -> list (list V) -> Prop) o left a b c us c' :
  (forall ins us, P ins us -> Q ins us) -> advances A givens unknowns P o left a b c us c' -> advances A givens unknowns Q o left a b c us c'.
Proof.
  intros H. induction 1 as [left a b c us S|left a b c us1 c1 us2 c2 H1 IH1 H2 IH2]; [apply advances_once, H, S|eapply advances_halves; eassumption].
Qed.

(** ** Shapes *)
Lemma unpack_holds {V} groups : forall gts (st st' : smap (tensor V)) dyn d, Forall group_ok groups -> NoDup (names groups) ->
  Forall2 (fun g gt => group_tensor g dyn d gt) groups gts -> unpack_list gts groups st = Ok st' -> Forall (holds st' dyn d) groups.
Proof.
  induction groups as [|g groups IH]; intros gts st st' dyn d G N F H; [constructor|].
  inversion F as [|? gt ? gts' T F']; subst. inversion G as [|? ? Gg G']; subst. cbn [unpack_list] in H.
  unfold names in N. cbn [flat_map] in N. rewrite map_app in N.
  destruct (unpack_group_ok g dyn d gt st Gg T) as [ps [P [W [J U]]]]. rewrite U in H. cbn [bind] in H.
  assert (Nr : NoDup (names groups)) by (clear - N; induction (map v_name (g_vars g)) as [|a l IHl]; [exact N|]; inversion N; subst; apply IHl; assumption).
  constructor; [|eapply IH; eassumption]. intros v Iv.
  assert (Lp : length ps = length (g_vars g)) by (rewrite <- (map_length width), W, map_length; reflexivity).
  assert (Fr : lookup (v_name v) st' = lookup (v_name v) (sets (unflats dyn ps (g_vars g)) st)).
  { apply (unpack_frame gts' groups); [unfold unpack_groups; replace (length gts' =? length groups) with true; [exact H|]|].
    - symmetry. apply Nat.eqb_eq. symmetry. exact (f2_len _ _ _ F').
    - intros I. clear - N Iv I. revert N. generalize (map v_name (g_vars g)) as l, (in_map v_name _ _ Iv). intros l Il N.
      induction l as [|a l IHl]; [destruct Il|]. cbn [app] in N. inversion N as [|? ? Na Nl]; subst. destruct Il as [->|Il]; [|apply IHl; assumption].
      apply Na. apply in_or_app. right. exact I. }
  assert (Nn : NoDup (map v_name (g_vars g))).
  { clear - N. revert N. generalize (map v_name (g_vars g)). intros l N. induction l as [|a l IHl]; [constructor|]. cbn [app] in N. inversion N as [|? ? Na Nl]; subst.
    constructor; [intros C; apply Na, in_or_app; left; exact C|apply IHl, Nl]. }
  assert (Q : exists t, In (v_name v, t) (unflats dyn ps (g_vars g)) /\ declared dyn d v t).
  { assert (G2 : forall vs (ps : list (tensor V)), incl vs (g_vars g) -> In v vs -> Forall (part (axes g dyn) d) ps -> map width ps = map (columns g) vs ->
                 exists t, In (v_name v, t) (unflats dyn ps vs) /\ declared dyn d v t); [|apply (G2 (g_vars g)); [intros x h; exact h|exact Iv|exact P|exact W]].
    clear - Gg. induction vs as [|w ws IHw]; intros [|p ps] Inc Iv P W; try discriminate; [destruct Iv|]. cbn [map] in W. injection W as Wp W. inversion P as [|? ? Pp P']; subst. cbn [unflats].
    destruct Iv as [->|Iv].
    - exists (unflat dyn v p). split; [left; reflexivity|]. apply (unflat_declared g dyn d v p Gg); [apply Inc; left; reflexivity|exact Pp|exact Wp].
    - destruct (IHw ps (fun w h => Inc w (or_intror h)) Iv P' W) as [t [It Dt]]. exists t. split; [right; exact It|exact Dt]. }
  destruct Q as [t [It Dt]]. exists t. split; [|exact Dt]. rewrite Fr. apply sets_first; [rewrite (unflats_names dyn _ _ Lp); exact Nn|exact It].
Qed.

Lemma pack_shapes {V} (st : smap (tensor V)) dyn d groups : forall us, Forall group_ok groups -> Forall (holds st dyn d) groups ->
  pack_groups st groups = Ok us -> Forall2 (fun g t => group_tensor g dyn d t) groups us.
Proof.
  unfold pack_groups. induction groups as [|g groups IH]; intros us G H P; cbn [mapM] in P; [injection P as <-; constructor|].
  inversion G as [|? ? Gg G']; subst. inversion H as [|? ? Hg H']; subst.
  destruct (pack_group_ok g st dyn d Gg Hg) as [ts [_ [E [Pa W]]]]. rewrite E in P. cbn [bind] in P.
  destruct (mapM (pack_group st) groups) as [us'|] eqn:E'; [|discriminate]. cbn [bind] in P. injection P as <-.
  constructor; [apply joined_group; assumption|apply IH; auto].
Qed.

(** ** The guess *)
Section Guess.
  Variable d : device.
  Variable zero : F.
  Variable par : string -> result (tensor F).
  Variable unknowns : list var_info.
  Variable shape : string -> list nat.
  Variable n : nat.
  Notation vmap := (smap (tensor F)).
  Hypothesis Su : forall u, In u unknowns -> shape (v_name u) = trailing u.

  Definition fine (k : string) (t : tensor F) : Prop := rowsof d n (shape k) t.
  Definition all_fine (st : vmap) : Prop := (forall k t, lookup k st = Some t -> fine k t) /\ forall u, In u unknowns -> lookup (v_name u) st <> None.

  Lemma fine_set k t (st : vmap) : all_fine st -> fine k t -> all_fine (set_ k t st).
  Proof.
    intros [H P] Ft. split.
    - intros k' t'. destruct (String.eqb_spec k' k) as [->|N]; [rewrite lookup_set_same; intros E; injection E as <-; exact Ft|].
      rewrite lookup_set_other by exact N. apply H.
    - intros u I. apply lookup_set_some. apply P, I.
  Qed.
  Lemma fine_set_all names : forall ts (st : vmap), all_fine st ->
    (forall k name t, nth_error names k = Some name -> nth_error ts k = Some t -> fine name t) -> all_fine (set_all names ts st).
  Proof.
    induction names as [|nm names IH]; intros [|t ts] st H Q; try exact H. cbn [set_all]. apply IH.
    - apply fine_set; [exact H|apply (Q 0); reflexivity].
    - intros k. apply (Q (S k)).
  Qed.
  Lemma zeros_wf (sh : list nat) dv : wf (zeros zero sh dv).
  Proof. unfold wf, zeros. cbn [t_data t_shape]. apply repeat_length. Qed.

  Lemma fine_seed vs (st : vmap) : incl vs unknowns ->
    (forall k t, lookup k st = Some t -> fine k t) -> (forall k t, lookup k (seed_unknowns zero vs d [n] st) = Some t -> fine k t).
  Proof.
    revert st. induction vs as [|v vs IH]; intros st Inc H k t; [apply H|]. cbn [seed_unknowns]. apply IH.
    - intros x h. apply Inc. right. exact h.
    - destruct (lookup (v_name v) st) as [t0|] eqn:E; [exact H|]. intros k' t'. destruct (String.eqb_spec k' (v_name v)) as [->|Nk].
      + rewrite lookup_set_same. intros Q. injection Q as <-. split; [apply zeros_wf|]. split; [reflexivity|].
        rewrite Su by (apply Inc; left; reflexivity). reflexivity.
      + rewrite lookup_set_other by exact Nk. apply H.
  Qed.
  Lemma seed_present vs (st : vmap) u : In u vs -> lookup (v_name u) (seed_unknowns zero vs d [n] st) <> None.
  Proof.
    assert (K : forall vs (st : vmap) m, lookup m st <> None -> lookup m (seed_unknowns zero vs d [n] st) <> None).
    { clear. induction vs as [|v vs IH]; intros st m H; [exact H|]. cbn [seed_unknowns]. apply IH. destruct (lookup (v_name v) st); [exact H|]. apply lookup_set_some. exact H. }
    revert st. induction vs as [|v vs IH]; intros st I; [destruct I|]. cbn [seed_unknowns]. destruct I as [->|I]; [|apply IH, I].
    apply K. destruct (lookup (v_name u) st) eqn:E; [rewrite E; discriminate|]. rewrite lookup_set_same. discriminate.
  Qed.

  Lemma fine_predictor sg (st st' : vmap) l : all_fine st ->
    (forall p, is_predictor sg = Some p ->
      ((0 < fb_iterations (pr_feedback p))%Z ->
         shape (fb_input (pr_feedback p)) = fb_sub (pr_feedback p) ++ fb_base (pr_feedback p) /\
         shape (fb_output (pr_feedback p)) = shape (fb_input (pr_feedback p))) /\
      forall n ins ps outs, pr_run p (ins ++ ps) = Ok outs ->
        Forall2 (fun name t => wf t /\ t_shape t = n :: shape name) (pr_inputs p) ins ->
        forall k name t, nth_error (pr_outputs p) k = Some name -> nth_error outs k = Some t -> wf t /\ t_shape t = n :: shape name) ->
    run_predictor zero par sg d [n] st = (Ok st', l) -> all_fine st'.
  Proof.
    intros H Pok. unfold run_predictor. destruct (is_predictor sg) as [p|]; [|intros E; injection E as <- _; exact H].
    destruct (Pok p eq_refl) as [Nf Pr]. remember (0 <? fb_iterations (pr_feedback p))%Z as it eqn:Eit. set (k := if it then _ else _).
    assert (Fb : it = true -> shape (fb_input (pr_feedback p)) = fb_sub (pr_feedback p) ++ fb_base (pr_feedback p) /\
                              shape (fb_output (pr_feedback p)) = shape (fb_input (pr_feedback p))) by (intros ->; apply Nf, Z.ltb_lt; symmetry; exact Eit).
    assert (Loop : forall k (st st' : vmap) l, all_fine st -> predictor_loop par p d it k st = (Ok st', l) -> all_fine st').
    { clear - Fb Pr. induction k as [|k IH]; intros st st' l H E; cbn [predictor_loop] in E; [injection E as <- _; exact H|].
      unfold predictor_pass in E. destruct (mapM _ (pr_inputs p)) as [ins|] eqn:Ei; [|discriminate].
      destruct (mapM par (pr_params p)) as [ps|]; [|discriminate]. destruct (pr_run p (ins ++ ps)) as [outs|] eqn:Er; [|discriminate]. cbn [bind] in E.
      destruct (assert_ _ _); [|discriminate]. cbn [bind] in E.
      assert (Fi : Forall2 (fun name t => wf t /\ t_shape t = n :: shape name) (pr_inputs p) ins).
      { clear - H Ei. revert ins Ei. induction (pr_inputs p) as [|m ms IH]; intros ins Ei; cbn [mapM] in Ei; [injection Ei as <-; constructor|].
        destruct (lookup m st) as [t|] eqn:E; [|discriminate]. cbn [bind] in Ei. destruct (mapM _ ms) as [ts|]; [|discriminate]. cbn [bind] in Ei. injection Ei as <-.
        constructor; [|apply IH; reflexivity]. destruct (proj1 H m t E) as [W [_ S]]. auto. }
      assert (S : all_fine (set_all (pr_outputs p) (map (to_dev d) outs) st)).
      { apply fine_set_all; [exact H|]. intros j name t Nj Tj. rewrite nth_error_map in Tj. destruct (nth_error outs j) as [o|] eqn:Oj; [|discriminate]. injection Tj as <-.
        destruct (Pr n ins ps outs Er Fi j name o Nj Oj) as [W Sh]. split; [exact W|]. split; [reflexivity|exact Sh]. }
      destruct it.
      - unfold feed in E. destruct (lookup (fb_output _) _) as [t|] eqn:Lo; [|discriminate].
        destruct (predictor_loop par p d true k _) as [r' l'] eqn:E'. injection E as -> _. eapply IH; [|exact E'].
        apply fine_set; [exact S|]. unfold fine. rewrite <- (proj2 (Fb eq_refl)). exact (proj1 S _ _ Lo).
      - destruct (predictor_loop par p d false k _) as [r' l'] eqn:E'. injection E as -> _. eapply IH; [|exact E']. exact S. }
    intros E. eapply Loop; [|exact E]. destruct it; [|exact H]. apply fine_set; [exact H|]. split; [apply zeros_wf|]. split; [reflexivity|].
    rewrite (proj1 (Fb eq_refl)). reflexivity.
  Qed.
End Guess.

Section Instance.
  Variable fsum : list F -> F.
  Variable cfg : config.
  Variable zero : F.
  Variable par : string -> result (tensor F).
  Variable d : device.
  Variable s : solver_seg.
  Notation vmap := (smap (tensor F)).
  Notation sg := (seg_of fsum cfg s).
  Hypothesis sok : segment_ok s.
  Hypothesis gok : seg_ok (ss_givens s) (ss_unknowns s).
  Hypothesis nok : names_ok s.
  Hypothesis pok : predictor_ok s.

  Lemma guess_shapes n (span st1 : vmap) gs ps us0 calls : table d n (given_shapes (ss_givens s)) span ->
    prepare_solve zero par sg span = (Ok (st1, gs, ps, us0), calls) ->
    Forall2 (fun g t => group_tensor g [n] d t) (ss_unknown_groups s) us0.
  Proof.
    intros T P. destruct gok as [_ [Ng [Nu _]]]. unfold prepare_solve in P. cbn [seg_of is_givens is_unknowns is_given_groups is_unknown_groups is_params] in P.
    destruct (ss_givens s) as [|g0 gs0] eqn:Eg; [discriminate|]. rewrite <- Eg in *.
    assert (L0 : lookup (given_name g0) (given_shapes (ss_givens s)) = Some (trailing (gv_var g0))).
    { apply lookup_nodup; [unfold keys, given_shapes; rewrite map_map; exact Ng|]. rewrite Eg. left. reflexivity. }
    destruct (table_get d n _ span _ _ T L0) as [t0 [Lt [W0 [D0 S0]]]]. unfold given_name in Lt. rewrite Lt in P.
    assert (Dm : dim t0 = 1 + (length (v_sub (gv_var g0)) + length (v_base (gv_var g0)))) by (unfold dim; rewrite S0; cbn [length]; unfold trailing; rewrite app_length; reflexivity).
    replace (dim t0 <? _) with false in P by (symmetry; apply Nat.ltb_ge; lia).
    replace (dim t0 - (length (v_sub (gv_var g0)) + length (v_base (gv_var g0)))) with 1 in P by lia.
    rewrite S0, D0 in P. cbn [firstn] in P.
    destruct (run_predictor _ _ _ _ _ _) as [[x|e] l0] eqn:E; [|discriminate]. cbn [bind] in P.
    destruct (pack_groups x (ss_given_groups s)); [|discriminate]. cbn [bind] in P.
    destruct (pack_groups x (ss_unknown_groups s)) eqn:E2; [|discriminate]. cbn [bind] in P.
    destruct (mapM par _); [|discriminate]. cbn [bind] in P. injection P as <- _ _ <- _.
    destruct pok as [shape [Sg [Su Sp]]].
    assert (Fx : all_fine d (ss_unknowns s) shape n x).
    { eapply (fine_predictor d zero par (ss_unknowns s) shape n sg); [|exact Sp|exact E]. split.
      - apply (fine_seed d zero (ss_unknowns s) shape n Su); [intros u h; exact h|]. intros k t Lk. destruct T as [_ [K R]].
        destruct (lookup k (given_shapes (ss_givens s))) as [sh|] eqn:Ek; [|apply K in Ek; congruence].
        unfold fine. replace (shape k) with sh; [exact (R k sh t Ek Lk)|].
        apply lookup_in in Ek. unfold given_shapes in Ek. apply in_map_iff in Ek. destruct Ek as [g [Eg' Ig]]. injection Eg' as <- <-. symmetry. exact (Sg g Ig).
      - intros u Iu. apply seed_present. exact Iu. }
    eapply pack_shapes; [apply sok| |exact E2]. apply Forall_forall. intros g Ig v Iv.
    assert (Iu : In v (ss_unknowns s)) by (apply (proj1 nok); eauto).
    destruct (lookup (v_name v) x) as [t|] eqn:Lv; [|exfalso; exact (proj2 Fx v Iu Lv)].
    destruct (proj1 Fx _ _ Lv) as [W [Dv Sv]]. unfold fine, rowsof in *. rewrite (Su v Iu) in Sv. exists t. split; [reflexivity|]. split; [exact W|]. split; [exact Dv|exact Sv].
  Qed.

  Lemma segment_keeps_rows : keeps_rows d (ss_givens s) (ss_unknowns s) (run_implicit_masked zero par sg).
  Proof.
    intros n span span' mask T H. unfold run_implicit_masked in H.
    destruct (prepare_solve _ _ _ _) as [[[[[st1 gs] ps] us0]|] calls] eqn:P; [|discriminate]. cbn [fst bind] in H.
    destruct (is_solve_masked _ _ _ _) as [[us m']|] eqn:So; [|discriminate]. cbn [bind] in H.
    destruct (unpack_groups _ _ _) as [st2|] eqn:Un; [|discriminate]. cbn [bind] in H. injection H as -> ->.
    pose proof (guess_shapes n span st1 gs ps us0 calls T P) as G0.
    cbn [seg_of is_solve_masked is_unknown_groups] in So, Un.
    apply newton_masked_solved in So. rewrite make_unknown, make_residual, !make_res in So.
    destruct So as [dyn [r0 [r [F0 [F1 [Dv [Ne [_ [_ [_ [_ [Lm _]]]]]]]]]]]].
    assert (Ed : dyn = [n]).
    { destruct (ss_unknown_groups s) as [|g gs']; [contradiction|]. inversion G0 as [|? t ? ? [_ [_ S1]] _]; subst. inversion F0 as [|? ? ? ? [d' [_ [_ S2]]] _]; subst.
      rewrite S1 in S2. apply app_inv_tail in S2. unfold axes in S2. apply app_inv_tail in S2. symmetry. exact S2. }
    subst dyn. split; [rewrite Lm; cbn; lia|].
    assert (F1' : Forall2 (fun g t => group_tensor g [n] d t) (ss_unknown_groups s) us).
    { clear - F1 Dv G0. apply forall2_nth; [symmetry; exact (f2_len _ _ _ F1)|]. intros k g t A B.
      destruct (nth_forall2 _ _ _ _ _ _ F1 A B) as [d' [W [D S]]]. split; [exact W|]. split; [|exact S].
      assert (E : nth_error (map t_dev us) k = nth_error (map t_dev us0) k) by (rewrite Dv; reflexivity).
      rewrite !nth_error_map, B in E. destruct (nth_error us0 k) as [t0|] eqn:C; [|discriminate]. injection E as ->.
      apply (nth_forall2 _ _ _ _ _ _ G0 A C). }
    unfold unpack_groups in Un. destruct (assert_ _ _); [|discriminate]. cbn [bind] in Un.
    pose proof (unpack_holds _ _ _ _ _ _ (proj1 sok) (proj1 (proj2 sok)) F1' Un) as Hs.
    intros u Iu. apply (proj1 nok) in Iu. destruct Iu as [g [Ig Iu]]. rewrite Forall_forall in Hs. destruct (Hs g Ig u Iu) as [t [L [W [D S]]]].
    exists t. split; [exact L|]. split; [exact W|]. split; [exact D|exact S].
  Qed.

  Lemma accepted_solved ins us : accepted_by d (ss_givens s) (ss_unknowns s) (run_implicit_masked zero par sg) ins us ->
    row_solved fsum cfg zero par s ins us.
  Proof.
    intros (n & span & span' & mask & j & T & H & Nm & <- & <-).
    destruct (masked_segment_solved fsum cfg zero par s span span' mask sok H) as [st1 [gs [ps [us0 [calls [P [So [_ K]]]]]]]].
    exists span, us0, mask, span', j. split; [exists st1, gs, ps, calls; exact P|]. split; [exact So|]. split; [exact Nm|]. split; [reflexivity|]. split; [|reflexivity].
    unfold rows_of_names. apply map_ext_in. intros m Im. unfold val. destruct nok as [Un Dj]. destruct (Dj m Im) as [Nu Np].
    rewrite K.
    - rewrite (prepare_frame _ _ _ _ _ _ _ _ _ m P); [reflexivity|exact Nu|exact Np].
    - intros C. apply Nu. unfold names in C. apply in_map_iff in C. destruct C as [v [<- C]]. apply in_flat_map in C. apply in_map. apply Un. exact C.
  Qed.

  Lemma substepped_solved A level (st st' : vmap) dyn : over d dyn (map gv_var (ss_givens s)) st -> solid dyn (map gv_var (ss_givens s)) ->
    fst (run_substepped A (run_implicit_masked zero par sg) (ss_givens s) (ss_unknowns s) level st) = Ok st' ->
    over d dyn (ss_unknowns s) st' /\ (forall n, ~ In n (unknown_names (ss_unknowns s)) -> lookup n st' = lookup n st) /\
    forall i, i < numel dyn -> exists c,
      advances A (ss_givens s) (ss_unknowns s) (row_solved fsum cfg zero par s) (entries (map gv_var (ss_givens s)) st i) level (a_zero A) (a_one A)
        (entries (map gv_var (old_states (ss_givens s))) st i) (entries (ss_unknowns s) st' i) c.
  Proof.
    intros O Sd H. destruct (run_paths A d _ _ _ gok segment_keeps_rows level st st' dyn O Sd H) as [Q1 [Q2 Q3]].
    split; [exact Q1|]. split; [exact Q2|]. intros i Hi. destruct (Q3 i Hi) as [c Hc]. exists c. eapply advances_impl; [|exact Hc]. exact accepted_solved.
  Qed.
End Instance.

(** ** The whole model *)
Lemma forward_substeps_solved fsum cfg A par base_ndim capture infos outs s i sgs pre post inputs res :
  sgs = pre ++ JI i :: post -> ji_seg i = seg_of fsum cfg s -> 0 < ji_level i ->
  segment_ok s -> seg_ok (ss_givens s) (ss_unknowns s) -> names_ok s -> predictor_ok s ->
  forward A par base_ndim capture infos sgs outs inputs = Ok res ->
  exists st0 batch st st',
    prepare_inputs infos inputs = Ok st0 /\ value_steps A par base_ndim capture batch pre st0 = Ok st /\
    (forall n, ~ written (JI i) n -> lookup n st' = lookup n st) /\
    (forall n, In n outs -> (forall sg, In sg post -> ~ written sg n) -> lookup n res = lookup n st') /\
    forall d dyn, over d dyn (map gv_var (ss_givens s)) st -> solid dyn (map gv_var (ss_givens s)) ->
      over d dyn (ss_unknowns s) st' /\
      forall k, k < numel dyn -> exists c,
        advances A (ss_givens s) (ss_unknowns s) (row_solved fsum cfg (a_zero A) par s) (entries (map gv_var (ss_givens s)) st k)
          (ji_level i) (a_zero A) (a_one A) (entries (map gv_var (old_states (ss_givens s))) st k) (entries (ss_unknowns s) st' k) c.
Proof.
  intros -> Es El Ok_ Gok Nok Pok H. unfold forward in H. destruct (prepare_inputs infos inputs) as [st0|]; [|discriminate]. cbn [bind] in H.
  destruct (match infos with [] => _ | _ => _ end) as [batch|]; [|discriminate]. cbn [bind] in H.
  destruct (value_steps _ _ _ _ _ _ _) as [stf|] eqn:E; [|discriminate]. cbn [bind] in H.
  apply value_steps_app in E. destruct E as [st [E1 E2]]. cbn [value_steps] in E2.
  destruct (value_step _ _ _ _ _ (JI i) st) as [st'|] eqn:E3; [|discriminate]. cbn [bind] in E2.
  assert (Fr : forall n, ~ written (JI i) n -> lookup n st' = lookup n st) by (intros n; exact (value_step_frame _ _ _ _ _ _ _ _ n E3)).
  exists st0, batch, st, st'. split; [reflexivity|]. split; [exact E1|]. split; [exact Fr|]. split.
  - intros n I N. rewrite (collect_at _ _ _ _ H n).
    replace (existsb (String.eqb n) outs) with true by (symmetry; apply existsb_exists; exists n; split; [exact I|apply String.eqb_refl]).
    exact (value_steps_frame _ _ _ _ _ n _ _ _ E2 N).
  - intros d dyn O Sd. cbn [value_step] in E3. rewrite Es in E3. replace (0 <? ji_level i) with true in E3 by (symmetry; apply Nat.ltb_lt; exact El).
    cbn [seg_of is_givens is_unknowns] in E3.
    destruct (substepped_solved fsum cfg (a_zero A) par d s Ok_ Gok Nok Pok A (ji_level i) st st' dyn O Sd E3) as [Q1 [_ Q3]]. split; assumption.
Qed.
