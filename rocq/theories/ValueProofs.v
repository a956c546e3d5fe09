(** The values computed on the derivative paths (JacModel.v, ParamJac.v) are those of [forward]. *)
From Verif Require Import Base BaseProofs SpecMap SmapProofs Tensor BatchChunk Broadcast Pack Implicit Substep SpecSubstep Mat Jac SubstepJac JacModel ParamJac FwdModel SpecValue.

Lemma mapM_weaken {A B} (f g : A -> result B) (H : forall x y, f x = Ok y -> g x = Ok y) l r : mapM f l = Ok r -> mapM g l = Ok r.
Proof.
  revert r. induction l as [|x l IH]; intros r E; cbn [mapM] in *; [exact E|]. apply bind_ok in E. destruct E as [y [E1 E]].
  apply bind_ok in E. destruct E as [ys [E2 E]]. rewrite (H _ _ E1). cbn [bind]. rewrite (IH _ E2). exact E.
Qed.

Lemma lookup_set {T} j k (v : T) m : lookup j (set_ k v m) = if String.eqb j k then Some v else lookup j m.
Proof. destruct (String.eqb_spec j k) as [->|N]; [apply lookup_set_same|apply lookup_set_other; exact N]. Qed.

Section Value.
  Context {V : Type}.
  Notation vmap := (smap (tensor V)).
  Variable A : arith V.
  Variable neg : V -> V.
  Variable dot : list V -> list V -> V.
  Variable par : string -> result (tensor V).
  Variable capture : bool.

  Lemma implicit_groups_value sg (st st' : vmap) ug :
    run_implicit_groups A par capture sg st = Ok (st', ug) -> run_implicit (a_zero A) par capture sg st = Ok st'.
  Proof.
    unfold run_implicit_groups, run_implicit. destruct (fst (prepare_solve (a_zero A) par sg st)) as [[[[st1 gs] ps] us]|e] eqn:P; cbn [bind]; [|discriminate].
    destruct (is_solve sg gs ps us) as [u|e] eqn:Q.
    - intros E. apply bind_ok in E. destruct E as [st2 [E1 E2]]. injection E2 as <- _. exact E1.
    - intros E. apply bind_ok in E. destruct E as [st2 [E1 E2]]. injection E2 as <- _. exact E1.
  Qed.

  Lemma forward_value base_ndim sg jvp ps batch (st ds st' ds' : vmap) :
    (forall args l, jvp args = Ok l -> length l = length (sg_out sg) + length ps -> sg_run sg args = Ok (firstn (length (sg_out sg)) l)) ->
    run_forward_jacobian (a_zero A) (a_add A) dot par base_ndim sg jvp ps batch st ds = Ok (st', ds') ->
    run_forward_segment par base_ndim sg batch st = Ok st'.
  Proof.
    intros H E. unfold run_forward_jacobian in E. apply bind_ok in E. destruct E as [ins [E1 E]]. apply bind_ok in E. destruct E as [qs [E2 E]].
    apply bind_ok in E. destruct E as [l [E3 E]]. apply bind_ok in E. destruct E as [u [E4 E]].
    unfold assert_ in E4. destruct (Nat.eqb_spec (length l) (length (sg_out sg) + length ps)) as [Hl|]; [|discriminate].
    assert (st' = set_all (sg_out sg) (firstn (length (sg_out sg)) l) st) as ->.
    { destruct (sg_in sg) as [|i0 r]; [discriminate|]. destruct (lookup i0 ds) as [d0|]; [|discriminate]. apply bind_ok in E. destruct E as [[db M] [_ E]].
      apply bind_ok in E. destruct E as [acc [_ E]]. apply bind_ok in E. destruct E as [ds2 [_ E]]. injection E as <- _. reflexivity. }
    unfold run_forward_segment. 
    match goal with |- context [mapM ?g (sg_in sg)] => assert (Em : mapM g (sg_in sg) = Ok ins)
      by (eapply mapM_weaken; [|exact E1]; intros n t; cbn beta; destruct (lookup n st); [auto|discriminate]) end. rewrite Em.
    cbn [bind]. rewrite E2. cbn [bind]. rewrite (H _ _ E3 Hl). cbn [bind].
    assert (X : length (firstn (length (sg_out sg)) l) = length (sg_out sg)) by (apply firstn_length_le; lia). rewrite X, Nat.eqb_refl. reflexivity.
  Qed.

  (** ** Substepping *)
  Section Substep.
    Variable masked : vmap -> result (vmap * list bool).
    Variable ift : vmap -> vmap -> result vmap.
    Variable givens : list given_info.
    Variable unknowns : list var_info.
    Hypothesis carried : forall g, In g givens -> gv_role g = "old_state"%string -> exists u, In u unknowns /\ v_name u = gv_pair g.

    (** The result buffer has an entry with rows per unknown. *)
    Definition ranked (res : vmap) : Prop := forall u, In u unknowns -> exists t, lookup (v_name u) res = Some t /\ 1 <= dim t.

    Lemma select_lookup (m m' : vmap) idx n : index_select_batch m idx = Ok m' ->
      match lookup n m with
      | None => lookup n m' = None
      | Some t => exists t', lookup n m' = Some t' /\ (if Nat.leb 1 (dim t) then index_select0 t idx = Ok t' else t' = t)
      end.
    Proof.
      unfold index_select_batch. revert m'. induction m as [|[k t] m IH]; intros m' E; cbn [vmapM] in E.
      - injection E as <-. reflexivity.
      - apply bind_ok in E. destruct E as [t' [E1 E]]. apply bind_ok in E. destruct E as [r [E2 E]]. injection E as <-. cbn [lookup].
        destruct (String.eqb n k); [|apply IH; exact E2]. exists t'. split; [reflexivity|]. destruct (Nat.leb 1 (dim t)); [exact E1|congruence].
    Qed.

    Lemma take_self (us : list var_info) (m : vmap) : forall acc r, take_all (map (fun u => (v_name u, v_name u)) us) m acc = Ok r ->
      (forall n t, lookup n acc = Some t -> lookup n m = Some t) ->
      (forall n t, lookup n r = Some t -> lookup n m = Some t) /\ (forall u, In u us -> lookup (v_name u) r = lookup (v_name u) m) /\
      (forall n, lookup n acc <> None -> lookup n r <> None).
    Proof.
      induction us as [|u us IH]; intros acc r E H; cbn [map take_all] in E.
      - injection E as <-. split; [exact H|]. split; [intros u []|auto].
      - apply bind_ok in E. destruct E as [t [E1 E]]. unfold at_ in E1. destruct (lookup (v_name u) m) as [t0|] eqn:L; [|discriminate]. injection E1 as <-.
        destruct (IH _ _ E) as (Q1 & Q2 & Q3).
        { intros n t. rewrite lookup_set. destruct (String.eqb_spec n (v_name u)) as [->|]; [congruence|apply H]. }
        split; [exact Q1|]. split.
        + intros v [<-|I]; [|apply Q2; exact I]. assert (X : lookup (v_name u) r <> None) by (apply Q3; rewrite lookup_set, String.eqb_refl; discriminate).
          destruct (lookup (v_name u) r) as [w|] eqn:W; [|congruence]. rewrite (Q1 _ _ W) in *. congruence.
        + intros n N. apply Q3. rewrite lookup_set. destruct (String.eqb n (v_name u)); [discriminate|exact N].
    Qed.

    Lemma scatter_lookup (dst : vmap) idx sub : forall dst', scatter_batch dst idx sub = Ok dst' -> forall n t, lookup n dst = Some t -> 1 <= dim t ->
      (exists t', lookup n dst' = Some t' /\ dim t' = dim t) /\ (forall s, lookup n sub = Some s -> 1 <= dim s).
    Proof.
      induction dst as [|[k t0] dst IH]; intros dst' E n t L Hd; [discriminate|]. cbn [scatter_batch] in E.
      apply bind_ok in E. destruct E as [t' [E1 E]]. apply bind_ok in E. destruct E as [r [E2 E]]. injection E as <-. cbn [lookup] in L |- *.
      destruct (String.eqb_spec n k) as [->|]; [|apply (IH r E2 n t L Hd)]. injection L as <-.
      destruct (lookup k sub) as [s|] eqn:S.
      - assert (X : Nat.leb 1 (dim t0) = true) by (apply Nat.leb_le; exact Hd). rewrite X in E1. unfold index_copy0 in E1.
        destruct (t_shape t0) as [|p rest] eqn:T0; [discriminate|]. destruct (t_shape s) as [|q rest'] eqn:Ts; [discriminate|].
        destruct (shape_eqb rest rest' && _ && _) in E1; [|discriminate]. injection E1 as <-. split.
        + eexists. split; [reflexivity|]. unfold dim. cbn [t_shape]. rewrite T0. reflexivity.
        + intros s' E'. injection E' as <-. unfold dim. rewrite Ts. cbn. lia.
      - injection E1 as <-. split; [exists t0; auto|discriminate].
    Qed.

    Lemma rows_taken (l : list (string * string)) (m m' : vmap) idx : index_select_batch m idx = Ok m' ->
      (forall e t, In e l -> lookup (snd e) m = Some t -> 1 <= dim t) ->
      forall acc r, take_all l m' acc = Ok r -> rows_at l m idx acc = Ok r.
    Proof.
      intros E. induction l as [|[n src] l IH]; intros H acc r T; cbn [take_all rows_at] in T |- *; [exact T|].
      apply bind_ok in T. destruct T as [t' [T1 T]]. unfold at_ in T1 |- *. pose proof (select_lookup m m' idx src E) as S.
      destruct (lookup src m) as [t|] eqn:L; [|rewrite S in T1; discriminate]. destruct S as [t2 [S1 S2]]. rewrite S1 in T1. injection T1 as <-.
      cbn [bind]. pose proof (H (n, src) t (or_introl eq_refl) L) as Hd. apply Nat.leb_le in Hd. rewrite Hd in S2. rewrite S2. cbn [bind].
      apply IH; [|exact T]. intros e t0 I. apply H. right. exact I.
    Qed.

    Lemma store_value active conv (span span_d : vmap) (bufs bufs' : bufs4) : ranked (fst (fst bufs)) ->
      store_d ift givens unknowns active conv span span_d bufs = Ok bufs' ->
      store givens unknowns active conv span (fst bufs) = Ok (fst bufs') /\ ranked (fst (fst bufs')).
    Proof.
      intros R. destruct conv as [|c conv]; cbn [store_d store]; [intros E; injection E as <-; auto|]. set (idx := c :: conv).
      destruct bufs as [[res ch] [res_d ch_d]]. cbn [fst snd] in *. intros E.
      apply bind_ok in E. destruct E as [cg [E0 E]]. apply bind_ok in E. destruct E as [cspan [E1 E]]. apply bind_ok in E. destruct E as [csd0 [_ E]].
      apply bind_ok in E. destruct E as [csd1 [_ E]]. apply bind_ok in E. destruct E as [cs [E2 E]]. apply bind_ok in E. destruct E as [csd [_ E]].
      apply bind_ok in E. destruct E as [res' [E3 E]]. apply bind_ok in E. destruct E as [resd' [_ E]]. apply bind_ok in E. destruct E as [cc [E4 E]].
      apply bind_ok in E. destruct E as [ccd [_ E]]. apply bind_ok in E. destruct E as [ch' [E5 E]]. apply bind_ok in E. destruct E as [chd' [_ E]].
      injection E as <-. cbn [fst snd]. rewrite E0. cbn [bind].
      destruct (take_self _ _ _ _ E2) as (_ & Q2 & _); [discriminate|].
      assert (Hd : forall u t, In u unknowns -> lookup (v_name u) span = Some t -> 1 <= dim t).
      { intros u t I L. destruct (R u I) as [t0 [L0 D0]]. destruct (scatter_lookup _ _ _ _ E3 _ _ L0 D0) as [_ S].
        pose proof (select_lookup _ _ _ (v_name u) E1) as S1. rewrite L in S1. destruct S1 as [t' [L' S1]].
        assert (D' : 1 <= dim t') by (apply S; rewrite (Q2 u I); exact L'). destruct (Nat.leb_spec 1 (dim t)); [assumption|subst; assumption]. }
      rewrite (rows_taken _ _ _ _ E1) with (r := cs).
      - cbn [bind]. rewrite E3. cbn [bind]. rewrite (rows_taken _ _ _ _ E1) with (r := cc).
        + cbn [bind]. rewrite E5. cbn [bind]. split; [reflexivity|]. intros u I. destruct (R u I) as [t0 [L0 D0]].
          destruct (scatter_lookup _ _ _ _ E3 _ _ L0 D0) as [[t' [L' D']] _]. exists t'. split; [exact L'|lia].
        + intros e t I L. unfold old_srcs in I. apply in_map_iff in I. destruct I as [g [<- I]]. apply filter_In in I. destruct I as [I Ro].
          unfold is_old_state in Ro. apply String.eqb_eq in Ro. destruct (carried g I Ro) as [u [Iu Nu]]. cbn [snd] in L. rewrite <- Nu in L. exact (Hd u t Iu L).
        + exact E4.
      - intros e t I L. apply in_map_iff in I. destruct I as [u [<- I]]. exact (Hd u t I L).
      - exact E2.
    Qed.

    Lemma solve_to_value (orig orig_d : vmap) left : forall a b active bufs bufs' l, ranked (fst (fst bufs)) ->
      solve_to_d A masked ift givens unknowns orig orig_d left a b active bufs = (Ok bufs', l) ->
      solve_to A masked givens unknowns orig left a b active (fst bufs) = (Ok (fst bufs'), l) /\ ranked (fst (fst bufs')).
    Proof.
      induction left as [|left IH]; intros a b active bufs bufs' l R; cbn [solve_to_d solve_to].
      all: unfold solve_span_d, solve_span;
        destruct (index_select_batch orig active) as [oa|]; cbn [bind]; [|discriminate];
        destruct (index_select_batch (snd (fst bufs)) active) as [ca|]; cbn [bind]; [|discriminate];
        destruct (index_select_batch orig_d active) as [oda|]; cbn [bind]; [|discriminate];
        destruct (index_select_batch (snd (snd bufs)) active) as [cda|]; cbn [bind]; [|discriminate];
        destruct (apply_span A givens oa a b ca []) as [sp|]; cbn [bind]; [|discriminate];
        destruct (apply_span A givens oda a b cda []) as [spd|]; cbn [bind]; [|discriminate];
        destruct (masked sp) as [[span mask]|]; cbn [bind]; [|discriminate];
        destruct (store_d ift givens unknowns active (positions true 0 mask) span spd bufs) as [b1|] eqn:S; [|discriminate];
        destruct (store_value _ _ _ _ _ _ R S) as [S' R1]; rewrite S'.
      - destruct (positions false 0 mask); [|discriminate]. intros E. injection E as <- <-. auto.
      - destruct (positions false 0 mask) as [|f0 fs]; [intros E; injection E as <- <-; auto|].
        destruct (pick active (f0 :: fs)) as [fg|]; [|discriminate].
        destruct (solve_to_d A masked ift givens unknowns orig orig_d left a _ fg b1) as [[b2|] l1] eqn:E1; [|discriminate].
        destruct (IH _ _ _ _ _ _ R1 E1) as [F1 R2]. rewrite F1.
        destruct (solve_to_d A masked ift givens unknowns orig orig_d left _ b fg b2) as [r2 l2] eqn:E2. intros E. injection E as -> <-.
        destruct (IH _ _ _ _ _ _ R2 E2) as [F2 R3]. rewrite F2. auto.
    Qed.

    Lemma substepped_value level (st ds st' ds' : vmap) l :
      run_substepped_d A masked ift givens unknowns level st ds = (Ok (st', ds'), l) ->
      run_substepped A masked givens unknowns level st = (Ok st', l).
    Proof.
      unfold run_substepped_d, run_substepped. destruct givens as [|g0 gs] eqn:G; [discriminate|]. rewrite <- G in *.
      destruct (at_ (v_name (gv_var g0)) st) as [t0|]; [|discriminate]. destruct (Nat.ltb (dim t0) _); [discriminate|].
      set (needed := negb _). destruct (if needed then flatten_givens givens st else Ok st) as [flat|]; cbn [bind]; [|discriminate].
      destruct (if needed then flatten_carriers givens ds else Ok ds) as [flatd|]; cbn [bind]; [|discriminate].
      destruct (collect_givens givens flat []) as [orig|]; cbn [bind]; [|discriminate].
      destruct (collect_givens givens flatd []) as [origd|]; cbn [bind]; [|discriminate].
      destruct (at_ (v_name (gv_var g0)) orig) as [f0|]; cbn [bind]; [|discriminate].
      destruct (firstn (dim f0 - var_trail (gv_var g0)) (t_shape f0)) as [|B rest]; [discriminate|].
      destruct (at_ (v_name (gv_var g0)) origd) as [d0|]; cbn [bind]; [|discriminate]. destruct (size_at d0 (-1)) as [M|]; cbn [bind]; [|discriminate].
      destruct (collect_givens (filter is_old_state givens) orig []) as [ch|]; cbn [bind]; [|discriminate].
      destruct (collect_givens (filter is_old_state givens) origd []) as [chd|]; cbn [bind]; [|discriminate].
      match goal with |- context [solve_to_d _ _ _ _ _ _ _ _ _ _ ?ac ?bf] => destruct (solve_to_d A masked ift givens unknowns orig origd level (a_zero A) (a_one A) ac bf) as [r l0] eqn:E end.
      intros H. destruct r as [b2|]; cbn [bind] in H; [|discriminate].
      apply solve_to_value in E.
      - cbn [fst] in E. destruct E as [E _]. rewrite E. cbn [bind]. injection H as H <-. apply bind_ok in H. destruct H as [st2 [H1 H]]. apply bind_ok in H.
        destruct H as [ds2 [_ H]]. injection H as <- _. rewrite H1. reflexivity.
      - cbn [fst]. clear. assert (X : forall us acc u, (In u us \/ exists t, lookup (v_name u) acc = Some t /\ 1 <= dim t) -> exists t,
          lookup (v_name u) (fold_left (fun (m : vmap) u => set_ (v_name u) (zeros (a_zero A) (B :: rest ++ v_sub u ++ v_base u) (t_dev f0)) m) us acc) = Some t /\ 1 <= dim t).
        { induction us as [|v us IH]; intros acc u [I|I]; cbn [fold_left].
          - destruct I.
          - exact I.
          - apply IH. destruct (String.eqb_spec (v_name u) (v_name v)) as [Ev|N].
            + right. rewrite Ev, lookup_set, String.eqb_refl. eexists. split; [reflexivity|]. unfold dim, zeros. cbn. lia.
            + destruct I as [->|I]; [contradiction|]. left. exact I.
          - apply IH. right. rewrite lookup_set. destruct (String.eqb (v_name u) (v_name v)); [|exact I]. eexists. split; [reflexivity|]. unfold dim, zeros. cbn. lia. }
        intros u I. apply X. left. exact I.
    Qed.
  End Substep.

  (** ** The whole evaluation *)
  Section Steps.
    Variable base_ndim : smap nat.

    Lemma jac_step_value batch M d sg (st ds st' ds' : vmap) : match sg with JF f => same_values f | JI i => carries_unknowns (ji_seg i) end ->
      jac_step A neg dot par base_ndim capture batch M d sg st ds = Ok (st', ds') -> value_step A par base_ndim capture batch sg st = Ok st'.
    Proof.
      intros C. destruct sg as [f|i]; cbn [jac_step value_step].
      - destruct (jf_jvp f) as [jvp|] eqn:J.
        + apply forward_value. intros args l. exact (C jvp args l J).
        + intros E. apply bind_ok in E. destruct E as [st1 [E1 E]]. apply bind_ok in E. destruct E as [szs [_ E]]. injection E as <- _. exact E1.
      - destruct (ji_given i) as [given|]; destruct (Nat.ltb 0 (ji_level i)).
        + destruct (run_substepped_d A _ _ _ _ _ st ds) as [[[st2 ds2]|] l] eqn:E; cbn [fst]; [|discriminate]. intros H. injection H as <- <-.
          rewrite (substepped_value _ _ _ _ C _ _ _ _ _ _ E). reflexivity.
        + intros E. apply bind_ok in E. destruct E as [[st1 ug] [E1 E]]. apply bind_ok in E. destruct E as [ds1 [_ E]]. injection E as <- _.
          exact (implicit_groups_value _ _ _ _ E1).
        + intros E. apply bind_ok in E. destruct E as [st1 [E1 E]]. injection E as <- _. exact E1.
        + intros E. apply bind_ok in E. destruct E as [st1 [E1 E]]. injection E as <- _. unfold rmap in E1.
          destruct (run_implicit_groups A par capture (ji_seg i) st) as [[st2 ug]|] eqn:E2; [|discriminate]. injection E1 as <-. exact (implicit_groups_value _ _ _ _ E2).
    Qed.
    Lemma jac_steps_value batch M d sgs : coherent sgs -> forall st ds st' ds' : vmap,
      jac_steps A neg dot par base_ndim capture batch M d sgs st ds = Ok (st', ds') -> value_steps A par base_ndim capture batch sgs st = Ok st'.
    Proof.
      induction sgs as [|sg sgs IH]; intros C st ds st' ds' E; cbn [jac_steps value_steps] in *; [injection E as <- _; reflexivity|].
      apply bind_ok in E. destruct E as [[st1 ds1] [E1 E]]. rewrite (jac_step_value _ _ _ _ _ _ _ _ (C sg (or_introl eq_refl)) E1). cbn [bind].
      apply (IH (fun s I => C s (or_intror I)) _ _ _ _ E).
    Qed.

    Lemma take_collect names (st : vmap) : forall acc outs, take_outputs names st acc = Ok outs -> collect names st acc = Ok outs.
    Proof.
      induction names as [|n names IH]; intros acc outs E; cbn [take_outputs collect] in *; [exact E|]. unfold at_ in E.
      destruct (lookup n st) as [t|]; cbn [bind] in E; [|discriminate]. apply IH. exact E.
    Qed.

    Lemma dstate_value m b M (inputs outs ds : vmap) : coherent (jm_segs m) ->
      jacobian_dstate A neg dot par base_ndim capture m b M inputs = Ok (outs, ds) -> forward_of A par base_ndim capture m inputs = Ok outs.
    Proof.
      intros C E. unfold jacobian_dstate in E. apply bind_ok in E. destruct E as [st [E1 E]]. destruct (jm_inputs m) as [|i0 rest] eqn:I; [discriminate|].
      apply bind_ok in E. destruct E as [ref [E2 E]]. apply bind_ok in E. destruct E as [ds0 [_ E]]. apply bind_ok in E. destruct E as [[st1 ds1] [E3 E]].
      apply bind_ok in E. destruct E as [os [E4 E]]. injection E as <- _. unfold forward_of, forward. rewrite I, E1. cbn [bind]. rewrite E2. cbn [bind].
      rewrite (jac_steps_value _ _ _ _ C _ _ _ _ E3). cbn [bind]. apply take_collect. exact E4.
    Qed.

    Lemma jvp_value m (inputs T outs r : vmap) : coherent (jm_segs m) ->
      jvp A neg dot par base_ndim capture m inputs T = Ok (outs, r) -> forward_of A par base_ndim capture m inputs = Ok outs.
    Proof.
      intros C E. unfold jvp in E. apply bind_ok in E. destruct E as [[b M] [_ E]]. apply bind_ok in E. destruct E as [u [_ E]].
      apply bind_ok in E. destruct E as [[os ds] [E1 E]]. apply bind_ok in E. destruct E as [r' [_ E]]. injection E as <- _. exact (dstate_value _ _ _ _ _ _ C E1).
    Qed.

    Lemma composed_value m (inputs outs : vmap) jac : coherent (jm_segs m) ->
      (forall f g, jm_segs m = [JF f] -> jf_jvp f <> Some g) ->
      jacobian A neg dot par base_ndim capture m inputs = Ok (outs, jac) -> forward_of A par base_ndim capture m inputs = Ok outs.
    Proof.
      intros C N E. unfold jacobian in E. apply bind_ok in E. destruct E as [[b M] [_ E]]. apply bind_ok in E. destruct E as [u [_ E]].
      assert (X : (let* (outs, ds) := jacobian_dstate A neg dot par base_ndim capture m b M inputs in
                   let* jac := pair_blocks m b ds (jm_derivs m) [] in Ok (outs, jac)) = Ok (outs, jac)).
      { destruct (jm_segs m) as [|[f|i] [|s r]]; try exact E. destruct (jf_jvp f) as [g|] eqn:J; [|exact E]. destruct (N f g eq_refl J). }
      apply bind_ok in X. destruct X as [[os ds] [X1 X]]. apply bind_ok in X. destruct X as [r' [_ X]]. injection X as <- _. exact (dstate_value _ _ _ _ _ _ C X1).
    Qed.

    Lemma set_all_lookup names : forall (ts : list (tensor V)) (st1 st2 : vmap) n, length ts = length names ->
      (In n names \/ lookup n st1 = lookup n st2) -> lookup n (set_all names ts st1) = lookup n (set_all names ts st2).
    Proof.
      induction names as [|k names IH]; intros ts st1 st2 n L H; destruct ts as [|t ts]; try discriminate; cbn [set_all].
      - destruct H as [[]|H]; exact H.
      - apply IH; [cbn in L; lia|]. destruct H as [[->|H]|H]; [right; rewrite !lookup_set, String.eqb_refl; reflexivity|left; exact H|].
        right. rewrite !lookup_set. destruct (String.eqb n k); [reflexivity|exact H].
    Qed.
    Lemma set_all_some names : forall (ts : list (tensor V)) (st : vmap) n, length ts = length names -> (In n names \/ lookup n st <> None) -> lookup n (set_all names ts st) <> None.
    Proof.
      induction names as [|k names IH]; intros ts st n L H; destruct ts as [|t ts]; try discriminate; cbn [set_all].
      - destruct H as [[]|H]; exact H.
      - apply IH; [cbn in L; lia|]. destruct H as [[->|H]|H]; [right; rewrite lookup_set, String.eqb_refl; discriminate|left; exact H|].
        right. rewrite lookup_set. destruct (String.eqb n k); [discriminate|exact H].
    Qed.
    Lemma collect_lookup names (st : vmap) : (forall n, In n names -> lookup n st <> None) -> forall acc, exists outs, collect names st acc = Ok outs /\
      forall n, lookup n outs = if existsb (String.eqb n) names then lookup n st else lookup n acc.
    Proof.
      induction names as [|k names IH]; intros H acc; cbn [collect]; [exists acc; auto|]. destruct (lookup k st) as [t|] eqn:L; [|destruct (H k (or_introl eq_refl)); exact L].
      destruct (IH (fun n I => H n (or_intror I)) (set_ k t acc)) as [outs [E Q]]. exists outs. split; [exact E|]. intros n. rewrite Q. cbn [existsb].
      destruct (existsb (String.eqb n) names) eqn:X; [rewrite Bool.orb_true_r; reflexivity|]. rewrite Bool.orb_false_r, lookup_set.
      destruct (String.eqb_spec n k) as [->|]; [congruence|reflexivity].
    Qed.

    Lemma single_value m f g (inputs outs : vmap) jac : coherent (jm_segs m) -> jm_segs m = [JF f] -> jf_jvp f = Some g ->
      incl (map fst (jm_outs m)) (sg_out (jf_seg f)) ->
      jacobian A neg dot par base_ndim capture m inputs = Ok (outs, jac) ->
      exists outs', forward_of A par base_ndim capture m inputs = Ok outs' /\
        forall n, lookup n outs' = if existsb (String.eqb n) (map fst (jm_outs m)) then lookup n outs else None.
    Proof.
      intros C S J In E. unfold jacobian in E. apply bind_ok in E. destruct E as [[b M] [_ E]]. apply bind_ok in E. destruct E as [u [_ E]].
      rewrite S, J in E. unfold forward_pair_blocks in E. apply bind_ok in E. destruct E as [st [E1 E]]. apply bind_ok in E. destruct E as [ins [E2 E]].
      apply bind_ok in E. destruct E as [batch [E3 E]]. apply bind_ok in E. destruct E as [qs [E4 E]]. apply bind_ok in E. destruct E as [l [E5 E]].
      apply bind_ok in E. destruct E as [u' [E6 E]]. injection E as <- _.
      unfold assert_ in E6. destruct (Nat.eqb_spec (length l) (length (sg_out (jf_seg f)) + length (jf_pairs f))) as [Hl|]; [|discriminate].
      set (n := length (sg_out (jf_seg f))) in *. assert (Hn : length (firstn n l) = n) by (apply firstn_length_le; lia).
      assert (Sv : same_values f) by (apply (C (JF f)); rewrite S; left; reflexivity).
      assert (R : run_forward_segment par base_ndim (jf_seg f) batch st = Ok (set_all (sg_out (jf_seg f)) (firstn n l) st)).
      { unfold run_forward_segment. 
        match goal with |- context [mapM ?g (sg_in (jf_seg f))] => assert (Em : mapM g (sg_in (jf_seg f)) = Ok ins)
          by (eapply mapM_weaken; [|exact E2]; intros k t; cbn beta; unfold at_; destruct (lookup k st); [auto|discriminate]) end. rewrite Em.
        cbn [bind]. rewrite E4. cbn [bind]. rewrite (Sv g _ _ J E5 Hl). cbn [bind]. fold n. rewrite Hn, Nat.eqb_refl. reflexivity. }
      destruct (collect_lookup (map fst (jm_outs m)) (set_all (sg_out (jf_seg f)) (firstn n l) st)) with (acc := @nil (string * tensor V)) as [outs' [Ec Q]].
      { intros k I. apply set_all_some; [exact Hn|]. left. apply In. exact I. }
      exists outs'. split.
      - unfold forward_of, forward. rewrite E1. cbn [bind]. rewrite E3. cbn [bind]. rewrite S. cbn [value_steps value_step]. rewrite R. cbn [bind]. exact Ec.
      - intros k. rewrite Q. destruct (existsb (String.eqb k) (map fst (jm_outs m))) eqn:X; [|reflexivity]. apply set_all_lookup; [exact Hn|]. left. apply In.
        apply existsb_exists in X. destruct X as [k' [I Ek]]. apply String.eqb_eq in Ek. subst. exact I.
    Qed.
  End Steps.

  Lemma prepare_first i rest (inputs st : vmap) : prepare_inputs (i :: rest) inputs = Ok st -> exists t, lookup (in_name i) st = Some t.
  Proof.
    intros E. unfold prepare_inputs in E. apply bind_ok in E. destruct E as [[s dyn] [_ E]]. cbn [fst snd] in E.
    assert (K : forall infos (s st : vmap) n, lookup n s <> None -> prep2 infos dyn s = Ok st -> lookup n st <> None).
    { induction infos as [|j infos IH]; intros s0 s1 n N H; cbn [prep2] in H; [injection H as <-; exact N|]. apply bind_ok in H. destruct H as [t [_ H]].
      apply bind_ok in H. destruct H as [tl [_ H]]. apply bind_ok in H. destruct H as [u [_ H]]. apply (IH _ _ n) in H; [exact H|].
      rewrite lookup_set. destruct (String.eqb n (in_name j)); [discriminate|exact N]. }
    assert (N : lookup (in_name i) st <> None).
    { cbn [prep2] in E. apply bind_ok in E. destruct E as [t [_ E]]. apply bind_ok in E. destruct E as [tl [_ E]]. apply bind_ok in E. destruct E as [u [_ E]].
      apply (K _ _ _ (in_name i)) in E; [exact E|]. rewrite lookup_set, String.eqb_refl. discriminate. }
    destruct (lookup (in_name i) st) as [t|]; [eauto|contradiction].
  Qed.

  (** ** Parameter derivatives *)
  Section Params.
    Variable pbase : smap (list nat).
    Notation nd := (vmap_ (@length nat) pbase).

    Lemma pstep_value b P dyn d sg (st dp st' dp' : vmap) : match sg with PF f _ _ _ => same_values f | PI i _ _ _ _ => ji_level i = 0 end ->
      pstep A neg dot par pbase capture b P dyn d sg st dp = Ok (st', dp') -> value_step A par nd capture dyn (value_seg sg) st = Ok st'.
    Proof.
      intros C. destruct sg as [f pj ps vj|i dr sv kr ps]; cbn [pstep value_seg value_step]; intros E.
      - apply bind_ok in E. destruct E as [[st1 dp1] [E1 E]].
        assert (st' = st1) as -> by (destruct pj as [g|]; [apply bind_ok in E; destruct E as [dp2 [_ E]]|]; injection E as <- _; reflexivity).
        destruct (jf_jvp f) as [jvp|] eqn:J.
        + revert E1. apply forward_value. intros args l. exact (C jvp args l J).
        + apply bind_ok in E1. destruct E1 as [st2 [E1 E2]]. apply bind_ok in E2. destruct E2 as [szs [_ E2]]. injection E2 as <- _. exact E1.
      - apply bind_ok in E. destruct E as [[st1 ug] [E1 E]]. apply bind_ok in E. destruct E as [dp1 [_ E]].
        assert (st' = st1) as -> by (destruct dr as [g|]; [apply bind_ok in E; destruct E as [dp2 [_ E]]|]; injection E as <- _; reflexivity).
        rewrite C. cbn [Nat.ltb Nat.leb]. exact (implicit_groups_value _ _ _ _ E1).
    Qed.
    Lemma psteps_value b P dyn d sgs : (forall sg, In sg sgs -> match sg with PF f _ _ _ => same_values f | PI i _ _ _ _ => ji_level i = 0 end) ->
      forall st dp st' dp' : vmap, psteps A neg dot par pbase capture b P dyn d sgs st dp = Ok (st', dp') ->
      value_steps A par nd capture dyn (map value_seg sgs) st = Ok st'.
    Proof.
      induction sgs as [|sg sgs IH]; intros C st dp st' dp' E; cbn [psteps value_steps map] in *; [injection E as <- _; reflexivity|].
      apply bind_ok in E. destruct E as [[st1 dp1] [E1 E]]. rewrite (pstep_value _ _ _ _ _ _ _ _ _ (C sg (or_introl eq_refl)) E1). cbn [bind].
      apply (IH (fun s I => C s (or_intror I)) _ _ _ _ E).
    Qed.

    Lemma param_value m (inputs outs : vmap) jac :
      (forall sg, In sg (pm_segs m) -> match sg with PF f _ _ _ => same_values f | PI i _ _ _ _ => ji_level i = 0 end) ->
      (forall i rest, pm_inputs m = i :: rest -> in_sub i = []) ->
      param_jacobian A neg dot par pbase capture m inputs = Ok (outs, jac) -> forward_of_p A par nd capture m inputs = Ok outs.
    Proof.
      intros C S0 E. unfold param_jacobian in E. apply bind_ok in E. destruct E as [[b P] [_ E]]. apply bind_ok in E. destruct E as [u [_ E]].
      assert (Comp : (let* (outs, dp) := param_dstate A neg dot par pbase capture m b P inputs in
                      let* jac := ppair_blocks pbase m b dp (pm_derivs m) [] in Ok (outs, jac)) = Ok (outs, jac) ->
                     forward_of_p A par nd capture m inputs = Ok outs).
      { clear E. intros E. apply bind_ok in E. destruct E as [[os dp] [E0 E]]. apply bind_ok in E. destruct E as [j [_ E]]. injection E as <- _.
        unfold param_dstate in E0. apply bind_ok in E0. destruct E0 as [st [E1 E]]. destruct (pm_inputs m) as [|i0 rest] eqn:I; [discriminate|].
        apply bind_ok in E. destruct E as [ref [E2 E]]. rewrite (S0 i0 rest eq_refl) in E. cbn [length] in E.
        destruct (Nat.ltb (length (batch_shape_of i0 ref)) 0); [discriminate|]. rewrite Nat.sub_0_r, firstn_all in E.
        apply bind_ok in E. destruct E as [[st1 dp1] [E3 E]]. apply bind_ok in E. destruct E as [os' [E4 E]]. injection E as <- _.
        unfold forward_of_p, forward. rewrite I, E1. cbn [bind]. rewrite E2. cbn [bind]. rewrite (psteps_value _ _ _ _ _ C _ _ _ _ E3). cbn [bind].
        apply take_collect. exact E4. }
      destruct (pm_segs m) as [|[f [g|] ps vj|i dr [s|] kr ps] [|s2 r]] eqn:Sg; try exact (Comp E).
      - unfold forward_param_blocks in E. apply bind_ok in E. destruct E as [st [E1 E]]. destruct (pm_inputs m) as [|i0 rest] eqn:I; [discriminate|].
        apply bind_ok in E. destruct E as [ref [E2 E]]. apply bind_ok in E. destruct E as [ins [_ E]]. apply bind_ok in E. destruct E as [qs [_ E]].
        apply bind_ok in E. destruct E as [blks [_ E]]. apply bind_ok in E. destruct E as [u' [_ E]]. apply bind_ok in E. destruct E as [st1 [E3 E]].
        apply bind_ok in E. destruct E as [os [E4 E]]. injection E as <- _.
        unfold forward_of_p, forward. rewrite I, E1. cbn [bind]. rewrite E2. cbn [bind]. rewrite Sg. cbn [map value_seg value_steps value_step]. rewrite E3. cbn [bind].
        apply take_collect. exact E4.
      - destruct dr as [g|]; [|discriminate]. unfold implicit_param_blocks in E. apply bind_ok in E. destruct E as [st [E1 E]].
        apply bind_ok in E. destruct E as [[st1 ug] [E3 E]]. destruct (fst ug) as [|u0 us]; [discriminate|]. apply bind_ok in E. destruct E as [blks [_ E]].
        apply bind_ok in E. destruct E as [blks' [_ E]]. apply bind_ok in E. destruct E as [u' [_ E]]. apply bind_ok in E. destruct E as [os [E4 E]]. injection E as <- _.
        unfold forward_of_p, forward. rewrite E1. cbn [bind].
        assert (Hb : exists batch, match pm_inputs m with [] => Ok [] | i1 :: _ => let* t := at_ (in_name i1) st in Ok (batch_shape_of i1 t) end = Ok batch).
        { destruct (pm_inputs m) as [|i1 rest] eqn:I; [eauto|]. destruct (prepare_first _ _ _ _ E1) as [t Et]. unfold at_. rewrite Et. cbn [bind]. eauto. }
        destruct Hb as [batch Hb]. rewrite Hb. cbn [bind]. rewrite Sg. cbn [map value_seg value_steps value_step].
        rewrite (C _ (or_introl eq_refl)). cbn [Nat.ltb Nat.leb]. rewrite (implicit_groups_value _ _ _ _ E3). cbn [bind]. apply take_collect. exact E4.
    Qed.
  End Params.
End Value.
