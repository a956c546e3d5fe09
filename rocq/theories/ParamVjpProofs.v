(** Model::param_vjp (ParamJac.v): cotangents contracted with the blocks of param_jacobian(). *)
From Verif Require Import Base BaseProofs SmapProofs Tensor Spec TensorProofs Broadcast SpecBroadcast BroadcastProofs Pack PackProofs
     Implicit ImplicitProofs BatchChunk Substep Mat Jac SubstepJac JacModel ParamJac SpecLayout LayoutProofs SpecJac SpecParam MatProofs JacProofs JacRunProofs JacMainProofs ParamProofs ParamMainProofs.

Lemma list_nth_ext {X} (a b : list X) : length a = length b -> (forall k, k < length a -> nth_error a k = nth_error b k) -> a = b.
Proof.
  revert b. induction a as [|x a IH]; intros [|y b] L H; try discriminate; [reflexivity|]. injection L as L.
  pose proof (H 0 ltac:(cbn; lia)) as H0. injection H0 as ->. f_equal. apply IH; [exact L|]. intros k Hk. apply (H (S k)). cbn. lia.
Qed.
Lemma indices_length sh : length (indices sh) = numel sh.
Proof. unfold indices. rewrite map_length, seq_length. reflexivity. Qed.
Lemma indices_ok sh x : In x (indices sh) <-> index_of sh x.
Proof.
  unfold indices. split.
  - intros H. apply in_map_iff in H as [k [<- H]]. apply in_seq in H. apply index_at_ok. lia.
  - intros H. apply in_map_iff. exists (ravel sh x). split; [apply index_at_ravel; exact H|]. apply in_seq. pose proof (ravel_lt _ _ H). lia.
Qed.
Lemma seq_nth_error n k : k < n -> nth_error (seq 0 n) k = Some k.
Proof. intros H. rewrite nth_error_nth' with (d := 0) by (rewrite seq_length; exact H). rewrite seq_nth by exact H. reflexivity. Qed.
Lemma indices_nth sh k : k < numel sh -> nth_error (indices sh) k = Some (index_at sh k).
Proof. intros H. unfold indices. apply map_nth_error. apply seq_nth_error. exact H. Qed.
Lemma nth_row {V} st i (l : list V) k : k < st -> nth_error (row_data st i l) k = nth_error l (i * st + k).
Proof. intros Hk. unfold row_data. rewrite nth_error_firstn, nth_error_skipn by exact Hk. reflexivity. Qed.

Section Contract.
  Context {V : Type}.
  Notation vmap := (smap (tensor V)).
  Variable A : arith V.
  Variable sum : list V -> V.
  Notation get := (get (a_zero A)).

  Lemma elem_nth (t : tensor V) idx : elem t idx = nth_error (t_data t) (ravel (t_shape t) idx).
  Proof. reflexivity. Qed.
  Lemma get_nth (t : tensor V) idx k : wf t -> index_of (t_shape t) idx -> ravel (t_shape t) idx = k -> nth_error (t_data t) k = Some (get t idx).
  Proof. intros W Ii <-. unfold SpecParam.get. destruct (elem_some t idx W Ii) as [x E]. rewrite E. exact E. Qed.

  Lemma contract_ok D ob pb (w j : tensor V) : wf w -> wf j -> t_dev w = t_dev j -> t_shape w = D ++ ob -> t_shape j = D ++ ob ++ pb ->
    exists g, contract A sum (numel D) (numel ob) (numel pb) (D ++ pb) w j = Ok g /\ wf g /\ t_dev g = t_dev w /\ t_shape g = D ++ pb /\
      forall e y, index_of D e -> index_of pb y ->
        elem g (e ++ y) = Some (sum (map (fun x => a_mul A (get w (e ++ x)) (get j (e ++ x ++ y))) (indices ob))).
  Proof.
    intros Ww Wj Dv Sw Sj. unfold contract.
    rewrite reshape_ok by (rewrite Sw, numel_app; cbn; lia). rewrite reshape_ok by (rewrite Sj, !numel_app; cbn; lia). cbn [bind t_data].
    rewrite (proj2 (device_eqb_eq _ _) Dv).
    set (f := fun e => map (fun y => sum (map (fun q => a_mul A (fst q) (snd q))
       (combine (row_data (numel ob) e (t_data w)) (col_data (numel ob) (numel pb) y (row_data (numel ob * numel pb) e (t_data j)))))) (seq 0 (numel pb))).
    assert (Lf : forall i, In i (seq 0 (numel D)) -> length (f i) = numel pb) by (intros i _; unfold f; rewrite map_length, seq_length; reflexivity).
    rewrite reshape_ok by (cbn [t_shape]; rewrite numel_app, numel2; reflexivity). cbn [t_data t_dev].
    eexists. split; [reflexivity|]. split.
    { unfold wf. cbn [t_shape t_data]. rewrite (flat_map_const_length f (numel pb)) by exact Lf. rewrite numel_app. lia. }
    split; [reflexivity|]. split; [reflexivity|]. intros e y Ie Iy. rewrite elem_nth. cbn [t_data t_shape]. rewrite ravel_app by (apply BroadcastProofs.index_length; exact Ie).
    pose proof (ravel_lt _ _ Ie) as He. pose proof (ravel_lt _ _ Iy) as Hy.
    pose proof (flat_map_nth f (numel pb) (numel D) 0 (ravel D e) (ravel pb y) Lf He Hy) as E. cbn [Nat.add] in E. rewrite E. clear E.
    unfold f. erewrite map_nth_error by (apply seq_nth_error; exact Hy). f_equal. f_equal.
    assert (Lw : length (row_data (numel ob) (ravel D e) (t_data w)) = numel ob).
    { apply (row_data_len _ _ (numel D)); [unfold wf in Ww; rewrite Ww, Sw; apply numel_app|exact He]. }
    assert (Lj : length (row_data (numel ob * numel pb) (ravel D e) (t_data j)) = numel ob * numel pb).
    { apply (row_data_len _ _ (numel D)); [unfold wf in Wj; rewrite Wj, Sj, !numel_app; reflexivity|exact He]. }
    destruct (col_data_is (fun _ _ => a_zero A) (numel ob) (numel pb) (ravel pb y) _ Hy Lj) as [Lc Nc].
    apply list_nth_ext; [rewrite !map_length, combine_length, Lw, Lc, indices_length; lia|].
    intros k Hk. rewrite map_length, combine_length, Lw, Lc, Nat.min_id in Hk. destruct (index_at_ok ob k Hk) as [Ix Rx].
    assert (E1 : nth_error (row_data (numel ob) (ravel D e) (t_data w)) k = Some (get w (e ++ index_at ob k))).
    { rewrite nth_row by exact Hk. apply get_nth; [exact Ww|rewrite Sw; apply index_app; assumption|]. rewrite Sw, ravel_app by (apply BroadcastProofs.index_length; exact Ie). rewrite Rx. reflexivity. }
    assert (E2 : nth_error (col_data (numel ob) (numel pb) (ravel pb y) (row_data (numel ob * numel pb) (ravel D e) (t_data j))) k = Some (get j (e ++ index_at ob k ++ y))).
    { rewrite Nc by exact Hk. rewrite nth_row by nia. apply get_nth; [exact Wj|rewrite Sj; apply index_app; [exact Ie|apply index_app; assumption]|].
      rewrite Sj, ravel_app by (apply BroadcastProofs.index_length; exact Ie). rewrite ravel_app by (apply BroadcastProofs.index_length; exact Ix). rewrite Rx, numel_app. reflexivity. }
    rewrite (map_nth_error _ _ _ (combine_nth_error _ _ _ _ _ E1 E2)), (map_nth_error _ _ _ (indices_nth ob k Hk)). reflexivity.
  Qed.

  Lemma sum_lead_ok D pb (t : tensor V) : wf t -> t_shape t = D ++ pb ->
    wf (sum_lead sum (length D) t) /\ t_dev (sum_lead sum (length D) t) = t_dev t /\ t_shape (sum_lead sum (length D) t) = pb /\
    forall y, index_of pb y -> elem (sum_lead sum (length D) t) y = Some (sum (map (fun e => get t (e ++ y)) (indices D))).
  Proof.
    intros W S. unfold sum_lead. rewrite S. rewrite skipn_app, skipn_all, Nat.sub_diag, firstn_app, firstn_all, Nat.sub_diag. cbn [skipn firstn app]. rewrite app_nil_r.
    split; [unfold wf; cbn [t_data t_shape]; rewrite map_length, seq_length; reflexivity|]. split; [reflexivity|]. split; [reflexivity|].
    intros y Iy. rewrite elem_nth. cbn [t_data t_shape]. pose proof (ravel_lt _ _ Iy) as Hy. erewrite map_nth_error by (apply seq_nth_error; exact Hy). f_equal. f_equal.
    assert (Lt : length (t_data t) = numel D * numel pb) by (unfold wf in W; rewrite W, S; apply numel_app).
    destruct (col_data_is (fun _ _ => a_zero A) (numel D) (numel pb) (ravel pb y) _ Hy Lt) as [Lc Nc].
    apply list_nth_ext; [rewrite map_length, Lc, indices_length; reflexivity|]. intros k Hk. rewrite Lc in Hk. rewrite Nc by exact Hk. destruct (index_at_ok D k Hk) as [Ie Re].
    rewrite (map_nth_error _ _ _ (indices_nth D k Hk)). apply get_nth; [exact W|rewrite S; apply index_app; assumption|].
    rewrite S, ravel_app by (apply BroadcastProofs.index_length; exact Ie). rewrite Re. reflexivity.
  Qed.
End Contract.

Lemma sum1_snoc {V} (add : V -> V -> V) l s x : sum1 add l = Some s -> sum1 add (l ++ [x]) = Some (add s x).
Proof. destruct l as [|y l]; [discriminate|]. cbn. intros E. injection E as <-. rewrite fold_left_app. reflexivity. Qed.
Lemma sum1_some {V} (add : V -> V -> V) l : l <> [] -> exists s, sum1 add l = Some s.
Proof. destruct l; [contradiction|]. eexists. reflexivity. Qed.
Lemma outs_of_snoc done o p q : outs_of (done ++ [(o, p)]) q = outs_of done q ++ (if String.eqb p q then [o] else []).
Proof. unfold outs_of. rewrite filter_app, map_app. cbn [filter snd]. destruct (String.eqb p q); reflexivity. Qed.
Lemma outs_of_cons o p r q : outs_of ((o, p) :: r) q = (if String.eqb p q then [o] else []) ++ outs_of r q.
Proof. unfold outs_of. cbn [filter snd]. destruct (String.eqb p q); reflexivity. Qed.
Lemma outs_of_in derivs p : outs_of derivs p <> [] <-> exists o, In (o, p) derivs.
Proof.
  unfold outs_of. split.
  - intros H. destruct (filter _ _) as [|[o q] l] eqn:E; [contradiction|]. exists o. assert (K : In (o, q) (filter (fun q => String.eqb (snd q) p) derivs)) by (rewrite E; left; reflexivity).
    apply filter_In in K as [K F]. apply String.eqb_eq in F. cbn in F. subst. exact K.
  - intros [o H] E. assert (K : In (o, p) (filter (fun q => String.eqb (snd q) p) derivs)) by (apply filter_In; split; [exact H|apply String.eqb_refl]).
    apply (in_map fst) in K. rewrite E in K. destruct K.
Qed.

Section Vjp.
  Context {V : Type}.
  Notation vmap := (smap (tensor V)).
  Variable A : arith V.
  Variable sum : list V -> V.
  Variable par : string -> result (tensor V).
  Variable pbase : smap (list nat).
  Variable m : pmodel V.
  Variable d : device.
  Variable D : list nat.
  Variable cot : vmap.
  Variable jac : smap vmap.
  Hypothesis onames : NoDup (map fst (pm_outs m)).
  Notation ready := (contractible par pbase (pm_outs m) d D cot jac).
  Notation term := (cotangent_term (a_zero A) (a_mul A) sum (pm_outs m) cot jac).
  Definition grads_ok (done : list (string * string)) (grads : vmap) : Prop :=
    forall p, match outs_of done p with
              | [] => lookup p grads = None
              | os => exists g pb, lookup p grads = Some g /\ lookup p pbase = Some pb /\ gradient_ok (a_add A) sum D pb (batched par p pb) d os (term p) g
              end.

  Lemma lookup_find o ob : lookup o (pm_outs m) = Some ob -> pout_base m o = Ok ob.
  Proof using onames. intros L. unfold pout_base. rewrite (find_out _ onames o ob); [reflexivity|]. apply lookup_in. exact L. Qed.

  Lemma collapse_ok p pb stored o (per : tensor V) : lookup p pbase = Some pb -> par p = Ok stored -> wf per -> t_dev per = d -> t_shape per = D ++ pb ->
    (forall e y, index_of D e -> index_of pb y -> elem per (e ++ y) = Some (term p e y o)) ->
    exists c, collapse sum par pbase p per = Ok c /\ gradient_ok (a_add A) sum D pb (batched par p pb) d [o] (term p) c.
  Proof using Type.
    intros Lp Ep W Dv S E. unfold collapse, batched. rewrite Lp, Ep. cbn [bind]. destruct (Nat.ltb (length pb) (dim stored)).
    - exists per. split; [reflexivity|]. split; [exact W|]. split; [exact Dv|]. split; [exact S|]. intros e y Ie Iy. rewrite (E e y Ie Iy). reflexivity.
    - unfold dim. rewrite S, app_length. destruct D as [|n D'] eqn:ED.
      + cbn [length Nat.add]. rewrite Nat.leb_refl. exists per. split; [reflexivity|]. split; [exact W|]. split; [exact Dv|]. split; [exact S|].
        intros y Iy. cbn [map over_batch sum1 fold_left]. rewrite <- (E [] y); [reflexivity|constructor|exact Iy].
      + rewrite <- ED in *. replace (Nat.leb (length D + length pb) (length pb)) with false by (symmetry; apply Nat.leb_gt; rewrite ED; cbn; lia).
        replace (length D + length pb - length pb) with (length D) by lia. destruct (sum_lead_ok A sum D pb per W S) as (Ws & Ds & Ss & Es).
        eexists. split; [reflexivity|]. split; [exact Ws|]. split; [congruence|]. split; [exact Ss|]. intros y Iy. rewrite (Es y Iy). cbn [map sum1 fold_left]. f_equal.
        assert (Eo : over_batch sum D (fun e => term p e y o) = sum (map (fun e => term p e y o) (indices D))) by (rewrite ED; reflexivity). rewrite Eo. f_equal.
        apply map_ext_in. intros e Ie. apply indices_ok in Ie. unfold get. rewrite (E e y Ie Iy). reflexivity.
  Qed.

  Lemma vjp_pair_ok o p done grads : ready o p -> grads_ok done grads ->
    exists grads', vjp_pair A sum par pbase m cot jac (o, p) grads = Ok grads' /\ grads_ok (done ++ [(o, p)]) grads'.
  Proof using onames.
    intros (ob & pb & w & j & stored & Lo & Lp & Ep & Lw & Ww & Dw & Sw & Bj & Wj & Dj & Sj) H. unfold vjp_pair. cbn [fst snd]. rewrite Lw. cbn [bind].
    unfold block in Bj. unfold at_. destruct (lookup o jac) as [row|] eqn:Er; [|discriminate]. cbn [bind]. rewrite Bj. cbn [bind].
    rewrite (lookup_find o ob Lo). cbn [bind]. rewrite Lp. cbn [bind].
    assert (G1 : Nat.leb (length ob) (dim w) && Nat.eqb (dim j) (dim w + length pb) = true).
    { unfold dim. rewrite Sw, Sj, !app_length. apply andb_true_iff. split; [apply Nat.leb_le; lia|apply Nat.eqb_eq; lia]. }
    rewrite G1. cbn [assert_ bind]. replace (dim w - length ob) with (length D) by (unfold dim; rewrite Sw, app_length; lia).
    rewrite Sw, firstn_app, firstn_all, Nat.sub_diag, skipn_app, skipn_all, Nat.sub_diag. cbn [firstn skipn app]. rewrite app_nil_r.
    destruct (contract_ok A sum D ob pb w j Ww Wj ltac:(congruence) Sw Sj) as (per & -> & Wp & Dp & Sp & Epr). cbn [bind].
    destruct (collapse_ok p pb stored o per Lp Ep Wp ltac:(congruence) Sp) as (c & -> & Gc).
    { intros e y Ie Iy. rewrite (Epr e y Ie Iy). unfold cotangent_term, block. rewrite Lw, Er, Bj, Lo. reflexivity. }
    cbn [bind].
    assert (Keep : forall s, (exists os, outs_of (done ++ [(o, p)]) p = os /\ os <> [] /\ gradient_ok (a_add A) sum D pb (batched par p pb) d os (term p) s) -> grads_ok (done ++ [(o, p)]) (set_ p s grads)).
    { intros s (os & Eos & Ne & Gs) q. destruct (String.string_dec q p) as [->|N].
      - rewrite Eos. destruct os; [contradiction|]. exists s, pb. rewrite lookup_set_same. auto.
      - rewrite outs_of_snoc. replace (String.eqb p q) with false by (symmetry; apply String.eqb_neq; congruence). rewrite app_nil_r.
        rewrite lookup_set_other by exact N. exact (H q). }
    pose proof (H p) as Hp. pose proof (outs_of_snoc done o p p) as Sn. rewrite String.eqb_refl in Sn.
    destruct (outs_of done p) as [|o1 os] eqn:Eo.
    - rewrite Hp. cbn [bind]. eexists. split; [reflexivity|]. apply Keep. exists [o]. split; [exact Sn|]. split; [discriminate|exact Gc].
    - destruct Hp as (g & pb' & Lg & Lp' & Gg). rewrite Lp in Lp'. injection Lp' as <-. rewrite Lg. destruct Gg as (Wg & Dg & Gg). destruct Gc as (Wc & Dc & Gc).
      assert (Ssh : t_shape g = t_shape c) by (destruct (batched par p pb); destruct Gg as [-> _]; destruct Gc as [-> _]; reflexivity).
      destruct (zip_bcast_same (a_add A) g c Wg Wc Ssh ltac:(congruence)) as (u & -> & Wu & Du & Su & Eu). cbn [bind]. eexists. split; [reflexivity|]. apply Keep.
      exists ((o1 :: os) ++ [o]). split; [exact Sn|]. split; [discriminate|]. split; [exact Wu|]. split; [congruence|].
      destruct (batched par p pb); destruct Gg as [S1 E1]; destruct Gc as [S2 E2]; (split; [congruence|]).
      + intros e y Ie Iy. destruct (sum1_some (a_add A) (map (term p e y) (o1 :: os))) as [s Es]; [discriminate|].
        rewrite map_app. cbn [map] in *. rewrite (sum1_snoc _ _ s _ Es). apply Eu; [rewrite (E1 e y Ie Iy); exact Es|exact (E2 e y Ie Iy)].
      + intros y Iy. destruct (sum1_some (a_add A) (map (fun o => over_batch sum D (fun e => term p e y o)) (o1 :: os))) as [s Es]; [discriminate|].
        rewrite map_app. cbn [map] in *. rewrite (sum1_snoc _ _ s _ Es). apply Eu; [rewrite (E1 y Iy); exact Es|exact (E2 y Iy)].
  Qed.
  Lemma vjp_pairs_ok pairs : (forall o p, In (o, p) pairs -> ready o p) -> forall done grads, grads_ok done grads ->
    exists grads', vjp_pairs A sum par pbase m cot jac pairs grads = Ok grads' /\ grads_ok (done ++ pairs) grads'.
  Proof using onames.
    induction pairs as [|[o p] pairs IH]; intros R done grads H; [exists grads; rewrite app_nil_r; split; [reflexivity|exact H]|]. cbn [vjp_pairs].
    destruct (vjp_pair_ok o p done grads (R o p (or_introl eq_refl)) H) as (g1 & -> & H1). cbn [bind].
    destruct (IH (fun o p I => R o p (or_intror I)) _ _ H1) as (g2 & E & H2). exists g2. split; [exact E|]. rewrite <- app_assoc in H2. exact H2.
  Qed.

  Variable neg : V -> V.
  Variable dot : list V -> list V -> V.
  Variable capture : bool.
  Lemma param_vjp_ok I outs : pm_derivs m <> [] -> pm_segs m <> [] -> ~ single_adjoint m ->
    param_jacobian A neg dot par pbase capture m I = Ok (outs, jac) -> (forall o p, In (o, p) (pm_derivs m) -> ready o p) ->
    exists grads, param_vjp A neg dot sum par pbase capture m I cot = Ok grads /\
      (forall p, lookup p grads <> None <-> exists o, In (o, p) (pm_derivs m)) /\
      forall p g, lookup p grads = Some g -> exists pb, lookup p pbase = Some pb /\
        gradient_ok (a_add A) sum D pb (batched par p pb) d (outs_of (pm_derivs m) p) (term p) g.
  Proof using onames.
    intros Ne Ns Na Ej R. destruct (vjp_pairs_ok (pm_derivs m) R [] []) as (grads & Ev & H); [intros p; reflexivity|]. cbn [app] in H.
    exists grads. split.
    - unfold param_vjp. assert (X : length (pm_derivs m) <> 0) by (intros Z; apply length_zero_iff_nil in Z; contradiction). rewrite (proj2 (Nat.eqb_neq _ _) X). cbn [negb assert_ bind].
      assert (C : (let* (_, jac) := param_jacobian A neg dot par pbase capture m I in vjp_pairs A sum par pbase m cot jac (pm_derivs m) []) = Ok grads) by (rewrite Ej; exact Ev).
      destruct (pm_segs m) as [|[f pj ps [[[adj ou] pa]|]|i dr s k ps] [|sg sgs]] eqn:Es; try exact C; [contradiction|]. exfalso. apply Na. repeat eexists. exact Es.
    - split.
      + intros p. rewrite <- outs_of_in. pose proof (H p) as Hp. destruct (outs_of (pm_derivs m) p) as [|o os]; [rewrite Hp; tauto|]. destruct Hp as (g & pb & -> & _). split; discriminate.
      + intros p g L. pose proof (H p) as Hp. destruct (outs_of (pm_derivs m) p) as [|o os]; [congruence|]. destruct Hp as (g' & pb & L' & Lp & G). rewrite L in L'. injection L' as <-. eauto.
  Qed.
End Vjp.
