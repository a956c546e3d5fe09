(** Model::jacobian of a single forward segment (JacModel.v): the graph's own blocks. *)
From Verif Require Import Base BaseProofs SmapProofs Tensor Spec TensorProofs Broadcast SpecBroadcast BroadcastProofs Pack PackProofs
     Implicit ImplicitProofs BatchChunk Substep Mat Jac SubstepJac JacModel SpecLayout LayoutProofs SpecJac MatProofs JacProofs JacRunProofs JacMainProofs.

Section Direct.
  Context {V : Type}.
  Notation vmap := (smap (tensor V)).

  Lemma pull_cons1 sh idx : length sh < length idx -> ravel (1 :: sh) (pull (1 :: sh) idx) = ravel sh (pull sh idx).
  Proof.
    intros L. unfold pull. cbn [length]. replace (length idx - length sh) with (S (length idx - S (length sh))) by lia.
    set (k := length idx - S (length sh)). assert (Hk : k < length idx) by lia. clearbody k. clear L. revert k Hk.
    induction idx as [|i idx IH]; intros k Hk; [cbn in Hk; lia|]. destruct k as [|k].
    - cbn [skipn combine map fst snd Nat.eqb ravel]. lia.
    - cbn [skipn]. apply (IH k). cbn in Hk. lia.
  Qed.
  Lemma drop_ones_elem (t : tensor V) k : forall idx, length (t_shape t) <= length idx ->
    elem (mkT (drop_ones k (t_shape t)) (t_data t) (t_dev t)) (pull (drop_ones k (t_shape t)) idx) = elem t (pull (t_shape t) idx).
  Proof.
    intros idx L. unfold elem. cbn [t_shape t_data]. f_equal. revert L. generalize (t_shape t). intros sh. revert sh.
    induction k as [|k IH]; intros sh L; [reflexivity|]. destruct sh as [|[|[|n]] sh]; try reflexivity. cbn [drop_ones]. cbn [length] in L.
    rewrite IH by lia. symmetry. apply pull_cons1. lia.
  Qed.
  Lemma squeeze_elem p (t : tensor V) idx : length (t_shape t) <= length idx ->
    elem (squeeze_lead p t) (pull (t_shape (squeeze_lead p t)) idx) = elem t (pull (t_shape t) idx).
  Proof. intros L. unfold squeeze_lead. destruct (p_indep p); [|reflexivity]. apply drop_ones_elem. exact L. Qed.
  Lemma drop_ones_numel k : forall sh, numel (drop_ones k sh) = numel sh.
  Proof.
    induction k as [|k IH]; intros sh; [reflexivity|]. destruct sh as [|[|[|n]] sh]; try reflexivity. cbn [drop_ones]. rewrite IH.
    change (numel (1 :: sh)) with (1 * numel sh). lia.
  Qed.
  Lemma squeeze_wf p (t : tensor V) : wf t -> wf (squeeze_lead p t).
  Proof. intros W. unfold squeeze_lead. destruct (p_indep p); [|exact W]. unfold wf in *. cbn [t_shape t_data]. rewrite drop_ones_numel. exact W. Qed.

  Lemma direct_lookup ps : NoDup (map (fun p => (p_out p, p_in p)) ps) -> forall blks (jac : smap vmap) k p t, length blks = length ps ->
    nth_error ps k = Some p -> nth_error blks k = Some t ->
    block (direct_blocks ps blks jac) (p_out p) (p_in p) = Some (squeeze_lead p t).
  Proof.
    induction ps as [|q ps IH]; intros N blks jac k p t L Hp Ht; [destruct k; discriminate|]. destruct blks as [|u blks]; [discriminate|].
    injection L as L. inversion N as [|? ? Nq N']; subst. cbn [direct_blocks]. destruct k as [|k].
    - injection Hp as ->. injection Ht as ->. clear IH N. assert (G : forall ps blks (jac : smap vmap), ~ In (p_out p, p_in p) (map (fun p => (p_out p, p_in p)) ps) ->
        block (direct_blocks ps blks jac) (p_out p) (p_in p) = block jac (p_out p) (p_in p)).
      { clear. induction ps as [|q ps IH]; intros [|u blks] jac N; try reflexivity. cbn [direct_blocks]. rewrite IH by (intros I; apply N; right; exact I).
        rewrite block_set2. destruct (String.eqb_spec (p_out p) (p_out q)) as [E1|]; [|reflexivity]. destruct (String.eqb_spec (p_in p) (p_in q)) as [E2|]; [|reflexivity].
        exfalso. apply N. left. congruence. }
      rewrite G by exact Nq. rewrite block_set2, !String.eqb_refl. reflexivity.
    - apply (IH N' blks _ k p t L Hp Ht).
  Qed.

  Lemma set_all_lookup ns : forall (ts : list (tensor V)) (a b : vmap) n, length ns = length ts -> In n ns -> lookup n (set_all ns ts a) = lookup n (set_all ns ts b).
  Proof.
    induction ns as [|x ns IH]; intros ts a b n L I; [destruct I|]. destruct ts as [|t ts]; [discriminate|]. injection L as L. cbn [set_all].
    destruct (in_dec String.string_dec n ns) as [J|J]; [apply IH; assumption|]. rewrite !set_all_other by exact J. destruct I as [->|I]; [|contradiction].
    rewrite !lookup_set_same. reflexivity.
  Qed.

  Variable A : arith V.
  Variable neg : V -> V.
  Variable dot : list V -> list V -> V.
  Variable par : string -> result (tensor V).
  Variable base_ndim : smap nat.
  Variable capture : bool.

  Lemma direct_ok m f jvp i0 rest (I st st' : vmap) ref D size known lins :
    jm_segs m = [JF f] -> jf_jvp f = Some jvp -> jm_derivs m <> [] -> jm_inputs m = i0 :: rest -> NoDup (map in_name (jm_inputs m)) ->
    (forall o i, In (o, i) (jm_derivs m) -> In i (map in_name (jm_inputs m))) ->
    prepare_inputs (jm_inputs m) I = Ok st -> lookup (in_name i0) st = Some ref ->
    NoDup (map (fun p => (p_out p, p_in p)) (jf_pairs f)) ->
    linear_run (a_zero A) neg par base_ndim (t_dev ref) D (batch_shape_of i0 ref) size (map in_name (jm_inputs m)) st (jm_segs m) lins known st' ->
    exists outs jac blks, jacobian A neg dot par base_ndim capture m I = Ok (outs, jac) /\
      (forall n, In n (sg_out (jf_seg f)) -> lookup n outs = lookup n st') /\
      lins = [forward_lin f blks] /\ Forall2 (block_ok (t_dev ref) D size) (jf_pairs f) blks /\
      forall k p t, nth_error (jf_pairs f) k = Some p -> nth_error blks k = Some t ->
        exists t', block jac (p_out p) (p_in p) = Some t' /\ wf t' /\ t_dev t' = t_dev t /\
          forall e s x y, index_of D e -> index_of (p_in_sub p) s -> index_of (p_out_base p) x -> index_of (p_in_base p) y ->
            elem t' (pull (t_shape t') (e ++ s ++ x ++ y)) = elem t (pull (t_shape t) (e ++ s ++ x ++ y)).
  Proof.
    intros Es Ej Nd Ei Nn Rq Ep Er Np R. rewrite Es in R. inversion R as [|? ? ? ? ? ? ? ls0 ? ? L R' X1 X2]; subst. inversion R' as [? ? X3 X4 X5|]; subst.
    inversion L as [? jvp' ins ps outs blks Ej' Ne Ik Nd' Fi Fp Erun Fo Fb| ? ? Ej' | |]; subst; [|congruence]. assert (jvp' = jvp) by congruence. subst jvp'.
    exists (set_all (sg_out (jf_seg f)) outs []), (direct_blocks (jf_pairs f) blks []), blks.
    pose proof (Forall2_length _ _ _ Fo) as Lo. pose proof (Forall2_length _ _ _ Fb) as Lb. split; [|split; [|split; [|split]]].
    - unfold jacobian. destruct (layout (input_size (jm_inputs m)) (jm_derivs m)) as [[b M]|e] eqn:El.
      2: { exfalso. destruct (proj1 (layout_fails (input_size (jm_inputs m)) (jm_derivs m))) as (o & i & e' & Ip & Ee); [eauto|].
           specialize (Rq o i Ip). apply in_map_iff in Rq as [info [<- Ii]]. unfold input_size in Ee. rewrite (find_input _ Nn info Ii) in Ee. discriminate. }
      cbn [bind]. assert (X : length (jm_derivs m) <> 0) by (intros Z; apply length_zero_iff_nil in Z; contradiction). rewrite (proj2 (Nat.eqb_neq _ _) X). cbn [negb assert_ bind].
      rewrite Es, Ej. unfold forward_pair_blocks. rewrite Ep. cbn [bind].
      rewrite (Forall2_mapM _ (sg_in (jf_seg f)) ins).
      2: { clear - Fi. induction Fi as [|n t ns ts E F IH]; [constructor|constructor; [unfold at_; rewrite E; reflexivity|exact IH]]. }
      cbn [bind]. rewrite Ei. unfold at_ at 1. rewrite Er. cbn [bind].
      rewrite (Forall2_mapM _ (sg_par (jf_seg f)) ps).
      2: { clear - Fp. induction Fp as [|n t ns ts (p & nd & E1 & E2 & E3) F IH]; [constructor|constructor; [|exact IH]]. rewrite E1. cbn [bind]. unfold at_. rewrite E2. exact E3. }
      cbn [bind]. rewrite Erun. cbn [bind]. rewrite app_length, Lo, Lb, Nat.eqb_refl. cbn [assert_ bind].
      rewrite firstn_app, Nat.sub_diag, firstn_all. cbn [firstn]. rewrite app_nil_r. rewrite skipn_app, Nat.sub_diag, skipn_all. reflexivity.
    - intros n In_. apply set_all_lookup; assumption.
    - reflexivity.
    - clear - Fb. induction Fb as [|p t ps ts (_ & _ & B) F IH]; constructor; assumption.
    - intros k p t Hp Ht. exists (squeeze_lead p t). split; [apply (direct_lookup _ Np blks [] k p t); [congruence|assumption|assumption]|].
      assert (B : block_ok (t_dev ref) D size p t).
      { clear - Fb Hp Ht. revert k Hp Ht. induction Fb as [|p' t' ps ts (_ & _ & B) F IH]; intros [|k] Hp Ht; try discriminate; [|exact (IH k Hp Ht)].
        injection Hp as ->. injection Ht as ->. exact B. }
      destruct B as (W & Dv & (lead & Sh & Bl) & _). split; [apply squeeze_wf; exact W|]. split; [unfold squeeze_lead; destruct (p_indep p); reflexivity|].
      intros e s x y Ie Is Ix Iy. apply squeeze_elem. destruct Bl as [Bl _]. rewrite Sh, !app_length in *.
      rewrite (BroadcastProofs.index_length _ _ Ie), (BroadcastProofs.index_length _ _ Is), (BroadcastProofs.index_length _ _ Ix), (BroadcastProofs.index_length _ _ Iy). lia.
  Qed.

  (** In exact arithmetic the block is the derivative. *)
  Hypothesis add_0_l : forall x, a_add A (a_zero A) x = x.
  Hypothesis add_0_r : forall x, a_add A x (a_zero A) = x.
  Hypothesis dot_0 : forall l n, dot l (repeat (a_zero A) n) = a_zero A.
  Hypothesis dot_1 : forall l k x, nth_error l k = Some x -> dot l (map (fun j => if Nat.eqb j k then a_one A else a_zero A) (seq 0 (length l))) = x.
  Notation sens := (sensitivity (a_zero A) (a_one A) (a_add A) dot).

  Lemma map_const {X} (c : V) (l : list X) : map (fun _ => c) l = repeat c (length l).
  Proof. induction l as [|x l IH]; [reflexivity|]. cbn. rewrite IH. reflexivity. Qed.

  Lemma direct_sens d D size f blks k p t e s x y : Forall2 (block_ok d D size) (jf_pairs f) blks ->
    NoDup (map (fun p => (p_out p, p_in p)) (jf_pairs f)) -> nth_error (jf_pairs f) k = Some p -> nth_error blks k = Some t -> In (p_out p) (sg_out (jf_seg f)) ->
    index_of D e -> index_of (p_in_sub p) s -> index_of (p_out_base p) x -> index_of (p_in_base p) y ->
    elem t (pull (t_shape t) (e ++ s ++ x ++ y)) =
    Some (sens [forward_lin f blks e] (p_out p) (p_in p)
            (ravel (p_in_sub p ++ p_out_base p) (s ++ x)) (ravel (p_in_sub p ++ p_in_base p) (s ++ y))).
  Proof.
    intros Fb Np Hp Ht Io Ie Is Ix Iy. unfold forward_lin. cbn [sensitivity l_outs l_pairs]. rewrite (proj2 (existsb_in _ _) Io).
    set (r := ravel (p_in_sub p ++ p_out_base p) (s ++ x)). set (c := ravel (p_in_sub p ++ p_in_base p) (s ++ y)).
    pose proof (BroadcastProofs.index_length _ _ Is) as Ls. pose proof (ravel_lt _ _ Is) as Rs. pose proof (ravel_lt _ _ Ix) as Rx. pose proof (ravel_lt _ _ Iy) as Ry.
    set (ob := numel (p_out_base p)) in *. set (ib := numel (p_in_base p)) in *.
    assert (Er : r = ravel (p_in_sub p) s * ob + ravel (p_out_base p) x) by (unfold r; rewrite ravel_app by exact Ls; reflexivity).
    assert (Ec : c = ravel (p_in_sub p) s * ib + ravel (p_in_base p) y) by (unfold c; rewrite ravel_app by exact Ls; reflexivity).
    assert (Qo : r / ob = ravel (p_in_sub p) s) by (rewrite Er, Nat.div_add_l, (Nat.div_small (ravel _ x)) by lia; lia).
    assert (Mo : r mod ob = ravel (p_out_base p) x) by (rewrite Er, Nat.add_comm, Nat.mod_add, Nat.mod_small by lia; reflexivity).
    assert (B : block_ok d D size p t).
    { clear - Fb Hp Ht. revert k Hp Ht. induction Fb as [|p' t' ps ts B F IH]; intros [|k] Hp Ht; try discriminate; [|exact (IH k Hp Ht)].
      injection Hp as ->. injection Ht as ->. exact B. }
    destruct B as (W & Dv & (lead & Sh & Bl) & Si & So).
    assert (Lo : lead_of p t = lead).
    { unfold lead_of, dim. rewrite Sh, !app_length. replace (length lead + _ - _) with (length lead) by lia.
      rewrite firstn_app, Nat.sub_diag, firstn_all. cbn [firstn]. apply app_nil_r. }
    assert (Ies : index_of (D ++ p_in_sub p) (e ++ s)) by (apply index_app; assumption).
    assert (Pi : index_of lead (pull lead (e ++ s))) by (apply (pull_index lead (D ++ p_in_sub p)); assumption).
    assert (El : elem t (pull (t_shape t) (e ++ s ++ x ++ y)) = elem t (pull lead (e ++ s) ++ x ++ y)).
    { f_equal. rewrite Sh. rewrite (app_assoc e s). apply pull_app.
      - destruct Bl as [Bl _]. rewrite (BroadcastProofs.index_length _ _ Ies). exact Bl.
      - rewrite !app_length, (BroadcastProofs.index_length _ _ Ix), (BroadcastProofs.index_length _ _ Iy). reflexivity.
      - apply index_app; assumption. }
    rewrite El. destruct (elem_some t (pull lead (e ++ s) ++ x ++ y) W) as [z Ez]; [rewrite Sh; apply index_app; [exact Pi|apply index_app; assumption]|].
    rewrite Ez. f_equal. symmetry.
    (* the term of the pair *)
    assert (T : dot (snd (block_row p t e r)) (map (fun j => sens [] (p_in p) (p_in p) j c) (fst (block_row p t e r))) = z).
    { unfold block_row. rewrite Lo. fold ob ib. cbn [fst snd]. rewrite Qo, Mo, !index_at_ravel by assumption.
      set (l := picks t _). assert (Some_ : forall j, j < ib -> elem t (pull lead (e ++ s) ++ x ++ index_at (p_in_base p) j) <> None).
      { intros j Hj. destruct (index_at_ok (p_in_base p) j Hj) as [Jj _].
        destruct (elem_some t (pull lead (e ++ s) ++ x ++ index_at (p_in_base p) j) W) as [z' ->]; [rewrite Sh; apply index_app; [exact Pi|apply index_app; assumption]|discriminate]. }
      assert (Ll : length l = ib) by (apply picks_length; exact Some_).
      assert (Nl : nth_error l (ravel (p_in_base p) y) = Some z).
      { unfold l. rewrite (picks_nth t (fun j => pull lead (e ++ s) ++ x ++ index_at (p_in_base p) j) ib _ Some_ Ry). rewrite index_at_ravel by exact Iy. exact Ez. }
      rewrite map_map. rewrite <- (dot_1 l _ z Nl), Ll. f_equal. apply map_ext_in. intros j _. cbn [sensitivity]. rewrite String.eqb_refl. cbn [andb].
      destruct (Nat.eqb_spec (ravel (p_in_sub p) s * ib + j) c) as [E|E]; destruct (Nat.eqb_spec j (ravel (p_in_base p) y)) as [E'|E']; try reflexivity; exfalso; lia. }
    set (g := fun (a : V) (q : string * string * (nat -> list nat * list V)) => let '(o, n, rows) := q in
         if String.eqb o (p_out p) then a_add A a (dot (snd (rows r)) (map (fun k => sens [] n (p_in p) k c) (fst (rows r)))) else a).
    (* the other pairs add zero *)
    assert (Z : forall ps bs a, ~ In (p_out p, p_in p) (map (fun p => (p_out p, p_in p)) ps) ->
      fold_left g (map (fun pt => (p_out (fst pt), p_in (fst pt), block_row (fst pt) (snd pt) e)) (combine ps bs)) a = a).
    { induction ps as [|q ps IH]; intros [|u bs] a N; try reflexivity. cbn [combine map fold_left]. rewrite IH by (intros X; apply N; right; exact X).
      cbn [g fst snd]. destruct (String.eqb_spec (p_out q) (p_out p)) as [Eo|]; [|reflexivity].
      assert (Ni : p_in q <> p_in p) by (intros E; apply N; left; congruence).
      rewrite (map_ext _ (fun _ => a_zero A)). 2: { intros j. cbn [sensitivity]. rewrite (proj2 (String.eqb_neq _ _) Ni). reflexivity. }
      rewrite map_const, dot_0. apply add_0_r. }
    assert (G : forall ps bs a k, NoDup (map (fun p => (p_out p, p_in p)) ps) -> nth_error ps k = Some p -> nth_error bs k = Some t ->
      fold_left g (map (fun pt => (p_out (fst pt), p_in (fst pt), block_row (fst pt) (snd pt) e)) (combine ps bs)) a = a_add A a z).
    { induction ps as [|q ps IH]; intros [|u bs] a k' N Hq Hu; try (destruct k'; discriminate). cbn [map] in N. apply NoDup_cons_iff in N as [Nq N']. cbn [combine map fold_left].
      destruct k' as [|k'].
      - injection Hq as Hq. injection Hu as Hu. rewrite Hq in *. rewrite Hu in *. rewrite Z by exact Nq. cbn [g fst snd]. rewrite String.eqb_refl, T. reflexivity.
      - rewrite (IH bs _ k' N' Hq Hu). f_equal. cbn [g fst snd]. destruct (String.eqb_spec (p_out q) (p_out p)) as [Eo|]; [|reflexivity].
        assert (Ni : p_in q <> p_in p).
        { intros E. apply Nq. change (nth_error ps k' = Some p) in Hq. apply nth_error_In in Hq. rewrite Eo, E. apply (in_map (fun p => (p_out p, p_in p))) in Hq. exact Hq. }
        rewrite (map_ext _ (fun _ => a_zero A)). 2: { intros j. cbn [sensitivity]. rewrite (proj2 (String.eqb_neq _ _) Ni). reflexivity. }
        rewrite map_const, dot_0. apply add_0_r. }
    exact (eq_trans (G _ _ (a_zero A) k Np Hp Ht) (add_0_l z)).
  Qed.
End Direct.
