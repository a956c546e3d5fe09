(** Model::jacobian (JacModel.v): seeds, blocks read back, the whole call. *)
From Verif Require Import Base BaseProofs SmapProofs Tensor Spec TensorProofs Broadcast SpecBroadcast BroadcastProofs Pack PackProofs
     Implicit ImplicitProofs BatchChunk Substep Mat Jac SubstepJac JacModel SpecLayout LayoutProofs SpecJac MatProofs JacProofs JacRunProofs.

Lemma find_input infos : NoDup (map in_name infos) -> forall i, In i infos ->
  find (fun x => String.eqb (in_name x) (in_name i)) (rev infos) = Some i.
Proof.
  intros N i I. assert (N' : NoDup (map in_name (rev infos))) by (rewrite map_rev; apply NoDup_rev; exact N).
  apply in_rev in I. revert N' I. generalize (rev infos). intros l N' I. induction l as [|x l IH]; [destruct I|]. cbn. inversion N' as [|? ? Nx N'']; subst.
  destruct I as [->|I]; [rewrite String.eqb_refl; reflexivity|]. destruct (String.eqb_spec (in_name x) (in_name i)) as [E|E]; [|apply IH; assumption].
  exfalso. apply Nx. rewrite E. apply in_map. exact I.
Qed.
Lemma find_out (outs : list (string * list nat)) : NoDup (map fst outs) -> forall o base, In (o, base) outs ->
  find (fun x => String.eqb (fst x) o) (rev outs) = Some (o, base).
Proof.
  intros N o base I. assert (N' : NoDup (map fst (rev outs))) by (rewrite map_rev; apply NoDup_rev; exact N).
  apply in_rev in I. revert N' I. generalize (rev outs). intros l N' I. induction l as [|x l IH]; [destruct I|]. cbn. inversion N' as [|? ? Nx N'']; subst.
  destruct I as [->|I]; [cbn; rewrite String.eqb_refl; reflexivity|]. destruct (String.eqb_spec (fst x) o) as [E|E]; [|apply IH; assumption].
  exfalso. apply Nx. rewrite E. change o with (fst (o, base)). apply in_map. exact I.
Qed.

Section Main.
  Context {V : Type}.
  Notation vmap := (smap (tensor V)).
  Variable A : arith V.
  Variable neg : V -> V.
  Variable dot : list V -> list V -> V.
  Variable par : string -> result (tensor V).
  Variable base_ndim : smap nat.
  Variable capture : bool.

  Section Layout.
    Variable infos : list in_info.
    Variable pairs : list (string * string).
    Variables (b : bands) (M : nat).
    Variable d : device.
    Variable D : list nat.
    Variable size : string -> nat.
    Hypothesis names : NoDup (map in_name infos).
    Hypothesis lay : layout (input_size infos) pairs = Ok (b, M).
    Hypothesis sizes : forall i, In i infos -> size (in_name i) = numel (in_sub i) * numel (in_base i).
    Hypothesis plain : forall i o, In i infos -> In (o, in_name i) pairs -> numel (in_sub i) = 1.

    Notation holds := (holds d D size M (column b)).
    Notation chain := (chain_field (a_zero A) (a_add A) dot (a_one A)).

    Lemma col_bound m i c : column b m i c -> m < M.
    Proof. destruct (layout_partition _ _ _ _ lay) as (_ & H & _). apply H. Qed.

    Lemma band_of i off rs : In i infos -> lookup (in_name i) b = Some (off, rs) -> rs = numel (in_base i) /\ rs = size (in_name i) /\ off + rs <= M.
    Proof.
      intros I L. destruct (layout_partition _ _ _ _ lay) as (_ & B & K & S). pose proof (S _ _ _ L) as E. unfold input_size in E.
      rewrite (find_input infos names i I) in E. injection E as <-. split; [reflexivity|].
      destruct (proj1 (K (in_name i))) as [o Io]; [eauto|]. rewrite (sizes i I), (plain i o I Io). split; [lia|].
      destruct (add_bands_good _ _ _ _ _ _ (good_nil (input_size infos)) lay) as ((_ & Bd & _) & _). destruct (Bd _ _ _ L). exact H0.
    Qed.

    Lemma seed_block_ok i : In i infos -> exists t, seed_block (a_zero A) (a_one A) b M D d i = Ok t /\ carries d D size M (column b) (chain []) (in_name i) t.
    Proof.
      intros I. unfold seed_block. rewrite <- (sizes i I). destruct (lookup (in_name i) b) as [[off rs]|] eqn:L.
      - destruct (band_of i off rs I L) as [_ [Rs Bd]].
        destruct (copy_band_ok (zeros (a_zero A) (D ++ [size (in_name i); M]) d) (eye (a_zero A) (a_one A) rs d) D (size (in_name i)) M off rs)
          as [t [-> [W [Dv [Sh E]]]]]; [apply zeros_wf|apply eye_wf|reflexivity|rewrite Rs; reflexivity|exact Bd|].
        exists t. split; [reflexivity|]. split; [exact W|]. split; [exact Dv|]. split; [exact Sh|].
        intros x r m j c Ix Hr Hc. pose proof (col_bound _ _ _ Hc) as Hm. rewrite E by assumption. unfold chain_field. cbn [map sensitivity].
        destruct Hc as (oj & sj & Lj & Hcj & Em).
        destruct (String.eqb_spec (in_name i) j) as [<-|Nj]; cbn [andb].
        + rewrite L in Lj. injection Lj as <- <-. replace (Nat.leb off m && Nat.ltb m (off + rs)) with true
            by (symmetry; apply andb_true_iff; split; [apply Nat.leb_le|apply Nat.ltb_lt]; lia).
          replace (m - off) with c by lia. apply eye_elem; lia.
        + destruct (add_bands_good _ _ _ _ _ _ (good_nil (input_size infos)) lay) as ((_ & _ & Dj & _) & _).
          replace (Nat.leb off m && Nat.ltb m (off + rs)) with false.
          * apply zeros_elem. apply index_app; [exact Ix|apply index2; assumption].
          * symmetry. apply andb_false_iff. destruct (Dj _ _ _ _ _ _ L Lj Nj); [right; apply Nat.ltb_ge|left; apply Nat.leb_gt]; lia.
      - eexists. split; [reflexivity|]. refine (carries_ext _ _ _ _ _ (fun _ _ _ _ _ => a_zero A) _ _ _ _ (zeros_carries _ _ _ _ _ _ col_bound _)).
        intros x r m j c Ix Hr (oj & sj & Lj & _). unfold chain_field. cbn [map sensitivity].
        replace (String.eqb (in_name i) j) with false; [reflexivity|]. symmetry. apply String.eqb_neq. intros <-. congruence.
    Qed.
    Lemma seed_all_ok l : incl l infos -> forall done (ds : vmap), holds done ds (chain []) ->
      exists ds', seed_all (a_zero A) (a_one A) l b M D d ds = Ok ds' /\ holds (map in_name l ++ done) ds' (chain []).
    Proof.
      induction l as [|i l IH]; intros I done ds H; [exists ds; split; [reflexivity|exact H]|]. cbn [seed_all].
      destruct (seed_block_ok i (I i (or_introl eq_refl))) as [t [-> C]]. cbn [bind].
      destruct (IH (fun x J => I x (or_intror J)) (in_name i :: done) (set_ (in_name i) t ds)) as [ds' [E H']]; [apply holds_set; assumption|].
      exists ds'. split; [exact E|]. revert H'. apply holds_incl. cbn [map app].
      intros x [<-|J]; [apply in_or_app; right; left; reflexivity|apply in_app_or in J as [J|J]; apply in_or_app; [left|right; right]; exact J].
    Qed.

    (** Reading a pair's band back. *)
    Lemma pair_block_ok m known (ds : vmap) F o ob i : jm_inputs m = infos -> NoDup (map fst (jm_outs m)) ->
      holds known ds F -> In (o, in_name i) pairs -> In i infos -> In o known -> In (o, ob) (jm_outs m) -> size o = numel ob ->
      exists t, pair_block m b ds (o, in_name i) = Ok t /\ wf t /\ t_dev t = d /\ t_shape t = D ++ ob ++ in_base i /\
        forall e x y, index_of D e -> index_of ob x -> index_of (in_base i) y ->
          elem t (e ++ x ++ y) = Some (F e o (ravel ob x) (in_name i) (ravel (in_base i) y)).
    Proof.
      intros Em No H Ip Ii Ik Io So. unfold pair_block. cbn [fst snd]. destruct (H o Ik) as [blk [L (W & Dv & Sh & E)]].
      unfold at_ at 1. rewrite L. cbn [bind]. unfold input_named. rewrite Em, (find_input infos names i Ii). cbn [bind].
      destruct (layout_partition _ _ _ _ lay) as (_ & _ & K & _). destruct (proj2 (K (in_name i))) as [[off rs] Lb]; [eauto|].
      unfold at_. rewrite Lb. cbn [bind fst snd]. destruct (band_of i off rs Ii Lb) as [R1 [R2 R3]].
      assert (Sh' : t_shape blk = (D ++ [size o]) ++ [M]) by (rewrite Sh, <- app_assoc; reflexivity).
      destruct (narrow_last_ok blk (D ++ [size o]) M off rs W Sh' R3) as [c [-> [Wc [Dc [Sc Ec]]]]]. cbn [bind].
      unfold out_base. rewrite (find_out _ No o ob Io). cbn [bind snd].
      assert (Fd : firstn (dim blk - 2) (t_shape blk) = D).
      { unfold dim. rewrite Sh, app_length. cbn [length]. replace (length D + 2 - 2) with (length D) by lia.
        rewrite firstn_app, Nat.sub_diag, firstn_all. cbn [firstn]. apply app_nil_r. }
      rewrite Fd. assert (Nm : numel (D ++ ob ++ in_base i) = numel (t_shape c)) by (rewrite Sc, !numel_app, !numel_one, So, R1; lia).
      rewrite reshape_ok by exact Nm. eexists. split; [reflexivity|]. split; [apply (reshape_wf c); assumption|]. split; [cbn [t_dev]; congruence|]. split; [reflexivity|].
      intros e x y Ie Ix Iy. pose proof (ravel_lt _ _ Ix) as Rx. pose proof (ravel_lt _ _ Iy) as Ry.
      assert (J1 : index_of (D ++ [size o]) (e ++ [ravel ob x])) by (apply index_app; [exact Ie|constructor; [lia|constructor]]).
      rewrite (elem_reshape c _ (e ++ x ++ y) ((e ++ [ravel ob x]) ++ [ravel (in_base i) y])).
      - rewrite (Ec _ _ J1) by lia. rewrite <- app_assoc. cbn [app]. apply E; [exact Ie|lia|]. exists off, rs. repeat split; [exact Lb|lia].
      - rewrite Sc. rewrite !(ravel_app D) by (apply BroadcastProofs.index_length; exact Ie). rewrite (ravel_app ob) by (apply BroadcastProofs.index_length; exact Ix).
        rewrite (ravel_app (D ++ [size o]) [rs] (e ++ [ravel ob x])) by (apply BroadcastProofs.index_length; exact J1).
        rewrite (ravel_app D [size o]) by (apply BroadcastProofs.index_length; exact Ie).
        rewrite !numel_app, !numel_one, !ravel_one, So, R1. nia.
    Qed.
  End Layout.

  Lemma block_set2 o i t (jac : smap vmap) o' i' : block (set2 o i t jac) o' i' = if String.eqb o' o && String.eqb i' i then Some t else block jac o' i'.
  Proof.
    unfold block, set2. destruct (String.eqb_spec o' o) as [->|No]; cbn [andb].
    - rewrite lookup_set_same. destruct (String.eqb_spec i' i) as [->|Ni]; [apply lookup_set_same|]. rewrite lookup_set_other by exact Ni.
      destruct (lookup o jac); reflexivity.
    - rewrite lookup_set_other by exact No. reflexivity.
  Qed.
  Lemma pair_blocks_ok m b (ds : vmap) : forall pairs (jac : smap vmap), (forall o i, In (o, i) pairs -> exists t, pair_block m b ds (o, i) = Ok t) ->
    exists jac', pair_blocks m b ds pairs jac = Ok jac' /\
      (forall o i t, In (o, i) pairs -> pair_block m b ds (o, i) = Ok t -> block jac' o i = Some t) /\
      (forall o i, ~ In (o, i) pairs -> block jac' o i = block jac o i).
  Proof.
    induction pairs as [|[o i] pairs IH]; intros jac H; cbn [pair_blocks].
    - exists jac. split; [reflexivity|]. split; [intros o i t []|reflexivity].
    - destruct (H o i (or_introl eq_refl)) as [t Et]. rewrite Et. cbn [bind fst snd].
      destruct (IH (set2 o i t jac)) as [jac' [E [P Q]]]; [intros o' i' I; apply H; right; exact I|]. exists jac'. split; [exact E|]. split.
      + intros o' i' t' I Et'. assert (DD : {In (o', i') pairs} + {~ In (o', i') pairs}) by (apply in_dec; decide equality; apply String.string_dec).
        destruct DD as [J|J]; [apply P; assumption|]. destruct I as [I|I]; [|contradiction]. injection I as <- <-.
        rewrite Q by exact J. rewrite block_set2, !String.eqb_refl. cbn. congruence.
      + intros o' i' N. rewrite Q by (intros J; apply N; right; exact J). rewrite block_set2.
        destruct (String.eqb_spec o' o) as [->|]; destruct (String.eqb_spec i' i) as [->|]; cbn; try reflexivity. exfalso. apply N. left. reflexivity.
  Qed.
  Lemma take_outputs_ok names : forall (st acc : vmap), (forall n, In n names -> exists t, lookup n st = Some t) ->
    exists outs, take_outputs names st acc = Ok outs /\ forall n, lookup n outs = if existsb (String.eqb n) names then lookup n st else lookup n acc.
  Proof.
    induction names as [|n names IH]; intros st acc H; [exists acc; split; reflexivity|]. cbn [take_outputs].
    destruct (H n (or_introl eq_refl)) as [t Et]. unfold at_. rewrite Et. cbn [bind].
    destruct (IH st (set_ n t acc)) as [outs [E P]]; [intros x I; apply H; right; exact I|]. exists outs. split; [exact E|].
    intros x. rewrite P. cbn [existsb]. destruct (String.eqb_spec x n) as [->|N]; cbn [orb].
    - rewrite lookup_set_same. destruct (existsb _ _); congruence.
    - rewrite lookup_set_other by exact N. reflexivity.
  Qed.

  (** ** The call *)
  Variable m : jmodel V.
  Variable D : list nat.
  Variable size : string -> nat.
  Variable d : device.
  Variables (I st' : vmap) (lins : list (list nat -> lin V)).
  Hypothesis ev : evaluated (a_zero A) neg par base_ndim m I D size d lins st'.
  Lemma ev_names : NoDup (map in_name (jm_inputs m)). Proof. exact (proj1 ev). Qed.
  Lemma ev_onames : NoDup (map fst (jm_outs m)). Proof. exact (proj1 (proj2 ev)). Qed.
  Lemma ev_isizes i : In i (jm_inputs m) -> size (in_name i) = numel (in_sub i) * numel (in_base i).
  Proof. exact (proj1 (proj2 (proj2 (proj2 ev))) i). Qed.
  Lemma ev_requested o i : In (o, i) (jm_derivs m) ->
     (exists ob, In (o, ob) (jm_outs m)) /\ exists info, In info (jm_inputs m) /\ in_name info = i /\ numel (in_sub info) = 1.
  Proof. exact (proj1 (proj2 (proj2 (proj2 (proj2 ev)))) o i). Qed.

  Lemma info_of o i : In (o, i) (jm_derivs m) -> exists info, In info (jm_inputs m) /\ in_name info = i /\ numel (in_sub info) = 1.
  Proof. intros H. apply (ev_requested o i H). Qed.
  Lemma plain_inputs : forall i o, In i (jm_inputs m) -> In (o, in_name i) (jm_derivs m) -> numel (in_sub i) = 1.
  Proof.
    intros i o Ii Ip. destruct (ev_requested o (in_name i) Ip) as [_ (info & Ii' & En & Sn)].
    assert (info = i); [|subst; exact Sn]. pose proof (find_input _ ev_names info Ii') as F1. rewrite En in F1. rewrite (find_input _ ev_names i Ii) in F1. congruence.
  Qed.
  Lemma layout_exists : exists b M, layout (input_size (jm_inputs m)) (jm_derivs m) = Ok (b, M).
  Proof.
    destruct (layout (input_size (jm_inputs m)) (jm_derivs m)) as [[b M]|e] eqn:E; [eauto|]. exfalso.
    destruct (proj1 (layout_fails (input_size (jm_inputs m)) (jm_derivs m))) as (o & i & e' & Ip & Ei); [eauto|]. destruct (ev_requested o i Ip) as [_ (info & Ii & <- & _)].
    unfold input_size in Ei. rewrite (find_input _ ev_names info Ii) in Ei. discriminate.
  Qed.

  Lemma dstate_ok b M : layout (input_size (jm_inputs m)) (jm_derivs m) = Ok (b, M) ->
    exists known outs ds, jacobian_dstate A neg dot par base_ndim capture m b M I = Ok (outs, ds) /\
      (forall n, lookup n outs = if existsb (String.eqb n) (map fst (jm_outs m)) then lookup n st' else None) /\
      (forall o ob, In (o, ob) (jm_outs m) -> In o known /\ size o = numel ob) /\
      holds d D size M (column b) known ds (chain_field (a_zero A) (a_add A) dot (a_one A) (rev lins)).
  Proof.
    intros L. destruct (proj2 (proj2 (proj2 (proj2 (proj2 ev))))) as (i0 & rest & st & ref & known & sub & inputs & prep & first & Dv & Sr & Ls & run & outputs).
    unfold jacobian_dstate. rewrite prep. cbn [bind]. rewrite inputs. unfold at_. rewrite first. cbn [bind]. rewrite <- inputs.
    assert (Eb : batch_shape_of i0 ref = D ++ sub).
    { unfold batch_shape_of, dim. rewrite Sr, !app_length. replace (length D + (length sub + length (in_base i0)) - length (in_base i0)) with (length (D ++ sub)) by (rewrite app_length; lia).
      rewrite app_assoc, firstn_app, Nat.sub_diag, firstn_all. cbn [firstn]. apply app_nil_r. }
    unfold init_dstate. replace (match jm_inputs m with [] => 0 | i :: _ => length (in_sub i) end) with (length (in_sub i0)) by (rewrite inputs; reflexivity).
    rewrite Eb, app_length, <- Ls. replace (Nat.ltb (length D + length sub) (length sub)) with false by (symmetry; apply Nat.ltb_ge; lia).
    replace (length D + length sub - length sub) with (length D) by lia. rewrite firstn_app, Nat.sub_diag, firstn_all. cbn [firstn]. rewrite app_nil_r, Dv.
    destruct (seed_all_ok (jm_inputs m) (jm_derivs m) b M d D size ev_names L ev_isizes plain_inputs (jm_inputs m) (incl_refl _) [] []) as [ds0 [-> H0]]; [intros v []|].
    cbn [bind]. rewrite app_nil_r in H0. rewrite <- Eb.
    destruct (run_ok A neg dot par base_ndim capture d D (batch_shape_of i0 ref) size M (column b) (col_bound _ _ _ _ L) _ _ _ _ _ _ run [] ds0 H0)
      as [ds [-> H]]. cbn [bind]. rewrite app_nil_r in H.
    destruct (take_outputs_ok (map fst (jm_outs m)) st' []) as [outs [-> Po]].
    { intros n In_. apply in_map_iff in In_ as [[o ob] [<- J]]. apply (outputs o ob J). }
    exists known, outs, ds. split; [reflexivity|]. split; [intros n; rewrite Po; reflexivity|]. split; [|exact H].
    intros o ob Io. destruct (outputs o ob Io) as [X [Y _]]. split; assumption.
  Qed.

  Definition chain_rule (jac : smap vmap) : Prop :=
    forall o i, In (o, i) (jm_derivs m) -> exists ob info t,
      In (o, ob) (jm_outs m) /\ In info (jm_inputs m) /\ in_name info = i /\
      block jac o i = Some t /\ wf t /\ t_dev t = d /\ t_shape t = D ++ ob ++ in_base info /\
      forall e x y, index_of D e -> index_of ob x -> index_of (in_base info) y ->
        elem t (e ++ x ++ y) = Some (sensitivity (a_zero A) (a_one A) (a_add A) dot (rev (map (fun l => l e) lins)) o i (ravel ob x) (ravel (in_base info) y)).

  Lemma composed_ok : ~ single_forward m ->
    exists outs jac, jacobian A neg dot par base_ndim capture m I = Ok (outs, jac) /\
      (forall n, lookup n outs = if existsb (String.eqb n) (map fst (jm_outs m)) then lookup n st' else None) /\
      chain_rule jac /\ (forall o i, ~ In (o, i) (jm_derivs m) -> block jac o i = None).
  Proof.
    intros Ns. destruct layout_exists as (b & M & L). destruct (dstate_ok b M L) as (known & outs & ds & Ed & Po & outputs & H).
    assert (Pb : forall o i, In (o, i) (jm_derivs m) -> exists ob info t, In (o, ob) (jm_outs m) /\ In info (jm_inputs m) /\ in_name info = i /\
        pair_block m b ds (o, i) = Ok t /\ wf t /\ t_dev t = d /\ t_shape t = D ++ ob ++ in_base info /\
        forall e x y, index_of D e -> index_of ob x -> index_of (in_base info) y ->
          elem t (e ++ x ++ y) = Some (chain_field (a_zero A) (a_add A) dot (a_one A) (rev lins) e o (ravel ob x) i (ravel (in_base info) y))).
    { intros o i Ip. destruct (ev_requested o i Ip) as [[ob Io] (info & Ii & En & Sn)]. destruct (outputs o ob Io) as [Ik So]. subst i.
      destruct (pair_block_ok (jm_inputs m) (jm_derivs m) b M d D size ev_names L ev_isizes plain_inputs m known ds _ o ob info eq_refl ev_onames H Ip Ii Ik Io So)
        as (t & Et & Wt & Dt & St & Ee). exists ob, info, t. split; [exact Io|]. split; [exact Ii|]. split; [reflexivity|]. split; [exact Et|]. split; [exact Wt|]. split; [exact Dt|]. split; [exact St|exact Ee]. }
    destruct (pair_blocks_ok m b ds (jm_derivs m) []) as [jac [Ej [P Q]]].
    { intros o i Ip. destruct (Pb o i Ip) as (ob & info & t & _ & _ & _ & Et & _). eauto. }
    exists outs, jac. split.
    - unfold jacobian. rewrite L. cbn [bind]. pose proof (proj1 (proj2 (proj2 ev))) as Ne.
      assert (X : length (jm_derivs m) <> 0) by (intros Z; apply length_zero_iff_nil in Z; contradiction). rewrite (proj2 (Nat.eqb_neq _ _) X). cbn [negb assert_ bind].
      assert (C : (let* (outs, ds) := jacobian_dstate A neg dot par base_ndim capture m b M I in
                   let* jac := pair_blocks m b ds (jm_derivs m) [] in Ok (outs, jac)) = Ok (outs, jac)).
      { rewrite Ed. cbn [bind]. rewrite Ej. reflexivity. }
      destruct (jm_segs m) as [|[f|i] [|s sgs]] eqn:Es; try exact C. destruct (jf_jvp f) as [jvp|] eqn:Ef; [|exact C]. exfalso. apply Ns. exists f, jvp. split; [exact Es|exact Ef].
    - split; [exact Po|]. split.
      + intros o i Ip. destruct (Pb o i Ip) as (ob & info & t & Io & Ii & En & Et & W & Dv & Sh & Ee). exists ob, info, t.
        split; [exact Io|]. split; [exact Ii|]. split; [exact En|]. split; [apply P; assumption|]. split; [exact W|]. split; [exact Dv|]. split; [exact Sh|].
        intros e x y Ie Ix Iy. rewrite (Ee e x y Ie Ix Iy). unfold chain_field. rewrite map_rev. reflexivity.
      + intros o i N. rewrite Q by exact N. reflexivity.
  Qed.
End Main.
