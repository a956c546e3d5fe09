(** Model::param_jacobian (ParamJac.v), the whole call. *)
From Verif Require Import Base BaseProofs SmapProofs Tensor Spec TensorProofs Broadcast SpecBroadcast BroadcastProofs Pack PackProofs
     Implicit ImplicitProofs BatchChunk Substep Mat Jac SubstepJac JacModel ParamJac SpecLayout LayoutProofs SpecJac SpecParam MatProofs JacProofs JacRunProofs JacMainProofs ParamProofs.

Section Main.
  Context {V : Type}.
  Notation vmap := (smap (tensor V)).
  Variable A : arith V.
  Variable neg : V -> V.
  Variable dot : list V -> list V -> V.
  Variable sum : list V -> V.
  Variable par : string -> result (tensor V).
  Variable pbase : smap (list nat).
  Variable capture : bool.

  Lemma ppair_blocks_ok (m : pmodel V) b (ds : vmap) : forall pairs (jac : smap vmap), (forall o i, In (o, i) pairs -> exists t, ppair_block pbase m b ds (o, i) = Ok t) ->
    exists jac', ppair_blocks pbase m b ds pairs jac = Ok jac' /\
      (forall o i t, In (o, i) pairs -> ppair_block pbase m b ds (o, i) = Ok t -> block jac' o i = Some t) /\
      (forall o i, ~ In (o, i) pairs -> block jac' o i = block jac o i).
  Proof.
    induction pairs as [|[o i] pairs IH]; intros jac H; cbn [ppair_blocks].
    - exists jac. split; [reflexivity|]. split; [intros o i t []|reflexivity].
    - destruct (H o i (or_introl eq_refl)) as [t Et]. rewrite Et. cbn [bind fst snd].
      destruct (IH (set2 o i t jac)) as [jac' [E [P Q]]]; [intros o' i' I; apply H; right; exact I|]. exists jac'. split; [exact E|]. split.
      + intros o' i' t' I Et'. assert (DD : {In (o', i') pairs} + {~ In (o', i') pairs}) by (apply in_dec; decide equality; apply String.string_dec).
        destruct DD as [J|J]; [apply P; assumption|]. destruct I as [I|I]; [|contradiction]. injection I as <- <-.
        rewrite Q by exact J. rewrite block_set2, !String.eqb_refl. cbn. congruence.
      + intros o' i' N. rewrite Q by (intros J; apply N; right; exact J). rewrite block_set2.
        destruct (String.eqb_spec o' o) as [->|]; destruct (String.eqb_spec i' i) as [->|]; cbn; try reflexivity. exfalso. apply N. left. reflexivity.
  Qed.

  Variable m : pmodel V.
  Variable D : list nat.
  Variable size : string -> nat.
  Variable d : device.
  Variables (I st' : vmap) (lins : list (list nat -> plin V)).
  Hypothesis ev : pevaluated (a_zero A) neg par pbase m I D size d lins st'.
  Notation sens := (param_sensitivity (a_zero A) (a_add A) dot).

  Lemma pev_requested o p : In (o, p) (pm_derivs m) -> (exists ob, In (o, ob) (pm_outs m)) /\ exists pb, lookup p pbase = Some pb.
  Proof. exact (proj1 (proj2 (proj2 (proj2 (proj2 ev)))) o p). Qed.
  Lemma pev_onames : NoDup (map fst (pm_outs m)). Proof. exact (proj1 (proj2 ev)). Qed.
  Lemma pout_base_ok o ob : In (o, ob) (pm_outs m) -> pout_base m o = Ok ob.
  Proof. intros Io. unfold pout_base. rewrite (find_out _ pev_onames o ob Io). reflexivity. Qed.
  Lemma players : exists b P, layout (param_size pbase) (pm_derivs m) = Ok (b, P).
  Proof.
    destruct (layout (param_size pbase) (pm_derivs m)) as [[b P]|e] eqn:E; [eauto|]. exfalso.
    destruct (proj1 (layout_fails (param_size pbase) (pm_derivs m))) as (o & p & e' & Ip & Ei); [eauto|]. destruct (pev_requested o p Ip) as [_ (pb & Lp)].
    unfold param_size in Ei. rewrite Lp in Ei. discriminate.
  Qed.

  Section Layout.
    Variables (b : bands) (P : nat).
    Hypothesis lay : layout (param_size pbase) (pm_derivs m) = Ok (b, P).
    Notation holds := (holds d D size P (column b)).
    Notation field_of := (fun e v r p c => sens (map (fun l => l e) (rev lins)) v p r c).

    Lemma ppair_block_ok known (dp : vmap) F o ob p pb :
      holds known dp F -> In (o, p) (pm_derivs m) -> lookup p pbase = Some pb -> In o known -> In (o, ob) (pm_outs m) -> size o = numel ob ->
      exists t, ppair_block pbase m b dp (o, p) = Ok t /\ wf t /\ t_dev t = d /\ t_shape t = D ++ ob ++ pb /\
        forall e x y, index_of D e -> index_of ob x -> index_of pb y -> elem t (e ++ x ++ y) = Some (F e o (ravel ob x) p (ravel pb y)).
    Proof.
      intros H Ip Lp Ik Io So. unfold ppair_block. cbn [fst snd]. destruct (H o Ik) as [blk [L (W & Dv & Sh & E)]].
      unfold at_ at 1. rewrite L. cbn [bind].
      destruct (pband pbase (pm_derivs m) b P lay p pb) as [off [Lb R3]]; [apply in_map_iff; exists (o, p); split; [reflexivity|exact Ip]|exact Lp|].
      unfold at_. rewrite Lb. cbn [bind fst snd].
      assert (Sh' : t_shape blk = (D ++ [size o]) ++ [P]) by (rewrite Sh, <- app_assoc; reflexivity).
      destruct (narrow_last_ok blk (D ++ [size o]) P off (numel pb) W Sh' R3) as [c [-> [Wc [Dc [Sc Ec]]]]]. cbn [bind].
      rewrite (pout_base_ok o ob Io). cbn [bind]. rewrite Lp. cbn [bind].
      assert (Fd : firstn (dim blk - 2) (t_shape blk) = D).
      { unfold dim. rewrite Sh, app_length. cbn [length]. replace (length D + 2 - 2) with (length D) by lia.
        rewrite firstn_app, Nat.sub_diag, firstn_all. cbn [firstn]. apply app_nil_r. }
      rewrite Fd. assert (Nm : numel (D ++ ob ++ pb) = numel (t_shape c)) by (rewrite Sc, !numel_app, !numel_one, So; lia).
      rewrite reshape_ok by exact Nm. eexists. split; [reflexivity|]. split; [apply (reshape_wf c); assumption|]. split; [cbn [t_dev]; congruence|]. split; [reflexivity|].
      intros e x y Ie Ix Iy. pose proof (ravel_lt _ _ Ix) as Rx. pose proof (ravel_lt _ _ Iy) as Ry.
      assert (J1 : index_of (D ++ [size o]) (e ++ [ravel ob x])) by (apply index_app; [exact Ie|constructor; [lia|constructor]]).
      rewrite (elem_reshape c _ (e ++ x ++ y) ((e ++ [ravel ob x]) ++ [ravel pb y])).
      - rewrite (Ec _ _ J1) by lia. rewrite <- app_assoc. cbn [app]. apply E; [exact Ie|lia|]. exists off, (numel pb). split; [exact Lb|]. split; [exact Ry|lia].
      - rewrite Sc. rewrite !(ravel_app D) by (apply BroadcastProofs.index_length; exact Ie). rewrite (ravel_app ob) by (apply BroadcastProofs.index_length; exact Ix).
        rewrite (ravel_app (D ++ [size o]) [numel pb] (e ++ [ravel ob x])) by (apply BroadcastProofs.index_length; exact J1).
        rewrite (ravel_app D [size o]) by (apply BroadcastProofs.index_length; exact Ie).
        rewrite !numel_app, !numel_one, !ravel_one, So. nia.
    Qed.

    Lemma pdstate_ok : exists known outs dp, param_dstate A neg dot par pbase capture m b P I = Ok (outs, dp) /\
      (forall n, lookup n outs = if existsb (String.eqb n) (map fst (pm_outs m)) then lookup n st' else None) /\
      (forall o ob, In (o, ob) (pm_outs m) -> In o known /\ size o = numel ob) /\ holds known dp field_of.
    Proof.
      destruct (proj2 (proj2 (proj2 (proj2 (proj2 ev))))) as (i0 & rest & st & ref & known & sub & inputs & prep & first & Dv & Sr & Ls & run & outputs).
      unfold param_dstate. rewrite prep. cbn [bind]. rewrite inputs. unfold at_. rewrite first. cbn [bind]. rewrite <- inputs.
      assert (Eb : batch_shape_of i0 ref = D ++ sub).
      { unfold batch_shape_of, dim. rewrite Sr, !app_length. replace (length D + (length sub + length (in_base i0)) - length (in_base i0)) with (length (D ++ sub)) by (rewrite app_length; lia).
        rewrite app_assoc, firstn_app, Nat.sub_diag, firstn_all. cbn [firstn]. apply app_nil_r. }
      rewrite Eb, app_length, <- Ls. replace (Nat.ltb (length D + length sub) (length sub)) with false by (symmetry; apply Nat.ltb_ge; lia).
      replace (length D + length sub - length sub) with (length D) by lia. rewrite firstn_app, Nat.sub_diag, firstn_all. cbn [firstn]. rewrite app_nil_r, Dv.
      pose proof (seed_zeros_ok A dot pbase d D size (pm_derivs m) b P lay (pm_inputs m) (proj1 (proj2 (proj2 (proj2 ev)))) [] []) as H0.
      destruct (prun_ok A neg dot par pbase capture d D size (pm_derivs m) b P lay _ _ _ _ _ _ run [] (seed_zeros A (pm_inputs m) P D d [])) as [dp [-> H]].
      { rewrite <- (app_nil_r (map in_name (pm_inputs m))). apply H0. intros v []. }
      cbn [bind]. rewrite app_nil_r in H.
      destruct (take_outputs_ok (map fst (pm_outs m)) st' []) as [outs [-> Po]].
      { intros n In_. apply in_map_iff in In_ as [[o ob] [<- J]]. apply (outputs o ob J). }
      exists known, outs, dp. split; [reflexivity|]. split; [intros n; rewrite Po; reflexivity|]. split; [|exact H].
      intros o ob Io. destruct (outputs o ob Io) as [X [Y _]]. split; assumption.
    Qed.
  End Layout.

  Lemma pcomposed_ok : ~ single_param m ->
    exists outs jac, param_jacobian A neg dot par pbase capture m I = Ok (outs, jac) /\
      (forall n, lookup n outs = if existsb (String.eqb n) (map fst (pm_outs m)) then lookup n st' else None) /\
      param_chain_rule (a_zero A) (a_add A) dot pbase m D d lins jac /\ (forall o p, ~ In (o, p) (pm_derivs m) -> block jac o p = None).
  Proof.
    intros Ns. destruct players as (b & P & L). destruct (pdstate_ok b P L) as (known & outs & dp & Ed & Po & outputs & H).
    assert (Pb : forall o p ob pb, In (o, p) (pm_derivs m) -> In (o, ob) (pm_outs m) -> lookup p pbase = Some pb -> exists t,
        ppair_block pbase m b dp (o, p) = Ok t /\ wf t /\ t_dev t = d /\ t_shape t = D ++ ob ++ pb /\
        forall e x y, index_of D e -> index_of ob x -> index_of pb y ->
          elem t (e ++ x ++ y) = Some (sens (map (fun l => l e) (rev lins)) o p (ravel ob x) (ravel pb y))).
    { intros o p ob pb Ip Io Lp. destruct (outputs o ob Io) as [Ik So].
      exact (ppair_block_ok b P L known dp _ o ob p pb H Ip Lp Ik Io So). }
    destruct (ppair_blocks_ok m b dp (pm_derivs m) []) as [jac [Ej [Q R]]].
    { intros o p Ip. destruct (pev_requested o p Ip) as [[ob Io] [pb Lp]]. destruct (Pb o p ob pb Ip Io Lp) as (t & Et & _). eauto. }
    exists outs, jac. split.
    - unfold param_jacobian. rewrite L. cbn [bind]. pose proof (proj1 (proj2 (proj2 ev))) as Ne.
      assert (X : length (pm_derivs m) <> 0) by (intros Z; apply length_zero_iff_nil in Z; contradiction). rewrite (proj2 (Nat.eqb_neq _ _) X). cbn [negb assert_ bind].
      assert (C : (let* (outs, dp) := param_dstate A neg dot par pbase capture m b P I in
                   let* jac := ppair_blocks pbase m b dp (pm_derivs m) [] in Ok (outs, jac)) = Ok (outs, jac)).
      { rewrite Ed. cbn [bind]. rewrite Ej. reflexivity. }
      destruct (pm_segs m) as [|[f [g|] ps vjp|i dr [s|] k ps] [|sg sgs]] eqn:Es; try exact C; exfalso; apply Ns; [left|right]; repeat eexists; exact Es.
    - split; [exact Po|]. split.
      + intros o p ob pb Ip Io Lp. destruct (Pb o p ob pb Ip Io Lp) as (t & Et & W & Dv & Sh & Ee). exists t.
        split; [apply Q; assumption|]. split; [exact W|]. split; [exact Dv|]. split; [exact Sh|].
        intros e x y Ie Ix Iy. rewrite (Ee e x y Ie Ix Iy), <- map_rev. reflexivity.
      + intros o p N. rewrite R by exact N. reflexivity.
  Qed.
End Main.
