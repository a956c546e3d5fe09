(** Model::jvp (JacModel.v). *)
From Verif Require Import Base BaseProofs SpecMap SmapProofs Tensor Spec TensorProofs Broadcast SpecBroadcast BroadcastProofs Pack PackProofs
     Implicit ImplicitProofs BatchChunk Substep Mat Jac SubstepJac JacModel SpecLayout LayoutProofs SpecJac MatProofs JacProofs JacRunProofs JacMainProofs.

Lemma infer_broadcast_r lead sh : broadcastable lead sh -> infer_size sh lead = Ok sh.
Proof.
  intros [L H]. destruct (infer_size sh lead) as [r|e] eqn:E.
  - f_equal. apply rsize_ext. intros p. pose proof (infer_size_ok _ _ _ E p) as M.
    destruct (rsize lead p) as [n|] eqn:E1.
    + assert (E2 : exists m, rsize sh p = Some m) by (apply rsize_lt; assert (p < length lead) by (apply rsize_lt; eauto); lia).
      destruct E2 as [m E2]. rewrite E2 in M |- *. destruct (rsize r p) as [z|]; [|contradiction]. cbn in M.
      specialize (H p n m E1 E2). f_equal. lia.
    + destruct (rsize sh p) as [m|]; destruct (rsize r p) as [z|]; cbn in M; try contradiction; congruence.
  - apply infer_size_err in E as [p C]. unfold clash in C. destruct (rsize lead p) as [n|] eqn:E1; [|destruct (rsize sh p); contradiction].
    destruct (rsize sh p) as [m|] eqn:E2; [|contradiction]. specialize (H p n m E1 E2). lia.
Qed.

(** The pairs grouped by output. *)
Lemma by_out_lookup pairs : forall acc o,
  lookup o (by_out pairs acc) =
  match paired pairs o, lookup o acc with
  | [], r => r
  | l, Some r => Some (r ++ l)
  | l, None => Some l
  end.
Proof.
  unfold paired. induction pairs as [|[o' i] pairs IH]; intros acc o; [cbn; destruct (lookup o acc); reflexivity|]. cbn [by_out]. rewrite IH. cbn [filter fst].
  destruct (String.eqb_spec o' o) as [->|N].
  - cbn [map snd]. rewrite lookup_set_same. destruct (lookup o acc) as [r|].
    + destruct (map snd _) as [|x l]; [reflexivity|]. rewrite <- app_assoc. reflexivity.
    + destruct (map snd _) as [|x l]; reflexivity.
  - rewrite lookup_set_other by congruence. reflexivity.
Qed.
Lemma by_out_sorted pairs : forall acc, sorted acc -> sorted (by_out pairs acc).
Proof. induction pairs as [|[o i] pairs IH]; intros acc H; [exact H|]. cbn [by_out]. apply IH. apply sorted_set. exact H. Qed.

Section Jvp.
  Context {V : Type}.
  Notation vmap := (smap (tensor V)).
  Variable A : arith V.
  Variable neg : V -> V.
  Variable dot : list V -> list V -> V.
  Variable par : string -> result (tensor V).
  Variable base_ndim : smap nat.
  Variable capture : bool.
  Variable m : jmodel V.
  Variable D : list nat.
  Variable size : string -> nat.
  Variable d : device.
  Variables (I st' : vmap) (lins : list (list nat -> lin V)).
  Hypothesis ev : evaluated (a_zero A) neg par base_ndim m I D size d lins st'.
  Variable T : vmap.
  Hypothesis tangents : forall o i t, In i (jm_inputs m) -> In (o, in_name i) (jm_derivs m) -> lookup (in_name i) T = Some t -> tangent_ok d D i t.

  Notation chain := (chain_field (a_zero A) (a_add A) dot (a_one A) (rev lins)).

  Lemma tangent_col_ok o i : In i (jm_inputs m) -> In (o, in_name i) (jm_derivs m) ->
    exists tc lead, tangent_col A m T (in_name i) D d = Ok tc /\ wf tc /\ t_dev tc = d /\ t_shape tc = lead ++ [numel (in_base i); 1] /\
      broadcastable lead D /\
      forall e, index_of D e -> picks tc (map (fun x => pull lead e ++ [x; 0]) (seq 0 (numel (in_base i)))) = tangent_at (a_zero A) T i e.
  Proof.
    intros Ii Ip. unfold tangent_col, input_named. rewrite (find_input _ (ev_names _ _ _ _ _ _ _ _ _ _ _ ev) i Ii). cbn [bind].
    unfold tangent_at. destruct (lookup (in_name i) T) as [t|] eqn:L.
    - destruct (tangents o i t Ii Ip L) as (W & Dv & lead & Sh & B).
      assert (Fb : firstn (dim t - length (in_base i)) (t_shape t) = lead).
      { unfold dim. rewrite Sh, app_length. replace (length lead + length (in_base i) - length (in_base i)) with (length lead) by lia.
        rewrite firstn_app, Nat.sub_diag, firstn_all. cbn [firstn]. apply app_nil_r. }
      unfold validate_input. unfold dim at 1 2. rewrite Sh, app_length.
      replace (Nat.leb (length (in_base i)) (length lead + length (in_base i))) with true by (symmetry; apply Nat.leb_le; lia). cbn [assert_ bind].
      replace (length lead + length (in_base i) - length (in_base i)) with (length lead) by lia.
      rewrite skipn_app, Nat.sub_diag, skipn_all. cbn [skipn app]. rewrite shape_eqb_refl. cbn [assert_ bind].
      unfold batch_shape_of. rewrite Fb.
      assert (Nm : numel (lead ++ [numel (in_base i); 1]) = numel (t_shape t)) by (rewrite Sh, !numel_app, numel2; lia).
      rewrite reshape_ok by exact Nm. eexists. exists lead. split; [reflexivity|]. split; [apply (reshape_wf t); assumption|]. split; [exact Dv|]. split; [reflexivity|]. split; [exact B|].
      intros e Ie. apply picks_ext. intros x Hx. apply elem_reshape. destruct (index_at_ok (in_base i) x Hx) as [Jx Rx]. rewrite Sh in Fb. rewrite Fb, Sh.
      assert (Pl : index_of lead (pull lead e)) by (apply (pull_index lead D); assumption).
      rewrite !ravel_app by (apply BroadcastProofs.index_length; exact Pl). rewrite numel2, ravel2, Rx. lia.
    - eexists. exists D. split; [reflexivity|]. split; [apply zeros_wf|]. split; [reflexivity|]. split; [reflexivity|]. split; [apply broadcastable_refl|].
      intros e Ie. apply picks_seq; [apply repeat_length|]. intros x Hx. rewrite zeros_elem.
      + rewrite (nth_error_nth' _ (a_zero A)) by (rewrite repeat_length; exact Hx). f_equal. apply nth_repeat.
      + apply index_app; [apply (pull_index D D); [apply broadcastable_refl|exact Ie]|apply index2; lia].
  Qed.

  Definition term (e : list nat) (o : string) (r : nat) (i : in_info) : V :=
    dot (map (fun c => chain e o r (in_name i) c) (seq 0 (numel (in_base i)))) (tangent_at (a_zero A) T i e).

  Variables (b : bands) (M : nat).
  Hypothesis lay : layout (input_size (jm_inputs m)) (jm_derivs m) = Ok (b, M).

  Lemma jvp_term_ok o i blk : In i (jm_inputs m) -> In (o, in_name i) (jm_derivs m) -> carries d D size M (column b) chain o blk ->
    exists c, jvp_term A dot m b T blk (in_name i) = Ok c /\ wf c /\ t_dev c = d /\ t_shape c = D ++ [size o] /\
      forall e r, index_of D e -> r < size o -> elem c (e ++ [r]) = Some (term e o r i).
  Proof.
    intros Ii Ip (W & Dv & Sh & E). unfold jvp_term.
    destruct (layout_partition _ _ _ _ lay) as (_ & _ & K & _). destruct (proj2 (K (in_name i))) as [[off rs] Lb]; [eauto|].
    unfold at_. rewrite Lb. cbn [bind fst snd].
    destruct (band_of par (jm_inputs m) (jm_derivs m) b M size (ev_names _ _ _ _ _ _ _ _ _ _ _ ev) lay (ev_isizes _ _ _ _ _ _ _ _ _ _ _ ev) (plain_inputs _ _ _ _ _ _ _ _ _ _ _ ev) i off rs Ii Lb) as [R1 [R2 R3]].
    assert (Sh' : t_shape blk = (D ++ [size o]) ++ [M]) by (rewrite Sh, <- app_assoc; reflexivity).
    destruct (narrow_last_ok blk (D ++ [size o]) M off rs W Sh' R3) as [cl [-> [Wc [Dc [Sc Ec]]]]]. cbn [bind].
    assert (Fd : firstn (dim blk - 2) (t_shape blk) = D).
    { unfold dim. rewrite Sh, app_length. cbn [length]. replace (length D + 2 - 2) with (length D) by lia.
      rewrite firstn_app, Nat.sub_diag, firstn_all. cbn [firstn]. apply app_nil_r. }
    rewrite Fd, Dv. destruct (tangent_col_ok o i Ii Ip) as (tc & lead & -> & Wt & Dt & St & Bl & Et). cbn [bind].
    assert (Sc' : t_shape cl = D ++ [size o; rs]) by (rewrite Sc, <- app_assoc; reflexivity). rewrite <- R1 in St, Et.
    destruct (matmul_ok dot cl tc D lead (size o) rs 1 D) as [c [-> [Wr [Dr [Sr Er]]]]];
      [exact Wc|exact Wt|congruence|exact Sc'|exact St|apply broadcastable_refl|exact Bl|apply infer_broadcast_r; exact Bl|].
    cbn [bind]. eexists. split; [reflexivity|].
    assert (Rl : removelast (t_shape c) = D ++ [size o]) by (rewrite Sr; change [size o; 1] with ([size o] ++ [1]); rewrite app_assoc; apply removelast_last).
    split; [unfold wf in *; cbn [t_shape t_data]; rewrite Rl, Wr, Sr, !numel_app, numel2, numel_one; lia|]. split; [cbn [t_dev]; congruence|]. split; [exact Rl|].
    intros e r Ie Hr. rewrite (elem_reshape c _ _ (e ++ [r; 0])).
    - rewrite (Er e r 0 Ie Hr Nat.lt_0_1). f_equal. unfold term. rewrite (Et e Ie), <- R1. f_equal.
      apply picks_seq; [rewrite map_length, seq_length; reflexivity|]. intros x Hx. rewrite nth_error_map.
      rewrite (nth_error_nth' _ 0), seq_nth by (rewrite ?seq_length; lia). cbn [Nat.add option_map]. rewrite pull_refl by exact Ie. symmetry.
      change [r; x] with ([r] ++ [x]). rewrite app_assoc, Ec; [|apply index_app; [exact Ie|constructor; [exact Hr|constructor]]|exact Hx].
      rewrite <- app_assoc. apply E; [exact Ie|exact Hr|]. exists off, rs. split; [exact Lb|]. split; [exact Hx|reflexivity].
    - rewrite Rl, Sr, !(ravel_app D) by (apply BroadcastProofs.index_length; exact Ie). rewrite ravel2, numel2, ravel_one, numel_one. lia.
  Qed.

  Lemma jvp_sum_ok o blk : carries d D size M (column b) chain o blk -> forall infos, (forall i, In i infos -> In i (jm_inputs m) /\ In (o, in_name i) (jm_derivs m)) ->
    forall acc (val : list nat -> nat -> list V),
    match acc with
    | None => forall e r, val e r = []
    | Some a => wf a /\ t_dev a = d /\ t_shape a = D ++ [size o] /\ forall e r, index_of D e -> r < size o -> elem a (e ++ [r]) = sum1 (a_add A) (val e r)
    end -> (acc = None -> infos <> []) -> (acc <> None -> forall e r, val e r <> []) ->
    exists t, jvp_sum A dot m b T blk (map in_name infos) acc = Ok (Some t) /\ wf t /\ t_dev t = d /\ t_shape t = D ++ [size o] /\
      forall e r, index_of D e -> r < size o -> elem t (e ++ [r]) = sum1 (a_add A) (val e r ++ map (term e o r) infos).
  Proof.
    intros C. induction infos as [|i infos IH]; intros H acc val Ha Ne Nv.
    - destruct acc as [a|]; [|exfalso; apply Ne; reflexivity]. destruct Ha as (W & Dv & Sh & E). exists a. split; [reflexivity|]. split; [exact W|]. split; [exact Dv|]. split; [exact Sh|].
      intros e r Ie Hr. cbn [map]. rewrite app_nil_r. apply E; assumption.
    - cbn [map jvp_sum]. destruct (H i (or_introl eq_refl)) as [Ii Ip]. destruct (jvp_term_ok o i blk Ii Ip C) as (c & -> & Wc & Dc & Sc & Ec). cbn [bind].
      assert (Sn : forall (l : list V) x, l <> [] -> sum1 (a_add A) (l ++ [x]) = option_map (fun s => a_add A s x) (sum1 (a_add A) l)).
      { clear. intros [|y l] x N; [contradiction|]. cbn [app sum1 option_map]. rewrite fold_left_app. reflexivity. }
      destruct acc as [a|].
      + destruct Ha as (W & Dv & Sh & E). destruct (zip_bcast_same (a_add A) a c W Wc) as (s & -> & Ws & Ds & Ss & Es); [congruence|congruence|]. cbn [bind].
        destruct (IH (fun j J => H j (or_intror J)) (Some s) (fun e r => val e r ++ [term e o r i])) as (t & Et & Wt & Dt & St & Ee).
        * split; [exact Ws|]. split; [congruence|]. split; [congruence|]. intros e r Ie Hr. specialize (E e r Ie Hr). specialize (Ec e r Ie Hr).
          assert (Nl : val e r <> []) by (apply Nv; discriminate). rewrite Sn by exact Nl. destruct (val e r) as [|y l]; [contradiction|]. cbn [sum1 option_map] in *. apply Es; assumption.
        * discriminate.
        * intros _ e r X. destruct (val e r); discriminate.
        * exists t. split; [exact Et|]. split; [exact Wt|]. split; [exact Dt|]. split; [exact St|]. intros e r Ie Hr. rewrite (Ee e r Ie Hr), <- app_assoc. reflexivity.
      + cbn [bind]. destruct (IH (fun j J => H j (or_intror J)) (Some c) (fun e r => [term e o r i])) as (t & Et & Wt & Dt & St & Ee).
        * split; [exact Wc|]. split; [exact Dc|]. split; [exact Sc|]. intros e r Ie Hr. exact (Ec e r Ie Hr).
        * discriminate.
        * discriminate.
        * exists t. split; [exact Et|]. split; [exact Wt|]. split; [exact Dt|]. split; [exact St|]. intros e r Ie Hr. rewrite (Ee e r Ie Hr), Ha. reflexivity.
  Qed.

  (** What jvp() says about one output. *)
  Definition derivative_along (o : string) (ob : list nat) (t : tensor V) : Prop :=
    wf t /\ t_dev t = d /\ t_shape t = D ++ ob /\
    exists infos, map in_name infos = paired (jm_derivs m) o /\ incl infos (jm_inputs m) /\
      forall e x, index_of D e -> index_of ob x -> elem t (e ++ x) = sum1 (a_add A) (map (term e o (ravel ob x)) infos).

  Lemma paired_infos o : exists infos, map in_name infos = paired (jm_derivs m) o /\ (forall i, In i infos -> In i (jm_inputs m) /\ In (o, in_name i) (jm_derivs m)).
  Proof.
    assert (H : forall n, In n (paired (jm_derivs m) o) -> In (o, n) (jm_derivs m)).
    { intros n J. unfold paired in J. apply in_map_iff in J as [[o' i] [<- J]]. apply filter_In in J as [J E]. cbn [fst] in E. apply String.eqb_eq in E. subst o'. exact J. }
    induction (paired (jm_derivs m) o) as [|n l IH]; [exists []; split; [reflexivity|intros i []]|].
    destruct IH as [infos [E P]]; [intros x J; apply H; right; exact J|].
    destruct (info_of _ _ _ _ _ _ _ _ _ _ _ ev o n (H n (or_introl eq_refl))) as (info & Ii & En & _). exists (info :: infos). split; [cbn; congruence|].
    intros i [<-|J]; [|apply P; exact J]. split; [exact Ii|]. rewrite En. apply H. left. reflexivity.
  Qed.

  Lemma jvp_outputs_ok known (ds : vmap) : (forall o ob, In (o, ob) (jm_outs m) -> In o known /\ size o = numel ob) ->
    holds d D size M (column b) known ds chain ->
    forall l, NoDup (keys l) -> (forall o ins, In (o, ins) l -> ins = paired (jm_derivs m) o /\ ins <> []) -> forall acc,
    exists r, jvp_outputs A dot m b T ds l acc = Ok r /\
      (forall o, ~ In o (keys l) -> lookup o r = lookup o acc) /\
      (forall o, In o (keys l) -> exists ob t, In (o, ob) (jm_outs m) /\ lookup o r = Some t /\ derivative_along o ob t).
  Proof.
    intros Ho H. induction l as [|[o ins] l IH]; intros Nd Hl acc; [exists acc; split; [reflexivity|split; [reflexivity|intros o []]]|].
    cbn [jvp_outputs]. destruct (Hl o ins (or_introl eq_refl)) as [-> Ne]. destruct (paired_infos o) as [infos [Em Hi]].
    assert (Ni : infos <> []) by (intros ->; apply Ne; rewrite <- Em; reflexivity).
    assert (Ro : exists ob, In (o, ob) (jm_outs m)).
    { destruct infos as [|i infos]; [contradiction|]. destruct (Hi i (or_introl eq_refl)) as [_ Ip]. apply (ev_requested _ _ _ _ _ _ _ _ _ _ _ ev o _ Ip). }
    destruct Ro as [ob Io]. destruct (Ho o ob Io) as [Ik So]. destruct (H o Ik) as [blk [L C]]. unfold at_ at 1. rewrite L. cbn [bind]. rewrite <- Em.
    destruct (jvp_sum_ok o blk C infos Hi None (fun _ _ => [])) as (t & -> & W & Dv & Sh & E); [reflexivity|intros _; exact Ni|congruence|]. cbn [bind].
    unfold out_base. rewrite (find_out _ (ev_onames _ _ _ _ _ _ _ _ _ _ _ ev) o ob Io). cbn [bind snd]. destruct C as (Wb & Db & Sb & _).
    assert (Fd : firstn (dim blk - 2) (t_shape blk) = D).
    { unfold dim. rewrite Sb, app_length. cbn [length]. replace (length D + 2 - 2) with (length D) by lia.
      rewrite firstn_app, Nat.sub_diag, firstn_all. cbn [firstn]. apply app_nil_r. }
    rewrite Fd. assert (Nm : numel (D ++ ob) = numel (t_shape t)) by (rewrite Sh, !numel_app, numel_one, So; reflexivity).
    rewrite reshape_ok by exact Nm. cbn [bind]. cbn [keys map fst] in Nd. apply NoDup_cons_iff in Nd as [No Nd].
    destruct (IH Nd (fun o' ins' J => Hl o' ins' (or_intror J)) (set_ o (mkT (D ++ ob) (t_data t) (t_dev t)) acc)) as (r & Er & P & Q).
    exists r. split; [exact Er|]. split.
    - intros o' N. rewrite P by (intros J; apply N; right; exact J). apply lookup_set_other. intros ->. apply N. left. reflexivity.
    - intros o' [<-|J]; [|apply Q; exact J]. exists ob. eexists. split; [exact Io|]. split; [cbn [fst]; rewrite P by exact No; apply lookup_set_same|].
      split; [apply (reshape_wf t); assumption|]. split; [exact Dv|]. split; [reflexivity|]. exists infos. split; [exact Em|]. split; [intros i J; apply (Hi i J)|].
      intros e x Ie Ix. pose proof (ravel_lt _ _ Ix) as Rx. rewrite (elem_reshape t _ _ (e ++ [ravel ob x])).
      + rewrite E by (assumption || lia). reflexivity.
      + rewrite Sh, !(ravel_app D) by (apply BroadcastProofs.index_length; exact Ie). rewrite numel_one, ravel_one, So. reflexivity.
  Qed.

  Lemma jvp_ok :
    exists outs r, jvp A neg dot par base_ndim capture m I T = Ok (outs, r) /\
      (forall n, lookup n outs = if existsb (String.eqb n) (map fst (jm_outs m)) then lookup n st' else None) /\
      (forall o, lookup o r <> None <-> exists i, In (o, i) (jm_derivs m)) /\
      (forall o ob t, In (o, ob) (jm_outs m) -> lookup o r = Some t -> derivative_along o ob t).
  Proof.
    destruct (dstate_ok A neg dot par base_ndim capture m D size d I st' lins ev b M lay) as (known & outs & ds & Ed & Po & outputs & H).
    assert (Kp : forall o, In o (keys (by_out (jm_derivs m) [])) <-> paired (jm_derivs m) o <> []).
    { intros o. pose proof (by_out_lookup (jm_derivs m) [] o) as B. cbn [lookup] in B. split.
      - intros J. apply lookup_some_key in J as [x Ex]. rewrite Ex in B. intros Z. rewrite Z in B. discriminate.
      - intros N. destruct (paired (jm_derivs m) o) as [|x l]; [contradiction|]. apply (lookup_key_some _ _ _ B). }
    assert (Pi : forall o, paired (jm_derivs m) o <> [] <-> exists i, In (o, i) (jm_derivs m)).
    { intros o. unfold paired. split.
      - intros N. destruct (filter _ _) as [|[o' i] l] eqn:F; [contradiction|].
        assert (J : In (o', i) (filter (fun p => String.eqb (fst p) o) (jm_derivs m))) by (rewrite F; left; reflexivity).
        apply filter_In in J as [J E]. cbn [fst] in E. apply String.eqb_eq in E. subst. eauto.
      - intros [i J] N. assert (K : In (o, i) (filter (fun p => String.eqb (fst p) o) (jm_derivs m))) by (apply filter_In; split; [exact J|apply String.eqb_refl]).
        apply (in_map snd) in K. rewrite N in K. destruct K. }
    destruct (jvp_outputs_ok known ds outputs H (by_out (jm_derivs m) [])) with (acc := @nil (string * tensor V)) as (r & Er & P & Q).
    - apply sorted_nodup. apply by_out_sorted. apply sorted_nil.
    - intros o ins J. assert (L : lookup o (by_out (jm_derivs m) []) = Some ins).
      { apply lookup_nodup; [apply sorted_nodup; apply by_out_sorted; apply sorted_nil|exact J]. }
      rewrite by_out_lookup in L. cbn [lookup] in L. destruct (paired (jm_derivs m) o) as [|x l]; [discriminate|]. injection L as <-. split; [reflexivity|discriminate].
    - exists outs, r. split; [|split; [exact Po|split]].
      + unfold jvp. rewrite lay. cbn [bind]. pose proof (proj1 (proj2 (proj2 ev))) as Ne.
        assert (X : length (jm_derivs m) <> 0) by (intros Z; apply length_zero_iff_nil in Z; contradiction). rewrite (proj2 (Nat.eqb_neq _ _) X). cbn [negb assert_ bind].
        rewrite Ed. cbn [bind]. rewrite Er. reflexivity.
      + intros o. rewrite <- Pi, <- Kp. split.
        * intros N. destruct (in_dec String.string_dec o (keys (by_out (jm_derivs m) []))) as [J|J]; [exact J|]. exfalso. apply N. rewrite P by exact J. reflexivity.
        * intros J. destruct (Q o J) as (ob & t & _ & -> & _). discriminate.
      + intros o ob t Io L. assert (J : In o (keys (by_out (jm_derivs m) []))).
        { destruct (in_dec String.string_dec o (keys (by_out (jm_derivs m) []))) as [J|J]; [exact J|]. rewrite P in L by exact J. discriminate. }
        destruct (Q o J) as (ob' & t' & Io' & L' & Q'). assert (ob' = ob).
        { pose proof (find_out _ (ev_onames _ _ _ _ _ _ _ _ _ _ _ ev) o ob Io) as F1. rewrite (find_out _ (ev_onames _ _ _ _ _ _ _ _ _ _ _ ev) o ob' Io') in F1. congruence. }
        subst ob'. assert (t' = t) by congruence. subst t'. exact Q'.
  Qed.

  Lemma jvp_contracts : ~ single_forward m ->
    exists outs jac outs' r, jacobian A neg dot par base_ndim capture m I = Ok (outs, jac) /\ jvp A neg dot par base_ndim capture m I T = Ok (outs', r) /\
      (forall n, lookup n outs = lookup n outs') /\ (forall o, lookup o r <> None <-> exists i, In (o, i) (jm_derivs m)) /\
      forall o ob t, In (o, ob) (jm_outs m) -> lookup o r = Some t ->
        wf t /\ t_dev t = d /\ t_shape t = D ++ ob /\
        exists infos, map in_name infos = paired (jm_derivs m) o /\ incl infos (jm_inputs m) /\
          forall e x, index_of D e -> index_of ob x ->
            elem t (e ++ x) = sum1 (a_add A) (map (fun i => dot (block_at jac o i e x) (tangent_at (a_zero A) T i e)) infos).
  Proof.
    intros Ns. destruct (composed_ok A neg dot par base_ndim capture m D size d I st' lins ev Ns) as (outs & jac & Ej & Po & Ch & _).
    destruct jvp_ok as (outs' & r & Er & Po' & K & Pr). exists outs, jac, outs', r. split; [exact Ej|]. split; [exact Er|]. split; [intros n; rewrite Po, Po'; reflexivity|]. split; [exact K|].
    intros o ob t Io L. destruct (Pr o ob t Io L) as (W & Dv & Sh & infos & Em & Hi & E). split; [exact W|]. split; [exact Dv|]. split; [exact Sh|].
    exists infos. split; [exact Em|]. split; [exact Hi|]. intros e x Ie Ix. rewrite (E e x Ie Ix). f_equal. apply map_ext_in. intros i J. unfold term. f_equal.
    assert (Ip : In (o, in_name i) (jm_derivs m)).
    { assert (Q : In (in_name i) (paired (jm_derivs m) o)) by (rewrite <- Em; apply in_map; exact J).
      unfold paired in Q. apply in_map_iff in Q as [[o' i'] [Q1 Q]]. cbn [snd] in Q1. subst i'. apply filter_In in Q as [Q F]. cbn [fst] in F. apply String.eqb_eq in F. subst. exact Q. }
    destruct (Ch o (in_name i) Ip) as (ob' & info & b' & Io' & Ii & En & Eb & Wb & Db & Sb & Ee).
    assert (ob' = ob).
    { pose proof (find_out _ (ev_onames _ _ _ _ _ _ _ _ _ _ _ ev) o ob Io) as F1. rewrite (find_out _ (ev_onames _ _ _ _ _ _ _ _ _ _ _ ev) o ob' Io') in F1. congruence. } subst ob'.
    assert (info = i).
    { pose proof (find_input _ (ev_names _ _ _ _ _ _ _ _ _ _ _ ev) i (Hi i J)) as F1. rewrite <- En, (find_input _ (ev_names _ _ _ _ _ _ _ _ _ _ _ ev) info Ii) in F1. congruence. } subst info.
    unfold block_at. rewrite Eb. symmetry. apply picks_seq; [rewrite map_length, seq_length; reflexivity|]. intros c Hc. rewrite nth_error_map.
    rewrite (nth_error_nth' _ 0), seq_nth by (rewrite ?seq_length; lia). cbn [Nat.add option_map]. destruct (index_at_ok (in_base i) c Hc) as [Jc Rc].
    rewrite (Ee e x (index_at (in_base i) c) Ie Ix Jc), Rc. unfold chain_field. rewrite map_rev. reflexivity.
  Qed.
End Jvp.
