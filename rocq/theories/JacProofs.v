(** The carrier of derivatives through the segments (Jac.v, JacModel.v): proof of the chain rule. *)
From Verif Require Import Base BaseProofs SmapProofs Tensor Spec TensorProofs Broadcast SpecBroadcast BroadcastProofs Pack PackProofs
     Implicit ImplicitProofs BatchChunk Substep Mat Jac SubstepJac JacModel SpecJac MatProofs.

Lemma lookup_cons_eq {T} k (t : T) m : lookup k ((k, t) :: m) = Some t.
Proof. cbn. rewrite String.eqb_refl. reflexivity. Qed.
Lemma existsb_in v l : existsb (String.eqb v) l = true <-> In v l.
Proof.
  rewrite existsb_exists. split.
  - intros [x [I E]]. apply String.eqb_eq in E. subst. exact I.
  - intros I. exists v. split; [exact I|apply String.eqb_refl].
Qed.
Lemma existsb_notin v l : existsb (String.eqb v) l = false <-> ~ In v l.
Proof. rewrite <- existsb_in. destruct (existsb (String.eqb v) l); split; intros; congruence. Qed.

Lemma carrier_of_shape {V} (t : tensor V) D n M : t_shape t = D ++ [n; M] -> carrier_of t = Ok (D, M).
Proof.
  intros S. unfold carrier_of, size_at, dim. rewrite S, app_length. cbn [length].
  replace ((-1 <? - Z.of_nat (length D + 2)) || (Z.of_nat (length D + 2) <=? -1))%Z with false
    by (symmetry; apply orb_false_iff; split; [apply Z.ltb_ge|apply Z.leb_gt]; lia).
  change (-1 <? 0)%Z with true. cbn match. replace (Z.to_nat (-1 + Z.of_nat (length D + 2))) with (length D + 1) by lia.
  rewrite nth_error_app2 by lia. replace (length D + 1 - length D) with 1 by lia. cbn [nth_error bind].
  replace (length D + 2 - 2) with (length D) by lia. rewrite firstn_app, Nat.sub_diag, firstn_all. cbn [firstn]. rewrite app_nil_r. reflexivity.
Qed.
Lemma rows_of_shape {V} (t : tensor V) D n M : t_shape t = D ++ [n; M] -> size_at t (-2) = Ok n.
Proof.
  intros S. unfold size_at, dim. rewrite S, app_length. cbn [length].
  replace ((-2 <? - Z.of_nat (length D + 2)) || (Z.of_nat (length D + 2) <=? -2))%Z with false
    by (symmetry; apply orb_false_iff; split; [apply Z.ltb_ge|apply Z.leb_gt]; lia).
  change (-2 <? 0)%Z with true. cbn match. replace (Z.to_nat (-2 + Z.of_nat (length D + 2))) with (length D) by lia.
  rewrite nth_error_app2, Nat.sub_diag by lia. reflexivity.
Qed.
Lemma split_row n r sub : r < numel sub * n -> r / n < numel sub /\ r mod n < n /\ r = r / n * n + r mod n.
Proof.
  intros H. assert (0 < n) by nia. split; [apply Nat.div_lt_upper_bound; lia|]. split; [apply Nat.mod_upper_bound; lia|].
  pose proof (Nat.div_mod r n). lia.
Qed.

Section Carrier.
  Context {V : Type}.
  Notation vmap := (smap (tensor V)).
  Variable zero : V.
  Variable add : V -> V -> V.
  Variable dot : list V -> list V -> V.
  Variable d : device.
  Variable D : list nat.
  Variable size : string -> nat.
  Variable M : nat.
  Variable col : nat -> string -> nat -> Prop.     (* column m is the component c of the input i *)
  Hypothesis col_lt : forall m i c, col m i c -> m < M.

  Definition field : Type := list nat -> string -> nat -> string -> nat -> V.

  (** The tensor carries the derivatives [F] of the variable [v]. *)
  Definition carries (F : field) (v : string) (t : tensor V) : Prop :=
    wf t /\ t_dev t = d /\ t_shape t = D ++ [size v; M] /\
    forall b r m i c, index_of D b -> r < size v -> col m i c -> elem t (b ++ [r; m]) = Some (F b v r i c).
  Definition holds (names : list string) (ds : vmap) (F : field) : Prop :=
    forall v, In v names -> exists t, lookup v ds = Some t /\ carries F v t.

  Lemma carries_ext F G v t : (forall b r m i c, index_of D b -> r < size v -> col m i c -> F b v r i c = G b v r i c) -> carries F v t -> carries G v t.
  Proof using Type.
    intros E (W & Dv & S & H). split; [exact W|]. split; [exact Dv|]. split; [exact S|]. intros b r m i c Ib Hr Hc.
    rewrite <- (E b r m i c Ib Hr Hc). apply H; assumption.
  Qed.
  Lemma holds_ext names ds F G : (forall b v r m i c, In v names -> index_of D b -> r < size v -> col m i c -> F b v r i c = G b v r i c) ->
    holds names ds F -> holds names ds G.
  Proof using Type. intros E H v I. destruct (H v I) as [t [L C]]. exists t. split; [exact L|]. apply (carries_ext F); [|exact C]. intros. eapply E; eassumption. Qed.

  Lemma holds_set names ds F v t : holds names ds F -> carries F v t -> holds (v :: names) (set_ v t ds) F.
  Proof using Type.
    intros H C w [<-|I].
    - exists t. rewrite lookup_set_same. split; [reflexivity|exact C].
    - destruct (String.string_dec w v) as [->|N].
      + exists t. rewrite lookup_set_same. split; [reflexivity|exact C].
      + rewrite lookup_set_other by exact N. apply H. exact I.
  Qed.
  Lemma holds_incl names names' ds F : incl names' names -> holds names ds F -> holds names' ds F.
  Proof using Type. intros I H v Iv. apply H, I, Iv. Qed.

  Lemma carries_carrier F v t : carries F v t -> carrier_of t = Ok (D, M).
  Proof using Type. intros (W & _ & S & _). exact (carrier_of_shape t D _ M S). Qed.
  Lemma carries_rows F v t : carries F v t -> size_at t (-2) = Ok (size v).
  Proof using Type. intros (W & _ & S & _). exact (rows_of_shape t D _ M S). Qed.
  Lemma zeros_carries v : carries (fun _ _ _ _ _ => zero) v (zeros zero (D ++ [size v; M]) d).
  Proof using col_lt.
    split; [apply zeros_wf|]. split; [reflexivity|]. split; [reflexivity|]. intros b r m i c Ib Hr Hc. apply zeros_elem.
    apply index_app; [exact Ib|]. apply index2; [exact Hr|eapply col_lt; exact Hc].
  Qed.

  (** ** One forward block *)
  Definition plus_row (A : field) (out : string) (S : field) (inp : string) (rows : list nat -> nat -> list nat * list V) : field :=
    fun b o r i c => if String.eqb out o
                     then add (A b o r i c) (dot (snd (rows b r)) (map (fun k => S b inp k i c) (fst (rows b r))))
                     else A b o r i c.

  Lemma accumulate names acc A o a f S inp rows : holds names acc A -> In o names -> lookup o acc = Some a ->
    wf f -> t_dev f = d -> t_shape f = D ++ [size o; M] ->
    (forall b r m i c, index_of D b -> r < size o -> col m i c ->
       elem f (b ++ [r; m]) = Some (dot (snd (rows b r)) (map (fun k => S b inp k i c) (fst (rows b r))))) ->
    exists s, zip_bcast add a f = Ok s /\ holds names (set_ o s acc) (plus_row A o S inp rows).
  Proof using Type.
    intros H Io La Wf Df Sf Ef. destruct (H o Io) as [a' [La' (Wa & Da & Sa & Ea)]].
    assert (a' = a) by congruence. subst a'.
    destruct (zip_bcast_same add a f Wa Wf) as [s [E [Ws [Ds [Ss Es]]]]]; [congruence|congruence|].
    exists s. split; [exact E|]. intros v Iv. destruct (String.string_dec v o) as [->|N].
    - exists s. rewrite lookup_set_same. split; [reflexivity|]. split; [exact Ws|]. split; [congruence|]. split; [congruence|].
      intros b r m i c Ib Hr Hc. unfold plus_row. rewrite String.eqb_refl. apply Es; [apply Ea with (m := m) (i := i) (c := c)|apply Ef]; assumption.
    - rewrite lookup_set_other by exact N. destruct (H v Iv) as [t [L C]]. exists t. split; [exact L|]. revert C. apply carries_ext.
      intros. unfold plus_row. replace (String.eqb o v) with false; [reflexivity|]. symmetry. apply String.eqb_neq. congruence.
  Qed.

  Lemma add_pair_ok known names (ds acc : vmap) S A p blk :
    holds known ds S -> holds names acc A -> In (p_in p) known -> In (p_out p) names -> block_ok d D size p blk ->
    exists acc', add_pair add dot D M ds p blk acc = Ok acc' /\ holds names acc' (plus_row A (p_out p) S (p_in p) (block_row p blk)).
  Proof using col_lt. clear zero.
    intros HS HA Ik Io (Wb & Db & (lead & Sb & Bb) & Si & So). unfold add_pair.
    destruct (HS _ Ik) as [din [-> (Wd & Dd & Sd & Ed)]]. cbn [bind].
    set (ob := numel (p_out_base p)) in *. set (ib := numel (p_in_base p)) in *.
    rewrite reshape_ok by (rewrite Sd, !numel_app, numel2, numel_one, Si; fold ib; lia). cbn [bind].
    assert (Tr : dim blk = length lead + (length (p_out_base p) + length (p_in_base p))) by (unfold dim; rewrite Sb, !app_length; reflexivity).
    rewrite Tr. replace (Nat.leb (length (p_out_base p) + length (p_in_base p)) _) with true by (symmetry; apply Nat.leb_le; lia).
    cbn [assert_ bind]. replace (length lead + _ - _) with (length lead) by lia.
    assert (Fl : firstn (length lead) (t_shape blk) = lead) by (rewrite Sb, firstn_app, Nat.sub_diag, firstn_all; cbn [firstn]; apply app_nil_r).
    assert (Lo : lead_of p blk = lead) by (unfold lead_of; rewrite Tr; replace (length lead + _ - _) with (length lead) by lia; exact Fl).
    rewrite Fl. assert (N1 : numel (lead ++ [ob; ib]) = numel (t_shape blk)) by (rewrite Sb, !numel_app, numel2; fold ob ib; lia).
    rewrite reshape_ok by exact N1. cbn [bind].
    assert (N2 : numel (D ++ p_in_sub p ++ [ib; M]) = numel (t_shape din)) by (rewrite Sd, !numel_app, !numel2, Si; fold ib; lia).
    rewrite reshape_ok by exact N2. cbn [bind].
    set (pv := mkT (lead ++ [ob; ib]) (t_data blk) (t_dev blk)). set (dv := mkT (D ++ p_in_sub p ++ [ib; M]) (t_data din) (t_dev din)).
    assert (Sdv : t_shape dv = (D ++ p_in_sub p) ++ [ib; M]) by (cbn [dv t_shape]; rewrite app_assoc; reflexivity).
    destruct (matmul_ok dot pv dv lead (D ++ p_in_sub p) ob ib M (D ++ p_in_sub p)) as [ct [-> [Wc [Dc [Sc Ec]]]]];
      [apply (reshape_wf blk); assumption|apply (reshape_wf din); assumption|cbn; congruence|reflexivity|exact Sdv|exact Bb|apply broadcastable_refl|apply infer_broadcast; exact Bb|].
    cbn [bind]. destruct (HA _ Io) as [a [La Ca]]. rewrite La, (carries_rows _ _ _ Ca). cbn [bind].
    assert (Cs : numel (removelast (skipn (length D) (t_shape ct))) = size (p_out p)).
    { rewrite Sc, <- app_assoc, skipn_app, skipn_all, Nat.sub_diag. cbn [skipn app].
      replace (p_in_sub p ++ [ob; M]) with ((p_in_sub p ++ [ob]) ++ [M]) by (rewrite <- app_assoc; reflexivity).
      rewrite removelast_last, numel_app, numel_one. congruence. }
    rewrite Cs, Nat.eqb_refl. cbn [assert_ bind].
    assert (N3 : numel (D ++ [size (p_out p); M]) = numel (t_shape ct)) by (rewrite Sc, !numel_app, !numel2, So; fold ob; lia).
    rewrite reshape_ok by exact N3. cbn [bind].
    destruct (accumulate names acc A (p_out p) a (mkT (D ++ [size (p_out p); M]) (t_data ct) (t_dev ct)) S (p_in p) (block_row p blk) HA Io La) as [s [Es Hs]].
    - apply (reshape_wf ct); assumption.
    - cbn [t_dev]. rewrite Dc. exact Db.
    - reflexivity.
    - intros b r m i c Ib Hr Hc. rewrite So in Hr. destruct (split_row ob r (p_in_sub p) Hr) as [H1 [H2 H3]].
      destruct (index_at_ok _ _ H1) as [Is Rs]. set (s := index_at (p_in_sub p) (r / ob)) in *.
      pose proof (BroadcastProofs.index_length _ _ Ib) as Lb. pose proof (BroadcastProofs.index_length _ _ Is) as Ls.
      assert (Ibs : index_of (D ++ p_in_sub p) (b ++ s)) by (apply index_app; assumption).
      pose proof (BroadcastProofs.index_length _ _ Ibs) as Lbs. pose proof (col_lt _ _ _ Hc) as Hm.
      rewrite (elem_reshape ct (D ++ [size (p_out p); M]) (b ++ [r; m]) ((b ++ s) ++ [r mod ob; m])).
      2: { rewrite Sc, !ravel_app by assumption. rewrite !numel2, !ravel2, ?numel_app, Rs, So. nia. }
      rewrite Ec by assumption. unfold block_row. fold ob ib s. rewrite Lo. cbn [fst snd]. do 2 f_equal.
      + apply picks_ext. intros x Hx. unfold pv. destruct (index_at_ok (p_out_base p) (r mod ob) H2) as [Jo Ro].
        destruct (index_at_ok (p_in_base p) x Hx) as [Ji Ri].
        apply elem_reshape. pose proof (pull_length lead _ _ Bb Ibs) as Lp.
        rewrite Sb, !ravel_app; [|apply BroadcastProofs.index_length; exact Jo|exact Lp|exact Lp].
        rewrite !numel_app, numel2, ravel2, Ro, Ri. fold ob ib. lia.
      + rewrite pull_refl by exact Ibs. apply picks_seq; [rewrite !map_length, seq_length; reflexivity|]. intros x Hx.
        rewrite !nth_error_map, (nth_error_nth' _ 0), seq_nth by (rewrite ?seq_length; lia). cbn [option_map Nat.add].
        assert (Hk : r / ob * ib + x < size (p_in p)) by (rewrite Si; fold ib; nia).
        rewrite <- (Ed b _ m i c Ib Hk Hc). unfold dv. symmetry. apply elem_reshape.
        rewrite Sd, app_assoc, !ravel_app by assumption. rewrite !numel2, !ravel2, ?numel_app, Rs, Si. fold ib. nia.
    - rewrite Es. cbn [bind]. eauto.
  Qed.

  (** ** One implicit block *)
  Lemma add_ift_ok known names (ds acc : vmap) S A p blk :
    holds known ds S -> holds names acc A -> In (p_in p) known -> In (p_out p) names -> ift_ok d D size p blk ->
    exists acc', add_ift add dot D ds p blk acc = Ok acc' /\ holds names acc' (plus_row A (p_out p) S (p_in p) (ift_row D size p blk)).
  Proof using col_lt. clear zero.
    intros HS HA Ik Io (Wb & Db & Sub & lead & Sb & Ll & Bb). unfold add_ift.
    destruct (HS _ Ik) as [din [-> (Wd & Dd & Sd & Ed)]]. cbn [bind].
    assert (Tr : dim blk = length D + 2) by (unfold dim; rewrite Sb, app_length; cbn [length]; lia).
    rewrite Sub, Tr, (Nat.eqb_refl (length D + 2)). cbn [length Nat.eqb andb assert_ bind].
    destruct (matmul_ok dot blk din lead D (size (p_out p)) (size (p_in p)) M D) as [ct [-> [Wc [Dc [Sc Ec]]]]];
      [exact Wb|exact Wd|congruence|exact Sb|exact Sd|exact Bb|apply broadcastable_refl|apply infer_broadcast; exact Bb|].
    cbn [bind]. destruct (HA _ Io) as [a [La Ca]]. rewrite La.
    destruct (accumulate names acc A (p_out p) a ct S (p_in p) (ift_row D size p blk) HA Io La) as [s [Es Hs]].
    - exact Wc.
    - congruence.
    - exact Sc.
    - intros b r m i c Ib Hr Hc. pose proof (col_lt _ _ _ Hc) as Hm. rewrite Ec by assumption. unfold ift_row. cbn [fst snd].
      assert (Fl : firstn (length D) (t_shape blk) = lead) by (rewrite Sb, <- Ll, firstn_app, Nat.sub_diag, firstn_all; cbn [firstn]; apply app_nil_r).
      rewrite Fl. do 2 f_equal. rewrite pull_refl by exact Ib. apply picks_seq; [rewrite map_length, seq_length; reflexivity|]. intros x Hx.
      rewrite nth_error_map, (nth_error_nth' _ 0), seq_nth by (rewrite ?seq_length; lia). cbn [option_map Nat.add]. symmetry. apply Ed; assumption.
    - rewrite Es. cbn [bind]. eauto.
  Qed.

  (** ** All the blocks of a segment *)
  Definition sum_rows (l : list (string * string * (list nat -> nat -> list nat * list V))) (S A : field) : field :=
    fold_left (fun A p => plus_row A (fst (fst p)) S (snd (fst p)) (snd p)) l A.
  Lemma add_pairs_ok known names (ds : vmap) S ps blks :
    holds known ds S ->
    Forall2 (fun p t => In (p_in p) known /\ In (p_out p) names /\ block_ok d D size p t) ps blks ->
    forall acc A, holds names acc A ->
    exists acc', add_pairs add dot D M ds ps blks acc = Ok acc' /\
      holds names acc' (sum_rows (map (fun pt => (p_out (fst pt), p_in (fst pt), block_row (fst pt) (snd pt))) (combine ps blks)) S A).
  Proof using col_lt.
    intros HS F. induction F as [|p t ps blks (Ik & Io & B) F IH]; intros acc A HA; [exists acc; split; [reflexivity|exact HA]|].
    cbn [add_pairs]. destruct (add_pair_ok known names ds acc S A p t HS HA Ik Io B) as [acc1 [-> H1]]. cbn [bind].
    destruct (IH acc1 _ H1) as [acc' [E H']]. exists acc'. split; [exact E|exact H'].
  Qed.
  Lemma add_ifts_ok known names (ds : vmap) S ps blks :
    holds known ds S ->
    Forall2 (fun p t => In (p_in p) known /\ In (p_out p) names /\ ift_ok d D size p t) ps blks ->
    forall acc A, holds names acc A ->
    exists acc', add_ifts add dot D ds ps blks acc = Ok acc' /\
      holds names acc' (sum_rows (map (fun pt => (p_out (fst pt), p_in (fst pt), ift_row D size (fst pt) (snd pt))) (combine ps blks)) S A).
  Proof using col_lt.
    intros HS F. induction F as [|p t ps blks (Ik & Io & B) F IH]; intros acc A HA; [exists acc; split; [reflexivity|exact HA]|].
    cbn [add_ifts]. destruct (add_ift_ok known names ds acc S A p t HS HA Ik Io B) as [acc1 [-> H1]]. cbn [bind].
    destruct (IH acc1 _ H1) as [acc' [E H']]. exists acc'. split; [exact E|exact H'].
  Qed.

  Lemma move_all_ok known (acc : vmap) S A : forall names (ds : vmap) done, holds names acc A ->
    holds known ds (fun b v => if existsb (String.eqb v) done then A b v else S b v) ->
    exists ds', move_all names acc ds = Ok ds' /\
      holds (names ++ known) ds' (fun b v => if existsb (String.eqb v) (done ++ names) then A b v else S b v).
  Proof using Type.
    induction names as [|n names IH]; intros ds done HA HS; [exists ds; rewrite app_nil_r; split; [reflexivity|exact HS]|].
    cbn [move_all]. destruct (HA n (or_introl eq_refl)) as [t [-> C]].
    destruct (IH (set_ n t ds) (done ++ [n])) as [ds' [E H]].
    - intros v I. apply HA. right. exact I.
    - intros v I. destruct (String.string_dec v n) as [->|N].
      + exists t. rewrite lookup_set_same. split; [reflexivity|]. revert C. apply carries_ext. intros.
        replace (existsb (String.eqb n) (done ++ [n])) with true; [reflexivity|]. symmetry. apply existsb_in, in_or_app. right. left. reflexivity.
      + rewrite lookup_set_other by exact N. destruct (HS v I) as [u [L Cu]]. exists u. split; [exact L|]. revert Cu. apply carries_ext. intros.
        rewrite existsb_app. cbn [existsb]. replace (String.eqb v n) with false by (symmetry; apply String.eqb_neq; exact N).
        rewrite !orb_false_r. reflexivity.
    - exists ds'. split; [exact E|]. rewrite <- app_assoc in H. cbn [app] in H. intros v [<-|I]; [|apply H; exact I].
      destruct (in_dec String.string_dec n (names ++ known)) as [J|J]; [apply H; exact J|].
      exists t. split.
      + clear - E J. assert (G : forall names ds ds', ~ In n names -> move_all names acc ds = Ok ds' -> lookup n ds' = lookup n ds).
        { clear. induction names as [|x names IH]; intros ds ds' N E; cbn [move_all] in E; [injection E as ->; reflexivity|].
          destruct (lookup x acc) as [t|]; [|discriminate]. rewrite (IH _ _ ltac:(intros I; apply N; right; exact I) E).
          apply lookup_set_other. intros ->. apply N. left. reflexivity. }
        rewrite (G _ _ _ ltac:(intros I; apply J, in_or_app; left; exact I) E). apply lookup_set_same.
      + revert C. apply carries_ext. intros. replace (existsb (String.eqb n) (done ++ n :: names)) with true; [reflexivity|].
        symmetry. apply existsb_in, in_or_app. right. left. reflexivity.
  Qed.

  Lemma zero_outputs_ok names vals : Forall2 (sized d D size) names vals -> forall done (acc : vmap), holds done acc (fun _ _ _ _ _ => zero) ->
    holds (names ++ done) (zero_outputs zero names vals D M acc) (fun _ _ _ _ _ => zero).
  Proof using col_lt.
    intros F. induction F as [|n t names vals (W & Dv & rest & Sh & Nr) F IH]; intros done acc H; [exact H|]. cbn [zero_outputs].
    rewrite Sh, skipn_app, skipn_all, Nat.sub_diag. cbn [skipn app]. rewrite Nr, Dv.
    assert (I2 : incl (n :: names ++ done) (names ++ n :: done)) by (intros x [<-|J]; [apply in_or_app; right; left; reflexivity|apply in_app_or in J as [J|J]; apply in_or_app; [left|right; right]; exact J]).
    apply (holds_incl _ _ _ _ I2). apply IH. apply holds_set; [exact H|]. apply zeros_carries.
  Qed.

  (** ** The derivative of a linearised segment *)
  Variable one : V.
  Notation sens := (sensitivity zero one add dot).
  Definition chain_field (ls : list (list nat -> lin V)) : field := fun b v r i c => sens (map (fun l => l b) ls) v i r c.

  Lemma sum_rows_fold l S : forall A b o r i c, sum_rows l S A b o r i c =
    fold_left (fun a p => if String.eqb (fst (fst p)) o then add a (dot (snd (snd p b r)) (map (fun k => S b (snd (fst p)) k i c) (fst (snd p b r)))) else a) l (A b o r i c).
  Proof using Type. induction l as [|p l IH]; intros; [reflexivity|]. cbn [fold_left]. unfold sum_rows. cbn [fold_left].
    change (fold_left _ l ?a) with (sum_rows l S a) at 1. rewrite IH. reflexivity. Qed.

  (** The derivatives after one more segment. *)
  Definition lin_field (l : list nat -> lin V) (F : field) : field := fun b v r i c =>
    if existsb (String.eqb v) (l_outs (l b)) then
      fold_left (fun a p => let '(o, n, rows) := p in
                            if String.eqb o v then add a (dot (snd (rows r)) (map (fun k => F b n k i c) (fst (rows r)))) else a)
                (l_pairs (l b)) zero
    else F b v r i c.
  Lemma chain_cons l ls b v r i c : lin_field l (chain_field ls) b v r i c = chain_field (l :: ls) b v r i c.
  Proof using Type. reflexivity. Qed.

  Lemma segment_field known (ds : vmap) F outs (rows : list (pair_info * (list nat -> nat -> list nat * list V))) :
    holds (outs ++ known) ds (fun b v => if existsb (String.eqb v) outs
                                         then sum_rows (map (fun q => (p_out (fst q), p_in (fst q), snd q)) rows) F (fun _ _ _ _ _ => zero) b v
                                         else F b v) ->
    holds (outs ++ known) ds (lin_field (fun b => mkLin outs (map (fun q => (p_out (fst q), p_in (fst q), snd q b)) rows)) F).
  Proof using Type.
    apply holds_ext. intros b v r m i c Iv Ib Hr Hc. unfold lin_field. cbn [l_outs l_pairs].
    destruct (existsb (String.eqb v) outs); [|reflexivity]. rewrite sum_rows_fold. clear.
    match goal with |- fold_left ?f _ _ = fold_left ?g _ _ => assert (G : forall a, fold_left f (map (fun q => (p_out (fst q), p_in (fst q), snd q)) rows) a =
      fold_left g (map (fun q => (p_out (fst q), p_in (fst q), snd q b)) rows) a); [|apply G] end.
    induction rows as [|[p f] rows IH]; intros a; [reflexivity|]. cbn [map fold_left fst snd]. rewrite IH. reflexivity.
  Qed.
End Carrier.
