(** Lemmas for C78: param_jacobian() and param_vjp() as a whole. *)
From Verif Require Import Base BaseProofs Tensor TensorProofs Spec SpecMap Broadcast SpecBroadcast BroadcastProofs Pack PackProofs Implicit Jac SpecJac SpecAlgebra MatProofs EagerModel SpecEagerModel EagerSeedProofs EagerModelProofs EagerCallProofs EagerTwinProofs EagerParam SpecEagerParam EagerParamProofs EagerParamMoreProofs.
From Coq Require Import Ring_theory.
Local Open Scope string_scope.
Local Open Scope list_scope.

Lemma f2_weak {X Y} (Q Q' : X -> Y -> Prop) l r : (forall x y, Q x y -> Q' x y) -> Forall2 Q l r -> Forall2 Q' l r.
Proof. intros H. induction 1; constructor; auto. Qed.

Section Leaves.
  Context {V : Type}.
  Variable d : device.
  Variables D C : list nat.
  Lemma copies_unique (P : eparams V) a b : copies d C P a -> copies d C P b -> a = b.
  Proof.
    intros Ha. revert b. induction Ha as [|[q p] [ka x] P a (Ka & batch & base & Hp & Sa & Wa & Da & Ea) F IH]; intros b Hb; inversion Hb as [|? [kb y] ? b' (Kb & batch' & base' & Hp' & Sb & Wb & Db & Eb) F']; subst; [reflexivity|].
    cbn [fst snd] in *. subst. f_equal; [|exact (IH b' F')]. f_equal. assert (base' = base) by (rewrite <- (plain_base _ _ _ _ _ Hp'); exact (plain_base _ _ _ _ _ Hp)). subst base'.
    apply tensor_ext; [exact Wa|exact Wb|congruence|congruence|]. intros idx Hi. rewrite Ea by exact Hi. symmetry. apply Eb. rewrite Sb, <- Sa. exact Hi.
  Qed.
  Lemma plain_batch q (p : eparam V) batch base : plain_param d q p batch base -> param_batch p = batch.
  Proof.
    intros (_ & _ & Sp & Bl & Sh). unfold param_batch, dim. rewrite Sh, app_length, Bl, Sp. replace (length batch + length base - length base - 0) with (length batch) by lia. rewrite firstn_app, Nat.sub_diag, firstn_all. cbn. apply app_nil_r.
  Qed.
  Lemma leaves_ok (P : eparams V) leaf : plain_params d P -> calls_at P D C -> copies d C P leaf -> expanded_leaves P C = Ok leaf.
  Proof.
    intros Hp Hc Hl. assert (G : exists l, expanded_leaves P C = Ok l /\ copies d C P l).
    { unfold expanded_leaves, copies. apply mapM_f2. intros [q p] Ip. destruct (Hp q p Ip) as (batch & base & Pl). cbn [fst snd]. rewrite (plain_base _ _ _ _ _ Pl).
      assert (Ib : In batch (D :: map (fun p => firstn (dim (ep_val (snd p)) - ep_base (snd p) - ep_sub (snd p)) (t_shape (ep_val (snd p)))) P)).
      { right. apply in_map_iff. exists (q, p). split; [exact (plain_batch q p batch base Pl)|exact Ip]. }
      destruct Hc as [Hl1 Hl2]. pose proof Pl as (Wp & Dp & _ & _ & Sp). destruct (expand_batch (ep_val p) batch base C Sp) as [u U].
      - destruct (Nat.le_gt_cases (length batch) (length C)) as [|G]; [assumption|]. exfalso. pose proof (proj2 (Hl1 (length C)) (ex_intro _ batch (conj Ib G))). lia.
      - intros pos n k Hn Hk. destruct (Hl2 pos k Hk) as [A _]. exact (A batch n Ib Hn).
      - rewrite U. cbn [bind]. destruct (expand_ok _ _ _ Wp U) as [Su Bu]. exists (q, u). split; [reflexivity|]. split; [reflexivity|]. exists batch, base. auto. }
    destruct G as (l & E & Hl'). rewrite E. f_equal. exact (copies_unique P _ _ Hl' Hl).
  Qed.
  Lemma copies_keys (P : eparams V) leaf : copies d C P leaf -> map fst leaf = map fst P.
  Proof. induction 1 as [|p lf P leaf (K & _) F IH]; [reflexivity|]. cbn. congruence. Qed.
End Leaves.

Section Calls.
  Context {V : Type}.
  Notation vmap := (smap (tensor V)).
  Variable m : emodel V.
  Hypothesis in_names : NoDup (map fst (em_ins m)).
  Hypothesis out_names : NoDup (map fst (em_outs m)).
  Variables zero one : V.
  Variables add mul sub : V -> V -> V.
  Variable opp : V -> V.
  Hypothesis R : ring_theory zero one add mul sub opp eq.
  Notation sum := (sum zero add).
  Notation sum_to := (sum_to zero add).
  Add Ring VR : R.
  Variable ad : vmap -> list (wrapper V) -> result (list (tracked V)).
  Variable P : eparams V.
  Variable I : vmap.
  Variables D C : list nat.
  Variable d : device.
  Hypothesis par_names : NoDup (keys P).
  Hypothesis wf_in : given_wf m I.
  Hypothesis takes : welcome m I D.
  Hypothesis on_d : all_on m I d.
  Variable args : list (wrapper V).
  Hypothesis args_are : lifted m I D args.
  Variables (ws : list (wrapper V)) (v : chain V) (vals : list (tensor V)).
  Hypothesis runs : em_native m (values P) args None = Ok (ws, v).
  Hypothesis gives : returned m ws vals.

  Lemma rows_ok leaf trs J : 
    copies d C P leaf -> differentiates zero add mul m d C leaf trs J -> Forall (fun tr => tr_grad tr <> None) trs -> own_copy zero m d C P J ->
    (forall o ob, In (o, ob) (em_outs m) -> 0 < numel ob) ->
    exists j, param_rows zero one m P C leaf trs = Ok j /\ Forall2 (fun o x => fst x = fst o /\ Forall2 (fun p y => fst y = fst p /\ block_ok d C J (fst o) (snd o) (fst p) (snd p) (snd y)) P (snd x)) (em_outs m) j.
  Proof using R.
    intros Hl Hd Ht Ho Hn. unfold param_rows. rewrite (f2_len _ _ _ Hd), Nat.eqb_refl.
    destruct (mapM_f2 (fun x : string * list nat * tracked V => let* ps := passes zero one C (numel (snd (fst x))) leaf (snd x) in let* row := param_row P C (snd (fst x)) ps in Ok (fst (fst x), row))
      (fun x y => fst y = fst (fst x) /\ Forall2 (fun p z => fst z = fst p /\ block_ok d C J (fst (fst x)) (snd (fst x)) (fst p) (snd p) (snd z)) P (snd y)) (combine (em_outs m) trs)) as (j & Ej & Fj).
    - intros [[o ob] tr] Ix. cbn [fst snd]. destruct (combine_f2 _ _ _ Hd _ _ Ix) as (W & Dv & Sh & G). pose proof (in_combine_l _ _ _ _ Ix) as Io. pose proof (in_combine_r _ _ _ _ Ix) as It.
      rewrite Forall_forall in Ht. specialize (Ht tr It). destruct (tr_grad tr) as [g|] eqn:Eg; [|contradiction]. cbn [fst snd] in *.
      destruct (passes_ok zero one add mul sub opp R m d C P J Ho o ob leaf tr g Io Hl Dv Sh Eg G) as (ps & Eps & Fps). rewrite Eps. cbn [bind].
      destruct (param_row_ok d C P J o ob ps (Hn o ob Io) Fps) as (row & Er & Fr). rewrite Er. cbn [bind]. exists (o, row). split; [reflexivity|]. split; [reflexivity|exact Fr].
    - exists j. split; [exact Ej|]. pose proof (f2_len _ _ _ Hd) as Ln. clear - Fj Ln. revert trs j Fj Ln. generalize (em_outs m). intros outs. induction outs as [|o outs IH]; intros trs j Fj Ln; destruct trs as [|tr trs]; try discriminate; cbn [combine] in Fj; inversion Fj as [|? y ? ys Hy F']; subst; constructor; [exact Hy|].
      apply (IH trs); [exact F'|]. cbn in Ln. lia.
  Qed.
  Lemma f2_keys {X Y} (Q : string * X -> string * Y -> Prop) l r : Forall2 (fun a b => fst b = fst a /\ Q a b) l r -> map fst r = map fst l.
  Proof using Type. induction 1 as [|a b l r [K _] F IH]; [reflexivity|]. cbn. congruence. Qed.
  Lemma f2_key {X Y} (Q : string * X -> string * Y -> Prop) l r a : Forall2 (fun a b => fst b = fst a /\ Q a b) l r -> In a l -> exists y, In (fst a, y) r /\ Q a (fst a, y).
  Proof using Type.
    intros F Ia. induction F as [|a' [kb y] l r [K q] F IH]; [destruct Ia|]. destruct Ia as [->|Ia]; [cbn in K; subst kb; exists y; split; [left; reflexivity|exact q]|]. destruct (IH Ia) as (z & Iz & Qz). exists z. split; [right; exact Iz|exact Qz].
  Qed.

  Lemma param_jacobian_ok leaf trs J : calls_at P D C -> plain_params d P -> copies d C P leaf -> ad leaf args = Ok trs ->
    differentiates zero add mul m d C leaf trs J -> Forall (fun tr => tr_grad tr <> None) trs -> own_copy zero m d C P J ->
    (forall o ob, In (o, ob) (em_outs m) -> 0 < numel ob) ->
    exists r B, eager_param_jacobian zero one m ad P I = (P, Ok (r, B)) /\ outputs_are m r vals /\
      (forall o ob q p, In (o, ob) (em_outs m) -> In (q, p) P -> exists t, block B o q = Some t /\ block_ok d C J o ob q p t) /\
      (forall o q, block B o q <> None -> In o (map fst (em_outs m)) /\ In q (keys P)).
  Proof using in_names out_names R par_names wf_in takes on_d args_are runs gives.
    intros Hc Hp Hl Ha Hd Ht Ho Hn.
    assert (G : exists j, ad_param_jacobian zero one m ad P args = (P, Ok j) /\ Forall2 (fun o x => fst x = fst o /\ Forall2 (fun p y => fst y = fst p /\ block_ok d C J (fst o) (snd o) (fst p) (snd p) (snd y)) P (snd x)) (em_outs m) j).
    { destruct (rows_ok leaf trs J Hl Hd Ht Ho Hn) as (j & Ej & Fj). destruct P as [|p0 P0] eqn:EP.
      - eexists. split; [reflexivity|]. clear. induction (em_outs m) as [|o outs IH]; cbn [map]; constructor; [split; [reflexivity|constructor]|exact IH].
      - rewrite <- EP in *. exists j. split; [|exact Fj]. unfold ad_param_jacobian. rewrite EP at 1. rewrite (call_batch_ok m in_names P I D C d takes on_d args args_are Hc). cbn [bind]. rewrite (leaves_ok d D C P leaf Hp Hc Hl). cbn [bind]. unfold with_swapped.
        rewrite (swap_restores leaf P) by (rewrite (copies_keys _ _ _ _ Hl); exact par_names). rewrite (installed P leaf par_names (copies_keys _ _ _ _ Hl)), Ha. cbn [bind]. rewrite Ej. reflexivity. }
    destruct G as (j & Ej & Fj). unfold eager_param_jacobian, adapter_param_jacobian. rewrite (typed_lifted m I D args wf_in takes args_are). cbn [bind]. rewrite (eval_ok m P args None ws v vals runs gives). cbn [bind]. rewrite Ej. cbn [bind guarded].
    eexists. eexists. split; [reflexivity|]. split; [exact (unwrap_are m out_names ws vals gives)|].
    set (jj := map (fun x : string * smap (tensor V) => (fst x, cast_map (snd x))) j).
    assert (Kjj : map fst jj = map fst (em_outs m)) by (unfold jj; rewrite map_map; exact (f2_keys (fun o x => Forall2 (fun p y => fst y = fst p /\ block_ok d C J (fst o) (snd o) (fst p) (snd p) (snd y)) P (snd x)) _ _ Fj)).
    destruct (cast_map_ok jj) as (_ & Kc & Ec). rewrite Kjj in Kc, Ec. specialize (Ec out_names).
    assert (Row : forall o row, In (o, row) j -> lookup o (cast_map jj) = Some (cast_map row)) by (intros o row Ir; apply Ec; unfold jj; apply in_map_iff; exists (o, row); auto).
    split.
    - intros o ob q p Io Ip. destruct (f2_key (fun o x => Forall2 (fun p y => fst y = fst p /\ block_ok d C J (fst o) (snd o) (fst p) (snd p) (snd y)) P (snd x)) _ _ _ Fj Io) as (row & Ir & Fr). cbn [fst snd] in *.
      destruct (f2_key (fun p y => block_ok d C J o ob (fst p) (snd p) (snd y)) _ _ _ Fr Ip) as (t & It & Bt). cbn [fst snd] in *. exists t. split; [|exact Bt].
      destruct (cast_map_ok row) as (_ & _ & E). rewrite (f2_keys (fun p y => block_ok d C J o ob (fst p) (snd p) (snd y)) _ _ Fr) in E. exact (eq_trans (block_row _ _ q _ (Row o row Ir)) (E par_names q t It)).
    - intros o q Hbk. destruct (block_inv _ _ _ Hbk) as (row' & Lo & Hi).
      assert (Io : In o (map fst (em_outs m))) by (apply Kc; intros X; pose proof (eq_trans (eq_sym X) Lo); discriminate). split; [exact Io|]. apply in_map_iff in Io as ([o' ob] & <- & Io). cbn [fst] in *.
      destruct (f2_key (fun o x => Forall2 (fun p y => fst y = fst p /\ block_ok d C J (fst o) (snd o) (fst p) (snd p) (snd y)) P (snd x)) _ _ _ Fj Io) as (row & Ir & Fr). cbn [fst snd] in *.
      pose proof (eq_trans (eq_sym (Row o' row Ir)) Lo) as Q. injection Q as <-. unfold keys. rewrite <- (f2_keys (fun p y => block_ok d C J o' ob (fst p) (snd p) (snd y)) _ _ Fr). apply cast_map_keys. exact Hi.
  Qed.

  (** *** param_vjp *)
  Variable W : vmap.
  Hypothesis cots : cotangents_ok m d C W.
  Definition term (J : slopes V) (q : string) (c : nat) (o : string * list nat) : V :=
    sum_to (numel (C ++ snd o)) (fun r => mul (cotangent zero W (fst o) r) (J (fst o) q r c)).
  (** What has been added up so far. *)
  Definition upto (F : string -> nat -> V) (leaf : vmap) (acc : list (option (tensor V))) : Prop :=
    Forall2 (fun lf g => match g with
      | Some t => wf t /\ t_dev t = t_dev (snd lf) /\ t_shape t = t_shape (snd lf) /\ forall c, c < numel (t_shape (snd lf)) -> nth_error (t_data t) c = Some (F (fst lf) c)
      | None => forall c, c < numel (t_shape (snd lf)) -> F (fst lf) c = zero end) leaf acc.
  Lemma zip_nth (a b : tensor V) : wf a -> wf b -> t_shape a = t_shape b -> t_dev a = t_dev b -> exists u, zip_same add a b = Ok u /\ wf u /\ t_dev u = t_dev a /\ t_shape u = t_shape a /\
    forall c x y, nth_error (t_data a) c = Some x -> nth_error (t_data b) c = Some y -> nth_error (t_data u) c = Some (add x y).
  Proof using Type.
    intros Wa Wb S Dv. unfold zip_same. rewrite <- S, shape_eqb_refl, <- Dv, device_eqb_refl. cbn [andb]. eexists. split; [reflexivity|]. cbn [t_dev t_shape t_data].
    assert (Ln : length (t_data a) = length (t_data b)) by (unfold wf in *; congruence).
    split; [unfold wf in *; cbn [t_data t_shape]; rewrite map_length, combine_length, <- Ln, Nat.min_id; exact Wa|]. split; [reflexivity|]. split; [reflexivity|].
    intros c x y Ex Ey. apply (map_nth_error (fun xy => add (fst xy) (snd xy)) c (combine (t_data a) (t_data b)) (combine_at _ _ c x y Ex Ey)).
  Qed.
  Lemma merge_step F G leaf acc gs : upto F leaf acc -> upto G leaf gs -> exists acc', mapM (fun x => merge add (fst x) (snd x)) (combine acc gs) = Ok acc' /\ upto (fun q c => add (F q c) (G q c)) leaf acc'.
  Proof using R.
    unfold upto. intros Fa. revert gs. induction Fa as [|lf a leaf acc Ha Fa IH]; intros gs Fg; inversion Fg as [|? g ? gs' Hg Fg']; subst; [exists []; split; [reflexivity|constructor]|].
    destruct (IH gs' Fg') as (acc' & Ea & Fa'). cbn [combine mapM fst snd].
    assert (K : exists x, merge add a g = Ok x /\ match x with
      | Some t => wf t /\ t_dev t = t_dev (snd lf) /\ t_shape t = t_shape (snd lf) /\ forall c, c < numel (t_shape (snd lf)) -> nth_error (t_data t) c = Some (add (F (fst lf) c) (G (fst lf) c))
      | None => forall c, c < numel (t_shape (snd lf)) -> add (F (fst lf) c) (G (fst lf) c) = zero end).
    { destruct a as [a|], g as [g|]; cbn [merge].
      - destruct Ha as (A1 & A2 & A3 & A4), Hg as (B1 & B2 & B3 & B4). destruct (zip_nth a g A1 B1) as (u & -> & U1 & U2 & U3 & U4); [congruence|congruence|]. cbn [bind]. eexists. split; [reflexivity|]. cbn beta iota. split; [exact U1|]. split; [congruence|]. split; [congruence|].
        intros c Hcl. apply U4; [exact (A4 c Hcl)|exact (B4 c Hcl)].
      - destruct Ha as (A1 & A2 & A3 & A4). eexists. split; [reflexivity|]. cbn beta iota. split; [exact A1|]. split; [exact A2|]. split; [exact A3|]. intros c Hcl. rewrite (A4 c Hcl), (Hg c Hcl). f_equal. ring.
      - destruct Hg as (B1 & B2 & B3 & B4). eexists. split; [reflexivity|]. cbn beta iota. split; [exact B1|]. split; [exact B2|]. split; [exact B3|]. intros c Hcl. rewrite (B4 c Hcl), (Ha c Hcl). f_equal. ring.
      - eexists. split; [reflexivity|]. cbn beta iota. intros c Hcl. rewrite (Ha c Hcl), (Hg c Hcl). ring. }
    destruct K as (x & Ex & Hx). rewrite Ex. cbn [bind]. rewrite Ea. cbn [bind]. exists (x :: acc'). split; [reflexivity|]. constructor; assumption.
  Qed.
  Lemma term_seed_ok o ob (odata : tensor V) : In (o, ob) (em_outs m) -> t_dev odata = d -> t_shape odata = C ++ ob ->
    exists w, term_seed W o odata = Ok w /\ wf w /\ t_dev w = d /\ t_shape w = C ++ ob /\ forall r, nth r (t_data w) zero = cotangent zero W o r.
  Proof using cots.
    intros Io Dv Sh. destruct (cots o ob Io) as (w & Lw & Ww & Dw & Sw). exists w. unfold term_seed, cotangent. rewrite Lw, Dw, Dv, device_eqb_refl, Sh, Sw.
    assert (Is : infer_size (C ++ ob) (C ++ ob) = Ok (C ++ ob)) by (apply infer_broadcast; split; [apply le_n|intros p n k E1 E2; left; rewrite E1 in E2; injection E2 as E2; exact E2]). rewrite Is. cbn [bind]. rewrite shape_eqb_refl. rewrite <- Sw at 1. rewrite (expand_same w Ww). auto.
  Qed.
  Lemma accumulate_ok J leaf outs trs : forall F acc, incl outs (em_outs m) ->
    Forall2 (fun o tr => wf (w_data (tr_out tr)) /\ t_dev (w_data (tr_out tr)) = d /\ t_shape (w_data (tr_out tr)) = C ++ snd o /\
      match tr_grad tr with
      | Some g => forall w, wf w -> t_dev w = d -> t_shape w = C ++ snd o -> Forall2 (pulls zero add mul J (fst o) (numel (C ++ snd o)) w) leaf (g w)
      | None => forall lf r c, In lf leaf -> r < numel (C ++ snd o) -> c < numel (t_shape (snd lf)) -> J (fst o) (fst lf) r c = zero
      end) outs trs -> upto F leaf acc ->
    exists terms, mapM (fun x => let* w := term_seed W (fst (fst x)) (w_data (tr_out (snd x))) in Ok (snd x, w)) (combine outs trs) = Ok terms /\ map fst terms = trs /\
      exists acc', accumulate add acc terms = Ok acc' /\ upto (fun q c => fold_left add (map (term J q c) outs) (F q c)) leaf acc'.
  Proof using R cots ws ad.
    revert trs. induction outs as [|[o ob] outs IH]; intros trs F acc Inc Fd Hu; (destruct trs as [|tr trs']; [try (inversion Fd; fail)|try (inversion Fd; fail)]).
    - exists []. split; [reflexivity|]. split; [reflexivity|]. exists acc. split; [reflexivity|exact Hu].
    - inversion_clear Fd as [|? ? ? ? H Fd']. destruct H as (Wt & Dv & Sh & G). cbn [fst snd] in Sh, G.
      destruct (term_seed_ok o ob _ (Inc _ (or_introl eq_refl)) Dv Sh) as (w & Ew & Ww & Dw & Sw & Nw). cbn [combine mapM fst snd] in *. rewrite Ew. cbn [bind].
      assert (Z : forall q c, term J q c (o, ob) = sum_to (numel (C ++ ob)) (fun r => mul (nth r (t_data w) zero) (J o q r c))) by (intros q c; unfold term; cbn [fst snd]; apply sum_to_ext; intros r _; rewrite Nw; reflexivity).
      assert (K : exists acc1, (match tr_grad tr with None => Ok acc | Some g => mapM (fun x => merge add (fst x) (snd x)) (combine acc (g w)) end) = Ok acc1 /\ upto (fun q c => add (F q c) (term J q c (o, ob))) leaf acc1).
      { destruct (tr_grad tr) as [g|].
        - apply merge_step; [exact Hu|]. specialize (G w Ww Dw Sw). unfold upto. revert G. apply f2_weak. intros lf [t|].
          + intros (A1 & A2 & A3 & A4). split; [exact A1|]. split; [exact A2|]. split; [exact A3|]. intros c Hcl. rewrite Z. exact (A4 c Hcl).
          + intros H c Hcl. rewrite Z. apply (sum_zero zero one add mul sub opp R). intros x Ix. apply in_map_iff in Ix as (r & <- & Ir). apply in_seq in Ir. rewrite (H r c) by lia. ring.
        - exists acc. split; [reflexivity|]. assert (Zt : forall lf c, In lf leaf -> c < numel (t_shape (snd lf)) -> term J (fst lf) c (o, ob) = zero).
          { intros lf c Il Hcl. rewrite Z. apply (sum_zero zero one add mul sub opp R). intros x Ix. apply in_map_iff in Ix as (r & <- & Ir). apply in_seq in Ir. rewrite (G lf r c) by (try exact Il; lia). ring. }
          clear - R Hu Zt. unfold upto in *. induction Hu as [|lf a leaf acc Ha Hu IHu]; constructor; [|apply IHu; intros l c Il; apply Zt; right; exact Il].
          destruct a as [t|]; [destruct Ha as (A1 & A2 & A3 & A4); split; [exact A1|]; split; [exact A2|]; split; [exact A3|]; intros c Hcl; rewrite (A4 c Hcl), (Zt lf c (or_introl eq_refl) Hcl); f_equal; ring|].
          intros c Hcl. rewrite (Ha c Hcl), (Zt lf c (or_introl eq_refl) Hcl). ring. }
      destruct K as (acc1 & E1 & U1). destruct (IH trs' _ acc1 (fun x Ix => Inc x (or_intror Ix)) Fd' U1) as (terms & Et & Kt & acc' & Ea & Ua). exists ((tr, w) :: terms). rewrite Et. cbn [bind]. split; [reflexivity|]. split; [cbn; f_equal; exact Kt|].
      exists acc'. split; [|exact Ua]. cbn [accumulate]. destruct (tr_grad tr) as [g|]; [rewrite E1; exact Ea|injection E1 as ->; exact Ea].
  Qed.
  Lemma param_vjp_ok trs J : ad (values P) args = Ok trs -> (forall q p, In (q, p) P -> wf (ep_val p)) ->
    differentiates zero add mul m d C (values P) trs J -> (P <> [] -> Exists (fun tr => tr_grad tr <> None) trs) ->
    exists r, eager_param_vjp zero add m ad P I W = (P, Ok r) /\ sorted r /\ (forall q, lookup q r <> None <-> In q (keys P)) /\
      forall q p, In (q, p) P -> exists t, lookup q r = Some t /\ wf t /\ t_dev t = t_dev (ep_val p) /\ t_shape t = t_shape (ep_val p) /\
        forall c, c < numel (t_shape (ep_val p)) -> nth_error (t_data t) c = Some (loss_slope zero add mul m C J W q c).
  Proof using in_names out_names R par_names wf_in takes args_are runs gives cots.
    intros Ha Wp Hd Ht. unfold eager_param_vjp, adapter_param_vjp. rewrite (typed_lifted m I D args wf_in takes args_are). cbn [bind]. rewrite (eval_ok m P args None ws v vals runs gives). cbn [bind].
    assert (G : exists l, ad_param_vjp zero add m ad P args W = (P, Ok l) /\ Forall2 (fun p x => fst x = fst p /\ (wf (snd x) /\ t_dev (snd x) = t_dev (ep_val (snd p)) /\ t_shape (snd x) = t_shape (ep_val (snd p)) /\
        forall c, c < numel (t_shape (ep_val (snd p))) -> nth_error (t_data (snd x)) c = Some (loss_slope zero add mul m C J W (fst p) c))) P l).
    { assert (EP : P = [] \/ exists p0 P0, P = p0 :: P0) by (destruct P; eauto). destruct EP as [EP|(p0 & P0 & EP)]; [rewrite EP; exists []; split; [reflexivity|constructor]|]. assert (Ne : P <> []) by (rewrite EP; discriminate). specialize (Ht Ne).
      assert (Eu : ad_param_vjp zero add m ad P args W = with_swapped P (values P) (fun Q => let* trs := ad (values Q) args in param_adjoint zero add m (values P) W trs)) by (rewrite EP; reflexivity). rewrite Eu. clear Eu.
      unfold with_swapped. rewrite (swap_restores (values P) P) by (rewrite values_keys; exact par_names). rewrite (installed P (values P) par_names (values_keys P)), Ha. cbn [bind].
      unfold param_adjoint. rewrite (f2_len _ _ _ Hd), Nat.eqb_refl.
      assert (U0 : upto (fun _ _ => zero) (values P) (repeat None (length (values P)))). { unfold upto. generalize (values P). clear. intros l. induction l as [|x l IH]; cbn [length repeat]; constructor; [reflexivity|exact IH]. }
      destruct (accumulate_ok J (values P) (em_outs m) trs (fun _ _ => zero) _ (incl_refl _) Hd U0) as (terms & Et & Kt & acc & Ea & Ua). rewrite Et. cbn [bind].
      assert (El : loss_grad add (length (values P)) terms = Ok acc).
      { unfold loss_grad. assert (X : existsb (fun x : tracked V * tensor V => match tr_grad (fst x) with Some _ => true | None => false end) terms = true).
        { apply existsb_exists. apply Exists_exists in Ht as (tr & It & Nt). rewrite <- Kt in It. apply in_map_iff in It as (x & Ex & Ix). exists x. split; [exact Ix|]. rewrite Ex. destruct (tr_grad tr); [reflexivity|contradiction]. }
        rewrite X. exact Ea. }
      rewrite El. cbn [bind]. unfold filled. rewrite (f2_len _ _ _ Ua), Nat.eqb_refl. cbn [bind]. eexists. split; [reflexivity|].
      assert (Q : forall q c, fold_left add (map (term J q c) (em_outs m)) zero = loss_slope zero add mul m C J W q c).
      { intros q c. unfold loss_slope. change (map _ (em_outs m)) with (map (term J q c) (em_outs m)). rewrite (sums_fold zero one add mul sub opp R). ring. }
      clear - Ua Q. unfold upto in Ua. revert acc Ua. generalize P. intros P0. induction P0 as [|[q p] P0 IH]; intros acc Ua; inversion Ua as [|? a ? acc' Hh Ua']; subst; [constructor|]. cbn [values map fst snd combine] in *. constructor; [|exact (IH acc' Ua')].
      cbn [fst snd]. split; [reflexivity|]. destruct a as [t|].
      - destruct Hh as (A1 & A2 & A3 & A4). split; [exact A1|]. split; [exact A2|]. split; [exact A3|]. intros c Hcl. rewrite (A4 c Hcl), Q. reflexivity.
      - split; [apply zeros_wf|]. split; [reflexivity|]. split; [reflexivity|]. intros c Hcl. unfold zeros. cbn [t_data]. rewrite nth_error_repeat by exact Hcl. rewrite <- Q, (Hh c Hcl). reflexivity. }
    destruct G as (l & El & Fl). rewrite El. cbn [bind guarded]. eexists. split; [reflexivity|]. destruct (cast_map_ok l) as (S & K & E).
    rewrite (f2_keys (fun p x => wf (snd x) /\ t_dev (snd x) = t_dev (ep_val (snd p)) /\ t_shape (snd x) = t_shape (ep_val (snd p)) /\
        forall c, c < numel (t_shape (ep_val (snd p))) -> nth_error (t_data (snd x)) c = Some (loss_slope zero add mul m C J W (fst p) c)) _ _ Fl) in K, E. split; [exact S|]. split; [exact K|].
    intros q p Ip. destruct (f2_key (fun p x => wf (snd x) /\ t_dev (snd x) = t_dev (ep_val (snd p)) /\ t_shape (snd x) = t_shape (ep_val (snd p)) /\
        forall c, c < numel (t_shape (ep_val (snd p))) -> nth_error (t_data (snd x)) c = Some (loss_slope zero add mul m C J W (fst p) c)) _ _ _ Fl Ip) as (t & It & Ht'). cbn [fst snd] in *. exists t. split; [exact (E par_names q t It)|exact Ht'].
  Qed.
End Calls.

(** The gradient as the contraction of the blocks with the cotangents. *)
Section Adjoint.
  Context {V : Type}.
  Variables zero one : V.
  Variables add mul sub : V -> V -> V.
  Variable opp : V -> V.
  Hypothesis R : ring_theory zero one add mul sub opp eq.
  Notation sum_to := (sum_to zero add).
  Variable m : emodel V.
  Variable d : device.
  Variable C : list nat.
  Lemma block_flat (J : slopes V) o ob q p batch base t b i c : plain_param d q p batch base -> block_ok d C J o ob q p t -> b < numel C -> i < numel ob -> c < numel base ->
    nth ((b * numel ob + i) * numel base + c) (t_data t) zero = J o q (b * numel ob + i) (b * numel base + c).
  Proof using Type.
    intros Hp (batch' & base' & Hp' & _ & _ & Sh & E) Hb Hi Hc. assert (base' = base) by (rewrite <- (plain_base _ _ _ _ _ Hp'); exact (plain_base _ _ _ _ _ Hp)). subst base'.
    destruct (unravel C b Hb) as (e & Ie & Re). destruct (unravel ob i Hi) as (x & Ix & Rx). destruct (unravel base c Hc) as (y & Iy & Ry). specialize (E e x y Ie Ix Iy). unfold elem in E. rewrite Sh in E.
    pose proof (PackProofs.index_length _ _ Ie) as Le. pose proof (PackProofs.index_length _ _ Ix) as Lx. rewrite !ravel_app in E by assumption. rewrite numel_app, Re, Rx, Ry in E.
    apply nth_error_nth. rewrite <- E. f_equal. nia.
  Qed.
  Lemma shared_slope (P : eparams V) (J0 J : slopes V) o ob q p batch base b i c : In (o, ob) (em_outs m) -> In (q, p) P -> plain_param d q p batch base ->
    own_copy zero m d C P J -> shares zero add m C J0 J q (numel base) -> b < numel C -> i < numel ob -> c < numel base ->
    J0 o q (b * numel ob + i) c = J o q (b * numel ob + i) (b * numel base + c).
  Proof using R.
    intros Io Ip Hp Own Sh Hb Hi Hc. rewrite (Sh o ob _ c Io) by (try rewrite numel_app; nia).
    rewrite (sum_single zero one add mul sub opp R (numel C) _ b Hb); [reflexivity|]. intros b' Hb' N. apply (Own o ob q p batch base b b' i c Io Ip Hp Hb Hb' (not_eq_sym N) Hi Hc).
  Qed.
  Lemma contracted (P : eparams V) (J0 J : slopes V) (B : smap (smap (tensor V))) W q p base c : In (q, p) P -> plain_param d q p [] base -> own_copy zero m d C P J -> shares zero add m C J0 J q (numel base) ->
    (forall o ob, In (o, ob) (em_outs m) -> exists t, block B o q = Some t /\ block_ok d C J o ob q p t) -> c < numel base ->
    loss_slope zero add mul m C J0 W q c =
    sum zero add (map (fun o => sum_to (numel (C ++ snd o)) (fun r => mul (cotangent zero W (fst o) r)
       match block B (fst o) q with Some t => nth (r * numel base + c) (t_data t) zero | None => zero end)) (em_outs m)).
  Proof using R.
    intros Ip Hp Own Sh Hb Hc. unfold loss_slope. f_equal. apply map_ext_in. intros [o ob] Io. cbn [fst snd]. apply sum_to_ext. intros r Hr. f_equal. destruct (Hb o ob Io) as (t & -> & Bt).
    rewrite numel_app in Hr. assert (Nz : numel ob <> 0) by nia. pose proof (Nat.div_mod r (numel ob) Nz) as Dm. pose proof (Nat.mod_upper_bound r (numel ob) Nz) as Mu. set (b := r / numel ob) in *. set (i := r mod numel ob) in *.
    assert (Hbl : b < numel C) by nia. replace r with (b * numel ob + i) by lia.
    rewrite (block_flat J o ob q p [] base t b i c Hp Bt Hbl Mu Hc). exact (shared_slope P J0 J o ob q p [] base b i c Io Ip Hp Own Sh Hbl Mu Hc).
  Qed.
End Adjoint.

(** A model with parameters does not take fewer cotangents than outputs, nor cotangents on another device. *)
Section Needed.
  Context {V : Type}.
  Lemma guarded_is_err {X} op (r : result X) e : r = Err e -> exists e', guarded op r = Err e'.
  Proof. intros ->. destruct e; eexists; reflexivity. Qed.
  Lemma mapM_missed {X Y} (f : X -> result Y) l x : In x l -> (exists e, f x = Err e) -> exists e, mapM f l = Err e.
  Proof.
    intros I [e E]. induction l as [|y l IH]; [destruct I|]. cbn [mapM]. destruct I as [->|I]; [rewrite E; eexists; reflexivity|].
    destruct (f y); [|eexists; reflexivity]. cbn [bind]. destruct (IH I) as [e' ->]. eexists; reflexivity.
  Qed.
  Lemma in_combine_left {X Y} (l : list X) (r : list Y) x : length l = length r -> In x l -> exists y, In (x, y) (combine l r) /\ In y r.
  Proof.
    revert r. induction l as [|a l IH]; intros [|b r] E I; try discriminate; [destruct I|]. destruct I as [->|I]; [exists b; split; left; reflexivity|].
    injection E as E. destruct (IH r E I) as (y & I1 & I2). exists y. split; right; assumption.
  Qed.
  Lemma cotangents_needed zero add (m : emodel V) ad (P : eparams V) I W d o : P <> [] -> NoDup (keys P) ->
    (forall args trs, ad (values P) args = Ok trs -> Forall (fun tr => t_dev (w_data (tr_out tr)) = d) trs) ->
    In o (map fst (em_outs m)) -> lookup o W = None \/ (exists w, lookup o W = Some w /\ t_dev w <> d) ->
    fst (eager_param_vjp zero add m ad P I W) = P /\ exists e, snd (eager_param_vjp zero add m ad P I W) = Err e.
  Proof.
    intros Np N Hd Io C. split; [apply (restored_all zero zero add m ad P I W N)|].
    assert (B : exists e, snd (adapter_param_vjp zero add m ad P I W) = Err e).
    { unfold adapter_param_vjp. destruct (let* args := typed_args m I in _) as [args|e]; [|exists e; reflexivity].
      unfold ad_param_vjp. destruct P as [|p0 P0]; [congruence|]. set (PP := p0 :: P0) in *. unfold with_swapped. cbn [snd].
      assert (Es : values (install PP (values PP)) = values PP) by (apply installed; [exact N|unfold values, keys; rewrite map_map; reflexivity]). rewrite Es.
      destruct (ad (values PP) args) as [trs|e] eqn:Ea; [|exists e; reflexivity]. cbn [bind]. unfold param_adjoint.
      destruct (Nat.eqb (length (em_outs m)) (length trs)) eqn:El; [|eexists; reflexivity]. apply Nat.eqb_eq in El.
      apply in_map_iff in Io. destruct Io as ([o' ob] & E' & Io). cbn in E'. subst o'. destruct (in_combine_left _ _ _ El Io) as (tr & I1 & I2).
      pose proof (Hd _ _ Ea) as F. rewrite Forall_forall in F. specialize (F _ I2).
      match goal with |- exists e, bind (mapM ?f ?l) _ = _ => destruct (mapM_missed f l ((o, ob), tr) I1) as [e ->] end; [|exists e; reflexivity].
      cbn [fst snd]. unfold term_seed. destruct C as [C|(w & C & Nd)]; rewrite C; [eexists; reflexivity|]. rewrite F.
      destruct (device_eqb (t_dev w) d) eqn:Ed; [apply device_eqb_eq in Ed; congruence|eexists; reflexivity]. }
    unfold eager_param_vjp. destruct (adapter_param_vjp zero add m ad P I W) as [P' r]. cbn [snd] in *. destruct B as [e ->]. cbn [bind]. apply (guarded_is_err "param_vjp" _ e). reflexivity.
  Qed.
End Needed.
