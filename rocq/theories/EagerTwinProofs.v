(** Proofs about the eager model (EagerModel.v): against the compiled model of the same equations, and its parameters. *)
From Verif Require Import Base BaseProofs Tensor TensorProofs Spec SpecMap SmapProofs Broadcast SpecBroadcast BroadcastProofs Pack PackProofs Implicit Substep Mat Jac SubstepJac JacModel ParamJac FwdModel SpecJac SpecAlgebra SpecValue MatProofs AlgebraProofs JacProofs JacMainProofs JacExactProofs ValueProofs Prop_Jac Prop_Value EagerModel SpecEagerModel EagerModelProofs EagerSeedProofs EagerCallProofs.
From Coq Require Import Ring.
Local Open Scope list_scope.

Lemma existsb_names {X} n (l : list (string * X)) : existsb (String.eqb n) (map fst l) = true <-> In n (map fst l).
Proof. rewrite existsb_exists. split; [intros (x & Ix & E); apply String.eqb_eq in E; congruence|intros H; exists n; split; [exact H|apply String.eqb_refl]]. Qed.

Section Twin.
  Context {V : Type}.
  Notation vmap := (smap (tensor V)).
  Variable A : arith V.
  Variable opp : V -> V.
  Hypothesis R : ring_theory (a_zero A) (a_one A) (a_add A) (a_mul A) (a_sub A) opp eq.
  Variable neg : V -> V.
  Variable par : string -> result (tensor V).
  Variable base_ndim : smap nat.
  Variable capture : bool.
  Variable m : emodel V.
  Variable jm : jmodel V.
  Variable P : eparams V.
  Variables I st' : vmap.
  Variable D : list nat.
  Variable size : string -> nat.
  Variable d : device.
  Variable lins : list (list nat -> lin V).
  Variables (args : list (wrapper V)) (vals : list (tensor V)).
  Hypothesis names : named m.
  Hypothesis tw : twin m jm.
  Hypothesis wf_in : given_wf m I.
  Hypothesis takes : welcome m I D.
  Hypothesis on_d : all_on m I d.
  Hypothesis args_are : lifted m I D args.
  Hypothesis ev : evaluated (a_zero A) neg par base_ndim jm I D size d lins st'.
  Hypothesis vals_are : Forall2 (fun o t => lookup (fst o) st' = Some t) (em_outs m) vals.
  Let L (e : list nat) : list (lin V) := rev (map (fun l => l e) lins).

  (** The two maps of outputs. *)
  Lemma outputs_same (r outs : vmap) : outputs_are m r vals -> (forall n, lookup n outs = if existsb (String.eqb n) (map fst (jm_outs jm)) then lookup n st' else None) -> forall n, lookup n r = lookup n outs.
  Proof using tw vals_are.
    intros (_ & K & F) H n. rewrite H, (proj2 tw). destruct (existsb (String.eqb n) (map fst (em_outs m))) eqn:X.
    - apply existsb_names in X. clear - X F vals_are. revert vals F vals_are. induction (em_outs m) as [|o outs IH]; intros vs F G; [destruct X|]. inversion F as [|? t ? vs' Ft F']; subst. inversion G as [|? ? ? ? Gt G']; subst.
      destruct X as [<-|X]; [congruence|exact (IH X vs' F' G')].
    - destruct (lookup n r) eqn:Q; [|reflexivity]. assert (X' : In n (map fst (em_outs m))) by (apply K; congruence). apply existsb_names in X'. congruence.
  Qed.

  Lemma twin_forward ws v : em_native m (values P) args None = Ok (ws, v) -> returned m ws vals ->
    forall (T outs r : vmap), coherent (jm_segs jm) -> jvp A neg (dotx (a_zero A) (a_add A) (a_mul A)) par base_ndim capture jm I T = Ok (outs, r) ->
    (forall n, lookup n outs = if existsb (String.eqb n) (map fst (jm_outs jm)) then lookup n st' else None) ->
    exists re rc, eager_forward m P I = Ok re /\ forward_of A par base_ndim capture jm I = Ok rc /\ forall n, lookup n re = lookup n rc.
  Proof using names tw wf_in takes args_are vals_are.
    intros En Hr T outs r Co E Ho. destruct (forward_ok m (proj2 names) P I D args ws v vals wf_in takes args_are En Hr) as (re & Ee & Oe).
    exists re, outs. split; [exact Ee|]. split; [exact (C55_jvp_values _ A neg _ par base_ndim capture jm I T outs r Co E)|]. exact (outputs_same re outs Oe Ho).
  Qed.

  Lemma inputs_some : em_ins m <> [].
  Proof using ev tw.
    destruct ev as (_ & _ & _ & _ & _ & i0 & rest & _ & _ & _ & _ & E & _). rewrite (proj1 tw) in E. intros X. rewrite X in E. discriminate.
  Qed.
  Lemma outs_some : em_outs m <> [].
  Proof using ev tw.
    destruct ev as (_ & _ & Nd & _ & H & _). destruct (jm_derivs jm) as [|[o i] l]; [contradiction|]. destruct (H o i (or_introl eq_refl)) as [(ob & Io) _]. rewrite (proj2 tw) in Io. intros X. rewrite X in Io. destruct Io.
  Qed.

  Lemma twin_jvp T : NoDup (jm_derivs jm) -> tangents_ok m T d D -> carries m (a_zero A) (a_add A) (a_mul A) d D 0 (values P) args vals L -> values_over m d D vals ->
    exists re te rc tc, eager_jvp (a_zero A) (a_add A) m P I T = Ok (re, te) /\ jvp A neg (dotx (a_zero A) (a_add A) (a_mul A)) par base_ndim capture jm I T = Ok (rc, tc) /\
      (forall n, lookup n re = lookup n rc) /\ (forall n, lookup n rc = if existsb (String.eqb n) (map fst (jm_outs jm)) then lookup n st' else None) /\
      forall o, In o (map fst (em_outs m)) -> (forall i, In i (map fst (em_ins m)) -> In (o, i) (jm_derivs jm)) -> lookup o te = lookup o tc.
  Proof using R names tw wf_in takes on_d args_are ev vals_are.
    intros Nd Ht Hn Hv. pose proof inputs_some as Hi.
    destruct (jvp_ok_ m (proj1 names) (proj2 names) _ _ _ _ _ _ R P I D d wf_in takes on_d args args_are vals L T Ht Hi Hn Hv) as (re & te & Ee & Oe & _ & He).
    destruct (C28_exact V A opp neg par base_ndim capture jm I st' D size d lins T R ev Nd) as (rc & tc & Ec & Oc & Kc & Hc).
    { intros o i t Ii _ Lt. rewrite (proj1 tw) in Ii. apply in_map_iff in Ii as (i' & <- & Ii). exact (Ht i' t Ii Lt). }
    exists re, te, rc, tc. split; [exact Ee|]. split; [exact Ec|]. split; [exact (outputs_same re rc Oe Oc)|]. split; [exact Oc|].
    intros o Io Hp. apply in_map_iff in Io as ([o' ob] & <- & Io). cbn [fst] in *. destruct (He o' ob Io) as (u & Lu & Wu & Du & Su & Eu). rewrite Lu.
    destruct (lookup o' tc) as [u'|] eqn:Lc.
    - f_equal. assert (Io' : In (o', ob) (jm_outs jm)) by (rewrite (proj2 tw); exact Io). destruct (Hc o' ob u' Io' Lc) as (Wc & Dc & Sc & Ec'). apply tensor_ext; [exact Wu|exact Wc|congruence|congruence|].
      intros idx Ii. rewrite Su in Ii. apply index_split in Ii as (e & x & -> & Ie & Ix). rewrite (Eu e x Ie Ix), (Ec' e x Ie Ix). f_equal.
      apply (push_ext _ _ _ _ _ _ R). intros v r. unfold tangent, seed. rewrite (proj1 tw). clear - Hp.
      assert (F : find (fun info => String.eqb (in_name info) v) (map plain (em_ins m)) = option_map plain (find (fun i => String.eqb (fst i) v) (em_ins m))).
      { induction (em_ins m) as [|i ins IH]; [reflexivity|]. cbn [map find]. change (in_name (plain i)) with (fst i). destruct (String.eqb (fst i) v); [reflexivity|]. apply IH. intros j Ij. apply Hp. right. exact Ij. }
      rewrite F. destruct (find (fun i => String.eqb (fst i) v) (em_ins m)) as [i|] eqn:Fi; [|reflexivity]. cbn [option_map]. apply find_some in Fi as [Ii E]. apply String.eqb_eq in E. subst v.
      assert (X : existsb (String.eqb (fst i)) (paired (jm_derivs jm) o') = true).
      { apply existsb_exists. exists (fst i). split; [|apply String.eqb_refl]. unfold paired. apply in_map_iff. exists (o', fst i). split; [reflexivity|]. apply filter_In. split; [apply Hp, in_map; exact Ii|apply String.eqb_refl]. }
      rewrite X. reflexivity.
    - exfalso. assert (X : lookup o' tc <> None); [|congruence]. apply Kc. destruct (em_ins m) as [|i ins]; [contradiction|]. exists (fst i). apply Hp. left. reflexivity.
  Qed.

  Lemma twin_jacobian : ~ single_forward jm -> calls_at P D D -> carries m (a_zero A) (a_add A) (a_mul A) d D 1 (values P) args vals L -> values_over m d D vals ->
    exists re je rc jc, eager_jacobian (a_zero A) (a_one A) m P I = Ok (re, je) /\ jacobian A neg (dotx (a_zero A) (a_add A) (a_mul A)) par base_ndim capture jm I = Ok (rc, jc) /\
      (forall n, lookup n re = lookup n rc) /\ forall o i, In (o, i) (jm_derivs jm) -> block je o i <> None /\ block je o i = block jc o i.
  Proof using R names tw wf_in takes on_d args_are ev vals_are.
    intros Ns Hc Hn Hv.
    destruct (jacobian_ok m (proj1 names) (proj2 names) _ _ _ _ _ _ R P I D D d wf_in takes on_d args args_are vals L outs_some Hc Hn Hv) as (re & je & Ee & Oe & He & _).
    destruct (C26_composed V A neg (dotx (a_zero A) (a_add A) (a_mul A)) par base_ndim capture jm I st' D size d lins ev Ns) as (rc & jc & Ec & Oc & Hcc & _).
    exists re, je, rc, jc. split; [exact Ee|]. split; [exact Ec|]. split; [exact (outputs_same re rc Oe Oc)|].
    intros o i Ip. destruct (Hcc o i Ip) as (ob & info & t & Io & Ii & Ei & Bt & Wt & Dt & St & Et). rewrite (proj2 tw) in Io. rewrite (proj1 tw) in Ii. apply in_map_iff in Ii as ([i' ib] & <- & Ii).
    cbn [plain in_name in_base fst snd] in *. subst i'. destruct (He o ob i ib Io Ii) as (t' & Bt' & Wt' & Dt' & St' & Et'). rewrite Bt, Bt'. split; [discriminate|]. f_equal.
    apply tensor_ext; [exact Wt'|exact Wt|congruence|congruence|]. intros idx Hi. rewrite St' in Hi. apply index_split in Hi as (e & xy & -> & Ie & Hxy). apply index_split in Hxy as (x & y & -> & Ix & Iy).
    rewrite (Et e x y Ie Ix Iy). exact (Et' e x y Ie Ix Iy).
  Qed.
End Twin.

(** ** Parameters *)
Section Params.
  Context {V : Type}.
  Notation vmap := (smap (tensor V)).

  Lemma replace_keys (P : eparams V) n p : keys (replace P n p) = keys P.
  Proof. induction P as [|[k q] P IH]; [reflexivity|]. cbn. destruct (String.eqb_spec k n); [reflexivity|]. cbn. f_equal. exact IH. Qed.
  Lemma replace_same (P : eparams V) n p q : lookup n P = Some q -> lookup n (replace P n p) = Some p.
  Proof.
    induction P as [|[k r] P IH]; [discriminate|]. cbn. destruct (String.eqb_spec k n) as [->|Ne]; cbn; intros E.
    - rewrite String.eqb_refl. reflexivity.
    - destruct (String.eqb_spec n k) as [->|]; [congruence|]. exact (IH E).
  Qed.
  Lemma replace_other (P : eparams V) n p k : k <> n -> lookup k (replace P n p) = lookup k P.
  Proof.
    intros Ne. induction P as [|[j r] P IH]; [reflexivity|]. cbn. destruct (String.eqb_spec j n) as [->|]; cbn.
    - destruct (String.eqb_spec k n); [contradiction|reflexivity].
    - destruct (String.eqb_spec k j); [reflexivity|exact IH].
  Qed.
  Lemma named_lookup (P : eparams V) n : NoDup (keys P) -> lookup n (eager_named_parameters P) = option_map (fun p => ep_val p) (lookup n P).
  Proof.
    intros Nd. unfold eager_named_parameters. destruct (cast_map_ok (values P)) as (_ & K & E). assert (Kv : map fst (values P) = keys P) by (unfold values, keys; rewrite map_map; reflexivity). rewrite Kv in K, E.
    destruct (lookup n P) as [p|] eqn:L.
    - cbn. apply (E Nd). unfold values. apply in_map_iff. exists (n, p). split; [reflexivity|]. exact (lookup_in _ _ _ L).
    - cbn. destruct (lookup n (cast_map (values P))) eqn:Q; [|reflexivity]. exfalso. assert (X : In n (keys P)) by (apply K; congruence). apply in_map_iff in X as ([k p] & E' & I'). cbn in E'. subst k. rewrite (lookup_nodup _ _ _ Nd I') in L. discriminate.
  Qed.
  Lemma set_value_to (p : eparam V) v : wf v -> ep_base (set_value p v) = ep_base p /\ ep_sub (set_value p v) = ep_sub p /\
    (broadcastable (t_shape v) (t_shape (ep_val p)) -> t_shape (ep_val (set_value p v)) = t_shape (ep_val p) /\ broadcasts (to_dev (t_dev (ep_val p)) v) (ep_val (set_value p v))) /\
    (~ broadcastable (t_shape v) (t_shape (ep_val p)) -> ep_val (set_value p v) = to_dev (t_dev (ep_val p)) v).
  Proof.
    intros W. set (v' := to_dev (t_dev (ep_val p)) v). assert (Wv : wf v') by exact W. assert (Sv : t_shape v' = t_shape v) by reflexivity.
    assert (Hb : forall s, infer_size (t_shape v) (t_shape (ep_val p)) = Ok s <-> broadcast_of [t_shape v; t_shape (ep_val p)] s).
    { intros s. rewrite <- infer_all_iff. cbn [infer_all]. assert (E0 : infer_size [] (t_shape v) = Ok (t_shape v)) by (unfold infer_size; cbn; rewrite rev_involutive; reflexivity). rewrite E0. cbn [bind]. destruct (infer_size (t_shape v) (t_shape (ep_val p))) as [z|z]; cbn [bind]; (split; intros X; exact X). }
    unfold set_value. fold v'. rewrite Sv.
    assert (Hf : broadcastable (t_shape v) (t_shape (ep_val p)) <-> infer_size (t_shape v) (t_shape (ep_val p)) = Ok (t_shape (ep_val p))).
    { rewrite Hb. split.
      - intros [Le H]. split.
        + intros q. split; [intros Hq; exists (t_shape (ep_val p)); split; [right; left; reflexivity|exact Hq]|]. intros (s & [<-|[<-|[]]] & Hq); lia.
        + intros q n Hn. split; [intros s k [<-|[<-|[]]] Hk; [exact (H q k n Hk Hn)|left; congruence]|]. right. exists (t_shape (ep_val p)). split; [right; left; reflexivity|exact Hn].
      - intros Hs. pose proof (acceptable_fits _ _ Hs) as F. inversion F as [|? ? [L1 L2] _]; subst. split; assumption. }
    destruct (infer_size (t_shape v) (t_shape (ep_val p))) as [s|e] eqn:E.
    - destruct (shape_eqb s (t_shape (ep_val p))) eqn:Q.
      + apply shape_eqb_eq in Q. subst s. destruct (proj2 Hf eq_refl) as [L1 L2].
        destruct (expand_batch v' (t_shape v) [] (t_shape (ep_val p))) as [u U]; [rewrite app_nil_r; exact Sv|exact L1|exact L2|]. rewrite app_nil_r in U. rewrite U. cbn. split; [reflexivity|]. split; [reflexivity|]. split; [intros _|intros X; exfalso; apply X; split; assumption].
        exact (expand_ok v' u _ Wv U).
      + cbn. split; [reflexivity|]. split; [reflexivity|]. split; [|reflexivity]. intros X. apply Hf in X. injection X as ->. rewrite shape_eqb_refl in Q. discriminate.
    - cbn. split; [reflexivity|]. split; [reflexivity|]. split; [|reflexivity]. intros X. apply Hf in X. discriminate.
  Qed.
End Params.
