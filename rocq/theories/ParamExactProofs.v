(** Parameter derivatives in exact arithmetic. *)
From Coq Require Import Ring FinFun.
From Verif Require Import Base BaseProofs SpecMap SmapProofs Tensor Spec TensorProofs Broadcast SpecBroadcast BroadcastProofs Pack PackProofs
     Implicit ImplicitProofs BatchChunk Substep Mat Jac SubstepJac JacModel ParamJac SpecLayout LayoutProofs SpecJac SpecAlgebra SpecParam MatProofs JacProofs JacRunProofs JacMainProofs
     AlgebraProofs JacExactProofs ParamProofs ParamMainProofs ParamVjpProofs.

Lemma length_nil_of {X} (l : list X) n : length l + n = n -> l = [].
Proof. intros H. apply length_zero_iff_nil. lia. Qed.
Lemma indices_app a b : indices (a ++ b) = flat_map (fun i => map (app i) (indices b)) (indices a).
Proof.
  assert (L : length (flat_map (fun i => map (app i) (indices b)) (indices a)) = numel a * numel b).
  { unfold indices at 2. rewrite flat_map_concat_map, map_map, <- flat_map_concat_map.
    rewrite (flat_map_const_length (fun x => map (app (index_at a x)) (indices b)) (numel b)); [reflexivity|]. intros i _. rewrite map_length. apply indices_length. }
  apply list_nth_ext; [rewrite L, indices_length; apply numel_app|]. intros k Hk. rewrite indices_length, numel_app in Hk.
  rewrite indices_nth by (rewrite numel_app; exact Hk). set (i := k / numel b). set (j := k mod numel b).
  assert (Hb : numel b <> 0) by nia. assert (Ek : k = i * numel b + j) by (unfold i, j; rewrite (Nat.div_mod_eq k (numel b)) at 1; lia).
  assert (Hj : j < numel b) by (apply Nat.mod_upper_bound; exact Hb). assert (Hi : i < numel a) by nia.
  unfold indices at 2. rewrite flat_map_concat_map, map_map, <- flat_map_concat_map.
  assert (Lf : forall x, In x (seq 0 (numel a)) -> length (map (app (index_at a x)) (indices b)) = numel b) by (intros x _; rewrite map_length; apply indices_length).
  pose proof (flat_map_nth (fun x => map (app (index_at a x)) (indices b)) (numel b) (numel a) 0 i j Lf Hi Hj) as E. cbn [Nat.add] in E. rewrite Ek, E.
  rewrite (map_nth_error _ _ _ (indices_nth b j Hj)). f_equal.
  destruct (index_at_ok a i Hi) as [Ia Ra]. destruct (index_at_ok b j Hj) as [Ib Rb].
  rewrite <- (index_at_ravel (a ++ b) (index_at a i ++ index_at b j)) by (apply index_app; assumption). f_equal.
  rewrite ravel_app by (apply BroadcastProofs.index_length; exact Ia). rewrite Ra, Rb. reflexivity.
Qed.

Section Exact.
  Context {V : Type}.
  Variable A : arith V.
  Variable opp : V -> V.
  Hypothesis R : ring_theory (a_zero A) (a_one A) (a_add A) (a_mul A) (a_sub A) opp eq.
  Add Ring Vring2 : R.
  Notation vmap := (smap (tensor V)).
  Notation zero := (a_zero A).
  Notation one := (a_one A).
  Notation add := (a_add A).
  Notation mul := (a_mul A).
  Notation sum := (sum zero add).
  Notation sum_to := (sum_to zero add).
  Notation dotx := (dotx zero add mul).
  Notation sens := (param_sensitivity zero add dotx).
  Notation ppush := (ppush zero add mul).
  Notation get := (get zero).

  Lemma sum_cons x l : sum (x :: l) = add x (sum l). Proof. reflexivity. Qed.

  Lemma ppush_is_sens cols (ps : list string) (dp : string -> nat -> V) : NoDup ps -> forall ls,
    (forall l o n k, In l ls -> In (o, n, k) (pl_direct l) -> In n ps) ->
    forall v r, ppush cols ls dp v r = sum (map (fun p => sum_to (cols p) (fun c => mul (sens ls v p r c) (dp p c))) ps).
  Proof using R.
    intros N. set (supp := flat_map (fun p => map (fun c => (p, c)) (seq 0 (cols p))) ps).
    assert (Es : forall F : string -> nat -> V, sum (map (fun p => sum_to (cols p) (F p)) ps) = sum (map (fun pc => F (fst pc) (snd pc)) supp)).
    { intros F. unfold supp. rewrite map_flat, (sum_flat A opp R). f_equal. apply map_ext. intros p. rewrite map_map. reflexivity. }
    induction ls as [|l before IH]; intros H v r.
    - cbn [SpecParam.ppush param_sensitivity]. rewrite Es. symmetry. apply (sum_zero _ _ _ _ _ _ R). intros [p c] _. ring.
    - rewrite Es. assert (IHs : forall v r, ppush cols before dp v r = sum (map (fun pc => mul (sens before v (fst pc) r (snd pc)) (dp (fst pc) (snd pc))) supp)).
      { intros v' r'. rewrite IH by (intros l' o n k I; apply (H l' o n k); right; exact I). apply Es. }
      assert (Hd : forall o n k, In (o, n, k) (pl_direct l) -> In n ps) by (intros o n k; apply (H l o n k); left; reflexivity).
      cbn [SpecParam.ppush param_sensitivity].
      set (b0 := if existsb (String.eqb v) (l_outs (pl_lin l)) then _ else _).
      set (b1 := fun pc : string * nat => if existsb (String.eqb v) (l_outs (pl_lin l)) then
            fold_left (fun a q => let '(o, n, rows) := q in if String.eqb o v then add a (dotx (snd (rows r)) (map (fun k => sens before n (fst pc) k (snd pc)) (fst (rows r)))) else a) (l_pairs (pl_lin l)) zero
            else sens before v (fst pc) r (snd pc)).
      assert (E0 : b0 = sum (map (fun pc => mul (b1 pc) (dp (fst pc) (snd pc))) supp)).
      { unfold b0, b1. destruct (existsb (String.eqb v) (l_outs (pl_lin l))); [|apply IHs].
        assert (G : forall qs a (sa : string * nat -> V), a = sum (map (fun pc => mul (sa pc) (dp (fst pc) (snd pc))) supp) ->
          fold_left (fun a q => let '(o, n, rows) := q in if String.eqb o v then add a (dotx (snd (rows r)) (map (fun k => ppush cols before dp n k) (fst (rows r)))) else a) qs a =
          sum (map (fun pc => mul (fold_left (fun a q => let '(o, n, rows) := q in if String.eqb o v then add a (dotx (snd (rows r)) (map (fun k => sens before n (fst pc) k (snd pc)) (fst (rows r)))) else a) qs (sa pc)) (dp (fst pc) (snd pc))) supp)).
        { induction qs as [|[[o n] rows] qs IHq]; intros a sa Ea; [exact Ea|]. cbn [fold_left]. destruct (String.eqb o v); [|apply IHq; exact Ea].
          apply (IHq _ (fun pc => add (sa pc) (dotx (snd (rows r)) (map (fun k => sens before n (fst pc) k (snd pc)) (fst (rows r)))))).
          rewrite Ea. rewrite (map_ext _ _ (fun k => IHs n k)).
          rewrite (dotx_sum _ _ _ _ _ _ R (fun pc => dp (fst pc) (snd pc)) (fun k pc => sens before n (fst pc) k (snd pc))), <- (sum_add _ _ _ _ _ _ R). apply sum_ext. intros pc _. ring. }
        apply (G _ zero (fun _ => zero)). symmetry. apply (sum_zero _ _ _ _ _ _ R). intros pc _. ring. }
      clearbody b0. change (fold_left (fun a q => let '(o, n, k) := q in if String.eqb o v then add a (sum_to (cols n) (fun c => mul (k r c) (dp n c))) else a) (pl_direct l) b0 =
        sum (map (fun pc => mul (fold_left (fun a q => let '(o, n, k) := q in if String.eqb o v && String.eqb n (fst pc) then add a (k r (snd pc)) else a) (pl_direct l) (b1 pc)) (dp (fst pc) (snd pc))) supp)).
      clearbody b1. revert b0 b1 E0. clear IH IHs H. induction (pl_direct l) as [|[[o n] k] qs IHq]; intros b0 b1 E0; [exact E0|]. cbn [fold_left].
      assert (IHq' := IHq (fun o' n' k' I => Hd o' n' k' (or_intror I))). clear IHq.
      destruct (String.eqb o v); cbn [andb]; [|apply IHq'; exact E0].
      apply (IHq' _ (fun pc => if String.eqb n (fst pc) then add (b1 pc) (k r (snd pc)) else b1 pc)). rewrite E0.
      assert (In_ : In n ps) by (apply (Hd o n k); left; reflexivity).
      transitivity (add (sum (map (fun pc => mul (b1 pc) (dp (fst pc) (snd pc))) supp)) (sum (map (fun pc => if String.eqb n (fst pc) then mul (k r (snd pc)) (dp (fst pc) (snd pc)) else zero) supp))).
      + f_equal. rewrite <- (Es (fun p c => if String.eqb n p then mul (k r c) (dp p c) else zero)).
        rewrite (sum_one _ _ _ _ _ _ R String.string_dec _ ps n N In_); [rewrite String.eqb_refl; reflexivity|].
        intros p _ Np. replace (String.eqb n p) with false by (symmetry; apply String.eqb_neq; congruence). apply (sum_zero _ _ _ _ _ _ R). reflexivity.
      + rewrite <- (sum_add _ _ _ _ _ _ R). apply sum_ext. intros pc _. destruct (String.eqb n (fst pc)); ring.
  Qed.

  (** A segment's own contribution. *)
  Lemma own_fold qs v p r c : NoDup (map fst qs) -> forall a : V,
    fold_left (fun a q => let '(o, n, k) := q in if String.eqb o v && String.eqb n p then add a (k r c) else a) qs a = add a (own_coeff zero qs v p r c).
  Proof using R.
    induction qs as [|[[o n] k] qs IH]; intros N a; [cbn; ring|]. cbn [map fst] in N. apply NoDup_cons_iff in N as [No N]. cbn [fold_left]. unfold own_coeff. cbn [find fst snd].
    destruct (String.eqb o v && String.eqb n p) eqn:E; [|apply IH; exact N]. rewrite IH by exact N. apply andb_true_iff in E as [E1 E2]. apply String.eqb_eq in E1, E2. subst o n.
    unfold own_coeff. destruct (find _ qs) as [[[o n] k']|] eqn:F; [|ring]. exfalso. apply find_some in F as [F E]. cbn [fst snd] in E. apply andb_true_iff in E as [E1 E2]. apply String.eqb_eq in E1, E2. subst.
    apply No. change (v, p) with (fst (v, p, k')). apply in_map. exact F.
  Qed.
  Lemma sens_own l before v p r c : NoDup (map fst (pl_direct l)) -> In v (l_outs (pl_lin l)) ->
    sens (l :: before) v p r c =
    add (fold_left (fun a q => let '(o, n, rows) := q in if String.eqb o v then add a (dotx (snd (rows r)) (map (fun k => sens before n p k c) (fst (rows r)))) else a) (l_pairs (pl_lin l)) zero)
        (own_coeff zero (pl_direct l) v p r c).
  Proof using R. intros N I. cbn [param_sensitivity]. rewrite own_fold by exact N. rewrite (proj2 (existsb_in _ _) I). reflexivity. Qed.
  Lemma sens_single l v p r c : NoDup (map fst (pl_direct l)) -> sens [l] v p r c = own_coeff zero (pl_direct l) v p r c.
  Proof using R.
    intros N. cbn [param_sensitivity]. rewrite own_fold by exact N. destruct (existsb _ _); [|ring].
    assert (G : forall qs : list (string * string * (nat -> list nat * list V)), fold_left (fun a q => let '(o, n, rows) := q in if String.eqb o v then add a (dotx (snd (rows r)) (map (fun _ => zero) (fst (rows r)))) else a) qs zero = zero).
    { induction qs as [|[[o n] rows] qs IH]; [reflexivity|]. cbn [fold_left]. destruct (String.eqb o v); [|exact IH].
      assert (Z : forall ks : list nat, map (fun _ => zero) ks = repeat zero (length ks)) by (induction ks as [|k ks IHk]; [reflexivity|cbn; rewrite IHk; reflexivity]).
      rewrite Z, (dotx_zero _ _ _ _ _ _ R). replace (add zero zero) with zero by ring. exact IH. }
    rewrite G. ring.
  Qed.
  Lemma param_stationary size us gs X l nr dr_du dr_dg (dr_dp : nat -> V) before n c p :
    solves_for zero size us gs X (pl_lin l) -> NoDup gs -> NoDup (map fst (pl_direct l)) ->
    (forall p g y, p < nr -> In g gs -> y < size g ->
       add (sum (map (fun u => sum_to (size u) (fun x => mul (dr_du p u x) (X u g x y))) us)) (dr_dg p g y) = zero) ->
    (forall p, p < nr -> add (sum (map (fun u => sum_to (size u) (fun x => mul (dr_du p u x) (own_coeff zero (pl_direct l) u n x c))) us)) (dr_dp p) = zero) ->
    p < nr ->
    add (sum (map (fun u => sum_to (size u) (fun x => mul (dr_du p u x) (sens (l :: before) u n x c))) us))
        (add (sum (map (fun g => sum_to (size g) (fun y => mul (dr_dg p g y) (sens before g n y c))) gs)) (dr_dp p)) = zero.
  Proof using R.
    intros S Ng Nd H1 H2 Hp. set (f := fun g y => sens before g n y c).
    set (F := fun u x => sum (map (fun g => sum_to (size g) (fun y => mul (X u g x y) (f g y))) gs)).
    transitivity (add (add (sum (map (fun u => sum_to (size u) (fun x => mul (dr_du p u x) (F u x))) us)) (sum (map (fun g => sum_to (size g) (fun y => mul (dr_dg p g y) (f g y))) gs)))
                      (add (sum (map (fun u => sum_to (size u) (fun x => mul (dr_du p u x) (own_coeff zero (pl_direct l) u n x c))) us)) (dr_dp p))).
    - set (b := sum (map _ gs)).
      transitivity (add (add (sum (map (fun u => sum_to (size u) (fun x => mul (dr_du p u x) (F u x))) us)) (sum (map (fun u => sum_to (size u) (fun x => mul (dr_du p u x) (own_coeff zero (pl_direct l) u n x c))) us))) (add b (dr_dp p))); [|ring].
      f_equal. rewrite <- (sum_add _ _ _ _ _ _ R). apply sum_ext. intros u Iu. unfold SpecAlgebra.sum_to. rewrite <- (sum_add _ _ _ _ _ _ R). apply sum_ext. intros x Ix. apply in_seq in Ix.
      rewrite sens_own; [|exact Nd|rewrite (proj1 S); exact Iu]. unfold F, f. rewrite <- (implicit_fold _ _ _ _ _ _ R size us gs X (pl_lin l) S Ng (fun n' k => sens before n' n k c) u x Iu) by lia. ring.
    - rewrite (stationary _ _ _ _ _ _ R size us gs X nr dr_du dr_dg H1 F f p Hp) by reflexivity. rewrite (H2 p Hp). ring.
  Qed.

  Lemma sum_subset {X} (dec : forall x y : X, {x = y} + {x <> y}) (f : X -> V) l2 : NoDup l2 -> forall l1, NoDup l1 -> incl l1 l2 ->
    sum (map f l1) = sum (map (fun x => if in_dec dec x l1 then f x else zero) l2).
  Proof using R.
    intros N2. induction l1 as [|a l1 IH]; intros N1 I.
    - symmetry. apply (sum_zero _ _ _ _ _ _ R). intros x _. destruct (in_dec dec x []) as [[]|]. reflexivity.
    - apply NoDup_cons_iff in N1 as [Na N1]. cbn [map]. rewrite sum_cons, IH by (try exact N1; intros x J; apply I; right; exact J).
      transitivity (add (sum (map (fun x => if dec x a then f x else zero) l2)) (sum (map (fun x => if in_dec dec x l1 then f x else zero) l2))).
      + f_equal. rewrite (sum_one _ _ _ _ _ _ R dec _ l2 a N2 (I a (or_introl eq_refl))); [destruct (dec a a); [reflexivity|contradiction]|].
        intros y _ Ny. destruct (dec y a); [contradiction|reflexivity].
      + rewrite <- (sum_add _ _ _ _ _ _ R). apply sum_ext. intros x _. destruct (dec x a) as [->|Nx].
        * destruct (in_dec dec a l1); [contradiction|]. destruct (in_dec dec a (a :: l1)) as [_|J]; [ring|]. exfalso. apply J. left. reflexivity.
        * destruct (in_dec dec x l1) as [J|J]; destruct (in_dec dec x (a :: l1)) as [K|K]; try ring; exfalso; [apply K; right; exact J|destruct K as [K|K]; [congruence|contradiction]].
  Qed.
  Lemma sum_one_elem x : sum [x] = x. Proof using R. cbn. ring. Qed.
  Lemma over_batch_sum D (f : list nat -> V) : over_batch sum D f = sum (map f (indices D)).
  Proof using R. destruct D as [|n D]; [|reflexivity]. unfold over_batch, indices. cbn [numel fold_right seq map index_at]. rewrite sum_one_elem. reflexivity. Qed.

  Lemma plinear_direct pz neg par pbase d D size requested known (st : vmap) sgs lins known' st' :
    plinear_run pz neg par pbase d D size requested known st sgs lins known' st' ->
    forall e l o n k, In l (map (fun l => l e) lins) -> In (o, n, k) (pl_direct (l : plin V)) -> In n requested.
  Proof using Type.
    assert (Q : forall outs ps (blks : list (tensor V)) e o n k, Forall2 (direct_ok pbase d D size requested outs) ps blks -> In (o, n, k) (directs pz pbase D ps blks e) -> In n requested).
    { intros outs ps blks e o n k F. induction F as [|p t ps blks (_ & Hp & _) F IH]; [intros []|]. cbn. intros [J|J]; [injection J as _ <- _; exact Hp|exact (IH J)]. }
    intros P. induction P as [|known st sg l known1 st1 sgs lins known' st' L P IH]; intros e l0 o n k I; [destruct I|]. cbn [map] in I. destruct I as [<-|I]; [|exact (IH e l0 o n k I)].
    destruct L; cbn [pl_direct]; try (intros []); eapply Q; eassumption.
  Qed.

  (** ** The adjoint identity *)
  Section Adjoint.
    Variable par : string -> result (tensor V).
    Variable pbase : smap (list nat).
    Variable outs : list (string * list nat).
    Variable derivs : list (string * string).
    Variable D : list nat.
    Variable d : device.
    Variable cot : vmap.
    Variable jac : smap vmap.
    Variable grads dp : vmap.
    Variable lins : list nat -> list (plin V).
    Hypothesis Nd : NoDup derivs.
    Variables ps os : list string.
    Hypothesis Nps : NoDup ps.
    Hypothesis Nos : NoDup os.
    Hypothesis Ips : forall p, In p ps <-> exists o, In (o, p) derivs.
    Hypothesis Ios : forall o, In o os <-> exists p, In (o, p) derivs.
    Hypothesis ready : forall o p, In (o, p) derivs -> contractible par pbase outs d D cot jac o p.
    Hypothesis blocks : forall o p ob pb t, In (o, p) derivs -> lookup o outs = Some ob -> lookup p pbase = Some pb -> block jac o p = Some t ->
      forall e x y, index_of D e -> index_of ob x -> index_of pb y -> elem t (e ++ x ++ y) = Some (sens (lins e) o p (ravel ob x) (ravel pb y)).
    Hypothesis direct : forall e l o n k, index_of D e -> In l (lins e) -> In (o, n, k) (pl_direct l) -> In n ps.
    Hypothesis gs : forall p, In p ps -> exists g pb, lookup p grads = Some g /\ lookup p pbase = Some pb /\
      gradient_ok add sum D pb (batched par p pb) d (outs_of derivs p) (cotangent_term zero mul sum outs cot jac p) g.
    Hypothesis dps : forall p g, In p ps -> lookup p grads = Some g -> exists t, lookup p dp = Some t /\ t_shape t = t_shape g.

    Notation term := (cotangent_term zero mul sum outs cot jac).
    Definition psize (p : string) : list nat := match lookup p pbase with Some pb => pb | None => [] end.
    Definition osize (o : string) : list nat := match lookup o outs with Some ob => ob | None => [] end.
    Definition delta (p : string) (e y : list nat) : V :=
      match lookup p dp with Some t => get t ((if Nat.eqb (dim t) (length (psize p)) then [] else e) ++ y) | None => zero end.
    Definition wt (o : string) (e x : list nat) : V := match lookup o cot with Some w => get w (e ++ x) | None => zero end.

    Lemma outs_of_iff o p : In o (outs_of derivs p) <-> In (o, p) derivs.
    Proof using Type.
      unfold outs_of. rewrite in_map_iff. split.
      - intros [[o' p'] [E I]]. cbn in E. subst o'. apply filter_In in I as [I F]. apply String.eqb_eq in F. cbn in F. subst. exact I.
      - intros I. exists (o, p). split; [reflexivity|]. apply filter_In. split; [exact I|apply String.eqb_refl].
    Qed.
    Lemma outs_of_nodup p : NoDup (outs_of derivs p).
    Proof using Nd.
      clear - Nd. induction derivs as [|[o q] l IH]; [constructor|]. apply NoDup_cons_iff in Nd as [Nx Nl]. rewrite outs_of_cons. destruct (String.eqb_spec q p) as [->|]; [|apply IH; exact Nl].
      cbn [app]. apply NoDup_cons; [|apply IH; exact Nl]. intros J. apply Nx. unfold outs_of in J. apply in_map_iff in J as [[o' p'] [E I]]. cbn in E. subst. apply filter_In in I as [I F]. apply String.eqb_eq in F. cbn in F. subst. exact I.
    Qed.

    Lemma gradient_pairing p : In p ps -> exists g t, lookup p grads = Some g /\ lookup p dp = Some t /\
      pairing zero add mul g t = sum (map (fun o => sum (map (fun e => sum (map (fun y => mul (term p e y o) (delta p e y)) (indices (psize p)))) (indices D))) (outs_of derivs p)).
    Proof using R Ips gs dps.
      intros Ip. destruct (gs p Ip) as (g & pb & Lg & Lp & W & Dv & G). destruct (dps p g Ip Lg) as (t & Lt & St). exists g, t. split; [exact Lg|]. split; [exact Lt|].
      assert (Ne : outs_of derivs p <> []) by (apply outs_of_in; apply Ips; exact Ip).
      unfold pairing, psize, delta. rewrite Lt. unfold psize. rewrite Lp.
      assert (S1 : forall f : string -> V, exists s, sum1 add (map f (outs_of derivs p)) = Some s /\ s = sum (map f (outs_of derivs p))).
      { intros f. exists (sum (map f (outs_of derivs p))). split; [|reflexivity]. apply (sum1_sum A opp R). intros E. apply map_eq_nil in E. contradiction. }
      assert (Swap : forall F : string -> list nat -> list nat -> V,
        sum (map (fun o => sum (map (fun e => sum (map (fun y => F o e y) (indices pb))) (indices D))) (outs_of derivs p)) =
        sum (map (fun e => sum (map (fun y => sum (map (fun o => F o e y) (outs_of derivs p))) (indices pb))) (indices D))).
      { intros F. rewrite (sum_swap _ _ _ _ _ _ R). apply sum_ext. intros e _. rewrite (sum_swap _ _ _ _ _ _ R). reflexivity. }
      destruct (batched par p pb).
      - destruct G as [Sg Eg]. rewrite Sg, indices_app, map_flat, (sum_flat A opp R), Swap. apply sum_ext. intros e Ie. apply indices_ok in Ie. rewrite map_map. apply sum_ext. intros y Iy. apply indices_ok in Iy.
        unfold SpecParam.get at 1. rewrite (Eg e y Ie Iy). destruct (S1 (term p e y)) as (s & -> & ->). rewrite <- (sum_mul_r _ _ _ _ _ _ R). apply sum_ext. intros o _. f_equal. f_equal. f_equal.
        unfold dim. rewrite St, Sg, app_length. destruct (Nat.eqb_spec (length D + length pb) (length pb)) as [E|]; [|reflexivity].
        apply length_nil_of in E. rewrite E in Ie. inversion Ie. reflexivity.
      - destruct G as [Sg Eg]. rewrite Sg. rewrite Swap, (sum_swap _ _ _ _ _ _ R). apply sum_ext. intros y Iy. apply indices_ok in Iy.
        unfold SpecParam.get at 1. rewrite (Eg y Iy). destruct (S1 (fun o => over_batch sum D (fun e => term p e y o))) as (s & -> & ->).
        unfold dim. rewrite St, Sg, Nat.eqb_refl. cbn [app]. rewrite <- (sum_mul_r _ _ _ _ _ _ R). rewrite (sum_swap _ _ _ _ _ _ R). apply sum_ext. intros o _.
        rewrite over_batch_sum, <- (sum_mul_r _ _ _ _ _ _ R). reflexivity.
    Qed.

    Lemma term_sens o p e y : In (o, p) derivs -> index_of D e -> index_of (psize p) y ->
      term p e y o = sum (map (fun x => mul (wt o e x) (sens (lins e) o p (ravel (osize o) x) (ravel (psize p) y))) (indices (osize o))).
    Proof using ready blocks.
      intros I Ie Iy. destruct (ready o p I) as (ob & pb & w & j & stored & Lo & Lp & _ & Lw & _ & _ & _ & Bj & _). unfold psize, osize, wt, cotangent_term in *. rewrite Lo, Lp, Lw, Bj in *.
      apply sum_ext. intros x Ix. apply indices_ok in Ix. f_equal. unfold SpecParam.get. rewrite (blocks o p ob pb j I Lo Lp Bj e x y Ie Ix Iy). reflexivity.
    Qed.

    Lemma dp_at_is o p e c : In p ps -> index_of D e -> c < numel (psize p) ->
      dp_at zero pbase D derivs dp o e p c = if in_dec String.string_dec o (outs_of derivs p) then delta p e (index_at (psize p) c) else zero.
    Proof using gs.
      intros Ip Ie Hc. unfold dp_at, delta. destruct (gs p Ip) as (_ & pb & _ & Lp & _). unfold psize in *. rewrite Lp in *. destruct (lookup p dp) as [t|]; [|destruct (in_dec _ _ _); reflexivity].
      rewrite (proj2 (Nat.ltb_lt _ _) Hc), andb_true_r.
      destruct (in_dec String.string_dec o (outs_of derivs p)) as [J|J]; destruct (existsb _ _) eqn:E; try reflexivity; exfalso.
      - apply outs_of_iff in J. assert (K : In p (map snd (filter (fun q => String.eqb (fst q) o) derivs))) by (apply in_map_iff; exists (o, p); split; [reflexivity|apply filter_In; split; [exact J|apply String.eqb_refl]]).
        apply existsb_in in K. congruence.
      - apply existsb_in in E. apply in_map_iff in E as [[o' p'] [E K]]. cbn in E. subst p'. apply filter_In in K as [K F]. cbn in F. apply String.eqb_eq in F. subst. apply J, outs_of_iff. exact K.
    Qed.

    Lemma adjoint_identity :
      sum (map (fun p => match lookup p grads, lookup p dp with Some g, Some t => pairing zero add mul g t | _, _ => zero end) ps) =
      sum (map (fun o => sum (map (fun e => sum (map (fun x => mul (wt o e x) (ppush (columns_of pbase) (lins e) (dp_at zero pbase D derivs dp o e) o (ravel (osize o) x)))
        (indices (osize o)))) (indices D))) os).
    Proof using R Nd Nps Nos Ips Ios ready blocks direct gs dps.
      transitivity (sum (map (fun p => sum (map (fun o => if in_dec String.string_dec o (outs_of derivs p) then
          sum (map (fun e => sum (map (fun y => mul (term p e y o) (delta p e y)) (indices (psize p)))) (indices D)) else zero) os)) ps)).
      { apply sum_ext. intros p Ip. destruct (gradient_pairing p Ip) as (g & t & -> & -> & ->). apply sum_subset; [exact Nos|apply outs_of_nodup|].
        intros o J. apply Ios. exists p. apply outs_of_iff. exact J. }
      rewrite (sum_swap _ _ _ _ _ _ R). apply sum_ext. intros o Io.
      transitivity (sum (map (fun p => sum (map (fun e => sum (map (fun x => mul (wt o e x) (sum_to (columns_of pbase p)
           (fun c => mul (sens (lins e) o p (ravel (osize o) x) c) (dp_at zero pbase D derivs dp o e p c)))) (indices (osize o)))) (indices D))) ps)).
      2: { rewrite (sum_swap _ _ _ _ _ _ R). apply sum_ext. intros e Ie. apply indices_ok in Ie. rewrite (sum_swap _ _ _ _ _ _ R). apply sum_ext. intros x _.
           rewrite (sum_mul_l _ _ _ _ _ _ R). f_equal. symmetry. apply ppush_is_sens; [exact Nps|]. intros l o' n k. apply (direct e l o' n k Ie). }
      apply sum_ext. intros p Ip.
      assert (Cp : columns_of pbase p = numel (psize p)) by (destruct (gs p Ip) as (_ & pb & _ & Lp & _); unfold columns_of, psize; rewrite Lp; reflexivity).
      rewrite Cp. destruct (in_dec String.string_dec o (outs_of derivs p)) as [J|J].
      - apply sum_ext. intros e Ie. apply indices_ok in Ie.
        transitivity (sum (map (fun y => sum (map (fun x => mul (mul (wt o e x) (sens (lins e) o p (ravel (osize o) x) (ravel (psize p) y))) (delta p e y)) (indices (osize o)))) (indices (psize p)))).
        { apply sum_ext. intros y Iy. apply indices_ok in Iy. rewrite (term_sens o p e y) by (try assumption; apply outs_of_iff; exact J). rewrite <- (sum_mul_r _ _ _ _ _ _ R). reflexivity. }
        rewrite (sum_swap _ _ _ _ _ _ R). apply sum_ext. intros x _. unfold SpecAlgebra.sum_to. rewrite <- (sum_mul_l _ _ _ _ _ _ R). unfold indices. rewrite map_map. apply sum_ext. intros c Ic. apply in_seq in Ic.
        destruct (index_at_ok (psize p) c ltac:(lia)) as [_ ->]. rewrite (dp_at_is o p e c Ip Ie) by lia. destruct (in_dec _ _ _) as [_|N]; [ring|contradiction].
      - symmetry. apply (sum_zero _ _ _ _ _ _ R). intros e Ie. apply indices_ok in Ie. apply (sum_zero _ _ _ _ _ _ R). intros x _.
        unfold SpecAlgebra.sum_to. rewrite (sum_zero _ _ _ _ _ _ R); [ring|]. intros c Ic. apply in_seq in Ic. rewrite (dp_at_is o p e c Ip Ie) by lia. destruct (in_dec _ _ _) as [N|_]; [contradiction|ring].
    Qed.
  End Adjoint.
End Exact.
