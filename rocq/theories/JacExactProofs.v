(** The Jacobian calls in exact arithmetic. *)
From Coq Require Import Ring FinFun.
From Verif Require Import Base BaseProofs SpecMap SmapProofs Tensor Spec TensorProofs Broadcast SpecBroadcast BroadcastProofs Pack PackProofs
     Implicit ImplicitProofs BatchChunk Substep Mat Jac SubstepJac JacModel SpecLayout LayoutProofs SpecJac MatProofs JacProofs JacRunProofs JacMainProofs
     JvpProofs SpecAlgebra AlgebraProofs.

Section Exact.
  Context {V : Type}.
  Variable A : arith V.
  Variable opp : V -> V.
  Hypothesis R : ring_theory (a_zero A) (a_one A) (a_add A) (a_mul A) (a_sub A) opp eq.
  Add Ring Vring : R.
  Notation vmap := (smap (tensor V)).
  Notation zero := (a_zero A).
  Notation one := (a_one A).
  Notation add := (a_add A).
  Notation mul := (a_mul A).
  Notation sum := (sum zero add).
  Notation dotx := (dotx zero add mul).
  Notation push := (push zero add mul).
  Notation sens := (sensitivity zero one add dotx).

  Lemma fold_sum l : forall a, fold_left add l a = add a (sum l).
  Proof using R. induction l as [|x l IH]; intros a; cbn; [ring|]. rewrite IH. change (fold_right add zero l) with (sum l). ring. Qed.
  Lemma sum1_sum l : l <> [] -> sum1 add l = Some (sum l).
  Proof using R. destruct l as [|x l]; [contradiction|]. intros _. cbn. rewrite fold_sum. reflexivity. Qed.
  Lemma sum_app l1 l2 : sum (l1 ++ l2) = add (sum l1) (sum l2).
  Proof using R. induction l1 as [|x l1 IH]; [change (sum l2 = add zero (sum l2)); ring|]. change (add x (sum (l1 ++ l2)) = add (add x (sum l1)) (sum l2)). rewrite IH. ring. Qed.
  Lemma map_flat {X Y Z} (F : Y -> Z) (g : X -> list Y) l : map F (flat_map g l) = flat_map (fun x => map F (g x)) l.
  Proof using Type. induction l as [|x l IH]; [reflexivity|]. cbn [flat_map]. rewrite map_app, IH. reflexivity. Qed.
  Lemma sum_flat {X} (f : X -> list V) l : sum (flat_map f l) = sum (map (fun x => sum (f x)) l).
  Proof using R. induction l as [|x l IH]; [reflexivity|]. cbn [flat_map map]. rewrite sum_app, IH. reflexivity. Qed.

  Lemma dotx_nth l1 : forall l2, length l1 = length l2 -> dotx l1 l2 = sum (map (fun k => mul (nth k l1 zero) (nth k l2 zero)) (seq 0 (length l1))).
  Proof using Type.
    induction l1 as [|x l1 IH]; intros [|y l2] H; try discriminate; [reflexivity|]. injection H as H. cbn [SpecAlgebra.dotx length seq map]. rewrite (IH l2 H).
    rewrite <- seq_shift, map_map. reflexivity.
  Qed.

  (** ** jvp *)
  Lemma nodup_flat {X Y} (f : X -> list Y) l : NoDup l -> (forall x, In x l -> NoDup (f x)) -> (forall x x' y, In x l -> In x' l -> In y (f x) -> In y (f x') -> x = x') -> NoDup (flat_map f l).
  Proof using Type.
    induction l as [|x l IH]; intros N F J; [constructor|]. apply NoDup_cons_iff in N as [Nx N]. cbn [flat_map].
    assert (Nf : NoDup (f x)) by (apply F; left; reflexivity).
    assert (Nr : NoDup (flat_map f l)) by (apply IH; [exact N|intros; apply F; right; assumption|intros x1 x2 y I1 I2; apply J; right; assumption]).
    assert (Dj : forall y, In y (f x) -> ~ In y (flat_map f l)).
    { intros y Iy K. apply in_flat_map in K as [x' [Ix' Iy']]. apply Nx. rewrite (J x x' y (or_introl eq_refl) (or_intror Ix') Iy Iy'). exact Ix'. }
    clear - Nf Nr Dj. induction (f x) as [|y ys IHy]; [exact Nr|]. apply NoDup_cons_iff in Nf as [Ny Nf]. cbn [app]. apply NoDup_cons.
    - intros K. apply in_app_or in K as [K|K]; [contradiction|]. apply (Dj y); [left; reflexivity|exact K].
    - apply IHy; [exact Nf|]. intros z Iz. apply Dj. right. exact Iz.
  Qed.

  Section Jvp.
    Variable neg : V -> V.
    Variable par : string -> result (tensor V).
    Variable base_ndim : smap nat.
    Variable m : jmodel V.
    Variable D : list nat.
    Variable size : string -> nat.
    Variable d : device.
    Variables (I st' : vmap) (lins : list (list nat -> lin V)).
    Hypothesis ev : evaluated zero neg par base_ndim m I D size d lins st'.
    Variable T : vmap.
    Hypothesis tangents : forall o i t, In i (jm_inputs m) -> In (o, in_name i) (jm_derivs m) -> lookup (in_name i) T = Some t -> tangent_ok d D i t.

    Lemma find_info infos i : NoDup (map in_name infos) -> In i infos -> find (fun info => String.eqb (in_name info) (in_name i)) infos = Some i.
    Proof using Type.
      clear. induction infos as [|j infos IH]; intros N Ii; [destruct Ii|]. cbn [map] in N. apply NoDup_cons_iff in N as [Nj N]. cbn [find].
      destruct Ii as [->|Ii]; [rewrite String.eqb_refl; reflexivity|]. destruct (String.eqb_spec (in_name j) (in_name i)) as [E|_]; [|apply IH; assumption].
      exfalso. apply Nj. rewrite E. apply in_map. exact Ii.
    Qed.
    Lemma tangent_length o i e : In i (jm_inputs m) -> In (o, in_name i) (jm_derivs m) -> index_of D e -> length (tangent_at zero T i e) = numel (in_base i).
    Proof using tangents.
      intros Ii Ip Ie. unfold tangent_at. destruct (lookup (in_name i) T) as [t|] eqn:L; [|apply repeat_length].
      destruct (tangents o i t Ii Ip L) as (W & Dv & lead & Sh & B). apply picks_length. intros x Hx.
      assert (Fb : firstn (dim t - length (in_base i)) (t_shape t) = lead).
      { unfold dim. rewrite Sh, app_length. replace (length lead + length (in_base i) - length (in_base i)) with (length lead) by lia.
        rewrite firstn_app, Nat.sub_diag, firstn_all. cbn [firstn]. apply app_nil_r. }
      rewrite Fb. destruct (index_at_ok (in_base i) x Hx) as [Jx _].
      destruct (elem_some t (pull lead e ++ index_at (in_base i) x) W) as [z ->]; [|discriminate].
      rewrite Sh. apply index_app; [apply (pull_index lead D); assumption|exact Jx].
    Qed.

    Lemma jvp_push o ob t : NoDup (jm_derivs m) -> (exists i, In (o, i) (jm_derivs m)) ->
      derivative_along A dotx m D d lins T o ob t ->
      forall e x, index_of D e -> index_of ob x ->
        elem t (e ++ x) = Some (push (rev (map (fun l => l e) lins)) (seed zero (jm_inputs m) (jm_derivs m) T o e) o (ravel ob x)).
    Proof using R ev tangents.
      intros Nd [i0 Ip0] (_ & _ & _ & infos & Em & Hi & E) e x Ie Ix. rewrite (E e x Ie Ix).
      assert (Ev : NoDup (map in_name (jm_inputs m))) by (apply (proj1 ev)).
      assert (Ip : forall i, In i infos -> In (o, in_name i) (jm_derivs m)).
      { intros i J. assert (K : In (in_name i) (paired (jm_derivs m) o)) by (rewrite <- Em; apply in_map; exact J).
        unfold paired in K. apply in_map_iff in K as [[o' i'] [K1 K]]. cbn [snd] in K1. subst i'. apply filter_In in K as [K F]. cbn [fst] in F. apply String.eqb_eq in F. subst. exact K. }
      assert (Np : NoDup (paired (jm_derivs m) o)).
      { unfold paired. clear - Nd. induction (jm_derivs m) as [|[o' i] l IH]; [constructor|]. apply NoDup_cons_iff in Nd as [Nx Nd]. cbn [filter fst].
        destruct (String.eqb_spec o' o) as [->|]; [|apply IH; exact Nd]. cbn [map snd]. apply NoDup_cons; [|apply IH; exact Nd].
        intros J. apply in_map_iff in J as [[o' i'] [J1 J]]. cbn [snd] in J1. subst i'. apply filter_In in J as [J F]. cbn [fst] in F. apply String.eqb_eq in F. subst. contradiction. }
      assert (Ni : NoDup infos). { rewrite <- Em in Np. clear - Np. induction infos as [|i l IH]; [constructor|]. cbn [map] in Np. apply NoDup_cons_iff in Np as [Nx Np]. apply NoDup_cons; [intros J; apply Nx, in_map; exact J|apply IH; exact Np]. }
      assert (Ne : infos <> []).
      { intros ->. cbn in Em. assert (K : In i0 (paired (jm_derivs m) o)). { unfold paired. apply (in_map snd _ (o, i0)). apply filter_In. split; [exact Ip0|apply String.eqb_refl]. } rewrite <- Em in K. destruct K. }
      rewrite sum1_sum by (destruct infos; [contradiction|discriminate]). f_equal.
      set (supp := flat_map (fun i => map (fun c => (in_name i, c)) (seq 0 (numel (in_base i)))) infos).
      rewrite (push_is_sens zero one add mul (a_sub A) opp R supp).
      - unfold supp. rewrite map_flat, sum_flat. f_equal. apply map_ext_in. intros i J.
        rewrite map_map. unfold term. rewrite dotx_nth by (rewrite map_length, seq_length; symmetry; apply (tangent_length o i e); [apply Hi; exact J|apply Ip; exact J|exact Ie]).
        rewrite map_length, seq_length. f_equal. apply map_ext_in. intros c Ic. apply in_seq in Ic. cbn [fst snd].
        rewrite (nth_indep _ zero (chain_field zero add dotx one (rev lins) e o (ravel ob x) (in_name i) 0)) by (rewrite map_length, seq_length; lia).
        rewrite (map_nth (fun c => chain_field zero add dotx one (rev lins) e o (ravel ob x) (in_name i) c)), seq_nth by lia. cbn [Nat.add].
        unfold chain_field. rewrite map_rev. f_equal. unfold seed. rewrite (find_info _ i Ev) by (apply Hi; exact J).
        replace (existsb (String.eqb (in_name i)) (paired (jm_derivs m) o)) with true; [reflexivity|]. symmetry. apply existsb_in. rewrite <- Em. apply in_map. exact J.
      - apply nodup_flat; [exact Ni| |].
        + intros i _. apply FinFun.Injective_map_NoDup; [intros a b X; congruence|apply seq_NoDup].
        + intros i i' [n c] Ji Ji' K K'. apply in_map_iff in K as [c1 [K _]]. apply in_map_iff in K' as [c2 [K' _]].
          assert (En : in_name i = in_name i') by congruence. pose proof (find_info _ i Ev (Hi i Ji)) as F1. rewrite En, (find_info _ i' Ev (Hi i' Ji')) in F1. congruence.
      - intros v r Nv. unfold seed. destruct (find _ (jm_inputs m)) as [info|] eqn:F; [|reflexivity]. apply find_some in F as [Fi Fe]. apply String.eqb_eq in Fe. subst v.
        destruct (existsb (String.eqb (in_name info)) (paired (jm_derivs m) o)) eqn:X; [|reflexivity]. apply existsb_in in X. rewrite <- Em in X. apply in_map_iff in X as [info' [En J]].
        assert (info' = info). { pose proof (find_info _ info' Ev (Hi info' J)) as F1. rewrite En, (find_info _ info Ev Fi) in F1. congruence. } subst info'.
        destruct (Nat.lt_ge_cases r (numel (in_base info))) as [Hr|Hr].
        + exfalso. apply Nv. unfold supp. apply in_flat_map. exists info. split; [exact J|]. apply (in_map (fun c => (in_name info, c))). apply in_seq. lia.
        + apply nth_overflow. rewrite (tangent_length o info e Fi (Ip info J) Ie). exact Hr.
    Qed.
  End Jvp.

  (** ** Implicit segments *)
  Section Ift.
    Variable size : string -> nat.
    Variable d : device.
    Variable D : list nat.
    Variable i : jimp V.
    Variable blks : list (tensor V).
    Variable gs : list string.
    Notation us := (map v_name (is_unknowns (ji_seg i))).
    Hypothesis oks : Forall2 (ift_ok d D size) (ji_pairs i) blks.
    Hypothesis nodup : NoDup (map (fun p => (p_out p, p_in p)) (ji_pairs i)).
    Hypothesis outs : forall p, In p (ji_pairs i) -> In (p_out p) us /\ In (p_in p) gs.

    Lemma combine_in {X Y} (P : X -> Y -> Prop) l1 : forall l2, Forall2 P l1 l2 -> forall x y, In (x, y) (combine l1 l2) -> P x y.
    Proof using Type. clear. induction l1 as [|a l1 IH]; intros l2 F x y J; inversion F as [|? b ? l2' Pab F']; subst; [destruct J|]. destruct J as [J|J]; [congruence|]. apply (IH l2' F' x y J). Qed.

    Lemma implicit_solves e : index_of D e -> solves_for zero size us gs (ift_coeff zero D (ji_pairs i) blks e) (implicit_lin D size i blks e).
    Proof using oks nodup outs.
      intros Ie. unfold solves_for, implicit_lin. cbn [l_outs l_pairs].
      assert (Lc : map fst (combine (ji_pairs i) blks) = ji_pairs i).
      { assert (X : forall ps (bs : list (tensor V)), Forall2 (ift_ok d D size) ps bs -> map fst (combine ps bs) = ps).
        { clear. intros ps bs F. induction F as [|p t ps ts _ F IH]; [reflexivity|]. cbn [combine map fst]. rewrite IH. reflexivity. }
        apply X. exact oks. }
      assert (Nn : map fst (map (fun pt => (p_out (fst pt), p_in (fst pt), ift_row D size (fst pt) (snd pt) e)) (combine (ji_pairs i) blks)) = map (fun p => (p_out p, p_in p)) (ji_pairs i)).
      { transitivity (map (fun p => (p_out p, p_in p)) (map fst (combine (ji_pairs i) blks))); [rewrite !map_map; reflexivity|rewrite Lc; reflexivity]. }
      split; [reflexivity|]. split; [rewrite Nn; exact nodup|]. split.
      - intros u g rows J. apply in_map_iff in J as [[p t] [J K]]. cbn [fst snd] in J. injection J as <- <- <-.
        assert (Ip : In p (ji_pairs i)) by (rewrite <- Lc; apply (in_map fst) in K; exact K). destruct (outs p Ip) as [O1 O2]. split; [exact O1|]. split; [exact O2|].
        intros x Hx. unfold ift_row. f_equal. destruct (combine_in _ _ _ oks p t K) as (W & Dv & _ & lead & Sh & Ll & B).
        assert (Fl : firstn (length D) (t_shape t) = lead) by (rewrite Sh, <- Ll, firstn_app, Nat.sub_diag, firstn_all; cbn [firstn]; apply app_nil_r).
        apply picks_seq; [rewrite map_length, seq_length; reflexivity|]. intros y Hy. rewrite nth_error_map, (nth_error_nth' _ 0), seq_nth by (rewrite ?seq_length; lia). cbn [option_map Nat.add].
        assert (Fp : find (fun pt => String.eqb (p_out (fst pt)) (p_out p) && String.eqb (p_in (fst pt)) (p_in p)) (combine (ji_pairs i) blks) = Some (p, t)).
        { clear - nodup K oks. revert oks nodup K. generalize (ji_pairs i) blks. intros ps ts F. induction F as [|q u ps ts _ F IH]; intros N K; [destruct K|]. cbn [map] in N. apply NoDup_cons_iff in N as [Nq N]. cbn [combine find fst].
          destruct K as [K|K]; [injection K as -> ->; rewrite !String.eqb_refl; reflexivity|].
          destruct (String.eqb_spec (p_out q) (p_out p)) as [E1|]; [|apply IH; assumption]. destruct (String.eqb_spec (p_in q) (p_in p)) as [E2|]; [|apply IH; assumption].
          exfalso. apply Nq. rewrite E1, E2. apply in_combine_l in K. apply (in_map (fun p => (p_out p, p_in p))) in K. exact K. }
        unfold ift_coeff. rewrite Fp, Fl. destruct (elem_some t (pull lead e ++ [x; y]) W) as [z Ez]; [rewrite Sh; apply index_app; [apply (pull_index lead D); assumption|apply index2; assumption]|].
        rewrite Ez. reflexivity.
      - intros u g Iu Ig N x y. unfold ift_coeff. destruct (find _ (combine (ji_pairs i) blks)) as [[p t]|] eqn:F; [|reflexivity]. exfalso. apply N. rewrite Nn.
        apply find_some in F as [K E]. cbn [fst] in E. apply andb_true_iff in E as [E1 E2]. apply String.eqb_eq in E1, E2. subst u g.
        apply in_combine_l in K. apply (in_map (fun p => (p_out p, p_in p))) in K. exact K.
    Qed.
  End Ift.

  (** ** The iterative solve: slices of the negated solution *)
  Lemma sum_tiled size off l : forall start stop (f : nat -> V), tiled size off l start stop ->
    start <= stop /\ sum (map (fun v => sum (map (fun x => f (off v + x)) (seq 0 (size v)))) l) = sum (map f (seq start (stop - start))).
  Proof using R.
    induction l as [|v l IH]; intros start stop f H; cbn [tiled] in H.
    - subst. split; [lia|]. rewrite Nat.sub_diag. reflexivity.
    - destruct H as [Eo H]. destruct (IH _ _ f H) as [L E]. split; [lia|]. cbn [map]. change (sum (?a :: ?b)) with (add a (sum b)). rewrite E.
      replace (stop - start) with (size v + (stop - (start + size v))) by lia. rewrite seq_app, map_app, sum_app. f_equal. rewrite Eo.
      clear. revert start. induction (size v) as [|n IH]; intros start; [reflexivity|]. cbn [seq map]. change (sum (?a :: ?b)) with (add a (sum b)). rewrite Nat.add_0_r. f_equal.
      rewrite <- (IH (S start)). rewrite <- seq_shift, map_map. apply (f_equal sum). apply map_ext. intros x. f_equal. lia.
  Qed.

  (** [a] the matrix, [b] the right-hand side, [x] its solution; the pairs' blocks are the slices of [-x]. *)
  Lemma iterative_solved size us gs row col (nr n : nat) (a b x : nat -> nat -> V) :
    tiled size row us 0 n ->
    (forall p m, p < nr -> sum_to zero add n (fun k => mul (a p k) (x k m)) = b p m) ->
    forall p g y, p < nr -> In g gs -> y < size g ->
      add (sum (map (fun u => sum_to zero add (size u) (fun z => mul (a p (row u + z)) (opp (x (row u + z) (col g + y))))) us)) (b p (col g + y)) = zero.
  Proof using R.
    intros H S p g y Hp _ _. unfold sum_to in *.
    destruct (sum_tiled size row us 0 n (fun k => mul (a p k) (opp (x k (col g + y)))) H) as [_ E]. rewrite E, Nat.sub_0_r, <- (S p (col g + y) Hp).
    rewrite <- (sum_add zero one add mul (a_sub A) opp R). apply (sum_zero zero one add mul (a_sub A) opp R). intros k _. ring.
  Qed.
End Exact.
