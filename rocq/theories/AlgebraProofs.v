(** Exact-arithmetic facts about the chain rule. *)
From Coq Require Import Ring.
From Verif Require Import Base SpecJac JacProofs SpecAlgebra.

Section Algebra.
  Context {V : Type}.
  Variables zero one : V.
  Variables add mul sub : V -> V -> V.
  Variable opp : V -> V.
  Hypothesis R : ring_theory zero one add mul sub opp eq.
  Add Ring Vring : R.

  Notation sum := (sum zero add).
  Notation sum_to := (sum_to zero add).
  Notation dotx := (dotx zero add mul).
  Notation push := (push zero add mul).
  Notation sens := (sensitivity zero one add dotx).

  Lemma sum_add {X} (f g : X -> V) l : sum (map (fun x => add (f x) (g x)) l) = add (sum (map f l)) (sum (map g l)).
  Proof. induction l as [|x l IH]; cbn; [ring|]. unfold SpecAlgebra.sum in IH. rewrite IH. ring. Qed.
  Lemma sum_mul_l {X} c (f : X -> V) l : sum (map (fun x => mul c (f x)) l) = mul c (sum (map f l)).
  Proof. induction l as [|x l IH]; cbn; [ring|]. unfold SpecAlgebra.sum in IH. rewrite IH. ring. Qed.
  Lemma sum_mul_r {X} c (f : X -> V) l : sum (map (fun x => mul (f x) c) l) = mul (sum (map f l)) c.
  Proof. induction l as [|x l IH]; cbn; [ring|]. unfold SpecAlgebra.sum in IH. rewrite IH. ring. Qed.
  Lemma sum_zero {X} (f : X -> V) l : (forall x, In x l -> f x = zero) -> sum (map f l) = zero.
  Proof. induction l as [|x l IH]; intros H; cbn; [reflexivity|]. unfold SpecAlgebra.sum in IH. rewrite (H x (or_introl eq_refl)), IH by (intros y I; apply H; right; exact I). ring. Qed.
  Lemma sum_ext {X} (f g : X -> V) l : (forall x, In x l -> f x = g x) -> sum (map f l) = sum (map g l).
  Proof. intros H. f_equal. apply map_ext_in. exact H. Qed.
  Lemma sum_swap {X Y} (f : X -> Y -> V) l m : sum (map (fun x => sum (map (f x) m)) l) = sum (map (fun y => sum (map (fun x => f x y) l)) m).
  Proof.
    induction l as [|x l IH].
    - symmetry. apply sum_zero. reflexivity.
    - change (add (sum (map (f x) m)) (sum (map (fun x => sum (map (f x) m)) l)) = sum (map (fun y => add (f x y) (sum (map (fun x => f x y) l))) m)).
      rewrite IH. symmetry. apply sum_add.
  Qed.
  (** A sum with one term that counts. *)
  Lemma sum_one {X} (dec : forall x y : X, {x = y} + {x <> y}) (f : X -> V) l x : NoDup l -> In x l -> (forall y, In y l -> y <> x -> f y = zero) -> sum (map f l) = f x.
  Proof.
    induction l as [|y l IH]; intros N I H; [destruct I|]. apply NoDup_cons_iff in N as [Ny N]. cbn. destruct I as [->|I].
    - change (add (f x) (sum (map f l)) = f x). rewrite sum_zero; [ring|]. intros z Iz. apply H; [right; exact Iz|]. intros ->. contradiction.
    - change (add (f y) (sum (map f l)) = f x). rewrite IH; [|exact N|exact I|intros z Iz; apply H; right; exact Iz].
      rewrite H; [ring|left; reflexivity|]. intros ->. contradiction.
  Qed.

  Lemma dotx_seq (f g : nat -> V) n a : dotx (map f (seq a n)) (map g (seq a n)) = sum (map (fun k => mul (f k) (g k)) (seq a n)).
  Proof. revert a. induction n as [|n IH]; intros a; [reflexivity|]. cbn [seq map SpecAlgebra.dotx]. rewrite IH. reflexivity. Qed.
  Lemma dotx_zero l n : dotx l (repeat zero n) = zero.
  Proof. revert n. induction l as [|x l IH]; intros [|n]; try reflexivity. cbn. rewrite IH. ring. Qed.
  Lemma dotx_unit l k x : nth_error l k = Some x -> dotx l (map (fun j => if Nat.eqb j k then one else zero) (seq 0 (length l))) = x.
  Proof.
    assert (Z : forall l a, k < a -> dotx l (map (fun j => if Nat.eqb j k then one else zero) (seq a (length l))) = zero).
    { clear l. induction l as [|y l IH]; intros a H; [reflexivity|]. cbn [length seq map SpecAlgebra.dotx]. replace (Nat.eqb a k) with false by (symmetry; apply Nat.eqb_neq; lia).
      rewrite IH by lia. ring. }
    assert (G : forall l a, a <= k -> nth_error l (k - a) = Some x -> dotx l (map (fun j => if Nat.eqb j k then one else zero) (seq a (length l))) = x).
    { clear l. induction l as [|y l IH]; intros a H E; [destruct (k - a); discriminate|]. cbn [length seq map SpecAlgebra.dotx].
      destruct (Nat.eqb_spec a k) as [->|Ne].
      - rewrite Nat.sub_diag in E. injection E as ->. rewrite Z by lia. ring.
      - rewrite (IH (S a)); [ring|lia|]. replace (k - a) with (S (k - S a)) in E by lia. exact E. }
    intros E. apply G; [lia|]. rewrite Nat.sub_0_r. exact E.
  Qed.

  (** The inner product is linear in the vector. *)
  Lemma dotx_sum {X K} (w : X -> V) (F : K -> X -> V) a ks l :
    dotx a (map (fun k => sum (map (fun x => mul (F k x) (w x)) l)) ks) = sum (map (fun x => mul (dotx a (map (fun k => F k x) ks)) (w x)) l).
  Proof.
    revert ks. induction a as [|y a IH]; intros ks.
    - cbn. symmetry. apply sum_zero. intros x _. ring.
    - destruct ks as [|k ks].
      + cbn. symmetry. apply sum_zero. intros x _. ring.
      + cbn [map SpecAlgebra.dotx]. rewrite IH, <- sum_mul_l, <- sum_add. apply sum_ext. intros x _. ring.
  Qed.

  (** ** Pushing a tangent forward is multiplying by the sensitivities *)
  Lemma push_is_sens (supp : list (string * nat)) (t0 : string -> nat -> V) : NoDup supp -> (forall v r, ~ In (v, r) supp -> t0 v r = zero) ->
    forall ls v r, push ls t0 v r = sum (map (fun ic => mul (sens ls v (fst ic) r (snd ic)) (t0 (fst ic) (snd ic))) supp).
  Proof.
    intros N H. assert (Dec : forall x y : string * nat, {x = y} + {x <> y}) by (decide equality; [apply Nat.eq_dec|apply String.string_dec]).
    induction ls as [|l before IH]; intros v r; cbn [SpecAlgebra.push sensitivity].
    - destruct (in_dec Dec (v, r) supp) as [J|J].
      + rewrite (sum_one Dec _ _ (v, r) N J).
        * cbn [fst snd]. rewrite String.eqb_refl, Nat.eqb_refl. cbn. ring.
        * intros [i c] _ Ne. cbn [fst snd]. destruct (String.eqb_spec v i) as [->|]; destruct (Nat.eqb_spec r c) as [->|]; cbn; try ring. congruence.
      + rewrite (H v r J). symmetry. apply sum_zero. intros [i c] Ji. cbn [fst snd].
        destruct (String.eqb_spec v i) as [->|]; destruct (Nat.eqb_spec r c) as [->|]; cbn; try ring. contradiction.
    - destruct (existsb (String.eqb v) (l_outs l)); [|apply IH].
      assert (G : forall ps a (sa : string * nat -> V), a = sum (map (fun ic => mul (sa ic) (t0 (fst ic) (snd ic))) supp) ->
        fold_left (fun a p => let '(o, n, rows) := p in if String.eqb o v then add a (dotx (snd (rows r)) (map (fun k => push before t0 n k) (fst (rows r)))) else a) ps a =
        sum (map (fun ic => mul (fold_left (fun a p => let '(o, n, rows) := p in if String.eqb o v then add a (dotx (snd (rows r)) (map (fun k => sens before n (fst ic) k (snd ic)) (fst (rows r)))) else a) ps (sa ic)) (t0 (fst ic) (snd ic))) supp)).
      { induction ps as [|[[o n] rows] ps IHp]; intros a sa Ea; [exact Ea|]. cbn [fold_left]. destruct (String.eqb o v); [|apply IHp; exact Ea].
        apply (IHp _ (fun ic => add (sa ic) (dotx (snd (rows r)) (map (fun k => sens before n (fst ic) k (snd ic)) (fst (rows r)))))).
        rewrite Ea. rewrite (map_ext (fun k => push before t0 n k) (fun k => sum (map (fun ic => mul (sens before n (fst ic) k (snd ic)) (t0 (fst ic) (snd ic))) supp)) (fun k => IH n k)).
        rewrite (dotx_sum (fun ic => t0 (fst ic) (snd ic)) (fun k ic => sens before n (fst ic) k (snd ic))), <- sum_add. apply sum_ext. intros ic _. ring. }
      apply (G (l_pairs l) zero (fun _ => zero)). symmetry. apply sum_zero. intros ic _. ring.
  Qed.

  Lemma push_linear k t1 t2 t3 : (forall v r, t3 v r = add (mul k (t1 v r)) (t2 v r)) ->
    forall ls v r, push ls t3 v r = add (mul k (push ls t1 v r)) (push ls t2 v r).
  Proof.
    intros H. assert (Dl : forall {X} a (f g h : X -> V) ks, (forall x, h x = add (mul k (f x)) (g x)) -> dotx a (map h ks) = add (mul k (dotx a (map f ks))) (dotx a (map g ks))).
    { intros X a f g h. induction a as [|y a IH]; intros ks Hh; [cbn; ring|]. destruct ks as [|x ks]; [cbn; ring|]. cbn [map SpecAlgebra.dotx]. rewrite IH by exact Hh. rewrite Hh. ring. }
    induction ls as [|l before IH]; intros v r; cbn [SpecAlgebra.push]; [apply H|]. destruct (existsb (String.eqb v) (l_outs l)); [|apply IH].
    assert (G : forall ps a1 a2 a3, a3 = add (mul k a1) a2 ->
      let F t := fun a p => let '(o, n, rows) := p in if String.eqb o v then add a (dotx (snd (rows r : list nat * list V)) (map (fun k => push before t n k) (fst (rows r)))) else a in
      fold_left (F t3) ps a3 = add (mul k (fold_left (F t1) ps a1)) (fold_left (F t2) ps a2)).
    { induction ps as [|[[o n] rows] ps IHp]; intros a1 a2 a3 E F; [exact E|]. cbn [fold_left]. apply IHp. unfold F. destruct (String.eqb o v); [|exact E].
      rewrite E, (Dl nat (snd (rows r)) (fun k => push before t1 n k) (fun k => push before t2 n k)) by (intros; apply IH). ring. }
    apply (G (l_pairs l) zero zero zero). ring.
  Qed.

  (** ** No path, no derivative *)
  Lemma no_path ls : forall v i r c, ~ depends ls v i -> sens ls v i r c = zero.
  Proof.
    induction ls as [|l before IH]; intros v i r c Nd; cbn [sensitivity].
    - destruct (String.eqb_spec v i) as [->|]; [|reflexivity]. exfalso. apply Nd. constructor.
    - destruct (existsb (String.eqb v) (l_outs l)) eqn:E.
      + apply existsb_in in E. assert (G : forall ps, incl ps (l_pairs l) ->
          fold_left (fun a p => let '(o, n, rows) := p in if String.eqb o v then add a (dotx (snd (rows r)) (map (fun k => sens before n i k c) (fst (rows r)))) else a) ps zero = zero).
        { induction ps as [|[[o n] rows] ps IHp]; intros Hi; [reflexivity|]. cbn [fold_left]. destruct (String.eqb_spec o v) as [->|]; [|apply IHp; intros x J; apply Hi; right; exact J].
          rewrite (map_ext _ (fun _ => zero)).
          - assert (Z : forall (X : Type) (ks : list X), map (fun _ => zero) ks = repeat zero (length ks)) by (induction ks as [|k ks IHk]; [reflexivity|cbn; rewrite IHk; reflexivity]).
            rewrite Z, dotx_zero. replace (add zero zero) with zero by ring. apply IHp. intros x J. apply Hi. right. exact J.
          - intros k. apply IH. intros Dp. apply Nd. apply (dep_block l before v n rows i E); [apply Hi; left; reflexivity|exact Dp]. }
        apply G. apply incl_refl.
      + apply IH. intros Dp. apply Nd. apply dep_keep; [|exact Dp]. intros J. apply existsb_in in J. congruence.
  Qed.

  (** ** The implicit function theorem *)
  Section Ift.
    Variable size : string -> nat.
    Variables us gs : list string.
    Variable X : string -> string -> nat -> nat -> V.
    Variable l : lin V.
    Hypothesis sl : solves_for zero size us gs X l.
    Hypothesis Nu : NoDup us.
    Hypothesis Ng : NoDup gs.

    Lemma implicit_fold (f : string -> nat -> V) u x : In u us -> x < size u ->
      fold_left (fun a p => let '(o, n, rows) := p in if String.eqb o u then add a (dotx (snd (rows x)) (map (fun k => f n k) (fst (rows x)))) else a) (l_pairs l) zero =
      sum (map (fun g => sum_to (size g) (fun y => mul (X u g x y) (f g y))) gs).
    Proof using R sl Ng.
      intros Iu Hx. destruct sl as (Eo & Nd & Hp & Hz). 
      set (S g := sum_to (size g) (fun y => mul (X u g x y) (f g y))).
      set (P := l_pairs l) in *.
      assert (G : forall ps, NoDup (map fst ps) -> incl ps P -> forall a,
        fold_left (fun a p => let '(o, n, rows) := p in if String.eqb o u then add a (dotx (snd (rows x)) (map (fun k => f n k) (fst (rows x)))) else a) ps a =
        add a (sum (map (fun g => if in_dec (fun a b : string * string => ltac:(decide equality; apply String.string_dec)) (u, g) (map fst ps) then S g else zero) gs))).
      { induction ps as [|[[o n] rows] ps IH]; intros N I a.
        - cbn [fold_left map]. rewrite sum_zero; [ring|]. intros g _. destruct (in_dec _ _ _) as [[]|]. reflexivity.
        - cbn [map fst] in N. apply NoDup_cons_iff in N as [No N]. cbn [fold_left]. rewrite IH by (try exact N; intros z J; apply I; right; exact J).
          destruct (Hp o n rows (I _ (or_introl eq_refl))) as (Io & In_ & Er).
          destruct (String.eqb_spec o u) as [->|Ne].
          + rewrite (Er x Hx). cbn [fst snd]. rewrite dotx_seq.
            transitivity (add a (sum (map (fun g => add (if String.string_dec g n then S g else zero)
              (if in_dec (fun a b : string * string => ltac:(decide equality; apply String.string_dec)) (u, g) (map fst ps) then S g else zero)) gs))).
            * rewrite sum_add. rewrite (sum_one String.string_dec (fun g => if String.string_dec g n then S g else zero) gs n Ng In_).
              2: { intros y _ Ny. destruct (String.string_dec y n); [contradiction|reflexivity]. }
              destruct (String.string_dec n n) as [_|Nn]; [|contradiction]. unfold S at 2. unfold SpecAlgebra.sum_to. ring.
            * f_equal. apply sum_ext. intros g _. cbn [map fst]. destruct (String.string_dec g n) as [->|Nn].
              -- destruct (in_dec _ (u, n) (map fst ps)) as [J|_]; [contradiction|]. destruct (in_dec _ (u, n) ((u, n) :: map fst ps)) as [_|J]; [ring|]. exfalso. apply J. left. reflexivity.
              -- destruct (in_dec _ (u, g) (map fst ps)) as [J|J]; destruct (in_dec _ (u, g) ((u, n) :: map fst ps)) as [K|K]; try ring.
                 ++ exfalso. apply K. right. exact J.
                 ++ exfalso. destruct K as [K|K]; [congruence|contradiction].
          + f_equal. apply sum_ext. intros g _. cbn [map fst]. destruct (in_dec _ (u, g) (map fst ps)) as [J|J]; destruct (in_dec _ (u, g) ((o, n) :: map fst ps)) as [K|K]; try reflexivity.
            * exfalso. apply K. right. exact J.
            * exfalso. destruct K as [K|K]; [congruence|contradiction]. }
      rewrite (G P Nd (incl_refl _) zero). transitivity (sum (map S gs)); [|reflexivity].
      rewrite (sum_ext (fun g => if in_dec (fun a b : string * string => ltac:(decide equality; apply String.string_dec)) (u, g) (map fst P) then S g else zero) S); [ring|].
      intros g Ig. destruct (in_dec _ (u, g) (map fst P)) as [J|J]; [reflexivity|]. symmetry. unfold S, SpecAlgebra.sum_to. apply sum_zero. intros y _. rewrite (Hz u g Iu Ig J). ring.
    Qed.

    Lemma implicit_sens before u i x c : In u us -> x < size u ->
      sens (l :: before) u i x c = sum (map (fun g => sum_to (size g) (fun y => mul (X u g x y) (sens before g i y c))) gs).
    Proof using R sl Ng.
      intros Iu Hx. cbn [sensitivity]. destruct sl as (Eo & _). rewrite Eo, (proj2 (existsb_in _ _) Iu). apply (implicit_fold (fun n k => sens before n i k c) u x Iu Hx).
    Qed.

    (** Residual rows [nr]; [A] the derivative by the unknowns, [B] by the givens. *)
    Variable nr : nat.
    Variables (A B : nat -> string -> nat -> V).
    Hypothesis solved : forall p g y, p < nr -> In g gs -> y < size g ->
      add (sum (map (fun u => sum_to (size u) (fun x => mul (A p u x) (X u g x y))) us)) (B p g y) = zero.

    Lemma stationary (F f : string -> nat -> V) p : p < nr ->
      (forall u x, In u us -> x < size u -> F u x = sum (map (fun g => sum_to (size g) (fun y => mul (X u g x y) (f g y))) gs)) ->
      add (sum (map (fun u => sum_to (size u) (fun x => mul (A p u x) (F u x))) us))
          (sum (map (fun g => sum_to (size g) (fun y => mul (B p g y) (f g y))) gs)) = zero.
    Proof using R solved.
      intros Hp HF.
      transitivity (sum (map (fun g => sum (map (fun y => mul (add (sum (map (fun u => sum (map (fun x => mul (A p u x) (X u g x y)) (seq 0 (size u)))) us)) (B p g y)) (f g y)) (seq 0 (size g)))) gs)).
      2: { apply sum_zero. intros g Ig. apply sum_zero. intros y Iy. apply in_seq in Iy. pose proof (solved p g y Hp Ig ltac:(lia)) as E. unfold SpecAlgebra.sum_to in E. rewrite E. ring. }
      transitivity (add (sum (map (fun g => sum (map (fun y => mul (sum (map (fun u => sum (map (fun x => mul (A p u x) (X u g x y)) (seq 0 (size u)))) us)) (f g y)) (seq 0 (size g)))) gs))
                        (sum (map (fun g => sum (map (fun y => mul (B p g y) (f g y)) (seq 0 (size g)))) gs))).
      2: { rewrite <- sum_add. apply sum_ext. intros g _. rewrite <- sum_add. apply sum_ext. intros y _. ring. }
      f_equal. transitivity (sum (map (fun u => sum (map (fun x => mul (A p u x) (sum (map (fun g => sum (map (fun y => mul (X u g x y) (f g y)) (seq 0 (size g)))) gs))) (seq 0 (size u)))) us)).
      { apply sum_ext. intros u Iu. apply sum_ext. intros x Ix. apply in_seq in Ix. rewrite HF by (try exact Iu; lia). reflexivity. }
      transitivity (sum (map (fun u => sum (map (fun x => sum (map (fun g => sum (map (fun y => mul (mul (A p u x) (X u g x y)) (f g y)) (seq 0 (size g)))) gs)) (seq 0 (size u)))) us)).
      { apply sum_ext. intros u _. apply sum_ext. intros x _. rewrite <- sum_mul_l. apply sum_ext. intros g _. rewrite <- sum_mul_l. apply sum_ext. intros y _. ring. }
      transitivity (sum (map (fun u => sum (map (fun g => sum (map (fun x => sum (map (fun y => mul (mul (A p u x) (X u g x y)) (f g y)) (seq 0 (size g)))) (seq 0 (size u)))) gs)) us)).
      { apply sum_ext. intros u _. apply sum_swap. }
      rewrite sum_swap. apply sum_ext. intros g _.
      transitivity (sum (map (fun u => sum (map (fun y => sum (map (fun x => mul (mul (A p u x) (X u g x y)) (f g y)) (seq 0 (size u)))) (seq 0 (size g)))) us)).
      { apply sum_ext. intros u _. apply sum_swap. }
      rewrite sum_swap. apply sum_ext. intros y _. rewrite <- sum_mul_r. apply sum_ext. intros u _. rewrite <- sum_mul_r. reflexivity.
    Qed.

    Lemma residual_stationary before i c p : p < nr ->
      add (sum (map (fun u => sum_to (size u) (fun x => mul (A p u x) (sens (l :: before) u i x c))) us))
          (sum (map (fun g => sum_to (size g) (fun y => mul (B p g y) (sens before g i y c))) gs)) = zero.
    Proof using R sl Ng solved.
      intros Hp. apply (stationary (fun u x => sens (l :: before) u i x c) (fun g y => sens before g i y c) p Hp). intros u x. apply implicit_sens.
    Qed.

    (** With [A] invertible there is no other choice. *)
    Variable L : string -> nat -> nat -> V.
    Hypothesis left_inverse : forall u x u' x', In u us -> x < size u -> In u' us -> x' < size u' ->
      sum_to nr (fun p => mul (L u x p) (A p u' x')) = if String.eqb u u' && Nat.eqb x x' then one else zero.

    Lemma apply_inverse (d : string -> nat -> V) u x : In u us -> x < size u ->
      sum_to nr (fun p => mul (L u x p) (sum (map (fun u' => sum_to (size u') (fun x' => mul (A p u' x') (d u' x'))) us))) = d u x.
    Proof using R Nu left_inverse.
      clear solved B. intros Iu Hx. unfold SpecAlgebra.sum_to in *.
      transitivity (sum (map (fun p => sum (map (fun u' => sum (map (fun x' => mul (mul (L u x p) (A p u' x')) (d u' x')) (seq 0 (size u')))) us)) (seq 0 nr))).
      { apply sum_ext. intros p _. rewrite <- sum_mul_l. apply sum_ext. intros u' _. rewrite <- sum_mul_l. apply sum_ext. intros x' _. ring. }
      rewrite sum_swap. rewrite (sum_one String.string_dec _ us u Nu Iu).
      - rewrite sum_swap. rewrite (sum_one Nat.eq_dec _ (seq 0 (size u)) x (seq_NoDup _ _)); [|apply in_seq; lia|].
        + rewrite sum_mul_r, (left_inverse u x u x Iu Hx Iu Hx), String.eqb_refl, Nat.eqb_refl. cbn. ring.
        + intros x' Ix' Ne. apply in_seq in Ix'. rewrite sum_mul_r, (left_inverse u x u x' Iu Hx Iu) by lia. rewrite String.eqb_refl. replace (Nat.eqb x x') with false by (symmetry; apply Nat.eqb_neq; congruence). cbn. ring.
      - intros u' Iu' Ne. rewrite sum_swap. apply sum_zero. intros x' Ix'. apply in_seq in Ix'. rewrite sum_mul_r, (left_inverse u x u' x' Iu Hx Iu') by lia.
        replace (String.eqb u u') with false by (symmetry; apply String.eqb_neq; congruence). cbn. ring.
    Qed.

    Lemma implicit_unique before i c (d : string -> nat -> V) :
      (forall p, p < nr -> add (sum (map (fun u => sum_to (size u) (fun x => mul (A p u x) (d u x))) us))
          (sum (map (fun g => sum_to (size g) (fun y => mul (B p g y) (sens before g i y c))) gs)) = zero) ->
      forall u x, In u us -> x < size u -> d u x = sens (l :: before) u i x c.
    Proof using R sl Ng Nu solved left_inverse.
      intros H u x Iu Hx. rewrite <- (apply_inverse d u x Iu Hx). rewrite <- (apply_inverse (fun u x => sens (l :: before) u i x c) u x Iu Hx).
      unfold SpecAlgebra.sum_to at 1 3. apply sum_ext. intros p Ip. apply in_seq in Ip. f_equal.
      pose proof (H p ltac:(lia)) as E1. pose proof (residual_stationary before i c p ltac:(lia)) as E2.
      set (b := sum (map (fun g => sum_to (size g) (fun y => mul (B p g y) (sens before g i y c))) gs)) in *.
      set (s1 := sum (map (fun u => sum_to (size u) (fun x => mul (A p u x) (d u x))) us)) in *.
      set (s2 := sum (map (fun u => sum_to (size u) (fun x => mul (A p u x) (sens (l :: before) u i x c))) us)) in *. transitivity (add (add s1 b) (opp b)); [ring|]. transitivity (add (add s2 b) (opp b)); [rewrite E1, E2; reflexivity|ring].
    Qed.
  End Ift.
End Algebra.
