(** The derivative accumulated over the substeps as a product, in exact arithmetic. *)
From Coq Require Import FinFun Ring_theory Ring.
From Verif Require Import Base BaseProofs SpecMap SmapProofs Tensor Spec TensorProofs Pack Implicit
     Substep SpecSubstep DriveProofs RowTableProofs SubstepProofs Jac SpecJac SpecAlgebra AlgebraProofs SpecSubstepJac.

Lemma NoDup_app_intro {X} (a b : list X) : NoDup a -> NoDup b -> (forall x, In x a -> In x b -> False) -> NoDup (a ++ b).
Proof.
  intros Na Nb H. induction Na as [|x a I Na IH]; [exact Nb|]. cbn [app]. constructor.
  - rewrite in_app_iff. intros [J|J]; [contradiction|]. apply (H x); [left; reflexivity|exact J].
  - apply IH. intros y Iy. apply H. right. exact Iy.
Qed.

Section Product.
  Context {V : Type}.
  Variable A : arith V.
  Variable opp : V -> V.
  Hypothesis R : ring_theory (a_zero A) (a_one A) (a_add A) (a_mul A) (a_sub A) opp eq.
  Add Ring Vring : R.
  Variable givens : list given_info.
  Variable unknowns : list var_info.
  Variable M : nat.
  Variable solve_row : list (list V) -> list (list V) * bool.
  Variable slope : list (list V) -> list (list V) -> string -> nat -> string -> nat -> V.
  Variable ift_row : list (list V) -> list (list V) -> list (list V) -> list (list V).
  Hypothesis seg : seg_ok givens unknowns.
  Hypothesis lin : linear_ift A givens unknowns M solve_row slope ift_row.
  Notation comp := (component A M).
  Notation overc := (over_cells A givens).
  Notation G := (given_names givens).
  Notation O := (given_names (old_states givens)).

  Lemma cells_in g y : In (g, y) (cells givens) <-> In g givens /\ y < var_size (gv_var g).
  Proof.
    unfold cells. rewrite in_flat_map. split.
    - intros [h [I J]]. apply in_map_iff in J as [k [E J]]. injection E as -> ->. apply in_seq in J. split; [exact I|lia].
    - intros [I H]. exists g. split; [exact I|]. apply in_map. apply in_seq. lia.
  Qed.

  Lemma nth_between o w x k : k < length o -> length w = length o ->
    nth k (between A o w x) (a_zero A) = a_add A (nth k o (a_zero A)) (a_mul A (a_sub A (nth k w (a_zero A)) (nth k o (a_zero A))) x).
  Proof.
    clear. unfold between. revert w k. induction o as [|p o IH]; intros [|q w] [|k] H L; cbn in *; try lia; [reflexivity|]. apply IH; lia.
  Qed.
  Lemma length_between o w x : length w = length o -> length (between A o w x) = length o.
  Proof. clear. intros L. unfold between. rewrite map_length, combine_length, L. apply Nat.min_id. Qed.

  (** A sum with one non-zero term. *)
  Lemma unit_sum h r (f : string -> nat -> V) : In h givens -> r < var_size (gv_var h) ->
    overc (fun g y => a_mul A (unit_entry A (given_name h) r (given_name g) y) (f (given_name g) y)) = f (given_name h) r.
  Proof using R seg.
    intros I Hr. destruct seg as [_ [Ng _]]. clear lin.
    assert (Dec : forall x y : string * nat, {x = y} + {x <> y}) by (decide equality; [apply Nat.eq_dec|apply String.string_dec]).
    unfold over_cells.
    transitivity (sum (a_zero A) (a_add A) (map (fun ky => a_mul A (unit_entry A (given_name h) r (fst ky) (snd ky)) (f (fst ky) (snd ky)))
                    (map (fun c => (given_name (fst c), snd c)) (cells givens)))).
    { rewrite map_map. reflexivity. }
    rewrite (sum_one (a_zero A) (a_one A) (a_add A) (a_mul A) (a_sub A) opp R Dec _ _ (given_name h, r)).
    - cbn [fst snd]. unfold unit_entry. rewrite String.eqb_refl, Nat.eqb_refl. cbn [andb]. ring.
    - unfold cells. clear I Hr seg. unfold given_names in Ng. induction givens as [|g gs IH]; [constructor|]. cbn [map] in Ng. inversion Ng as [|? ? Ig Ng']; subst.
      cbn [flat_map]. rewrite map_app. apply NoDup_app_intro.
      + rewrite map_map. cbn [fst snd]. apply Injective_map_NoDup; [|apply seq_NoDup]. intros x y E. injection E as E. exact E.
      + apply IH. exact Ng'.
      + intros [n k] J1 J2. apply in_map_iff in J1 as [[g1 y1] [E1 J1]]. apply in_map_iff in J1 as [k1 [E1' _]]. injection E1' as <- <-. cbn [fst snd] in E1.
        injection E1 as <- <-. apply in_map_iff in J2 as [[g2 y2] [E2 J2]]. cbn [fst snd] in E2. injection E2 as E2 _. apply Ig. rewrite <- E2.
        apply in_flat_map in J2 as [g3 [I3 J3]]. apply in_map_iff in J3 as [k3 [E3 _]]. injection E3 as <- _. apply in_map. exact I3.
    - apply in_map_iff. exists (h, r). split; [reflexivity|]. apply cells_in. split; assumption.
    - intros [n k] _ Ne. cbn [fst snd]. unfold unit_entry. destruct (String.eqb_spec (given_name h) n) as [E|E]; cbn [andb]; [|ring].
      destruct (Nat.eqb_spec r k) as [E'|E']; [|ring]. subst. contradiction Ne. reflexivity.
  Qed.
  Lemma overc_add f g : overc (fun h y => a_add A (f h y) (g h y)) = a_add A (overc f) (overc g).
  Proof using R. unfold over_cells. apply (sum_add (a_zero A) (a_one A) (a_add A) (a_mul A) (a_sub A) opp R (fun c => f (fst c) (snd c)) (fun c => g (fst c) (snd c))). Qed.
  Lemma overc_mul k f : overc (fun h y => a_mul A k (f h y)) = a_mul A k (overc f).
  Proof using R. unfold over_cells. apply (sum_mul_l (a_zero A) (a_one A) (a_add A) (a_mul A) (a_sub A) opp R k (fun c => f (fst c) (snd c))). Qed.
  Lemma overc_ext f g : (forall h y, In h givens -> y < var_size (gv_var h) -> f h y = g h y) -> overc f = overc g.
  Proof using. intros H. unfold over_cells. f_equal. apply map_ext_in. intros [h y] I. apply cells_in in I. apply H; apply I. Qed.

  Variable od : list (list V).
  Hypothesis od_fits : fits M G (map gv_var givens) od.
  (** The tangent [cd] of the old states is [before] applied to the tangents of the givens. *)
  Definition tracked (before : string -> nat -> string -> nat -> V) (cd : list (list V)) : Prop :=
    forall h, In h (old_states givens) -> length (getrow O cd (given_name h)) = var_size (gv_var h) * M /\
    forall r m, r < var_size (gv_var h) -> m < M ->
      comp O cd (given_name h) r m = overc (fun g y => a_mul A (before (given_name h) r (given_name g) y) (comp G od (given_name g) y m)).

  Lemma index_lt r m n : r < n -> m < M -> r * M + m < n * M.
  Proof. clear. intros. nia. Qed.

  Lemma getrow_map (f : given_info -> list V) h : In h givens -> getrow G (map f givens) (given_name h) = f h.
  Proof using seg.
    intros I. destruct seg as [_ [Ng _]]. unfold getrow. replace (lookup (given_name h) (combine G (map f givens))) with (Some (f h)); [reflexivity|].
    symmetry. clear lin seg od_fits. unfold given_names in *. induction givens as [|g gs IH]; [contradiction|]. cbn [map combine lookup] in *. inversion Ng as [|? ? Ig Ng']; subst.
    destruct (String.eqb_spec (given_name h) (given_name g)) as [E|E].
    - destruct I as [->|I]; [reflexivity|]. exfalso. apply Ig. rewrite <- E. apply in_map. exact I.
    - destruct I as [->|I]; [contradiction E; reflexivity|]. apply IH; assumption.
  Qed.

  Lemma size_pair (v w : var_info) : trailing v = trailing w -> var_size v = var_size w.
  Proof. unfold trailing, var_size. intros E. rewrite <- !BroadcastProofs.numel_app. rewrite E. reflexivity. Qed.

  (** The tangents of the givens of a solve. *)
  Lemma input_tangent before cd a b h : tracked before cd -> In h givens ->
    length (row_input A givens od cd a b h) = var_size (gv_var h) * M /\
    forall r m, r < var_size (gv_var h) -> m < M ->
      nth (r * M + m) (row_input A givens od cd a b h) (a_zero A) =
      overc (fun g y => a_mul A (input_slope A a b before h r (given_name g) y) (comp G od (given_name g) y m)).
  Proof using R seg od_fits.
    intros T I. pose proof seg as [_ [_ [_ [Po Pf]]]].
    assert (Fit : forall g, In g givens -> length (getrow G od (given_name g)) = var_size (gv_var g) * M) by (intros g Ig; apply od_fits; apply in_map; exact Ig).
    assert (Unit : forall g r m, In g givens -> r < var_size (gv_var g) ->
      overc (fun k y => a_mul A (unit_entry A (given_name g) r (given_name k) y) (comp G od (given_name k) y m)) = comp G od (given_name g) r m)
      by (intros g r m Ig Hr; apply (unit_sum g r (fun n y => comp G od n y m)); assumption).
    unfold row_input, input_slope. destruct (String.eqb_spec (gv_role h) "old_state") as [E|_].
    { apply T. apply filter_In. split; [exact I|apply String.eqb_eq; exact E]. }
    destruct (String.eqb_spec (gv_role h) "old_force") as [E|_].
    { destruct (Pf h I (or_introl E)) as [g' [I' [En Es]]]. apply size_pair in Es. rewrite <- En.
      assert (Lp : length (getrow G od (given_name g')) = length (getrow G od (given_name h))) by (rewrite !Fit by assumption; rewrite Es; reflexivity).
      split; [rewrite length_between by exact Lp; apply Fit; exact I|]. intros r m Hr Hm.
      rewrite nth_between by (try exact Lp; rewrite Fit by exact I; apply index_lt; assumption).
      change (nth (r * M + m) (getrow G od (given_name h)) (a_zero A)) with (comp G od (given_name h) r m).
      change (nth (r * M + m) (getrow G od (given_name g')) (a_zero A)) with (comp G od (given_name g') r m).
      rewrite (overc_ext _ (fun k y => a_add A (a_mul A (a_sub A (a_one A) a) (a_mul A (unit_entry A (given_name h) r (given_name k) y) (comp G od (given_name k) y m)))
                                       (a_mul A a (a_mul A (unit_entry A (given_name g') r (given_name k) y) (comp G od (given_name k) y m)))))
        by (intros; ring).
      rewrite overc_add, !overc_mul, !Unit by (try assumption; rewrite Es; exact Hr). ring. }
    destruct (String.eqb_spec (gv_role h) "cur_force") as [E|_].
    { destruct (Pf h I (or_intror E)) as [g' [I' [En Es]]]. apply size_pair in Es. rewrite <- En.
      assert (Lp : length (getrow G od (given_name h)) = length (getrow G od (given_name g'))) by (rewrite !Fit by assumption; rewrite Es; reflexivity).
      split; [rewrite length_between by exact Lp; rewrite <- Es; apply Fit; exact I'|]. intros r m Hr Hm.
      rewrite nth_between by first [exact Lp | rewrite Fit by exact I'; apply index_lt; [rewrite Es|]; assumption].
      change (nth (r * M + m) (getrow G od (given_name h)) (a_zero A)) with (comp G od (given_name h) r m).
      change (nth (r * M + m) (getrow G od (given_name g')) (a_zero A)) with (comp G od (given_name g') r m).
      rewrite (overc_ext _ (fun k y => a_add A (a_mul A (a_sub A (a_one A) b) (a_mul A (unit_entry A (given_name g') r (given_name k) y) (comp G od (given_name k) y m)))
                                       (a_mul A b (a_mul A (unit_entry A (given_name h) r (given_name k) y) (comp G od (given_name k) y m)))))
        by (intros; ring).
      rewrite overc_add, !overc_mul, !Unit by (try assumption; rewrite Es; exact Hr). ring. }
    split; [apply Fit; exact I|]. intros r m Hr Hm. symmetry. apply Unit; assumption.
  Qed.

  (** One solve. *)
  Lemma step_tangent gs us before cd a b : tracked before cd -> solve_row gs = (us, true) ->
    let td := map (row_input A givens od cd a b) givens in
    fits M (unknown_names unknowns) unknowns (ift_row gs us td) /\
    forall u r m, In u unknowns -> r < var_size u -> m < M ->
      comp (unknown_names unknowns) (ift_row gs us td) (v_name u) r m =
      overc (fun g y => a_mul A (step_slope A givens (slope gs us) a b before (v_name u) r (given_name g) y) (comp G od (given_name g) y m)).
  Proof using R seg od_fits lin.
    intros T Es td.
    assert (Fit : fits M G (map gv_var givens) td).
    { intros v I. apply in_map_iff in I as [h [<- I]]. fold (given_name h). unfold td. rewrite getrow_map by exact I. apply (input_tangent before cd a b h T I). }
    destruct (lin gs us td Es Fit) as [F H]. split; [exact F|]. intros u r m Iu Hr Hm. rewrite (H u r m Iu Hr Hm).
    transitivity (overc (fun h x => overc (fun g y => a_mul A (a_mul A (slope gs us (v_name u) r (given_name h) x) (input_slope A a b before h x (given_name g) y)) (comp G od (given_name g) y m)))).
    { apply overc_ext. intros h x I Hx. unfold component at 1. unfold td. rewrite getrow_map by exact I.
      destruct (input_tangent before cd a b h T I) as [_ Q]. rewrite (Q x m Hx Hm), <- overc_mul. apply overc_ext. intros; ring. }
    unfold over_cells at 1 2.
    rewrite (sum_swap (a_zero A) (a_one A) (a_add A) (a_mul A) (a_sub A) opp R
      (fun c c' => a_mul A (a_mul A (slope gs us (v_name u) r (given_name (fst c)) (snd c)) (input_slope A a b before (fst c) (snd c) (given_name (fst c')) (snd c')))
                     (comp G od (given_name (fst c')) (snd c') m)) (cells givens) (cells givens)).
    unfold over_cells at 1. apply sum_ext. intros [g y] _. cbn [fst snd]. unfold step_slope, over_cells.
    rewrite (sum_mul_r (a_zero A) (a_one A) (a_add A) (a_mul A) (a_sub A) opp R). reflexivity.
  Qed.

  Lemma find_given h : In h givens -> find (fun k => String.eqb (given_name k) (given_name h)) givens = Some h.
  Proof using seg.
    intros I. destruct seg as [_ [Ng _]]. clear lin seg od_fits. unfold given_names in Ng. induction givens as [|g gs IH]; [contradiction|].
    cbn [map find] in *. inversion Ng as [|? ? Ig Ng']; subst. destruct (String.eqb_spec (given_name g) (given_name h)) as [E|E].
    - destruct I as [->|I]; [reflexivity|]. exfalso. apply Ig. rewrite E. apply in_map. exact I.
    - destruct I as [->|I]; [contradiction E; reflexivity|]. apply IH; assumption.
  Qed.
  Lemma getrow_carried (us : list (list V)) h : In h (old_states givens) ->
    getrow O (carried givens unknowns us) (given_name h) = getrow (unknown_names unknowns) us (gv_pair h).
  Proof using seg.
    intros I. destruct seg as [_ [Ng _]]. pose proof (nodup_filter_names givens Ng (fun g => String.eqb (gv_role g) "old_state")) as No.
    fold (old_states givens) in No. unfold getrow at 1, carried.
    replace (lookup (given_name h) (combine O (map (fun g => getrow (unknown_names unknowns) us (gv_pair g)) (old_states givens))))
      with (Some (getrow (unknown_names unknowns) us (gv_pair h))); [reflexivity|]. symmetry. clear lin seg od_fits.
    unfold given_names in *. induction (old_states givens) as [|g gs IH]; [contradiction|]. cbn [map combine lookup] in *. inversion No as [|? ? Ig No']; subst.
    destruct (String.eqb_spec (given_name h) (given_name g)) as [E|E].
    - destruct I as [->|I]; [reflexivity|]. exfalso. apply Ig. rewrite <- E. apply in_map. exact I.
    - destruct I as [->|I]; [contradiction E; reflexivity|]. apply IH; assumption.
  Qed.

  Lemma marched_product o l c cd us usd : marched A givens unknowns solve_row ift_row o od l c cd us usd ->
    forall before, tracked before cd ->
    exists J, product A givens unknowns solve_row slope o l c before J /\
      forall u r m, In u unknowns -> r < var_size u -> m < M ->
        comp (unknown_names unknowns) usd (v_name u) r m =
        overc (fun g y => a_mul A (J (v_name u) r (given_name g) y) (comp G od (given_name g) y m)).
  Proof using R seg od_fits lin.
    intros H. induction H as [a b c cd us Es|a b l c cd us us' usd' Es H IH]; intros before T.
    - eexists. split; [apply product_last; exact Es|]. apply (step_tangent _ _ _ _ a b T Es).
    - destruct (step_tangent _ _ _ _ a b T Es) as [F Q]. cbn zeta in F, Q.
      destruct (IH (carried_slope A givens (step_slope A givens (slope (map (row_input A givens o c a b) givens) us) a b before))) as [J [P HJ]].
      { intros h I. pose proof I as I'. apply filter_In in I' as [Ig Rl]. apply String.eqb_eq in Rl. destruct seg as [_ [_ [_ [Po _]]]].
        destruct (Po h Ig Rl) as [u [Iu [Eu Su]]]. apply size_pair in Su. unfold component at 1. rewrite getrow_carried by exact I. rewrite <- Eu, <- Su.
        split; [apply F; exact Iu|]. intros r m Hr Hm.
        transitivity (overc (fun g y => a_mul A (step_slope A givens (slope (map (row_input A givens o c a b) givens) us) a b before (v_name u) r (given_name g) y)
                                              (comp G od (given_name g) y m))); [apply (Q u r m Iu Hr Hm)|].
        apply overc_ext. intros g y _ _. unfold carried_slope. rewrite (find_given h Ig), <- Eu. reflexivity. }
      exists J. split; [eapply product_more; [exact Es|exact P]|exact HJ].
  Qed.

  (** At the start the old states' tangents are among those of the givens. *)
  Lemma start_tracked cd : (forall h, In h (old_states givens) -> getrow O cd (given_name h) = getrow G od (given_name h)) ->
    tracked (unit_entry A) cd.
  Proof using R seg od_fits.
    intros H h I. unfold component at 1. rewrite (H h I). apply filter_In in I as [I _]. split; [apply od_fits; apply in_map; exact I|].
    intros r m Hr Hm. symmetry. apply (unit_sum h r (fun n y => comp G od n y m)); assumption.
  Qed.
End Product.
