(** Lemmas about the masked Newton solve and about batches of unrelated rows. *)
From Verif Require Import Base BaseProofs Float Newton SpecNewton NewtonProofs.

(** ** Steps of zero *)
Lemma same_num_refl x : same_num x x.
Proof. left. reflexivity. Qed.
Lemma same_num_trans x y z : same_num x y -> same_num y z -> same_num x z.
Proof. unfold same_num. intros [->|[-> ->]] [->|[H ->]]; auto. Qed.
Lemma same_row_refl r : same_row r r.
Proof. induction r as [|g r IH]; constructor; [|exact IH]. induction g; constructor; [apply same_num_refl|assumption]. Qed.
Lemma Forall2_trans {A} (R : A -> A -> Prop) : (forall x y z, R x y -> R y z -> R x z) ->
  forall a b c, Forall2 R a b -> Forall2 R b c -> Forall2 R a c.
Proof.
  intros T a b c H. revert c. induction H as [|x y a b Rxy H IH]; intros c H2; inversion H2; subst; constructor; eauto.
Qed.
Lemma same_row_trans a b c : same_row a b -> same_row b c -> same_row a c.
Proof. apply Forall2_trans. apply Forall2_trans. exact same_num_trans. Qed.

Lemma add_zero x : same_num x (fadd x fzero).
Proof. unfold same_num, fadd, fzero. destruct x as [[|]|s| |s m e]; cbn; auto. Qed.
Lemma add_mul_zero a x : ffinite a = true -> same_num x (fadd x (fmul a fzero)).
Proof.
  unfold same_num, fadd, fmul, fzero. destruct a as [[|]|s| |[|] m e]; try discriminate; intros _;
    destruct x as [[|]|s'| |s' m' e']; cbn; auto.
Qed.
Lemma add_zero_ordinary x : x <> fneg_zero -> fadd x fzero = x.
Proof. intros H. destruct (add_zero x) as [E|[E _]]; congruence. Qed.
Lemma add_mul_zero_ordinary a x : ffinite a = true -> x <> fneg_zero -> fadd x (fmul a fzero) = x.
Proof. intros Ha H. destruct (add_mul_zero a x Ha) as [E|[E _]]; congruence. Qed.

Lemma rows2_zero f r d : map (@length F) d = map (@length F) r -> (forall x, same_num x (f x fzero)) ->
  same_row r (rows2 f r (zero_row d)).
Proof.
  intros E H. revert d E. induction r as [|g r IH]; intros [|h d]; cbn [map]; intros E; try discriminate; [constructor|].
  injection E as E1 E2. unfold zero_row. cbn [map]. unfold rows2. rewrite map2_cons. constructor; [|exact (IH d E2)].
  clear IH E2. revert h E1. induction g as [|x g IH]; intros [|y h]; cbn; intros E; try discriminate; [constructor|].
  injection E as E. constructor; [apply H|]. apply IH. exact E.
Qed.
Lemma rows2_zero_eq f r d : map (@length F) d = map (@length F) r -> Forall (Forall (fun x => f x fzero = x)) r ->
  rows2 f r (zero_row d) = r.
Proof.
  intros E H. revert d E. induction H as [|g r Hg H IH]; intros [|h d]; cbn [map]; intros E; try discriminate; [reflexivity|].
  injection E as E1 E2. unfold zero_row. cbn [map]. unfold rows2. rewrite map2_cons. f_equal; [|exact (IH d E2)].
  clear IH E2. revert h E1. induction Hg as [|x g Hx Hg IH]; intros [|y h]; cbn; intros E; try discriminate; [reflexivity|].
  injection E as E. unfold map2 in IH. rewrite Hx, IH; [reflexivity|exact E].
Qed.

Section Masked.
  Variable fsum : list F -> F.

  Lemma diff_rows2 r r' : rows2 fsub r r' = diff_row r r'.
  Proof. reflexivity. Qed.

  Lemma masked_row_iff cfg n0 n du un :
    masked_row_converged cfg n0 n du un = true <-> meets_masked_tol cfg n n0 du un.
  Proof. unfold masked_row_converged, meets_masked_tol. rewrite orb_true_iff, andb_true_iff. reflexivity. Qed.

  Lemma masked_converged_nth cfg b0 b u' u i :
    nth_error (masked_converged cfg (norms fsum b0) (norms fsum b) (norms fsum (map2 (rows2 fsub) u' u)) (norms fsum u')) i =
    match nth_error b0 i, nth_error b i, nth_error u' i, nth_error u i with
    | Some r0, Some r, Some x', Some x =>
        Some (masked_row_converged cfg (rnorm fsum r0) (rnorm fsum r) (rnorm fsum (diff_row x' x)) (rnorm fsum x'))
    | _, _, _, _ => None
    end.
  Proof.
    unfold masked_converged. rewrite nth_map2, !nth_combine, !norms_map, !nth_error_map, nth_map2.
    destruct (nth_error b0 i), (nth_error b i), (nth_error u' i), (nth_error u i); reflexivity.
  Qed.
  Lemma masked_converged_length cfg a b c d :
    length (masked_converged cfg a b c d) = Nat.min (Nat.min (length a) (length b)) (Nat.min (length c) (length d)).
  Proof. unfold masked_converged. rewrite map2_length, !combine_length. reflexivity. Qed.
  Lemma norms_length x : length (norms fsum x) = length x.
  Proof. apply map_length. Qed.

  Lemma masked_mask_length cfg (u0 u b u' b0 : batch) :
    length b0 = length u0 -> length u = length u0 -> length u' = length u0 -> length b = length u0 ->
    length (masked_converged cfg (norms fsum b0) (norms fsum b) (norms fsum (map2 (rows2 fsub) u' u)) (norms fsum u')) = length u0.
  Proof. intros. rewrite masked_converged_length, !norms_length, map2_length. lia. Qed.

  (** What one iteration establishes. *)
  Lemma iterate_shapes cfg s hist u b frozen u' b' t :
    shaped (sy_usizes s) u -> length b = length u -> (forall m, frozen = Some m -> length m = length u) ->
    iterate fsum cfg s hist u b frozen = (Ok (u', b'), t) ->
    sy_residual s u' = Ok b' /\ length b' = length u /\ length u' = length u /\ shaped (sy_usizes s) u'.
  Proof.
    intros S L Fz H. apply iterate_ok in H; try assumption.
    destruct H as [du [_ [_ [_ [_ [R [L1 [_ [L2 [S2 _]]]]]]]]]]. auto.
  Qed.
  Lemma or_mask_length n frozen m : (forall f, frozen = Some f -> length f = n) -> length m = n ->
    length (or_mask frozen m) = n.
  Proof. destruct frozen as [f|]; intros H L; [|exact L]. cbn. rewrite map2_length, (H f eq_refl), L. apply Nat.min_id. Qed.

  Lemma iterates_app a b : iterates_of (a ++ b) = iterates_of a ++ iterates_of b.
  Proof. apply flat_map_app. Qed.
  Lemma iterates_none t : steps_of t = 0 -> iterates_of t = [].
  Proof.
    induction t as [|c t IH]; intros H; [reflexivity|]. destruct c as [u|u]; [apply IH; exact H|discriminate].
  Qed.
  Lemma iterates_iterate cfg s hist u b fz r t : iterate fsum cfg s hist u b fz = (Ok r, t) -> iterates_of t = [u].
  Proof.
    unfold iterate. intros H. apply io_ok in H. destruct H as [du [t1 [t2 [Hs [H ->]]]]].
    apply step_ok in Hs. destruct Hs as [_ [_ [_ ->]]].
    assert (Z : steps_of t2 = 0).
    { destruct (negb _); [discriminate|]. destruct (_ <=? _).
      - apply io_ok in H. destruct H as [bt [t3 [t4 [R [H ->]]]]]. apply residual_ok in R. destruct R as [_ [_ [_ ->]]].
        injection H as <- <-. reflexivity.
      - apply line_search_cost in H. apply H. }
    rewrite iterates_app, (iterates_none t2 Z). reflexivity.
  Qed.

  Lemma masked_loop_mask cfg s u0 b0 : sy_residual s u0 = Ok b0 -> length b0 = length u0 ->
    forall left i fz cv hist u b u' m k t prev,
    shaped (sy_usizes s) u -> length u = length u0 -> sy_residual s u = Ok b -> length b = length u ->
    (forall f, fz = Some f -> length f = length u0) -> mask_exact fsum cfg s u0 prev u cv ->
    masked_loop fsum cfg s (norms fsum b0) left i fz cv hist u b = (Ok (u', m, k), t) ->
    mask_exact fsum cfg s u0 (fold_left (fun _ v => Some v) (iterates_of t) prev) u' m.
  Proof.
    intros R0 L0. induction left as [|left IH]; intros i fz cv hist u b u' m k t prev Su Lu R Lb Lf M H; cbn [masked_loop] in H.
    - injection H as <- <- <- <-. exact M.
    - apply io_ok in H. destruct H as [[u1 b1] [t1 [t2 [It [H ->]]]]].
      rewrite iterates_app, (iterates_iterate _ _ _ _ _ _ _ _ It), fold_left_app. cbn [fold_left].
      apply iterate_shapes in It; [|exact Su|exact Lb|rewrite Lu; exact Lf].
      destruct It as [R1 [L1 [L2 S1]]].
      set (cv' := masked_converged _ _ _ _ _) in H.
      assert (Lc : length cv' = length u0) by (apply masked_mask_length; lia).
      assert (M1 : mask_exact fsum cfg s u0 (Some u) u1 cv').
      { exists b0, b1. split; [exact R0|]. split; [exact R1|]. split; [exact L0|]. split; [lia|]. split; [lia|]. split; [exact Lc|].
        intros j bit r r0 x N Nr N0 Nx.
        unfold cv' in N. rewrite masked_converged_nth, Nr, N0, Nx in N.
        destruct (nth_error u j) as [x'|] eqn:Nx'; [|discriminate]. injection N as <-. rewrite masked_row_iff. split.
        - intros A. exists x'. split; [reflexivity|exact A].
        - intros [y [Ey A]]. injection Ey as <-. exact A. }
      match type of H with (if ?c then _ else _) = _ => destruct c end.
      + injection H as <- <- <- <-. exact M1.
      + eapply IH in H; [exact H|exact S1|lia|exact R1|lia| |exact M1].
        intros f E. injection E as <-. apply or_mask_length; [exact Lf|exact Lc].
  Qed.

  Lemma masked_mask cfg s u0 u m k t :
    solve_masked fsum cfg s u0 = (Ok (u, m, k), t) -> mask_exact fsum cfg s u0 (last_iterate t) u m.
  Proof.
    unfold solve_masked. intros H. apply io_ok in H. destruct H as [b0 [t1 [t2 [En [H ->]]]]].
    apply entry_ok in En. destruct En as [S0 [R0 [L0 [Sb Tt]]]].
    assert (M : mask_exact fsum cfg s u0 None u0 (map (fun x => flt x (cf_atol cfg)) (norms fsum b0))).
    { exists b0, b0. rewrite map_length, norms_length. split; [exact R0|]. split; [exact R0|]. repeat (split; [assumption || reflexivity|]).
      intros j bit r r0 x N Nr N0 Nx. rewrite norms_map, !nth_error_map, Nr in N. cbn in N. injection N as <-. reflexivity. }
    unfold last_iterate. rewrite iterates_app, (iterates_none t1), fold_left_app by (rewrite Tt; reflexivity). cbn [fold_left].
    match type of H with (if ?c then _ else _) = _ => destruct c end.
    - injection H as <- <- <- <-. exact M.
    - eapply masked_loop_mask in H; [exact H|exact R0|exact L0|exact S0|reflexivity|exact R0|exact L0|discriminate|exact M].
  Qed.

  Lemma masked_loop_total n cfg s b0n : total_system n s -> length b0n = n ->
    forall left i fz cv hist u b, length u = n -> shaped (sy_usizes s) u -> length b = n ->
    (forall f, fz = Some f -> length f = n) ->
    exists x t, masked_loop fsum cfg s b0n left i fz cv hist u b = (Ok x, t).
  Proof.
    intros T L0. induction left as [|left IH]; intros i fz cv hist u b Lu Su Lb Lf; cbn [masked_loop].
    - do 2 eexists. reflexivity.
    - destruct (iterate_total fsum n cfg s hist u b fz T Lu Su Lb Lf) as [u1 [b1 [t1 It]]]. rewrite It. cbn [iobind].
      apply iterate_shapes in It; [|exact Su|lia|rewrite Lu; exact Lf]. destruct It as [R1 [L1 [L2 S1]]].
      match goal with |- context [if ?c then _ else _] => destruct c end; [do 2 eexists; reflexivity|].
      match goal with |- context [masked_loop _ _ _ _ left ?a ?b ?c ?d ?e ?f] => destruct (IH a b c d e f) as [x [t E]] end.
      + lia.
      + exact S1.
      + lia.
      + intros f E. injection E as <-. apply or_mask_length; [exact Lf|].
        rewrite masked_converged_length, !norms_length, map2_length. lia.
      + rewrite E. do 2 eexists. reflexivity.
  Qed.
  Lemma masked_total n cfg s u0 : total_system n s -> length u0 = n -> shaped (sy_usizes s) u0 ->
    exists x t, solve_masked fsum cfg s u0 = (Ok x, t).
  Proof.
    intros T L S. unfold solve_masked. destruct (entry_total n s u0 T L S) as [b En]. rewrite En. cbn [iobind].
    apply entry_ok in En. destruct En as [_ [_ [Lb _]]].
    match goal with |- context [if ?c then _ else _] => destruct c end; [do 2 eexists; reflexivity|].
    destruct (masked_loop_total n cfg s (norms fsum b) T ltac:(rewrite norms_length; lia) (cf_miters cfg - 1) 0 None
                (map (fun x => flt x (cf_atol cfg)) (norms fsum b)) [] u0 b L S ltac:(lia) ltac:(discriminate)) as [x [t E]].
    rewrite E. do 2 eexists. reflexivity.
  Qed.

  (** ** Frozen rows *)
  Definition is_frozen (fz : option (list bool)) (i : nat) : bool :=
    match fz with None => false | Some f => match nth_error f i with Some b => b | None => false end end.

  Lemma iterate_frozen cfg s hist u b fz u' b' t i x x' :
    finite_cuts cfg ->
    shaped (sy_usizes s) u -> length b = length u -> (forall m, fz = Some m -> length m = length u) ->
    iterate fsum cfg s hist u b fz = (Ok (u', b'), t) ->
    is_frozen fz i = true -> nth_error u i = Some x -> nth_error u' i = Some x' -> same_row x x'.
  Proof.
    intros FC S L Fz H Z N N'. apply iterate_ok in H; try assumption.
    destruct H as [du [_ [Ld [Sd [_ [_ [_ [_ [_ [_ A]]]]]]]]]].
    destruct fz as [f|]; [|discriminate]. cbn in Z. destruct (nth_error f i) as [bb|] eqn:Nf; [|discriminate]. subst bb.
    destruct (nth_error du i) as [d|] eqn:Nd; [|apply nth_error_None in Nd; assert (i < length u) by (apply nth_error_Some; congruence); lia].
    assert (Q : map (@length F) d = map (@length F) x)
      by (rewrite (shaped_nth _ _ _ _ Sd Nd), (shaped_nth _ _ _ _ S N); reflexivity).
    assert (Nz : nth_error (freeze (Some f) du) i = Some (zero_row d)) by (cbn; rewrite nth_map2, Nf, Nd; reflexivity).
    destruct (A i x (zero_row d) x' N Nz N') as [[_ ->]|[k [Hk ->]]].
    - apply rows2_zero; [exact Q|apply add_zero].
    - apply rows2_zero; [exact Q|]. intros y. apply add_mul_zero. apply FC, Hk.
  Qed.

  (** [later l i x]: from here on row [i] of every iterate is [x] up to the sign of zero. *)
  Definition later (l : list batch) (i : nat) (x : row) : Prop :=
    forall v y, In v l -> nth_error v i = Some y -> same_row x y.

  Lemma masked_loop_frozen cfg s b0 : finite_cuts cfg ->
    forall left j fz cv hist u b u' m k t,
    shaped (sy_usizes s) u -> length b = length u -> length b0 = length u ->
    (forall f, fz = Some f -> length f = length u) ->
    masked_loop fsum cfg s (norms fsum b0) left j fz cv hist u b = (Ok (u', m, k), t) ->
    (forall i x, is_frozen fz i = true -> nth_error u i = Some x -> later (iterates_of t ++ [u']) i x) /\
    (exists rest, iterates_of t ++ [u'] = u :: rest) /\
    (forall l1 v1 v2 l2 b2 i x1 x2 r0 r2,
       iterates_of t ++ [u'] = l1 ++ v1 :: v2 :: l2 ->
       sy_residual s v2 = Ok b2 ->
       nth_error v1 i = Some x1 -> nth_error v2 i = Some x2 -> nth_error b0 i = Some r0 -> nth_error b2 i = Some r2 ->
       meets_masked_tol cfg (rnorm fsum r2) (rnorm fsum r0) (rnorm fsum (diff_row x2 x1)) (rnorm fsum x2) ->
       later (v2 :: l2) i x2).
  Proof.
    intros FC. induction left as [|left IH]; intros j fz cv hist u b u' m k t Su Lb L0 Lf H; cbn [masked_loop] in H.
    - injection H as <- <- <- <-. cbn [iterates_of flat_map app]. split; [|split].
      + intros i x _ N v y [<-|[]] Ny. rewrite N in Ny. injection Ny as <-. apply same_row_refl.
      + exists []. reflexivity.
      + intros [|w1 [|w2 ws]] v1 v2 l2 b2 i x1 x2 r0 r2 E; discriminate.
    - apply io_ok in H. destruct H as [[u1 b1] [t1 [t2 [It [H ->]]]]].
      pose proof (iterates_iterate _ _ _ _ _ _ _ _ It) as Hit.
      pose proof (iterate_shapes _ _ _ _ _ _ _ _ _ Su Lb Lf It) as [R1 [L1 [L2 S1]]].
      set (cv' := masked_converged _ _ _ _ _) in H.
      assert (Lc : length cv' = length u) by (apply masked_mask_length; lia).
      rewrite iterates_app, Hit. cbn [app].
      (* the run after this iteration *)
      assert (Tail : exists rest,
        iterates_of t2 ++ [u'] = u1 :: rest /\
        (forall i x, is_frozen (Some (or_mask fz cv')) i = true -> nth_error u1 i = Some x -> later (u1 :: rest) i x) /\
        (forall l1 v1 v2 l2 b2 i x1 x2 r0 r2,
           u1 :: rest = l1 ++ v1 :: v2 :: l2 -> sy_residual s v2 = Ok b2 ->
           nth_error v1 i = Some x1 -> nth_error v2 i = Some x2 -> nth_error b0 i = Some r0 -> nth_error b2 i = Some r2 ->
           meets_masked_tol cfg (rnorm fsum r2) (rnorm fsum r0) (rnorm fsum (diff_row x2 x1)) (rnorm fsum x2) ->
           later (v2 :: l2) i x2)).
      { match type of H with (if ?c then _ else _) = _ => destruct c end.
        - injection H as <- <- <- <-. exists []. split; [reflexivity|]. split.
          + intros i x _ N v y [<-|[]] Ny. rewrite N in Ny. injection Ny as <-. apply same_row_refl.
          + intros [|w1 [|w2 ws]] v1 v2 l2 b2 i x1 x2 r0 r2 E; discriminate.
        - apply IH in H; [|exact S1|lia|lia|].
          + destruct H as [A [[rest B] C]]. rewrite B in A, C. exists rest. split; [exact B|]. split; [exact A|exact C].
          + intros f E. injection E as <-. rewrite L2. apply or_mask_length; [exact Lf|exact Lc]. }
      destruct Tail as [rest [-> [TA TC]]]. split; [|split].
      + intros i x Z N v y [<-|I] Ny; [rewrite N in Ny; injection Ny as <-; apply same_row_refl|].
        assert (Li : i < length u) by (apply nth_error_Some; congruence).
        destruct (nth_error u1 i) as [x1|] eqn:N1; [|apply nth_error_None in N1; lia].
        pose proof (iterate_frozen _ _ _ _ _ _ _ _ _ i x x1 FC Su Lb Lf It Z N N1) as Q.
        eapply same_row_trans; [exact Q|]. apply (TA i x1) with v; [|exact N1|exact I|exact Ny].
        unfold is_frozen in *. destruct fz as [f|]; [|discriminate]. cbn [or_mask]. rewrite nth_map2.
        destruct (nth_error f i) as [bb|]; [|discriminate]. subst bb.
        destruct (nth_error cv' i) as [cc|] eqn:Nc; [reflexivity|]. apply nth_error_None in Nc. lia.
      + eexists. reflexivity.
      + intros [|w l1] v1 v2 l2 b2 i x1 x2 r0 r2 E Rv N1 N2 N0 Nr M; cbn [app] in E.
        * injection E as <- <- <-. rewrite R1 in Rv. injection Rv as <-. apply (TA i x2); [|exact N2].
          assert (Cv : nth_error cv' i = Some true).
          { unfold cv'. rewrite masked_converged_nth, N0, Nr, N2, N1. f_equal. apply masked_row_iff. exact M. }
          unfold is_frozen, or_mask. destruct fz as [f|]; [|rewrite Cv; reflexivity].
          rewrite nth_map2, Cv. assert (Li : i < length u) by (apply nth_error_Some; congruence).
          destruct (nth_error f i) as [bb|] eqn:Nf; [apply orb_true_r|]. apply nth_error_None in Nf. rewrite (Lf f eq_refl) in Nf. lia.
        * injection E as <- E. eapply TC; eassumption.
  Qed.

  Lemma masked_frozen cfg s u0 b0 u m k t : finite_cuts cfg ->
    sy_residual s u0 = Ok b0 ->
    solve_masked fsum cfg s u0 = (Ok (u, m, k), t) ->
    forall l1 v1 v2 l2 b2 i x1 x2 r0 r2,
       iterates_of t ++ [u] = l1 ++ v1 :: v2 :: l2 ->
       sy_residual s v2 = Ok b2 ->
       nth_error v1 i = Some x1 -> nth_error v2 i = Some x2 -> nth_error b0 i = Some r0 -> nth_error b2 i = Some r2 ->
       meets_masked_tol cfg (rnorm fsum r2) (rnorm fsum r0) (rnorm fsum (diff_row x2 x1)) (rnorm fsum x2) ->
       forall v3 x3, In v3 (v2 :: l2) -> nth_error v3 i = Some x3 -> same_row x2 x3.
  Proof.
    intros FC R H. unfold solve_masked in H. apply io_ok in H. destruct H as [b [t1 [t2 [En [H ->]]]]].
    pose proof (entry_cost _ _ _ _ En) as [Z _]. apply entry_ok in En. destruct En as [S0 [R0 [L0 [Sb _]]]].
    rewrite R in R0. injection R0 as <-. rewrite iterates_app, (iterates_none t1 Z). cbn [app].
    match type of H with (if ?c then _ else _) = _ => destruct c end.
    - injection H as <- <- <- <-. intros [|w1 [|w2 ws]] v1 v2 l2 b2 i x1 x2 r0 r2 E; discriminate.
    - apply masked_loop_frozen in H; [|exact FC|exact S0|exact L0|exact L0|discriminate].
      destruct H as [_ [_ C]]. exact C.
  Qed.

  (** ** Unrelated rows *)
  Lemma each_ok f rs u : length u = length rs -> each f rs u = Ok (map2 f rs u).
  Proof. intros L. unfold each. rewrite L, Nat.eqb_refl. reflexivity. Qed.

  Lemma each_shaped sz (f : rowsys -> row -> row) rs u : Forall (fun r => forall x, map (@length F) x = sz -> map (@length F) (f r x) = sz) rs ->
    shaped sz u -> shaped sz (map2 f rs u).
  Proof.
    intros K S. apply shaped_of_nth. intros i r N. rewrite nth_map2 in N.
    destruct (nth_error rs i) as [q|] eqn:Q; [|discriminate]. destruct (nth_error u i) as [x|] eqn:X; [|discriminate].
    injection N as <-. rewrite Forall_forall in K. apply (K q); [eapply nth_error_In, Q|]. eapply shaped_nth; eassumption.
  Qed.

  Lemma rows_total sz rs : sz <> [] -> Forall (keeps_shape sz) rs -> total_system (length rs) (rows_system sz rs).
  Proof.
    intros NE K. split; [exact NE|]. split; [reflexivity|]. cbn [rows_system sy_residual sy_step sy_usizes].
    intros u L S. split; eexists; (split; [apply each_ok; exact L|]); (split; [rewrite map2_length; lia|]);
      apply each_shaped; try exact S; (eapply Forall_impl; [|exact K]); intros r Kr x Hx; apply Kr; exact Hx.
  Qed.

  (** The line search and the iteration of one row. *)
  Fixpoint rls (cfg : config) (rs : rowsys) (u d : row) (nb bd : F) (more : nat) (a : F) : row * row :=
    let ut := rows2 (fun x y => fadd x (fmul a y)) u d in
    let bt := rw_residual rs ut in
    if ls_stop cfg (row_norm_sq fsum bt) a nb bd then (ut, bt)
    else match more with 0 => (ut, bt) | S more' => rls cfg rs u d nb bd more' (fdiv a (cf_ls_cutback cfg)) end.
  Definition rit (cfg : config) (rs : rowsys) (fz : bool) (u b : row) : row * row :=
    let d := if fz then zero_row (rw_step rs u) else rw_step rs u in
    if cf_ls_max_iters cfg <=? 1
    then let ut := rows2 fadd u d in (ut, rw_residual rs ut)
    else rls cfg rs u d (row_norm_sq fsum b) (row_dot fsum b d) (cf_ls_max_iters cfg - 2) fone.

  Lemma rls_stop cfg rs u d nb bd more a :
    ls_stop cfg (row_norm_sq fsum (rw_residual rs (rows2 (fun x y => fadd x (fmul a y)) u d))) a nb bd = true ->
    rls cfg rs u d nb bd more a = (rows2 (fun x y => fadd x (fmul a y)) u d, rw_residual rs (rows2 (fun x y => fadd x (fmul a y)) u d)).
  Proof. intros H. destruct more; cbn [rls]; rewrite H; reflexivity. Qed.

  Lemma line_search_rows cfg sz rs u du nb bd : length u = length rs -> length du = length rs ->
    length nb = length rs -> length bd = length rs -> shaped sz u -> shaped sz du -> Forall (keeps_shape sz) rs ->
    forall more alpha, length alpha = length rs ->
    exists ut bt t, line_search fsum cfg (rows_system sz rs) u du nb bd more alpha = (Ok (ut, bt), t) /\
      length ut = length rs /\ length bt = length rs /\
      forall i q x d n p a, nth_error rs i = Some q -> nth_error u i = Some x -> nth_error du i = Some d ->
        nth_error nb i = Some n -> nth_error bd i = Some p -> nth_error alpha i = Some a ->
        nth_error ut i = Some (fst (rls cfg q x d n p more a)) /\
        nth_error bt i = Some (snd (rls cfg q x d n p more a)).
  Proof.
    intros Lu Ld Ln Lp Su Sd K. induction more as [|more IH]; intros alpha La; cbn [line_search];
      set (ut := trial alpha u du);
      assert (Lt : length ut = length rs) by (unfold ut; rewrite trial_length; lia);
      assert (St : shaped sz ut) by (apply trial_shaped; assumption);
      assert (R : residual (rows_system sz rs) ut = (Ok (map2 rw_residual rs ut), [CResidual ut])) by
        (unfold residual; cbn [rows_system sy_residual sy_rsizes]; rewrite (each_ok _ _ _ Lt);
         rewrite (checked_of (length ut) sz (Ok (map2 rw_residual rs ut)) (map2 rw_residual rs ut) eq_refl);
         [reflexivity|rewrite map2_length; lia|apply each_shaped; [|exact St]; eapply Forall_impl; [|exact K]; intros r Kr x Hx; apply Kr; exact Hx]);
      rewrite R; cbn [iobind]; set (stop := map2 _ (combine _ alpha) _);
      assert (Lb : length (map2 rw_residual rs ut) = length rs) by (rewrite map2_length; lia);
      assert (NT : forall i q x d a, nth_error rs i = Some q -> nth_error u i = Some x -> nth_error du i = Some d -> nth_error alpha i = Some a ->
         nth_error ut i = Some (rows2 (fun x y => fadd x (fmul a y)) x d) /\
         nth_error (map2 rw_residual rs ut) i = Some (rw_residual q (rows2 (fun x y => fadd x (fmul a y)) x d))) by
        (intros i q x d a Nq Nx Nd Na; assert (X : nth_error ut i = Some (rows2 (fun x y => fadd x (fmul a y)) x d)) by (unfold ut; rewrite trial_nth, Na, Nx, Nd; reflexivity);
         split; [exact X|]; rewrite nth_map2, Nq, X; reflexivity);
      assert (NS : forall i q x d n p a, nth_error rs i = Some q -> nth_error u i = Some x -> nth_error du i = Some d ->
        nth_error nb i = Some n -> nth_error bd i = Some p -> nth_error alpha i = Some a ->
        nth_error stop i = Some (ls_stop cfg (row_norm_sq fsum (rw_residual q (rows2 (fun x y => fadd x (fmul a y)) x d))) a n p)) by
        (intros i q x d n p a Nq Nx Nd Nn Np Na; destruct (NT i q x d a Nq Nx Nd Na) as [_ X];
         unfold stop, norm_sq; rewrite nth_map2, !nth_combine, nth_error_map, X, Na, Nn, Np; reflexivity);
      destruct (forallb _ stop) eqn:A.
    - do 3 eexists. split; [reflexivity|]. split; [exact Lt|]. split; [exact Lb|].
      intros i q x d n p a Nq Nx Nd Nn Np Na. destruct (NT i q x d a Nq Nx Nd Na) as [X Y]. cbn [rls]. destruct (ls_stop _ _ _ _ _); auto.
    - do 3 eexists. split; [reflexivity|]. split; [exact Lt|]. split; [exact Lb|].
      intros i q x d n p a Nq Nx Nd Nn Np Na. destruct (NT i q x d a Nq Nx Nd Na) as [X Y]. cbn [rls]. destruct (ls_stop _ _ _ _ _); auto.
    - do 3 eexists. split; [reflexivity|]. split; [exact Lt|]. split; [exact Lb|].
      intros i q x d n p a Nq Nx Nd Nn Np Na. destruct (NT i q x d a Nq Nx Nd Na) as [X Y].
      rewrite rls_stop; [auto|]. rewrite forallb_forall in A. apply A. eapply nth_error_In. eapply NS; eassumption.
    - assert (Ls : length stop = length rs) by (unfold stop, norm_sq; rewrite map2_length, !combine_length, map_length; lia).
      destruct (IH (map2 (fun (b : bool) a => if b then a else fdiv a (cf_ls_cutback cfg)) stop alpha)) as [ut' [bt' [t' [E [L1 [L2 H]]]]]];
        [rewrite map2_length; lia|].
      rewrite E. do 3 eexists. split; [reflexivity|]. split; [exact L1|]. split; [exact L2|].
      intros i q x d n p a Nq Nx Nd Nn Np Na.
      pose proof (NS i q x d n p a Nq Nx Nd Nn Np Na) as Hs.
      destruct (ls_stop cfg (row_norm_sq fsum (rw_residual q (rows2 (fun x y => fadd x (fmul a y)) x d))) a n p) eqn:Stp.
      + assert (Na' : nth_error (map2 (fun (b : bool) a => if b then a else fdiv a (cf_ls_cutback cfg)) stop alpha) i = Some a)
          by (rewrite nth_map2, Hs, Na; reflexivity).
        pose proof (H i q x d n p a Nq Nx Nd Nn Np Na') as Q.
        rewrite rls_stop in Q by exact Stp. rewrite rls_stop by exact Stp. exact Q.
      + assert (Na' : nth_error (map2 (fun (b : bool) a => if b then a else fdiv a (cf_ls_cutback cfg)) stop alpha) i = Some (fdiv a (cf_ls_cutback cfg)))
          by (rewrite nth_map2, Hs, Na; reflexivity).
        pose proof (H i q x d n p _ Nq Nx Nd Nn Np Na') as Q.
        cbn [rls]. rewrite Stp. exact Q.
  Qed.

  Lemma iterate_rows cfg sz rs hist u b fz : sz <> [] -> Forall (keeps_shape sz) rs ->
    length u = length rs -> shaped sz u -> length b = length rs ->
    (forall m, fz = Some m -> length m = length rs) ->
    exists u' b' t, iterate fsum cfg (rows_system sz rs) hist u b fz = (Ok (u', b'), t) /\
      length u' = length rs /\ length b' = length rs /\ shaped sz u' /\
      forall i q x y, nth_error rs i = Some q -> nth_error u i = Some x -> nth_error b i = Some y ->
        nth_error u' i = Some (fst (rit cfg q (is_frozen fz i) x y)) /\
        nth_error b' i = Some (snd (rit cfg q (is_frozen fz i) x y)).
  Proof.
    intros NE K Lu Su Lb Lf.
    destruct (iterate_total fsum (length rs) cfg (rows_system sz rs) hist u b fz (rows_total sz rs NE K) Lu Su Lb Lf) as [u' [b' [t It]]].
    exists u', b', t. split; [exact It|].
    pose proof (iterate_shapes cfg (rows_system sz rs) hist u b fz u' b' t Su ltac:(lia) ltac:(rewrite Lu; exact Lf) It) as [_ [L1 [L2 S2]]].
    split; [lia|]. split; [lia|]. split; [exact S2|]. clear L1 L2 S2.
    unfold iterate, step in It. cbn [rows_system sy_step sy_usizes sy_rsizes] in It. rewrite (each_ok _ _ _ Lu) in It.
    set (du := map2 rw_step rs u) in It.
    assert (Ld : length du = length rs) by (unfold du; rewrite map2_length; lia).
    assert (Sd : shaped sz du) by (apply each_shaped; [|exact Su]; eapply Forall_impl; [|exact K]; intros r Kr x Hx; apply Kr; exact Hx).
    rewrite (checked_of _ sz (Ok du) du eq_refl) in It; [|lia|exact Sd]. cbn [iobind] in It.
    rewrite (proj2 (sizes_eqb_eq sz sz) eq_refl) in It. cbn [negb] in It.
    assert (LF : length (freeze fz du) = length rs) by (rewrite freeze_length; [lia|intros m Hm; rewrite (Lf m Hm); lia]).
    assert (SF : shaped sz (freeze fz du)) by (apply freeze_shaped; exact Sd).
    assert (ND : forall i q x, nth_error rs i = Some q -> nth_error u i = Some x ->
       nth_error (freeze fz du) i = Some (if is_frozen fz i then zero_row (rw_step q x) else rw_step q x)).
    { intros i q x Nq Nx. assert (Nd : nth_error du i = Some (rw_step q x)) by (unfold du; rewrite nth_map2, Nq, Nx; reflexivity).
      destruct fz as [f|]; [|exact Nd]. cbn. rewrite nth_map2, Nd.
      destruct (nth_error f i) as [bb|] eqn:Nf; [reflexivity|]. apply nth_error_None in Nf. rewrite (Lf f eq_refl) in Nf.
      assert (i < length rs) by (apply nth_error_Some; congruence). lia. }
    unfold rit. destruct (cf_ls_max_iters cfg <=? 1).
    - unfold residual in It. cbn [rows_system sy_residual sy_rsizes] in It.
      rewrite each_ok in It by (rewrite map2_length; lia). destruct (checked _ _ _) as [bt|e] eqn:Ck; [|discriminate].
      apply checked_ok in Ck. destruct Ck as [Ck _]. injection Ck as <-. injection It as <- <- _.
      intros i q x y Nq Nx Ny. pose proof (ND i q x Nq Nx) as Nd.
      assert (X : nth_error (map2 (rows2 fadd) u (freeze fz du)) i = Some (rows2 fadd x (if is_frozen fz i then zero_row (rw_step q x) else rw_step q x)))
        by (rewrite nth_map2, Nx, Nd; reflexivity).
      split; [exact X|]. rewrite nth_map2, Nq, X. reflexivity.
    - destruct (line_search_rows cfg sz rs u (freeze fz du) (norm_sq fsum b) (map2 (row_dot fsum) b (freeze fz du)) Lu LF)
        with (more := cf_ls_max_iters cfg - 2) (alpha := map (fun _ : row => fone) u) as [ut [bt [t' [E [_ [_ H]]]]]]; try assumption.
      + unfold norm_sq. rewrite map_length. exact Lb.
      + rewrite map2_length. lia.
      + rewrite map_length. exact Lu.
      + rewrite E in It. injection It as <- <- _.
        intros i q x y Nq Nx Ny. pose proof (ND i q x Nq Nx) as Nd.
        apply (H i q x _ _ _ fone Nq Nx Nd).
        * unfold norm_sq. rewrite nth_error_map, Ny. reflexivity.
        * rewrite nth_map2, Ny, Nd. reflexivity.
        * rewrite nth_error_map, Nx. reflexivity.
  Qed.

  (** ** C32 *)
  Lemma row_dot_spec b d : row_dot fsum b d = row_dotp fsum b d.
  Proof.
    unfold row_dot, row_dotp, accumulate, map2. destruct (combine b d) as [|[x y] l]; [reflexivity|]. cbn [map fst snd].
    generalize (fsum (map (fun p => fmul (fst p) (snd p)) (combine x y))).
    induction l as [|p l IH]; intros acc; cbn [map fold_left]; [reflexivity|]. apply IH.
  Qed.
  Lemma ls_stop_iff cfg b d b' a :
    ls_stop cfg (row_norm_sq fsum b') a (row_norm_sq fsum b) (row_dot fsum b d) = true <-> acceptable_step fsum cfg b d b' a.
  Proof.
    unfold ls_stop, acceptable_step, criterion. rewrite orb_true_iff, !row_norm_sq_spec, row_dot_spec. reflexivity.
  Qed.
  Lemma moved_rows2 a r d : rows2 (fun x y => fadd x (fmul a y)) r d = moved a r d.
  Proof. reflexivity. Qed.

  Lemma rls_first cfg rs u d b : 2 <= cf_ls_max_iters cfg -> forall more k0,
    k0 + more + 2 = cf_ls_max_iters cfg ->
    (forall j, j < k0 -> ~ acceptable_step fsum cfg b d (rw_residual rs (moved (cut (cf_ls_cutback cfg) j) u d)) (cut (cf_ls_cutback cfg) j)) ->
    exists k, first_cut fsum cfg rs u b d k /\
      rls cfg rs u d (row_norm_sq fsum b) (row_dot fsum b d) more (cut (cf_ls_cutback cfg) k0)
      = (moved (cut (cf_ls_cutback cfg) k) u d, rw_residual rs (moved (cut (cf_ls_cutback cfg) k) u d)).
  Proof.
    intros L2. induction more as [|more IH]; intros k0 E N; cbn [rls]; rewrite !moved_rows2;
      destruct (ls_stop _ _ _ _ _) eqn:S.
    - exists k0. split; [|reflexivity]. split; [lia|]. split; [exact N|]. left. apply ls_stop_iff. exact S.
    - exists k0. split; [|reflexivity]. split; [lia|]. split; [exact N|]. right. lia.
    - exists k0. split; [|reflexivity]. split; [lia|]. split; [exact N|]. left. apply ls_stop_iff. exact S.
    - apply (IH (Datatypes.S k0)); [lia|]. intros j Hj. destruct (Nat.eq_dec j k0) as [->|]; [|apply N; lia].
      intros A. apply ls_stop_iff in A. congruence.
  Qed.

  Lemma iterate_first_cut cfg sz rs hist u b : sz <> [] -> Forall (keeps_shape sz) rs ->
    length u = length rs -> shaped sz u -> length b = length rs -> 2 <= cf_ls_max_iters cfg ->
    exists u' b' t, iterate fsum cfg (rows_system sz rs) hist u b None = (Ok (u', b'), t) /\
      forall i q x y, nth_error rs i = Some q -> nth_error u i = Some x -> nth_error b i = Some y ->
        exists k, first_cut fsum cfg q x y (rw_step q x) k /\
          nth_error u' i = Some (moved (cut (cf_ls_cutback cfg) k) x (rw_step q x)).
  Proof.
    intros NE K Lu Su Lb L2.
    destruct (iterate_rows cfg sz rs hist u b None NE K Lu Su Lb ltac:(discriminate)) as [u' [b' [t [It [_ [_ [_ H]]]]]]].
    exists u', b', t. split; [exact It|]. intros i q x y Nq Nx Ny. destruct (H i q x y Nq Nx Ny) as [H1 _].
    cbn [is_frozen] in H1. unfold rit in H1. destruct (cf_ls_max_iters cfg <=? 1) eqn:L; [apply Nat.leb_le in L; lia|].
    destruct (rls_first cfg q x (rw_step q x) y L2 (cf_ls_max_iters cfg - 2) 0 ltac:(lia) ltac:(lia)) as [k [A B]].
    cbn [cut] in B. rewrite B in H1. exists k. split; [exact A|exact H1].
  Qed.

  Lemma first_cut_unique cfg rs u b d k k' :
    first_cut fsum cfg rs u b d k -> first_cut fsum cfg rs u b d k' -> k = k'.
  Proof.
    intros [A1 [A2 A3]] [B1 [B2 B3]]. destruct (Nat.lt_trichotomy k k') as [L|[E|L]]; [|exact E|].
    - destruct A3 as [A3|A3]; [exfalso; exact (B2 k L A3)|lia].
    - destruct B3 as [B3|B3]; [exfalso; exact (A2 k' L B3)|lia].
  Qed.

  (** ** C52: the batch follows the rows' own iterates *)
  Lemma solo_step cfg sz q u0 k (u b : row) : sz <> [] -> keeps_shape sz q -> map (@length F) u = sz ->
    solo fsum cfg sz q u0 k = Ok (u, b) ->
    solo fsum cfg sz q u0 (S k) = Ok (rit cfg q false u b).
  Proof.
    intros NE K Su H. cbn [solo]. rewrite H. cbn [bind].
    destruct (iterate_rows cfg sz [q] [] [u] [b] None NE) as [u' [b' [t [It [L1 [L2 [_ R]]]]]]]; try reflexivity; try discriminate.
    - constructor; [exact K|constructor].
    - constructor; [exact Su|constructor].
    - rewrite It. cbn [fst]. destruct (R 0 q u b eq_refl eq_refl eq_refl) as [R1 R2].
      destruct u' as [|u1 [|? ?]]; try discriminate. destruct b' as [|b1 [|? ?]]; try discriminate.
      cbn in R1, R2. injection R1 as ->. injection R2 as ->. cbn [is_frozen]. rewrite <- surjective_pairing. reflexivity.
  Qed.

  Lemma solve_loop_rows cfg sz rs b0n u0 : sz <> [] -> Forall (keeps_shape sz) rs ->
    length u0 = length rs ->
    forall left i hist u b u' k t,
    length u = length rs -> shaped sz u -> length b = length rs ->
    (forall j q x y z, nth_error rs j = Some q -> nth_error u j = Some x -> nth_error b j = Some y -> nth_error u0 j = Some z ->
       solo fsum cfg sz q z i = Ok (x, y)) ->
    solve_loop fsum cfg (rows_system sz rs) b0n left (S i) hist u b = (Ok (u', k), t) ->
    length u' = length rs /\
    forall j q x z, nth_error rs j = Some q -> nth_error u' j = Some x -> nth_error u0 j = Some z ->
       exists y, solo fsum cfg sz q z k = Ok (x, y).
  Proof.
    intros NE K L0. induction left as [|left IH]; intros i hist u b u' k t Lu Su Lb Inv H; cbn [solve_loop] in H; [discriminate|].
    destruct (iterate_rows cfg sz rs hist u b None NE K Lu Su Lb ltac:(discriminate)) as [u1 [b1 [t1 [It [L1 [L2 [S1 R]]]]]]].
    rewrite It in H. cbn [iobind] in H.
    assert (Inv' : forall j q x y z, nth_error rs j = Some q -> nth_error u1 j = Some x -> nth_error b1 j = Some y -> nth_error u0 j = Some z ->
       solo fsum cfg sz q z (S i) = Ok (x, y)).
    { intros j q x y z Nq Nx Ny Nz. assert (Lj : j < length rs) by (apply nth_error_Some; congruence).
      destruct (nth_error u j) as [xo|] eqn:No; [|apply nth_error_None in No; lia].
      destruct (nth_error b j) as [yo|] eqn:Nb; [|apply nth_error_None in Nb; lia].
      rewrite (solo_step cfg sz q z i xo yo NE); [| |exact (shaped_nth _ _ _ _ Su No)|eapply Inv; eassumption].
      - destruct (R j q xo yo Nq No Nb) as [R1 R2]. cbn [is_frozen] in R1, R2. rewrite R1 in Nx. rewrite R2 in Ny.
        injection Nx as <-. injection Ny as <-. rewrite <- surjective_pairing. reflexivity.
      - rewrite Forall_forall in K. apply K. eapply nth_error_In, Nq. }
    destruct (check_stop _ _ _); [| |discriminate].
    - match type of H with context [solve_loop ?a ?b ?c ?d left ?e ?f ?g ?h] => destruct (solve_loop a b c d left e f g h) as [r t2] eqn:E end. injection H as -> <-.
      eapply IH in E; eassumption.
    - injection H as <- <- <-. split; [exact L1|]. intros j q x z Nq Nx Nz.
      destruct (nth_error b1 j) as [y|] eqn:Ny; [|apply nth_error_None in Ny; assert (j < length rs) by (apply nth_error_Some; congruence); lia].
      exists y. eapply Inv'; eassumption.
  Qed.

  Lemma solve_rows cfg sz rs u0 u k t : sz <> [] -> Forall (keeps_shape sz) rs ->
    solve fsum cfg (rows_system sz rs) u0 = (Ok (u, k), t) ->
    length u = length rs /\
    forall j q x z, nth_error rs j = Some q -> nth_error u j = Some x -> nth_error u0 j = Some z ->
       exists y, solo fsum cfg sz q z k = Ok (x, y).
  Proof.
    intros NE K H. unfold solve in H. apply io_ok in H. destruct H as [b [t1 [t2 [En [H _]]]]].
    apply entry_ok in En. destruct En as [S0 [R0 [L0 _]]]. cbn [rows_system sy_residual sy_usizes] in *.
    unfold each in R0. destruct (length u0 =? length rs) eqn:Lu; [|discriminate]. apply Nat.eqb_eq in Lu. injection R0 as <-.
    destruct (check_converged _ _ _).
    - injection H as <- <- <-. split; [exact Lu|]. intros j q x z Nq Nx Nz. rewrite Nx in Nz. injection Nz as <-. eexists. reflexivity.
    - eapply solve_loop_rows in H; try eassumption; [lia|].
      intros j q x y z Nq Nx Ny Nz. rewrite Nx in Nz. injection Nz as <-. rewrite nth_map2, Nq, Nx in Ny. injection Ny as <-. reflexivity.
  Qed.

  (** ** C34 *)
  Definition idle (cfg : config) (r0 r x : row) : Prop :=
    flt (rnorm fsum r) (cf_atol cfg) = true \/
    (flt (fdiv (rnorm fsum r) (rnorm fsum r0)) (cf_rtol cfg) = true /\
     flt fzero (fmul (cf_del_tol cfg) (fadd (rnorm fsum x) (cf_atol cfg))) = true).

  Lemma idle_of_converged cfg r0 r x x' :
    masked_row_converged cfg (rnorm fsum r0) (rnorm fsum r) (rnorm fsum (diff_row x x')) (rnorm fsum x) = true -> idle cfg r0 r x.
  Proof.
    intros H. apply masked_row_iff in H. destruct H as [H|[H1 H2]]; [left; exact H|right].
    split; [exact H1|]. eapply flt_zero_below; [apply rnorm_nonneg|exact H2].
  Qed.

  Lemma sub_self x : ffinite x = true -> fsub x x = fzero.
  Proof.
    unfold fsub, fzero. destruct x as [[|]|s| |s m e]; try discriminate; intros _; try reflexivity.
    cbn [SFsub]. rewrite Z.min_id. rewrite Z.sub_diag. reflexivity.
  Qed.
  Lemma norm_self x : sums_zeros fsum -> ordinary x -> rnorm fsum (diff_row x x) = fzero.
  Proof.
    intros SZ O. assert (G : forall g, Forall (fun x => ffinite x = true /\ x <> fneg_zero) g ->
      sumsq fsum (map (fun q => fsub (fst q) (snd q)) (combine g g)) = fzero).
    { intros g H. apply SZ. apply Forall_forall. intros y I. apply in_map_iff in I. destruct I as [z [<- I]].
      apply in_map_iff in I. destruct I as [[p q] [<- I]]. cbn [fst snd].
      assert (p = q /\ In p g) as [<- Ip].
      { clear H. induction g as [|a g IH]; [contradiction|]. destruct I as [E|I]; [injection E as <- <-; split; [reflexivity|left; reflexivity]|].
        destruct (IH I). split; [assumption|right; assumption]. }
      rewrite Forall_forall in H. rewrite sub_self by (apply H; exact Ip). reflexivity. }
    unfold rnorm, diff_row. destruct O as [|g r Hg O]; [reflexivity|]. cbn [combine map fst snd].
    rewrite (G g Hg). replace fzero with (fsqrt fzero) at 2 by reflexivity. f_equal.
    induction O as [|h r Hh O IH]; [reflexivity|]. cbn [combine map plus_groups fst snd]. rewrite (G h Hh).
    change (fadd fzero fzero) with fzero. exact IH.
  Qed.

  Lemma rit_frozen cfg sz q x : finite_cuts cfg -> keeps_shape sz q -> map (@length F) x = sz -> ordinary x ->
    rit cfg q true x (rw_residual q x) = (x, rw_residual q x).
  Proof.
    intros FC K Sx O. unfold rit.
    assert (Q : map (@length F) (rw_step q x) = map (@length F) x) by (rewrite Sx; apply K; exact Sx).
    assert (Z1 : rows2 fadd x (zero_row (rw_step q x)) = x).
    { apply rows2_zero_eq; [exact Q|]. eapply Forall_impl; [|exact O]. intros g. apply Forall_impl. intros y [_ Hy]. apply add_zero_ordinary, Hy. }
    assert (Z2 : forall k, k + 2 <= cf_ls_max_iters cfg ->
      rows2 (fun a b => fadd a (fmul (cut (cf_ls_cutback cfg) k) b)) x (zero_row (rw_step q x)) = x).
    { intros k Hk. apply rows2_zero_eq; [exact Q|]. eapply Forall_impl; [|exact O]. intros g. apply Forall_impl. intros y [_ Hy].
      apply add_mul_zero_ordinary; [apply FC, Hk|exact Hy]. }
    destruct (cf_ls_max_iters cfg <=? 1) eqn:L; [rewrite Z1; reflexivity|]. apply Nat.leb_gt in L.
    assert (Gen : forall more k nb bd, k + more + 2 = cf_ls_max_iters cfg ->
       rls cfg q x (zero_row (rw_step q x)) nb bd more (cut (cf_ls_cutback cfg) k) = (x, rw_residual q x)).
    { induction more as [|more IH]; intros k nb bd E; cbn [rls]; rewrite Z2 by lia; destruct (ls_stop _ _ _ _ _); try reflexivity.
      apply (IH (S k)). lia. }
    apply (Gen _ 0). lia.
  Qed.

  Lemma frozen_phase cfg sz rs b0 i q r0 x : sz <> [] -> Forall (keeps_shape sz) rs -> finite_cuts cfg -> sums_zeros fsum ->
    length b0 = length rs -> nth_error rs i = Some q -> nth_error b0 i = Some r0 ->
    ordinary x -> idle cfg r0 (rw_residual q x) x ->
    forall left j fz cv hist u b u' m k t,
    length u = length rs -> shaped sz u -> length b = length rs -> length cv = length rs ->
    (forall f, fz = Some f -> length f = length rs) -> is_frozen fz i = true ->
    nth_error u i = Some x -> nth_error b i = Some (rw_residual q x) -> nth_error cv i = Some true ->
    masked_loop fsum cfg (rows_system sz rs) (norms fsum b0) left j fz cv hist u b = (Ok (u', m, k), t) ->
    nth_error u' i = Some x /\ nth_error m i = Some true.
  Proof.
    intros NE K FC SZ L0 Nq N0 O Id. induction left as [|left IH]; intros j fz cv hist u b u' m k t Lu Su Lb Lc Lf Fz Nx Ny Nc H;
      cbn [masked_loop] in H.
    - injection H as <- <- <- <-. auto.
    - destruct (iterate_rows cfg sz rs hist u b fz NE K Lu Su Lb Lf) as [u1 [b1 [t1 [It [L1 [L2 [S1 R]]]]]]].
      rewrite It in H. cbn [iobind] in H. destruct (R i q x (rw_residual q x) Nq Nx Ny) as [R1 R2].
      rewrite Fz in R1, R2.
      rewrite (rit_frozen cfg sz q x FC) in R1, R2; try assumption;
        [|rewrite Forall_forall in K; apply K; eapply nth_error_In, Nq|exact (shaped_nth _ _ _ _ Su Nx)
         |rewrite Forall_forall in K; apply K; eapply nth_error_In, Nq|exact (shaped_nth _ _ _ _ Su Nx)].
      cbn [fst snd] in R1, R2.
      set (cv' := masked_converged _ _ _ _ _) in H.
      assert (Lc' : length cv' = length rs) by (unfold cv'; rewrite masked_converged_length, !norms_length, map2_length; lia).
      assert (Nc' : nth_error cv' i = Some true).
      { unfold cv'. rewrite masked_converged_nth, N0, R2, R1, Nx. f_equal. unfold masked_row_converged.
        rewrite (norm_self x SZ O). destruct Id as [->|[-> ->]]; [reflexivity|]. apply orb_true_r. }
      match type of H with context [if ?c then _ else _] => destruct c end.
      + injection H as <- <- <- <-. auto.
      + match type of H with context [masked_loop ?a ?b ?c ?d left ?e ?f ?g ?h ?l ?o] => destruct (masked_loop a b c d left e f g h l o) as [r t2] eqn:E end.
        injection H as -> <-. eapply IH in E; try eassumption.
        * intros f Ef. injection Ef as <-. apply or_mask_length; assumption.
        * unfold is_frozen, or_mask in *. destruct fz as [f|]; [|rewrite Nc'; reflexivity].
          rewrite nth_map2, Nc'. destruct (nth_error f i); [apply orb_true_r|discriminate].
  Qed.

  Lemma sync_phase cfg sz rs b0 i q r0 : sz <> [] -> Forall (keeps_shape sz) rs -> finite_cuts cfg -> sums_zeros fsum ->
    length b0 = length rs -> nth_error rs i = Some q -> nth_error b0 i = Some r0 ->
    forall left j fz fz1 cv hist hist1 u b x u' m k t xs ms ks ts,
    length u = length rs -> shaped sz u -> length b = length rs -> length cv = length rs ->
    (forall f, fz = Some f -> length f = length rs) -> is_frozen fz i = false ->
    (forall f, fz1 = Some f -> length f = 1) -> is_frozen fz1 0 = false ->
    nth_error u i = Some x -> nth_error b i = Some (rw_residual q x) -> nth_error cv i = Some false ->
    masked_loop fsum cfg (rows_system sz rs) (norms fsum b0) left j fz cv hist u b = (Ok (u', m, k), t) ->
    masked_loop fsum cfg (rows_system sz [q]) (norms fsum [r0]) left j fz1 [false] hist1 [x] [rw_residual q x] = (Ok ([xs], [ms], ks), ts) ->
    ffinite (rnorm fsum (rw_residual q xs)) = true -> (ms = true -> ordinary xs) ->
    nth_error u' i = Some xs /\ nth_error m i = Some ms.
  Proof.
    intros NE K FC SZ L0 Nq N0.
    assert (Kq : keeps_shape sz q) by (rewrite Forall_forall in K; apply K; eapply nth_error_In, Nq).
    induction left as [|left IH]; intros j fz fz1 cv hist hist1 u b x u' m k t xs ms ks ts Lu Su Lb Lc Lf Fz Lf1 Fz1 Nx Ny Nc H H1 Fin Ord;
      cbn [masked_loop] in H, H1.
    - injection H as <- <- <- <-. injection H1 as <- <- <- <-. auto.
    - assert (Sx : map (@length F) x = sz) by (exact (shaped_nth _ _ _ _ Su Nx)).
      destruct (iterate_rows cfg sz rs hist u b fz NE K Lu Su Lb Lf) as [u1 [b1 [t1 [It [L1 [L2 [S1 R]]]]]]].
      destruct (iterate_rows cfg sz [q] hist1 [x] [rw_residual q x] fz1 NE) as [u2 [b2 [t2 [It2 [L3 [L4 [S2 R']]]]]]];
        [constructor; [exact Kq|constructor]|reflexivity|constructor; [exact Sx|constructor]|reflexivity|exact Lf1|].
      rewrite It in H. rewrite It2 in H1. cbn [iobind] in H, H1.
      destruct (R i q x (rw_residual q x) Nq Nx Ny) as [R1 R2]. destruct (R' 0 q x (rw_residual q x) eq_refl eq_refl eq_refl) as [R3 R4].
      rewrite Fz in R1, R2. rewrite Fz1 in R3, R4.
      destruct u2 as [|y [|? ?]]; try discriminate. destruct b2 as [|z [|? ?]]; try discriminate. cbn in R3, R4.
      injection R3 as ->. injection R4 as ->.
      assert (Hz : snd (rit cfg q false x (rw_residual q x)) = rw_residual q (fst (rit cfg q false x (rw_residual q x)))).
      { unfold rit. destruct (_ <=? _); [reflexivity|].
        assert (Gen : forall more u d nb bd a, snd (rls cfg q u d nb bd more a) = rw_residual q (fst (rls cfg q u d nb bd more a))).
        { induction more as [|more IHm]; intros; cbn [rls]; destruct (ls_stop _ _ _ _ _); try reflexivity. apply IHm. }
        apply Gen. }
      rewrite Hz in *. set (y := fst (rit cfg q false x (rw_residual q x))) in *.
      set (c := masked_row_converged cfg (rnorm fsum r0) (rnorm fsum (rw_residual q y)) (rnorm fsum (diff_row y x)) (rnorm fsum y)).
      assert (C1 : masked_converged cfg (norms fsum [r0]) (norms fsum [rw_residual q y]) (norms fsum (map2 (rows2 fsub) [y] [x])) (norms fsum [y]) = [c]).
      { rewrite !norms_map. reflexivity. }
      rewrite C1 in H1. clear C1.
      set (cv' := masked_converged _ _ _ _ _) in H.
      assert (Lc' : length cv' = length rs) by (unfold cv'; rewrite masked_converged_length, !norms_length, map2_length; lia).
      assert (Nc' : nth_error cv' i = Some c) by (unfold cv'; rewrite masked_converged_nth, N0, R2, R1, Nx; reflexivity).
      assert (Dn : nth_error (map2 (fun c x => c || negb (ffinite x)) cv' (norms fsum b1)) i = Some (c || negb (ffinite (rnorm fsum (rw_residual q y)))))
        by (rewrite nth_map2, Nc', norms_map, nth_error_map, R2; reflexivity).
      assert (Lf' : forall f, Some (or_mask fz cv') = Some f -> length f = length rs)
        by (intros f Ef; injection Ef as <-; apply or_mask_length; assumption).
      assert (Fz' : is_frozen (Some (or_mask fz cv')) i = c).
      { unfold is_frozen, or_mask in *. destruct fz as [f|]; [|rewrite Nc'; reflexivity].
        rewrite nth_map2, Nc'. destruct (nth_error f i) as [bb|] eqn:Nf; [subst bb; reflexivity|].
        apply nth_error_None in Nf. rewrite (Lf f eq_refl) in Nf. assert (i < length rs) by (apply nth_error_Some; congruence). lia. }
      assert (M1 : forallb (fun b => b) (map2 (fun c x => c || negb (ffinite x)) [c] (norms fsum [rw_residual q y])) = c || negb (ffinite (rnorm fsum (rw_residual q y)))).
      { rewrite norms_map. cbn. apply andb_true_r. }
      rewrite M1 in H1. clear M1.
      destruct c eqn:Ec.
      + (* the row converges now *)
        cbn [orb] in H1. injection H1 as <- <- <- <-. specialize (Ord eq_refl).
        match type of H with context [if ?c then _ else _] => destruct c end.
        * injection H as <- <- <- <-. auto.
        * match type of H with context [masked_loop ?a ?b ?c ?d left ?e ?f ?g ?h ?l ?o] => destruct (masked_loop a b c d left e f g h l o) as [r t3] eqn:E end.
          injection H as -> <-. eapply frozen_phase in E; try eassumption. eapply idle_of_converged. exact Ec.
      + cbn [orb] in *. destruct (ffinite (rnorm fsum (rw_residual q y))) eqn:Fy.
        * (* the row goes on, and so does the batch *)
          cbn [negb] in *. destruct (forallb _ (map2 _ cv' _)) eqn:All.
          { rewrite forallb_forall in All. apply nth_error_In in Dn. specialize (All _ Dn). discriminate. }
          match type of H with context [masked_loop ?a ?b ?c ?d left ?e ?f ?g ?h ?l ?o] => destruct (masked_loop a b c d left e f g h l o) as [r t3] eqn:E end.
          match type of H1 with context [masked_loop ?a ?b ?c ?d left ?e ?f ?g ?h ?l ?o] => destruct (masked_loop a b c d left e f g h l o) as [r' t4] eqn:E1 end.
          injection H as -> <-. injection H1 as -> <-.
          eapply IH with (u := u1) (b := b1) (cv := cv') (x := y) (fz := Some (or_mask fz cv')) (fz1 := Some (or_mask fz1 [false])); try eassumption.
          -- intros f Ef. injection Ef as <-. apply or_mask_length; [exact Lf1|reflexivity].
          -- clear - Fz1. unfold is_frozen, or_mask in *. destruct fz1 as [[|bb f]|]; [reflexivity| |reflexivity].
             cbn in Fz1. subst bb. reflexivity.
        * (* not finite: the row alone stops here *)
          cbn [negb] in H1. injection H1 as <- <- <- <-. congruence.
  Qed.

  Lemma masked_independent cfg sz rs u0 u m k t i q x0 xs ms ks ts :
    sz <> [] -> Forall (keeps_shape sz) rs -> finite_cuts cfg -> sums_zeros fsum ->
    nth_error rs i = Some q -> nth_error u0 i = Some x0 ->
    solve_masked fsum cfg (rows_system sz rs) u0 = (Ok (u, m, k), t) ->
    solve_masked fsum cfg (rows_system sz [q]) [x0] = (Ok ([xs], [ms], ks), ts) ->
    flt (rnorm fsum (rw_residual q x0)) (cf_atol cfg) = false ->
    ffinite (rnorm fsum (rw_residual q xs)) = true -> (ms = true -> ordinary xs) ->
    nth_error u i = Some xs /\ nth_error m i = Some ms.
  Proof.
    intros NE K FC SZ Nq Nx H H1 P Fin Ord. unfold solve_masked in H, H1.
    apply io_ok in H. destruct H as [b [t1 [t2 [En [H _]]]]]. apply io_ok in H1. destruct H1 as [b1 [t3 [t4 [En1 [H1 _]]]]].
    apply entry_ok in En. destruct En as [S0 [R0 [L0 _]]]. apply entry_ok in En1. destruct En1 as [S1 [R1 [L1 _]]].
    cbn [rows_system sy_residual sy_usizes] in *. unfold each in R0, R1.
    destruct (length u0 =? length rs) eqn:Lu; [|discriminate]. apply Nat.eqb_eq in Lu. injection R0 as <-.
    cbn in R1. injection R1 as <-.
    assert (Nb : nth_error (map2 rw_residual rs u0) i = Some (rw_residual q x0)) by (rewrite nth_map2, Nq, Nx; reflexivity).
    set (cv := map _ (norms fsum (map2 rw_residual rs u0))) in H.
    assert (Nc : nth_error cv i = Some false) by (unfold cv; rewrite norms_map, !nth_error_map, Nb; cbn; rewrite P; reflexivity).
    destruct (forallb _ cv) eqn:A; [rewrite forallb_forall in A; apply nth_error_In in Nc; specialize (A _ Nc); discriminate|].
    replace (map (fun x => flt x (cf_atol cfg)) (norms fsum [rw_residual q x0])) with [false] in H1
      by (rewrite norms_map; cbn; rewrite P; reflexivity).
    cbn [forallb andb] in H1.
    assert (Lb : length (map2 rw_residual rs u0) = length rs) by lia.
    assert (Lc : length cv = length rs) by (unfold cv; rewrite map_length, norms_length; exact Lb).
    eapply sync_phase with (b0 := map2 rw_residual rs u0) (fz := None) (fz1 := None) (u := u0) (b := map2 rw_residual rs u0) (cv := cv) (x := x0);
      try eassumption; try reflexivity; try discriminate.
  Qed.
End Masked.
