(** Lemmas about the Newton solver: any system. *)
From Verif Require Import Base BaseProofs Float Newton SpecNewton.

(** ** Plumbing *)
Lemma io_ok {A B} (x : io A) (f : A -> io B) b t :
  iobind x f = (Ok b, t) -> exists a t1 t2, x = (Ok a, t1) /\ f a = (Ok b, t2) /\ t = t1 ++ t2.
Proof.
  unfold iobind. destruct x as [[a|e] t1]; [|discriminate]. destruct (f a) as [r t2] eqn:E.
  intros H. injection H as -> <-. eauto 10.
Qed.
Lemma io_err {A B} (x : io A) (f : A -> io B) e t :
  iobind x f = (Err e, t) -> x = (Err e, t) \/ exists a t1 t2, x = (Ok a, t1) /\ f a = (Err e, t2) /\ t = t1 ++ t2.
Proof.
  unfold iobind. destruct x as [[a|e1] t1]; [|intros H; injection H as -> ->; left; reflexivity]. destruct (f a) as [r t2] eqn:E.
  intros H. injection H as -> <-. right. eauto 10.
Qed.

Lemma map2_length {A B C} (f : A -> B -> C) a b : length (map2 f a b) = Nat.min (length a) (length b).
Proof. unfold map2. rewrite map_length, combine_length. reflexivity. Qed.
Lemma nth_combine {A B} (a : list A) : forall (b : list B) i,
  nth_error (combine a b) i =
  match nth_error a i, nth_error b i with Some x, Some y => Some (x, y) | _, _ => None end.
Proof.
  induction a as [|x a IH]; intros [|y b] [|i]; cbn; try reflexivity.
  - destruct (nth_error a i); reflexivity.
  - apply IH.
Qed.
Lemma nth_map2 {A B C} (f : A -> B -> C) a b i :
  nth_error (map2 f a b) i =
  match nth_error a i, nth_error b i with Some x, Some y => Some (f x y) | _, _ => None end.
Proof.
  unfold map2. rewrite nth_error_map, nth_combine.
  destruct (nth_error a i), (nth_error b i); reflexivity.
Qed.
Lemma map2_cons {A B C} (f : A -> B -> C) x a y b : map2 f (x :: a) (y :: b) = f x y :: map2 f a b.
Proof. reflexivity. Qed.

Lemma sizes_eqb_eq a b : sizes_eqb a b = true <-> a = b.
Proof. unfold sizes_eqb. destruct (list_eq_dec Nat.eq_dec a b); split; intros; congruence. Qed.
Lemma conforms_iff n sz x : conforms n sz x = true <-> length x = n /\ shaped sz x.
Proof.
  unfold conforms, shaped. rewrite andb_true_iff, Nat.eqb_eq, forallb_forall, Forall_forall.
  split; intros [H1 H2]; (split; [exact H1|]); intros r I; [apply sizes_eqb_eq|apply sizes_eqb_eq]; auto.
Qed.

Lemma checked_ok n sz x y : checked n sz x = Ok y -> x = Ok y /\ length y = n /\ shaped sz y.
Proof.
  unfold checked. intros H. apply bind_ok in H. destruct H as [z [-> H]].
  destruct (conforms n sz z) eqn:E; [|discriminate]. injection H as <-. apply conforms_iff in E. tauto.
Qed.
Lemma checked_of n sz x y : x = Ok y -> length y = n -> shaped sz y -> checked n sz x = Ok y.
Proof.
  intros -> L S. unfold checked. cbn. rewrite (proj2 (conforms_iff n sz y)); [reflexivity|tauto].
Qed.

Lemma residual_ok s u b t :
  residual s u = (Ok b, t) ->
  sy_residual s u = Ok b /\ length b = length u /\ shaped (sy_rsizes s) b /\ t = [CResidual u].
Proof.
  unfold residual. intros H. injection H as H <-. apply checked_ok in H. tauto.
Qed.
Lemma step_ok s hist u d t :
  step s hist u = (Ok d, t) ->
  sy_step s hist u = Ok d /\ length d = length u /\ shaped (sy_usizes s) d /\ t = [CStep u].
Proof.
  unfold step. intros H. injection H as H <-. apply checked_ok in H. tauto.
Qed.

(** ** Floats *)
Lemma flt_finite_or x y : flt x y = true -> fnan x = false.
Proof. destruct x; [reflexivity|reflexivity| |reflexivity]. destruct y; discriminate. Qed.
(** The outcomes of [round]. *)
Definition nonneg (x : F) : Prop :=
  match x with
  | S754_zero _ => True | S754_infinity s => s = false | S754_finite s _ _ => s = false | S754_nan => True
  end.
Lemma round_sign s m e l :
  match binary_round_aux 53 1024 s m e l with
  | S754_zero s' | S754_infinity s' | S754_finite s' _ _ => s' = s
  | S754_nan => True
  end.
Proof.
  unfold binary_round_aux.
  destruct (shr_fexp _ _ m e l) as [mrs e']. destruct (shr_fexp _ _ _ e' loc_Exact) as [mrs' e''].
  destruct (shr_m mrs') as [|p|p]; [reflexivity| |exact I]. destruct (Zle_bool _ _); reflexivity.
Qed.
Lemma sqrt_nonneg x : nonneg (fsqrt x).
Proof.
  unfold fsqrt, SFsqrt. destruct x as [s|[|]| |[|] m e]; cbn [nonneg]; try exact I; try reflexivity.
  destruct (SFsqrt_core_binary _ _ _ _) as [[mz ez] lz].
  pose proof (round_sign false mz ez lz) as H. destruct (binary_round_aux _ _ _ _ _ _); cbn; auto.
Qed.
Lemma nonneg_meets_finite cfg x : nonneg x ->
  flt x (cf_atol cfg) || flt (fdiv x x) (cf_rtol cfg) = true -> ffinite x = true.
Proof.
  intros N H. destruct x as [s|s| |s m e]; try reflexivity; cbn in N; subst.
  - exfalso. cbn in H. destruct (cf_atol cfg) as [?|[|]| |[|] ? ?]; discriminate.
  - exfalso. cbn in H. destruct (cf_atol cfg); discriminate.
Qed.

(** Zero is below whatever a nonnegative number is below. *)
Lemma flt_zero_below d x : nonneg d -> flt d x = true -> flt fzero x = true.
Proof.
  unfold flt, fzero, SFltb. destruct d as [s|s| |s m e]; cbn [nonneg]; intros N H.
  - destruct x as [?|[|]| |[|] ? ?]; cbn in *; congruence.
  - subst. destruct x as [?|[|]| |[|] ? ?]; cbn in *; congruence.
  - destruct x as [?|[|]| |[|] ? ?]; cbn in *; congruence.
  - subst. destruct x as [?|[|]| |[|] ? ?]; cbn in *; congruence.
Qed.

Section Any.
  Variable fsum : list F -> F.

  (** ** Norms: model against specification *)
  Lemma plus_groups_fold r : forall acc,
    fold_left fadd (map (fun g => fsum (map (fun x => fmul x x) g)) r) acc = plus_groups fsum acc r.
  Proof. induction r as [|g r IH]; intros acc; cbn; [reflexivity|]. apply IH. Qed.
  Lemma row_norm_sq_spec r : row_norm_sq fsum r = rsq fsum r.
  Proof. unfold row_norm_sq, rsq, accumulate. destruct r as [|g r]; cbn [map]; [reflexivity|]. apply plus_groups_fold. Qed.
  Lemma norm_spec r : fsqrt (row_norm_sq fsum r) = rnorm fsum r.
  Proof. rewrite row_norm_sq_spec. reflexivity. Qed.
  Lemma rnorm_nonneg r : nonneg (rnorm fsum r).
  Proof. apply sqrt_nonneg. Qed.
  Lemma norms_map x : norms fsum x = map (rnorm fsum) x.
  Proof. apply map_ext. exact norm_spec. Qed.

  Lemma row_converged_iff cfg n n0 : row_converged cfg n n0 = true <-> meets_tol cfg n n0.
  Proof. unfold row_converged, meets_tol. rewrite orb_true_iff. reflexivity. Qed.

  Lemma check_converged_true cfg b b0 :
    check_converged cfg (norms fsum b) (norms fsum b0) = true ->
    forall i r r0, nth_error b i = Some r -> nth_error b0 i = Some r0 -> meets_tol cfg (rnorm fsum r) (rnorm fsum r0).
  Proof.
    unfold check_converged. rewrite forallb_forall. intros H i r r0 N N0.
    apply row_converged_iff. apply (H (rnorm fsum r, rnorm fsum r0)).
    apply nth_error_In with i. rewrite nth_combine, !norms_map, !nth_error_map, N, N0. reflexivity.
  Qed.
  Lemma check_converged_false cfg b b0 : length b = length b0 ->
    check_converged cfg (norms fsum b) (norms fsum b0) = false ->
    exists i r r0, nth_error b i = Some r /\ nth_error b0 i = Some r0 /\ ~ meets_tol cfg (rnorm fsum r) (rnorm fsum r0).
  Proof.
    unfold check_converged. rewrite !norms_map. revert b0.
    induction b as [|r b IH]; intros [|r0 b0]; cbn [length map combine forallb]; intros L H; try discriminate.
    destruct (row_converged cfg _ _) eqn:E; cbn [fst snd] in E.
    - cbn [andb] in H. destruct (IH b0) as [i [x [x0 [N [N0 M]]]]]; [lia|exact H|].
      exists (S i), x, x0. auto.
    - exists 0, r, r0. repeat split. intros M. apply row_converged_iff in M. congruence.
  Qed.

  Lemma existsb_norms b :
    existsb (fun x => negb (ffinite x)) (norms fsum b) = true -> exists i r, nth_error b i = Some r /\ ffinite (rnorm fsum r) = false.
  Proof.
    rewrite norms_map, existsb_exists. intros [x [I H]]. apply in_map_iff in I. destruct I as [r [<- I]].
    apply In_nth_error in I. destruct I as [i N]. exists i, r. split; [exact N|]. apply negb_true_iff. exact H.
  Qed.
  Lemma existsb_norms_false b :
    existsb (fun x => negb (ffinite x)) (norms fsum b) = false -> forall r, In r b -> ffinite (rnorm fsum r) = true.
  Proof.
    rewrite norms_map. intros H r I. destruct (ffinite (rnorm fsum r)) eqn:E; [reflexivity|].
    exfalso. assert (X : existsb (fun x => negb (ffinite x)) (map (rnorm fsum) b) = true); [|congruence].
    apply existsb_exists. exists (rnorm fsum r). split; [apply in_map; exact I|]. rewrite E. reflexivity.
  Qed.

  (** ** Shapes *)
  Lemma rows2_lengths f r d : map (@length F) d = map (@length F) r -> map (@length F) (rows2 f r d) = map (@length F) r.
  Proof.
    revert d. induction r as [|g r IH]; intros [|h d]; cbn [map]; intros E; try discriminate; [reflexivity|].
    injection E as E1 E2. unfold rows2. rewrite map2_cons. cbn [map]. rewrite map2_length, E1, Nat.min_id.
    f_equal. apply IH. exact E2.
  Qed.
  Lemma shaped_nth sz u i r : shaped sz u -> nth_error u i = Some r -> map (@length F) r = sz.
  Proof. intros S N. unfold shaped in S. rewrite Forall_forall in S. apply S. eapply nth_error_In. exact N. Qed.
  Lemma shaped_of_nth sz u : (forall i r, nth_error u i = Some r -> map (@length F) r = sz) -> shaped sz u.
  Proof. intros H. apply Forall_forall. intros r I. apply In_nth_error in I. destruct I as [i N]. eapply H, N. Qed.

  Lemma rows2_advance f r d : map (@length F) d = map (@length F) r -> advance f r d (rows2 f r d).
  Proof.
    intros E. assert (L : length d = length r) by (apply (f_equal (@length nat)) in E; rewrite !map_length in E; exact E).
    split; [unfold rows2; rewrite map2_length, L, Nat.min_id; reflexivity|].
    intros g xs ds xs' N1 N2 N3. unfold rows2 in N3. rewrite nth_map2, N1, N2 in N3. injection N3 as <-.
    assert (LL : length ds = length xs).
    { apply (f_equal (fun l => nth_error l g)) in E. rewrite !nth_error_map, N1, N2 in E. cbn in E. congruence. }
    split; [rewrite map2_length, LL, Nat.min_id; reflexivity|].
    intros c x dx x' M1 M2 M3. rewrite nth_map2, M1, M2 in M3. congruence.
  Qed.

  (** ** Line search *)
  Lemma trial_nth alpha u du i :
    nth_error (trial alpha u du) i =
    match nth_error alpha i, nth_error u i, nth_error du i with
    | Some a, Some r, Some d => Some (rows2 (fun x d => fadd x (fmul a d)) r d)
    | _, _, _ => None
    end.
  Proof.
    unfold trial. rewrite nth_map2, nth_combine.
    destruct (nth_error alpha i), (nth_error u i), (nth_error du i); reflexivity.
  Qed.
  Lemma trial_length alpha u du : length (trial alpha u du) = Nat.min (length alpha) (Nat.min (length u) (length du)).
  Proof. unfold trial. rewrite map2_length, combine_length. reflexivity. Qed.
  Lemma trial_shaped sz alpha u du : shaped sz u -> shaped sz du -> shaped sz (trial alpha u du).
  Proof.
    intros Su Sd. apply shaped_of_nth. intros i r N. rewrite trial_nth in N.
    destruct (nth_error alpha i), (nth_error u i) eqn:U, (nth_error du i) eqn:D; try discriminate.
    injection N as <-. rewrite rows2_lengths; [exact (shaped_nth _ _ _ _ Su U)|].
    rewrite (shaped_nth sz du i _ Sd D), (shaped_nth sz u i _ Su U). reflexivity.
  Qed.

  (** All step lengths are among the first [n] cuts. *)
  Definition cuts (cfg : config) (n : nat) (alpha : list F) : Prop :=
    Forall (fun a => exists k, k < n /\ a = cut (cf_ls_cutback cfg) k) alpha.

  Lemma cuts_next cfg n stop alpha : cuts cfg n alpha ->
    cuts cfg (S n) (map2 (fun (b : bool) a => if b then a else fdiv a (cf_ls_cutback cfg)) stop alpha).
  Proof.
    intros C. apply Forall_forall. intros a I. apply In_nth_error in I. destruct I as [i N].
    rewrite nth_map2 in N. destruct (nth_error stop i) as [b|]; [|discriminate].
    destruct (nth_error alpha i) as [a'|] eqn:A; [|discriminate]. injection N as <-.
    apply nth_error_In in A. unfold cuts in C. rewrite Forall_forall in C. destruct (C _ A) as [k [Hk ->]].
    destruct b; [exists k; split; [lia|reflexivity]|]. exists (S k). split; [lia|reflexivity].
  Qed.

  Definition res_count (t : list call) := residuals_of t.
  Lemma steps_app a b : steps_of (a ++ b) = steps_of a + steps_of b.
  Proof. unfold steps_of. rewrite filter_app, app_length. reflexivity. Qed.
  Lemma residuals_app a b : residuals_of (a ++ b) = residuals_of a + residuals_of b.
  Proof. unfold residuals_of. rewrite filter_app, app_length. reflexivity. Qed.

  Lemma line_search_ok cfg s u du nb bd : forall more n alpha ut bt t,
    length nb = length u -> length bd = length u -> length du = length u ->
    length alpha = length u -> cuts cfg n alpha ->
    line_search fsum cfg s u du nb bd more alpha = (Ok (ut, bt), t) ->
    (exists al, cuts cfg (n + more) al /\ length al = length u /\ ut = trial al u du) /\
    sy_residual s ut = Ok bt /\ length bt = length u /\ shaped (sy_rsizes s) bt.
  Proof.
    induction more as [|more IH]; intros n alpha ut bt t L1 L2 L3 L4 C H; cbn [line_search] in H;
      apply io_ok in H; destruct H as [b1 [t1 [t2 [R [H _]]]]]; apply residual_ok in R; destruct R as [R [Lb [Sb _]]];
      assert (Lt : length (trial alpha u du) = length u) by (rewrite trial_length; lia); rewrite Lt in Lb.
    - assert (Q : ret (trial alpha u du, b1) = (Ok (ut, bt), t2))
        by (match type of H with (if ?c then _ else _) = _ => destruct c end; exact H).
      injection Q as <- <- <-. split; [|auto]. exists alpha. rewrite Nat.add_0_r. auto.
    - match type of H with (if ?c then _ else _) = _ => destruct c eqn:E end.
      + injection H as <- <- <-. split; [|auto]. exists alpha. split; [|auto].
        eapply Forall_impl; [|exact C]. intros a [k [Hk ->]]. exists k. split; [lia|reflexivity].
      + match type of H with line_search _ _ _ _ _ _ _ _ (map2 _ ?st _) = _ => set (stop := st) in H end.
        assert (Ls : length stop = length u) by (subst stop; rewrite map2_length, !combine_length; unfold norm_sq; rewrite map_length; lia).
        pose proof (cuts_next cfg n stop alpha C) as C'.
        eapply IH in H; [|exact L1|exact L2|exact L3|rewrite map2_length; lia|exact C'].
        destruct H as [A B].
        split; [|exact B]. destruct A as [al [Cl Q]]. exists al. split; [|exact Q].
        replace (n + S more) with (S n + more) by lia. exact Cl.
  Qed.

  Lemma line_search_cost cfg s u du nb bd : forall more alpha r t,
    line_search fsum cfg s u du nb bd more alpha = (r, t) -> steps_of t = 0 /\ residuals_of t <= S more.
  Proof.
    induction more as [|more IH]; intros alpha r t H; cbn [line_search] in H; unfold residual in H; cbn [iobind] in H;
      destruct (checked _ _ _) as [b|e]; try (injection H as _ <-; cbn; lia);
      match type of H with context [if ?c then _ else _] => destruct c end;
      try (cbn in H; injection H as _ <-; cbn; lia).
    match type of H with context [line_search _ _ _ _ _ _ _ more ?a] => destruct (line_search fsum cfg s u du nb bd more a) as [r' t'] eqn:E end.
    apply IH in E. injection H as _ <-. unfold steps_of, residuals_of in *. cbn. lia.
  Qed.

  (** ** One iteration *)
  Lemma freeze_length frozen du : (forall m, frozen = Some m -> length m = length du) ->
    length (freeze frozen du) = length du.
  Proof. destruct frozen as [m|]; intros H; [|reflexivity]. cbn. rewrite map2_length, (H m eq_refl). apply Nat.min_id. Qed.
  Lemma zero_row_lengths r : map (@length F) (zero_row r) = map (@length F) r.
  Proof. unfold zero_row. rewrite map_map. apply map_ext. intros g. apply map_length. Qed.
  Lemma freeze_shaped sz frozen du : shaped sz du -> shaped sz (freeze frozen du).
  Proof.
    intros S. destruct frozen as [m|]; [|exact S]. apply shaped_of_nth. intros i r N. cbn in N.
    rewrite nth_map2 in N. destruct (nth_error m i) as [b|]; [|discriminate]. destruct (nth_error du i) eqn:D; [|discriminate].
    injection N as <-. destruct b; [rewrite zero_row_lengths|]; eapply shaped_nth; eassumption.
  Qed.

  Lemma iterate_ok cfg s hist u b frozen u' b' t :
    shaped (sy_usizes s) u -> length b = length u -> (forall m, frozen = Some m -> length m = length u) ->
    iterate fsum cfg s hist u b frozen = (Ok (u', b'), t) ->
    exists du, sy_step s hist u = Ok du /\ length du = length u /\ shaped (sy_usizes s) du /\
      sy_rsizes s = sy_usizes s /\
      sy_residual s u' = Ok b' /\ length b' = length u /\ shaped (sy_rsizes s) b' /\
      length u' = length u /\ shaped (sy_usizes s) u' /\
      (forall i r d r', nth_error u i = Some r -> nth_error (freeze frozen du) i = Some d -> nth_error u' i = Some r' ->
         (cf_ls_max_iters cfg <= 1 /\ r' = rows2 fadd r d) \/
         (exists k, k + 2 <= cf_ls_max_iters cfg /\
            r' = rows2 (fun x dx => fadd x (fmul (cut (cf_ls_cutback cfg) k) dx)) r d)).
  Proof.
    intros Su Lb Fz H. unfold iterate in H. apply io_ok in H. destruct H as [du [t1 [t2 [Hs [H _]]]]].
    apply step_ok in Hs. destruct Hs as [Hs [Ld [Sd _]]].
    destruct (sizes_eqb (sy_rsizes s) (sy_usizes s)) eqn:E; [|discriminate]. apply sizes_eqb_eq in E. cbn [negb] in H.
    assert (LF : length (freeze frozen du) = length u)
      by (rewrite freeze_length; [exact Ld|intros m Hm; rewrite (Fz m Hm); symmetry; exact Ld]).
    assert (SF : shaped (sy_usizes s) (freeze frozen du)) by (apply freeze_shaped; exact Sd).
    exists du. split; [exact Hs|]. split; [exact Ld|]. split; [exact Sd|]. split; [exact E|].
    destruct (cf_ls_max_iters cfg <=? 1) eqn:Ls.
    - apply Nat.leb_le in Ls. apply io_ok in H. destruct H as [bt [t3 [t4 [R [H _]]]]]. injection H as <- <- <-.
      apply residual_ok in R. destruct R as [R [L1 [S1 _]]].
      rewrite map2_length, LF, Nat.min_id in L1.
      split; [exact R|]. split; [exact L1|]. split; [exact S1|].
      split; [rewrite map2_length, LF, Nat.min_id; reflexivity|]. split.
      + apply shaped_of_nth. intros i r N. rewrite nth_map2 in N.
        destruct (nth_error u i) eqn:U; [|discriminate]. destruct (nth_error (freeze frozen du) i) eqn:D; [|discriminate].
        injection N as <-. rewrite rows2_lengths; [exact (shaped_nth _ _ _ _ Su U)|].
        rewrite (shaped_nth _ _ _ _ SF D), (shaped_nth _ _ _ _ Su U). reflexivity.
      + intros i r d r' N1 N2 N3. rewrite nth_map2, N1, N2 in N3. injection N3 as <-. left. auto.
    - apply Nat.leb_gt in Ls. eapply line_search_ok with (n := 1) in H.
      + destruct H as [[al [Cl [La ->]]] [R [L1 S1]]].
        assert (LT : length (trial al u (freeze frozen du)) = length u) by (rewrite trial_length; lia).
        split; [exact R|]. split; [exact L1|]. split; [exact S1|]. split; [exact LT|].
        split; [apply trial_shaped; assumption|].
        intros i r d r' N1 N2 N3. rewrite trial_nth, N1, N2 in N3. destruct (nth_error al i) as [a|] eqn:A; [|discriminate].
        injection N3 as <-. right. apply nth_error_In in A. unfold cuts in Cl. rewrite Forall_forall in Cl.
        destruct (Cl _ A) as [k [Hk ->]]. exists k. split; [lia|reflexivity].
      + unfold norm_sq. rewrite map_length. exact Lb.
      + rewrite map2_length, LF, Lb. apply Nat.min_id.
      + exact LF.
      + apply map_length.
      + apply Forall_forall. intros a I. apply in_map_iff in I. destruct I as [_ [<- _]]. exists 0. split; [lia|reflexivity].
  Qed.

  Lemma iterate_update cfg s hist u b u' b' t :
    shaped (sy_usizes s) u -> length b = length u ->
    iterate fsum cfg s hist u b None = (Ok (u', b'), t) -> update cfg s hist u u'.
  Proof.
    intros Su Lb H. apply iterate_ok in H; [|exact Su|exact Lb|discriminate].
    destruct H as [du [Hs [Ld [Sd [E [R [L1 [S1 [L2 [S2 A]]]]]]]]]].
    exists du, b'. split; [exact Hs|]. split; [exact R|]. split; [exact L2|].
    intros i r d r' N1 N2 N3.
    assert (Q : map (@length F) d = map (@length F) r)
      by (rewrite (shaped_nth _ _ _ _ Sd N2), (shaped_nth _ _ _ _ Su N1); reflexivity).
    destruct (A i r d r' N1 N2 N3) as [[L ->]|[k [Hk ->]]].
    - left. split; [exact L|]. apply rows2_advance. exact Q.
    - right. exists k. split; [exact Hk|]. apply rows2_advance. exact Q.
  Qed.

  Lemma iterate_cost cfg s hist u b frozen r t :
    iterate fsum cfg s hist u b frozen = (r, t) ->
    steps_of t <= 1 /\ residuals_of t <= trials cfg /\ (is_ok r = true -> steps_of t = 1).
  Proof.
    assert (M1 : 1 <= trials cfg) by (unfold trials; lia).
    assert (M2 : cf_ls_max_iters cfg - 1 <= trials cfg) by (unfold trials; lia).
    generalize dependent (trials cfg). intros M M1 M2.
    unfold iterate, step. cbn [iobind]. destruct (checked _ _ _) as [du|e]; [|intros H; injection H as <- <-; cbn; repeat split; try lia; discriminate].
    destruct (negb _); [intros H; injection H as <- <-; cbn; repeat split; try lia; discriminate|].
    destruct (cf_ls_max_iters cfg <=? 1) eqn:L.
    - unfold residual. cbn [iobind]. destruct (checked _ _ _) as [bt|e]; intros H; injection H as <- <-; cbn; repeat split; lia.
    - apply Nat.leb_gt in L.
      match goal with |- context [line_search ?a ?b ?c ?d ?e ?f ?g ?h ?i] => destruct (line_search a b c d e f g h i) as [r' t'] eqn:E end.
      intros H. injection H as <- <-. apply line_search_cost in E.
      unfold steps_of, residuals_of in *. cbn. repeat split; try lia.
  Qed.

  (** ** The solve *)
  Lemma entry_ok s u0 b t :
    entry s u0 = (Ok b, t) ->
    shaped (sy_usizes s) u0 /\ sy_residual s u0 = Ok b /\ length b = length u0 /\ shaped (sy_rsizes s) b /\ t = [CResidual u0].
  Proof.
    unfold entry. destruct (conforms _ _ _) eqn:C; [|discriminate]. cbn [negb]. intros H.
    apply io_ok in H. destruct H as [b' [t1 [t2 [R [H ->]]]]]. apply residual_ok in R. destruct R as [R [L [S ->]]].
    apply conforms_iff in C. destruct (sy_rsizes s); [discriminate|]. injection H as <- <-. tauto.
  Qed.
  Lemma entry_cost s u0 r t : entry s u0 = (r, t) -> steps_of t = 0 /\ residuals_of t <= 1.
  Proof.
    unfold entry. destruct (conforms _ _ _); [|intros H; injection H as <- <-; cbn; lia]. cbn [negb].
    unfold residual. cbn [iobind]. destruct (checked _ _ _); [|intros H; injection H as <- <-; cbn; lia].
    destruct (sy_rsizes s); intros H; injection H as <- <-; cbn; lia.
  Qed.

  (** One turn of the loop. *)
  Lemma stop_cases cfg s u0 b0 u b :
    sy_residual s u0 = Ok b0 -> length b0 = length u0 -> length u = length u0 ->
    sy_residual s u = Ok b -> length b = length u ->
    match check_stop cfg (norms fsum b) (norms fsum b0) with
    | Converged => solved fsum cfg s u0 u
    | Diverged => unsolved fsum cfg s u0 u /\ not_finite fsum s u
    | Continue => unsolved fsum cfg s u0 u
    end.
  Proof.
    intros R0 L0 Lu R L. unfold check_stop.
    destruct (existsb _ (norms fsum b)) eqn:X; [|destruct (check_converged _ _ _) eqn:C].
    - apply existsb_norms in X. destruct X as [i [r [N Hf]]].
      destruct (nth_error b0 i) as [r0|] eqn:N0; [|apply nth_error_None in N0; assert (i < length b) by (apply nth_error_Some; congruence); lia].
      split; [exists b0, b, i, r, r0; repeat split; auto|]. exists b, r. repeat split; auto. eapply nth_error_In, N.
    - exists b0, b. repeat split; auto.
      + eapply check_converged_true; eassumption.
      + apply (existsb_norms_false b X). eapply nth_error_In. eassumption.
    - apply check_converged_false in C; [|lia]. destruct C as [i [r [r0 [N [N0 M]]]]].
      exists b0, b, i, r, r0. repeat split; auto.
  Qed.

  Lemma removelast_snoc {A} (l : list A) x : removelast (l ++ [x]) = l.
  Proof. rewrite removelast_app; [|discriminate]. cbn. apply app_nil_r. Qed.
  Lemma path_hist cfg s u0 l u u1 : path cfg s u0 l u -> removelast (u0 :: l) ++ [u] = removelast (u0 :: l ++ [u1]).
  Proof.
    intros P. rewrite (app_comm_cons l [u1] u0), removelast_snoc.
    destruct P as [|l u u' P _]; [reflexivity|]. rewrite (app_comm_cons l [u'] u0), removelast_snoc. reflexivity.
  Qed.
  Lemma solve_loop_ok cfg s u0 b0 : sy_residual s u0 = Ok b0 -> length b0 = length u0 ->
    forall left i u b u' k t l,
    shaped (sy_usizes s) u -> length u = length u0 -> sy_residual s u = Ok b -> length b = length u ->
    path cfg s u0 l u -> S (length l) = i -> Forall (unsolved fsum cfg s u0) (u0 :: l) ->
    solve_loop fsum cfg s (norms fsum b0) left i (removelast (u0 :: l)) u b = (Ok (u', k), t) ->
    solved fsum cfg s u0 u' /\ steps_of t + i = S k /\ k <= length l + left /\
    exists l', path cfg s u0 (l' ++ [u']) u' /\ length (l' ++ [u']) = k /\ Forall (unsolved fsum cfg s u0) (u0 :: l').
  Proof.
    intros R0 L0. induction left as [|left IH]; intros i u b u' k t l Su Lu R Lb P Hi U H; cbn [solve_loop] in H; [discriminate|].
    apply io_ok in H. destruct H as [[u1 b1] [t1 [t2 [It [H ->]]]]].
    pose proof (iterate_update _ _ _ _ _ _ _ _ Su Lb It) as Up. pose proof (iterate_cost _ _ _ _ _ _ _ _ It) as [_ [_ Co]].
    specialize (Co eq_refl). pose proof (iterate_ok cfg s _ u b None u1 b1 t1 Su Lb ltac:(discriminate) It) as Q.
    destruct Q as [du [_ [_ [_ [E [R1 [L1 [S1 [L2 [S2 _]]]]]]]]]].
    assert (Lu1 : length u1 = length u0) by lia.
    pose proof (stop_cases cfg s u0 b0 u1 b1 R0 L0 Lu1 R1 ltac:(lia)) as SC.
    assert (P1 : path cfg s u0 (l ++ [u1]) u1) by (eapply path_step; eassumption).
    rewrite steps_app.
    destruct (check_stop cfg (norms fsum b1) (norms fsum b0)); [| |discriminate].
    - destruct (IH (S i) u1 b1 u' k t2 (l ++ [u1]) S2 Lu1 R1 ltac:(lia) P1) as [A [B [C D]]].
      + rewrite app_length. cbn. lia.
      + inversion U; subst. constructor; [assumption|]. apply Forall_app. split; [assumption|]. constructor; [exact SC|constructor].
      + rewrite <- (path_hist cfg s u0 l u u1 P). exact H.
      + split; [exact A|]. rewrite app_length in C. cbn in C. split; [lia|]. split; [lia|]. exact D.
    - injection H as <- <- <-. split; [exact SC|]. cbn [steps_of filter length]. split; [lia|]. split; [lia|].
      exists l. split; [exact P1|]. rewrite app_length. cbn. split; [lia|exact U].
  Qed.


  (** ** Total systems *)
  Lemma residual_total n s u : total_system n s -> length u = n -> shaped (sy_usizes s) u ->
    exists b, residual s u = (Ok b, [CResidual u]).
  Proof.
    intros [_ [E T]] L S. destruct (T u L S) as [[b [R [Lb Sb]]] _]. exists b. unfold residual.
    rewrite (checked_of _ _ _ _ R Lb); [reflexivity|]. rewrite E. exact Sb.
  Qed.
  Lemma step_total n s hist u : total_system n s -> length u = n -> shaped (sy_usizes s) u ->
    exists d, step s hist u = (Ok d, [CStep u]).
  Proof.
    intros [_ [E T]] L S. destruct (T u L S) as [_ T']. destruct (T' hist) as [d [R [Ld Sd]]]. exists d. unfold step.
    rewrite (checked_of _ _ _ _ R Ld Sd). reflexivity.
  Qed.

  Lemma line_search_total n cfg s u du nb bd : total_system n s -> length u = n -> length du = n ->
    shaped (sy_usizes s) u -> shaped (sy_usizes s) du -> length nb = n -> length bd = n ->
    forall more alpha, length alpha = n ->
    exists x t, line_search fsum cfg s u du nb bd more alpha = (Ok x, t).
  Proof.
    intros T Lu Ld Su Sd Ln Lb. induction more as [|more IH]; intros alpha La; cbn [line_search];
      (destruct (residual_total n s (trial alpha u du) T) as [b R];
        [rewrite trial_length; lia|apply trial_shaped; assumption|]);
      rewrite R; cbn [iobind]; match goal with |- context [if ?c then _ else _] => destruct c end;
      try (do 2 eexists; reflexivity).
    apply residual_ok in R. destruct R as [_ [L1 _]]. rewrite trial_length in L1.
    match goal with |- context [line_search _ _ _ _ _ _ _ more ?a] => destruct (IH a) as [x [t E]] end.
    - rewrite map2_length, map2_length, !combine_length. unfold norm_sq. rewrite map_length. lia.
    - rewrite E. do 2 eexists. reflexivity.
  Qed.

  Lemma iterate_total n cfg s hist u b frozen : total_system n s -> length u = n -> shaped (sy_usizes s) u ->
    length b = n -> (forall m, frozen = Some m -> length m = n) ->
    exists u' b' t, iterate fsum cfg s hist u b frozen = (Ok (u', b'), t).
  Proof.
    intros T Lu Su Lb Fz. unfold iterate. destruct (step_total n s hist u T Lu Su) as [du Hs]. rewrite Hs. cbn [iobind].
    apply step_ok in Hs. destruct Hs as [_ [Ld [Sd _]]].
    assert (LF : length (freeze frozen du) = n) by (rewrite freeze_length; [lia|intros m Hm; rewrite (Fz m Hm); lia]).
    assert (SF : shaped (sy_usizes s) (freeze frozen du)) by (apply freeze_shaped; exact Sd).
    destruct T as [NE [E T']] eqn:Q. clear Q. rewrite (proj2 (sizes_eqb_eq _ _) E). cbn [negb].
    destruct (cf_ls_max_iters cfg <=? 1).
    - destruct (residual_total n s (map2 (rows2 fadd) u (freeze frozen du)) T) as [bt R].
      + rewrite map2_length. lia.
      + apply shaped_of_nth. intros i r N. rewrite nth_map2 in N.
        destruct (nth_error u i) eqn:U; [|discriminate]. destruct (nth_error (freeze frozen du) i) eqn:D; [|discriminate].
        injection N as <-. rewrite rows2_lengths; [exact (shaped_nth _ _ _ _ Su U)|].
        rewrite (shaped_nth _ _ _ _ SF D), (shaped_nth _ _ _ _ Su U). reflexivity.
      + rewrite R. do 3 eexists. reflexivity.
    - destruct (line_search_total n cfg s u (freeze frozen du) (norm_sq fsum b) (map2 (row_dot fsum) b (freeze frozen du)) T Lu LF Su SF)
        with (more := cf_ls_max_iters cfg - 2) (alpha := map (fun _ : row => fone) u) as [[u' b'] [t H]].
      + unfold norm_sq. rewrite map_length. exact Lb.
      + rewrite map2_length. lia.
      + rewrite map_length. exact Lu.
      + rewrite H. do 3 eexists. reflexivity.
  Qed.

  Lemma entry_total n s u0 : total_system n s -> length u0 = n -> shaped (sy_usizes s) u0 ->
    exists b, entry s u0 = (Ok b, [CResidual u0]).
  Proof.
    intros T L S. unfold entry. rewrite (proj2 (conforms_iff _ _ _) (conj eq_refl S)). cbn [negb].
    destruct (residual_total n s u0 T L S) as [b R]. rewrite R. cbn [iobind].
    destruct T as [NE [E _]]. rewrite E. destruct (sy_usizes s); [congruence|]. exists b. reflexivity.
  Qed.

  Lemma solve_loop_conv cfg s u0 b0 n : sy_residual s u0 = Ok b0 -> length b0 = length u0 ->
    total_system n s -> length u0 = n ->
    forall left i u b e t l,
    shaped (sy_usizes s) u -> length u = length u0 -> sy_residual s u = Ok b -> length b = length u ->
    path cfg s u0 l u -> Forall (unsolved fsum cfg s u0) (u0 :: l) ->
    solve_loop fsum cfg s (norms fsum b0) left i (removelast (u0 :: l)) u b = (Err e, t) ->
    (exists w, e = Convergence w) /\
    exists l' u', path cfg s u0 l' u' /\ Forall (unsolved fsum cfg s u0) (u0 :: l') /\
      (length l' = length l + left \/ not_finite fsum s u' /\ 1 <= length l' <= length l + left).
  Proof.
    intros R0 L0 T Ln. induction left as [|left IH]; intros i u b e t l Su Lu R Lb P U H; cbn [solve_loop] in H.
    - injection H as <- <-. split; [eauto|]. exists l, u. split; [exact P|]. split; [exact U|]. left. lia.
    - destruct (iterate_total n cfg s (removelast (u0 :: l)) u b None T ltac:(lia) Su ltac:(lia) ltac:(discriminate)) as [u1 [b1 [t1 It]]].
      rewrite It in H. cbn [iobind] in H.
      pose proof (iterate_update _ _ _ _ _ _ _ _ Su Lb It) as Up.
      pose proof (iterate_ok cfg s _ u b None u1 b1 t1 Su Lb ltac:(discriminate) It) as Q.
      destruct Q as [du [_ [_ [_ [E [R1 [L1 [S1 [L2 [S2 _]]]]]]]]]].
      assert (Lu1 : length u1 = length u0) by lia.
      pose proof (stop_cases cfg s u0 b0 u1 b1 R0 L0 Lu1 R1 ltac:(lia)) as SC.
      assert (P1 : path cfg s u0 (l ++ [u1]) u1) by (eapply path_step; eassumption).
      assert (Ll : length (l ++ [u1]) = S (length l)) by (rewrite app_length; cbn; lia).
      assert (U1 : unsolved fsum cfg s u0 u1 -> Forall (unsolved fsum cfg s u0) (u0 :: l ++ [u1])).
      { intros X. inversion U; subst. constructor; [assumption|]. apply Forall_app. split; [assumption|]. constructor; [exact X|constructor]. }
      destruct (check_stop cfg (norms fsum b1) (norms fsum b0)); [| |].
      + destruct (solve_loop fsum cfg s (norms fsum b0) left (S i) (removelast (u0 :: l) ++ [u]) u1 b1) as [r t2] eqn:E2.
        injection H as -> <-. rewrite (path_hist cfg s u0 l u u1 P) in E2.
        destruct (IH (S i) u1 b1 e t2 (l ++ [u1]) S2 Lu1 R1 ltac:(lia) P1 (U1 SC) E2) as [A [l' [u' [B [C D]]]]].
        split; [exact A|]. exists l', u'. split; [exact B|]. split; [exact C|]. rewrite Ll in D.
        destruct D as [D|[D1 D2]]; [left; lia|right; split; [exact D1|lia]].
      + discriminate.
      + injection H as <- <-. split; [eauto|]. exists (l ++ [u1]), u1. split; [exact P1|].
        split; [apply U1, SC|]. right. split; [apply SC|]. lia.
  Qed.

  Lemma start_check cfg s u0 b0 :
    sy_residual s u0 = Ok b0 -> length b0 = length u0 ->
    if check_converged cfg (norms fsum b0) (norms fsum b0) then solved fsum cfg s u0 u0 else unsolved fsum cfg s u0 u0.
  Proof.
    intros R L. destruct (check_converged _ _ _) eqn:C.
    - exists b0, b0. split; [exact R|]. split; [exact R|]. split; [exact L|]. split; [exact L|]. split; [reflexivity|].
      intros i r r0 N N0. split; [eapply check_converged_true; eassumption|].
      pose proof (check_converged_true cfg b0 b0 C i r r N N) as M.
      apply (nonneg_meets_finite cfg); [apply rnorm_nonneg|]. apply (proj2 (row_converged_iff cfg _ _) M).
    - apply check_converged_false in C; [|reflexivity]. destruct C as [i [r [r0 [N [N0 M]]]]].
      exists b0, b0, i, r, r0. repeat split; auto.
  Qed.


  Lemma solve_returned cfg s u0 u k t :
    solve fsum cfg s u0 = (Ok (u, k), t) ->
    solved fsum cfg s u0 u /\ k <= cf_miters cfg - 1 /\ steps_of t = k /\
    exists l, path cfg s u0 l u /\ length l = k /\ Forall (unsolved fsum cfg s u0) (removelast (u0 :: l)).
  Proof.
    unfold solve. intros H. apply io_ok in H. destruct H as [b0 [t1 [t2 [En [H ->]]]]].
    apply entry_ok in En. destruct En as [S0 [R0 [L0 [Sb ->]]]].
    pose proof (start_check cfg s u0 b0 R0 L0) as SC.
    destruct (check_converged cfg _ _).
    - injection H as <- <- <-. split; [exact SC|]. split; [lia|]. split; [reflexivity|].
      exists []. split; [constructor|]. split; [reflexivity|constructor].
    - destruct (solve_loop_ok cfg s u0 b0 R0 L0 (cf_miters cfg - 1) 1 u0 b0 u k t2 []) as [A [B [C [l' [P [Lk U]]]]]];
        try assumption; try reflexivity; [constructor|constructor; [exact SC|constructor]|].
      rewrite steps_app. cbn [steps_of filter length]. split; [exact A|]. cbn [length] in C. split; [lia|].
      split; [unfold steps_of in *; cbn; lia|].
      exists (l' ++ [u]). split; [exact P|]. split; [exact Lk|].
      change (u0 :: l' ++ [u]) with ((u0 :: l') ++ [u]). rewrite removelast_snoc. exact U.
  Qed.

  Lemma solve_raised cfg s n u0 e t :
    total_system n s -> length u0 = n -> shaped (sy_usizes s) u0 ->
    solve fsum cfg s u0 = (Err e, t) ->
    (exists w, e = Convergence w) /\
    exists l u, path cfg s u0 l u /\ Forall (unsolved fsum cfg s u0) (u0 :: l) /\
      (length l = cf_miters cfg - 1 \/ not_finite fsum s u /\ 1 <= length l <= cf_miters cfg - 1).
  Proof.
    intros T L S H. unfold solve in H. destruct (entry_total n s u0 T L S) as [b0 En]. rewrite En in H. cbn [iobind] in H.
    apply entry_ok in En. destruct En as [_ [R0 [L0 [Sb _]]]].
    pose proof (start_check cfg s u0 b0 R0 L0) as SC.
    destruct (check_converged cfg _ _); [discriminate|].
    destruct (solve_loop _ _ _ _ _ _ _ _ _) as [r t2] eqn:E. injection H as -> <-.
    destruct (solve_loop_conv cfg s u0 b0 n R0 L0 T L (cf_miters cfg - 1) 1 u0 b0 e t2 [] S eq_refl R0 L0
                (path_start cfg s u0) (Forall_cons _ SC (Forall_nil _)) E) as [A [l [u [P [U D]]]]].
    split; [exact A|]. exists l, u. split; [exact P|]. split; [exact U|]. exact D.
  Qed.

  (** ** Cost *)
  Lemma solve_loop_cost cfg s b0n : forall left i hist u b r t,
    solve_loop fsum cfg s b0n left i hist u b = (r, t) -> steps_of t <= left /\ residuals_of t <= left * trials cfg.
  Proof.
    induction left as [|left IH]; intros i hist u b r t H; cbn [solve_loop] in H; [injection H as <- <-; cbn; lia|].
    destruct (iterate fsum cfg s hist u b None) as [[[u1 b1]|e] t1] eqn:It; cbn [iobind] in H;
      pose proof (iterate_cost _ _ _ _ _ _ _ _ It) as [C1 [C2 _]].
    - destruct (check_stop _ _ _).
      + destruct (solve_loop fsum cfg s b0n left (S i) (hist ++ [u]) u1 b1) as [r2 t2] eqn:E. apply IH in E. injection H as <- <-.
        rewrite steps_app, residuals_app. cbn [Nat.mul]. lia.
      + injection H as <- <-. rewrite app_nil_r. cbn [Nat.mul]. lia.
      + injection H as <- <-. rewrite app_nil_r. cbn [Nat.mul]. lia.
    - injection H as <- <-. cbn [Nat.mul]. lia.
  Qed.
  Lemma solve_cost cfg s u0 r t :
    solve fsum cfg s u0 = (r, t) ->
    steps_of t <= cf_miters cfg - 1 /\ residuals_of t <= 1 + (cf_miters cfg - 1) * trials cfg.
  Proof.
    unfold solve. destruct (entry s u0) as [[b|e] t1] eqn:En; apply entry_cost in En; cbn [iobind].
    - destruct (check_converged _ _ _).
      + intros H. injection H as <- <-. rewrite app_nil_r. split; [lia|]. apply Nat.le_trans with 1; [lia|apply Nat.le_add_r].
      + destruct (solve_loop _ _ _ _ _ _ _ _ _) as [r2 t2] eqn:E. apply solve_loop_cost in E.
        intros H. injection H as <- <-. rewrite steps_app, residuals_app. lia.
    - intros H. injection H as <- <-. split; [lia|]. apply Nat.le_trans with 1; [lia|apply Nat.le_add_r].
  Qed.
  Lemma masked_loop_cost cfg s b0n : forall left i fz cv hist u b r t,
    masked_loop fsum cfg s b0n left i fz cv hist u b = (r, t) ->
    steps_of t <= left /\ residuals_of t <= left * trials cfg /\
    (forall u' m k, r = Ok (u', m, k) -> steps_of t + i = k).
  Proof.
    induction left as [|left IH]; intros i fz cv hist u b r t H; cbn [masked_loop] in H.
    - injection H as <- <-. split; [cbn; lia|]. split; [cbn; lia|]. intros u' m k E. injection E as <- <- <-. reflexivity.
    - destruct (iterate fsum cfg s hist u b fz) as [[[u1 b1]|e] t1] eqn:It; cbn [iobind] in H;
        pose proof (iterate_cost _ _ _ _ _ _ _ _ It) as [C1 [C2 C3]].
      + specialize (C3 eq_refl). match type of H with context [if ?c then _ else _] => destruct c end.
        * injection H as <- <-. rewrite app_nil_r. cbn [Nat.mul]. split; [lia|]. split; [lia|].
          intros u' m k E. injection E as <- <- <-. lia.
        * match type of H with context [masked_loop ?a ?b ?c ?d left ?e ?f ?g ?h ?k ?l] => destruct (masked_loop a b c d left e f g h k l) as [r2 t2] eqn:E end.
          apply IH in E. injection H as <- <-. rewrite steps_app, residuals_app. cbn [Nat.mul].
          destruct E as [E1 [E2 E3]]. split; [lia|]. split; [lia|].
          intros u' m k Er. specialize (E3 u' m k Er). lia.
      + injection H as <- <-. cbn [Nat.mul]. split; [lia|]. split; [lia|]. discriminate.
  Qed.
  Lemma masked_cost cfg s u0 r t :
    solve_masked fsum cfg s u0 = (r, t) ->
    steps_of t <= cf_miters cfg - 1 /\ residuals_of t <= 1 + (cf_miters cfg - 1) * trials cfg /\
    (forall u m k, r = Ok (u, m, k) -> steps_of t = k).
  Proof.
    unfold solve_masked. destruct (entry s u0) as [[b|e] t1] eqn:En; apply entry_cost in En; cbn [iobind].
    - match goal with |- context [if ?c then _ else _] => destruct c end.
      + intros H. injection H as <- <-. rewrite app_nil_r. split; [lia|].
        split; [apply Nat.le_trans with 1; [lia|apply Nat.le_add_r]|].
        intros u m k E. injection E as <- <- <-. lia.
      + destruct (masked_loop _ _ _ _ _ _ _ _ _ _ _) as [r2 t2] eqn:E. apply masked_loop_cost in E.
        intros H. injection H as <- <-. rewrite steps_app, residuals_app. destruct E as [E1 [E2 E3]].
        split; [lia|]. split; [lia|]. intros u m k Er. specialize (E3 u m k Er). lia.
    - intros H. injection H as <- <-. split; [lia|].
      split; [apply Nat.le_trans with 1; [lia|apply Nat.le_add_r]|]. discriminate.
  Qed.
End Any.
