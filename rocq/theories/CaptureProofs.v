(** The masked solve that captures the context of a failed solve (solve.cpp:389-406). *)
From Verif Require Import Base Float Newton SpecNewton NewtonProofs MaskedProofs.

(** A number that is infinite over one that is not a minus zero is not below anything. *)
Lemma infinite_over x y z : nonneg x -> nonneg y -> y <> fneg_zero -> flt (fdiv x y) z = true -> ffinite x = true.
Proof.
  destruct x as [s|s| |s m e]; try reflexivity; cbn [nonneg]; intros N Ny H F.
  - subst s. exfalso. destruct y as [[|]|s| |s m e]; cbn in F; [apply H; reflexivity| | | |];
      try (cbn [nonneg] in Ny; subst s); try (destruct z as [?|[|]| |[|] ? ?]; discriminate).
  - exfalso. cbn in F. destruct y, z; discriminate.
Qed.

Section One.
  Variable fsum : list F -> F.

  Lemma singleton {A} (l : list A) : length l = 1 -> exists x, l = [x].
  Proof. destruct l as [|x [|]]; try discriminate. intros _. exists x. reflexivity. Qed.

  Lemma step_length s hist u du t : step s hist u = (Ok du, t) -> length du = length u.
  Proof. intros H. apply step_ok in H. tauto. Qed.

  (** A row that is not frozen is iterated as in the plain solve. *)
  Lemma iterate_free cfg s hist u b : length u = 1 -> iterate fsum cfg s hist u b (Some [false]) = iterate fsum cfg s hist u b None.
  Proof.
    intros L. unfold iterate. destruct (step s hist u) as [[du|e] t] eqn:E; [|reflexivity]. cbn [iobind].
    pose proof (step_length _ _ _ _ _ E) as Ld. rewrite L in Ld. destruct (singleton du Ld) as [d ->]. reflexivity.
  Qed.

  Lemma one_loop cfg s r0 : flt (rnorm fsum r0) (cf_atol cfg) = false -> flt fzero (cf_atol cfg) = true ->
    forall left i i' frozen hist u b w t x t', length u = 1 -> shaped (sy_usizes s) u -> length b = length u -> frozen = None \/ frozen = Some [false] ->
    solve_loop fsum cfg s (norms fsum [r0]) left i hist u b = (Err (Convergence w), t) ->
    masked_loop fsum cfg s (norms fsum [r0]) left i' frozen [false] hist u b = (Ok x, t') -> snd (fst x) = [false].
  Proof.
    intros B0 At. induction left as [|left IH]; intros i i' frozen hist u b w t x t' Lu Su Lb Fz Hs Hm; cbn [solve_loop masked_loop] in *.
    - injection Hm as <- _. reflexivity.
    - assert (E : iterate fsum cfg s hist u b frozen = iterate fsum cfg s hist u b None)
        by (destruct Fz as [-> | ->]; [reflexivity|apply iterate_free; exact Lu]).
      rewrite E in Hm. destruct (iterate fsum cfg s hist u b None) as [[[u' b']|e] l] eqn:It; [|discriminate].
      cbn [iobind] in Hs, Hm.
      apply (iterate_shapes fsum) in It; [|exact Su|exact Lb|discriminate]. destruct It as [R [L1 [L2 S2]]]. rewrite Lu in L1, L2.
      destruct (singleton u Lu) as [v ->]. destruct (singleton u' L2) as [v' ->]. destruct (singleton b' L1) as [r ->].
      assert (Cm : masked_converged cfg (norms fsum [r0]) (norms fsum [r]) (norms fsum (map2 (rows2 fsub) [v'] [v])) (norms fsum [v'])
                   = [masked_row_converged cfg (rnorm fsum r0) (rnorm fsum r) (rnorm fsum (diff_row v' v)) (rnorm fsum v')])
        by (unfold masked_converged, norms, map2; cbn [map combine fst snd]; rewrite !norm_spec; reflexivity).
      rewrite Cm in Hm. clear Cm. unfold norms in Hs, Hm. cbn [map] in Hs, Hm. rewrite !norm_spec in Hs, Hm.
      set (n := rnorm fsum r) in *. set (n0 := rnorm fsum r0) in *.
      assert (Cs : check_stop cfg [n] [n0] = if negb (ffinite n) then Diverged else if row_converged cfg n n0 then Converged else Continue).
      { unfold check_stop, check_converged. cbn [existsb combine forallb fst snd]. rewrite orb_false_r, andb_true_r. reflexivity. }
      rewrite Cs in Hs.
      destruct (masked_row_converged cfg n0 n (rnorm fsum (diff_row v' v)) (rnorm fsum v')) eqn:Mc.
      + exfalso. assert (Fn : ffinite n = true /\ row_converged cfg n n0 = true).
        { unfold masked_row_converged in Mc. unfold row_converged. apply orb_true_iff in Mc as [Mc|Mc].
          - split; [|rewrite Mc; reflexivity]. pose proof (rnorm_nonneg fsum r) as N. fold n in N.
            apply (nonneg_meets_finite cfg); [exact N|]. rewrite Mc. reflexivity.
          - apply andb_true_iff in Mc as [Mc _]. split; [|rewrite Mc; apply orb_true_r].
            apply (infinite_over n n0 (cf_rtol cfg)); [apply rnorm_nonneg|apply rnorm_nonneg| |exact Mc].
            intros Ez. rewrite Ez in B0. clear - B0 At. unfold flt, fneg_zero, fzero, SFltb in *. destruct (cf_atol cfg); cbn in *; congruence. }
        destruct Fn as [F1 F2]. rewrite F1, F2 in Hs. cbn [negb] in Hs. discriminate.
      + destruct (ffinite n) eqn:Fn; cbn [negb] in Hs.
        * destruct (row_converged cfg n n0); [discriminate|].
          match type of Hm with context [if ?c then _ else _] => assert (Ec : c = false) by (cbn; rewrite Fn; reflexivity); rewrite Ec in Hm end.
          match type of Hs with context [let '(_, _) := ?c in _] => destruct c as [rs ls] eqn:Es end. injection Hs as -> _.
          match type of Hm with context [let '(_, _) := ?c in _] => destruct c as [rm lm] eqn:Em end. injection Hm as -> _.
          eapply (IH (S i) (S i') _ _ [v'] [r]); [reflexivity|exact S2|reflexivity| |unfold norms; cbn [map]; rewrite norm_spec; exact Es
                   |unfold norms; cbn [map]; rewrite norm_spec; exact Em].
          right. destruct Fz as [-> | ->]; reflexivity.
        * match type of Hm with context [if ?c then _ else _] => assert (Ec : c = true) by (cbn; rewrite Fn; reflexivity); rewrite Ec in Hm end.
          injection Hm as <- _. reflexivity.
  Qed.

  Lemma capture_one cfg s u0 w t x t' : length u0 = 1 -> flt fzero (cf_atol cfg) = true ->
    solve fsum cfg s u0 = (Err (Convergence w), t) -> solve_masked fsum cfg s u0 = (Ok x, t') -> snd (fst x) = [false].
  Proof.
    intros L At Hs Hm. unfold solve in Hs. unfold solve_masked in Hm.
    destruct (entry s u0) as [[b|e] l] eqn:En; [|discriminate]. cbn [iobind] in Hs, Hm.
    apply entry_ok in En. destruct En as [Su [R [Lb _]]]. rewrite L in Lb. destruct (singleton b Lb) as [r ->].
    assert (Cc : check_converged cfg (norms fsum [r]) (norms fsum [r]) = row_converged cfg (rnorm fsum r) (rnorm fsum r)).
    { unfold check_converged, norms. cbn [map combine forallb fst snd]. rewrite norm_spec, andb_true_r. reflexivity. }
    rewrite Cc in Hs.
    assert (Cm : map (fun x => flt x (cf_atol cfg)) (norms fsum [r]) = [flt (rnorm fsum r) (cf_atol cfg)])
      by (unfold norms; cbn [map]; rewrite norm_spec; reflexivity).
    rewrite Cm in Hm. destruct (row_converged cfg (rnorm fsum r) (rnorm fsum r)) eqn:Rc; [discriminate|].
    unfold row_converged in Rc. apply orb_false_iff in Rc as [Rc _]. rewrite Rc in Hm. cbn [forallb andb] in Hm.
    match type of Hs with context [let '(_, _) := ?c in _] => destruct c as [rs ls] eqn:Es end. injection Hs as -> _.
    match type of Hm with context [let '(_, _) := ?c in _] => destruct c as [rm lm] eqn:Em end. injection Hm as -> _.
    eapply (one_loop cfg s r Rc At); [exact L| | | |exact Es|exact Em]; [tauto|cbn; lia|left; reflexivity].
  Qed.
End One.
