(** Lemmas about the preconditioner cache. *)
From Verif Require Import Base BaseProofs Tensor Newton Krylov SpecKrylov KrylovSystem SpecKrylovSystem.

Section Cache.
  Context {V : Type}.
  Variable N : num V.
  Variable rsum : list V -> V.
  Variable edot : list V -> list V -> V.
  Variable tri : list (list V) -> list V -> list V.
  Notation groups := (list (tensor V)).
  Variable s : ksystem V.

  (** One step. *)
  Lemma kstep_inv setup apply u st r st' l :
    ks_precond s = Some (setup, apply) ->
    kstep N rsum edot tri s u st = (r, st', l) ->
    (reached l -> setups l = if needs_rebuild (ks_cfg s) st then [u] else []) /\
    (forall p cs k, In (SSolve p cs k) l ->
       if needs_rebuild (ks_cfg s) st then setup u = Ok p else p = st_precond st) /\
    (is_ok r = true -> exists p cs k, l = SResidual u :: (if needs_rebuild (ks_cfg s) st then [SSetup u] else []) ++ [SSolve p cs (Ok k)] /\
       st' = mkKst p (needs_rebuild (ks_cfg s) st || st_ready st) (Z.of_nat k) /\
       if needs_rebuild (ks_cfg s) st then setup u = Ok p else p = st_precond st).
  Proof.
    intros EP H. unfold kstep, sret in H.
    assert (Nothing : forall (l0 : list (sys_call (V:=V))), (l0 = [] \/ l0 = [SResidual u]) -> ~ reached l0).
    { intros l0 [-> | ->] [(w & I)|(p & cs & k & I)]; cbn in I; intuition congruence. }
    destruct (bind (assert_all_dense (ks_unknown s)) _) as [x|e] eqn:Hd.
    2:{ injection H as <- <- <-. split; [|split]; [intros R; exfalso; apply (Nothing [] (or_introl eq_refl) R)|intros p cs k []|discriminate]. }
    destruct (bind (ks_res s u) _) as [[[[b bf] rows] uspec]|e] eqn:Hf.
    2:{ injection H as <- <- <-. split; [|split]; [intros R; exfalso; apply (Nothing _ (or_intror eq_refl) R)| |discriminate].
        intros p cs k I. cbn in I. intuition congruence. }
    unfold refresh in H. rewrite EP in H. destruct (needs_rebuild (ks_cfg s) st) eqn:NR.
    - destruct (setup u) as [p|e] eqn:Es; cbn [bind] in H.
      + destruct (krylov_solve _ _ _ _ _ _ _ _) as [[res|e] calls] eqn:Ek; injection H as <- <- <-; cbn [st_precond st_ready].
        * split; [reflexivity|]. split.
          { intros p' cs k I. cbn in I. destruct I as [I|[I|[I|[]]]]; try discriminate. injection I as <- _ _. reflexivity. }
          intros _. exists p, calls, (kr_iters res). cbn. auto.
        * split; [reflexivity|]. split; [|discriminate].
          intros p' cs k I. cbn in I. destruct I as [I|[I|[I|[]]]]; try discriminate. injection I as <- _ _. reflexivity.
      + injection H as <- <- <-. split; [reflexivity|]. split; [|discriminate].
        intros p' cs k I. cbn in I. destruct I as [I|[I|[]]]; discriminate.
    - cbn [app] in H. destruct (krylov_solve _ _ _ _ _ _ _ _) as [[res|e] calls] eqn:Ek; injection H as <- <- <-; cbn [st_precond st_ready].
      + split; [reflexivity|]. split.
        { intros p' cs k I. cbn in I. destruct I as [I|[I|[]]]; try discriminate. injection I as <- _ _. reflexivity. }
        intros _. exists (st_precond st), calls, (kr_iters res). cbn. auto.
      + split; [reflexivity|]. split; [|discriminate].
        intros p' cs k I. cbn in I. destruct I as [I|[I|[]]]; try discriminate. injection I as <- _ _. reflexivity.
  Qed.

  Notation policy := (rebuilt (k_cache (ks_cfg s)) (k_cache_max_its (ks_cfg s))).

  (** The policy only looks at the steps before. *)
  Lemma rebuilt_prefix its more i : i <= length its -> policy (its ++ more) i <-> policy its i.
  Proof.
    intros L. unfold rebuilt. destruct (k_cache (ks_cfg s)); [tauto|tauto|].
    split; (intros [E|(j & k & -> & E & H)]; [left; exact E|]; right; exists j, k; split; [reflexivity|]; split; [|exact H]).
    - rewrite nth_error_app1 in E by lia. exact E.
    - rewrite nth_error_app1 by lia. exact E.
  Qed.

  (** What the cache knows after the steps at [us] with the iteration counts [its]. *)
  Definition cached (setup : groups -> result groups) (us : list groups) (its : list Z) (st : kstate V) : Prop :=
    length us = length its /\
    match its with
    | [] => st = fresh_state
    | _ => st_ready st = true /\ nth_error its (length its - 1) = Some (st_last st) /\
           exists j u, last_rebuilt (k_cache (ks_cfg s)) (k_cache_max_its (ks_cfg s)) its (length its - 1) j /\
                       nth_error us j = Some u /\ setup u = Ok (st_precond st)
    end.

  Lemma cached_rebuild setup us its st : cached setup us its st ->
    (needs_rebuild (ks_cfg s) st = true <-> policy its (length its)).
  Proof.
    intros [L C]. unfold needs_rebuild, rebuilt. destruct its as [|z its].
    - subst st. cbn. destruct (k_cache (ks_cfg s)); cbn; intuition.
    - destruct C as (Rd & La & _). cbn [length] in *. replace (S (length its) - 1) with (length its) in La by lia.
      destruct (k_cache (ks_cfg s)); [intuition| |].
      + rewrite Rd. cbn. split; [discriminate|lia].
      + rewrite Rd. cbn [negb orb]. rewrite Z.ltb_lt. split.
        * intros H. right. exists (length its), (st_last st). auto.
        * intros [H|(j & k & E & E2 & H)]; [lia|]. injection E as <-. congruence.
  Qed.

  Lemma cached_step setup apply us its st u p k b :
    ks_precond s = Some (setup, apply) ->
    cached setup us its st -> needs_rebuild (ks_cfg s) st = b -> (if b then setup u = Ok p else p = st_precond st) ->
    cached setup (us ++ [u]) (its ++ [k]) (mkKst p (b || st_ready st) k).
  Proof.
    intros EP C Eb Hp. pose proof (cached_rebuild _ _ _ _ C) as P. rewrite Eb in P.
    pose proof C as [L C']. split; [rewrite !app_length; cbn; lia|].
    assert (NE : its ++ [k] <> []) by (destruct its; discriminate).
    assert (Len : length (its ++ [k]) - 1 = length its) by (rewrite app_length; cbn; lia).
    assert (Goal : b || st_ready st = true /\ nth_error (its ++ [k]) (length (its ++ [k]) - 1) = Some k /\
      exists j v, last_rebuilt (k_cache (ks_cfg s)) (k_cache_max_its (ks_cfg s)) (its ++ [k]) (length (its ++ [k]) - 1) j /\
                  nth_error (us ++ [u]) j = Some v /\ setup v = Ok p).
    { rewrite Len. split; [|split].
      - destruct b; [reflexivity|]. destruct its as [|z its]; [|destruct C' as [Rd _]; rewrite Rd; reflexivity].
        subst st. cbn in Eb. unfold needs_rebuild in Eb. cbn in Eb. destruct (k_cache (ks_cfg s)); discriminate.
      - rewrite nth_error_app2 by lia. rewrite Nat.sub_diag. reflexivity.
      - destruct b.
        + exists (length its), u. split; [|split; [rewrite <- L, nth_error_app2, Nat.sub_diag by lia; reflexivity|exact Hp]].
          split; [lia|]. split; [apply rebuilt_prefix; [lia|]; apply P; reflexivity|]. intros q Hq. lia.
        + assert (NP : ~ policy its (length its)) by (intros Q; apply P in Q; discriminate).
          destruct its as [|z its].
          { exfalso. apply NP. unfold rebuilt. destruct (k_cache (ks_cfg s)); auto. }
          destruct C' as (Rd & La & j & v & (Lj & Rj & Nj) & Ev & Es). exists j, v.
          cbn [length] in Lj, Nj. split; [|split; [rewrite nth_error_app1; [exact Ev|]|]].
          * split; [cbn [length]; lia|]. split; [apply rebuilt_prefix; [cbn [length]; lia|exact Rj]|].
            intros q Hq Q. cbn [length] in Hq. apply rebuilt_prefix in Q; [|cbn [length]; lia].
            destruct (Nat.eq_dec q (length (z :: its))) as [->|Nq]; [exact (NP Q)|].
            apply (Nj q); [cbn [length] in Nq; lia|exact Q].
          * apply nth_error_Some. rewrite Ev. discriminate.
          * rewrite Hp. exact Es. }
    destruct (its ++ [k]) as [|z l] eqn:E; [contradiction|]. cbn [st_ready st_last st_precond]. exact Goal.
  Qed.

  Lemma counts_app (a b : list (sys_call (V:=V))) : counts (a ++ b) = counts a ++ counts b.
  Proof. apply flat_map_app. Qed.

  Lemma ksteps_cache setup apply us0 its0 us st i r l u :
    ks_precond s = Some (setup, apply) ->
    cached setup us0 its0 st ->
    nth_error (ksteps N rsum edot tri s us st) i = Some (r, l) -> nth_error us i = Some u ->
    let its := its0 ++ counts (concat (map snd (ksteps N rsum edot tri s us st))) in
    (reached l -> (policy its (length its0 + i) /\ setups l = [u]) \/ (~ policy its (length its0 + i) /\ setups l = [])) /\
    (forall p cs k, In (SSolve p cs k) l ->
       exists j v, last_rebuilt (k_cache (ks_cfg s)) (k_cache_max_its (ks_cfg s)) its (length its0 + i) j /\
         nth_error (us0 ++ us) j = Some v /\ setup v = Ok p).
  Proof.
    intros EP. revert us0 its0 st i. induction us as [|u0 us IH]; intros us0 its0 st i C H Eu; [destruct i; discriminate|].
    cbn [ksteps] in H |- *. destruct (kstep N rsum edot tri s u0 st) as [[r0 st'] l0] eqn:Ek.
    destruct (kstep_inv setup apply u0 st r0 st' l0 EP Ek) as (I1 & I2 & I3).
    pose proof (cached_rebuild _ _ _ _ C) as P.
    destruct i as [|i].
    - cbn in H, Eu. injection H as <- <-. injection Eu as <-. rewrite Nat.add_0_r. cbv zeta. cbn [map concat snd].
      assert (Q : forall more, policy (its0 ++ more) (length its0) <-> needs_rebuild (ks_cfg s) st = true).
      { intros more. rewrite rebuilt_prefix by lia. symmetry. exact P. }
      split.
      + intros R. rewrite Q. rewrite (I1 R). destruct (needs_rebuild (ks_cfg s) st); [left|right]; auto.
      + intros p cs k I. specialize (I2 p cs k I). destruct (needs_rebuild (ks_cfg s) st) eqn:NR.
        * exists (length its0), u0. split; [|split; [destruct C as [L _]; rewrite <- L, nth_error_app2, Nat.sub_diag by lia; reflexivity|exact I2]].
          split; [lia|]. split; [apply Q; reflexivity|]. intros q Hq. lia.
        * assert (NP : ~ policy its0 (length its0)) by (intros X; apply P in X; congruence).
          destruct C as [L C']. destruct its0 as [|z its0].
          { exfalso. apply NP. unfold rebuilt. destruct (k_cache (ks_cfg s)); auto. }
          destruct C' as (Rd & La & j & v & (Lj & Rj & Nj) & Ev & Es). exists j, v.
          split; [|split; [rewrite nth_error_app1; [exact Ev|apply nth_error_Some; rewrite Ev; discriminate]|rewrite I2; exact Es]].
          split; [cbn [length] in *; lia|]. split; [apply rebuilt_prefix; [cbn [length] in *; lia|exact Rj]|].
          intros q Hq X. apply rebuilt_prefix in X; [|cbn [length] in *; lia].
          destruct (Nat.eq_dec q (length (z :: its0))) as [->|Nq]; [exact (NP X)|].
          apply (Nj q); [cbn [length] in *; lia|exact X].
    - cbn in H, Eu. destruct (is_ok r0) eqn:Or; [|destruct i; discriminate].
      destruct (I3 eq_refl) as (p & cs & k & El & Est & Hp).
      pose proof (cached_step setup apply us0 its0 st u0 p (Z.of_nat k) _ EP C eq_refl Hp) as C2. rewrite <- Est in C2.
      specialize (IH _ _ _ _ C2 H Eu). cbv zeta in IH |- *. cbn [map concat snd]. rewrite counts_app.
      replace (counts l0) with [Z.of_nat k] by (rewrite El; destruct (needs_rebuild _ _); reflexivity).
      rewrite app_length in IH. cbn [length] in IH. rewrite <- !app_assoc in IH. cbn [app] in IH |- *.
      replace (length its0 + S i) with (length its0 + 1 + i) by lia. exact IH.
  Qed.

  Lemma ksteps_no_precond us st i r l : ks_precond s = None ->
    nth_error (ksteps N rsum edot tri s us st) i = Some (r, l) -> setups l = [].
  Proof.
    intros EP. revert st i. induction us as [|u us IH]; intros st i H; [destruct i; discriminate|].
    cbn [ksteps] in H. destruct (kstep N rsum edot tri s u st) as [[r0 st'] l0] eqn:Ek.
    assert (El : setups l0 = []).
    { unfold kstep, sret in Ek. destruct (bind (assert_all_dense (ks_unknown s)) _) as [x|e]; [|injection Ek as _ _ <-; reflexivity].
      destruct (bind (ks_res s u) _) as [[[[b bf] rows] uspec]|e]; [|injection Ek as _ _ <-; reflexivity].
      unfold refresh in Ek. rewrite EP in Ek. cbn [app] in Ek.
      destruct (krylov_solve _ _ _ _ _ _ _ _) as [[res|e] calls]; injection Ek as _ _ <-; reflexivity. }
    destruct i as [|i]; cbn in H; [injection H as <- <-; exact El|].
    destruct (is_ok r0); [eauto|destruct i; discriminate].
  Qed.
End Cache.
