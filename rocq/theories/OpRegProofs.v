(** Registration of the custom op. *)
From Verif Require Import Base BaseProofs Shared SharedProofs AsyncProofs2 OpReg SpecOpReg.

Definition busy (a : actor) : bool := match a_pc a with RFind | RDef | RImpl => true | _ => false end.
Definition left_of (a : actor) : nat := match a_pc a with RStart => 4 | RFind => 3 | RDef => 2 | RImpl => 1 | _ => 0 end.
Definition rtotal (l : list actor) : nat := fold_right (fun a n => left_of a + n) 0 l.

Lemma rtotal_set l : forall i a a', nth_error l i = Some a -> rtotal (set_nth i a' l) + left_of a = rtotal l + left_of a'.
Proof.
  induction l as [|x l IH]; intros [|i] a a' E; try discriminate; cbn in *.
  - injection E as ->. lia.
  - pose proof (IH i a a' E). unfold rtotal in *. lia.
Qed.
Lemma nth_put l i (a' a : actor) j : nth_error l i = Some a -> nth_error (set_nth i a' l) j = if Nat.eqb i j then Some a' else nth_error l j.
Proof. intros E. apply nth_error_set_nth. apply nth_error_Some. congruence. Qed.

Lemma nth_error_ext' {A} (l : list A) : forall l', (forall j, nth_error l j = nth_error l' j) -> l = l'.
Proof.
  induction l as [|x l IH]; intros [|y l'] H; [reflexivity|specialize (H 0); discriminate|specialize (H 0); discriminate|].
  pose proof (H 0) as H0. injection H0 as ->. f_equal. apply IH. intros j. exact (H (S j)).
Qed.

Section Runs.
  Variables (ok : bool) (sides : list side).
  Let s0 := rstart sides.

  Record rinv (ls : list rlabel) (s : rstate) : Prop := {
    ri_sides : map a_side (r_actors s) = sides;
    ri_busy : forall k i, flag_of s k = Running i <-> exists a, nth_error (r_actors s) i = Some a /\ a_side a = k /\ busy a = true;
    ri_find : forall i a, nth_error (r_actors s) i = Some a -> a_pc a = RFind -> a_side a = Cpp;
    ri_defs : defs ls = match r_schema s with Some _ => 1 | None => 0 end;
    ri_impl : forall i a, nth_error (r_actors s) i = Some a -> a_pc a = RImpl -> r_schema s = Some i;
    ri_owner : forall o, r_schema s = Some o -> exists a, nth_error (r_actors s) o = Some a /\
                 (a_pc a = RImpl \/ a_pc a = RReturned /\ r_kernel s = true \/ a_pc a = RRaised /\ ok = false /\ a_side a = Cpp);
    ri_ran : forall k, flag_of s k = Ran -> r_schema s <> None;
    ri_pyran : r_import s = Ran -> exists o a, r_schema s = Some o /\ nth_error (r_actors s) o = Some a /\ a_side a = Pyth;
    ri_returned : forall i a, nth_error (r_actors s) i = Some a -> a_pc a = RReturned -> flag_of s (a_side a) = Ran;
    ri_raised : ok = true -> forall i a, nth_error (r_actors s) i = Some a -> a_pc a = RRaised ->
                  exists o b, r_schema s = Some o /\ nth_error (r_actors s) o = Some b /\ a_side b <> a_side a }.

  Lemma defs_snoc ls l : defs (ls ++ [l]) = defs ls + (if is_def l then 1 else 0).
  Proof. unfold defs. rewrite filter_app, app_length. cbn. destruct (is_def l); reflexivity. Qed.

  Lemma put_flag s i k f sch ker pc k' : flag_of (put s i k f sch ker pc) k' = match k, k' with Cpp, Cpp | Pyth, Pyth => f | _, _ => flag_of s k' end.
  Proof. destruct k, k'; reflexivity. Qed.

  Lemma put_inv ls s i k pc f sch ker pc' l : rinv ls s -> nth_error (r_actors s) i = Some (mkA k pc) ->
    (forall j, flag_of s k = Running j -> j = i) ->
    (forall j, f = Running j <-> (j = i /\ busy (mkA k pc') = true)) ->
    (pc' = RFind -> k = Cpp) ->
    (r_schema s = sch /\ is_def l = false /\ pc' <> RImpl \/ r_schema s = None /\ sch = Some i /\ is_def l = true /\ pc' = RImpl) ->
    (r_kernel s = true -> ker = true) ->
    (r_schema s = Some i -> pc = RImpl /\ (pc' = RReturned /\ ker = true \/ pc' = RRaised /\ ok = false /\ k = Cpp)
       \/ pc' = RReturned /\ ker = true) ->
    (f = Ran -> sch <> None) ->
    (flag_of s k = Ran -> f = Ran) ->
    (k = Pyth -> f = Ran -> r_import s = Ran \/ sch = Some i) ->
    (pc' = RReturned -> f = Ran) ->
    (ok = true -> pc' = RRaised -> exists o b, o <> i /\ sch = Some o /\ nth_error (r_actors s) o = Some b /\ a_side b <> k) ->
    rinv (ls ++ [l]) (put s i k f sch ker pc').
  Proof.
    intros V E Own Fl Fi Sch Ker Me Ran1 RanM Pyr Ret Rai.
    assert (Ne : forall j a, nth_error (set_nth i (mkA k pc') (r_actors s)) j = Some a ->
              (j = i /\ a = mkA k pc') \/ (j <> i /\ nth_error (r_actors s) j = Some a)).
    { intros j a Q. rewrite (nth_put _ i _ _ j E) in Q. destruct (Nat.eqb_spec i j).
      - injection Q as <-. left. auto. - right. auto. }
    assert (At : nth_error (set_nth i (mkA k pc') (r_actors s)) i = Some (mkA k pc')).
    { rewrite (nth_put _ i _ _ i E), Nat.eqb_refl. reflexivity. }
    assert (Oth : forall j a, j <> i -> nth_error (r_actors s) j = Some a -> nth_error (set_nth i (mkA k pc') (r_actors s)) j = Some a).
    { intros j a N Q. rewrite (nth_put _ i _ _ j E). destruct (Nat.eqb_spec i j); [congruence|exact Q]. }
    (* the owner is still there, on the same side *)
    assert (Stay : forall o b, nth_error (r_actors s) o = Some b -> exists b', nth_error (set_nth i (mkA k pc') (r_actors s)) o = Some b' /\ a_side b' = a_side b).
    { intros o b Q. destruct (Nat.eq_dec o i) as [->|N]; [|eauto]. exists (mkA k pc'). split; [exact At|]. rewrite E in Q. injection Q as <-. reflexivity. }
    assert (Keep : forall o, r_schema s = Some o -> sch = Some o).
    { intros o Q. destruct Sch as [(<- & _)|(Q' & _)]; [exact Q|congruence]. }
    constructor; cbn [put r_actors r_schema r_kernel r_import r_once].
    - rewrite <- (ri_sides _ _ V). apply nth_error_ext'. intros j. rewrite !nth_error_map, (nth_put _ i _ _ j E).
      destruct (Nat.eqb_spec i j) as [<-|N]; [rewrite E|]; reflexivity.
    - intros k' j. fold (put s i k f sch ker pc'). rewrite put_flag.
      assert (Same : k' = k -> (f = Running j <-> exists a, nth_error (set_nth i (mkA k pc') (r_actors s)) j = Some a /\ a_side a = k' /\ busy a = true)).
      { intros ->. rewrite Fl. split.
        - intros (-> & B). eauto.
        - intros (a & Q & Sd & B). destruct (Ne j a Q) as [(-> & ->)|(N & Q')]; [auto|].
          exfalso. apply N, Own. apply (ri_busy _ _ V). eauto. }
      assert (Diff : k' <> k -> (flag_of s k' = Running j <-> exists a, nth_error (set_nth i (mkA k pc') (r_actors s)) j = Some a /\ a_side a = k' /\ busy a = true)).
      { intros N. rewrite (ri_busy _ _ V). split; intros (a & Q & Sd & B).
        - exists a. split; [|auto]. apply Oth; [|exact Q]. intros ->. rewrite E in Q. injection Q as <-. apply N. symmetry. exact Sd.
        - exists a. destruct (Ne j a Q) as [(-> & ->)|(_ & Q')]; [exfalso; apply N; symmetry; exact Sd|auto]. }
      destruct k, k'; try (apply Same; reflexivity); apply Diff; discriminate.
    - intros j a Q P. destruct (Ne j a Q) as [(-> & ->)|(_ & Q')]; [exact (Fi P)|exact (ri_find _ _ V j a Q' P)].
    - rewrite defs_snoc, (ri_defs _ _ V). destruct Sch as [(<- & -> & _)|(-> & -> & -> & _)]; [lia|reflexivity].
    - intros j a Q P. destruct (Ne j a Q) as [(-> & ->)|(_ & Q')].
      + destruct Sch as [(_ & _ & N)|(_ & -> & _)]; [cbn in P; congruence|reflexivity].
      + apply Keep. exact (ri_impl _ _ V j a Q' P).
    - intros o So. destruct Sch as [(Es & _ & _)|(_ & Ei & _ & Ep)].
      + rewrite <- Es in So. destruct (ri_owner _ _ V o So) as (a & Q & Pa).
        destruct (Nat.eq_dec o i) as [->|N].
        * exists (mkA k pc'). split; [exact At|]. cbn [a_pc a_side].
          destruct (Me So) as [(_ & [(-> & ->)|H])|(-> & ->)]; auto.
        * exists a. split; [auto|]. destruct Pa as [Pa|[(Pa & Pk)|Pa]]; auto.
      + rewrite Ei in So. injection So as <-. exists (mkA k pc'). split; [exact At|]. left. exact Ep.
    - intros k' F. fold (put s i k f sch ker pc') in F. rewrite put_flag in F.
      destruct k, k'; auto; intros Z; destruct (r_schema s) as [o|] eqn:Es; [rewrite (Keep o eq_refl) in Z; discriminate| |rewrite (Keep o eq_refl) in Z; discriminate|];
        exact (ri_ran _ _ V _ F Es).
    - intros F. destruct k.
      + destruct (ri_pyran _ _ V F) as (o & a & So & Q & Sd). destruct (Stay o a Q) as (b & Qb & Sb). exists o, b. split; [auto|]. split; [exact Qb|congruence].
      + destruct (Pyr eq_refl F) as [F'|Si].
        * destruct (ri_pyran _ _ V F') as (o & a & So & Q & Sd). destruct (Stay o a Q) as (b & Qb & Sb). exists o, b. split; [auto|]. split; [exact Qb|congruence].
        * exists i, (mkA Pyth pc'). auto.
    - intros j a Q P. fold (put s i k f sch ker pc'). rewrite put_flag. destruct (Ne j a Q) as [(-> & ->)|(N & Q')].
      + cbn [a_side]. cbn in P. destruct k; exact (Ret P).
      + pose proof (ri_returned _ _ V j a Q' P) as F. destruct k, (a_side a); auto.
    - intros Ok j a Q P. destruct (Ne j a Q) as [(-> & ->)|(N & Q')].
      + destruct (Rai Ok P) as (o & b & No & So & Qb & Sb). exists o, b. auto.
      + destruct (ri_raised _ _ V Ok j a Q' P) as (o & b & So & Qb & Sb).
        destruct (Stay o b Qb) as (b' & Qb' & Sb'). exists o, b'. split; [auto|]. split; [exact Qb'|congruence].
  Qed.

  Lemma step_rinv ls s i l s' : rinv ls s -> rstep ok s i = Some (l, s') -> rinv (ls ++ [l]) s'.
  Proof.
    intros V H. unfold rstep in H. destruct (nth_error (r_actors s) i) as [[k pc]|] eqn:E; [|discriminate].
    assert (Run : busy (mkA k pc) = true -> flag_of s k = Running i).
    { intros B. apply (ri_busy _ _ V). eauto. }
    assert (Own : busy (mkA k pc) = true -> forall j, flag_of s k = Running j -> j = i).
    { intros B j F. rewrite (Run B) in F. congruence. }
    assert (Mine : r_schema s = Some i -> busy (mkA k pc) = true -> pc = RImpl).
    { intros So B. destruct (ri_owner _ _ V i So) as (a & Q & Pa). rewrite E in Q. injection Q as <-. cbn in *.
      destruct Pa as [Pa|[(Pa & _)|(Pa & _)]]; [exact Pa| |]; rewrite Pa in B; discriminate. }
    destruct pc; try discriminate.
    - assert (NotMe : r_schema s = Some i -> False).
      { intros So. destruct (ri_owner _ _ V i So) as (a & Q & Pa). rewrite E in Q. injection Q as <-. cbn in Pa.
        destruct Pa as [Pa|[(Pa & _)|(Pa & _)]]; discriminate. }
      destruct (flag_of s k) as [|j|] eqn:Fl; [| discriminate|]; injection H as <- <-.
      + destruct k; cbn [flag_of] in Fl;
        (eapply put_inv; [exact V|exact E|cbn [flag_of]; congruence| | | | | | | | | |]); try discriminate; try (left; repeat split; discriminate); try (cbn; tauto); try (cbn; congruence);
        intros j; split; [intros Q; injection Q as <-; auto|intros (-> & _); reflexivity|intros Q; injection Q as <-; auto|intros (-> & _); reflexivity].
      + eapply put_inv; [exact V|exact E|congruence| | | | | | | | | |]; try discriminate; try (left; repeat split; discriminate); try (cbn; tauto); try (cbn; congruence).
        * intros j. split; [discriminate|intros (_ & Q); discriminate].
        * intros _. exact (ri_ran _ _ V k Fl).
        * intros -> _. left. exact Fl.
    - pose proof (ri_find _ _ V i _ E eq_refl) as Kc. cbn in Kc. subst k.
      destruct (r_schema s) as [o|] eqn:So; injection H as <- <-.
      + eapply put_inv; [exact V|exact E|exact (Own eq_refl)| | | | | | | | | |]; try discriminate; try (left; repeat split; [exact So|discriminate]); try (cbn; tauto).
        * intros j. split; [discriminate|intros (_ & Q); discriminate].
        * intros Si. rewrite So in Si. specialize (Mine Si eq_refl). discriminate.
      + eapply put_inv; [exact V|exact E|exact (Own eq_refl)| | | | | | | | | |]; try discriminate; try (left; repeat split; [exact So|discriminate]); try (cbn; tauto); try congruence.
        * intros j. split; [intros Q; injection Q as <-; auto|intros (-> & _); reflexivity].
        * rewrite (Run eq_refl). discriminate.
    - destruct (r_schema s) as [o|] eqn:So; injection H as <- <-.
      + eapply put_inv; [exact V|exact E|exact (Own eq_refl)| | | | | | | | | |]; try discriminate; try (left; repeat split; [exact So|discriminate]); try (cbn; tauto).
        * intros j. split; [discriminate|intros (_ & Q); discriminate].
        * intros Si. rewrite So in Si. specialize (Mine Si eq_refl). discriminate.
        * rewrite (Run eq_refl). discriminate.
        * intros Ok _. destruct (ri_owner _ _ V o So) as (b & Q & Pb).
          assert (No : o <> i).
          { intros ->. specialize (Mine eq_refl eq_refl). discriminate. }
          exists o, b. split; [exact No|]. split; [reflexivity|]. split; [exact Q|]. intros Sd.
          destruct Pb as [Pb|[(Pb & _)|(_ & Pb & _)]]; [| |congruence].
          -- assert (F : flag_of s k = Running o). { apply (ri_busy _ _ V). exists b. split; [exact Q|]. split; [exact Sd|]. unfold busy. rewrite Pb. reflexivity. }
             apply No, (Own eq_refl _ F).
          -- pose proof (ri_returned _ _ V o b Q Pb) as F. rewrite Sd, (Run eq_refl) in F. discriminate.
      + eapply put_inv; [exact V|exact E|exact (Own eq_refl)| | | | | | | | | |]; try discriminate; try (cbn; tauto).
        * intros j. split; [intros Q; injection Q as <-; auto|intros (-> & _); reflexivity].
        * congruence.
        * rewrite (Run eq_refl). discriminate.
    - pose proof (ri_impl _ _ V i _ E eq_refl) as So.
      destruct (match k with Cpp => ok | Pyth => true end) eqn:Ok; injection H as <- <-.
      + eapply put_inv; [exact V|exact E|exact (Own eq_refl)| | | | | | | | | |]; try discriminate; try (left; repeat split; discriminate); try (cbn; tauto).
        * intros j. split; [discriminate|intros (_ & Q); discriminate].
        * intros _. congruence.
      + assert (Kc : k = Cpp /\ ok = false) by (destruct k; [auto|discriminate]). destruct Kc as [-> Of].
        eapply put_inv; [exact V|exact E|exact (Own eq_refl)| | | | | | | | | |]; try discriminate; try (left; repeat split; discriminate); try (cbn; tauto).
        * intros j. split; [discriminate|intros (_ & Q); discriminate].
        * rewrite (Run eq_refl). discriminate.
        * congruence.
  Qed.

  Lemma start_rinv : rinv [] s0.
  Proof.
    assert (N : forall i a, nth_error (r_actors s0) i = Some a -> a_pc a = RStart).
    { intros i a Q. unfold s0, rstart in Q. cbn [r_actors] in Q. rewrite nth_error_map in Q. destruct (nth_error sides i); [|discriminate]. injection Q as <-. reflexivity. }
    constructor.
    - unfold s0, rstart. cbn [r_actors]. rewrite map_map. apply map_id.
    - intros k i. split; [destruct k; discriminate|]. intros (a & Q & _ & B). unfold busy in B. rewrite (N i a Q) in B. discriminate.
    - intros i a Q P. rewrite (N i a Q) in P. discriminate.
    - reflexivity.
    - intros i a Q P. rewrite (N i a Q) in P. discriminate.
    - discriminate.
    - intros []; discriminate.
    - discriminate.
    - intros i a Q P. rewrite (N i a Q) in P. discriminate.
    - intros _ i a Q P. rewrite (N i a Q) in P. discriminate.
  Qed.

  Lemma exec_rinv ls s : rexec ok s0 ls s -> rinv ls s.
  Proof. induction 1 as [|ls s i l s' R IH H]; [exact start_rinv|exact (step_rinv ls s i l s' IH H)]. Qed.

  Lemma step_left s i l s' : rstep ok s i = Some (l, s') -> S (rtotal (r_actors s')) <= rtotal (r_actors s).
  Proof.
    intros H. unfold rstep in H. destruct (nth_error (r_actors s) i) as [[k pc]|] eqn:E; [|discriminate].
    assert (G : forall pc', left_of (mkA k pc') < left_of (mkA k pc) -> S (rtotal (set_nth i (mkA k pc') (r_actors s))) <= rtotal (r_actors s)).
    { intros pc' L. pose proof (rtotal_set _ i _ (mkA k pc') E). lia. }
    destruct pc; try discriminate;
      repeat match type of H with
             | context [match ?x with _ => _ end] => destruct x eqn:?; try discriminate
             end; injection H as _ <-; cbn [put r_actors]; apply G; cbn; try lia.
  Qed.
  Lemma exec_left ls s : rexec ok s0 ls s -> length ls + rtotal (r_actors s) <= 4 * length sides.
  Proof.
    induction 1 as [|ls s i l s' R IH H].
    - unfold s0, rstart. cbn [r_actors length]. clear. induction sides as [|k l IH]; [cbn; lia|]. cbn [map rtotal fold_right length] in *. fold (rtotal (map (fun k => mkA k RStart) l)). unfold left_of at 1. cbn [a_pc]. lia.
    - rewrite app_length. cbn [length]. pose proof (step_left s i l s' H). lia.
  Qed.

  Lemma ended s : (forall i, rstep ok s i = None) -> forall ls, rinv ls s -> forall i a, nth_error (r_actors s) i = Some a ->
    a_pc a = RReturned \/ a_pc a = RRaised.
  Proof.
    intros St ls V.
    assert (B : forall i a, nth_error (r_actors s) i = Some a -> busy a = false).
    { intros i [k pc] E. specialize (St i). unfold rstep in St. rewrite E in St. unfold busy. cbn.
      destruct pc; try reflexivity; [destruct (r_schema s); discriminate|destruct (r_schema s); discriminate|].
      destruct (match k with Cpp => ok | Pyth => true end); discriminate. }
    intros i [k pc] E. pose proof (B i _ E) as Bi. specialize (St i). unfold rstep in St. rewrite E in St. cbn in *.
    destruct pc; auto; try discriminate. exfalso.
    destruct (flag_of s k) as [|j|] eqn:Fl; try discriminate.
    destruct (proj1 (ri_busy _ _ V k j) Fl) as (a & Q & _ & Bu). rewrite (B j a Q) in Bu. discriminate.
  Qed.
End Runs.

Lemma rexec_trans ok s0 ls s ls' s' : rexec ok s0 ls s -> rexec ok s ls' s' -> rexec ok s0 (ls ++ ls') s'.
Proof.
  intros R. induction 1 as [|ls' t i l t' R' IH H]; [rewrite app_nil_r; exact R|]. rewrite app_assoc. exact (rx_step _ _ _ _ _ _ _ IH H).
Qed.

(** The schema is never registered anew. *)
Lemma step_schema ok s i l s' o : rstep ok s i = Some (l, s') -> r_schema s = Some o -> r_schema s' = Some o.
Proof.
  intros H So. unfold rstep in H. destruct (nth_error (r_actors s) i) as [[k pc]|]; [|discriminate]. rewrite So in H.
  destruct pc; try discriminate;
      repeat match type of H with
             | context [match ?x with _ => _ end] => destruct x eqn:?; try discriminate
             end; injection H as _ <-; reflexivity.
Qed.
Lemma exec_schema ok s ls s' o : rexec ok s ls s' -> r_schema s = Some o -> r_schema s' = Some o.
Proof. induction 1 as [|ls t i l t' R IH H]; [auto|]. intros So. exact (step_schema _ _ _ _ _ _ H (IH So)). Qed.

(** A C++ constructor that comes once the schema is there finds it. *)
Lemma late_cpp ok s ls s' i : rexec ok s ls s' -> r_schema s <> None -> at_pc s i Cpp RStart ->
  at_pc s' i Cpp RStart \/ at_pc s' i Cpp RFind \/ at_pc s' i Cpp RReturned.
Proof.
  intros R So A. induction R as [|ls t j l t' R IH H]; [auto|].
  destruct (r_schema s) as [o|] eqn:Eo; [|congruence]. pose proof (exec_schema _ _ _ _ _ R Eo) as Et.
  unfold rstep in H. destruct (nth_error (r_actors t) j) as [[k pc]|] eqn:E; [|discriminate].
  assert (G : forall f sch ker pc', (j = i -> pc' = RFind \/ pc' = RReturned) -> t' = put t j k f sch ker pc' ->
            at_pc t' i Cpp RStart \/ at_pc t' i Cpp RFind \/ at_pc t' i Cpp RReturned).
  { intros f sch ker pc' P ->. unfold at_pc in *. cbn [put r_actors]. rewrite (nth_put _ j _ _ i E). destruct (Nat.eqb_spec j i) as [->|N].
    - rewrite E in IH. assert (k = Cpp) as -> by (destruct IH as [Q|[Q|Q]]; injection Q as -> _; reflexivity).
      destruct (P eq_refl) as [-> | ->]; auto.
    - exact IH. }
  rewrite Et in H. unfold at_pc in IH.
  destruct pc; try discriminate.
  - destruct (flag_of t k); [|discriminate|]; injection H as _ <-; (eapply G; [|reflexivity]); auto.
    intros ->. rewrite E in IH. left. destruct IH as [Q|[Q|Q]]; injection Q as ->; reflexivity.
  - injection H as _ <-. eapply G; [|reflexivity]. auto.
  - injection H as _ <-. eapply G; [|reflexivity]. intros ->. rewrite E in IH. destruct IH as [Q|[Q|Q]]; discriminate.
  - destruct (match k with Cpp => ok | Pyth => true end); injection H as _ <-; (eapply G; [|reflexivity]); intros ->; rewrite E in IH; destruct IH as [Q|[Q|Q]]; discriminate.
Qed.

(** While C++ owns the schema no import gets through. *)
Lemma import_fails ok sides ls s o a : rexec ok (rstart sides) ls s -> r_schema s = Some o -> nth_error (r_actors s) o = Some a -> a_side a = Cpp ->
  forall i, ~ at_pc s i Pyth RReturned.
Proof.
  intros R So Q Sd i A. pose proof (exec_rinv ok sides ls s R) as V.
  pose proof (ri_returned _ _ _ _ V i _ A eq_refl) as F. cbn in F.
  destruct (ri_pyran _ _ _ _ V F) as (o' & a' & So' & Q' & Sd'). rewrite So in So'. injection So' as <-. rewrite Q in Q'. injection Q' as <-. congruence.
Qed.

(** Actors keep their sides. *)
Lemma exec_side ok sides ls s i a : rexec ok (rstart sides) ls s -> nth_error (r_actors s) i = Some a -> nth_error sides i = Some (a_side a).
Proof. intros R Q. rewrite <- (ri_sides _ _ _ _ (exec_rinv ok sides ls s R)), nth_error_map, Q. reflexivity. Qed.
