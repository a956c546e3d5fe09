(** Extraction directories: progress, the search for a name, destruction. *)
From Coq Require Import DecimalString DecimalFacts DecimalN.
From Verif Require Import Base ExtractTemp SpecExtractTemp ExtractTempProofs.

(** ** Names *)
Lemma to_uint_nonnil n : N.to_uint n <> Decimal.Nil.
Proof.
  intros E. destruct n as [|p]; [discriminate|]. pose proof (DecimalN.Unsigned.of_to (N.pos p)) as O. rewrite E in O. discriminate.
Qed.
Lemma append_inj (a b c : string) : (a ++ b = a ++ c)%string -> b = c.
Proof. induction a as [|x a IH]; cbn; [auto|]. intros H. injection H as H. auto. Qed.
Lemma unique_name_inj n m : unique_name n = unique_name m -> n = m.
Proof.
  unfold unique_name. intros H. apply append_inj in H. apply (f_equal NilZero.uint_of_string) in H.
  rewrite !NilZero.usu in H by apply to_uint_nonnil. injection H as H. exact (DecimalN.Unsigned.to_uint_inj _ _ H).
Qed.

Fixpoint counter_after (c : N) (i : nat) : N := match i with 0 => c | S i => counter_after (next_counter c) i end.
Lemma counter_after_mod i : forall c, (c < 2 ^ 64)%N -> counter_after c i = ((c + N.of_nat i) mod 2 ^ 64)%N.
Proof.
  induction i as [|i IH]; intros c B; cbn [counter_after].
  - rewrite N.add_0_r. symmetry. apply N.mod_small. exact B.
  - rewrite IH by (apply N.mod_lt; discriminate). unfold next_counter. rewrite N.add_mod_idemp_l by discriminate.
    f_equal. lia.
Qed.
Lemma mod_add_inj c i j : (c < 2 ^ 64)%N -> (i < 2 ^ 64)%N -> (j < 2 ^ 64)%N ->
  ((c + i) mod 2 ^ 64 = (c + j) mod 2 ^ 64)%N -> i = j.
Proof.
  intros C I J E. set (M := (2 ^ 64)%N) in *.
  assert (X : forall k, (k < M)%N -> ((c + k) mod M = if (c + k <? M) then c + k else c + k - M)%N).
  { intros k K. destruct (N.ltb_spec (c + k) M) as [L|L]; [apply N.mod_small; exact L|].
    replace (c + k)%N with (c + k - M + 1 * M)%N at 1 by lia. rewrite N.mod_add by (subst M; discriminate). apply N.mod_small. lia. }
  rewrite (X i I), (X j J) in E. destruct (N.ltb_spec (c + i) M), (N.ltb_spec (c + j) M); lia.
Qed.

Lemma nodup_map_in {A B} (f : A -> B) (l : list A) : (forall x y, In x l -> In y l -> f x = f y -> x = y) -> NoDup l -> NoDup (map f l).
Proof.
  intros F N. induction N as [|x l Nx N IH]; cbn; constructor.
  - intros H. apply in_map_iff in H as (y & E & Hy). apply Nx. rewrite <- (F y x (or_intror Hy) (or_introl eq_refl) E). exact Hy.
  - apply IH. intros u v Hu Hv. apply F; right; assumption.
Qed.
Lemma free_name D base c : (c < 2 ^ 64)%N -> (N.of_nat (length D) < 2 ^ 64)%N ->
  exists i, i <= length D /\ ~ In (base ++ [unique_name (counter_after c i)]) D.
Proof.
  intros C L. set (f := fun i => base ++ [unique_name (counter_after c i)]).
  destruct (Exists_dec (fun i => ~ In (f i) D) (seq 0 (S (length D)))) as [E|E].
  { intros i. destruct (in_dec path_eq_dec (f i) D); [right|left]; auto. }
  - apply Exists_exists in E as (i & Hi & N). apply in_seq in Hi. exists i. split; [lia|exact N].
  - exfalso.
    assert (A : incl (map f (seq 0 (S (length D)))) D).
    { intros p Hp. apply in_map_iff in Hp as (i & <- & Hi). destruct (in_dec path_eq_dec (f i) D) as [X|X]; auto.
      exfalso. apply E. apply Exists_exists. exists i. auto. }
    assert (B : NoDup (map f (seq 0 (S (length D))))).
    { apply nodup_map_in.
      - intros i j Hi Hj Q. apply in_seq in Hi. apply in_seq in Hj. unfold f in Q. apply app_inv_head in Q. apply (f_equal (fun l => hd EmptyString l)) in Q. cbn [hd] in Q.
        apply unique_name_inj in Q. rewrite !counter_after_mod in Q by exact C. apply mod_add_inj in Q; lia.
      - apply seq_NoDup. }
    pose proof (NoDup_incl_length B A) as Q. rewrite map_length, seq_length in Q. lia.
Qed.

Section More.
  Variable fallback : path.
  Variable refuses : path -> bool.

  Definition tried (s : xstate) (t : nat) (pkg : string) (x y : saved) (base : path) : xstate :=
    goto (mkX (x_env s) (next_counter (x_counter s)) (x_mutex s) (x_dirs s) (x_live s) (x_pc s)) t (PMake pkg x y base (x_counter s)).
  Lemma two_steps s t ok pkg a b base ls : x_pc s t = PNext pkg a b base ->
    xrun fallback refuses s (LStep t ok :: LStep t ok :: ls) =
    let s1 := tried s t pkg a b base in
    let u := base ++ [unique_name (x_counter s)] in
    if creates refuses (x_dirs s) base (unique_name (x_counter s))
    then xrun fallback refuses (goto (set_dirs s1 (u :: x_dirs s)) t (PPutTmp pkg a b u)) ls
    else xrun fallback refuses (goto s1 t (PNext pkg a b base)) ls.
  Proof.
    intros P. cbn [xrun xstep]. unfold thread_step at 1. rewrite P. fold (tried s t pkg a b base).
    cbv zeta. set (s1 := tried s t pkg a b base). unfold thread_step.
    assert (E : x_pc s1 t = PMake pkg a b base (x_counter s)) by (unfold s1, tried; cbn; now rewrite upd_same).
    rewrite E. change (x_dirs s1) with (x_dirs s). destruct (creates _ _ _ _); reflexivity.
  Qed.
  Lemma search_ends t ok pkg a b base : forall m s,
    x_pc s t = PNext pkg a b base -> In base (x_dirs s) -> refuses base = false ->
    (exists i, i <= m /\ ~ In (base ++ [unique_name (counter_after (x_counter s) i)]) (x_dirs s)) ->
    exists n s' u, n <= 2 * (m + 1) /\ xrun fallback refuses s (repeat (LStep t ok) n) = Some s' /\ in_hand (x_pc s' t) = Some u /\
                   ~ In u (x_dirs s) /\ x_dirs s' = u :: x_dirs s.
  Proof.
    intros m. induction m as [|m IH]; intros s P B R (i & Li & Ni);
      (destruct (in_dec path_eq_dec (base ++ [unique_name (x_counter s)]) (x_dirs s)) as [T|T];
       [|exists 2, (goto (set_dirs (tried s t pkg a b base) ((base ++ [unique_name (x_counter s)]) :: x_dirs s)) t
                     (PPutTmp pkg a b (base ++ [unique_name (x_counter s)]))), (base ++ [unique_name (x_counter s)]);
         split; [lia|]; split;
         [cbn [repeat]; rewrite (two_steps _ _ _ _ _ _ _ _ P); unfold creates;
          rewrite (proj2 (has_dir_spec _ _) B), R; destruct (has_dir (x_dirs s) (base ++ _)) eqn:X;
          [exfalso; apply T; now apply has_dir_spec|reflexivity]
         |split; [cbn; now rewrite upd_same|auto]]]).
    - exfalso. assert (i = 0) by lia. subst i. exact (Ni T).
    - destruct i as [|i]; [now cbn in Ni|].
      destruct (IH (goto (tried s t pkg a b base) t (PNext pkg a b base))) as (n & s' & u & Ln & Rn & Hn & N1 & N2); auto.
      { cbn. now rewrite upd_same. }
      { exists i. split; [lia|exact Ni]. }
      exists (S (S n)), s', u. split; [lia|]. repeat split; auto.
      cbn [repeat]. rewrite (two_steps _ _ _ _ _ _ _ _ P). unfold creates. rewrite (proj2 (has_dir_spec _ _) T).
      cbn [negb]. rewrite andb_false_r. exact Rn.
  Qed.

  (** A thread that has the mutex can go on. *)
  Lemma inside_steps s t ok : ~ outside (x_pc s t) -> exists s', thread_step fallback refuses s t ok = Some s'.
  Proof.
    unfold thread_step. destruct (x_pc s t); cbn; intros N; try (destruct N; exact I); try (eexists; reflexivity).
    - destruct (has_dir _ _); eexists; reflexivity.
    - destruct (creates _ _ _ _); eexists; reflexivity.
    - destruct (existsb _ _); [eexists; reflexivity|]. destruct (negb _); [eexists; reflexivity|]. destruct ok; eexists; reflexivity.
  Qed.

  Lemma at_pc_inside H s c : at_pc fallback H s c -> ~ outside c.
  Proof. destruct c; cbn; tauto. Qed.

  (** Destruction. *)
  Lemma comparable (p q r s : path) : p ++ r = q ++ s -> under p q \/ under q p.
  Proof.
    revert q. induction p as [|x p IH]; intros q E; [left; exists q; reflexivity|].
    destruct q as [|y q]; [right; exists (x :: p); reflexivity|]. cbn in E. injection E as -> E.
    destruct (IH q E) as [(w & ->)|(w & ->)]; [left|right]; exists w; reflexivity.
  Qed.

  Lemma goto_pc s t c k : x_pc (goto s t c) k = if Nat.eqb k t then c else x_pc s k.
  Proof. reflexivity. Qed.
  (** Where a refused directory leads. *)
  Definition stuck (t : nat) (base : path) (s : xstate) : Prop :=
    x_mutex s = Some t /\ searching base (x_pc s t) /\ (forall k, k <> t -> match x_pc s k with POut | PLock _ => True | _ => False end) /\ x_live s = [].
  Lemma stuck_step t base s l s' : refuses base = true -> stuck t base s -> xstep fallback refuses s l = Some s' -> stuck t base s'.
  Proof.
    intros R (M & P & O & L) E. destruct l as [k p|k ok|k|v p|p x|p]; cbn [xstep] in E.
    - destruct (Nat.eq_dec k t) as [->|D].
      + exfalso. destruct (x_pc s t); cbn in P; try contradiction; discriminate.
      + specialize (O k D) as Ok'. assert (s' = goto s k (PLock p)) as -> by (destruct (x_pc s k); try contradiction; congruence).
        split; [exact M|]. split; [rewrite goto_pc; apply not_eq_sym in D; apply Nat.eqb_neq in D; rewrite D; exact P|]. split; [|exact L].
        intros j Dj. rewrite goto_pc. destruct (j =? k); [exact I|exact (O j Dj)].
    - destruct (Nat.eq_dec k t) as [->|D].
      + unfold thread_step in E. destruct (x_pc s t) eqn:Q; cbn in P; try contradiction; subst.
        * injection E as <-. split; [exact M|]. split; [rewrite goto_pc, Nat.eqb_refl; reflexivity|]. split; [|exact L].
          intros j Dj. rewrite goto_pc. apply Nat.eqb_neq in Dj as Dj'. rewrite Dj'. exact (O j Dj).
        * unfold creates in E. rewrite R in E. rewrite andb_false_r in E. injection E as <-. split; [exact M|]. split; [rewrite goto_pc, Nat.eqb_refl; reflexivity|]. split; [|exact L].
          intros j Dj. rewrite goto_pc. apply Nat.eqb_neq in Dj as Dj'. rewrite Dj'. exact (O j Dj).
      + exfalso. specialize (O k D). unfold thread_step in E. destruct (x_pc s k); try contradiction; try discriminate. rewrite M in E. discriminate.
    - rewrite L in E. destruct k; discriminate.
    - injection E as <-. exact (conj M (conj P (conj O L))).
    - destruct (creates _ _ _ _); [|discriminate]. injection E as <-. exact (conj M (conj P (conj O L))).
    - injection E as <-. exact (conj M (conj P (conj O L))).
  Qed.
  Lemma stuck_run t base : refuses base = true -> forall ls s s', stuck t base s -> xrun fallback refuses s ls = Some s' -> stuck t base s'.
  Proof.
    intros R. induction ls as [|l ls IH]; intros s s' S E; cbn in E; [congruence|].
    destruct (xstep _ _ s l) as [s1|] eqn:Q; [|discriminate]. exact (IH _ _ (stuck_step _ _ _ _ _ R S Q) E).
  Qed.

  (** The package. *)
  Definition asked (c : pc) (p : string) : Prop :=
    match c with
    | POut => True
    | PLock q | PSaveTmp q | PSaveTemp q _ | PBase q _ _ | PNext q _ _ _ | PMake q _ _ _ _ | PPutTmp q _ _ _ | PPutTemp q _ _ _
    | PEnter q _ _ _ | PExtract q _ _ _ => q = p
    | PRestTmp _ _ r | PRestTemp _ r | PUnlock r | PRet r => forall l, r = Ok l -> ld_pkg l = p
    end.
  Lemma asked_step s t ok s' p : thread_step fallback refuses s t ok = Some s' -> asked (x_pc s t) p -> asked (x_pc s' t) p.
  Proof.
    unfold thread_step. intros E A.
    destruct (x_pc s t) eqn:P; try discriminate; cbn in A;
      repeat match type of E with
             | context [match x_mutex s with _ => _ end] => destruct (x_mutex s)
             | context [if ?c then _ else _] => destruct c
             end; try discriminate; injection E as <-; rewrite goto_pc, Nat.eqb_refl; cbn; auto; try discriminate.
    intros l Hl. injection Hl as <-. exact A.
  Qed.
  Lemma thread_step_other s t ok s' k : thread_step fallback refuses s t ok = Some s' -> k <> t -> x_pc s' k = x_pc s k.
  Proof.
    unfold thread_step. intros E D. apply Nat.eqb_neq in D.
    destruct (x_pc s t) eqn:P; try discriminate;
      repeat match type of E with
             | context [match x_mutex s with _ => _ end] => destruct (x_mutex s)
             | context [if ?c then _ else _] => destruct c
             end; try discriminate; injection E as <-; rewrite goto_pc, D; reflexivity.
  Qed.
  Lemma asked_run s ls s' t : polite_run fallback refuses s ls s' -> (forall t, x_pc s t = POut) ->
    match last_call t ls with Some p => asked (x_pc s' t) p | None => x_pc s' t = POut end.
  Proof.
    intros R O. induction R as [s|s ls s1 l s2 R IH P E]; [exact (O t)|].
    specialize (IH O). unfold last_call in *. rewrite fold_left_app. cbn [fold_left].
    destruct l as [k p|k ok|k|v p|p x|p]; cbn [xstep] in E.
    - assert (s2 = goto s1 k (PLock p)) as -> by (destruct (x_pc s1 k); congruence).
      rewrite goto_pc. rewrite (Nat.eqb_sym k t). destruct (t =? k); [reflexivity|exact IH].
    - destruct (Nat.eq_dec t k) as [->|D].
      + destruct (fold_left _ ls None) as [p|]; [exact (asked_step _ _ _ _ _ E IH)|]. unfold thread_step in E. rewrite IH in E. discriminate.
      + rewrite (thread_step_other _ _ _ _ _ E D). exact IH.
    - destruct (nth_error _ k); [|discriminate]. injection E as <-. exact IH.
    - injection E as <-. exact IH.
    - destruct (creates _ _ _ _); [|discriminate]. injection E as <-. exact IH.
    - injection E as <-. exact IH.
  Qed.

  (** Loaders appear at the extraction only. *)
  Lemma new_loader H s t ok s' : inv fallback H s -> thread_step fallback refuses s t ok = Some s' ->
    x_live s' = x_live s \/
    exists l x, x_live s' = x_live s ++ [l] /\ ld_dir l = temp_path fallback H ++ [x] /\ answer_of (x_pc s' t) = Some (Ok l).
  Proof.
    intros I E. pose proof E as E0. unfold thread_step in E.
    destruct (x_pc s t) eqn:P; try discriminate;
      try (repeat match type of E with
             | context [match x_mutex s with _ => _ end] => destruct (x_mutex s)
             | context [if ?c then _ else _] => destruct c
             end; try discriminate; injection E as <-; left; reflexivity).
    pose proof (holder _ _ _ _ _ I P (fun x => x)) as M. pose proof (proj1 (iv_held _ _ _ I t M)) as A. rewrite P in A; cbn in A.
    destruct A as (_ & _ & _ & (_ & (x & X) & _)).
    destruct (existsb _ _); [injection E as <-; left; reflexivity|]. destruct (negb _); [injection E as <-; left; reflexivity|].
    destruct ok; injection E as <-; [|left; reflexivity]. right. exists (mkL d pkg), x. cbn. rewrite upd_same. auto.
  Qed.

  Lemma ours_run s0 ls0 : forall ls s s', Forall ours ls -> polite_run fallback refuses s0 ls0 s -> xrun fallback refuses s ls = Some s' ->
    polite_run fallback refuses s0 (ls0 ++ ls) s'.
  Proof.
    intros ls. revert ls0. induction ls as [|l ls IH]; intros ls0 s s' F R E; cbn in E.
    - rewrite app_nil_r. congruence.
    - destruct (xstep _ _ s l) as [s1|] eqn:Q; [|discriminate]. inversion F as [|? ? F1 F2]; subst.
      replace (ls0 ++ l :: ls) with ((ls0 ++ [l]) ++ ls) by (rewrite <- app_assoc; reflexivity).
      apply (IH _ s1); auto. econstructor; eauto. destruct l; cbn in F1; try contradiction; exact I.
  Qed.
End More.
