(** The column layout of the derivative carrier (Jac.v): bands partition the columns. *)
From Verif Require Import Base BaseProofs Jac SpecLayout.

Lemma lookup_app {T} k (a b : smap T) : lookup k (a ++ b) = match lookup k a with Some t => Some t | None => lookup k b end.
Proof. induction a as [|[j t] a IH]; [reflexivity|]. cbn. destruct (String.eqb k j); [reflexivity|exact IH]. Qed.
Lemma lookup_app_new {T} k j (t : T) (a : smap T) : lookup j a = None ->
  lookup k (a ++ [(j, t)]) = if String.eqb k j then Some t else lookup k a.
Proof.
  intros N. rewrite lookup_app. cbn. destruct (String.eqb_spec k j) as [->|E]; [rewrite N; reflexivity|]. destruct (lookup k a); reflexivity.
Qed.

Lemma nodup_snoc {T} (l : list T) x : NoDup l -> ~ In x l -> NoDup (l ++ [x]).
Proof.
  intros N H. induction N as [|y l Ny N IH]; cbn; [repeat constructor; auto|]. constructor.
  - intros I. apply in_app_or in I as [I|[<-|[]]]; [contradiction|]. apply H. left. reflexivity.
  - apply IH. intros I. apply H. right. exact I.
Qed.

(** A layout so far: names once, bands one after the other up to [total]. *)
Definition good (size : string -> result nat) (b : bands) (total : nat) : Prop :=
  NoDup (map fst b) /\ (forall i off s, lookup i b = Some (off, s) -> size i = Ok s /\ off + s <= total) /\
  (forall i j oi si oj sj, lookup i b = Some (oi, si) -> lookup j b = Some (oj, sj) -> i <> j -> oi + si <= oj \/ oj + sj <= oi) /\
  (forall m, m < total -> exists i off s, lookup i b = Some (off, s) /\ off <= m < off + s).

Lemma good_nil size : good size [] 0.
Proof. split; [constructor|]. split; [discriminate|]. split; [discriminate|]. intros m H. lia. Qed.
Lemma good_add size b total i s : good size b total -> lookup i b = None -> size i = Ok s -> good size (b ++ [(i, (total, s))]) (total + s).
Proof.
  intros (N & B & J & C) L S. split; [|split; [|split]].
  - rewrite map_app. cbn. apply nodup_snoc; [exact N|]. apply lookup_none in L. exact L.
  - intros j off z. rewrite lookup_app_new by exact L. destruct (String.eqb_spec j i) as [->|E].
    + intros H. injection H as <- <-. split; [exact S|lia].
    + intros H. destruct (B j off z H). split; [assumption|lia].
  - intros j k oj sj ok sk. rewrite !lookup_app_new by exact L. destruct (String.eqb_spec j i) as [->|Ej]; destruct (String.eqb_spec k i) as [->|Ek]; intros Hj Hk Nk; [contradiction| | |].
    + injection Hj as <- <-. destruct (B k ok sk Hk). right. lia.
    + injection Hk as <- <-. destruct (B j oj sj Hj). left. lia.
    + exact (J j k oj sj ok sk Hj Hk Nk).
  - intros m H. destruct (Nat.lt_ge_cases m total) as [Q|Q].
    + destruct (C m Q) as [j [off [z [Lj R]]]]. exists j, off, z. rewrite lookup_app_new by exact L.
      destruct (String.eqb_spec j i) as [->|E]; [congruence|]. split; assumption.
    + exists i, total, s. rewrite lookup_app_new, String.eqb_refl by exact L. split; [reflexivity|lia].
Qed.

Lemma add_bands_good size ins : forall b total b' total', good size b total -> add_bands size ins b total = Ok (b', total') ->
  good size b' total' /\ (forall i, lookup i b' <> None <-> lookup i b <> None \/ In i ins) /\
  (forall i off s, lookup i b = Some (off, s) -> lookup i b' = Some (off, s)) /\
  (forall i off s, lookup i b = None -> lookup i b' = Some (off, s) -> total <= off).
Proof.
  induction ins as [|i ins IH]; intros b total b' total' G H; cbn [add_bands] in H.
  - injection H as <- <-. split; [exact G|]. split; [cbn; tauto|]. split; [auto|]. intros i off s L1 L2. congruence.
  - destruct (size i) as [s|] eqn:S; [|discriminate]. cbn [bind] in H. destruct (lookup i b) as [band|] eqn:L.
    + destruct (IH _ _ _ _ G H) as (G' & K & P & Q). split; [exact G'|]. split; [|split; assumption].
      intros j. rewrite K. cbn. split; [tauto|]. intros [X|[<-|X]]; [auto|left; congruence|auto].
    + destruct (IH _ _ _ _ (good_add _ _ _ _ _ G L S) H) as (G' & K & P & Q). split; [exact G'|]. split; [|split].
      * intros j. rewrite K, lookup_app_new by exact L. cbn. destruct (String.eqb_spec j i) as [->|E].
        -- split; [auto|]. intros _. left. discriminate.
        -- split; [tauto|]. intros [X|[X|X]]; [auto|congruence|auto].
      * intros j off z Lj. apply P. rewrite lookup_app_new by exact L. destruct (String.eqb_spec j i) as [->|E]; [congruence|exact Lj].
      * intros j off z Lj Lj'. destruct (String.eqb_spec j i) as [->|E].
        -- rewrite (P i total s) in Lj' by (rewrite lookup_app_new, String.eqb_refl by exact L; reflexivity). injection Lj' as <- <-. lia.
        -- assert (total + s <= off); [|lia]. apply (Q j off z); [|exact Lj']. rewrite lookup_app_new by exact L.
           destruct (String.eqb_spec j i); [contradiction|exact Lj].
Qed.

Lemma lookup_fst {T} i (b : smap T) : lookup i b <> None <-> In i (map fst b).
Proof. split; [|intros I L; apply lookup_none in L; contradiction]. intros H. destruct (in_dec String.string_dec i (map fst b)) as [I|I]; [exact I|].
  exfalso. apply H. apply lookup_none. exact I. Qed.

Theorem layout_partition size pairs b M : layout size pairs = Ok (b, M) ->
  (forall m, m < M -> exists! ic, column b m (fst ic) (snd ic)) /\
  (forall m i c, column b m i c -> m < M) /\
  (forall i, (exists band, lookup i b = Some band) <-> exists o, In (o, i) pairs) /\
  (forall i off s, lookup i b = Some (off, s) -> size i = Ok s).
Proof.
  intros H. destruct (add_bands_good size _ _ _ _ _ (good_nil size) H) as ((N & B & J & C) & K & _ & _). split; [|split; [|split]].
  - intros m Hm. destruct (C m Hm) as [i [off [s [L R]]]]. exists (i, m - off). split.
    + exists off, s. cbn. repeat split; [exact L|lia|lia].
    + intros [j c] (oj & sj & Lj & Hc & E). cbn [fst snd] in *. destruct (String.string_dec i j) as [->|Nj].
      * assert (oj = off /\ sj = s) as [-> ->] by (split; congruence). f_equal. lia.
      * destruct (J i j off s oj sj L Lj Nj); lia.
  - intros m i c (off & s & L & Hc & ->). destruct (B i off s L). lia.
  - intros i. transitivity (lookup i b <> None).
    + split; [intros [x ->]; discriminate|]. destruct (lookup i b) as [x|]; [eauto|contradiction].
    + rewrite K. cbn. split.
      * intros [X|X]; [contradiction|]. apply in_map_iff in X as [[o j] [E I]]. cbn in E. subst j. eauto.
      * intros [o I]. right. apply in_map_iff. exists (o, i). split; [reflexivity|exact I].
  - intros i off s L. apply (B i off s L).
Qed.

(** Each band starts where the sizes of the names that came before end. *)
Definition size_or0 (size : string -> result nat) (i : string) : nat := match size i with Ok s => s | Err _ => 0 end.
Fixpoint laid (size : string -> result nat) (l : list string) (at_ : nat) : bands :=
  match l with
  | [] => []
  | i :: r => (i, (at_, size_or0 size i)) :: laid size r (at_ + size_or0 size i)
  end.
Definition remaining (b : bands) (l : list string) : list string := filter (fun y => match lookup y b with Some _ => false | None => true end) (firsts l).
Lemma filter_filter {T} (f g : T -> bool) l : filter f (filter g l) = filter (fun x => g x && f x) l.
Proof. induction l as [|x l IH]; [reflexivity|]. cbn. destruct (g x); cbn; [destruct (f x); rewrite IH; reflexivity|exact IH]. Qed.

Lemma add_bands_laid size ins : forall b total b' total', add_bands size ins b total = Ok (b', total') ->
  b' = b ++ laid size (remaining b ins) total /\ Forall (fun i => exists s, size i = Ok s) ins.
Proof.
  induction ins as [|i ins IH]; intros b total b' total' H; cbn [add_bands] in H.
  - injection H as <- <-. cbn. rewrite app_nil_r. split; [reflexivity|constructor].
  - destruct (size i) as [s|] eqn:S; [|discriminate]. cbn [bind] in H. unfold remaining. cbn [firsts filter].
    destruct (lookup i b) as [band|] eqn:L.
    + destruct (IH _ _ _ _ H) as [E F]. split; [|constructor; [eauto|exact F]]. rewrite E. unfold remaining. do 2 f_equal.
      rewrite filter_filter. apply filter_ext. intros y. destruct (String.eqb_spec y i) as [->|Ny]; cbn; [rewrite L; reflexivity|reflexivity].
    + destruct (IH _ _ _ _ H) as [E F]. split; [|constructor; [eauto|exact F]]. cbn [laid]. unfold size_or0 at 1 2. rewrite S, E, <- app_assoc. cbn [app].
      f_equal. f_equal. unfold remaining. f_equal. rewrite filter_filter. apply filter_ext. intros y. rewrite lookup_app_new by exact L.
      destruct (String.eqb_spec y i) as [->|Ny]; reflexivity.
Qed.
Lemma laid_lookup size l : forall at_ pre i post, NoDup l -> l = pre ++ i :: post ->
  lookup i (laid size l at_) = Some (at_ + fold_right Nat.add 0 (map (size_or0 size) pre), size_or0 size i).
Proof.
  induction l as [|x l IH]; intros at_ pre i post N E; [destruct pre; discriminate|]. inversion N as [|? ? Nx N']; subst.
  destruct pre as [|y pre]; injection E as -> ->; cbn.
  - rewrite String.eqb_refl. rewrite Nat.add_0_r. reflexivity.
  - replace (String.eqb i y) with false.
    + rewrite (IH _ pre i post N' eq_refl). f_equal. f_equal. lia.
    + symmetry. apply String.eqb_neq. intros ->. apply Nx, in_or_app. right. left. reflexivity.
Qed.
Lemma firsts_in l x : In x (firsts l) <-> In x l.
Proof.
  induction l as [|y l IH]; [reflexivity|]. cbn. rewrite filter_In, IH. split.
  - intros [E|[I _]]; auto.
  - intros [E|I]; [auto|]. destruct (String.eqb_spec x y) as [->|N]; auto.
Qed.
Lemma firsts_nodup l : NoDup (firsts l).
Proof.
  induction l as [|y l IH]; [constructor|]. cbn. constructor; [|apply NoDup_filter; exact IH].
  rewrite filter_In, String.eqb_refl. intros [_ E]. discriminate.
Qed.
Theorem layout_order size pairs b M : layout size pairs = Ok (b, M) ->
  map fst b = firsts (map snd pairs) /\
  forall pre i post, firsts (map snd pairs) = pre ++ i :: post ->
    exists sizes s, Forall2 (fun j n => size j = Ok n) pre sizes /\ size i = Ok s /\ lookup i b = Some (fold_right Nat.add 0 sizes, s).
Proof.
  intros H. destruct (add_bands_laid _ _ _ _ _ _ H) as [E F]. cbn [app] in E.
  assert (R : remaining [] (map snd pairs) = firsts (map snd pairs)).
  { unfold remaining. cbn. generalize (firsts (map snd pairs)). intros l. induction l as [|x l IH]; [reflexivity|]. cbn. rewrite IH. reflexivity. }
  rewrite R in E. split.
  - rewrite E. generalize 0. generalize (firsts (map snd pairs)). intros l. induction l as [|x l IH]; intros n; [reflexivity|]. cbn. rewrite IH. reflexivity.
  - intros pre i post P. assert (G : forall j, In j (firsts (map snd pairs)) -> size j = Ok (size_or0 size j)).
    { intros j I. rewrite firsts_in in I. rewrite Forall_forall in F. destruct (F j I) as [s Es]. unfold size_or0. rewrite Es. reflexivity. }
    exists (map (size_or0 size) pre), (size_or0 size i). split; [|split].
    + assert (Gp : forall j, In j pre -> size j = Ok (size_or0 size j)) by (intros j I; apply G; rewrite P; apply in_or_app; left; exact I).
      clear - Gp. induction pre as [|j pre IH]; [constructor|]. cbn. constructor; [apply Gp; left; reflexivity|apply IH; intros k I; apply Gp; right; exact I].
    + apply G. rewrite P. apply in_or_app. right. left. reflexivity.
    + rewrite E. rewrite (laid_lookup _ _ 0 pre i post (firsts_nodup _) P). reflexivity.
Qed.
Theorem layout_fails size pairs : (exists e, layout size pairs = Err e) <-> exists o i e, In (o, i) pairs /\ size i = Err e.
Proof.
  unfold layout. assert (G : forall ins b total, (exists e, add_bands size ins b total = Err e) <-> exists i e, In i ins /\ size i = Err e).
  { induction ins as [|i ins IH]; intros b total; cbn [add_bands].
    - split; [intros [e H]; discriminate|intros (i & e & [] & _)].
    - destruct (size i) as [s|e] eqn:S; cbn [bind].
      + transitivity (exists e, add_bands size ins (match lookup i b with Some _ => b | None => b ++ [(i, (total, s))] end) (match lookup i b with Some _ => total | None => total + s end) = Err e).
        * destruct (lookup i b); reflexivity.
        * rewrite IH. split; [intros (j & e & I & E); exists j, e; split; [right; exact I|exact E]|].
          intros (j & e & [<-|I] & E); [congruence|]. exists j, e. split; assumption.
      + split; [|eauto]. intros _. exists i, e. split; [left; reflexivity|exact S]. }
  rewrite G. split.
  - intros (i & e & I & E). apply in_map_iff in I as [[o j] [Ej I]]. cbn in Ej. subst j. eauto.
  - intros (o & i & e & I & E). exists i, e. split; [|exact E]. apply in_map_iff. exists (o, i). split; [reflexivity|exact I].
Qed.
