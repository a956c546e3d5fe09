(** Proofs about boundary renames. *)
From Verif Require Import Base BaseProofs SpecMap SmapProofs Except Rename SpecRename.
From Coq Require Import Sorted.

Lemma boundary_translate tr k : boundary tr k = translate tr k.
Proof.
  unfold boundary, translate. induction tr as [|[a e] tr IH]; cbn; [reflexivity|].
  destruct (String.eqb k a); [reflexivity|exact IH].
Qed.

(** Folding [emplace] along an injective key map. *)
Section Fold.
  Context {A B : Type} (f : string -> string) (h : A -> B).
  Let step (out : smap B) (kv : string * A) := emplace (f (fst kv)) (h (snd kv)) out.

  Lemma fold_sorted m acc : sorted acc -> sorted (fold_left step m acc).
  Proof.
    revert acc. induction m as [|[k v] m IH]; intros acc S; [exact S|]. cbn. apply IH.
    apply sorted_emplace. exact S.
  Qed.

  Lemma length_emplace_fresh {T} k (v : T) m :
    ~ In k (keys m) -> length (emplace k v m) = S (length m).
  Proof.
    induction m as [|[k' v'] m IH]; cbn; intros N; [reflexivity|].
    destruct (String.eqb_spec k k') as [->|K]; [exfalso; tauto|].
    destruct (key_lt k k'); cbn; [reflexivity|]. rewrite IH; [reflexivity|]. tauto.
  Qed.

  Lemma fold_inj m acc :
    sorted acc -> NoDup (keys m) ->
    (forall a b, In a (keys m) -> In b (keys m) -> f a = f b -> a = b) ->
    (forall a, In a (keys m) -> ~ In (f a) (keys acc)) ->
    length (fold_left step m acc) = length acc + length m /\
    (forall k v, lookup k m = Some v -> lookup (f k) (fold_left step m acc) = Some (h v)) /\
    (forall e w, lookup e (fold_left step m acc) = Some w ->
       lookup e acc = Some w \/ exists k v, f k = e /\ lookup k m = Some v /\ w = h v) /\
    (forall e w, lookup e acc = Some w -> lookup e (fold_left step m acc) = Some w).
  Proof.
    revert acc. induction m as [|[k v] m IH]; intros acc S N J F; cbn [fold_left].
    - cbn. split; [lia|]. split; [discriminate|]. split; [auto|auto].
    - assert (Fk : ~ In (f k) (keys acc)) by (apply F; left; reflexivity).
      inversion N as [|? ? N1 N2]; subst.
      destruct (IH (step acc (k, v))) as (L & H1 & H2 & H3).
      + apply sorted_emplace. exact S.
      + exact N2.
      + intros a b Ia Ib. apply J; right; assumption.
      + intros a Ia. unfold step. cbn [fst snd]. rewrite keys_emplace_in. intros [E|E].
        * apply J in E; [|right; exact Ia|left; reflexivity]. subst a. contradiction.
        * exact (F a (or_intror Ia) E).
      + assert (Lk : lookup (f k) (step acc (k, v)) = Some (h v)).
        { unfold step. cbn [fst snd]. rewrite lookup_emplace_same by exact S.
          apply lookup_none in Fk. rewrite Fk. reflexivity. }
        split; [|split; [|split]].
        * rewrite L. unfold step. cbn [fst snd]. rewrite length_emplace_fresh by exact Fk.
          cbn. lia.
        * intros a w. cbn [lookup]. destruct (String.eqb_spec a k) as [->|K].
          -- intros E. injection E as <-. apply H3. exact Lk.
          -- apply H1.
        * intros e w E. apply H2 in E as [E|(a & u & Ea & La & Ew)].
          -- destruct (String.eqb_spec e (f k)) as [->|K].
             ++ rewrite Lk in E. injection E as <-. right. exists k, v. cbn.
                rewrite String.eqb_refl. auto.
             ++ left. unfold step in E. cbn [fst snd] in E.
                rewrite lookup_emplace_other in E by exact K. exact E.
          -- right. exists a, u. split; [exact Ea|]. split; [|exact Ew]. cbn.
             destruct (String.eqb_spec a k) as [->|K]; [|exact La].
             apply lookup_key_some in La. contradiction.
        * intros e w E. apply H3. unfold step. cbn [fst snd].
          rewrite lookup_emplace_other; [exact E|]. intros ->. apply Fk.
          apply lookup_key_some in E. exact E.
  Qed.
End Fold.

(** Looking up through a table built by repeated assignment. *)
Lemma fold_set_lookup {A} (f : A -> string) (g : A -> string) l acc k :
  (forall a b, In a l -> In b l -> f a = f b -> g a = g b) ->
  lookup k (fold_left (fun t x => set_ (f x) (g x) t) l acc)
  = match find (fun x => String.eqb k (f x)) l with
    | Some x => Some (g x)
    | None => lookup k acc
    end.
Proof.
  revert acc. induction l as [|x l IH]; intros acc J; [reflexivity|]. cbn.
  rewrite IH by (intros a b Ia Ib; apply J; right; assumption).
  destruct (String.eqb_spec k (f x)) as [->|N].
  - rewrite lookup_set_same.
    destruct (find (fun y => String.eqb (f x) (f y)) l) as [y|] eqn:E; [|reflexivity].
    apply find_some in E as [I E]. apply String.eqb_eq in E. f_equal.
    apply J; [right; exact I|left; reflexivity|congruence].
  - rewrite lookup_set_other by exact N. reflexivity.
Qed.

Lemma fold_pair {A} (f g : A -> string) (l : list A) a b :
  fold_left (fun t x => (set_ (f x) (g x) (fst t), set_ (g x) (f x) (snd t))) l (a, b)
  = (fold_left (fun t x => set_ (f x) (g x) t) l a,
     fold_left (fun t x => set_ (g x) (f x) t) l b).
Proof. revert a b. induction l as [|x l IH]; intros a b; [reflexivity|]. cbn. apply IH. Qed.

Section Tables.
  Variable al : smap string.
  Hypothesis ND : NoDup (keys al).

  Lemma find_lookup {T} k (m : smap T) :
    find (fun x => String.eqb k (fst x)) m = match lookup k m with Some v => Some (k, v) | None => None end.
  Proof.
    induction m as [|[a v] m IH]; cbn; [reflexivity|].
    destruct (String.eqb_spec k a) as [->|N]; [reflexivity|exact IH].
  Qed.

  Lemma o2e_translate k :
    translate (fold_left (fun t kv => set_ (fst kv) (snd kv) t) al []) k = boundary al k.
  Proof.
    rewrite boundary_translate. unfold translate. rewrite fold_set_lookup.
    - rewrite find_lookup. destruct (lookup k al); reflexivity.
    - intros [a x] [b y] Ia Ib E. cbn in E |- *. subst b.
      apply (lookup_nodup _ _ _ ND) in Ia. apply (lookup_nodup _ _ _ ND) in Ib. congruence.
  Qed.

  (** The reverse table undoes the forward one on clash-free names. *)
  Lemma e2o_boundary names k :
    clash_free al names -> In k names ->
    translate (fold_left (fun t kv => set_ (snd kv) (fst kv) t) al []) (boundary al k) = k.
  Proof.
    intros C I. unfold translate. rewrite fold_set_lookup.
    - destruct (find _ al) as [[a e]|] eqn:E; cbn.
      + apply find_some in E as [Ia Ee]. cbn in Ee. apply String.eqb_eq in Ee.
        apply C; [apply in_or_app; right; apply (in_map fst) in Ia; exact Ia|
                  apply in_or_app; left; exact I|].
        rewrite (boundary_translate al a). unfold translate.
        rewrite (lookup_nodup _ _ _ ND Ia). congruence.
      + rewrite (boundary_translate al k) in E |- *. unfold translate in E |- *.
        destruct (lookup k al) as [e|] eqn:L; [|reflexivity].
        apply lookup_in in L. pose proof (find_none _ _ E _ L) as F. cbn in F.
        rewrite String.eqb_refl in F. discriminate.
    - intros [a x] [b y] Ia Ib E. cbn in E |- *. subst y.
      apply C; [apply in_or_app; right; apply (in_map fst) in Ia; exact Ia|
                apply in_or_app; right; apply (in_map fst) in Ib; exact Ib|].
      rewrite !boundary_translate. unfold translate.
      rewrite (lookup_nodup _ _ _ ND Ia), (lookup_nodup _ _ _ ND Ib). reflexivity.
  Qed.
End Tables.

Lemma fst_load al :
  fst (load_pair_maps al) = fold_left (fun t kv => set_ (fst kv) (snd kv) t) al [].
Proof. unfold load_pair_maps. rewrite fold_pair. reflexivity. Qed.
Lemma snd_load al :
  snd (load_pair_maps al) = fold_left (fun t kv => set_ (snd kv) (fst kv) t) al [].
Proof. unfold load_pair_maps. rewrite fold_pair. reflexivity. Qed.

Lemma rekey_renamed {T} (m : smap T) tr f names :
  NoDup (keys m) -> keys_in names m ->
  (forall k, In k names -> translate tr k = f k) ->
  (forall a b, In a names -> In b names -> f a = f b -> a = b) ->
  renamed f m (rekey m tr).
Proof.
  intros N K E J.
  destruct (fold_inj (translate tr) (fun v : T => v) m []) as (L & H1 & H2 & _).
  - apply sorted_nil.
  - exact N.
  - intros a b Ia Ib. apply K in Ia, Ib. rewrite (E a Ia), (E b Ib). apply J; assumption.
  - intros a _ [].
  - split; [|split; [|split]].
    + apply (fold_sorted (translate tr) (fun v : T => v)). apply sorted_nil.
    + intros k v Lk. rewrite <- (E k) by (apply K; eapply lookup_key_some; exact Lk).
      apply H1. exact Lk.
    + intros e v Le. apply H2 in Le as [Le|(k & w & Ek & Lk & Ew)]; [discriminate|].
      exists k. rewrite <- (E k) by (apply K; eapply lookup_key_some; exact Lk). subst w. auto.
    + exact L.
Qed.

(** Undoing a renaming gives the original map. *)
Lemma rekey_back {T} (m m' : smap T) tr f :
  sorted m -> renamed f m m' ->
  (forall k, In k (keys m) -> translate tr (f k) = k) ->
  rekey m' tr = m.
Proof.
  intros S (S' & H1 & H2 & L) B.
  assert (R : renamed (translate tr) m' (rekey m' tr)).
  { apply (rekey_renamed m' tr (translate tr) (keys m')).
    - apply sorted_nodup. exact S'.
    - intros k I. exact I.
    - reflexivity.
    - intros a b Ia Ib E. apply lookup_some_key in Ia as [x Ia]. apply lookup_some_key in Ib as [y Ib].
      apply H2 in Ia as (i & <- & Li). apply H2 in Ib as (j & <- & Lj).
      rewrite (B i), (B j) in E by (eapply lookup_key_some; eassumption). congruence. }
  destruct R as (SR & R1 & R2 & _). apply sorted_ext; [exact SR|exact S|].
  intros k. destruct (lookup k m) as [v|] eqn:E.
  - rewrite <- (B k) by (eapply lookup_key_some; exact E). apply R1. apply H1. exact E.
  - destruct (lookup k (rekey m' tr)) as [v|] eqn:F; [|reflexivity].
    apply R2 in F as (e & Ee & Le). apply H2 in Le as (j & Ej & Lj). subst e.
    rewrite (B j) in Ee by (eapply lookup_key_some; exact Lj). congruence.
Qed.

Lemma rekey_nested_renamed {T} (j : smap (smap T)) tro tri f g namesO namesI :
  NoDup (keys j) -> keys_in namesO j ->
  (forall k, In k namesO -> translate tro k = f k) ->
  (forall a b, In a namesO -> In b namesO -> f a = f b -> a = b) ->
  (forall k r, In (k, r) j -> NoDup (keys r) /\ keys_in namesI r) ->
  (forall k, In k namesI -> translate tri k = g k) ->
  (forall a b, In a namesI -> In b namesI -> g a = g b -> a = b) ->
  renamed2 f g j (rekey_nested j tro tri).
Proof.
  intros N K E J RO EI JI.
  destruct (fold_inj (translate tro) (fun r : smap T => rekey r tri) j []) as (L & H1 & H2 & _).
  - apply sorted_nil.
  - exact N.
  - intros a b Ia Ib. apply K in Ia, Ib. rewrite (E a Ia), (E b Ib). apply J; assumption.
  - intros a _ [].
  - split; [|split; [|split]].
    + apply (fold_sorted (translate tro) (fun r : smap T => rekey r tri)). apply sorted_nil.
    + intros k r Lk. exists (rekey r tri).
      rewrite <- (E k) by (apply K; eapply lookup_key_some; exact Lk). split; [apply H1; exact Lk|].
      destruct (RO k r (lookup_in _ _ _ Lk)). apply (rekey_renamed r tri g namesI); assumption.
    + intros e r' Le. apply H2 in Le as [Le|(k & r & Ek & Lk & Ew)]; [discriminate|].
      exists k, r. rewrite <- (E k) by (apply K; eapply lookup_key_some; exact Lk).
      split; [exact Ek|]. split; [exact Lk|]. subst r'.
      destruct (RO k r (lookup_in _ _ _ Lk)). apply (rekey_renamed r tri g namesI); assumption.
    + exact L.
Qed.

(** ** The public operations *)
Section Ops.
  Context {T : Type}.
  Notation vmap := (smap T).
  Variable a : aliases.
  Hypothesis Sin : NoDup (keys (al_in a)).
  Hypothesis Sout : NoDup (keys (al_out a)).
  Hypothesis Spar : NoDup (keys (al_param a)).
  Let t := load_tables a.

  Lemma fold_set_nil {A} (f g : A -> string) l acc :
    fold_left (fun t x => set_ (f x) (g x) t) l acc = [] -> l = [].
  Proof.
    destruct l as [|x l]; [reflexivity|]. cbn. intros H. exfalso.
    assert (G : forall l (acc : smap string), acc <> [] -> fold_left (fun t x => set_ (f x) (g x) t) l acc <> []).
    { clear. induction l as [|y l IH]; intros acc N; [exact N|]. cbn. apply IH.
      destruct acc as [|[k v] acc]; [congruence|]. cbn. destruct (String.eqb _ k); [discriminate|].
      destruct (key_lt _ k); discriminate. }
    revert H. apply G. destruct acc as [|[k v] acc]; cbn; [discriminate|].
    destruct (String.eqb _ k); [discriminate|]. destruct (key_lt _ k); discriminate.
  Qed.

  Lemma no_aliases : has_aliases t = false -> al_in a = [] /\ al_out a = [] /\ al_param a = [].
  Proof.
    unfold has_aliases, t, load_tables. cbn [in_o2e out_o2e param_o2e]. rewrite !fst_load.
    intros H. apply negb_false_iff in H.
    destruct (fold_left (fun t kv => set_ (fst kv) (snd kv) t) (al_in a) []) eqn:E1; [|discriminate].
    destruct (fold_left (fun t kv => set_ (fst kv) (snd kv) t) (al_out a) []) eqn:E2; [|discriminate].
    destruct (fold_left (fun t kv => set_ (fst kv) (snd kv) t) (al_param a) []) eqn:E3; [|discriminate].
    apply fold_set_nil in E1, E2, E3. auto.
  Qed.

  Lemma boundary_nil k : boundary [] k = k.
  Proof. reflexivity. Qed.

  Lemma renamed_id (m m' : vmap) : sorted m -> renamed (boundary []) m m' -> m' = m.
  Proof.
    intros S (S' & H1 & H2 & _). apply sorted_ext; [exact S'|exact S|]. intros k.
    destruct (lookup k m) as [v|] eqn:E; [apply (H1 k v E)|].
    destruct (lookup k m') as [v|] eqn:F; [|reflexivity].
    apply H2 in F as (j & Ej & Lj). unfold boundary in Ej. cbn in Ej. congruence.
  Qed.

  Lemma id_renamed (m : vmap) : sorted m -> renamed (boundary []) m m.
  Proof.
    intros S. split; [exact S|]. split; [intros k v E; exact E|]. split; [|reflexivity].
    intros e v E. exists e. split; [reflexivity|exact E].
  Qed.

  Lemma id_renamed2 (j : smap vmap) :
    sorted j -> (forall k r, In (k, r) j -> sorted r) -> renamed2 (boundary []) (boundary []) j j.
  Proof.
    intros S R. split; [exact S|]. split; [|split; [|reflexivity]].
    - intros k r E. exists r. split; [exact E|]. apply id_renamed. eapply R. eapply lookup_in. exact E.
    - intros e r E. exists e, r. split; [reflexivity|]. split; [exact E|].
      apply id_renamed. eapply R. eapply lookup_in. exact E.
  Qed.

  (** Incoming map. *)
  Lemma incoming names (I I' : vmap) :
    sorted I -> keys_in names I -> clash_free (al_in a) names ->
    renamed (boundary (al_in a)) I I' -> rekey I' (in_e2o t) = I.
  Proof.
    intros S K C R. unfold t, load_tables. cbn [in_e2o]. rewrite snd_load.
    apply (rekey_back I I' _ (boundary (al_in a))); [exact S|exact R|].
    intros k Ik. apply (e2o_boundary _ Sin names); [exact C|apply K; exact Ik].
  Qed.

  Lemma incoming_out names (I I' : vmap) :
    sorted I -> keys_in names I -> clash_free (al_out a) names ->
    renamed (boundary (al_out a)) I I' -> rekey I' (out_e2o t) = I.
  Proof.
    intros S K C R. unfold t, load_tables. cbn [out_e2o]. rewrite snd_load.
    apply (rekey_back I I' _ (boundary (al_out a))); [exact S|exact R|].
    intros k Ik. apply (e2o_boundary _ Sout names); [exact C|apply K; exact Ik].
  Qed.

  Lemma clash_names al names x y :
    clash_free al names -> In x names -> In y names -> boundary al x = boundary al y -> x = y.
  Proof. intros C Ix Iy. apply C; apply in_or_app; left; assumption. Qed.

  Lemma tr_in k : translate (in_o2e t) k = boundary (al_in a) k.
  Proof. unfold t, load_tables. cbn [in_o2e]. rewrite fst_load. apply o2e_translate. exact Sin. Qed.
  Lemma tr_out k : translate (out_o2e t) k = boundary (al_out a) k.
  Proof. unfold t, load_tables. cbn [out_o2e]. rewrite fst_load. apply o2e_translate. exact Sout. Qed.
  Lemma tr_param k : translate (param_o2e t) k = boundary (al_param a) k.
  Proof. unfold t, load_tables. cbn [param_o2e]. apply o2e_translate. exact Spar. Qed.

  Lemma outgoing al tr names (m : vmap) :
    (forall k, translate tr k = boundary al k) ->
    sorted m -> keys_in names m -> clash_free al names -> renamed (boundary al) m (rekey m tr).
  Proof.
    intros E S K C. apply (rekey_renamed m tr (boundary al) names).
    - apply sorted_nodup. exact S.
    - exact K.
    - intros k _. apply E.
    - intros x y. apply clash_names. exact C.
  Qed.

  Lemma outgoing2 al1 al2 tr1 tr2 names1 names2 (j : smap vmap) :
    (forall k, translate tr1 k = boundary al1 k) -> (forall k, translate tr2 k = boundary al2 k) ->
    sorted j -> keys_in names1 j -> clash_free al1 names1 ->
    (forall k r, In (k, r) j -> sorted r /\ keys_in names2 r) -> clash_free al2 names2 ->
    renamed2 (boundary al1) (boundary al2) j (rekey_nested j tr1 tr2).
  Proof.
    intros E1 E2 S K C R C2.
    apply (rekey_nested_renamed j tr1 tr2 (boundary al1) (boundary al2) names1 names2).
    - apply sorted_nodup. exact S.
    - exact K.
    - intros k _. apply E1.
    - intros x y. apply clash_names. exact C.
    - intros k r I. destruct (R k r I) as [Sr Kr]. split; [apply sorted_nodup; exact Sr|exact Kr].
    - intros k _. apply E2.
    - intros x y. apply clash_names. exact C2.
  Qed.

  Variables ins outs pars : list string.
  Hypothesis Cin : clash_free (al_in a) ins.
  Hypothesis Cout : clash_free (al_out a) outs.
  Hypothesis Cpar : clash_free (al_param a) pars.

  Lemma forward_transparent impl (I I' : vmap) :
    sorted I -> keys_in ins I -> renamed (boundary (al_in a)) I I' ->
    (forall out, impl I = Ok out -> sorted out -> keys_in outs out ->
       exists out', facade_forward t impl I' = Ok out' /\ renamed (boundary (al_out a)) out out') /\
    (forall e, impl I = Err e -> facade_forward t impl I' = guarded (Err e)).
  Proof.
    intros S K R. unfold facade_forward. destruct (has_aliases t) eqn:H.
    - rewrite (incoming ins I I' S K Cin R). split.
      + intros out E So Ko. rewrite E. cbn. eexists. split; [reflexivity|].
        apply (outgoing _ _ outs); [exact tr_out|exact So|exact Ko|exact Cout].
      + intros e E. rewrite E. reflexivity.
    - apply no_aliases in H as (E1 & E2 & _). rewrite E1 in R. rewrite E2.
      rewrite (renamed_id I I' S R). split.
      + intros out E So _. rewrite E. cbn. exists out. split; [reflexivity|apply id_renamed; exact So].
      + intros e E. rewrite E. reflexivity.
  Qed.

  Lemma jvp_transparent impl (I I' W W' : vmap) :
    sorted I -> keys_in ins I -> renamed (boundary (al_in a)) I I' ->
    sorted W -> keys_in ins W -> renamed (boundary (al_in a)) W W' ->
    (forall out jout, impl I W = Ok (out, jout) ->
       sorted out -> keys_in outs out -> sorted jout -> keys_in outs jout ->
       exists out' jout', facade_jvp t impl I' W' = Ok (out', jout') /\
         renamed (boundary (al_out a)) out out' /\ renamed (boundary (al_out a)) jout jout') /\
    (forall e, impl I W = Err e -> facade_jvp t impl I' W' = guarded (Err e)).
  Proof.
    intros S K R SW KW RW. unfold facade_jvp. destruct (has_aliases t) eqn:H.
    - rewrite (incoming ins I I' S K Cin R), (incoming ins W W' SW KW Cin RW). split.
      + intros out jout E So Ko Sj Kj. rewrite E. cbn. eexists _, _. split; [reflexivity|].
        split; apply (outgoing _ _ outs); try assumption; exact tr_out.
      + intros e E. rewrite E. reflexivity.
    - apply no_aliases in H as (E1 & E2 & _). rewrite E1 in R, RW. rewrite E2.
      rewrite (renamed_id I I' S R), (renamed_id W W' SW RW). split.
      + intros out jout E So _ Sj _. rewrite E. cbn. exists out, jout.
        split; [reflexivity|]. split; apply id_renamed; assumption.
      + intros e E. rewrite E. reflexivity.
  Qed.

  Lemma jacobian_transparent impl (I I' : vmap) :
    sorted I -> keys_in ins I -> renamed (boundary (al_in a)) I I' ->
    (forall out jac, impl I = Ok (out, jac) -> sorted out -> keys_in outs out ->
       sorted jac -> keys_in outs jac ->
       (forall k r, In (k, r) jac -> sorted r /\ keys_in ins r) ->
       exists out' jac', facade_jacobian t impl I' = Ok (out', jac') /\
         renamed (boundary (al_out a)) out out' /\
         renamed2 (boundary (al_out a)) (boundary (al_in a)) jac jac') /\
    (forall e, impl I = Err e -> facade_jacobian t impl I' = guarded (Err e)).
  Proof.
    intros S K R. unfold facade_jacobian. destruct (has_aliases t) eqn:H.
    - rewrite (incoming ins I I' S K Cin R). split.
      + intros out jac E So Ko Sj Kj Rj. rewrite E. cbn. eexists _, _. split; [reflexivity|]. split.
        * apply (outgoing _ _ outs); [exact tr_out|exact So|exact Ko|exact Cout].
        * apply (outgoing2 _ _ _ _ outs ins); try assumption; [exact tr_out|exact tr_in].
      + intros e E. rewrite E. reflexivity.
    - apply no_aliases in H as (E1 & E2 & _). rewrite E1 in R. rewrite E1, E2.
      rewrite (renamed_id I I' S R). split.
      + intros out jac E So _ Sj _ Rj. rewrite E. cbn. exists out, jac.
        split; [reflexivity|]. split; [apply id_renamed; exact So|].
        apply id_renamed2; [exact Sj|]. intros k r Ik. apply (Rj k r Ik).
      + intros e E. rewrite E. reflexivity.
  Qed.

  Lemma param_jacobian_transparent impl (I I' : vmap) :
    sorted I -> keys_in ins I -> renamed (boundary (al_in a)) I I' ->
    (forall out jac, impl I = Ok (out, jac) -> sorted out -> keys_in outs out ->
       sorted jac -> keys_in outs jac ->
       (forall k r, In (k, r) jac -> sorted r /\ keys_in pars r) ->
       exists out' jac', facade_param_jacobian t impl I' = Ok (out', jac') /\
         renamed (boundary (al_out a)) out out' /\
         renamed2 (boundary (al_out a)) (boundary (al_param a)) jac jac') /\
    (forall e, impl I = Err e -> facade_param_jacobian t impl I' = guarded (Err e)).
  Proof.
    intros S K R. unfold facade_param_jacobian. destruct (has_aliases t) eqn:H.
    - rewrite (incoming ins I I' S K Cin R). split.
      + intros out jac E So Ko Sj Kj Rj. rewrite E. cbn. eexists _, _. split; [reflexivity|]. split.
        * apply (outgoing _ _ outs); [exact tr_out|exact So|exact Ko|exact Cout].
        * apply (outgoing2 _ _ _ _ outs pars); try assumption; [exact tr_out|exact tr_param].
      + intros e E. rewrite E. reflexivity.
    - apply no_aliases in H as (E1 & E2 & E3). rewrite E1 in R. rewrite E2, E3.
      rewrite (renamed_id I I' S R). split.
      + intros out jac E So _ Sj _ Rj. rewrite E. cbn. exists out, jac.
        split; [reflexivity|]. split; [apply id_renamed; exact So|].
        apply id_renamed2; [exact Sj|]. intros k r Ik. apply (Rj k r Ik).
      + intros e E. rewrite E. reflexivity.
  Qed.

  Lemma param_vjp_transparent impl (I I' C C' : vmap) :
    sorted I -> keys_in ins I -> renamed (boundary (al_in a)) I I' ->
    sorted C -> keys_in outs C -> renamed (boundary (al_out a)) C C' ->
    (forall g, impl I C = Ok g -> sorted g -> keys_in pars g ->
       exists g', facade_param_vjp t impl I' C' = Ok g' /\ renamed (boundary (al_param a)) g g') /\
    (forall e, impl I C = Err e -> facade_param_vjp t impl I' C' = guarded (Err e)).
  Proof.
    intros S K R SC KC RC. unfold facade_param_vjp. destruct (has_aliases t) eqn:H.
    - rewrite (incoming ins I I' S K Cin R), (incoming_out outs C C' SC KC Cout RC). split.
      + intros g E Sg Kg. rewrite E. cbn. eexists. split; [reflexivity|].
        apply (outgoing _ _ pars); [exact tr_param|exact Sg|exact Kg|exact Cpar].
      + intros e E. rewrite E. reflexivity.
    - apply no_aliases in H as (E1 & E2 & E3). rewrite E1 in R. rewrite E2 in RC. rewrite E3.
      rewrite (renamed_id I I' S R), (renamed_id C C' SC RC). split.
      + intros g E Sg _. rewrite E. cbn. exists g. split; [reflexivity|apply id_renamed; exact Sg].
      + intros e E. rewrite E. reflexivity.
  Qed.

  (** Lookup through a renaming of the parameters. *)
  Lemma renamed_lookup (m m' : vmap) n :
    keys_in pars m -> renamed (boundary (al_param a)) m m' -> In n (pars ++ keys (al_param a)) ->
    lookup (boundary (al_param a) n) m' = lookup n m.
  Proof.
    intros K (_ & H1 & H2 & _) I. destruct (lookup n m) as [v|] eqn:E; [apply H1; exact E|].
    destruct (lookup (boundary _ n) m') as [v|] eqn:F; [|reflexivity].
    apply H2 in F as (j & Ej & Lj). apply Cpar in Ej; [congruence| |exact I].
    apply in_or_app. left. apply K. eapply lookup_key_some. exact Lj.
  Qed.

  Lemma resolve_transparent (ov ov' : option vmap) (store store' : vmap) n :
    keys_in pars store -> renamed (boundary (al_param a)) store store' ->
    match ov, ov' with
    | None, None => True
    | Some o, Some o' => keys_in pars o /\ renamed (boundary (al_param a)) o o'
    | _, _ => False
    end ->
    In n pars ->
    resolve_param t ov' store' n
    = match (match ov with Some o => lookup n o | None => None end) with
      | Some v => Ok v
      | None => match lookup n store with
                | Some v => Ok v
                | None => Err (Fatal "segment references a missing promoted parameter")
                end
      end.
  Proof.
    intros K R O I. unfold resolve_param. rewrite tr_param.
    assert (I' : In n (pars ++ keys (al_param a))) by (apply in_or_app; left; exact I).
    rewrite (renamed_lookup store store' n K R I').
    destruct ov as [o|], ov' as [o'|]; try contradiction; [|reflexivity].
    destruct O as [Ko Ro]. rewrite (renamed_lookup o o' n Ko Ro I').
    destruct (lookup n o); reflexivity.
  Qed.

  Lemma load_parameters_renamed (params : list (string * T)) :
    NoDup (keys params) -> keys_in pars params ->
    renamed (boundary (al_param a)) params (load_parameters t params).
  Proof.
    intros N K. apply (rekey_renamed params (param_o2e t) (boundary (al_param a)) pars).
    - exact N.
    - exact K.
    - intros k _. apply tr_param.
    - intros x y. apply clash_names. exact Cpar.
  Qed.
End Ops.
