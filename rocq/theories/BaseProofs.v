(** Facts about the common vocabulary. *)
From Verif Require Import Base.

Lemma bind_ok {A B} (x : result A) (f : A -> result B) r :
  bind x f = Ok r -> exists a, x = Ok a /\ f a = Ok r.
Proof. destruct x as [a|e]; cbn; intro H; [eauto | discriminate]. Qed.

Lemma mapM_ok_map {A B} (f : A -> result B) (g : A -> B) l :
  (forall x, In x l -> f x = Ok (g x)) -> mapM f l = Ok (map g l).
Proof.
  induction l as [|x l IH]; intro H; [reflexivity|].
  cbn [mapM map]. rewrite H by (left; reflexivity). cbn [bind].
  rewrite IH by (intros y Hy; apply H; right; exact Hy). reflexivity.
Qed.

Lemma mapM_ext {A B} (f g : A -> result B) l :
  (forall x, In x l -> f x = g x) -> mapM f l = mapM g l.
Proof.
  induction l as [|x l IH]; intro H; [reflexivity|].
  cbn [mapM]. rewrite H by (left; reflexivity).
  rewrite IH by (intros y Hy; apply H; right; exact Hy). reflexivity.
Qed.

Lemma mapM_map {A B C} (f : B -> result C) (g : A -> B) l :
  mapM f (map g l) = mapM (fun x => f (g x)) l.
Proof.
  induction l as [|x l IH]; [reflexivity|].
  cbn [map mapM]. rewrite IH. reflexivity.
Qed.

Lemma mapM_Forall2 {A B} (f : A -> result B) l r :
  mapM f l = Ok r -> Forall2 (fun x y => f x = Ok y) l r.
Proof.
  revert r. induction l as [|x l IH]; cbn [mapM]; intros r H.
  - injection H as <-. constructor.
  - destruct (f x) as [y|e] eqn:E; cbn [bind] in H; [|discriminate].
    destruct (mapM f l) as [ys|e] eqn:E2; cbn [bind] in H; [|discriminate].
    injection H as <-. constructor; [exact E | apply IH; reflexivity].
Qed.

Lemma mapM_err_in {A B} (f : A -> result B) l x e :
  In x l -> f x = Err e -> exists e', mapM f l = Err e'.
Proof.
  induction l as [|y l IH]; intros Hin Hx; [destruct Hin|].
  cbn [mapM]. destruct (f y) as [r|e'] eqn:Ey; cbn [bind].
  - destruct Hin as [->|Hin]; [congruence|].
    destruct (IH Hin Hx) as [e'' ->]. cbn [bind]. eauto.
  - eauto.
Qed.

Lemma mapM_err_inv {A B} (f : A -> result B) l e :
  mapM f l = Err e -> exists x, In x l /\ f x = Err e.
Proof.
  induction l as [|y l IH]; cbn [mapM]; intro H; [discriminate|].
  destruct (f y) as [r|e'] eqn:Ey; cbn [bind] in H.
  - destruct (mapM f l) as [rs|e''] eqn:E; cbn [bind] in H; [discriminate|].
    injection H as <-. destruct IH as [x [Hin Hx]]; [reflexivity|].
    exists x. split; [right; exact Hin | exact Hx].
  - injection H as <-. exists y. split; [left; reflexivity | exact Ey].
Qed.

Lemma vmapM_ok {T U} (f : T -> result U) (g : T -> U) m :
  (forall k t, In (k, t) m -> f t = Ok (g t)) -> vmapM f m = Ok (vmap_ g m).
Proof.
  induction m as [|[k t] m IH]; intro H; [reflexivity|].
  cbn [vmapM]. rewrite (H k t) by (left; reflexivity). cbn [bind].
  rewrite IH by (intros k' t' Hin; apply (H k'); right; exact Hin). reflexivity.
Qed.

Lemma keys_vmap {T U} (f : T -> U) m : keys (vmap_ f m) = keys m.
Proof. unfold keys, vmap_. rewrite map_map. reflexivity. Qed.

Lemma lookup_vmap {T U} (f : T -> U) k m :
  lookup k (vmap_ f m) = option_map f (lookup k m).
Proof.
  induction m as [|[k' t] m IH]; [reflexivity|].
  unfold vmap_ in *. cbn [map lookup fst snd]. destruct (String.eqb k k'); [reflexivity|exact IH].
Qed.

Lemma vmap_vmap {T U W} (f : U -> W) (g : T -> U) m :
  vmap_ f (vmap_ g m) = vmap_ (fun x => f (g x)) m.
Proof. unfold vmap_. rewrite map_map. reflexivity. Qed.

Lemma vmap_ext {T U} (f g : T -> U) m :
  (forall k t, In (k, t) m -> f t = g t) -> vmap_ f m = vmap_ g m.
Proof.
  intro H. unfold vmap_. apply map_ext_in. intros [k t] Hin. cbn. rewrite (H k t Hin). reflexivity.
Qed.

Lemma vmap_id {T} (f : T -> T) m :
  (forall k t, In (k, t) m -> f t = t) -> vmap_ f m = m.
Proof.
  intro H. unfold vmap_. induction m as [|[k t] m IH]; [reflexivity|].
  cbn. rewrite (H k t) by (left; reflexivity). f_equal.
  apply IH. intros k' t' Hin. apply (H k'). right. exact Hin.
Qed.

Lemma lookup_in {T} k (m : smap T) t : lookup k m = Some t -> In (k, t) m.
Proof.
  induction m as [|[k' t'] m IH]; cbn [lookup]; intro H; [discriminate|].
  destruct (String.eqb_spec k k') as [->|Hne].
  - injection H as ->. left. reflexivity.
  - right. apply IH. exact H.
Qed.

Lemma lookup_nodup {T} k (m : smap T) t :
  NoDup (keys m) -> In (k, t) m -> lookup k m = Some t.
Proof.
  induction m as [|[k' t'] m IH]; cbn [lookup keys map]; intros Hnd Hin; [destruct Hin|].
  inversion Hnd as [|? ? Hnin Hnd']; subst.
  destruct Hin as [Heq|Hin].
  - injection Heq as -> ->. rewrite String.eqb_refl. reflexivity.
  - destruct (String.eqb_spec k k') as [->|Hne].
    + exfalso. apply Hnin. change (In (fst (k', t)) (map fst m)). apply in_map. exact Hin.
    + apply IH; assumption.
Qed.

Lemma lookup_none {T} k (m : smap T) : lookup k m = None <-> ~ In k (keys m).
Proof.
  induction m as [|[k' t'] m IH]; cbn [lookup keys map fst In].
  - split; [intros _ [] | reflexivity].
  - destruct (String.eqb_spec k k') as [->|Hne].
    + split; [discriminate | intro H; exfalso; apply H; left; reflexivity].
    + rewrite IH. unfold keys. split; intros H; [intros [Heq|Hin]|].
      * congruence.
      * apply H; exact Hin.
      * intro Hin. apply H. right. exact Hin.
Qed.

Lemma lookup_some_key {T} k (m : smap T) : In k (keys m) -> exists t, lookup k m = Some t.
Proof.
  intro H. destruct (lookup k m) as [t|] eqn:E; [eauto|].
  apply lookup_none in E. contradiction.
Qed.

Lemma lookup_key_some {T} k (m : smap T) t : lookup k m = Some t -> In k (keys m).
Proof.
  intro H. apply lookup_in in H. unfold keys. change k with (fst (k, t)). apply in_map. exact H.
Qed.
