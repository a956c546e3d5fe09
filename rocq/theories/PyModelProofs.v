(** Lemmas about PyModel.v. *)
From Coq Require Import String.
From Verif Require Import Load SpecLoad LoadProofs.
From Verif Require Import SpecLayout LayoutProofs.
From Verif Require Import Base BaseProofs Tensor SpecRename Rename RenameProofs Float Krylov Runtime Bundle Serve ServeJac PyModel.
Local Open Scope string_scope.
Local Open Scope list_scope.

Lemma dict_set_new {T} k (v : T) d : ~ In k (map fst d) -> dict_set k v d = d ++ [(k, v)].
Proof.
  induction d as [|[k' v'] d IH]; intros Nk; [reflexivity|]. cbn [dict_set app]. destruct (String.eqb_spec k k') as [->|Ne]; [destruct Nk; left; reflexivity|].
  rewrite IH; [reflexivity|]. intros Hk. apply Nk. right. exact Hk.
Qed.
Definition given {T} (d : list (string * T)) (y : string) : bool := existsb (String.eqb y) (map fst d).
Lemma given_in {T} (d : list (string * T)) y : given d y = true <-> In y (map fst d).
Proof.
  unfold given. rewrite existsb_exists. split; [intros (x & Hx & E); apply String.eqb_eq in E; subst; exact Hx|intros Hy; exists y; split; [exact Hy|apply String.eqb_refl]].
Qed.
Lemma dict_set_old {T} (P : string * T -> Prop) k v d : In k (map fst d) -> P (k, v) -> Forall P d -> map fst (dict_set k v d) = map fst d /\ Forall P (dict_set k v d).
Proof.
  intros Hk Pk. induction d as [|[k' v'] d IH]; intros Fd; [destruct Hk|]. inversion Fd as [|? ? P1 P2]; subst. cbn [dict_set]. destruct (String.eqb_spec k k') as [->|Ne].
  - split; [reflexivity|]. constructor; assumption.
  - destruct Hk as [E|Hk]; [cbn in E; congruence|]. destruct (IH Hk P2) as [E F]. cbn [map fst]. rewrite E. split; [reflexivity|]. constructor; assumption.
Qed.
Lemma filter_two {T} (f g : T -> bool) l : filter f (filter g l) = filter (fun x => (g x && f x)%bool) l.
Proof. induction l as [|x l IH]; [reflexivity|]. cbn [filter]. destruct (g x); cbn [filter andb]; rewrite IH; reflexivity. Qed.
Lemma repack_from {T} (out : smap T) names : forall d, (forall n, In n names -> lookup n out <> None) -> Forall (fun kv => lookup (fst kv) out = Some (snd kv)) d ->
  exists r, repack names out d = Ok r /\ map fst r = map fst d ++ filter (fun y => negb (given d y)) (firsts names) /\ Forall (fun kv => lookup (fst kv) out = Some (snd kv)) r.
Proof.
  induction names as [|n names IH]; intros d Hn Fd; cbn [repack firsts filter].
  - exists d. rewrite app_nil_r. repeat split. exact Fd.
  - destruct (lookup n out) as [t|] eqn:E; [|destruct (Hn n (or_introl eq_refl) E)].
    assert (Hn' : forall k, In k names -> lookup k out <> None) by (intros k Hk; apply Hn; right; exact Hk).
    rewrite filter_two. destruct (given d n) eqn:G; cbn [negb].
    + destruct (dict_set_old _ n t d (proj1 (given_in d n) G) E Fd) as [Ek Fd']. destruct (IH (dict_set n t d) Hn' Fd') as (r & Er & Kr & Fr). exists r. split; [exact Er|]. split; [|exact Fr].
      rewrite Kr, Ek. f_equal. apply filter_ext. intros y. unfold given. rewrite Ek. fold (given d y). destruct (String.eqb_spec y n) as [->|_]; [rewrite G|]; reflexivity.
    + assert (Nn : ~ In n (map fst d)) by (intros Hi; apply given_in in Hi; congruence). rewrite (dict_set_new n t d Nn).
      destruct (IH (d ++ [(n, t)]) Hn') as (r & Er & Kr & Fr); [apply Forall_app; split; [exact Fd|repeat constructor; exact E]|]. exists r. split; [exact Er|]. split; [|exact Fr].
      rewrite Kr, map_app, <- app_assoc. cbn [map fst app]. do 2 f_equal. apply filter_ext. intros y. unfold given. rewrite map_app, existsb_app. cbn [map fst existsb].
      destruct (String.eqb y n), (existsb (String.eqb y) (map fst d)); reflexivity.
Qed.
Lemma repack_ok {T} (out : smap T) names : (forall n, In n names -> lookup n out <> None) ->
  exists r, repack names out [] = Ok r /\ map fst r = firsts names /\ forall n, In n names -> lookup n r = lookup n out.
Proof.
  intros Hn. destruct (repack_from out names [] Hn (Forall_nil _)) as (r & Er & Kr & Fr). exists r. split; [exact Er|].
  assert (K : map fst r = firsts names).
  { rewrite Kr. cbn [map app]. generalize (firsts names). intros l. induction l as [|x l IH]; [reflexivity|]. cbn. f_equal. exact IH. }
  split; [exact K|]. intros n Hi. rewrite <- firsts_in, <- K in Hi. clear - Hi Fr. induction Fr as [|[k v] r E _ IH]; [destruct Hi|]. cbn [lookup]. cbn [fst snd] in E.
  destruct (String.eqb_spec n k) as [->|Ne]; [symmetry; exact E|]. apply IH. destruct Hi as [Ek|Hi]; [cbn in Ek; congruence|exact Hi].
Qed.
Lemma firsts_same l : NoDup l -> firsts l = l.
Proof.
  induction 1 as [|x l Nx _ IH]; [reflexivity|]. cbn [firsts]. rewrite IH. f_equal. clear IH. induction l as [|y l IH]; [reflexivity|]. cbn [filter].
  destruct (String.eqb_spec y x) as [->|_]; [destruct Nx; left; reflexivity|]. cbn [negb]. f_equal. apply IH. intros Hx. apply Nx. right. exact Hx.
Qed.
Lemma output_names_say cast sdef kdef leaf d a (m : loaded F) : faithful cast sdef kdef leaf d a m -> output_names m = map (fun o => boundary (ar_out a) (op_name o)) (ar_outputs a).
Proof.
  intros (Ti & To & Tp & _ & Eo & _). unfold output_names. rewrite Eo. apply map_ext. intros o. unfold ext_name. rewrite boundary_translate.
  destruct (has_aliases (ld_tables m)) eqn:Ha; unfold translate; rewrite <- To; [reflexivity|]. unfold has_aliases in Ha.
  destruct (in_o2e _); [|discriminate]. destruct (out_o2e _); [reflexivity|discriminate].
Qed.
Lemma input_names_say cast sdef kdef leaf d a (m : loaded F) : faithful cast sdef kdef leaf d a m -> input_names m = map (fun i => boundary (ar_in a) (ip_name i)) (ar_inputs a).
Proof.
  intros (Ti & To & Tp & Ei & _). unfold input_names. rewrite Ei. apply map_ext. intros i. unfold ext_name. rewrite boundary_translate.
  destruct (has_aliases (ld_tables m)) eqn:Ha; unfold translate; rewrite <- Ti; [reflexivity|]. unfold has_aliases in Ha.
  destruct (in_o2e _); [reflexivity|discriminate].
Qed.
