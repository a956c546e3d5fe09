(** An eager model that carries seeds by its linearisation, for the concrete cases of C76. *)
From Verif Require Import Base BaseProofs Tensor TensorProofs Spec SpecMap Broadcast SpecBroadcast BroadcastProofs Pack PackProofs Implicit Substep Mat Jac JacModel SpecJac SpecAlgebra MatProofs EagerModel SpecEagerModel Example_Jac.
Local Open Scope string_scope.
Local Open Scope list_scope.

Definition tab (sh : list nat) (f : list nat -> Z) (d : device) : tensor Z := mkT sh (map (fun k => f (index_at sh k)) (seq 0 (numel sh))) d.
Lemma tab_wf sh f d : wf (tab sh f d). Proof. unfold wf, tab. cbn. rewrite map_length. apply seq_length. Qed.
Lemma tab_elem sh f d idx : index_of sh idx -> elem (tab sh f d) idx = Some (f idx).
Proof.
  intros H. unfold elem, tab. cbn [t_shape t_data]. pose proof (ravel_lt _ _ H) as L. rewrite (map_nth_error (fun k => f (index_at sh k)) (ravel sh idx) (seq 0 (numel sh)) (d:=ravel sh idx)).
  - rewrite (index_at_ravel _ _ H). reflexivity.
  - rewrite (nth_error_nth' _ 0) by (rewrite seq_length; exact L). rewrite seq_nth by exact L. reflexivity.
Qed.

Section Native.
  Variables ins outs : list (string * list nat).
  Variable d : device.
  Variable C : list nat.
  Variable vals : list (tensor Z).
  Variable L : list nat -> list (lin Z).
  Notation push := (push 0%Z Z.add Z.mul).

  (** One block: every direction carried forward; left out when all zero. *)
  Definition carried (o : string) (ob : list nat) (s : string * smap (wrapper Z)) : smap (wrapper Z) :=
    match snd s, lookup (fst s) ins with
    | [(_, w)], Some base =>
        let n := hd 0 (t_shape (w_data w)) in
        let b := tab (n :: C ++ ob) (fun idx => push (L (firstn (length C) (tl idx))) (direction 0%Z (fst s) base w (hd 0 idx) (firstn (length C) (tl idx))) o (ravel ob (skipn (length C) (tl idx)))) d in
        if forallb (Z.eqb 0) (t_data b) then [] else [(fst s, mkW b 0 (w_k w))]
    | _, _ => []
    end.
  Definition native (_ : smap (tensor Z)) (_ : list (wrapper Z)) (v : option (chain Z)) : result (list (wrapper Z) * chain Z) :=
    Ok (map (fun t => mkW t 0 0) vals, match v with None => [] | Some sd => map (fun o => (fst o, flat_map (carried (fst o) (snd o)) sd)) outs end).
  Definition native_model : emodel Z := mkEM ins outs d native.

  Hypothesis in_names : NoDup (map fst ins).
  Hypothesis out_names : NoDup (map fst outs).
  Hypothesis vals_len : length vals = length outs.

  Lemma carried_key o ob s x : In x (carried o ob s) -> fst x = fst s.
  Proof.
    unfold carried. destruct (snd s) as [|[k w] [|? ?]]; try (intros []). destruct (lookup (fst s) ins); [|intros []]. destruct (forallb _ _); [intros []|]. intros [<-|[]]. reflexivity.
  Qed.
  Lemma carried_keys o ob (S : chain Z) x : In x (keys (flat_map (carried o ob) S)) -> In x (keys S).
  Proof.
    intros H. apply in_map_iff in H as (y & <- & H). apply in_flat_map in H as (s & Is & H). rewrite (carried_key _ _ _ _ H). exact (in_map fst _ _ Is).
  Qed.
  Lemma carried_nodup o ob (S : chain Z) : NoDup (keys S) -> NoDup (keys (flat_map (carried o ob) S)).
  Proof.
    induction S as [|s S IH]; intros N; [constructor|]. cbn [keys map] in N. apply NoDup_cons_iff in N as [Ns N]. cbn [flat_map]. unfold keys. rewrite map_app.
    assert (G : map fst (carried o ob s) = [] \/ map fst (carried o ob s) = [fst s]).
    { unfold carried. destruct (snd s) as [|[k w] [|? ?]]; auto. destruct (lookup (fst s) ins); auto. destruct (forallb _ _); auto. }
    destruct G as [-> | ->]; [exact (IH N)|]. cbn [app]. constructor; [|exact (IH N)]. intros X. exact (Ns (carried_keys o ob S _ X)).
  Qed.
  Lemma lookup_skip {X} k (l r : smap X) : ~ In k (keys l) -> lookup k (l ++ r) = lookup k r.
  Proof. induction l as [|[j x] l IH]; intros N; [reflexivity|]. cbn in *. destruct (String.eqb_spec k j); [subst; tauto|]. apply IH. tauto. Qed.
  Lemma carried_at o ob (S : chain Z) s : NoDup (keys S) -> In s S -> lookup (fst s) (flat_map (carried o ob) S) = lookup (fst s) (carried o ob s).
  Proof.
    induction S as [|s0 S IH]; intros N H; [destruct H|]. cbn [keys map] in N. apply NoDup_cons_iff in N as [N0 N]. cbn [flat_map]. destruct H as [<-|H].
    - destruct (lookup (fst s0) (carried o ob s0)) eqn:E.
      + revert E. generalize (carried o ob s0). induction s as [|[j x] l IHl]; [discriminate|]. cbn. destruct (String.eqb (fst s0) j); [auto|exact IHl].
      + rewrite lookup_skip; [|intros X; apply in_map_iff in X as (y & Ey & Iy); destruct y as [k x]; cbn in Ey; subst k; revert E Iy; generalize (carried o ob s0); induction s as [|[j z] l IHl]; [intros _ []|]; cbn; destruct (String.eqb_spec (fst s0) j) as [Ej|Nj]; [discriminate|]; intros E [Q|Q]; [congruence|exact (IHl E Q)]].
        destruct (lookup (fst s0) (flat_map (carried o ob) S)) eqn:Q; [|reflexivity]. exfalso. apply N0. apply (carried_keys o ob S). exact (in_map fst _ _ (lookup_in _ _ _ Q)).
    - rewrite lookup_skip; [exact (IH N H)|]. intros X. apply in_map_iff in X as (y & Ey & Iy). rewrite (carried_key _ _ _ _ Iy) in Ey. apply N0. rewrite Ey. exact (in_map fst _ _ H).
  Qed.

  Lemma native_carries k P args : carries native_model 0%Z Z.add Z.mul d C k P args vals L.
  Proof using in_names out_names vals_len.
    intros S [Ns Hs]. exists (map (fun t => mkW t 0 0) vals), (map (fun o => (fst o, flat_map (carried (fst o) (snd o)) S)) outs). split; [reflexivity|]. split.
    { split; [rewrite map_length; exact vals_len|]. split; [apply Forall_forall; intros w H; apply in_map_iff in H as (t & <- & _); reflexivity|]. rewrite map_map. apply map_id. }
    intros o ob Io. cbn [em_outs native_model] in Io.
    assert (Ec : contributions (map (fun o => (fst o, flat_map (carried (fst o) (snd o)) S)) outs) o = flat_map (carried o ob) S).
    { unfold contributions. erewrite lookup_nodup; [reflexivity| |apply in_map_iff; exists (o, ob); split; [reflexivity|exact Io]]. unfold keys. rewrite map_map. exact out_names. }
    rewrite Ec. split; [exact (carried_nodup o ob S Ns)|]. split; [intros x; apply carried_keys|].
    intros i base n w (Is & Ii & _ & _ & Ww & _ & Sw). pose proof (carried_at o ob S _ Ns Is) as Q. cbn [fst] in Q.
    match goal with |- match ?x with _ => _ end => change x with (lookup i (flat_map (carried o ob) S)) end. rewrite Q. clear Q. unfold carried. cbn [fst snd]. rewrite (lookup_nodup _ _ _ in_names Ii), Sw. cbn [hd].
    set (f := fun idx => push _ _ _ _). set (b := tab (n :: C ++ ob) f d).
    assert (Eb : forall j e x, j < n -> index_of C e -> index_of ob x -> elem b (j :: e ++ x) = Some (push (L e) (direction 0%Z i base w j e) o (ravel ob x))).
    { intros j e x Hj Ie Ix. unfold b. rewrite tab_elem by (constructor; [exact Hj|apply index_app; assumption]). unfold f. cbn [hd tl]. rewrite <- (PackProofs.index_length _ _ Ie).
      rewrite firstn_app, Nat.sub_diag, firstn_all. cbn [firstn]. rewrite app_nil_r. rewrite skipn_app, Nat.sub_diag, skipn_all. reflexivity. }
    destruct (forallb (Z.eqb 0) (t_data b)) eqn:F.
    - cbn [lookup]. intros j e x Hj Ie Ix. specialize (Eb j e x Hj Ie Ix). unfold elem in Eb. apply nth_error_In in Eb. rewrite forallb_forall in F. specialize (F _ Eb). apply Z.eqb_eq in F. symmetry. exact F.
    - cbn [lookup]. rewrite String.eqb_refl. cbn [w_data]. split; [apply tab_wf|]. split; [reflexivity|]. split; [reflexivity|]. exact Eb.
  Qed.
End Native.

(** The eager model of the equations of [jx_model], as linearised at [jx_in]. *)
Definition ex_L (e : list nat) : list (lin Z) := rev (map (fun l => l e) jx_lins).
Definition ex_vals : list (tensor Z) := [mkT [2; 2] [35; 70; 270; 360]%Z cpu; mkT [2] [35; 90]%Z cpu].
Definition ex_model : emodel Z := native_model [("x", [2]); ("y", [])] [("z", [2]); ("u", [])] cpu [2] ex_vals ex_L.
Definition ex_params : eparams Z := [("k", mkEP (mkT [] [5]%Z cpu) 0 0); ("c", mkEP (mkT [1; 2] [1; 2]%Z cpu) 1 0)].
(** The same inputs, [y] given once for both batch entries is also taken. *)
Definition ex_in : smap (tensor Z) := [("x", mkT [2; 2] [1; 2; 3; 4]%Z cpu); ("y", mkT [2] [5; 6]%Z cpu)].
Definition ex_args : list (wrapper Z) := [mkW (mkT [2; 2] [1; 2; 3; 4]%Z cpu) 0 0; mkW (mkT [2] [5; 6]%Z cpu) 0 0].
Definition ex_T : smap (tensor Z) := [("x", mkT [2] [1; 10]%Z cpu); ("y", mkT [2] [100; 1000]%Z cpu)].

Lemma ex_named : named ex_model.
Proof. split; (repeat (constructor; [cbn; intuition discriminate|]); constructor). Qed.
Lemma ex_wf : given_wf ex_model ex_in.
Proof. intros i t [<-|[<-|[]]] E; cbn in E; injection E as <-; reflexivity. Qed.
Lemma ex_on : all_on ex_model ex_in cpu.
Proof. intros i t [<-|[<-|[]]] E; cbn in E; injection E as <-; reflexivity. Qed.
Lemma ex_welcome : welcome ex_model ex_in [2].
Proof.
  split.
  - exists [[2]; [2]]. split.
    + constructor; [exists (mkT [2; 2] [1; 2; 3; 4]%Z cpu), []; repeat split|]. constructor; [exists (mkT [2] [5; 6]%Z cpu), []; repeat split|constructor].
    + apply infer_all_iff. reflexivity.
  - intros i t Hi L. rewrite (ex_on i t Hi L). split; [reflexivity|right; reflexivity].
Qed.
Lemma ex_lifted : lifted ex_model ex_in [2] ex_args.
Proof.
  constructor; [|constructor; [|constructor]]; (split; [reflexivity|]; split; [reflexivity|]; split; [reflexivity|]); eexists; (split; [reflexivity|]); (split; [reflexivity|]; split; [reflexivity|]); intros idx H; rewrite pull_refl by exact H; reflexivity.
Qed.
Lemma ex_carries k : carries ex_model 0%Z Z.add Z.mul cpu [2] k (values ex_params) ex_args ex_vals ex_L.
Proof. apply native_carries; [apply ex_named|apply ex_named|reflexivity]. Qed.
Lemma ex_calls : calls_at ex_params [2] [2].
Proof. apply infer_all_iff. reflexivity. Qed.
Lemma ex_values : values_over ex_model cpu [2] ex_vals.
Proof. constructor; [repeat split|constructor; [repeat split|constructor]]. Qed.
Lemma ex_tangents : tangents_ok ex_model ex_T cpu [2].
Proof.
  intros i t [<-|[<-|[]]] E; cbn in E; injection E as <-; (split; [reflexivity|]; split; [reflexivity|]).
  - exists []. split; [reflexivity|]. split; [cbn; lia|]. intros p n k H. destruct p; discriminate.
  - exists [2]. split; [reflexivity|]. split; [cbn; lia|]. intros p n k H1 H2. left. congruence.
Qed.
