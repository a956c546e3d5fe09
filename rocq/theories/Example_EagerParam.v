(** Eager models whose parameter derivatives are known, for the concrete cases of C78. *)
From Verif Require Import Base BaseProofs Tensor TensorProofs Spec SpecMap Broadcast SpecBroadcast BroadcastProofs Pack PackProofs Implicit Jac SpecJac SpecAlgebra MatProofs EagerModel SpecEagerModel EagerParam SpecEagerParam EagerParamProofs EagerParamMoreProofs.
Local Open Scope string_scope.
Local Open Scope list_scope.

(** Reverse mode of a function whose derivatives are [J]: nothing for a leaf where they all vanish. *)
Section Autograd.
  Variable outs : list (string * list nat).
  Variable C : list nat.
  Variable vals : list (tensor Z).
  Variable J : slopes Z.
  Definition vanishes (o q : string) (n k : nat) : bool := forallb (fun r => forallb (fun c => Z.eqb (J o q r c) 0) (seq 0 k)) (seq 0 n).
  Definition gradient (o : string) (n : nat) (w : tensor Z) (lf : string * tensor Z) : option (tensor Z) :=
    if vanishes o (fst lf) n (numel (t_shape (snd lf))) then None
    else Some (mkT (t_shape (snd lf)) (map (fun c => sum_to 0%Z Z.add n (fun r => Z.mul (nth r (t_data w) 0%Z) (J o (fst lf) r c))) (seq 0 (numel (t_shape (snd lf))))) (t_dev (snd lf))).
  Definition tracks (leaf : smap (tensor Z)) : list (tracked Z) :=
    map (fun x => mkTr (mkW (snd x) 0 0) (Some (fun w => map (gradient (fst (fst x)) (numel (C ++ snd (fst x))) w) leaf))) (combine outs vals).
  Lemma gradient_pulls o n w lf : pulls 0%Z Z.add Z.mul J o n w lf (gradient o n w lf).
  Proof.
    unfold gradient. destruct (vanishes _ _ _ _) eqn:E; cbn [pulls].
    - intros r c Hr Hc. unfold vanishes in E. rewrite forallb_forall in E. assert (Ir : In r (seq 0 n)) by (apply in_seq; lia). specialize (E r Ir). rewrite forallb_forall in E. apply Z.eqb_eq. apply E. apply in_seq. lia.
    - split; [unfold wf; cbn [t_data t_shape]; rewrite map_length; apply seq_length|]. split; [reflexivity|]. split; [reflexivity|]. intros c Hc. cbn [t_data]. apply (map_nth_error (fun c => sum_to 0%Z Z.add n (fun r => Z.mul (nth r (t_data w) 0%Z) (J o (fst lf) r c)))). apply seq_nth_error. exact Hc.
  Qed.
  Lemma tracks_ok m d leaf : em_outs m = outs -> Forall2 (fun o t => wf t /\ t_dev t = d /\ t_shape t = C ++ snd o) outs vals -> differentiates 0%Z Z.add Z.mul m d C leaf (tracks leaf) J.
  Proof.
    intros Eo F. unfold differentiates, tracks. rewrite Eo. clear Eo. induction F as [|o t os ts (W & D & S) F IH]; cbn [combine map]; constructor; [|exact IH].
    cbn [tr_out tr_grad w_data fst snd]. split; [exact W|]. split; [exact D|]. split; [exact S|]. intros w _ _ _. clear. induction leaf as [|lf leaf IH]; cbn [map]; constructor; [apply gradient_pulls|exact IH].
  Qed.
  Lemma tracks_all leaf : Forall (fun tr => tr_grad tr <> None) (tracks leaf).
  Proof. unfold tracks. apply Forall_forall. intros tr H. apply in_map_iff in H as (x & <- & _). discriminate. Qed.
End Autograd.

(** y = a x + b and z = x k over a batch of two; [a] and the vector [k] are shared by the batch, [b] has a value for each entry. *)
Definition pm_vals : list (tensor Z) := [mkT [2] [13; 21]%Z cpu; mkT [2; 2] [3; 12; 5; 20]%Z cpu].
Definition pm_outs : list (string * list nat) := [("y", []); ("z", [2])].
Definition pm_model : emodel Z := mkEM [("x", [])] pm_outs cpu (fun _ _ _ => Ok (map (fun t => mkW t 0 0) pm_vals, [])).
Definition pm_params : eparams Z := [("a", mkEP (mkT [] [2]%Z cpu) 0 0); ("b", mkEP (mkT [2] [7; 11]%Z cpu) 0 0); ("k", mkEP (mkT [2] [1; 4]%Z cpu) 1 0)].
Definition pm_in : smap (tensor Z) := [("x", mkT [2] [3; 5]%Z cpu)].
Definition pm_args : list (wrapper Z) := [mkW (mkT [2] [3; 5]%Z cpu) 0 0].
Definition pm_leaf : smap (tensor Z) := [("a", mkT [2] [2; 2]%Z cpu); ("b", mkT [2] [7; 11]%Z cpu); ("k", mkT [2; 2] [1; 4; 1; 4]%Z cpu)].
Definition pm_x (r : nat) : Z := nth r [3; 5]%Z 0%Z.
(** With a copy of the parameters for every entry; with the parameters as they are. *)
Definition pm_J (o q : string) (r c : nat) : Z :=
  if String.eqb o "y"
  then if String.eqb q "a" then if Nat.eqb r c then pm_x r else 0%Z else if String.eqb q "b" then if Nat.eqb r c then 1%Z else 0%Z else 0%Z
  else if String.eqb q "k" then if Nat.eqb r c then pm_x (r / 2) else 0%Z else 0%Z.
Definition pm_J0 (o q : string) (r c : nat) : Z :=
  if String.eqb o "y"
  then if String.eqb q "a" then pm_x r else if String.eqb q "b" then if Nat.eqb r c then 1%Z else 0%Z else 0%Z
  else if String.eqb q "k" then if Nat.eqb (r mod 2) c then pm_x (r / 2) else 0%Z else 0%Z.
Definition pm_ad (leaf : smap (tensor Z)) (_ : list (wrapper Z)) : result (list (tracked Z)) :=
  match lookup "a" leaf with
  | Some t => Ok (tracks pm_outs [2] pm_vals (if Nat.eqb (dim t) 0 then pm_J0 else pm_J) leaf)
  | None => Err (StdExn "no a")
  end.
Definition pm_cots : smap (tensor Z) := [("y", mkT [2] [1; 10]%Z cpu); ("z", mkT [2; 2] [1; 2; 3; 4]%Z cpu)].

Lemma pm_named : named pm_model.
Proof. split; (repeat (constructor; [cbn; intuition discriminate|]); constructor). Qed.
Lemma pm_keys : NoDup (keys pm_params).
Proof. repeat (constructor; [cbn; intuition discriminate|]). constructor. Qed.
Lemma pm_wf : given_wf pm_model pm_in.
Proof. intros i t [<-|[]] E; cbn in E; injection E as <-; reflexivity. Qed.
Lemma pm_on : all_on pm_model pm_in cpu.
Proof. intros i t [<-|[]] E; cbn in E; injection E as <-; reflexivity. Qed.
Lemma pm_welcome : welcome pm_model pm_in [2].
Proof.
  split.
  - exists [[2]]. split; [constructor; [exists (mkT [2] [3; 5]%Z cpu), []; repeat split|constructor]|apply infer_all_iff; reflexivity].
  - intros i t Hi L. rewrite (pm_on i t Hi L). split; [reflexivity|right; reflexivity].
Qed.
Lemma pm_lifted : lifted pm_model pm_in [2] pm_args.
Proof.
  constructor; [|constructor]. split; [reflexivity|]. split; [reflexivity|]. split; [reflexivity|]. eexists. split; [reflexivity|]. split; [reflexivity|]. split; [reflexivity|]. intros idx H. rewrite pull_refl by exact H. reflexivity.
Qed.
Lemma pm_returned : exists ws v, em_native pm_model (values pm_params) pm_args None = Ok (ws, v) /\ returned pm_model ws pm_vals.
Proof. eexists. eexists. split; [reflexivity|]. split; [reflexivity|]. split; [repeat constructor|reflexivity]. Qed.
Lemma pm_calls : calls_at pm_params [2] [2].
Proof. apply infer_all_iff. reflexivity. Qed.
Lemma pm_plain : plain_params cpu pm_params.
Proof.
  intros q p [E|[E|[E|[]]]]; injection E as <- <-; [exists [], []|exists [2], []|exists [], [2]]; repeat split.
Qed.
Lemma pm_copies : copies cpu [2] pm_params pm_leaf.
Proof.
  constructor; [|constructor; [|constructor; [|constructor]]]; (split; [reflexivity|]); [exists [], []|exists [2], []|exists [], [2]]; (split; [repeat split|]); (split; [reflexivity|]); cbn [snd ep_val]; match goal with |- broadcasts ?t ?u => refine (proj2 (expand_ok t u (t_shape u) _ _)); reflexivity end.
Qed.
Lemma pm_shapes : Forall2 (fun o t => wf t /\ t_dev t = cpu /\ t_shape t = [2] ++ snd o) pm_outs pm_vals.
Proof. repeat constructor. Qed.
Lemma pm_differentiates : exists trs, pm_ad pm_leaf pm_args = Ok trs /\ differentiates 0%Z Z.add Z.mul pm_model cpu [2] pm_leaf trs pm_J /\ Forall (fun tr => tr_grad tr <> None) trs.
Proof. eexists. split; [reflexivity|]. split; [apply tracks_ok; [reflexivity|exact pm_shapes]|apply tracks_all]. Qed.
Lemma pm_differentiates0 : exists trs, pm_ad (values pm_params) pm_args = Ok trs /\ differentiates 0%Z Z.add Z.mul pm_model cpu [2] (values pm_params) trs pm_J0 /\ Exists (fun tr => tr_grad tr <> None) trs.
Proof. eexists. split; [reflexivity|]. split; [apply tracks_ok; [reflexivity|exact pm_shapes]|left; discriminate]. Qed.
Lemma pm_own : own_copy 0%Z pm_model cpu [2] pm_params pm_J.
Proof.
  intros o ob q p batch base b b' i j Io Ip Hp Hb Hb' N Hi Hj. pose proof (plain_base _ _ _ _ _ Hp) as Eb. clear Hp.
  destruct Io as [E|[E|[]]]; injection E as <- <-; (destruct Ip as [E|[E|[E|[]]]]; injection E as <- <-); cbn in Eb; subst base; cbn [numel fold_right] in *; unfold pm_J; cbn [String.eqb Ascii.eqb Bool.eqb]; try reflexivity;
    match goal with |- (if Nat.eqb ?a ?c then _ else _) = _ => destruct (Nat.eqb_spec a c); [exfalso; nia|reflexivity] end.
Qed.
Lemma pm_sized o ob : In (o, ob) (em_outs pm_model) -> 0 < numel ob.
Proof. intros [E|[E|[]]]; injection E as <- <-; cbn; lia. Qed.
Lemma pm_cotangents : cotangents_ok pm_model cpu [2] pm_cots.
Proof. intros o ob [E|[E|[]]]; injection E as <- <-; eexists; repeat split. Qed.
Lemma pm_shares_a : shares 0%Z Z.add pm_model [2] pm_J0 pm_J "a" 1.
Proof.
  intros o ob r c [E|[E|[]]] Hr Hc; injection E as <- <-; cbn [numel fold_right app] in Hr; assert (c = 0) by lia; subst c; do 4 (destruct r as [|r]; [reflexivity|]); lia.
Qed.
Lemma pm_shares_k : shares 0%Z Z.add pm_model [2] pm_J0 pm_J "k" 2.
Proof.
  intros o ob r c [E|[E|[]]] Hr Hc; injection E as <- <-; cbn [numel fold_right app] in Hr; (do 2 (destruct c as [|c]; [do 4 (destruct r as [|r]; [reflexivity|]); lia|])); lia.
Qed.

(** y = a x and u = 2 x: the output [u] depends on no parameter, and has no graph. *)
Definition cm_vals : list (tensor Z) := [mkT [2] [6; 10]%Z cpu; mkT [2] [6; 10]%Z cpu].
Definition cm_model : emodel Z := mkEM [("x", [])] [("y", []); ("u", [])] cpu (fun _ _ _ => Ok (map (fun t => mkW t 0 0) cm_vals, [])).
Definition cm_params : eparams Z := [("a", mkEP (mkT [] [2]%Z cpu) 0 0)].
Definition cm_leaf : smap (tensor Z) := [("a", mkT [2] [2; 2]%Z cpu)].
Definition cm_J (o q : string) (r c : nat) : Z := if String.eqb o "y" then if Nat.eqb r c then pm_x r else 0%Z else 0%Z.
Definition cm_trs (leaf : smap (tensor Z)) : list (tracked Z) := tracks [("y", [])] [2] [mkT [2] [6; 10]%Z cpu] cm_J leaf ++ [mkTr (mkW (mkT [2] [6; 10]%Z cpu) 0 0) None].
Definition cm_ad (leaf : smap (tensor Z)) (_ : list (wrapper Z)) : result (list (tracked Z)) := Ok (cm_trs leaf).
Lemma cm_copies : copies cpu [2] cm_params cm_leaf.
Proof.
  constructor; [|constructor]. split; [reflexivity|]. exists [], []. split; [repeat split|]. split; [reflexivity|]. cbn [snd ep_val]. match goal with |- broadcasts ?t ?u => refine (proj2 (expand_ok t u (t_shape u) _ _)); reflexivity end.
Qed.
Lemma cm_differentiates : differentiates 0%Z Z.add Z.mul cm_model cpu [2] cm_leaf (cm_trs cm_leaf) cm_J.
Proof.
  pose proof (tracks_ok [("y", [])] [2] [mkT [2] [6; 10]%Z cpu] cm_J (mkEM [("x", [])] [("y", [])] cpu (em_native cm_model)) cpu cm_leaf eq_refl ltac:(repeat constructor)) as H.
  unfold differentiates in *. cbn [em_outs cm_model] in *. change [("y", []); ("u", [])] with ([("y", [] : list nat)] ++ [("u", [])]). apply Forall2_app; [exact H|]. constructor; [|constructor].
  repeat split; try reflexivity.
Qed.
Lemma cm_own : own_copy 0%Z cm_model cpu [2] cm_params cm_J.
Proof.
  intros o ob q p batch base b b' i j Io Ip Hp Hb Hb' N Hi Hj. pose proof (plain_base _ _ _ _ _ Hp) as Eb. clear Hp.
  destruct Io as [E|[E|[]]]; injection E as <- <-; (destruct Ip as [E|[]]; injection E as <- <-); cbn in Eb; subst base; cbn [numel fold_right] in *; unfold cm_J; cbn [String.eqb Ascii.eqb Bool.eqb]; try reflexivity;
    match goal with |- (if Nat.eqb ?a ?c then _ else _) = _ => destruct (Nat.eqb_spec a c); [exfalso; nia|reflexivity] end.
Qed.

(** y = x (k1 + k2 + k3): a parameter with an axis of three knots, which the model sums over. *)
Definition gm_model (n : nat) : emodel Z := mkEM [("x", [])] [("y", [])] cpu
  (fun P args _ => match lookup "k" P, args with Some k, [x] => Ok ([mkW (mkT [n] (map (Z.mul (fold_right Z.add 0%Z (t_data k))) (t_data (w_data x))) cpu) 0 0], []) | _, _ => Err (StdExn "") end).
Definition gm_params : eparams Z := [("k", mkEP (mkT [3] [1; 2; 4]%Z cpu) 0 1)].
Definition gm_in (l : list Z) : smap (tensor Z) := [("x", mkT [length l] l cpu)].
Definition gm_J (l : list Z) (o q : string) (r c : nat) : Z := nth r l 0%Z.
Definition gm_ad (leaf : smap (tensor Z)) (args : list (wrapper Z)) : result (list (tracked Z)) :=
  match lookup "k" leaf, args with
  | Some k, [x] => Ok (tracks [("y", [])] (t_shape (w_data x)) [mkT (t_shape (w_data x)) (map (Z.mul (fold_right Z.add 0%Z (t_data k))) (t_data (w_data x))) cpu] (gm_J (t_data (w_data x))) leaf)
  | _, _ => Err (StdExn "")
  end.
