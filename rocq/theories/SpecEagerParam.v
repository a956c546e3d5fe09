(** Vocabulary of C78: derivatives of an eager model with respect to its parameters. *)
From Verif Require Import Base Tensor Spec Broadcast SpecBroadcast Jac SpecAlgebra EagerModel SpecEagerModel EagerParam.

Section Spec.
  Context {V : Type}.
  Notation vmap := (smap (tensor V)).
  Variable zero : V.
  Variables add mul : V -> V -> V.
  Variable m : emodel V.
  Variable d : device.
  Variable C : list nat.
  Notation sum_to := (sum_to zero add).
  Notation sum := (sum zero add).

  (** Derivative of entry [r] of an output with respect to entry [c] of a parameter; entries counted in row-major order. *)
  Definition slopes : Type := string -> string -> nat -> nat -> V.

  (** What autograd must give for the cotangent [w] of the output [o], for the leaf [lf]: the transposed derivative applied to
      [w]; nothing only where the derivative is zero. *)
  Definition pulls (J : slopes) (o : string) (n : nat) (w : tensor V) (lf : string * tensor V) (g : option (tensor V)) : Prop :=
    match g with
    | Some t => wf t /\ t_dev t = t_dev (snd lf) /\ t_shape t = t_shape (snd lf) /\
                forall c, c < numel (t_shape (snd lf)) -> nth_error (t_data t) c = Some (sum_to n (fun r => mul (nth r (t_data w) zero) (J o (fst lf) r c)))
    | None => forall r c, r < n -> c < numel (t_shape (snd lf)) -> J o (fst lf) r c = zero
    end.
  (** The run that tracks the leaves gives outputs over the batch [C] whose derivatives are [J]; an output without a graph depends
      on no leaf. *)
  Definition differentiates (leaf : vmap) (trs : list (tracked V)) (J : slopes) : Prop :=
    Forall2 (fun o tr => wf (w_data (tr_out tr)) /\ t_dev (w_data (tr_out tr)) = d /\ t_shape (w_data (tr_out tr)) = C ++ snd o /\
      match tr_grad tr with
      | Some g => forall w, wf w -> t_dev w = d -> t_shape w = C ++ snd o -> Forall2 (pulls J (fst o) (numel (C ++ snd o)) w) leaf (g w)
      | None => forall lf r c, In lf leaf -> r < numel (C ++ snd o) -> c < numel (t_shape (snd lf)) -> J (fst o) (fst lf) r c = zero
      end) (em_outs m) trs.

  (** Parameters on the device [d], with a batch but no sub-batch axes before the axes of their type. *)
  Definition plain_param (q : string) (p : eparam V) (batch base : list nat) : Prop :=
    wf (ep_val p) /\ t_dev (ep_val p) = d /\ ep_sub p = 0 /\ ep_base p = length base /\ t_shape (ep_val p) = batch ++ base.
  Definition plain_params (P : eparams V) : Prop := forall q p, In (q, p) P -> exists batch base, plain_param q p batch base.
  (** The parameters copied to every entry of the batch [C]. *)
  Definition copies (P : eparams V) (leaf : vmap) : Prop :=
    Forall2 (fun p lf => fst lf = fst p /\ exists batch base, plain_param (fst p) (snd p) batch base /\
                         t_shape (snd lf) = C ++ base /\ broadcasts (ep_val (snd p)) (snd lf)) P leaf.
  (** An entry of the batch depends on its own copy only. *)
  Definition own_copy (P : eparams V) (J : slopes) : Prop :=
    forall o ob q p batch base b b' i j, In (o, ob) (em_outs m) -> In (q, p) P -> plain_param q p batch base -> b < numel C -> b' < numel C -> b <> b' ->
      i < numel ob -> j < numel base -> J o q (b * numel ob + i) (b' * numel base + j) = zero.
  (** Cotangents of the outputs at their shapes. *)
  Definition cotangents_ok (W : vmap) : Prop :=
    forall o ob, In (o, ob) (em_outs m) -> exists w, lookup o W = Some w /\ wf w /\ t_dev w = d /\ t_shape w = C ++ ob.
  Definition cotangent (W : vmap) (o : string) (r : nat) : V :=
    match lookup o W with Some w => nth r (t_data w) zero | None => zero end.
  (** The loss, sum over the outputs of <cotangent, output>, differentiated with respect to entry [c] of [q]. *)
  Definition loss_slope (J : slopes) (W : vmap) (q : string) (c : nat) : V :=
    sum (map (fun o => sum_to (numel (C ++ snd o)) (fun r => mul (cotangent W (fst o) r) (J (fst o) q r c))) (em_outs m)).
  (** Running the model with a parameter is running it with equal copies of the parameter at every entry of the batch. *)
  Definition shares (J0 J : slopes) (q : string) (np : nat) : Prop :=
    forall o ob r c, In (o, ob) (em_outs m) -> r < numel (C ++ ob) -> c < np -> J0 o q r c = sum_to (numel C) (fun b => J o q r (b * np + c)).
End Spec.
Arguments slopes V : clear implicits.
