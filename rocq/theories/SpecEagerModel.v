(** Vocabulary of C76: the eager model. *)
From Verif Require Import Base Tensor Spec SpecMap Broadcast SpecBroadcast Pack Implicit Jac JacModel SpecJac SpecAlgebra EagerModel.

(** A declared input, as the compiled model declares one without sub-batch axes. *)
Definition plain (i : string * list nat) : in_info := mkIn (fst i) [] (snd i).
(** The device a model works on: of its type and, when it names one, its index. *)
Definition on_device (target d : device) : Prop := d_type d = d_type target /\ (d_index target = (-1)%Z \/ d_index d = d_index target).

Section Eager.
  Context {V : Type}.
  Notation vmap := (smap (tensor V)).
  Variable m : emodel V.

  Definition given_wf (I : vmap) : Prop := forall i t, In i (em_ins m) -> lookup (fst i) I = Some t -> wf t.
  (** Inputs the model takes: all declared ones, on the device, canonical, with batch shapes whose broadcast is [D]. *)
  Definition welcome (I : vmap) (D : list nat) : Prop :=
    acceptable (map plain (em_ins m)) I D /\ forall i t, In i (em_ins m) -> lookup (fst i) I = Some t -> on_device (em_dev m) (t_dev t).
  (** What the model in Python is called with: the inputs in declared order, broadcast to [D]. *)
  Definition lifted (I : vmap) (D : list nat) (args : list (wrapper V)) : Prop :=
    Forall2 (fun i a => w_sub a = 0 /\ w_k a = 0 /\ t_shape (w_data a) = D ++ snd i /\ exists t, lookup (fst i) I = Some t /\ broadcasts t (w_data a)) (em_ins m) args.
  (** Outputs of the model in Python: one for each declared output, without sub-batch axes. *)
  Definition returned (ws : list (wrapper V)) (vals : list (tensor V)) : Prop :=
    length ws = length (em_outs m) /\ Forall (fun w => w_sub w = 0) ws /\ map w_data ws = vals.
  (** A result holds exactly these tensors under the names of the outputs. *)
  Definition outputs_are (r : vmap) (vals : list (tensor V)) : Prop :=
    sorted r /\ (forall n, lookup n r <> None <-> In n (map fst (em_outs m))) /\ Forall2 (fun o t => lookup (fst o) r = Some t) (em_outs m) vals.
  (** An error a caller may retry after, one it may not. *)
  Definition fatal {X} (r : result X) : Prop := exists w, r = Err (Fatal w).
  Definition recoverable {X} (r : result X) : Prop := exists w, r = Err (Convergence w).

  (** ** The chain rule of the model in Python *)
  Section Chain.
    Variable zero : V.
    Variables add mul : V -> V -> V.
    Variable d : device.
    Variable C : list nat.
    Variable k : nat.

    (** Seeds: for some inputs a stack of [n] directions over the batch [C]. *)
    Definition seed_for (i : string) (base : list nat) (n : nat) (w : wrapper V) (S : chain V) : Prop :=
      In (i, [(i, w)]) S /\ In (i, base) (em_ins m) /\ w_k w = k /\ w_sub w = 0 /\ wf (w_data w) /\ t_dev (w_data w) = d /\ t_shape (w_data w) = n :: C ++ base.
    Definition seeds_of (S : chain V) : Prop :=
      NoDup (keys S) /\ forall s, In s S -> exists base n w, s = (fst s, [(fst s, w)]) /\ seed_for (fst s) base n w S.
    (** Direction [j] of a seed at batch entry [e], as a tangent of the inputs. *)
    Definition direction (i : string) (base : list nat) (w : wrapper V) (j : nat) (e : list nat) (v : string) (r : nat) : V :=
      if String.eqb v i && Nat.ltb r (numel base)
      then match elem (w_data w) (j :: e ++ index_at base r) with Some x => x | None => zero end
      else zero.
    (** The model in Python at the arguments [args], linearised at batch entry [e] as [L e] (latest first): whatever the seeds, it
        returns the values [vals] and, for every output and every seeded input, the seed's directions carried forward -- or
        nothing, where all of them are carried to zero. *)
    Definition carries (P : smap (tensor V)) (args : list (wrapper V)) (vals : list (tensor V)) (L : list nat -> list (lin V)) : Prop :=
      forall S, seeds_of S -> exists ws v, em_native m P args (Some S) = Ok (ws, v) /\ returned ws vals /\
        forall o ob, In (o, ob) (em_outs m) ->
          NoDup (keys (contributions v o)) /\ incl (keys (contributions v o)) (keys S) /\
          forall i base n w, seed_for i base n w S ->
            match lookup i (contributions v o) with
            | Some b => wf (w_data b) /\ t_dev (w_data b) = d /\ t_shape (w_data b) = n :: C ++ ob /\
                        forall j e x, j < n -> index_of C e -> index_of ob x ->
                          elem (w_data b) (j :: e ++ x) = Some (push zero add mul (L e) (direction i base w j e) o (ravel ob x))
            | None => forall j e x, j < n -> index_of C e -> index_of ob x -> push zero add mul (L e) (direction i base w j e) o (ravel ob x) = zero
            end.
    (** The values of the outputs over the batch [C]. *)
    Definition values_over (vals : list (tensor V)) : Prop :=
      Forall2 (fun o t => wf t /\ t_dev t = d /\ t_shape t = C ++ snd o) (em_outs m) vals.
    (** The tangents of a call as one tangent of all inputs; an input without has zeros. *)
    Definition tangent (T : vmap) (e : list nat) (v : string) (r : nat) : V :=
      match find (fun i => String.eqb (fst i) v) (em_ins m) with
      | Some i => nth r (tangent_at zero T (plain i) e) zero
      | None => zero
      end.
  End Chain.
End Eager.

(** The batch of a call: the broadcast of the inputs' batch and the batches of the parameters. *)
Definition calls_at {V} (P : eparams V) (D C : list nat) : Prop :=
  broadcast_of (D :: map (fun p => firstn (dim (ep_val (snd p)) - ep_base (snd p) - ep_sub (snd p)) (t_shape (ep_val (snd p)))) P) C.

(** A compiled model of the same inputs and outputs. *)
Definition twin {V} (m : emodel V) (jm : jmodel V) : Prop := jm_inputs jm = map plain (em_ins m) /\ jm_outs jm = em_outs m.
(** All inputs of the call on the device [d]. *)
Definition all_on {V} (m : emodel V) (I : smap (tensor V)) (d : device) : Prop :=
  forall i t, In i (em_ins m) -> lookup (fst i) I = Some t -> t_dev t = d.
(** The names of inputs and of outputs are all different. *)
Definition named {V} (m : emodel V) : Prop := NoDup (map fst (em_ins m)) /\ NoDup (map fst (em_outs m)).
(** Tangents a call takes. *)
Definition tangents_ok {V} (m : emodel V) (T : smap (tensor V)) (d : device) (D : list nat) : Prop :=
  forall i t, In i (em_ins m) -> lookup (fst i) T = Some t -> tangent_ok d D (plain i) t.
