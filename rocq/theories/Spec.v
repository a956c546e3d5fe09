(** Specification vocabulary shared by the property theorems.  Nothing here
    models code: these are the words the properties are stated in. *)
From Verif Require Import Base Tensor.

(** [tiles s b l]: the ranges (start, count) of [l] are non-empty, adjacent, in
    order, and cover exactly the integers [s .. b-1]. *)
Inductive tiles : Z -> Z -> list (Z * Z) -> Prop :=
| tiles_nil : forall b, tiles b b []
| tiles_cons : forall s c b l, (0 < c)%Z -> tiles (s + c) b l -> tiles s b ((s, c) :: l).

(** [is_rows s c t u]: [u] consists of the [c] rows of [t] starting at row [s],
    element by element, on the same device. *)
Definition is_rows {V} (s c : nat) (t u : tensor V) : Prop :=
  t_shape u = c :: tl (t_shape t) /\
  t_dev u = t_dev t /\
  length (t_data u) = c * numel (tl (t_shape t)) /\
  forall i j, i < c -> j < numel (tl (t_shape t)) ->
    nth_error (t_data u) (i * numel (tl (t_shape t)) + j)
    = nth_error (t_data t) ((s + i) * numel (tl (t_shape t)) + j).

(** The rows [s .. s+c-1] of [t] as a tensor (the unique [u] with [is_rows]). *)
Definition rows_of {V} (s c : nat) (t : tensor V) : tensor V :=
  let st := numel (tl (t_shape t)) in
  mkT (c :: tl (t_shape t)) (firstn (c * st) (skipn (s * st) (t_data t))) (t_dev t).

(** Every range but the last has the full chunk length. *)
Definition full_but_last (chunk : Z) (l : list (Z * Z)) : Prop :=
  forall l1 x l2, l = l1 ++ x :: l2 -> l2 <> [] -> snd x = chunk.

(** The elements of row [i] of [t], in order. *)
Definition row {V} (t : tensor V) (i : nat) : list V :=
  let st := numel (tl (t_shape t)) in firstn st (skipn (i * st) (t_data t)).

(** A list of row numbers of a batch of size [b]. *)
Definition idx_ok (b : nat) (idx : list Z) : Prop :=
  Forall (fun i => (0 <= i < Z.of_nat b)%Z) idx.

(** Leading axis of size [b]. *)
Definition batched {V} (b : nat) (t : tensor V) : Prop := exists r, t_shape t = b :: r.

(** The documented dispatcher contract on a value map (batch_chunk.h:32-36):
    every entry is well formed and is fully batched, has leading size 1, or has
    rank 0; and [b] is the batch size, i.e. it is 1 or some entry has it. *)
Definition conforming {V} (b : nat) (m : smap (tensor V)) : Prop :=
  Forall (fun kt => wf (snd kt) /\
                    (t_shape (snd kt) = [] \/ batched 1 (snd kt) \/ batched b (snd kt))) m.

Definition contract {V} (b : nat) (m : smap (tensor V)) : Prop :=
  1 <= b /\ conforming b m /\ (b = 1 \/ Exists (fun kt => batched b (snd kt)) m).

(** What a chunk [s .. s+c-1] of a batch of size [b] must see of an entry: its
    rows when the entry is batched, the whole entry otherwise. *)
Definition has_lead {V} (b : nat) (t : tensor V) : bool :=
  match t_shape t with [] => false | n :: _ => Nat.eqb n b end.

Definition chunk_of {V} (b s c : nat) (t : tensor V) : tensor V :=
  if has_lead b t then rows_of s c t else t.

Definition chunk_map {V} (b s c : nat) (m : smap (tensor V)) : smap (tensor V) :=
  vmap_ (chunk_of b s c) m.

(** The same for a parameter with natural base rank [nd]: it is per batch
    element when it has an axis beyond its base and that axis has size [b]. *)
Definition chunk_param {V} (b s c nd : nat) (t : tensor V) : tensor V :=
  if Nat.leb (nd + 1) (dim t) && has_lead b t then rows_of s c t else t.

Definition chunk_params {V} (b s c : nat) (nds : smap nat) (P : smap (tensor V))
  : smap (tensor V) :=
  map (fun kt => (fst kt, chunk_param b s c
                            (match lookup (fst kt) nds with Some n => n | None => 0 end)
                            (snd kt))) P.

(** Every entry is on device [d]. *)
Definition all_on {V} (d : device) (m : smap (tensor V)) : Prop :=
  Forall (fun kt => t_dev (snd kt) = d) m.

(** The map moved to device [d]. *)
Definition on_dev {V} (d : device) (m : smap (tensor V)) : smap (tensor V) :=
  vmap_ (to_dev d) m.

(** ** Row-independent evaluation
    What "the Model treats batch rows independently" means for the four kinds
    of evaluation; [ref] is the evaluation on the undivided batch as a function
    of parameters and arguments. *)

Definition valid_range (b s c : nat) : Prop := 0 < c /\ s + c <= b.

(** A fully batched value map. *)
Definition full_map {V} (b : nat) (m : smap (tensor V)) : Prop :=
  NoDup (keys m) /\ Forall (fun kt => wf (snd kt) /\ batched b (snd kt)) m.

(** If every range of a tiling evaluates without error, so does the whole. *)
Definition no_new_error {A R} (b : nat) (ch : nat -> nat -> A -> A) (ref : A -> result R) (a : A)
  : Prop :=
  forall l, tiles 0 (Z.of_nat b) l ->
    Forall (fun x => is_ok (ref (ch (Z.to_nat (fst x)) (Z.to_nat (snd x)) a)) = true) l ->
    is_ok (ref a) = true.

Section RowIndependence.
  Context {V : Type}.
  Notation vmap := (smap (tensor V)).
  Notation nmap := (smap (smap (tensor V))).
  Variable nds : smap nat.   (* base rank of each parameter *)
  Variable b : nat.          (* batch size *)

  Definition ch1 (s c : nat) (a : vmap * vmap) : vmap * vmap :=
    (chunk_params b s c nds (fst a), chunk_map b s c (snd a)).
  Definition ch2 (s c : nat) (a : vmap * vmap * vmap) : vmap * vmap * vmap :=
    (chunk_params b s c nds (fst (fst a)), chunk_map b s c (snd (fst a)),
     chunk_map b s c (snd a)).

  Definition forward_rows (ref : vmap * vmap -> result vmap) (a : vmap * vmap) : Prop :=
    (forall out, ref a = Ok out ->
       full_map b out /\
       forall s c, valid_range b s c -> ref (ch1 s c a) = Ok (chunk_map b s c out)) /\
    no_new_error b ch1 ref a.

  Definition jvp_rows (ref : vmap * vmap * vmap -> result (vmap * vmap)) (a : vmap * vmap * vmap)
    : Prop :=
    (forall out jout, ref a = Ok (out, jout) ->
       full_map b out /\ full_map b jout /\
       forall s c, valid_range b s c ->
         ref (ch2 s c a) = Ok (chunk_map b s c out, chunk_map b s c jout)) /\
    no_new_error b ch2 ref a.

  (** Jacobian blocks: [trail] axes and no more means batch-independent. *)
  Definition chunk_block (trail s c : nat) (t : tensor V) : tensor V :=
    if Nat.eqb (dim t) trail then t else rows_of s c t.

  Definition trail_of (onds inds : smap nat) (o i : string) : nat :=
    match lookup o onds, lookup i inds with Some x, Some y => x + y | _, _ => 0 end.

  Definition chunk_nested (onds inds : smap nat) (s c : nat) (j : nmap) : nmap :=
    map (fun orow =>
           (fst orow, map (fun it => (fst it, chunk_block (trail_of onds inds (fst orow) (fst it))
                                                         s c (snd it))) (snd orow))) j.

  Definition full_nested (onds inds : smap nat) (j : nmap) : Prop :=
    NoDup (keys j) /\
    Forall (fun orow =>
              snd orow <> [] /\ NoDup (keys (snd orow)) /\ In (fst orow) (keys onds) /\
              Forall (fun it => In (fst it) (keys inds) /\ wf (snd it) /\
                        (dim (snd it) = trail_of onds inds (fst orow) (fst it) \/
                         batched b (snd it))) (snd orow)) j.

  Definition jacobian_rows (onds inds : smap nat)
             (ref : vmap * vmap -> result (vmap * nmap)) (a : vmap * vmap) : Prop :=
    (forall out j, ref a = Ok (out, j) ->
       full_map b out /\ full_nested onds inds j /\
       forall s c, valid_range b s c ->
         ref (ch1 s c a) = Ok (chunk_map b s c out, chunk_nested onds inds s c j)) /\
    no_new_error b ch1 ref a.

  (** [is_sum add x y z]: [z] is the element-wise sum of [x] and [y]. *)
  Definition is_sum (add : V -> V -> V) (x y z : tensor V) : Prop :=
    t_shape x = t_shape y /\ t_shape z = t_shape x /\
    t_data z = map (fun p => add (fst p) (snd p)) (combine (t_data x) (t_data y)).

  (** Gradients: per batch element for a parameter stored per batch element,
      additive over adjacent ranges for every other one. *)
  Definition per_element (P : vmap) (q : string) : Prop :=
    exists t, lookup q P = Some t /\ batched b t /\
              (match lookup q nds with Some n => n | None => 0 end) < dim t.

  Definition vjp_rows (add : V -> V -> V)
             (ref : vmap * vmap * vmap -> result vmap) (a : vmap * vmap * vmap) : Prop :=
    (forall r, ref a = Ok r ->
       NoDup (keys r) /\
       exists g : nat -> nat -> vmap,
         (forall s c, valid_range b s c -> ref (ch2 s c a) = Ok (g s c) /\ keys (g s c) = keys r) /\
         g 0 b = r /\
         forall q t, lookup q r = Some t ->
           (per_element (fst (fst a)) q ->
              wf t /\ batched b t /\
              forall s c, valid_range b s c ->
                exists u, lookup q (g s c) = Some u /\ to_dev cpu u = to_dev cpu (rows_of s c t)) /\
           (~ per_element (fst (fst a)) q ->
              forall s c1 c2, 0 < c1 -> 0 < c2 -> s + c1 + c2 <= b ->
                exists x y z, lookup q (g s c1) = Some x /\ lookup q (g (s + c1) c2) = Some y /\
                              lookup q (g s (c1 + c2)) = Some z /\ is_sum add x y z)) /\
    no_new_error b ch2 ref a.
End RowIndependence.

(** The Model loaded on device [d] computes [ref]: given everything on [d], it
    returns [ref]'s answer on [d]. *)
Definition on_pair {V} (d : device) (p : smap (tensor V) * smap (tensor V)) :=
  (on_dev d (fst p), on_dev d (snd p)).
Definition on_nested {V} (d : device) (j : smap (smap (tensor V))) := vmap_ (on_dev d) j.

Definition computes1 {V R} (f : device -> smap (tensor V) -> smap (tensor V) -> result R)
           (mv : device -> R -> R) (ref : smap (tensor V) * smap (tensor V) -> result R)
           (d : device) : Prop :=
  forall P I, f d (on_dev d P) (on_dev d I) = rmap (mv d) (ref (P, I)).
Definition computes2 {V R}
           (f : device -> smap (tensor V) -> smap (tensor V) -> smap (tensor V) -> result R)
           (mv : device -> R -> R)
           (ref : smap (tensor V) * smap (tensor V) * smap (tensor V) -> result R)
           (d : device) : Prop :=
  forall P I T, f d (on_dev d P) (on_dev d I) (on_dev d T) = rmap (mv d) (ref (P, I, T)).

(** Parameters as [named_parameters()] holds them. *)
Definition params_ok {V} (P : smap (tensor V)) : Prop :=
  NoDup (keys P) /\ Forall (fun kt => wf (snd kt)) P.

(** [agrees x y]: the call [x] returns exactly what [y] returns, and throws
    exactly when [y] throws (which exception may differ: a chunked evaluation
    meets the failing rows in a different grouping). *)
Definition agree_result {R} (x y : result R) : Prop :=
  match y with
  | Ok r => x = Ok r
  | Err _ => exists e, x = Err e
  end.
