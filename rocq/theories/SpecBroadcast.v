(** Specification vocabulary: broadcasting by positions and multi-indices. *)
From Verif Require Import Base Tensor Spec Broadcast.

(** Size of the axis [p] places from the end. *)
Definition rsize (sh : list nat) (p : nat) : option nat := nth_error (rev sh) p.

(** [d] is the broadcast of the shapes [ds]: as many axes as the longest; at each
    place counted from the end every shape that has it has [d]'s size or 1, and a
    size of [d] other than 1 is that of some shape. *)
Definition broadcast_of (ds : list (list nat)) (d : list nat) : Prop :=
  (forall p, p < length d <-> exists s, In s ds /\ p < length s) /\
  (forall p n, rsize d p = Some n ->
     (forall s m, In s ds -> rsize s p = Some m -> m = n \/ m = 1) /\
     (n = 1 \/ exists s, In s ds /\ rsize s p = Some n)).

(** Elements by multi-index. *)
Definition index_of (sh idx : list nat) : Prop := Forall2 lt idx sh.
Fixpoint ravel (sh idx : list nat) : nat :=
  match sh, idx with
  | _ :: sh', i :: idx' => i * numel sh' + ravel sh' idx'
  | _, _ => 0
  end.
Definition elem {V} (t : tensor V) (idx : list nat) : option V :=
  nth_error (t_data t) (ravel (t_shape t) idx).

(** The index of a tensor of shape [sh] that the index [idx] of its broadcast reads:
    leading axes dropped, axes of size 1 read at 0. *)
Definition pull (sh idx : list nat) : list nat :=
  map (fun ni => if Nat.eqb (fst ni) 1 then 0 else snd ni)
      (combine sh (skipn (length idx - length sh) idx)).

Definition broadcasts {V} (t u : tensor V) : Prop :=
  wf u /\ t_dev u = t_dev t /\
  forall idx, index_of (t_shape u) idx -> elem u idx = elem t (pull (t_shape t) idx).

(** An input tensor split into batch, sub-batch and base axes. *)
Definition splits {V} (i : in_info) (t : tensor V) (dyn sub : list nat) : Prop :=
  t_shape t = dyn ++ sub ++ in_base i /\ length sub = length (in_sub i).

(** [I] is acceptable with common batch [dyn]: every declared input is there with its
    declared base shape, and [dyn] is the broadcast of their batch shapes. *)
Definition acceptable {V} (infos : list in_info) (I : smap (tensor V)) (dyn : list nat) : Prop :=
  exists ds, Forall2 (fun i d => exists t sub, lookup (in_name i) I = Some t /\ splits i t d sub) infos ds /\
             broadcast_of ds dyn.

(** The prepared state: exactly the declared inputs, each broadcast to the common
    batch and keeping its own sub-batch and base axes. *)
Definition prepared {V} (infos : list in_info) (I : smap (tensor V)) (dyn : list nat)
           (st : smap (tensor V)) : Prop :=
  (forall n, In n (keys st) <-> In n (map in_name infos)) /\
  forall i, In i infos -> exists t u d sub,
    lookup (in_name i) I = Some t /\ splits i t d sub /\
    lookup (in_name i) st = Some u /\ t_shape u = dyn ++ sub ++ in_base i /\ broadcasts t u.

(** No tensor has fewer axes than declared (base and sub-batch). *)
Definition ranks_ok {V} (infos : list in_info) (I : smap (tensor V)) : Prop :=
  forall i t, In i infos -> lookup (in_name i) I = Some t ->
    wf t /\ length (in_sub i) + length (in_base i) <= dim t.

(** ** Row independence of a Model *)

(** Number of batch axes an input has beyond its declared sub-batch and base ones. *)
Definition brank {V} (i : in_info) (t : tensor V) : nat :=
  dim t - (length (in_sub i) + length (in_base i)).

(** The inputs of a batch of size [b] with [r] further batch axes: each one present
    either has all the batch axes, the first of size 1 or [b], or it has fewer and then
    its first axis does not look like the batch ([b] = 1 aside); at least one is
    batched. *)
Definition aligned {V} (b r : nat) (infos : list in_info) (I : smap (tensor V)) : Prop :=
  (forall i t, In i infos -> lookup (in_name i) I = Some t ->
     wf t /\ length (in_sub i) + length (in_base i) <= dim t /\
     ((brank i t = S r /\ (lead t = 1 \/ lead t = b)) \/
      (brank i t <= r /\ (b = 1 \/ has_lead b t = false)))) /\
  exists i t, In i infos /\ lookup (in_name i) I = Some t /\ brank i t = S r /\ lead t = b.

(** The same for the parameters; [R] batch axes, [nds] the declared base ranks. *)
Definition params_aligned {V} (b R : nat) (nds : smap nat) (P : smap (tensor V)) : Prop :=
  forall q t nd, lookup q P = Some t -> lookup q nds = Some nd ->
    wf t /\
    (dim t - nd = R -> lead t = 1 \/ lead t = b) /\
    (0 < dim t - nd < R -> b = 1 \/ has_lead b t = false).

(** Batch axes of a parameter: those of the first input, its sub-batch axes included
    (ops.cpp:161-169). *)
Definition param_brank (r : nat) (infos : list in_info) : nat :=
  S r + match infos with [] => 0 | i :: _ => length (in_sub i) end.

(** A compiled graph acts row by row on a batch of size [b]. *)
Definition full_list {V} (b : nat) (ts : list (tensor V)) : Prop :=
  Forall (fun t => wf t /\ batched b t) ts.
Definition graph_rows {V} (b : nat) (run : list (tensor V) -> result (list (tensor V))) : Prop :=
  forall ins, full_list b ins ->
    (forall outs, run ins = Ok outs ->
       full_list b outs /\
       forall s c, valid_range b s c -> run (map (rows_of s c) ins) = Ok (map (rows_of s c) outs)) /\
    (forall l, tiles 0 (Z.of_nat b) l ->
       Forall (fun x => is_ok (run (map (rows_of (Z.to_nat (fst x)) (Z.to_nat (snd x))) ins)) = true) l ->
       is_ok (run ins) = true).

(** The same graph compiled for device [d]. *)
Definition seg_on {V} (d : device) (sd s : fseg V) : Prop :=
  sg_in sd = sg_in s /\ sg_par sd = sg_par s /\ sg_out sd = sg_out s /\
  forall ins, sg_run sd (map (to_dev d) ins) = rmap (map (to_dev d)) (sg_run s ins).
