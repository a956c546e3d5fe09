(** Dense tensors and the torch operations the runtime uses along axis 0.
    Definitions only; proofs are in TensorProofs.v.

    These model documented torch behaviour (ATen), not neml2 code; neml2 call
    sites are cited where the operations are used.  A tensor is its shape and
    its elements in row-major order; strides, storage sharing and dtype are not
    modelled (every operation is value-producing here). *)
From Verif Require Import Base.

(** A torch device: its type ("cpu", "cuda", ...) and index, [-1] meaning "no
    index given" (c10::Device). *)
Record device : Type := mkDev { d_type : string; d_index : Z }.

Definition device_eqb (a b : device) : bool :=
  String.eqb (d_type a) (d_type b) && Z.eqb (d_index a) (d_index b).

Definition cpu : device := mkDev "cpu" (-1).
Definition cuda (i : Z) : device := mkDev "cuda" i.

Definition numel (sh : list nat) : nat := fold_right Nat.mul 1 sh.

Fixpoint shape_eqb (a b : list nat) : bool :=
  match a, b with
  | [], [] => true
  | x :: a', y :: b' => Nat.eqb x y && shape_eqb a' b'
  | _, _ => false
  end.

Section Tensor.
  Context {V : Type}.

  Record tensor : Type := mkT
    { t_shape : list nat; t_data : list V; t_dev : device }.

  (** Every tensor torch hands out has as many elements as its shape says. *)
  Definition wf (t : tensor) : Prop := length (t_data t) = numel (t_shape t).

  Definition dim (t : tensor) : nat := length (t_shape t).

  (** [t.to(device)]: same values elsewhere. *)
  Definition to_dev (d : device) (t : tensor) : tensor :=
    mkT (t_shape t) (t_data t) d.

  (** [t.narrow(0, start, length)] (ATen narrow): a 0-dim tensor, a negative
      length, a start outside [-size, size] and an end beyond the size throw; a
      negative start is wrapped. *)
  Definition narrow0 (t : tensor) (start len : Z) : result tensor :=
    match t_shape t with
    | [] => Err (StdExn "narrow: 0-dim tensor")
    | n :: rest =>
        let size := Z.of_nat n in
        if (len <? 0)%Z then Err (StdExn "narrow: negative length")
        else if (start <? - size)%Z || (size <? start)%Z
        then Err (StdExn "narrow: start out of range")
        else
          let s := if (start <? 0)%Z then (start + size)%Z else start in
          if (s <=? size - len)%Z then
            let st := numel rest in
            Ok (mkT (Z.to_nat len :: rest)
                    (firstn (Z.to_nat len * st) (skipn (Z.to_nat s * st) (t_data t)))
                    (t_dev t))
          else Err (StdExn "narrow: start + length exceeds dimension size")
    end.

  (** [at::cat(parts, 0)]: at least one part, no 0-dim part, equal trailing
      shapes, one device.  Simplification: torch's legacy rule that skips
      one-dimensional empty tensors of any device is not modelled. *)
  Definition cat_compat (rest : list nat) (d : device) (t : tensor) : bool :=
    match t_shape t with
    | [] => false
    | _ :: r => shape_eqb r rest && device_eqb (t_dev t) d
    end.

  Definition lead (t : tensor) : nat := match t_shape t with [] => 0 | n :: _ => n end.

  Definition cat0 (parts : list tensor) : result tensor :=
    match parts with
    | [] => Err (StdExn "cat: expected a non-empty list of Tensors")
    | t0 :: _ =>
        match t_shape t0 with
        | [] => Err (StdExn "cat: zero-dimensional tensor cannot be concatenated")
        | _ :: rest =>
            if forallb (cat_compat rest (t_dev t0)) parts then
              Ok (mkT (fold_right Nat.add 0 (map lead parts) :: rest)
                      (concat (map t_data parts)) (t_dev t0))
            else Err (StdExn "cat: sizes of tensors must match except in dimension 0")
        end
    end.

  (** Row [i] of a tensor with at least one axis: [st] consecutive elements. *)
  Definition row_data (st i : nat) (l : list V) : list V := firstn st (skipn (i * st) l).

  (** [t.index_select(0, idx)] with [idx] a 1-D int64 tensor; out-of-range and
      negative indices throw. A 0-dim [t] is not passed here by the code. *)
  Definition index_select0 (t : tensor) (idx : list Z) : result tensor :=
    match t_shape t with
    | [] => Err (StdExn "index_select: 0-dim tensor")
    | n :: rest =>
        if forallb (fun i => (0 <=? i)%Z && (i <? Z.of_nat n)%Z) idx then
          Ok (mkT (length idx :: rest)
                  (flat_map (fun i => row_data (numel rest) (Z.to_nat i) (t_data t)) idx)
                  (t_dev t))
        else Err (StdExn "index_select: index out of range")
    end.

  (** Overwrite row [i] (of [st] elements) of [l]. *)
  Definition put_row (st i : nat) (r : list V) (l : list V) : list V :=
    firstn (i * st) l ++ r ++ skipn (i * st + st) l.

  Fixpoint put_rows (st : nat) (idx : list nat) (src l : list V) : list V :=
    match idx with
    | [] => l
    | i :: idx' => put_rows st idx' (skipn st src) (put_row st i (firstn st src) l)
    end.

  (** [dst.index_copy_(0, idx, src)]: trailing shapes must agree, [src] must
      have one row per index, indices must be in range.  Rows are copied in
      index order (torch leaves the order open for repeated indices; the
      callers pass distinct ones). *)
  Definition index_copy0 (dst : tensor) (idx : list Z) (src : tensor) : result tensor :=
    match t_shape dst, t_shape src with
    | n :: rest, m :: rest' =>
        if shape_eqb rest rest' && Nat.eqb m (length idx)
           && forallb (fun i => (0 <=? i)%Z && (i <? Z.of_nat n)%Z) idx
        then Ok (mkT (t_shape dst)
                     (put_rows (numel rest) (map Z.to_nat idx) (t_data src) (t_data dst))
                     (t_dev dst))
        else Err (StdExn "index_copy_: shape or index mismatch")
    | _, _ => Err (StdExn "index_copy_: 0-dim tensor")
    end.

  (** Element-wise binary operation of two tensors of equal shape on one
      device; used for [a + b] where the shapes agree. Other shapes: torch
      broadcasts, see [Broadcast.v]; here they are an error. *)
  Definition zip_same (f : V -> V -> V) (a b : tensor) : result tensor :=
    if shape_eqb (t_shape a) (t_shape b) && device_eqb (t_dev a) (t_dev b) then
      Ok (mkT (t_shape a) (map (fun xy => f (fst xy) (snd xy)) (combine (t_data a) (t_data b)))
              (t_dev a))
    else Err (StdExn "shape or device mismatch").
End Tensor.
Arguments tensor V : clear implicits.
Arguments mkT {V} t_shape t_data t_dev.
