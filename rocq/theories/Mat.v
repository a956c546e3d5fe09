(** The torch operations of the Jacobian path: batched matrix product, broadcasting sum, slices of
    the last two axes.  Definitions only. *)
From Verif Require Import Base Tensor Broadcast Pack.

Section Mat.
  Context {V : Type}.

  (** A shape with at least two axes: the leading ones and the last two. *)
  Definition split2 (sh : list nat) : option (list nat * nat * nat) :=
    match rev sh with
    | m :: n :: r => Some (rev r, n, m)
    | _ => None
    end.

  (** Column [c] of a matrix of [k] rows of [m] elements. *)
  Definition col_data (k m c : nat) (l : list V) : list V :=
    flat_map (fun j => row_data 1 (j * m + c) l) (seq 0 k).

  (** Inner product of two vectors.  torch (BLAS) leaves the order of the sum open: any function. *)
  Variable dot : list V -> list V -> V.

  Definition mat_mul (n k m : nat) (a b : list V) : list V :=
    flat_map (fun r => map (fun c => dot (row_data k r a) (col_data k m c b)) (seq 0 m)) (seq 0 n).

  (** [at::matmul(a, b)] for operands with at least two axes: the leading axes are broadcast.  (With
      fewer axes torch has other rules; the code does not get there, here an exception.) *)
  Definition matmul (a b : tensor V) : result (tensor V) :=
    match split2 (t_shape a), split2 (t_shape b) with
    | Some (la, n, k), Some (lb, k', m) =>
        if Nat.eqb k k' && device_eqb (t_dev a) (t_dev b) then
          let* l := infer_size la lb in
          let* a' := expand a (l ++ [n; k]) in
          let* b' := expand b (l ++ [k; m]) in
          Ok (mkT (l ++ [n; m])
                  (flat_map (fun i => mat_mul n k m (row_data (n * k) i (t_data a')) (row_data (k * m) i (t_data b')))
                            (seq 0 (numel l)))
                  (t_dev a))
        else Err (StdExn "mat1 and mat2 shapes cannot be multiplied")
    | _, _ => Err (StdExn "matmul: fewer than two dimensions")
    end.

  (** [a + b] with broadcasting. *)
  Definition zip_bcast (f : V -> V -> V) (a b : tensor V) : result (tensor V) :=
    let* s := infer_size (t_shape a) (t_shape b) in
    let* a' := expand a s in
    let* b' := expand b s in
    zip_same f a' b'.

  (** [t.narrow(-2, start, len)]. *)
  Definition narrow_rows (t : tensor V) (start len : nat) : result (tensor V) :=
    match split2 (t_shape t) with
    | None => Err (StdExn "narrow: dimension out of range")
    | Some (l, n, m) =>
        if Nat.leb (start + len) n then
          Ok (mkT (l ++ [len; m])
                  (flat_map (fun i => firstn (len * m) (skipn (start * m) (row_data (n * m) i (t_data t))))
                            (seq 0 (numel l)))
                  (t_dev t))
        else Err (StdExn "narrow: start + length exceeds dimension size")
    end.

  (** [block.narrow(-1, start, rs).copy_(src)]: [src] is broadcast to the slice. *)
  Definition copy_band (t : tensor V) (start : nat) (len : nat) (src : tensor V) : result (tensor V) :=
    if Nat.eqb (dim t) 0 then Err (StdExn "narrow: 0-dim tensor")
    else if Nat.leb (start + len) (width t) then
      let pre := removelast (t_shape t) in
      let* s := expand src (pre ++ [len]) in
      Ok (mkT (t_shape t)
              (flat_map (fun i => let r := row_data (width t) i (t_data t) in
                                  firstn start r ++ row_data len i (t_data s) ++ skipn (start + len) r)
                        (seq 0 (numel pre)))
              (t_dev t))
    else Err (StdExn "narrow: start + length exceeds dimension size").
End Mat.
