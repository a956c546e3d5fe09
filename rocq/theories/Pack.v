(** Packing variables into the per-group tensors of the nonlinear system and back
    (aoti/solve.cpp), and the torch operations along the last axis it uses.
    Definitions only. *)
From Verif Require Import Base Tensor.

Section Last.
  Context {V : Type}.

  (** [t.reshape(sh)] of a contiguous tensor; the sizes the code passes are explicit. *)
  Definition reshape (t : tensor V) (sh : list nat) : result (tensor V) :=
    if Nat.eqb (numel sh) (numel (t_shape t)) then Ok (mkT sh (t_data t) (t_dev t))
    else Err (StdExn "reshape: shape is invalid for input").

  (** [at::cat(parts, -1)]: equal shapes but for the last axis, one device.  As for [cat0]
      the legacy rule for one-dimensional empty tensors is left out. *)
  Definition width (t : tensor V) : nat := last (t_shape t) 0.
  Definition cat_last_compat (pre : list nat) (d : device) (t : tensor V) : bool :=
    Nat.ltb 0 (dim t) && shape_eqb (removelast (t_shape t)) pre && device_eqb (t_dev t) d.
  Definition cat_last (parts : list (tensor V)) : result (tensor V) :=
    match parts with
    | [] => Err (StdExn "cat: expected a non-empty list of Tensors")
    | t0 :: _ =>
        let pre := removelast (t_shape t0) in
        if forallb (cat_last_compat pre (t_dev t0)) parts then
          Ok (mkT (pre ++ [fold_right Nat.add 0 (map width parts)])
                  (flat_map (fun i => flat_map (fun t => row_data (width t) i (t_data t)) parts)
                            (seq 0 (numel pre)))
                  (t_dev t0))
        else Err (StdExn "cat: sizes of tensors must match except in the last dimension")
    end.

  (** [t.narrow(-1, start, len)] for a start and a length that are not negative. *)
  Definition narrow_last (t : tensor V) (start len : nat) : result (tensor V) :=
    if Nat.eqb (dim t) 0 then Err (StdExn "narrow: 0-dim tensor")
    else if Nat.leb (start + len) (width t) then
      let pre := removelast (t_shape t) in
      Ok (mkT (pre ++ [len])
              (flat_map (fun i => firstn len (skipn start (row_data (width t) i (t_data t))))
                        (seq 0 (numel pre)))
              (t_dev t))
    else Err (StdExn "narrow: start + length exceeds dimension size").
End Last.

(** internal.h:289-304 [VarInfo], [GroupInfo].  The structure string is "block" or anything else
    (dense). *)
Record var_info := mkVar { v_name : string; v_sub : list nat; v_base : list nat }.
Record group_info := mkGroup { g_structure : string; g_sub : list nat; g_vars : list var_info }.
Definition is_block (g : group_info) : bool := String.eqb (g_structure g) "block".

Section Pack.
  Context {V : Type}.
  Notation vmap := (smap (tensor V)).

  (** solve.cpp:187-188: the columns of a variable. *)
  Definition segment_size (g : group_info) (v : var_info) : nat :=
    if is_block g then numel (v_base v) else numel (v_sub v) * numel (v_base v).

  (** solve.cpp:113-147: one variable's contribution. *)
  Definition pack_var (g : group_info) (st : vmap) (v : var_info) : result (tensor V) :=
    match lookup (v_name v) st with
    | None => Err (Fatal "aoti::Model::_pack_groups: state missing variable")
    | Some t =>
        let trail := length (v_sub v) + length (v_base v) in
        let* _ := assert_ (Nat.leb trail (dim t)) "aoti::Model::_pack_groups: ndim < sub_batch+base ndim" in
        let dyn := firstn (dim t - trail) (t_shape t) in
        reshape t (if is_block g then dyn ++ v_sub v ++ [numel (v_base v)]
                   else dyn ++ [numel (v_sub v) * numel (v_base v)])
    end.

  (** solve.cpp:108-154: one group. *)
  Definition pack_group (st : vmap) (g : group_info) : result (tensor V) :=
    let* parts := mapM (pack_var g st) (g_vars g) in
    let* _ := assert_ (negb (Nat.eqb (length parts) 0)) "aoti::Model::_pack_groups: encountered an empty group" in
    cat_last parts.

  (** solve.cpp:98-156 [_pack_groups]. *)
  Definition pack_groups (st : vmap) (groups : list group_info) : result (list (tensor V)) :=
    mapM (pack_group st) groups.

  (** solve.cpp:184-206: the variables of one group, from column [off] on. *)
  Fixpoint unpack_vars (g : group_info) (gt : tensor V) (batch : list nat) (off : nat) (vars : list var_info)
           (st : vmap) : result vmap :=
    match vars with
    | [] => Ok st
    | v :: vars' =>
        let* part := narrow_last gt off (segment_size g v) in
        let* t := reshape part (batch ++ v_sub v ++ v_base v) in
        unpack_vars g gt batch (off + segment_size g v) vars' (set_ (v_name v) t st)
    end.

  (** solve.cpp:168-207: one group. *)
  Definition unpack_group (g : group_info) (gt : tensor V) (st : vmap) : result vmap :=
    let trail := if is_block g then length (g_sub g) + 1 else 1 in
    let* _ := assert_ (Nat.leb trail (dim gt)) "aoti::Model::_unpack_groups: group tensor ndim < trail ndim" in
    unpack_vars g gt (firstn (dim gt - trail) (t_shape gt)) 0 (g_vars g) st.

  Fixpoint unpack_list (gts : list (tensor V)) (groups : list group_info) (st : vmap) : result vmap :=
    match gts, groups with
    | gt :: gts', g :: groups' =>
        let* st := unpack_group g gt st in
        unpack_list gts' groups' st
    | _, _ => Ok st
    end.

  (** solve.cpp:158-209 [_unpack_groups]. *)
  Definition unpack_groups (gts : list (tensor V)) (groups : list group_info) (st : vmap) : result vmap :=
    let* _ := assert_ (Nat.eqb (length gts) (length groups)) "aoti::Model::_unpack_groups: tensor count != group count" in
    unpack_list gts groups st.
End Pack.
