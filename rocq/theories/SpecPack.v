(** Vocabulary of the packing properties (C41). *)
From Verif Require Import Base Tensor Spec Broadcast SpecBroadcast Pack.

(** Columns of a variable in its group: a block group keeps the sub-batch axes as axes of its
    own, a dense one folds them into the columns. *)
Definition columns (g : group_info) (v : var_info) : nat :=
  numel (if String.eqb (g_structure g) "block" then v_base v else v_sub v ++ v_base v).
Definition axes (g : group_info) (dyn : list nat) : list nat :=
  dyn ++ (if String.eqb (g_structure g) "block" then g_sub g else []).
Definition width_of (g : group_info) (vs : list var_info) : nat := fold_right Nat.add 0 (map (columns g) vs).

(** A group of the metadata: some variable, and in a block group all of them with the group's
    sub-batch shape. *)
Definition group_ok (g : group_info) : Prop :=
  g_vars g <> [] /\ (String.eqb (g_structure g) "block" = true -> Forall (fun v => v_sub v = g_sub g) (g_vars g)).
Definition names (groups : list group_info) : list string := map v_name (flat_map g_vars groups).

(** Every variable of the group is in the state, over the batch [dyn] and on device [d]. *)
Definition holds {V} (st : smap (tensor V)) (dyn : list nat) (d : device) (g : group_info) : Prop :=
  forall v, In v (g_vars g) -> exists t,
    lookup (v_name v) st = Some t /\ wf t /\ t_dev t = d /\ t_shape t = dyn ++ v_sub v ++ v_base v.

(** A group tensor. *)
Definition group_tensor {V} (g : group_info) (dyn : list nat) (d : device) (gt : tensor V) : Prop :=
  wf gt /\ t_dev gt = d /\ t_shape gt = axes g dyn ++ [width_of g (g_vars g)].

(** Where a variable's elements are: the element of variable [v] at batch index [b], sub-batch
    index [s] and base index [x] is in the row of its batch (and, in a block group, sub-batch) index, at
    the column given by the variables before it and the index within the variable. *)
Definition slot (g : group_info) (before : list var_info) (v : var_info) (b s x : list nat) : list nat :=
  if String.eqb (g_structure g) "block"
  then b ++ s ++ [width_of g before + ravel (v_base v) x]
  else b ++ [width_of g before + ravel (v_sub v ++ v_base v) (s ++ x)].
