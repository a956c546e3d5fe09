(** torch broadcasting, and the input preparation and forward segments of
    aoti/ops.cpp and aoti/solve.cpp.  Definitions only. *)
From Verif Require Import Base Tensor.

(** ** Shapes *)

(** at::infer_size (ATen/ExpandUtils): shapes are aligned at their last axes; sizes
    must agree or one of them be 1.  On reversed shapes. *)
Fixpoint infer_rev (a b : list nat) : result (list nat) :=
  match a, b with
  | [], _ => Ok b
  | _, [] => Ok a
  | x :: a', y :: b' =>
      if Nat.eqb x y || Nat.eqb x 1 || Nat.eqb y 1 then
        let* r := infer_rev a' b' in
        Ok ((if Nat.eqb x 1 then y else x) :: r)
      else Err (StdExn "The size of tensor a must match the size of tensor b")
  end.
Definition infer_size (a b : list nat) : result (list nat) :=
  rmap (@rev nat) (infer_rev (rev a) (rev b)).

Section Expand.
  Context {V : Type}.

  (** Elements of the expansion of a tensor of shape [sh] to [tgt] (equal ranks), in
      row-major order. *)
  Fixpoint expand_data (sh tgt : list nat) (l : list V) : list V :=
    match sh, tgt with
    | n :: sh', m :: tgt' =>
        flat_map (fun i => expand_data sh' tgt'
                             (row_data (numel sh') (if Nat.eqb n 1 then 0 else i) l)) (seq 0 m)
    | _, _ => l
    end.

  (** Each size equals the target's or is 1. *)
  Fixpoint fits (sh tgt : list nat) : bool :=
    match sh, tgt with
    | [], [] => true
    | n :: sh', m :: tgt' => (Nat.eqb n m || Nat.eqb n 1) && fits sh' tgt'
    | _, _ => false
    end.

  (** Shape padded with leading ones to a given rank. *)
  Definition pad (k : nat) (sh : list nat) : list nat := repeat 1 (k - length sh) ++ sh.

  (** [t.expand(tgt)] and [t.broadcast_to(tgt)], followed by [contiguous()].  (A
      target of -1, "keep", is never passed here.) *)
  Definition expand (t : tensor V) (tgt : list nat) : result (tensor V) :=
    if Nat.ltb (length tgt) (dim t) then Err (StdExn "expand: too few sizes")
    else
      let sh := pad (length tgt) (t_shape t) in
      if fits sh tgt then Ok (mkT tgt (expand_data sh tgt (t_data t)) (t_dev t))
      else Err (StdExn "expand: the expanded size must match the existing size").

  (** [t.size(d)]: negative [d] counts from the end; a 0-dim tensor has no axis. *)
  Definition size_at (t : tensor V) (d : Z) : result nat :=
    let n := Z.of_nat (dim t) in
    if (d <? - n)%Z || (n <=? d)%Z then Err (StdExn "Dimension out of range")
    else match nth_error (t_shape t) (Z.to_nat (if (d <? 0)%Z then (d + n)%Z else d)) with
         | Some x => Ok x
         | None => Err (StdExn "Dimension out of range")
         end.
End Expand.

(** ** Input preparation *)

(** What the metadata declares of an input (Model.cpp:383-395): name, sub-batch shape
    (empty for a plain input and for artifacts without the field), base shape. *)
Record in_info := mkIn { in_name : string; in_sub : list nat; in_base : list nat }.

Section Prepare.
  Context {V : Type}.
  Notation vmap := (smap (tensor V)).

  (** ops.cpp:42-80 [_validate_input_shape].  Simplification: the per-axis
      comparisons are one list comparison. *)
  Definition validate_input (i : in_info) (t : tensor V) : result unit :=
    let* _ := assert_ (Nat.leb (length (in_base i)) (dim t)) "aoti::Model: input has too few dims" in
    assert_ (shape_eqb (skipn (dim t - length (in_base i)) (t_shape t)) (in_base i))
            "aoti::Model: input has non-canonical shape".

  (** ops.cpp:82-90 [_batch_shape_of]. *)
  Definition batch_shape_of (i : in_info) (t : tensor V) : list nat :=
    firstn (dim t - length (in_base i)) (t_shape t).

  (** ops.cpp:92-107 [_dynamic_batch_shape_of]. *)
  Definition dynamic_batch_shape_of (i : in_info) (t : tensor V) : list nat :=
    firstn (dim t - (length (in_base i) + length (in_sub i))) (t_shape t).

  (** ops.cpp:122-131: first pass. *)
  Fixpoint prep1 (infos : list in_info) (inputs st : vmap) (dyn : list nat) : result (vmap * list nat) :=
    match infos with
    | [] => Ok (st, dyn)
    | i :: r =>
        match lookup (in_name i) inputs with
        | None => Err (Fatal "aoti::Model: missing required input")
        | Some t =>
            let* _ := validate_input i t in
            let* dyn := infer_size dyn (dynamic_batch_shape_of i t) in
            prep1 r inputs (set_ (in_name i) t st) dyn
        end
    end.

  (** ops.cpp:141-147: the trailing axes of the target, [t.size(d)] for [d] from
      [t.dim() - keep]; [d] is negative when the tensor has fewer axes than that. *)
  Definition kept_sizes (i : in_info) (t : tensor V) : result (list nat) :=
    let keep := length (in_base i) + length (in_sub i) in
    mapM (fun k => size_at t (Z.of_nat (dim t) - Z.of_nat keep + Z.of_nat k)) (seq 0 keep).

  (** ops.cpp:136-149: second pass. *)
  Fixpoint prep2 (infos : list in_info) (dyn : list nat) (st : vmap) : result vmap :=
    match infos with
    | [] => Ok st
    | i :: r =>
        let* t := at_ (in_name i) st in
        let* tail := kept_sizes i t in
        let* u := expand t (dyn ++ tail) in
        prep2 r dyn (set_ (in_name i) u st)
    end.

  (** ops.cpp:109-151 [_prepare_inputs]. *)
  Definition prepare_inputs (infos : list in_info) (inputs : vmap) : result vmap :=
    let* p := prep1 infos inputs [] [] in
    prep2 infos (snd p) (fst p).

  (** ** Forward segments *)

  (** jacobian.cpp:144-153 [broadcast_param_to_batch].  [base_ndim] beyond the rank
      would take an iterator before the beginning: undefined, here [OtherExn]. *)
  Definition broadcast_param (p : tensor V) (batch : list nat) (base_ndim : nat) : result (tensor V) :=
    if Nat.ltb (dim p) base_ndim then Err (OtherExn 0)
    else expand p (batch ++ skipn (dim p - base_ndim) (t_shape p)).

  (** A forward segment (Model.h Segment, forward part): input and parameter names,
      output names, and the compiled graph. *)
  Record fseg := mkSeg {
    sg_in : list string; sg_par : list string; sg_out : list string;
    sg_run : list (tensor V) -> result (list (tensor V))
  }.

  (** The final loop of _run_forward_segment. *)
  Fixpoint set_all (names : list string) (ts : list (tensor V)) (st : vmap) : vmap :=
    match names, ts with
    | n :: names', t :: ts' => set_all names' ts' (set_ n t st)
    | _, _ => st
    end.

  Section Forward.
    Variable par : string -> result (tensor V).   (* _resolve_param *)
    Variable base_ndim : smap nat.                (* sizes of _param_base_shapes *)

    (** solve.cpp:65-96 [_run_forward_segment]. *)
    Definition run_forward_segment (sg : fseg) (batch : list nat) (st : vmap) : result vmap :=
      let* ins := mapM (fun n => match lookup n st with
                                 | Some t => Ok t
                                 | None => Err (Fatal "aoti::Model: forward segment needs input")
                                 end) (sg_in sg) in
      let* ps := mapM (fun p => let* t := par p in
                                let* nd := at_ p base_ndim in
                                broadcast_param t batch nd) (sg_par sg) in
      let* outs := sg_run sg (ins ++ ps) in
      let* _ := assert_ (Nat.eqb (length outs) (length (sg_out sg)))
                        "aoti::Model: forward segment returned wrong number of tensors" in
      Ok (set_all (sg_out sg) outs st).

    Fixpoint run_segments (sgs : list fseg) (batch : list nat) (st : vmap) : result vmap :=
      match sgs with
      | [] => Ok st
      | sg :: r => let* st := run_forward_segment sg batch st in run_segments r batch st
      end.

    (** ops.cpp:186-196: the outputs. *)
    Fixpoint collect (outs : list string) (st acc : vmap) : result vmap :=
      match outs with
      | [] => Ok acc
      | n :: r =>
          match lookup n st with
          | None => Err (Fatal "aoti::Model::forward: output was not produced")
          | Some t => collect r st (set_ n t acc)
          end
      end.

    (** ops.cpp:153-197 [Model::Impl::forward] for a model whose segments are all
        forward ones. *)
    Definition model_forward (infos : list in_info) (sgs : list fseg) (outs : list string) (inputs : vmap)
      : result vmap :=
      let* st := prepare_inputs infos inputs in
      let* batch := match infos with
                    | [] => Ok []
                    | i :: _ => let* t := at_ (in_name i) st in Ok (batch_shape_of i t)
                    end in
      let* st := run_segments sgs batch st in
      collect outs st [].
  End Forward.
End Prepare.
Arguments fseg V : clear implicits.
