(** Derivative carriers and per-segment Jacobians (aoti/jacobian.cpp), and the column layout
    (aoti/Model.cpp).  Definitions only.

    Simplifications: [contiguous()] is the identity; element types are not tracked; [var_size] of a
    variable is the product of its sub-batch and base shapes (internal.h:267-268 says so, the
    metadata carries it separately). *)
From Verif Require Import Base Tensor Broadcast Pack Implicit Mat.

(** internal.h:315-340 [PairInfo]. *)
Record pair_info := mkPair {
  p_out : string; p_in : string; p_out_base : list nat; p_in_base : list nat; p_in_sub : list nat;
  p_indep : bool; p_row : nat; p_col : nat
}.

(** Model.cpp:452-470: the distinct requested inputs in order of first appearance, each with its
    column offset and size; and the number of columns.  [size] is the lookup of an input's size by name:
    [in_idx.at(i)] throws for an unknown name.  Model.cpp:535-555 does the same for parameters. *)
Definition bands : Type := list (string * (nat * nat)).
Fixpoint add_bands (size : string -> result nat) (ins : list string) (b : bands) (total : nat) : result (bands * nat) :=
  match ins with
  | [] => Ok (b, total)
  | i :: r =>
      let* s := size i in
      match lookup i b with
      | Some _ => add_bands size r b total
      | None => add_bands size r (b ++ [(i, (total, s))]) (total + s)
      end
  end.
Definition layout (size : string -> result nat) (pairs : list (string * string)) : result (bands * nat) :=
  add_bands size (map snd pairs) [] 0.

(** Model.cpp:385-404: an input's [var_size] is the product of its base shape, and its place by name
    ([in_idx], the last one of that name). *)
Definition input_size (infos : list in_info) (i : string) : result nat :=
  match find (fun x => String.eqb (in_name x) i) (rev infos) with
  | Some x => Ok (numel (in_base x))
  | None => Err (StdExn "map::at")
  end.

Section Jac.
  Context {V : Type}.
  Notation vmap := (smap (tensor V)).
  Variables zero one : V.
  Variable add : V -> V -> V.
  Variable neg : V -> V.
  Variable dot : list V -> list V -> V.

  (** [at::eye(n)]. *)
  Definition eye (n : nat) (d : device) : tensor V :=
    mkT [n; n] (flat_map (fun r => map (fun c => if Nat.eqb r c then one else zero) (seq 0 n)) (seq 0 n)) d.

  (** jacobian.cpp:63-77: the block of one input. *)
  Definition seed_block (b : bands) (total : nat) (dyn : list nat) (d : device) (i : in_info) : result (tensor V) :=
    let block := zeros zero (dyn ++ [numel (in_sub i) * numel (in_base i); total]) d in
    match lookup (in_name i) b with
    | None => Ok block
    | Some (off, rs) => copy_band block off rs (eye rs d)
    end.
  Fixpoint seed_all (infos : list in_info) (b : bands) (total : nat) (dyn : list nat) (d : device) (ds : vmap) : result vmap :=
    match infos with
    | [] => Ok ds
    | i :: r =>
        let* t := seed_block b total dyn d i in
        seed_all r b total dyn d (set_ (in_name i) t ds)
    end.
  (** jacobian.cpp:37-78 [_init_dstate].  [batch] is the first input's shape before its base axes; an end
      iterator moved before the beginning is undefined: [OtherExn]. *)
  Definition init_dstate (infos : list in_info) (b : bands) (total : nat) (d : device) (batch : list nat) : result vmap :=
    let sub0 := match infos with [] => 0 | i :: _ => length (in_sub i) end in
    if Nat.ltb (length batch) sub0 then Err (OtherExn 0)
    else seed_all infos b total (firstn (length batch - sub0) batch) d [].

  (** [t.size(-1)] and the sizes before the last two. *)
  Definition carrier_of (t : tensor V) : result (list nat * nat) :=
    let* m := size_at t (-1) in
    Ok (firstn (dim t - 2) (t_shape t), m).

  Variable par : string -> result (tensor V).   (* _resolve_param *)
  Variable base_ndim : smap nat.                (* sizes of _param_base_shapes *)

  (** A forward segment with its derivative graph, absent when the segment is on no requested path. *)
  Record jfwd := mkJF {
    jf_seg : fseg V;
    jf_jvp : option (list (tensor V) -> result (list (tensor V)));
    jf_pairs : list pair_info
  }.

  (** jacobian.cpp:578-588: the accumulators. *)
  Fixpoint zero_outputs (names : list string) (vals : list (tensor V)) (batch : list nat) (M : nat) (acc : vmap) : vmap :=
    match names, vals with
    | n :: names', t :: vals' =>
        zero_outputs names' vals' batch M
          (set_ n (zeros zero (batch ++ [numel (skipn (length batch) (t_shape t)); M]) (t_dev t)) acc)
    | _, _ => acc
    end.

  (** jacobian.cpp:591-690: one pair.  An output that is not the segment's leaves an undefined tensor
      in the map, whose [size] throws. *)
  Definition add_pair (batch : list nat) (M : nat) (ds : vmap) (p : pair_info) (blk : tensor V) (acc : vmap) : result vmap :=
    let ob := numel (p_out_base p) in
    let ib := numel (p_in_base p) in
    let* din := match lookup (p_in p) ds with
                | Some t => Ok t
                | None => Err (Fatal "aoti::Model: forward-Jacobian needs dstate which is missing")
                end in
    let* _ := reshape din (batch ++ p_in_sub p ++ p_in_base p ++ [M]) in
    let trail := length (p_out_base p) + length (p_in_base p) in
    let* _ := assert_ (Nat.leb trail (dim blk)) "aoti::Model: Jacobian pair tensor ndim < expected trail" in
    let* pv := reshape blk (firstn (dim blk - trail) (t_shape blk) ++ [ob; ib]) in
    let* dv := reshape din (batch ++ p_in_sub p ++ [ib; M]) in
    let* contrib := matmul dot pv dv in
    match lookup (p_out p) acc with
    | None => Err (StdExn "size: undefined tensor")
    | Some a =>
        let* asz := size_at a (-2) in
        let csz := numel (removelast (skipn (length batch) (t_shape contrib))) in
        let* _ := assert_ (Nat.eqb csz asz) "aoti::Model: forward-Jacobian per-pair contribution does not match accumulator" in
        let* f := reshape contrib (batch ++ [asz; M]) in
        let* s := zip_bcast add a f in
        Ok (set_ (p_out p) s acc)
    end.
  Fixpoint add_pairs (batch : list nat) (M : nat) (ds : vmap) (ps : list pair_info) (blks : list (tensor V)) (acc : vmap) : result vmap :=
    match ps, blks with
    | p :: ps', blk :: blks' =>
        let* acc := add_pair batch M ds p blk acc in
        add_pairs batch M ds ps' blks' acc
    | _, _ => Ok acc
    end.

  (** jacobian.cpp:694-695, 825-827. *)
  Fixpoint move_all (names : list string) (acc ds : vmap) : result vmap :=
    match names with
    | [] => Ok ds
    | n :: r =>
        match lookup n acc with
        | None => Err (StdExn "undefined tensor")
        | Some t => move_all r acc (set_ n t ds)
        end
    end.

  (** jacobian.cpp:510-696 [_run_forward_segment_jacobian]; new state and carrier. *)
  Definition run_forward_jacobian (sg : fseg V) (jvp : list (tensor V) -> result (list (tensor V))) (ps : list pair_info)
             (batch : list nat) (st ds : vmap) : result (vmap * vmap) :=
    let* ins := mapM (fun n => match lookup n st with
                               | Some t => Ok t
                               | None => Err (Fatal "aoti::Model: forward segment (JVP path) needs input")
                               end) (sg_in sg) in
    let* qs := mapM (fun p => let* t := par p in
                              let* nd := at_ p base_ndim in
                              broadcast_param t batch nd) (sg_par sg) in
    let* outs := jvp (ins ++ qs) in
    let n := length (sg_out sg) in
    let* _ := assert_ (Nat.eqb (length outs) (n + length ps)) "aoti::Model: JVP loader returned wrong number of tensors" in
    let st := set_all (sg_out sg) (firstn n outs) st in
    match sg_in sg with
    | [] => Err (Fatal "aoti::Model: forward-Jacobian segment has no fwd_inputs; cannot infer master_ndim")
    | i0 :: _ =>
        match lookup i0 ds with
        | None => Err (Fatal "aoti::Model: dstate missing input at Jacobian composition time")
        | Some d0 =>
            let* (db, M) := carrier_of d0 in
            let* acc := add_pairs db M ds ps (skipn n outs) (zero_outputs (sg_out sg) (firstn n outs) db M []) in
            let* ds := move_all (sg_out sg) acc ds in
            Ok (st, ds)
        end
    end.

  (** The graphs of an implicit segment that its Jacobian uses: [jacobian], [jacobian_given], and the
      sensitivity solve, compiled or by the Krylov loop. *)
  Inductive sens : Type :=
  | Compiled (solve_ift : list (tensor V) -> result (list (tensor V)))
  | Iterative (krylov_solve_dense : tensor V -> tensor V -> result (tensor V)).
  Record jimp := mkJI {
    ji_seg : iseg V;
    ji_nres : nat;                                       (* residual_groups.size() *)
    ji_jac : list (tensor V) -> result (list (tensor V));
    ji_given : option (list (tensor V) -> result (list (tensor V)));
    ji_sens : sens;
    ji_pairs : list pair_info;
    ji_level : nat                                       (* max_substepping_level *)
  }.

  Definition negate (t : tensor V) : tensor V := mkT (t_shape t) (map neg (t_data t)) (t_dev t).

  (** jacobian.cpp:758-767. *)
  Definition slice_pair (x : tensor V) (p : pair_info) : result (tensor V) :=
    let* r := narrow_rows x (p_row p) (numel (p_out_base p)) in
    narrow_last r (p_col p) (numel (p_in_base p)).

  (** jacobian.cpp:716-779: the blocks du/dg = -A^-1 B (named -du/dg there).  Fewer [jacobian] outputs than A blocks would be read past the
      end: [OtherExn]. *)
  Definition ift_blocks (sg : jimp) (given : list (tensor V) -> result (list (tensor V))) (us gs : list (tensor V))
    : result (list (tensor V)) :=
    let* ps := mapM par (is_params (ji_seg sg)) in
    let op_in := us ++ gs ++ ps in
    let* jac_out := ji_jac sg op_in in
    let* given_out := given op_in in
    let n_a := ji_nres sg * length (is_unknown_groups (ji_seg sg)) in
    if Nat.ltb (length jac_out) n_a then Err (OtherExn 0)
    else
      match ji_sens sg with
      | Compiled solve_ift => solve_ift (firstn n_a jac_out ++ given_out)
      | Iterative ksolve =>
          let* _ := assert_ (Nat.eqb n_a 1) "aoti::Model: iterative input-sensitivity solve requires a single dense unknown group" in
          match jac_out with
          | [] => Err (OtherExn 0)
          | A :: _ =>
              let* B := match given_out with
                        | [b] => Ok b
                        | _ => cat_last given_out
                        end in
              let* x := ksolve A B in
              mapM (slice_pair (negate x)) (ji_pairs sg)
          end
      end.

  (** jacobian.cpp:793-823: one pair. *)
  Definition add_ift (batch : list nat) (ds : vmap) (p : pair_info) (blk : tensor V) (acc : vmap) : result vmap :=
    let* din := match lookup (p_in p) ds with
                | Some t => Ok t
                | None => Err (Fatal "aoti::Model: IFT needs dstate which is missing")
                end in
    let* _ := assert_ (Nat.eqb (length (p_in_sub p)) 0 && Nat.eqb (dim blk) (length batch + 2))
                      "aoti::Model: sub-batch (BLOCK) IFT Jacobian is not yet implemented" in
    let* contrib := matmul dot blk din in
    match lookup (p_out p) acc with
    | None => Err (StdExn "undefined tensor")
    | Some a => let* s := zip_bcast add a contrib in Ok (set_ (p_out p) s acc)
    end.
  Fixpoint add_ifts (batch : list nat) (ds : vmap) (ps : list pair_info) (blks : list (tensor V)) (acc : vmap) : result vmap :=
    match ps, blks with
    | p :: ps', blk :: blks' =>
        let* acc := add_ift batch ds p blk acc in
        add_ifts batch ds ps' blks' acc
    | _, _ => Ok acc
    end.

  Definition var_size (v : var_info) : nat := numel (v_sub v) * numel (v_base v).

  (** jacobian.cpp:698-828 [_run_implicit_segment_jacobian]. *)
  Definition run_implicit_jacobian (sg : jimp) (given : list (tensor V) -> result (list (tensor V))) (us gs : list (tensor V))
             (ds : vmap) : result vmap :=
    let* blks := ift_blocks sg given us gs in
    let* _ := assert_ (Nat.eqb (length blks) (length (ji_pairs sg))) "aoti::Model: IFT solve returned wrong number of blocks" in
    match is_givens (ji_seg sg) with
    | [] => Err (Fatal "aoti::Model: implicit-segment IFT has no givens; cannot infer master_ndim")
    | g0 :: _ =>
        match lookup (v_name (gv_var g0)) ds with
        | None => Err (Fatal "aoti::Model: dstate missing given at IFT composition time")
        | Some d0 =>
            let* (db, M) := carrier_of d0 in
            let acc := fold_left (fun m u => set_ (v_name u) (zeros zero (db ++ [var_size u; M]) (t_dev d0)) m)
                                 (is_unknowns (ji_seg sg)) [] in
            let* acc := add_ifts db ds (ji_pairs sg) blks acc in
            move_all (map v_name (is_unknowns (ji_seg sg))) acc ds
        end
    end.
End Jac.
Arguments jfwd V : clear implicits.
Arguments jimp V : clear implicits.
Arguments sens V : clear implicits.
