(** Model::jacobian and Model::jvp (aoti/ops.cpp) over forward and implicit segments.
    Definitions only. *)
From Verif Require Import Base Tensor BatchChunk Broadcast Pack Implicit Substep Mat Jac SubstepJac.

Section JacModel.
  Context {V : Type}.
  Notation vmap := (smap (tensor V)).
  Variable A : arith V.
  Variable neg : V -> V.
  Variable dot : list V -> list V -> V.
  Variable par : string -> result (tensor V).   (* _resolve_param *)
  Variable base_ndim : smap nat.                (* sizes of _param_base_shapes *)
  Variable capture : bool.                      (* capture_solve_failure_enabled() *)

  Inductive jseg : Type :=
  | JF (f : jfwd V)
  | JI (i : jimp V).

  (** What the metadata declares: inputs, segments, outputs with their base shapes, requested pairs. *)
  Record jmodel := mkJM {
    jm_inputs : list in_info; jm_segs : list jseg; jm_outs : list (string * list nat); jm_derivs : list (string * string)
  }.

  (** solve.cpp:322-413 as called from the Jacobian path: the state, the solved unknown groups and the given
      groups. *)
  Definition run_implicit_groups (sg : iseg V) (st : vmap) : result (vmap * (list (tensor V) * list (tensor V))) :=
    let* (st', gs, ps, us) := fst (prepare_solve (a_zero A) par sg st) in
    match is_solve sg gs ps us with
    | Ok u =>
        let* st'' := unpack_groups u (is_unknown_groups sg) st' in
        Ok (st'', (u, gs))
    | Err _ => let* st'' := run_implicit (a_zero A) par capture sg st in Ok (st'', ([], []))
    end.

  (** substep.cpp:424-427: the tangents of the converged rows. *)
  Definition ift_of (i : jimp V) (given : list (tensor V) -> result (list (tensor V))) (span span_d : vmap) : result vmap :=
    let* us := pack_groups span (is_unknown_groups (ji_seg i)) in
    let* gs := pack_groups span (is_given_groups (ji_seg i)) in
    run_implicit_jacobian (a_zero A) (a_add A) neg dot par i given us gs span_d.

  (** ops.cpp:234-244, 264-273: zeros for the outputs of a segment that is on no requested path. *)
  Fixpoint zero_fill (l : list (string * nat)) (batch : list nat) (M : nat) (d : device) (ds : vmap) : vmap :=
    match l with
    | [] => ds
    | (n, sz) :: r => zero_fill r batch M d (set_ n (zeros (a_zero A) (batch ++ [sz; M]) d) ds)
    end.
  (** ops.cpp:238-239: size of an output by division. *)
  Definition size_by_numel (batch : list nat) (t : tensor V) : nat :=
    if Nat.eqb (numel batch) 0 then 0 else Nat.div (numel (t_shape t)) (numel batch).

  (** ops.cpp:222-274: one segment. *)
  Definition jac_step (batch : list nat) (M : nat) (d : device) (sg : jseg) (st ds : vmap) : result (vmap * vmap) :=
    match sg with
    | JF f =>
        match jf_jvp f with
        | Some jvp => run_forward_jacobian (a_zero A) (a_add A) dot par base_ndim (jf_seg f) jvp (jf_pairs f) batch st ds
        | None =>
            let* st := run_forward_segment par base_ndim (jf_seg f) batch st in
            let* szs := mapM (fun n => let* t := at_ n st in Ok (n, size_by_numel batch t)) (sg_out (jf_seg f)) in
            Ok (st, zero_fill szs batch M d ds)
        end
    | JI i =>
        let s := ji_seg i in
        match ji_given i with
        | Some given =>
            if Nat.ltb 0 (ji_level i) then
              fst (run_substepped_d A (run_implicit_masked (a_zero A) par s) (ift_of i given) (is_givens s) (is_unknowns s) (ji_level i) st ds)
            else
              let* (st, ug) := run_implicit_groups s st in
              let* ds := run_implicit_jacobian (a_zero A) (a_add A) neg dot par i given (fst ug) (snd ug) ds in
              Ok (st, ds)
        | None =>
            let* st := if Nat.ltb 0 (ji_level i)
                       then fst (run_substepped A (run_implicit_masked (a_zero A) par s) (is_givens s) (is_unknowns s) (ji_level i) st)
                       else rmap fst (run_implicit_groups s st) in
            Ok (st, zero_fill (map (fun u => (v_name u, var_size u)) (is_unknowns s)) batch M d ds)
        end
    end.
  Fixpoint jac_steps (batch : list nat) (M : nat) (d : device) (sgs : list jseg) (st ds : vmap) : result (vmap * vmap) :=
    match sgs with
    | [] => Ok (st, ds)
    | sg :: r => let* (st, ds) := jac_step batch M d sg st ds in jac_steps batch M d r st ds
    end.

  (** ops.cpp:276-281. *)
  Fixpoint take_outputs (names : list string) (st acc : vmap) : result vmap :=
    match names with
    | [] => Ok acc
    | n :: r => let* t := at_ n st in take_outputs r st (set_ n t acc)
    end.

  (** ops.cpp:199-286 [_jacobian_dstate].  The layout is computed in the constructor.  A model without inputs
      would take the first of an empty list: [OtherExn]. *)
  Definition jacobian_dstate (m : jmodel) (b : bands) (M : nat) (inputs : vmap) : result (vmap * vmap) :=
    let* st := prepare_inputs (jm_inputs m) inputs in
    match jm_inputs m with
    | [] => Err (OtherExn 0)
    | i0 :: _ =>
        let* ref := at_ (in_name i0) st in
        let batch := batch_shape_of i0 ref in
        let* ds := init_dstate (a_zero A) (a_one A) (jm_inputs m) b M (t_dev ref) batch in
        let* (st, ds) := jac_steps batch M (t_dev ref) (jm_segs m) st ds in
        let* outs := take_outputs (map fst (jm_outs m)) st [] in
        Ok (outs, ds)
    end.

  (** [jac[o][i] = t]. *)
  Definition set2 (o i : string) (t : tensor V) (j : smap vmap) : smap vmap :=
    set_ o (set_ i t (match lookup o j with Some r => r | None => [] end)) j.

  (** [_output_base_shapes[out_idx.at(o)]], [_input_base_shapes[in_idx.at(i)]]: the last of that name. *)
  Definition out_base (m : jmodel) (o : string) : result (list nat) :=
    match find (fun x => String.eqb (fst x) o) (rev (jm_outs m)) with
    | Some x => Ok (snd x)
    | None => Err (StdExn "map::at")
    end.
  Definition input_named (m : jmodel) (i : string) : result in_info :=
    match find (fun x => String.eqb (in_name x) i) (rev (jm_inputs m)) with
    | Some x => Ok x
    | None => Err (StdExn "map::at")
    end.

  (** ops.cpp:315-329: the block of one requested pair. *)
  Definition pair_block (m : jmodel) (b : bands) (ds : vmap) (oi : string * string) : result (tensor V) :=
    let* blk := at_ (fst oi) ds in
    let batch := firstn (dim blk - 2) (t_shape blk) in
    let* ii := input_named m (snd oi) in
    let* band := at_ (snd oi) b in
    let* col := narrow_last blk (fst band) (snd band) in
    let* ob := out_base m (fst oi) in
    reshape col (batch ++ ob ++ in_base ii).
  Fixpoint pair_blocks (m : jmodel) (b : bands) (ds : vmap) (pairs : list (string * string)) (jac : smap vmap) : result (smap vmap) :=
    match pairs with
    | [] => Ok jac
    | oi :: r =>
        let* t := pair_block m b ds oi in
        pair_blocks m b ds r (set2 (fst oi) (snd oi) t jac)
    end.

  (** jacobian.cpp:127-131: drop the leading axes of size 1 beyond [trail] axes. *)
  Fixpoint drop_ones (k : nat) (sh : list nat) : list nat :=
    match k, sh with
    | S k', 1 :: r => drop_ones k' r
    | _, _ => sh
    end.
  Definition squeeze_lead (p : pair_info) (t : tensor V) : tensor V :=
    if p_indep p then
      let trail := length (p_in_sub p) + length (p_out_base p) + length (p_in_base p) in
      mkT (drop_ones (dim t - trail) (t_shape t)) (t_data t) (t_dev t)
    else t.

  Fixpoint direct_blocks (ps : list pair_info) (blks : list (tensor V)) (jac : smap vmap) : smap vmap :=
    match ps, blks with
    | p :: ps', t :: blks' => direct_blocks ps' blks' (set2 (p_out p) (p_in p) (squeeze_lead p t) jac)
    | _, _ => jac
    end.
  (** jacobian.cpp:80-137 [_forward_pair_blocks]. *)
  Definition forward_pair_blocks (m : jmodel) (f : jfwd V) (jvp : list (tensor V) -> result (list (tensor V))) (inputs : vmap)
    : result (vmap * smap vmap) :=
    let sg := jf_seg f in
    let* st := prepare_inputs (jm_inputs m) inputs in
    let* ins := mapM (fun n => at_ n st) (sg_in sg) in
    let* batch := match jm_inputs m with
                  | [] => Ok []
                  | i :: _ => let* t := at_ (in_name i) st in Ok (batch_shape_of i t)
                  end in
    let* qs := mapM (fun p => let* t := par p in
                              let* nd := at_ p base_ndim in
                              broadcast_param t batch nd) (sg_par sg) in
    let* outs := jvp (ins ++ qs) in
    let n := length (sg_out sg) in
    let* _ := assert_ (Nat.eqb (length outs) (n + length (jf_pairs f))) "aoti::Model::jacobian: jvp loader returned wrong number of tensors" in
    Ok (set_all (sg_out sg) (firstn n outs) [], direct_blocks (jf_pairs f) (skipn n outs) []).

  (** ops.cpp:288-332 [jacobian] (the parameter overrides are in [par]). *)
  Definition jacobian (m : jmodel) (inputs : vmap) : result (vmap * smap vmap) :=
    let* (b, M) := layout (input_size (jm_inputs m)) (jm_derivs m) in
    let* _ := assert_ (negb (Nat.eqb (length (jm_derivs m)) 0)) "aoti::Model::jacobian: this artifact was compiled with no derivative graphs" in
    let composed :=
      let* (outs, ds) := jacobian_dstate m b M inputs in
      let* jac := pair_blocks m b ds (jm_derivs m) [] in
      Ok (outs, jac) in
    match jm_segs m with
    | [JF f] => match jf_jvp f with Some jvp => forward_pair_blocks m f jvp inputs | None => composed end
    | _ => composed
    end.

  (** ops.cpp:553-574 [tangent_col].  The tangent is not moved to the carrier's device. *)
  Definition tangent_col (m : jmodel) (tangents : vmap) (i : string) (batch : list nat) (d : device) : result (tensor V) :=
    let* ii := input_named m i in
    let sz := numel (in_base ii) in
    match lookup i tangents with
    | Some t =>
        let* _ := validate_input ii t in
        reshape t (batch_shape_of ii t ++ [sz; 1])
    | None => Ok (zeros (a_zero A) (batch ++ [sz; 1]) d)
    end.
  (** ops.cpp:581-586: one input; [squeeze(-1)] drops the last axis, whose size is 1. *)
  Definition jvp_term (m : jmodel) (b : bands) (tangents : vmap) (blk : tensor V) (i : string) : result (tensor V) :=
    let* band := at_ i b in
    let* col := narrow_last blk (fst band) (snd band) in
    let* tc := tangent_col m tangents i (firstn (dim blk - 2) (t_shape blk)) (t_dev blk) in
    let* c := matmul dot col tc in
    Ok (mkT (removelast (t_shape c)) (t_data c) (t_dev c)).
  Fixpoint jvp_sum (m : jmodel) (b : bands) (tangents : vmap) (blk : tensor V) (ins : list string) (acc : option (tensor V))
    : result (option (tensor V)) :=
    match ins with
    | [] => Ok acc
    | i :: r =>
        let* c := jvp_term m b tangents blk i in
        let* s := match acc with None => Ok c | Some a => zip_bcast (a_add A) a c end in
        jvp_sum m b tangents blk r (Some s)
    end.
  (** [_deriv_by_out] (Model.cpp:435). *)
  Fixpoint by_out (pairs : list (string * string)) (acc : smap (list string)) : smap (list string) :=
    match pairs with
    | [] => acc
    | (o, i) :: r => by_out r (set_ o ((match lookup o acc with Some l => l | None => [] end) ++ [i]) acc)
    end.
  Fixpoint jvp_outputs (m : jmodel) (b : bands) (tangents ds : vmap) (l : smap (list string)) (acc : vmap) : result vmap :=
    match l with
    | [] => Ok acc
    | (o, ins) :: r =>
        let* blk := at_ o ds in
        let* s := jvp_sum m b tangents blk ins None in
        match s with
        | None => Err (StdExn "undefined tensor")
        | Some t =>
            let* ob := out_base m o in
            let* t := reshape t (firstn (dim blk - 2) (t_shape blk) ++ ob) in
            jvp_outputs m b tangents ds r (set_ o t acc)
        end
    end.
  (** ops.cpp:529-592 [jvp]. *)
  Definition jvp (m : jmodel) (inputs tangents : vmap) : result (vmap * vmap) :=
    let* (b, M) := layout (input_size (jm_inputs m)) (jm_derivs m) in
    let* _ := assert_ (negb (Nat.eqb (length (jm_derivs m)) 0)) "aoti::Model::jvp: this artifact was compiled with no derivative graphs" in
    let* (outs, ds) := jacobian_dstate m b M inputs in
    let* r := jvp_outputs m b tangents ds (by_out (jm_derivs m) []) [] in
    Ok (outs, r).
End JacModel.
Arguments jseg V : clear implicits.
Arguments jmodel V : clear implicits.
