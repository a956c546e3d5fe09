(** Parameter derivatives: Model::param_jacobian and Model::param_vjp (aoti/ops.cpp, aoti/jacobian.cpp).
    Definitions only.  Simplifications: [contiguous()] is the identity, element types are not tracked, and a reduction
    [sum(dims)] is any function of the list of the summed elements ([sum]: torch leaves the order open). *)
From Verif Require Import Base Tensor BatchChunk Broadcast Pack Implicit Substep Mat Jac SubstepJac JacModel.

(** internal.h:342-356 [ParamPairInfo]. *)
Record ppair := mkPP {
  q_out : string; q_param : string; q_out_base : list nat; q_par_base : list nat; q_row : nat; q_col : nat
}.

(** Model.cpp:534-555: the columns of the requested parameters, as many per parameter as its natural base shape has
    elements.  (The layout loop is that of the inputs, [Jac.layout].) *)
Definition param_size (pbase : smap (list nat)) (p : string) : result nat :=
  match lookup p pbase with
  | Some b => Ok (numel b)
  | None => Err (Fatal "aoti::Model: parameter-derivative references promoted parameter which is missing from named_parameters()")
  end.

Section ParamJac.
  Context {V : Type}.
  Notation vmap := (smap (tensor V)).
  Notation loader := (list (tensor V) -> result (list (tensor V))).
  Variable A : arith V.
  Variable neg : V -> V.
  Variable dot : list V -> list V -> V.
  Variable sum : list V -> V.
  Variable par : string -> result (tensor V).   (* _resolve_param *)
  Variable pbase : smap (list nat).             (* _param_base_shapes *)
  Variable capture : bool.                      (* capture_solve_failure_enabled() *)
  Notation base_ndim := (vmap_ (@length nat) pbase).

  (** A segment with its parameter-derivative graphs.  Forward: the parameter Jacobian with its pairs, and the adjoint
      graph with the outputs whose cotangents it takes and the parameters whose gradients it returns.  Implicit:
      [dr_dparam], the compiled solve, and the Krylov solve when [param_sensitivity_kind] says so. *)
  Inductive pseg : Type :=
  | PF (f : jfwd V) (pjac : option loader) (ps : list ppair) (vjp : option (loader * list string * list string))
  | PI (i : jimp V) (dr : option loader) (solve : option loader) (krylov : option (tensor V -> tensor V -> result (tensor V))) (ps : list ppair).
  Record pmodel := mkPM {
    pm_inputs : list in_info; pm_segs : list pseg; pm_outs : list (string * list nat); pm_derivs : list (string * string)
  }.

  (** One promoted parameter broadcast to [batch] (e.g. jacobian.cpp:318-322). *)
  Definition param_in (batch : list nat) (q : string) : result (tensor V) :=
    let* t := par q in
    let* b := at_ q pbase in
    broadcast_param t batch (length b).

  (** [t.narrow(-1, off, len).add_(blk)]. *)
  Definition add_band (t : tensor V) (off len : nat) (blk : tensor V) : result (tensor V) :=
    let* cur := narrow_last t off len in
    let* s := zip_bcast (a_add A) cur blk in
    copy_band t off len s.

  (** jacobian.cpp:331-345, 402-416: the blocks accumulated into the parameter columns. *)
  Fixpoint add_direct (b : bands) (dyn : list nat) (ps : list ppair) (blks : list (tensor V)) (dp : vmap) : result vmap :=
    match ps, blks with
    | p :: ps', blk :: blks' =>
        let* band := at_ (q_param p) b in
        let* f := reshape blk (dyn ++ [numel (q_out_base p); snd band]) in
        let* t := at_ (q_out p) dp in
        let* s := add_band t (fst band) (snd band) f in
        add_direct b dyn ps' blks' (set_ (q_out p) s dp)
    | _, _ => Ok dp
    end.

  (** jacobian.cpp:304-346 [_add_forward_param_direct].  The state is the one after the segment. *)
  Definition add_forward_param (f : jfwd V) (pjac : loader) (ps : list ppair) (b : bands) (dyn : list nat) (st dp : vmap) : result vmap :=
    let* ins := mapM (fun n => at_ n st) (sg_in (jf_seg f)) in
    let* qs := mapM (param_in dyn) (sg_par (jf_seg f)) in
    let* blks := pjac (ins ++ qs) in
    let* _ := assert_ (Nat.eqb (length blks) (length ps)) "aoti::Model::param_jacobian: forward param-Jacobian loader returned wrong number of blocks" in
    add_direct b dyn ps blks dp.

  (** jacobian.cpp:378-388, 253-260: one block of the negated Krylov solution. *)
  Definition slice_param (b : bands) (x : tensor V) (p : ppair) : result (tensor V) :=
    let* band := at_ (q_param p) b in
    let* r := narrow_rows x (q_row p) (numel (q_out_base p)) in
    narrow_last r (q_col p) (snd band).
  (** jacobian.cpp:356-393: the blocks du/dp.  A null [solve_param] loader would be dereferenced: [OtherExn]. *)
  Definition param_ift_blocks (i : jimp V) (dr : loader) (solve : option loader) (krylov : option (tensor V -> tensor V -> result (tensor V)))
             (ps : list ppair) (b : bands) (batch : list nat) (us gs : list (tensor V)) : result (list (tensor V)) :=
    let* qs := mapM (param_in batch) (is_params (ji_seg i)) in
    let* op := dr (us ++ gs ++ qs) in
    match krylov with
    | Some ksolve =>
        match op with
        | a :: rhs :: _ => let* x := ksolve a rhs in mapM (slice_param b (negate neg x)) ps
        | _ => Err (Fatal "aoti::Model: dr_dparam loader must emit (A_dense, dr_dparam).")
        end
    | None => match solve with Some s => s op | None => Err (OtherExn 0) end
    end.
  (** jacobian.cpp:348-417 [_add_implicit_param_direct]. *)
  Definition add_implicit_param (i : jimp V) (dr : loader) (solve : option loader) (krylov : option (tensor V -> tensor V -> result (tensor V)))
             (ps : list ppair) (b : bands) (dyn : list nat) (us gs : list (tensor V)) (dp : vmap) : result vmap :=
    let* blks := param_ift_blocks i dr solve krylov ps b dyn us gs in
    let* _ := assert_ (Nat.eqb (length blks) (length ps)) "aoti::Model::param_jacobian: ParamIFT solve returned wrong number of blocks" in
    add_direct b dyn ps blks dp.

  (** jacobian.cpp:441-453: zeros for every input. *)
  Fixpoint seed_zeros (infos : list in_info) (P : nat) (dyn : list nat) (d : device) (dp : vmap) : vmap :=
    match infos with
    | [] => dp
    | i :: r => seed_zeros r P dyn d (set_ (in_name i) (zeros (a_zero A) (dyn ++ [numel (in_sub i) * numel (in_base i); P]) d) dp)
    end.

  (** jacobian.cpp:455-502: one segment.  An implicit segment is solved in one go whatever its substepping level. *)
  Definition pstep (b : bands) (P : nat) (dyn : list nat) (d : device) (sg : pseg) (st dp : vmap) : result (vmap * vmap) :=
    match sg with
    | PF f pjac ps _ =>
        let* (st, dp) := match jf_jvp f with
                         | Some jvp => run_forward_jacobian (a_zero A) (a_add A) dot par base_ndim (jf_seg f) jvp (jf_pairs f) dyn st dp
                         | None =>
                             let* st := run_forward_segment par base_ndim (jf_seg f) dyn st in
                             let* szs := mapM (fun n => let* t := at_ n st in Ok (n, size_by_numel dyn t)) (sg_out (jf_seg f)) in
                             Ok (st, zero_fill A szs dyn P d dp)
                         end in
        match pjac with
        | Some g => let* dp := add_forward_param f g ps b dyn st dp in Ok (st, dp)
        | None => Ok (st, dp)
        end
    | PI i dr solve krylov ps =>
        let* (st, ug) := run_implicit_groups A par capture (ji_seg i) st in
        let* dp := match ji_given i with
                   | Some given => run_implicit_jacobian (a_zero A) (a_add A) neg dot par i given (fst ug) (snd ug) dp
                   | None => Ok (zero_fill A (map (fun u => (v_name u, var_size u)) (is_unknowns (ji_seg i))) dyn P d dp)
                   end in
        match dr with
        | Some g => let* dp := add_implicit_param i g solve krylov ps b dyn (fst ug) (snd ug) dp in Ok (st, dp)
        | None => Ok (st, dp)
        end
    end.
  Fixpoint psteps (b : bands) (P : nat) (dyn : list nat) (d : device) (sgs : list pseg) (st dp : vmap) : result (vmap * vmap) :=
    match sgs with
    | [] => Ok (st, dp)
    | sg :: r => let* (st, dp) := pstep b P dyn d sg st dp in psteps b P dyn d r st dp
    end.

  (** jacobian.cpp:419-508 [_param_jacobian_dstate]. *)
  Definition param_dstate (m : pmodel) (b : bands) (P : nat) (inputs : vmap) : result (vmap * vmap) :=
    let* st := prepare_inputs (pm_inputs m) inputs in
    match pm_inputs m with
    | [] => Err (OtherExn 0)
    | i0 :: _ =>
        let* ref := at_ (in_name i0) st in
        let batch := batch_shape_of i0 ref in
        if Nat.ltb (length batch) (length (in_sub i0)) then Err (OtherExn 0)
        else
          let dyn := firstn (length batch - length (in_sub i0)) batch in
          let* (st, dp) := psteps b P dyn (t_dev ref) (pm_segs m) st (seed_zeros (pm_inputs m) P dyn (t_dev ref) []) in
          let* outs := take_outputs (map fst (pm_outs m)) st [] in
          Ok (outs, dp)
    end.

  (** ops.cpp:360-377: the block of one requested pair. *)
  Definition pout_base (m : pmodel) (o : string) : result (list nat) :=
    match find (fun x => String.eqb (fst x) o) (rev (pm_outs m)) with
    | Some x => Ok (snd x)
    | None => Err (StdExn "map::at")
    end.
  Definition ppair_block (m : pmodel) (b : bands) (dp : vmap) (op : string * string) : result (tensor V) :=
    let* blk := at_ (fst op) dp in
    let batch := firstn (dim blk - 2) (t_shape blk) in
    let* band := at_ (snd op) b in
    let* col := narrow_last blk (fst band) (snd band) in
    let* ob := pout_base m (fst op) in
    let* pb := at_ (snd op) pbase in
    reshape col (batch ++ ob ++ pb).
  Fixpoint ppair_blocks (m : pmodel) (b : bands) (dp : vmap) (pairs : list (string * string)) (jac : smap vmap) : result (smap vmap) :=
    match pairs with
    | [] => Ok jac
    | op :: r =>
        let* t := ppair_block m b dp op in
        ppair_blocks m b dp r (set2 (fst op) (snd op) t jac)
    end.

  (** jacobian.cpp:191-196, 282-287. *)
  Fixpoint name_blocks (ps : list ppair) (blks : list (tensor V)) (jac : smap vmap) : smap vmap :=
    match ps, blks with
    | p :: ps', t :: blks' => name_blocks ps' blks' (set2 (q_out p) (q_param p) t jac)
    | _, _ => jac
    end.
  (** jacobian.cpp:155-205 [_forward_param_pair_blocks]. *)
  Definition forward_param_blocks (m : pmodel) (f : jfwd V) (pjac : loader) (ps : list ppair) (inputs : vmap) : result (vmap * smap vmap) :=
    let* st := prepare_inputs (pm_inputs m) inputs in
    match pm_inputs m with
    | [] => Err (OtherExn 0)
    | i0 :: _ =>
        let* ref := at_ (in_name i0) st in
        let batch := batch_shape_of i0 ref in
        let* ins := mapM (fun n => at_ n st) (sg_in (jf_seg f)) in
        let* qs := mapM (param_in batch) (sg_par (jf_seg f)) in
        let* blks := pjac (ins ++ qs) in
        let* _ := assert_ (Nat.eqb (length blks) (length ps)) "aoti::Model::param_jacobian: loader returned wrong number of tensors" in
        let* st := run_forward_segment par base_ndim (jf_seg f) batch st in
        let* outs := take_outputs (map fst (pm_outs m)) st [] in
        Ok (outs, name_blocks ps blks [])
    end.
  (** jacobian.cpp:207-302 [_implicit_param_pair_blocks]; the Krylov branch additionally reshapes its blocks (261-267). *)
  Definition reshape_blocks (batch : list nat) (ps : list ppair) (blks : list (tensor V)) : result (list (tensor V)) :=
    mapM (fun pt => reshape (snd pt) (batch ++ q_out_base (fst pt) ++ q_par_base (fst pt))) (combine ps blks).
  Definition implicit_param_blocks (m : pmodel) (i : jimp V) (dr : loader) (solve : option loader)
             (krylov : option (tensor V -> tensor V -> result (tensor V))) (ps : list ppair) (b : bands) (inputs : vmap) : result (vmap * smap vmap) :=
    let* st := prepare_inputs (pm_inputs m) inputs in
    let* (st, ug) := run_implicit_groups A par capture (ji_seg i) st in
    match fst ug with
    | [] => Err (Fatal "aoti::Model::param_jacobian: implicit segment produced no unknown groups.")
    | u0 :: _ =>
        let batch := removelast (t_shape u0) in
        let* blks := param_ift_blocks i dr solve krylov ps b batch (fst ug) (snd ug) in
        let* blks := match krylov with Some _ => reshape_blocks batch ps blks | None => Ok blks end in
        let* _ := assert_ (Nat.eqb (length blks) (length ps)) "aoti::Model::param_jacobian: ParamIFT loader returned wrong number of blocks" in
        let* outs := take_outputs (map fst (pm_outs m)) st [] in
        Ok (outs, name_blocks ps blks [])
    end.

  (** ops.cpp:334-379 [param_jacobian] (the parameter overrides are in [par]).  A null [dr_dparam] loader beside a
      compiled solve would be dereferenced: [OtherExn]. *)
  Definition param_jacobian (m : pmodel) (inputs : vmap) : result (vmap * smap vmap) :=
    let* (b, P) := layout (param_size pbase) (pm_derivs m) in
    let* _ := assert_ (negb (Nat.eqb (length (pm_derivs m)) 0)) "aoti::Model::param_jacobian: this artifact was compiled with no parameter derivatives." in
    let composed :=
      let* (outs, dp) := param_dstate m b P inputs in
      let* jac := ppair_blocks m b dp (pm_derivs m) [] in
      Ok (outs, jac) in
    match pm_segs m with
    | [PF f (Some g) ps _] => forward_param_blocks m f g ps inputs
    | [PI i dr (Some s) krylov ps] =>
        match dr with
        | Some g => implicit_param_blocks m i g (Some s) krylov ps b inputs
        | None => Err (OtherExn 0)
        end
    | _ => composed
    end.

  (** [t.sum(dims)] over the first [k] axes. *)
  Definition sum_lead (k : nat) (t : tensor V) : tensor V :=
    let rest := skipn k (t_shape t) in
    mkT rest (map (fun c => sum (col_data (numel (firstn k (t_shape t))) (numel rest) c (t_data t))) (seq 0 (numel rest))) (t_dev t).
  (** ops.cpp:397-413 [collapse]. *)
  Definition collapse (p : string) (t : tensor V) : result (tensor V) :=
    let nd := match lookup p pbase with Some b => length b | None => 0 end in
    let* stored := par p in
    if Nat.ltb nd (dim stored) then Ok t
    else if Nat.leb (dim t) nd then Ok t
    else Ok (sum_lead (dim t - nd) t).

  (** ops.cpp:496-514: [(w.reshape({bn, obn, 1}) * J.reshape({bn, obn, pb})).sum(1)] in the shape [shape]. *)
  Definition contract (bn obn pb : nat) (shape : list nat) (w j : tensor V) : result (tensor V) :=
    let* w' := reshape w [bn; obn; 1] in
    let* j' := reshape j [bn; obn; pb] in
    if device_eqb (t_dev w) (t_dev j) then
      reshape (mkT [bn; pb]
                 (flat_map (fun e => map (fun y => sum (map (fun q => a_mul A (fst q) (snd q))
                                                           (combine (row_data obn e (t_data w')) (col_data obn pb y (row_data (obn * pb) e (t_data j'))))))
                                         (seq 0 pb))
                           (seq 0 bn))
                 (t_dev w)) shape
    else Err (StdExn "expected all tensors to be on the same device").

  (** ops.cpp:477-525: one pair. *)
  Definition vjp_pair (m : pmodel) (cot : vmap) (jac : smap vmap) (op : string * string) (grads : vmap) : result vmap :=
    let* w := match lookup (fst op) cot with Some t => Ok t | None => Err (Fatal "aoti::Model::param_vjp: missing cotangent for output") end in
    let* row := at_ (fst op) jac in
    let* j := at_ (snd op) row in
    let* ob := pout_base m (fst op) in
    let* pb := at_ (snd op) pbase in
    let* _ := assert_ (Nat.leb (length ob) (dim w) && Nat.eqb (dim j) (dim w + length pb))
                      "aoti::Model::param_vjp: cotangent is incompatible with the Jacobian block" in
    let bsz := firstn (dim w - length ob) (t_shape w) in
    let* per := contract (numel bsz) (numel (skipn (dim w - length ob) (t_shape w))) (numel pb) (bsz ++ pb) w j in
    let* c := collapse (snd op) per in
    let* s := match lookup (snd op) grads with None => Ok c | Some g => zip_bcast (a_add A) g c end in
    Ok (set_ (snd op) s grads).
  Fixpoint vjp_pairs (m : pmodel) (cot : vmap) (jac : smap vmap) (pairs : list (string * string)) (grads : vmap) : result vmap :=
    match pairs with
    | [] => Ok grads
    | op :: r => let* grads := vjp_pair m cot jac op grads in vjp_pairs m cot jac r grads
    end.

  (** ops.cpp:421-464: the adjoint graph of a single forward segment. *)
  Fixpoint name_grads (ps : list string) (gs : list (tensor V)) (acc : vmap) : result vmap :=
    match ps, gs with
    | p :: ps', g :: gs' => let* c := collapse p g in name_grads ps' gs' (set_ p c acc)
    | _, _ => Ok acc
    end.
  Definition vjp_direct (m : pmodel) (f : jfwd V) (adj : loader) (outs ps : list string) (inputs cot : vmap) : result vmap :=
    let* st := prepare_inputs (pm_inputs m) inputs in
    let* batch := match pm_inputs m with
                  | [] => Ok []
                  | i :: _ => let* t := at_ (in_name i) st in Ok (batch_shape_of i t)
                  end in
    let* ins := mapM (fun n => at_ n st) (sg_in (jf_seg f)) in
    let* qs := mapM (param_in batch) (sg_par (jf_seg f)) in
    let* ws := mapM (fun o => match lookup o cot with Some t => Ok t | None => Err (Fatal "aoti::Model::param_vjp: missing cotangent for output") end) outs in
    let* gs := adj (ins ++ qs ++ ws) in
    let* _ := assert_ (Nat.eqb (length gs) (length ps)) "aoti::Model::param_vjp: VJP loader returned wrong number of gradients" in
    name_grads ps gs [].

  (** ops.cpp:381-527 [param_vjp]. *)
  Definition param_vjp (m : pmodel) (inputs cot : vmap) : result vmap :=
    let* _ := assert_ (negb (Nat.eqb (length (pm_derivs m)) 0)) "aoti::Model::param_vjp: this artifact was compiled with no parameter derivatives." in
    let general :=
      let* (_, jac) := param_jacobian m inputs in
      vjp_pairs m cot jac (pm_derivs m) [] in
    match pm_segs m with
    | [] => Err (OtherExn 0)
    | [PF f _ _ (Some (adj, outs, ps))] => vjp_direct m f adj outs ps inputs cot
    | _ => general
    end.
End ParamJac.
Arguments pseg V : clear implicits.
Arguments pmodel V : clear implicits.
