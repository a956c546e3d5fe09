(** Vocabulary of the Jacobian properties (C26-C29): the chain rule on components. *)
From Verif Require Import Base Tensor Spec Broadcast SpecBroadcast Pack Implicit Jac JacModel.

(** The multi-index of shape [sh] at row-major position [k]. *)
Fixpoint index_at (sh : list nat) (k : nat) : list nat :=
  match sh with
  | [] => []
  | _ :: sh' => k / numel sh' :: index_at sh' (k mod numel sh')
  end.
(** The elements at the given multi-indices. *)
Definition picks {V} (t : tensor V) (l : list (list nat)) : list V :=
  flat_map (fun idx => match elem t idx with Some x => [x] | None => [] end) l.
(** A shape that broadcasts to [D]. *)
Definition broadcastable (sh D : list nat) : Prop :=
  length sh <= length D /\ forall p n m, rsize sh p = Some n -> rsize D p = Some m -> n = m \/ n = 1.

Section Chain.
  Context {V : Type}.

  (** A linearised segment at one batch entry: the variables it defines, and the derivative blocks (output, input,
      rows); row [r] of a block lists the input components it reads and their coefficients. *)
  Record lin := mkLin { l_outs : list string; l_pairs : list (string * string * (nat -> list nat * list V)) }.

  Variables zero one : V.
  Variable add : V -> V -> V.
  Variable dot : list V -> list V -> V.

  (** Derivative of component [r] of variable [v] by component [c] of the input [i], after the segments [ls] (latest first). *)
  Fixpoint sensitivity (ls : list lin) (v i : string) (r c : nat) : V :=
    match ls with
    | [] => if String.eqb v i && Nat.eqb r c then one else zero
    | l :: before =>
        if existsb (String.eqb v) (l_outs l) then
          fold_left (fun a p => let '(o, n, rows) := p in
                                if String.eqb o v
                                then add a (dot (snd (rows r)) (map (fun k => sensitivity before n i k c) (fst (rows r))))
                                else a)
                    (l_pairs l) zero
        else sensitivity before v i r c
    end.
End Chain.
Arguments lin V : clear implicits.

Section Run.
  Context {V : Type}.
  Notation vmap := (smap (tensor V)).
  Variable zero : V.
  Variable neg : V -> V.
  Variable par : string -> result (tensor V).
  Variable base_ndim : smap nat.
  Variable d : device.
  Variable D : list nat.             (* the batch *)
  Variable batch : list nat.         (* what the first input has before its base axes *)
  Variable size : string -> nat.     (* components of a variable, sub-batch ones included *)

  (** A value of variable [n] over the batch. *)
  Definition sized (n : string) (t : tensor V) : Prop :=
    wf t /\ t_dev t = d /\ exists rest, t_shape t = D ++ rest /\ numel rest = size n.

  (** A forward derivative block as the graph declares it: batch axes (those the block does not depend on of size 1 or
      left out), the sub-batch axes of the input, output base axes, input base axes. *)
  Definition lead_of (p : pair_info) (t : tensor V) : list nat :=
    firstn (dim t - (length (p_out_base p) + length (p_in_base p))) (t_shape t).
  Definition block_ok (p : pair_info) (t : tensor V) : Prop :=
    wf t /\ t_dev t = d /\
    (exists lead, t_shape t = lead ++ p_out_base p ++ p_in_base p /\ broadcastable lead (D ++ p_in_sub p)) /\
    size (p_in p) = numel (p_in_sub p) * numel (p_in_base p) /\
    size (p_out p) = numel (p_in_sub p) * numel (p_out_base p).
  (** Row [r] of the block at batch entry [b]: sub-batch entries do not mix. *)
  Definition block_row (p : pair_info) (t : tensor V) (b : list nat) (r : nat) : list nat * list V :=
    let ob := numel (p_out_base p) in
    let ib := numel (p_in_base p) in
    (map (fun x => r / ob * ib + x) (seq 0 ib),
     picks t (map (fun x => pull (lead_of p t) (b ++ index_at (p_in_sub p) (r / ob)) ++
                            index_at (p_out_base p) (r mod ob) ++ index_at (p_in_base p) x) (seq 0 ib))).
  Definition forward_lin (f : jfwd V) (blks : list (tensor V)) (b : list nat) : lin V :=
    mkLin (sg_out (jf_seg f))
          (map (fun pt => (p_out (fst pt), p_in (fst pt), block_row (fst pt) (snd pt) b)) (combine (jf_pairs f) blks)).

  (** A block du/dg = -(dr/du)^-1 dr/dg of an implicit segment (the source writes "-du/dg"): two storage axes after the batch. *)
  Definition ift_ok (p : pair_info) (t : tensor V) : Prop :=
    wf t /\ t_dev t = d /\ p_in_sub p = [] /\
    exists lead, t_shape t = lead ++ [size (p_out p); size (p_in p)] /\ length lead = length D /\ broadcastable lead D.
  Definition ift_row (p : pair_info) (t : tensor V) (b : list nat) (r : nat) : list nat * list V :=
    (seq 0 (size (p_in p)), picks t (map (fun x => pull (firstn (length D) (t_shape t)) b ++ [r; x]) (seq 0 (size (p_in p))))).
  Definition implicit_lin (i : jimp V) (blks : list (tensor V)) (b : list nat) : lin V :=
    mkLin (map v_name (is_unknowns (ji_seg i)))
          (map (fun pt => (p_out (fst pt), p_in (fst pt), ift_row (fst pt) (snd pt) b)) (combine (ji_pairs i) blks)).

  (** The blocks du/dg got from the operators A = dr/du and B = dr/dg: by the compiled solve, or as slices of the
      negated solution the iterative solve returns. *)
  Definition slice_of (x : tensor V) (p : pair_info) (t : tensor V) : Prop :=
    exists lead n m, t_shape x = lead ++ [n; m] /\ wf x /\ wf t /\ t_dev t = t_dev x /\
      p_row p + numel (p_out_base p) <= n /\ p_col p + numel (p_in_base p) <= m /\
      t_shape t = lead ++ [numel (p_out_base p); numel (p_in_base p)] /\
      forall b r c, index_of lead b -> r < numel (p_out_base p) -> c < numel (p_in_base p) ->
        elem t (b ++ [r; c]) = option_map neg (elem x (b ++ [p_row p + r; p_col p + c])).
  Inductive du_dg (i : jimp V) (As Bs blks : list (tensor V)) : Prop :=
  | du_compiled solve : ji_sens i = Compiled solve -> solve (As ++ Bs) = Ok blks -> du_dg i As Bs blks
  | du_iterative solve A B x : ji_sens i = Iterative solve -> As = [A] -> (Bs = [B] \/ length Bs <> 1 /\ cat_last Bs = Ok B) ->
      solve A B = Ok x -> Forall2 (slice_of x) (ji_pairs i) blks -> du_dg i As Bs blks.

  (** One segment linearised where the evaluation reaches it: the variables with a derivative and the state before, the
      linearisation per batch entry, and the same after. *)
  Inductive linearised (known : list string) (st : vmap) : jseg V -> (list nat -> lin V) -> list string -> vmap -> Prop :=
  | lin_forward f jvp ins ps outs blks :
      jf_jvp f = Some jvp ->
      sg_in (jf_seg f) <> [] -> incl (sg_in (jf_seg f)) known -> NoDup (sg_out (jf_seg f)) ->
      Forall2 (fun n t => lookup n st = Some t) (sg_in (jf_seg f)) ins ->
      Forall2 (fun q t => exists p nd, par q = Ok p /\ lookup q base_ndim = Some nd /\ broadcast_param p batch nd = Ok t) (sg_par (jf_seg f)) ps ->
      jvp (ins ++ ps) = Ok (outs ++ blks) ->
      Forall2 sized (sg_out (jf_seg f)) outs ->
      Forall2 (fun p t => In (p_in p) known /\ In (p_out p) (sg_out (jf_seg f)) /\ block_ok p t) (jf_pairs f) blks ->
      linearised known st (JF f) (forward_lin f blks) (sg_out (jf_seg f) ++ known) (set_all (sg_out (jf_seg f)) outs st)
  | lin_forward_off f st' :
      jf_jvp f = None -> batch = D -> numel D <> 0 -> NoDup (sg_out (jf_seg f)) ->
      run_forward_segment par base_ndim (jf_seg f) batch st = Ok st' ->
      (forall n, In n (sg_out (jf_seg f)) -> exists t, lookup n st' = Some t /\ sized n t) ->
      linearised known st (JF f) (fun _ => mkLin (sg_out (jf_seg f)) []) (sg_out (jf_seg f) ++ known) st'
  | lin_implicit i given st1 gs ps us u st' As rest Bs blks :
      ji_given i = Some given -> ji_level i = 0 ->
      fst (prepare_solve zero par (ji_seg i) st) = Ok (st1, gs, ps, us) ->
      is_solve (ji_seg i) gs ps us = Ok u -> unpack_groups u (is_unknown_groups (ji_seg i)) st1 = Ok st' ->
      ji_jac i (u ++ gs ++ ps) = Ok (As ++ rest) -> length As = ji_nres i * length (is_unknown_groups (ji_seg i)) ->
      given (u ++ gs ++ ps) = Ok Bs -> du_dg i As Bs blks ->
      (forall g, In g (is_givens (ji_seg i)) -> In (v_name (gv_var g)) known) ->
      NoDup (map v_name (is_unknowns (ji_seg i))) ->
      (forall v, In v (is_unknowns (ji_seg i)) -> size (v_name v) = numel (v_sub v) * numel (v_base v)) ->
      Forall2 (fun p t => In (p_in p) known /\ In (p_out p) (map v_name (is_unknowns (ji_seg i))) /\ ift_ok p t) (ji_pairs i) blks ->
      linearised known st (JI i) (implicit_lin i blks) (map v_name (is_unknowns (ji_seg i)) ++ known) st'
  | lin_implicit_off i capture st' :
      ji_given i = None -> batch = D -> ji_level i = 0 ->
      run_implicit zero par capture (ji_seg i) st = Ok st' ->
      NoDup (map v_name (is_unknowns (ji_seg i))) ->
      (forall v, In v (is_unknowns (ji_seg i)) -> size (v_name v) = numel (v_sub v) * numel (v_base v)) ->
      linearised known st (JI i) (fun _ => mkLin (map v_name (is_unknowns (ji_seg i))) []) (map v_name (is_unknowns (ji_seg i)) ++ known) st'.
  Inductive linear_run : list string -> vmap -> list (jseg V) -> list (list nat -> lin V) -> list string -> vmap -> Prop :=
  | lr_nil known st : linear_run known st [] [] known st
  | lr_cons known st sg l known1 st1 sgs ls known' st' :
      linearised known st sg l known1 st1 -> linear_run known1 st1 sgs ls known' st' ->
      linear_run known st (sg :: sgs) (l :: ls) known' st'.
End Run.

(** What the Jacobian theorems are about: a call of the model [m] on the inputs [I] whose batch is [D], evaluated on the
    device [d] with [size] components per variable, the linearisations [lins] of its segments in evaluation order and the
    final state [st']. *)
Definition evaluated {V} (zero : V) (neg : V -> V) (par : string -> result (tensor V)) (base_ndim : smap nat)
           (m : jmodel V) (I : smap (tensor V)) (D : list nat) (size : string -> nat) (d : device)
           (lins : list (list nat -> lin V)) (st' : smap (tensor V)) : Prop :=
  NoDup (map in_name (jm_inputs m)) /\ NoDup (map fst (jm_outs m)) /\ jm_derivs m <> [] /\
  (forall i, In i (jm_inputs m) -> size (in_name i) = numel (in_sub i) * numel (in_base i)) /\
  (forall o i, In (o, i) (jm_derivs m) ->
     (exists ob, In (o, ob) (jm_outs m)) /\ exists info, In info (jm_inputs m) /\ in_name info = i /\ numel (in_sub info) = 1) /\
  exists i0 rest st ref known sub,
    jm_inputs m = i0 :: rest /\ prepare_inputs (jm_inputs m) I = Ok st /\
    lookup (in_name i0) st = Some ref /\ t_dev ref = d /\ t_shape ref = D ++ sub ++ in_base i0 /\ length sub = length (in_sub i0) /\
    linear_run zero neg par base_ndim d D (batch_shape_of i0 ref) size (map in_name (jm_inputs m)) st (jm_segs m) lins known st' /\
    forall o ob, In (o, ob) (jm_outs m) -> In o known /\ size o = numel ob /\ exists t, lookup o st' = Some t.

(** The block of a pair in the result of jacobian(). *)
Definition block {V} (jac : smap (smap (tensor V))) (o i : string) : option (tensor V) :=
  match lookup o jac with Some r => lookup i r | None => None end.

(** The model is a single forward segment with a derivative graph. *)
Definition single_forward {V} (m : jmodel V) : Prop := exists f jvp, jm_segs m = [JF f] /\ jf_jvp f = Some jvp.

(** ** Directional derivatives (C28) *)

(** A tangent of the input [i]: batch axes that broadcast to the batch, then the base axes. *)
Definition tangent_ok {V} (d : device) (D : list nat) (i : in_info) (t : tensor V) : Prop :=
  wf t /\ t_dev t = d /\ exists lead, t_shape t = lead ++ in_base i /\ broadcastable lead D.
(** Its components at the batch entry [e]; an input without tangent has zeros. *)
Definition tangent_at {V} (zero : V) (T : smap (tensor V)) (i : in_info) (e : list nat) : list V :=
  match lookup (in_name i) T with
  | Some t => picks t (map (fun c => pull (firstn (dim t - length (in_base i)) (t_shape t)) e ++ index_at (in_base i) c)
                           (seq 0 (numel (in_base i))))
  | None => repeat zero (numel (in_base i))
  end.
(** The inputs the output [o] is differentiated by, in the order of the requested pairs. *)
Definition paired (derivs : list (string * string)) (o : string) : list string :=
  map snd (filter (fun p => String.eqb (fst p) o) derivs).
(** Sum of a non-empty list from the left. *)
Definition sum1 {V} (add : V -> V -> V) (l : list V) : option V :=
  match l with [] => None | x :: r => Some (fold_left add r x) end.

(** Row [x] at batch entry [e] of the block by [i] of a Jacobian. *)
Definition block_at {V} (jac : smap (smap (tensor V))) (o : string) (i : in_info) (e x : list nat) : list V :=
  match block jac o (in_name i) with
  | Some t => picks t (map (fun c => e ++ x ++ index_at (in_base i) c) (seq 0 (numel (in_base i))))
  | None => []
  end.
