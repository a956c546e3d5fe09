(** Vocabulary of the parameter-derivative property (C29). *)
From Verif Require Import Base Tensor Spec Broadcast SpecBroadcast BatchChunk Pack Implicit Substep Jac JacModel ParamJac SpecJac SpecAlgebra.

Section Chain.
  Context {V : Type}.
  Variable zero : V.
  Variable add : V -> V -> V.
  Variable dot : list V -> list V -> V.

  (** A linearised segment at one batch entry, with its own derivatives by parameters: (output, parameter,
      coefficient of output component r and parameter component c). *)
  Record plin := mkPL { pl_lin : lin V; pl_direct : list (string * string * (nat -> nat -> V)) }.

  (** Derivative of component [r] of variable [v] by component [c] of the parameter [p], after the segments [ls] (latest
      first): through the variables a segment reads, plus its own. *)
  Fixpoint param_sensitivity (ls : list plin) (v p : string) (r c : nat) : V :=
    match ls with
    | [] => zero
    | l :: before =>
        fold_left (fun a q => let '(o, n, k) := q in if String.eqb o v && String.eqb n p then add a (k r c) else a)
                  (pl_direct l)
                  (if existsb (String.eqb v) (l_outs (pl_lin l)) then
                     fold_left (fun a q => let '(o, n, rows) := q in
                                           if String.eqb o v
                                           then add a (dot (snd (rows r)) (map (fun k => param_sensitivity before n p k c) (fst (rows r))))
                                           else a)
                               (l_pairs (pl_lin l)) zero
                   else param_sensitivity before v p r c)
    end.
End Chain.
Arguments plin V : clear implicits.

(** The element at a multi-index, where there is one. *)
Definition get {V} (zero : V) (t : tensor V) (idx : list nat) : V := match elem t idx with Some x => x | None => zero end.

Section Run.
  Context {V : Type}.
  Notation vmap := (smap (tensor V)).
  Variable zero : V.
  Variable neg : V -> V.
  Variable par : string -> result (tensor V).
  Variable pbase : smap (list nat).
  Variable d : device.
  Variable D : list nat.
  Variable size : string -> nat.
  Variable requested : list string.

  (** A block of derivatives by a parameter: batch axes, then output and parameter components in row-major order. *)
  Definition direct_ok (outs : list string) (p : ppair) (t : tensor V) : Prop :=
    In (q_out p) outs /\ In (q_param p) requested /\ size (q_out p) = numel (q_out_base p) /\
    exists pb rest, lookup (q_param p) pbase = Some pb /\ wf t /\ t_dev t = d /\ t_shape t = D ++ rest /\ numel rest = size (q_out p) * numel pb.
  Definition pcols (p : ppair) : nat := match lookup (q_param p) pbase with Some pb => numel pb | None => 0 end.
  Definition directs (ps : list ppair) (blks : list (tensor V)) (e : list nat) : list (string * string * (nat -> nat -> V)) :=
    map (fun pt => (q_out (fst pt), q_param (fst pt),
                    fun r c => get zero (snd pt) (e ++ index_at (skipn (length D) (t_shape (snd pt))) (r * pcols (fst pt) + c))))
        (combine ps blks).

  (** Parameters as the graphs get them: expanded over the batch. *)
  Definition spread (q : string) (t : tensor V) : Prop :=
    exists p pb, par q = Ok p /\ lookup q pbase = Some pb /\ broadcast_param p D (length pb) = Ok t.

  (** The parameter blocks of an implicit segment, du/dp = -(dr/du)^-1 dr/dp: from the compiled solve, or slices of the
      negated solution of the iterative solve. *)
  Definition pslice_of (x : tensor V) (p : ppair) (t : tensor V) : Prop :=
    exists lead n m, t_shape x = lead ++ [n; m] /\ wf x /\ wf t /\ t_dev t = t_dev x /\
      q_row p + numel (q_out_base p) <= n /\ q_col p + pcols p <= m /\
      t_shape t = lead ++ [numel (q_out_base p); pcols p] /\
      forall b r c, index_of lead b -> r < numel (q_out_base p) -> c < pcols p ->
        elem t (b ++ [r; c]) = option_map neg (elem x (b ++ [q_row p + r; q_col p + c])).
  Inductive du_dp (ps : list ppair) (op : list (tensor V)) : option (list (tensor V) -> result (list (tensor V))) ->
      option (tensor V -> tensor V -> result (tensor V)) -> list (tensor V) -> Prop :=
  | dp_compiled s blks : s op = Ok blks -> du_dp ps op (Some s) None blks
  | dp_iterative s k a b rest x blks : op = a :: b :: rest -> k a b = Ok x -> Forall2 (pslice_of x) ps blks -> du_dp ps op s (Some k) blks.

  (** One segment with its parameter derivatives, evaluated where the run reaches it. *)
  Notation lined := (linearised zero neg par (vmap_ (@length nat) pbase) d D D size).
  Inductive plinearised (known : list string) (st : vmap) : pseg V -> (list nat -> plin V) -> list string -> vmap -> Prop :=
  | pl_forward f ps vjp l known' st' :
      lined known st (JF f) l known' st' ->
      plinearised known st (PF f None ps vjp) (fun e => mkPL (l e) []) known' st'
  | pl_forward_param f g ps vjp l known' st' ins qs blks :
      lined known st (JF f) l known' st' ->
      (forall n, In n (sg_in (jf_seg f)) -> ~ In n (sg_out (jf_seg f))) ->
      Forall2 (fun n t => lookup n st = Some t) (sg_in (jf_seg f)) ins -> Forall2 spread (sg_par (jf_seg f)) qs ->
      g (ins ++ qs) = Ok blks -> Forall2 (direct_ok (sg_out (jf_seg f))) ps blks ->
      plinearised known st (PF f (Some g) ps vjp) (fun e => mkPL (l e) (directs ps blks e)) known' st'
  | pl_implicit i solve krylov ps l known' st' :
      lined known st (JI i) l known' st' ->
      plinearised known st (PI i None solve krylov ps) (fun e => mkPL (l e) []) known' st'
  | pl_implicit_param i g solve krylov ps l known' st' st1 gs params us u qs op blks :
      lined known st (JI i) l known' st' ->
      fst (prepare_solve zero par (ji_seg i) st) = Ok (st1, gs, params, us) -> is_solve (ji_seg i) gs params us = Ok u ->
      Forall2 spread (is_params (ji_seg i)) qs -> g (u ++ gs ++ qs) = Ok op ->
      du_dp ps op solve krylov blks -> Forall2 (direct_ok (map v_name (is_unknowns (ji_seg i)))) ps blks ->
      plinearised known st (PI i (Some g) solve krylov ps) (fun e => mkPL (l e) (directs ps blks e)) known' st'.
  Inductive plinear_run : list string -> vmap -> list (pseg V) -> list (list nat -> plin V) -> list string -> vmap -> Prop :=
  | pr_nil known st : plinear_run known st [] [] known st
  | pr_cons known st sg l known1 st1 sgs ls known' st' :
      plinearised known st sg l known1 st1 -> plinear_run known1 st1 sgs ls known' st' ->
      plinear_run known st (sg :: sgs) (l :: ls) known' st'.
End Run.

(** A call of param_jacobian(): as [evaluated], with the derivatives by the requested parameters. *)
Definition pevaluated {V} (zero : V) (neg : V -> V) (par : string -> result (tensor V)) (pbase : smap (list nat))
           (m : pmodel V) (I : smap (tensor V)) (D : list nat) (size : string -> nat) (d : device)
           (lins : list (list nat -> plin V)) (st' : smap (tensor V)) : Prop :=
  NoDup (map in_name (pm_inputs m)) /\ NoDup (map fst (pm_outs m)) /\ pm_derivs m <> [] /\
  (forall i, In i (pm_inputs m) -> size (in_name i) = numel (in_sub i) * numel (in_base i)) /\
  (forall o p, In (o, p) (pm_derivs m) -> (exists ob, In (o, ob) (pm_outs m)) /\ exists pb, lookup p pbase = Some pb) /\
  exists i0 rest st ref known sub,
    pm_inputs m = i0 :: rest /\ prepare_inputs (pm_inputs m) I = Ok st /\
    lookup (in_name i0) st = Some ref /\ t_dev ref = d /\ t_shape ref = D ++ sub ++ in_base i0 /\ length sub = length (in_sub i0) /\
    plinear_run zero neg par pbase d D size (map snd (pm_derivs m)) (map in_name (pm_inputs m)) st (pm_segs m) lins known st' /\
    forall o ob, In (o, ob) (pm_outs m) -> In o known /\ size o = numel ob /\ exists t, lookup o st' = Some t.

(** The model is one segment whose parameter blocks are compiled: they are returned as they are. *)
Definition single_param {V} (m : pmodel V) : Prop :=
  (exists f g ps vjp, pm_segs m = [PF f (Some g) ps vjp]) \/ (exists i dr s k ps, pm_segs m = [PI i dr (Some s) k ps]).
(** It is a single forward segment with an adjoint graph. *)
Definition single_adjoint {V} (m : pmodel V) : Prop := exists f pj ps a, pm_segs m = [PF f pj ps (Some a)].

(** All multi-indices of a shape, in row-major order. *)
Definition indices (sh : list nat) : list (list nat) := map (index_at sh) (seq 0 (numel sh)).
(** The outputs differentiated by the parameter [p], in the order of the requested pairs. *)
Definition outs_of (derivs : list (string * string)) (p : string) : list string :=
  map fst (filter (fun q => String.eqb (snd q) p) derivs).

(** What the output [o] adds to the gradient of the parameter [p]: component [y] at batch entry [e] of cotangent times
    block, summed over the components of the output. *)
Definition cotangent_term {V} (zero : V) (mul : V -> V -> V) (sum : list V -> V) (outs : list (string * list nat))
           (cot : smap (tensor V)) (jac : smap (smap (tensor V))) (p : string) (e y : list nat) (o : string) : V :=
  match lookup o cot, block jac o p, lookup o outs with
  | Some w, Some j, Some ob => sum (map (fun x => mul (get zero w (e ++ x)) (get zero j (e ++ x ++ y))) (indices ob))
  | _, _, _ => zero
  end.
(** Over the batch; there is nothing to sum without batch axes. *)
Definition over_batch {V} (sum : list V -> V) (D : list nat) (f : list nat -> V) : V :=
  match D with [] => f [] | _ => sum (map f (indices D)) end.
(** Gradient of a parameter of base shape [pb]: a batched parameter keeps the batch, a global one is summed over it. *)
Definition gradient_ok {V} (add : V -> V -> V) (sum : list V -> V) (D pb : list nat) (batched : bool) (d : device)
           (outs : list string) (term : list nat -> list nat -> string -> V) (g : tensor V) : Prop :=
  wf g /\ t_dev g = d /\
  if batched then t_shape g = D ++ pb /\ forall e y, index_of D e -> index_of pb y -> elem g (e ++ y) = sum1 add (map (term e y) outs)
  else t_shape g = pb /\ forall y, index_of pb y -> elem g y = sum1 add (map (fun o => over_batch sum D (fun e => term e y o)) outs).

(** The parameter is batched: it is stored with more axes than its base shape. *)
Definition batched {V} (par : string -> result (tensor V)) (p : string) (pb : list nat) : bool :=
  match par p with Ok t => Nat.ltb (length pb) (dim t) | Err _ => false end.
(** Every requested block is there, with batch, output and parameter axes, and holds the derivatives composed from the
    segments' own. *)
Definition param_chain_rule {V} (zero : V) (add : V -> V -> V) (dot : list V -> list V -> V) (pbase : smap (list nat)) (m : pmodel V) (D : list nat) (d : device)
           (lins : list (list nat -> plin V)) (jac : smap (smap (tensor V))) : Prop :=
  forall o p ob pb, In (o, p) (pm_derivs m) -> In (o, ob) (pm_outs m) -> lookup p pbase = Some pb -> exists t,
    block jac o p = Some t /\ wf t /\ t_dev t = d /\ t_shape t = D ++ ob ++ pb /\
    forall e x y, index_of D e -> index_of ob x -> index_of pb y ->
      elem t (e ++ x ++ y) = Some (param_sensitivity zero add dot (rev (map (fun l => l e) lins)) o p (ravel ob x) (ravel pb y)).

(** One requested pair with its block and cotangent: the block has the batch, output and parameter axes, the cotangent
    the axes of the output. *)
Definition contractible {V} (par : string -> result (tensor V)) (pbase : smap (list nat)) (outs : list (string * list nat)) (d : device) (D : list nat)
           (cot : smap (tensor V)) (jac : smap (smap (tensor V))) (o p : string) : Prop :=
  exists ob pb w j stored, lookup o outs = Some ob /\ lookup p pbase = Some pb /\ par p = Ok stored /\
    lookup o cot = Some w /\ wf w /\ t_dev w = d /\ t_shape w = D ++ ob /\
    block jac o p = Some j /\ wf j /\ t_dev j = d /\ t_shape j = D ++ ob ++ pb.

Section Exact.
  Context {V : Type}.
  Variable zero : V.
  Variables add mul : V -> V -> V.
  (** Forward differentiation by parameters: a perturbation [dp] of the parameters (component [c] of [n] below [cols n])
      carried through the segments [ls] (latest first), the inputs held fixed. *)
  Fixpoint ppush (cols : string -> nat) (ls : list (plin V)) (dp : string -> nat -> V) (v : string) (r : nat) : V :=
    match ls with
    | [] => zero
    | l :: before =>
        fold_left (fun a q => let '(o, n, k) := q in if String.eqb o v then add a (sum_to zero add (cols n) (fun c => mul (k r c) (dp n c))) else a)
                  (pl_direct l)
                  (if existsb (String.eqb v) (l_outs (pl_lin l)) then
                     fold_left (fun a q => let '(o, n, rows) := q in
                                           if String.eqb o v then add a (dotx zero add mul (snd (rows r)) (map (fun k => ppush cols before dp n k) (fst (rows r)))) else a)
                               (l_pairs (pl_lin l)) zero
                   else ppush cols before dp v r)
    end.
  (** Inner product of two tensors of the same shape. *)
  Definition pairing (a b : tensor V) : V := sum zero add (map (fun i => mul (get zero a i) (get zero b i)) (indices (t_shape a))).
  (** The perturbation at batch entry [e] of the parameters requested together with [o]: a batched parameter has one per
      entry. *)
  Definition dp_at (pbase : smap (list nat)) (D : list nat) (derivs : list (string * string)) (dp : smap (tensor V)) (o : string) (e : list nat)
             (p : string) (c : nat) : V :=
    match lookup p dp, lookup p pbase with
    | Some t, Some pb =>
        if existsb (String.eqb p) (map snd (filter (fun q => String.eqb (fst q) o) derivs)) && Nat.ltb c (numel pb)
        then get zero t ((if Nat.eqb (dim t) (length pb) then [] else e) ++ index_at pb c) else zero
    | _, _ => zero
    end.
End Exact.
Definition columns_of (pbase : smap (list nat)) (p : string) : nat := match lookup p pbase with Some pb => numel pb | None => 0 end.

(** Coefficient of component [x] of [u] by component [c] of the parameter [p] among a segment's own parameter
    derivatives; zero without one. *)
Definition own_coeff {V} (zero : V) (qs : list (string * string * (nat -> nat -> V))) (u p : string) (x c : nat) : V :=
  match find (fun q => String.eqb (fst (fst q)) u && String.eqb (snd (fst q)) p) qs with
  | Some (_, k) => k x c
  | None => zero
  end.

(** Inner product of two maps of tensors over the names [l]. *)
Definition total_pairing {V} (zero : V) (add mul : V -> V -> V) (l : list string) (a b : smap (tensor V)) : V :=
  sum zero add (map (fun n => match lookup n a, lookup n b with Some s, Some t => pairing zero add mul s t | _, _ => zero end) l).
(** The perturbation of the outputs: at every batch entry the parameters' one, carried through the segments. *)
Definition pushed {V} (zero : V) (add mul : V -> V -> V) (pbase : smap (list nat)) (m : pmodel V) (D : list nat) (lins : list (list nat -> plin V))
           (dp r : smap (tensor V)) : Prop :=
  forall o p ob, In (o, p) (pm_derivs m) -> In (o, ob) (pm_outs m) -> exists t, lookup o r = Some t /\ t_shape t = D ++ ob /\
    forall e x, index_of D e -> index_of ob x ->
      elem t (e ++ x) = Some (ppush zero add mul (columns_of pbase) (rev (map (fun l => l e) lins)) (dp_at zero pbase D (pm_derivs m) dp o e) o (ravel ob x)).
