(** Property C29 (parameter derivatives and gradients). *)
From Coq Require Import Ring_theory ZArith.
From Verif Require Import Base BaseProofs Tensor Spec Broadcast SpecBroadcast BroadcastProofs Pack Implicit ImplicitProofs BatchChunk Substep Mat Jac SubstepJac JacModel ParamJac
     SpecLayout LayoutProofs SpecJac MatProofs JacProofs SpecAlgebra AlgebraProofs JacExactProofs SpecParam ParamProofs ParamMainProofs ParamVjpProofs ParamExactProofs ParamDirectProofs Example_Jac Example_Param.
Local Open Scope string_scope.
Local Open Scope list_scope.
Local Open Scope nat_scope.

(** * The parameter Jacobian is the chain rule *)

(** A model that is not a single segment with compiled parameter blocks: the call returns the outputs of the evaluation
    and exactly one block per requested pair, whose entries are the derivatives composed from the segments' own blocks
    (by their inputs and by the parameters) in evaluation order. *)
Theorem C29_composed : forall V (A : arith V) neg dot par pbase capture m (I st' : smap (tensor V)) D size d lins,
  pevaluated (a_zero A) neg par pbase m I D size d lins st' -> ~ single_param m ->
  exists outs jac, param_jacobian A neg dot par pbase capture m I = Ok (outs, jac) /\
    (forall n, lookup n outs = if existsb (String.eqb n) (map fst (pm_outs m)) then lookup n st' else None) /\
    param_chain_rule (a_zero A) (a_add A) dot pbase m D d lins jac /\
    (forall o p, ~ In (o, p) (pm_derivs m) -> block jac o p = None).
Proof.
  intros V A neg dot par pbase capture m I st' D size d lins ev Ns.
  exact (pcomposed_ok A neg dot par pbase capture m D size d I st' lins ev Ns).
Qed.
Print Assumptions C29_composed.

Example C29_case : pevaluated (a_zero zr) Z.opp px_par px_pbase px_model jx_in [2] jx_size cpu px_lins px_st3 /\ ~ single_param px_model /\
  exists outs jac, param_jacobian zr Z.opp zdot px_par px_pbase false px_model jx_in = Ok (outs, jac) /\
    block jac "z" "k" = Some (mkT [2; 2] [15; 60; 315; 140]%Z cpu) /\ block jac "z" "q" = Some (mkT [2; 2; 2] [59; 1; 4; 120; 321; 9; 4; 420]%Z cpu) /\
    block jac "u" "k" = Some (mkT [2] [15; 35]%Z cpu) /\ block jac "u" "q" = Some (mkT [2; 2] [1; 1; 1; 1]%Z cpu).
Proof.
  split; [exact px_evaluated|]. split; [intros [(f & g & ps & v & E)|(i & r & s & k & ps & E)]; discriminate|].
  eexists. eexists. split; [vm_compute; reflexivity|]. vm_compute. auto.
Qed.

(** A single forward segment with a parameter graph: the graph's own blocks, named by the declared pairs. *)
Theorem C29_single_forward : forall V (A : arith V) neg dot par pbase capture m f g ps vjp i0 rest (I st st' : smap (tensor V)) ref ins qs blks,
  pm_segs m = [PF f (Some g) ps vjp] -> pm_derivs m <> [] -> (forall o p, In (o, p) (pm_derivs m) -> exists pb, lookup p pbase = Some pb) ->
  pm_inputs m = i0 :: rest -> prepare_inputs (pm_inputs m) I = Ok st -> lookup (in_name i0) st = Some ref ->
  Forall2 (fun n t => lookup n st = Some t) (sg_in (jf_seg f)) ins -> Forall2 (spread par pbase (batch_shape_of i0 ref)) (sg_par (jf_seg f)) qs ->
  g (ins ++ qs) = Ok blks -> length blks = length ps -> NoDup (map (fun q => (q_out q, q_param q)) ps) ->
  run_forward_segment par (vmap_ (@length nat) pbase) (jf_seg f) (batch_shape_of i0 ref) st = Ok st' -> (forall o ob, In (o, ob) (pm_outs m) -> exists t, lookup o st' = Some t) ->
  exists outs jac, param_jacobian A neg dot par pbase capture m I = Ok (outs, jac) /\
    (forall n, lookup n outs = if existsb (String.eqb n) (map fst (pm_outs m)) then lookup n st' else None) /\
    (forall k p t, nth_error ps k = Some p -> nth_error blks k = Some t -> block jac (q_out p) (q_param p) = Some t) /\
    (forall o p, ~ In (o, p) (map (fun q => (q_out q, q_param q)) ps) -> block jac o p = None).
Proof. intros V. exact (@single_forward_ok V). Qed.
Print Assumptions C29_single_forward.

(** A single implicit segment with a compiled sensitivity solve: its blocks at the solution, in their final shape when
    they come from the iterative solve. *)
Theorem C29_single_implicit : forall V (A : arith V) neg dot par pbase capture m i dr s krylov ps (I st st1 st' : smap (tensor V)) gs prm us u0 u qs op blks,
  pm_segs m = [PI i (Some dr) (Some s) krylov ps] -> pm_derivs m <> [] -> (forall o p, In (o, p) (pm_derivs m) -> exists pb, lookup p pbase = Some pb) ->
  (forall p, In p ps -> In (q_param p) (map snd (pm_derivs m))) ->
  prepare_inputs (pm_inputs m) I = Ok st -> fst (prepare_solve (a_zero A) par (ji_seg i) st) = Ok (st1, gs, prm, us) -> is_solve (ji_seg i) gs prm us = Ok (u0 :: u) ->
  unpack_groups (u0 :: u) (is_unknown_groups (ji_seg i)) st1 = Ok st' ->
  Forall2 (spread par pbase (removelast (t_shape u0))) (is_params (ji_seg i)) qs -> dr ((u0 :: u) ++ gs ++ qs) = Ok op -> du_dp neg pbase ps op (Some s) krylov blks ->
  length blks = length ps -> NoDup (map (fun q => (q_out q, q_param q)) ps) ->
  (krylov <> None -> Forall2 (fun p t => numel (removelast (t_shape u0) ++ q_out_base p ++ q_par_base p) = numel (t_shape t)) ps blks) ->
  (forall o ob, In (o, ob) (pm_outs m) -> exists t, lookup o st' = Some t) ->
  exists outs jac, param_jacobian A neg dot par pbase capture m I = Ok (outs, jac) /\
    (forall n, lookup n outs = if existsb (String.eqb n) (map fst (pm_outs m)) then lookup n st' else None) /\
    (forall k p t, nth_error ps k = Some p -> nth_error blks k = Some t ->
       block jac (q_out p) (q_param p) =
       Some (match krylov with None => t | Some _ => mkT (removelast (t_shape u0) ++ q_out_base p ++ q_par_base p) (t_data t) (t_dev t) end)) /\
    (forall o p, ~ In (o, p) (map (fun q => (q_out q, q_param q)) ps) -> block jac o p = None).
Proof. intros V. exact (@single_implicit_ok V). Qed.
Print Assumptions C29_single_implicit.

(** ... which in exact arithmetic satisfy the same chain rule, when they have the shape of the requested block. *)
Theorem C29_single_exact : forall V (A : arith V) opp pbase m D size d (l : list nat -> lin V) requested os ps (blks : list (tensor V)) jac,
  ring_theory (a_zero A) (a_one A) (a_add A) (a_mul A) (a_sub A) opp eq ->
  Forall2 (direct_ok pbase d D size requested os) ps blks -> NoDup (map (fun q => (q_out q, q_param q)) ps) ->
  (forall o p, In (o, p) (pm_derivs m) -> In (o, p) (map (fun q => (q_out q, q_param q)) ps)) ->
  (forall k p t, nth_error ps k = Some p -> nth_error blks k = Some t -> block jac (q_out p) (q_param p) = Some t /\
     forall ob pb, In (q_out p, ob) (pm_outs m) -> lookup (q_param p) pbase = Some pb -> t_shape t = D ++ ob ++ pb) ->
  param_chain_rule (a_zero A) (a_add A) (dotx (a_zero A) (a_add A) (a_mul A)) pbase m D d [fun e => mkPL (l e) (directs (a_zero A) pbase D ps blks e)] jac.
Proof. intros V A opp pbase m D size d l requested os ps blks jac R. exact (single_chain_rule A opp R pbase m D size d l requested os ps blks jac). Qed.
Print Assumptions C29_single_exact.

Definition px_single : pmodel Z := mkPM (pm_inputs px_model) [px_seg1] [("w", [])] [("w", "k")].
Definition px_alone : pmodel Z :=
  mkPM [mkIn "w" [] []] [PI px_i2 (Some px_dr) (Some (fun l => match l with [a; b] => Ok [mkT [2; 2] (map Z.opp (t_data b)) (t_dev b)] | _ => Err (StdExn "arguments") end)) None px_ps2]
       [("u", [])] [("u", "q")].
Example C29_single_case :
  (exists outs jac, param_jacobian zr Z.opp zdot px_par px_pbase false px_single jx_in = Ok (outs, jac) /\ block jac "w" "k" = Some (mkT [2] [3; 7]%Z cpu)) /\
  (exists outs jac, param_jacobian zr Z.opp zdot px_par px_pbase false px_alone [("w", mkT [2] [11; 20]%Z cpu)] = Ok (outs, jac) /\
     lookup "u" outs = Some (mkT [2] [58; 104]%Z cpu) /\ block jac "u" "q" = Some (mkT [2; 2] [1; 1; 1; 1]%Z cpu)) /\
  Forall2 (direct_ok px_pbase cpu [2] jx_size ["k"] ["w"]) [mkPP "w" "k" [] [] 0 0] px_own1 /\
  (forall ob pb, In ("w", ob) (pm_outs px_single) -> lookup "k" px_pbase = Some pb -> [2] = [2] ++ ob ++ pb).
Proof.
  split; [do 2 eexists; split; vm_compute; reflexivity|]. split; [do 2 eexists; split; [vm_compute; reflexivity|split; vm_compute; reflexivity]|]. split.
  - constructor; [|constructor]. split; [left; reflexivity|]. split; [left; reflexivity|]. split; [reflexivity|]. exists [], []. repeat split.
  - intros ob pb [E|[]] L. injection E as <-. injection L as <-. reflexivity.
Qed.

(** The composed derivatives are those of forward differentiation: a perturbation of the parameters, carried through
    the segments in exact arithmetic. *)
Theorem C29_forward_mode : forall V (A : arith V) opp cols (ps : list string) (dp : string -> nat -> V),
  ring_theory (a_zero A) (a_one A) (a_add A) (a_mul A) (a_sub A) opp eq -> NoDup ps ->
  forall ls, (forall l o n k, In l ls -> In (o, n, k) (pl_direct l) -> In n ps) ->
  forall v r, ppush (a_zero A) (a_add A) (a_mul A) cols ls dp v r =
    sum (a_zero A) (a_add A) (map (fun p => sum_to (a_zero A) (a_add A) (cols p)
      (fun c => a_mul A (param_sensitivity (a_zero A) (a_add A) (dotx (a_zero A) (a_add A) (a_mul A)) ls v p r c) (dp p c))) ps).
Proof. intros V A opp cols ps dp R. exact (ppush_is_sens A opp R cols ps dp). Qed.
Print Assumptions C29_forward_mode.
Example C29_forward_mode_case :
  let ls := rev (map (fun l => l [1]) px_lins) in
  (forall l o n k, In l ls -> In (o, n, k) (pl_direct l) -> In n ["k"; "q"]) /\
  ppush 0%Z Z.add Z.mul (columns_of px_pbase) ls (fun p c => if String.eqb p "k" then 1%Z else 10%Z) "z" 0 = 3615%Z.
Proof.
  split; [|vm_compute; reflexivity]. intros l o n k I J. cbn in I. destruct I as [<-|[<-|[<-|[]]]]; cbn in J; destruct J as [J|[]]; injection J as _ <- _; cbn; auto.
Qed.

(** The implicit function theorem with parameters: when the blocks of an implicit segment solve A X + B = 0 by the
    givens and A Y + P = 0 by the parameter component (A, B, P the derivatives of the residual by unknowns, givens and
    that component), the composed derivatives of its unknowns keep the residual at zero. *)
Theorem C29_implicit : forall V (A : arith V) opp size d D i (blks pblks : list (tensor V)) pbase requested ps gs e nr (dr_du dr_dg : nat -> string -> nat -> V) (dr_dp : nat -> V) before n c,
  ring_theory (a_zero A) (a_one A) (a_add A) (a_mul A) (a_sub A) opp eq ->
  Forall2 (ift_ok d D size) (ji_pairs i) blks -> NoDup (map (fun p => (p_out p, p_in p)) (ji_pairs i)) ->
  (forall p, In p (ji_pairs i) -> In (p_out p) (map v_name (is_unknowns (ji_seg i))) /\ In (p_in p) gs) ->
  Forall2 (direct_ok pbase d D size requested (map v_name (is_unknowns (ji_seg i)))) ps pblks -> NoDup (map (fun q => (q_out q, q_param q)) ps) ->
  NoDup gs -> index_of D e ->
  let us := map v_name (is_unknowns (ji_seg i)) in
  let own := directs (a_zero A) pbase D ps pblks e in
  let sum_over l f := sum (a_zero A) (a_add A) (map (fun v => sum_to (a_zero A) (a_add A) (size v) (f v)) l) in
  let sens := param_sensitivity (a_zero A) (a_add A) (dotx (a_zero A) (a_add A) (a_mul A)) in
  (forall p g y, p < nr -> In g gs -> y < size g ->
     a_add A (sum_over us (fun u x => a_mul A (dr_du p u x) (ift_coeff (a_zero A) D (ji_pairs i) blks e u g x y))) (dr_dg p g y) = a_zero A) ->
  (forall p, p < nr -> a_add A (sum_over us (fun u x => a_mul A (dr_du p u x) (own_coeff (a_zero A) own u n x c))) (dr_dp p) = a_zero A) ->
  forall p, p < nr ->
    a_add A (sum_over us (fun u x => a_mul A (dr_du p u x) (sens (mkPL (implicit_lin D size i blks e) own :: before) u n x c)))
            (a_add A (sum_over gs (fun g y => a_mul A (dr_dg p g y) (sens before g n y c))) (dr_dp p)) = a_zero A.
Proof.
  intros V A opp size d D i blks pblks pbase requested ps gs e nr dr_du dr_dg dr_dp before n c R F N O Fp Np Ng Ie us own sum_over sens H1 H2 p Hp.
  assert (X : NoDup (map fst (pl_direct (mkPL (implicit_lin D size i blks e) own)))).
  { cbn [pl_direct]. unfold own. rewrite directs_fst by (symmetry; exact (Forall2_length _ _ _ Fp)). exact Np. }
  exact (param_stationary A opp R size us gs _ (mkPL (implicit_lin D size i blks e) own) nr dr_du dr_dg dr_dp before n c p
           (implicit_solves A size d D i blks gs F N O e Ie) Ng X H1 H2 Hp).
Qed.
Print Assumptions C29_implicit.
Example C29_implicit_case : Forall2 (ift_ok cpu [2] jx_size) (ji_pairs px_i2) px_blks2 /\
  Forall2 (direct_ok px_pbase cpu [2] jx_size ["k"; "q"] ["u"]) px_ps2 px_own2 /\
  (forall c, c < 2 -> Z.add (sum 0%Z Z.add (map (fun u => sum_to 0%Z Z.add (jx_size u) (fun x => Z.mul 1 (own_coeff 0%Z (directs 0%Z px_pbase [2] px_ps2 px_own2 [1]) u "q" x c))) ["u"])) (-1) = 0%Z).
Proof.
  split; [|split].
  - constructor; [|constructor]. split; [reflexivity|]. split; [reflexivity|]. split; [reflexivity|]. exists [2]. split; [reflexivity|]. split; [reflexivity|apply broadcastable_refl].
  - constructor; [|constructor]. split; [left; reflexivity|]. split; [right; left; reflexivity|]. split; [reflexivity|]. exists [2], [1; 2]. repeat split.
  - intros [|[|c]] H; [reflexivity|reflexivity|lia].
Qed.

(** * The gradient *)

(** param_vjp() contracts the blocks param_jacobian() returns with the cotangents, adding over the outputs in the order
    of the pairs; a batched parameter keeps the batch, a global one is summed over it.  Exactly the requested parameters
    have a gradient. *)
Theorem C29_contracts : forall V (A : arith V) neg dot sum par pbase capture m (I outs : smap (tensor V)) d D cot jac,
  NoDup (map fst (pm_outs m)) -> pm_derivs m <> [] -> pm_segs m <> [] -> ~ single_adjoint m ->
  param_jacobian A neg dot par pbase capture m I = Ok (outs, jac) ->
  (forall o p, In (o, p) (pm_derivs m) -> contractible par pbase (pm_outs m) d D cot jac o p) ->
  exists grads, param_vjp A neg dot sum par pbase capture m I cot = Ok grads /\
    (forall p, lookup p grads <> None <-> exists o, In (o, p) (pm_derivs m)) /\
    forall p g, lookup p grads = Some g -> exists pb, lookup p pbase = Some pb /\
      gradient_ok (a_add A) sum D pb (batched par p pb) d (outs_of (pm_derivs m) p) (cotangent_term (a_zero A) (a_mul A) sum (pm_outs m) cot jac p) g.
Proof.
  intros V A neg dot sum par pbase capture m I outs d D cot jac No Ne Ns Na Ej Rd.
  exact (param_vjp_ok A sum par pbase m d D cot jac No neg dot capture I outs Ne Ns Na Ej Rd).
Qed.
Print Assumptions C29_contracts.

(** The gradient is the adjoint of the parameter Jacobian: in exact arithmetic, for every perturbation of the parameters
    (batched ones per batch entry), its inner product with the gradients is the inner product of the cotangents with the
    perturbation of the outputs.  For every model without an adjoint graph, however the blocks were computed. *)
Theorem C29_adjoint : forall V (A : arith V) opp neg par pbase capture m (I st' outs cot dp r : smap (tensor V)) jac D size d lins,
  ring_theory (a_zero A) (a_one A) (a_add A) (a_mul A) (a_sub A) opp eq ->
  pevaluated (a_zero A) neg par pbase m I D size d lins st' -> NoDup (pm_derivs m) -> ~ single_adjoint m -> pm_segs m <> [] ->
  param_jacobian A neg (dotx (a_zero A) (a_add A) (a_mul A)) par pbase capture m I = Ok (outs, jac) ->
  param_chain_rule (a_zero A) (a_add A) (dotx (a_zero A) (a_add A) (a_mul A)) pbase m D d lins jac ->
  (forall o p, In (o, p) (pm_derivs m) -> exists t, par p = Ok t) ->
  (forall o p ob, In (o, p) (pm_derivs m) -> In (o, ob) (pm_outs m) -> exists w, lookup o cot = Some w /\ wf w /\ t_dev w = d /\ t_shape w = D ++ ob) ->
  (forall o p pb, In (o, p) (pm_derivs m) -> lookup p pbase = Some pb -> exists t, lookup p dp = Some t /\ t_shape t = (if batched par p pb then D else []) ++ pb) ->
  pushed (a_zero A) (a_add A) (a_mul A) pbase m D lins dp r ->
  exists grads, param_vjp A neg (dotx (a_zero A) (a_add A) (a_mul A)) (sum (a_zero A) (a_add A)) par pbase capture m I cot = Ok grads /\
    (forall p, lookup p grads <> None <-> exists o, In (o, p) (pm_derivs m)) /\
    total_pairing (a_zero A) (a_add A) (a_mul A) (firsts (map snd (pm_derivs m))) grads dp =
    total_pairing (a_zero A) (a_add A) (a_mul A) (firsts (map fst (pm_derivs m))) cot r.
Proof.
  intros V A opp neg par pbase capture m I st' outs cot dp r jac D size d lins R.
  exact (adjoint_ok_all A opp R par pbase m D size d neg capture I st' outs cot dp r jac lins).
Qed.
Print Assumptions C29_adjoint.

Definition px_cot : smap (tensor Z) := [("z", mkT [2; 2] [1; 2; 3; 4]%Z cpu); ("u", mkT [2] [1; -1]%Z cpu)].
Definition px_dp : smap (tensor Z) := [("k", mkT [] [1]%Z cpu); ("q", mkT [2; 2] [1; 0; 0; 10]%Z cpu)].
Definition px_push : smap (tensor Z) := [("z", mkT [2; 2] [74; 64; 405; 4340]%Z cpu); ("u", mkT [2] [16; 45]%Z cpu)].
Lemma below2 i : i < 2 -> i = 0 \/ i = 1.
Proof. lia. Qed.
Example C29_adjoint_case : NoDup (pm_derivs px_model) /\ ~ single_adjoint px_model /\
  pushed 0%Z Z.add Z.mul px_pbase px_model [2] px_lins px_dp px_push /\
  param_vjp zr Z.opp zdot (sum 0%Z Z.add) px_par px_pbase false px_model jx_in px_cot =
    Ok [("k", mkT [] [1620]%Z cpu); ("q", mkT [2; 2] [68; 242; 978; 1706]%Z cpu)] /\
  total_pairing 0%Z Z.add Z.mul ["k"; "q"] [("k", mkT [] [1620]%Z cpu); ("q", mkT [2; 2] [68; 242; 978; 1706]%Z cpu)] px_dp = 18748%Z /\
  total_pairing 0%Z Z.add Z.mul ["z"; "u"] px_cot px_push = 18748%Z.
Proof.
  split; [repeat (constructor; [cbn; intuition discriminate|]); constructor|]. split; [intros (f & pj & ps & a & E); discriminate|]. split.
  - intros o p ob Ip Io. assert (C : (o = "z" /\ ob = [2]) \/ (o = "u" /\ ob = [])) by (cbn in Io; intuition congruence). clear Ip Io. destruct C as [[-> ->]|[-> ->]].
    + eexists. split; [reflexivity|]. split; [reflexivity|]. intros e x Ie Ix. inversion Ie as [|a ? ? ? Ha Ie']; subst. inversion Ie'; subst. inversion Ix as [|b ? ? ? Hb Ix']; subst. inversion Ix'; subst.
      apply below2 in Ha, Hb. destruct Ha as [-> | ->], Hb as [-> | ->]; vm_compute; reflexivity.
    + eexists. split; [reflexivity|]. split; [reflexivity|]. intros e x Ie Ix. inversion Ie as [|a ? ? ? Ha Ie']; subst. inversion Ie'; subst. inversion Ix; subst.
      apply below2 in Ha. destruct Ha as [-> | ->]; vm_compute; reflexivity.
  - vm_compute. auto.
Qed.

(** A single forward segment with an adjoint graph: param_vjp() returns the graph's gradients, those of global parameters
    summed over the leading axes. *)
Theorem C29_adjoint_graph : forall V (A : arith V) neg dot sum par pbase capture m f pj pps adj outs ps i0 rest (I st cot : smap (tensor V)) ref ins qs ws gs,
  pm_segs m = [PF f pj pps (Some (adj, outs, ps))] -> pm_derivs m <> [] -> NoDup ps -> (forall p, In p ps -> exists t, par p = Ok t) ->
  pm_inputs m = i0 :: rest -> prepare_inputs (pm_inputs m) I = Ok st -> lookup (in_name i0) st = Some ref ->
  Forall2 (fun n t => lookup n st = Some t) (sg_in (jf_seg f)) ins -> Forall2 (spread par pbase (batch_shape_of i0 ref)) (sg_par (jf_seg f)) qs ->
  Forall2 (fun o w => lookup o cot = Some w) outs ws -> adj (ins ++ qs ++ ws) = Ok gs -> length gs = length ps ->
  exists grads, param_vjp A neg dot sum par pbase capture m I cot = Ok grads /\
    (forall k p g pb lead, nth_error ps k = Some p -> nth_error gs k = Some g -> lookup p pbase = Some pb -> wf g -> t_shape g = lead ++ pb ->
       exists c, lookup p grads = Some c /\
         if batched par p pb then c = g
         else wf c /\ t_dev c = t_dev g /\ t_shape c = pb /\ forall y, index_of pb y -> elem c y = Some (over_batch sum lead (fun e => get (a_zero A) g (e ++ y)))) /\
    (forall p, ~ In p ps -> lookup p grads = None).
Proof.
  intros V A neg dot sum par pbase capture m f pj pps adj outs ps i0 rest I st cot ref ins qs ws gs Es Ne Np Hp Ei Ep Er Fi Fq Fw Ea Lg.
  destruct (adjoint_ok A neg dot sum par pbase capture m f pj pps adj outs ps i0 rest I st cot ref ins qs ws gs Es Ne Np Hp Ei Ep Er Fi Fq Fw Ea Lg) as (grads & E & H1 & H2).
  exists grads. split; [exact E|]. split; [|exact H2]. intros k p g pb lead Kp Kg Lp Wg Sg. destruct (H1 k p g Kp Kg) as (c & Ec & Lc).
  destruct (Hp p (nth_error_In _ _ Kp)) as [stored Est]. destruct (collapse_lead A sum par pbase p pb stored lead g Lp Est Wg Sg) as (c' & Ec' & Q).
  rewrite Ec in Ec'. injection Ec' as <-. exists c. split; [exact Lc|]. unfold batched. rewrite Est. exact Q.
Qed.
Print Assumptions C29_adjoint_graph.

(** w = k (x0 + x1) + y with an adjoint graph returning one gradient per batch entry. *)
Definition px_adj (l : list (tensor Z)) : result (list (tensor Z)) :=
  match l with
  | [x; y; k; w] => Ok [jx_vec [jx_rows x] (fun b => (jx_at x (2 * b) + jx_at x (2 * b + 1)) * jx_at w b)%Z]
  | _ => Err (StdExn "arguments")
  end.
Definition px_adjoint : pmodel Z := mkPM (pm_inputs px_model) [PF px_f1 None [] (Some (px_adj, ["w"], ["k"]))] [("w", [])] [("w", "k")].
Example C29_adjoint_graph_case :
  prepare_inputs (pm_inputs px_adjoint) jx_in = Ok jx_in /\ Forall2 (spread px_par px_pbase [2]) ["k"] [mkT [2] [2; 2]%Z cpu] /\
  px_adj [mkT [2; 2] [1; 2; 3; 4]%Z cpu; mkT [2] [5; 6]%Z cpu; mkT [2] [2; 2]%Z cpu; mkT [2] [1; 10]%Z cpu] = Ok [mkT [2] [3; 70]%Z cpu] /\
  param_vjp zr Z.opp zdot (sum 0%Z Z.add) px_par px_pbase false px_adjoint jx_in [("w", mkT [2] [1; 10]%Z cpu)] = Ok [("k", mkT [] [73]%Z cpu)].
Proof. split; [vm_compute; reflexivity|]. split; [constructor; [exact px_spread_k|constructor]|]. split; vm_compute; reflexivity. Qed.

(** A cotangent that is missing (for an output of the adjoint graph, or otherwise of a requested pair) is an error. *)
Theorem C29_missing_cotangent : forall V (A : arith V) neg dot sum par pbase capture m (I cot : smap (tensor V)) o,
  lookup o cot = None ->
  (forall f pj pps adj outs ps, pm_segs m = [PF f pj pps (Some (adj, outs, ps))] -> In o outs) ->
  (~ single_adjoint m -> exists p, In (o, p) (pm_derivs m)) ->
  exists e, param_vjp A neg dot sum par pbase capture m I cot = Err e.
Proof. intros V. exact (@missing_cotangent V). Qed.
Print Assumptions C29_missing_cotangent.
Example C29_missing_case :
  param_vjp zr Z.opp zdot (sum 0%Z Z.add) px_par px_pbase false px_model jx_in [("z", mkT [2; 2] [1; 2; 3; 4]%Z cpu)] =
    Err (Fatal "aoti::Model::param_vjp: missing cotangent for output") /\
  (forall f pj pps adj outs ps, pm_segs px_model = [PF f pj pps (Some (adj, outs, ps))] -> In "u" outs) /\ In ("u", "k") (pm_derivs px_model).
Proof. split; [vm_compute; reflexivity|]. split; [intros; discriminate|right; right; left; reflexivity]. Qed.

(** * Findings *)

(** A cotangent whose axes are permuted (batch 2, output (3), given as (3,2)) is accepted, and the gradient is wrong:
    only the number of axes and of elements is checked. *)
Definition fx_f : jfwd Z := mkJF (mkSeg ["x"] ["k"] ["w"] (fun l => match l with [x; k] => Ok [jx_vec [2; 3] (fun j => jx_at x j * jx_at k 0)%Z] | _ => Err (StdExn "arguments") end)) None [].
Definition fx_model : pmodel Z :=
  mkPM [mkIn "x" [] [3]] [PF fx_f (Some (fun l => match l with [x; k] => Ok [mkT [2; 3] (t_data x) cpu] | _ => Err (StdExn "arguments") end)) [mkPP "w" "k" [3] [] 0 0] None] [("w", [3])] [("w", "k")].
Theorem C29_cotangent_shape_refuted : exists (I : smap (tensor Z)) w1 w2 g1 g2,
  t_shape w1 = [2; 3] /\ t_shape w2 = [3; 2] /\ (forall e x, e < 2 -> x < 3 -> elem w2 [x; e] = elem w1 [e; x]) /\
  param_vjp zr Z.opp zdot (sum 0%Z Z.add) px_par px_pbase false fx_model I [("w", w1)] = Ok [("k", g1)] /\
  param_vjp zr Z.opp zdot (sum 0%Z Z.add) px_par px_pbase false fx_model I [("w", w2)] = Ok [("k", g2)] /\
  elem g1 [] = Some 91%Z /\ elem g2 [] = Some 86%Z.
Proof.
  exists [("x", mkT [2; 3] [1; 2; 3; 4; 5; 6]%Z cpu)], (mkT [2; 3] [1; 2; 3; 4; 5; 6]%Z cpu), (mkT [3; 2] [1; 4; 2; 5; 3; 6]%Z cpu), (mkT [] [91]%Z cpu), (mkT [] [86]%Z cpu).
  split; [reflexivity|]. split; [reflexivity|]. split.
  - intros e x He Hx. destruct e as [|[|e]]; [| |lia]; (destruct x as [|[|[|x]]]; [| | |lia]); reflexivity.
  - vm_compute. auto.
Qed.
Print Assumptions C29_cotangent_shape_refuted.

(** A batched parameter stored with a batch axis of size 1 gets a gradient of the shape of the call's batch, not of the
    stored tensor. *)
Definition px_par1 (n : string) : result (tensor Z) := if String.eqb n "q" then Ok (mkT [1; 2] [1; 2]%Z cpu) else px_par n.
Theorem C29_stored_shape_refuted : exists grads g, px_par1 "q" = Ok (mkT [1; 2] [1; 2]%Z cpu) /\
  param_vjp zr Z.opp zdot (sum 0%Z Z.add) px_par1 px_pbase false
    (mkPM [mkIn "u" [] []; mkIn "x" [] [2]] [PF px_f3 (Some px_pjac3) [mkPP "z" "q" [2] [2] 0 0] None] [("z", [2])] [("z", "q")])
    [("u", mkT [2] [1; 1]%Z cpu); ("x", mkT [2; 2] [1; 2; 3; 4]%Z cpu)] [("z", mkT [2; 2] [1; 1; 1; 1]%Z cpu)] = Ok grads /\
  lookup "q" grads = Some g /\ t_shape g = [2; 2].
Proof. do 2 eexists. split; [reflexivity|]. split; [vm_compute; reflexivity|]. split; reflexivity. Qed.
Print Assumptions C29_stored_shape_refuted.

(** A pair requested twice is counted twice in the gradient. *)
Theorem C29_repeated_pair_refuted : exists outs jac, let m := mkPM (pm_inputs px_model) [px_seg1] [("w", [])] [("w", "k"); ("w", "k")] in
  param_jacobian zr Z.opp zdot px_par px_pbase false m jx_in = Ok (outs, jac) /\ block jac "w" "k" = Some (mkT [2] [3; 7]%Z cpu) /\
  param_vjp zr Z.opp zdot (sum 0%Z Z.add) px_par px_pbase false m jx_in [("w", mkT [2] [1; 1]%Z cpu)] = Ok [("k", mkT [] [20]%Z cpu)].
Proof. do 2 eexists. split; [vm_compute; reflexivity|]. split; vm_compute; reflexivity. Qed.
Print Assumptions C29_repeated_pair_refuted.

(** param_jacobian() never substeps: with max_substepping_level = 1, jacobian() evaluates the segment (substepping the
    first row) while param_jacobian() raises. *)
Theorem C29_substepping_refuted : exists outs jac,
  ji_level lx_imp = 1 /\ jm_segs lx_jmodel = [JI lx_imp] /\ (exists dr s ps, pm_segs lx_pmodel = [PI lx_imp dr s None ps]) /\
  jacobian lx_arith Z.opp zdot lx_par (vmap_ (@length nat) lx_pbase) false lx_jmodel (lx_in 6) = Ok (outs, jac) /\ lookup "s" outs = Some (mkT [2] [16; 23]%Z cpu) /\
  param_jacobian lx_arith Z.opp zdot lx_par lx_pbase false lx_pmodel (lx_in 6) = Err (Convergence "not converged").
Proof. do 2 eexists. split; [reflexivity|]. split; [reflexivity|]. split; [do 3 eexists; reflexivity|]. split; [vm_compute; reflexivity|]. split; vm_compute; reflexivity. Qed.
Print Assumptions C29_substepping_refuted.
