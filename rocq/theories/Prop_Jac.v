(** Properties C26 (chain rule), C27 (column layout) and C28 (directional derivatives). *)
From Coq Require Import Ring_theory ZArith.
From Verif Require Import Base BaseProofs Tensor Spec Broadcast SpecBroadcast BroadcastProofs Pack Implicit BatchChunk Substep Mat Jac SubstepJac JacModel
     SpecLayout LayoutProofs SpecJac MatProofs JacProofs JacRunProofs JacMainProofs JacDirectProofs JvpProofs SpecAlgebra AlgebraProofs JacExactProofs Example_Jac.
Local Open Scope string_scope.
Local Open Scope list_scope.
Local Open Scope nat_scope.

(** * C26: the Jacobian is the chain rule *)

(** A model that is not a single forward segment: the call returns the outputs of the evaluation and exactly one block
    per requested pair, whose entries are the sensitivities got by composing the segments' own blocks in evaluation
    order. *)
Theorem C26_composed : forall V (A : arith V) neg dot par base_ndim capture m (I st' : smap (tensor V)) D size d lins,
  evaluated (a_zero A) neg par base_ndim m I D size d lins st' -> ~ single_forward m ->
  exists outs jac, jacobian A neg dot par base_ndim capture m I = Ok (outs, jac) /\
    (forall n, lookup n outs = if existsb (String.eqb n) (map fst (jm_outs m)) then lookup n st' else None) /\
    (forall o i, In (o, i) (jm_derivs m) -> exists ob info t,
       In (o, ob) (jm_outs m) /\ In info (jm_inputs m) /\ in_name info = i /\
       block jac o i = Some t /\ wf t /\ t_dev t = d /\ t_shape t = D ++ ob ++ in_base info /\
       forall e x y, index_of D e -> index_of ob x -> index_of (in_base info) y ->
         elem t (e ++ x ++ y) =
         Some (sensitivity (a_zero A) (a_one A) (a_add A) dot (rev (map (fun l => l e) lins)) o i (ravel ob x) (ravel (in_base info) y))) /\
    (forall o i, ~ In (o, i) (jm_derivs m) -> block jac o i = None).
Proof.
  intros V A neg dot par base_ndim capture m I st' D size d lins ev Ns.
  exact (composed_ok A neg dot par base_ndim capture m D size d I st' lins ev Ns).
Qed.
Print Assumptions C26_composed.

Example C26_case : evaluated (a_zero zr) Z.opp jx_par [] jx_model jx_in [2] jx_size cpu jx_lins jx_st3 /\ ~ single_forward jx_model /\
  exists outs jac, jacobian zr Z.opp zdot jx_par [] false jx_model jx_in = Ok (outs, jac) /\
    block jac "z" "x" = Some (mkT [2; 2; 2] [45; 5; 20; 45; 150; 45; 80; 150]%Z cpu) /\
    block jac "z" "y" = Some (mkT [2; 2] [5; 10; 15; 20]%Z cpu) /\ block jac "u" "y" = Some (mkT [2] [5; 5]%Z cpu).
Proof.
  split; [exact jx_evaluated|]. split; [intros (f & j & E & _); discriminate|]. eexists. eexists. split; [vm_compute; reflexivity|]. vm_compute. auto.
Qed.

(** A single forward segment: the call returns the graph's own blocks, up to leading axes of size 1 dropped. *)
Theorem C26_single_forward : forall V (A : arith V) neg dot par base_ndim capture m f jvp i0 rest (I st st' : smap (tensor V)) ref D size known lins,
  jm_segs m = [JF f] -> jf_jvp f = Some jvp -> jm_derivs m <> [] -> jm_inputs m = i0 :: rest -> NoDup (map in_name (jm_inputs m)) ->
  (forall o i, In (o, i) (jm_derivs m) -> In i (map in_name (jm_inputs m))) ->
  prepare_inputs (jm_inputs m) I = Ok st -> lookup (in_name i0) st = Some ref ->
  NoDup (map (fun p => (p_out p, p_in p)) (jf_pairs f)) ->
  linear_run (a_zero A) neg par base_ndim (t_dev ref) D (batch_shape_of i0 ref) size (map in_name (jm_inputs m)) st (jm_segs m) lins known st' ->
  exists outs jac blks, jacobian A neg dot par base_ndim capture m I = Ok (outs, jac) /\
    (forall n, In n (sg_out (jf_seg f)) -> lookup n outs = lookup n st') /\
    lins = [forward_lin f blks] /\ Forall2 (block_ok (t_dev ref) D size) (jf_pairs f) blks /\
    forall k p t, nth_error (jf_pairs f) k = Some p -> nth_error blks k = Some t ->
      exists t', block jac (p_out p) (p_in p) = Some t' /\ wf t' /\ t_dev t' = t_dev t /\
        forall e s x y, index_of D e -> index_of (p_in_sub p) s -> index_of (p_out_base p) x -> index_of (p_in_base p) y ->
          elem t' (pull (t_shape t') (e ++ s ++ x ++ y)) = elem t (pull (t_shape t) (e ++ s ++ x ++ y)).
Proof. intros V. exact direct_ok. Qed.
Print Assumptions C26_single_forward.

(** ... which in exact arithmetic are the same sensitivities. *)
Theorem C26_single_forward_exact : forall V (A : arith V) opp d D size f (blks : list (tensor V)) k p t e s x y,
  ring_theory (a_zero A) (a_one A) (a_add A) (a_mul A) (a_sub A) opp eq ->
  Forall2 (block_ok d D size) (jf_pairs f) blks -> NoDup (map (fun p => (p_out p, p_in p)) (jf_pairs f)) ->
  nth_error (jf_pairs f) k = Some p -> nth_error blks k = Some t -> In (p_out p) (sg_out (jf_seg f)) ->
  index_of D e -> index_of (p_in_sub p) s -> index_of (p_out_base p) x -> index_of (p_in_base p) y ->
  elem t (pull (t_shape t) (e ++ s ++ x ++ y)) =
  Some (sensitivity (a_zero A) (a_one A) (a_add A) (dotx (a_zero A) (a_add A) (a_mul A)) [forward_lin f blks e] (p_out p) (p_in p)
          (ravel (p_in_sub p ++ p_out_base p) (s ++ x)) (ravel (p_in_sub p ++ p_in_base p) (s ++ y))).
Proof.
  intros V A opp d D size f blks k p t e s x y R. apply (direct_sens A opp (dotx (a_zero A) (a_add A) (a_mul A))).
  - exact (Radd_0_l R).
  - intros z. rewrite (Radd_comm R). exact (Radd_0_l R z).
  - exact (dotx_zero _ _ _ _ _ _ R).
  - exact (dotx_unit _ _ _ _ _ _ R).
Qed.
Print Assumptions C26_single_forward_exact.

Definition jx_single : jmodel Z := mkJM [mkIn "x" [] [2]; mkIn "y" [] []] [JF jx_seg1] [("w", [])] [("w", "x"); ("w", "y")].
Example C26_single_case :
  ring_theory (a_zero zr) (a_one zr) (a_add zr) (a_mul zr) (a_sub zr) Z.opp eq /\
  prepare_inputs (jm_inputs jx_single) jx_in = Ok jx_in /\ NoDup (map (fun p => (p_out p, p_in p)) (jf_pairs jx_seg1)) /\
  (exists lins known st', linear_run 0%Z Z.opp jx_par [] cpu [2] [2] jx_size ["x"; "y"] jx_in (jm_segs jx_single) lins known st') /\
  exists outs jac, jacobian zr Z.opp zdot jx_par [] false jx_single jx_in = Ok (outs, jac) /\
    block jac "w" "x" = Some (mkT [2; 2] [2; 1; 4; 3]%Z cpu) /\ block jac "w" "y" = Some (mkT [] [1]%Z cpu).
Proof.
  split; [exact Zth|]. split; [vm_compute; reflexivity|]. split; [repeat (constructor; [cbn; intuition discriminate|]); constructor|]. split.
  - destruct jx_evaluated as (_ & _ & _ & _ & _ & i0 & rest & st & ref & known & sub & E1 & E2 & E3 & _ & _ & _ & R & _).
    injection E1 as <- <-. assert (X : prepare_inputs (jm_inputs jx_model) jx_in = Ok jx_in) by reflexivity. rewrite X in E2. injection E2 as <-.
    vm_compute in E3. injection E3 as <-.
    inversion R; subst. eexists. eexists. eexists. eapply lr_cons; [eassumption|constructor].
  - eexists. eexists. split; [vm_compute; reflexivity|]. vm_compute. auto.
Qed.

(** The sensitivities of a composition are those of forward differentiation: a tangent of the inputs, carried through
    the segments' blocks in exact arithmetic, is the matrix of sensitivities times the tangent. *)
Theorem C26_forward_mode : forall V (zero one : V) add mul sub opp (supp : list (string * nat)) (t0 : string -> nat -> V),
  ring_theory zero one add mul sub opp eq -> NoDup supp -> (forall v r, ~ In (v, r) supp -> t0 v r = zero) ->
  forall ls v r, push zero add mul ls t0 v r =
    sum zero add (map (fun ic => mul (sensitivity zero one add (dotx zero add mul) ls v (fst ic) r (snd ic)) (t0 (fst ic) (snd ic))) supp).
Proof. intros V zero one add mul sub opp supp t0 R. exact (push_is_sens zero one add mul sub opp R supp t0). Qed.
Print Assumptions C26_forward_mode.
Example C26_forward_mode_case :
  let t0 := fun v r => if String.eqb v "x" && Nat.ltb r 2 then Z.of_nat (1 + 9 * r) else 0%Z in
  let ls := rev (map (fun l => l [1]) jx_lins) in
  (forall v r, ~ In (v, r) [("x", 0); ("x", 1)] -> t0 v r = 0%Z) /\
  push 0%Z Z.add Z.mul ls t0 "z" 0 = 600%Z /\ push 0%Z Z.add Z.mul ls t0 "z" 1 = 1580%Z.
Proof.
  split; [|split; vm_compute; reflexivity]. intros v r N. destruct (String.eqb_spec v "x") as [->|]; [|reflexivity]. destruct r as [|[|r]]; [exfalso; apply N; left; reflexivity|exfalso; apply N; right; left; reflexivity|reflexivity].
Qed.

(** A pair not connected by the declared blocks has derivative zero. *)
Theorem C26_no_path : forall V (zero one : V) add mul sub opp, ring_theory zero one add mul sub opp eq ->
  forall ls v i r c, ~ depends ls v i -> sensitivity zero one add (dotx zero add mul) ls v i r c = zero.
Proof. intros V zero one add mul sub opp R. exact (no_path zero one add mul sub opp R). Qed.
Print Assumptions C26_no_path.
Example C26_no_path_case : ~ depends (rev (map (fun l => l [1]) jx_lins)) "w" "z" /\ depends (rev (map (fun l => l [1]) jx_lins)) "z" "y".
Proof.
  split.
  - intros H. inversion H as [|? ? ? ? _ H1|? ? ? n rows ? O]; subst; [|cbn in O; intuition discriminate].
    inversion H1 as [|? ? ? ? _ H2|? ? ? n rows ? O]; subst; [|cbn in O; intuition discriminate].
    inversion H2 as [|? ? ? ? N|? ? ? n rows ? O P H3]; subst; [apply N; left; reflexivity|].
    cbn in P. destruct P as [P|[P|[]]]; injection P as <- _; inversion H3.
  - cbn [jx_lins map rev app]. eapply dep_block; [left; reflexivity|left; reflexivity|]. eapply dep_block; [left; reflexivity|left; reflexivity|].
    eapply dep_block; [left; reflexivity|right; left; reflexivity|constructor].
Qed.

(** The implicit function theorem: when the blocks of an implicit segment solve A X + B = 0 (A, B the derivatives of
    the residual by unknowns and givens), the derivatives composed for its unknowns keep the residual at zero; with A
    invertible they are the only ones that do. *)
Theorem C26_implicit : forall V (A : arith V) opp size d D i (blks : list (tensor V)) gs e nr (dr_du dr_dg : nat -> string -> nat -> V),
  ring_theory (a_zero A) (a_one A) (a_add A) (a_mul A) (a_sub A) opp eq ->
  Forall2 (ift_ok d D size) (ji_pairs i) blks -> NoDup (map (fun p => (p_out p, p_in p)) (ji_pairs i)) ->
  (forall p, In p (ji_pairs i) -> In (p_out p) (map v_name (is_unknowns (ji_seg i))) /\ In (p_in p) gs) ->
  NoDup (map v_name (is_unknowns (ji_seg i))) -> NoDup gs -> index_of D e ->
  let us := map v_name (is_unknowns (ji_seg i)) in
  let sum_over l f := sum (a_zero A) (a_add A) (map (fun v => sum_to (a_zero A) (a_add A) (size v) (f v)) l) in
  let sens := sensitivity (a_zero A) (a_one A) (a_add A) (dotx (a_zero A) (a_add A) (a_mul A)) in
  (forall p g y, p < nr -> In g gs -> y < size g ->
     a_add A (sum_over us (fun u x => a_mul A (dr_du p u x) (ift_coeff (a_zero A) D (ji_pairs i) blks e u g x y))) (dr_dg p g y) = a_zero A) ->
  forall before n c,
  let after := implicit_lin D size i blks e :: before in
  (forall p, p < nr -> a_add A (sum_over us (fun u x => a_mul A (dr_du p u x) (sens after u n x c)))
                             (sum_over gs (fun g y => a_mul A (dr_dg p g y) (sens before g n y c))) = a_zero A) /\
  forall inverse : string -> nat -> nat -> V,
  (forall u x u' x', In u us -> x < size u -> In u' us -> x' < size u' ->
     sum_to (a_zero A) (a_add A) nr (fun p => a_mul A (inverse u x p) (dr_du p u' x')) = if String.eqb u u' && Nat.eqb x x' then a_one A else a_zero A) ->
  forall du, (forall p, p < nr -> a_add A (sum_over us (fun u x => a_mul A (dr_du p u x) (du u x)))
                                        (sum_over gs (fun g y => a_mul A (dr_dg p g y) (sens before g n y c))) = a_zero A) ->
  forall u x, In u us -> x < size u -> du u x = sens after u n x c.
Proof.
  intros V A opp size d D i blks gs e nr dr_du dr_dg R F N O Nu Ng Ie us sum_over sens H before n c after.
  pose proof (implicit_solves A size d D i blks gs F N O e Ie) as S. split.
  - intros p Hp. exact (residual_stationary _ _ _ _ _ _ R size us gs _ _ S Ng nr dr_du dr_dg H before n c p Hp).
  - intros inverse L du Hd u x. exact (implicit_unique _ _ _ _ _ _ R size us gs _ _ S Nu Ng nr dr_du dr_dg H inverse L before n c du Hd u x).
Qed.
Print Assumptions C26_implicit.

(** The iterative sensitivity solve: slices of -X, where A X = B, are such blocks. *)
Theorem C26_iterative : forall V (A : arith V) opp size us gs row col (nr n : nat) (a b x : nat -> nat -> V),
  ring_theory (a_zero A) (a_one A) (a_add A) (a_mul A) (a_sub A) opp eq ->
  tiled size row us 0 n ->
  (forall p m, p < nr -> sum_to (a_zero A) (a_add A) n (fun k => a_mul A (a p k) (x k m)) = b p m) ->
  forall p g y, p < nr -> In g gs -> y < size g ->
    a_add A (sum (a_zero A) (a_add A) (map (fun u => sum_to (a_zero A) (a_add A) (size u)
               (fun z => a_mul A (a p (row u + z)) (opp (x (row u + z) (col g + y))))) us)) (b p (col g + y)) = a_zero A.
Proof. intros V A opp size us gs row col nr n a b x R. exact (iterative_solved A opp R size us gs row col nr n a b x). Qed.
Print Assumptions C26_iterative.

Example C26_implicit_case : Forall2 (ift_ok cpu [2] jx_size) (ji_pairs jx_seg2) jx_blks2 /\
  (forall p g y, p < 1 -> In g ["w"] -> y < jx_size g ->
     Z.add (sum 0%Z Z.add (map (fun u => sum_to 0%Z Z.add (jx_size u) (fun x => Z.mul 1 (ift_coeff 0%Z [2] (ji_pairs jx_seg2) jx_blks2 [1] u g x y))) ["u"])) (-5) = 0%Z) /\
  tiled jx_size (fun v => if String.eqb v "u" then 2 else 0) ["x"; "u"] 0 3.
Proof.
  split; [|split].
  - constructor; [|constructor]. split; [reflexivity|]. split; [reflexivity|]. split; [reflexivity|]. exists [2]. split; [reflexivity|]. split; [reflexivity|apply broadcastable_refl].
  - intros p g y _ [<-|[]] H. replace (jx_size "w") with 1 in H by reflexivity. destruct y as [|y]; [reflexivity|lia].
  - repeat split.
Qed.

(** * C27: the columns of the carrier *)

(** Every column belongs to exactly one component of one input; exactly the requested inputs have a band, of their own
    size.  (The layout of the requested parameters is computed by the same loop, Model.cpp:531-555.) *)
Theorem C27_partition : forall size pairs b M, layout size pairs = Ok (b, M) ->
  (forall m, m < M -> exists! ic, column b m (fst ic) (snd ic)) /\
  (forall m i c, column b m i c -> m < M) /\
  (forall i, (exists band, lookup i b = Some band) <-> exists o, In (o, i) pairs) /\
  (forall i off s, lookup i b = Some (off, s) -> size i = Ok s).
Proof. exact layout_partition. Qed.
Print Assumptions C27_partition.

(** The bands follow each other in the order the inputs first appear among the pairs. *)
Theorem C27_order : forall size pairs b M, layout size pairs = Ok (b, M) ->
  map fst b = firsts (map snd pairs) /\
  forall pre i post, firsts (map snd pairs) = pre ++ i :: post -> exists sizes s,
    Forall2 (fun j n => size j = Ok n) pre sizes /\ size i = Ok s /\ lookup i b = Some (fold_right Nat.add 0 sizes, s).
Proof. exact layout_order. Qed.
Print Assumptions C27_order.

(** It fails only when some requested input does not exist. *)
Theorem C27_fails : forall size pairs, (exists e, layout size pairs = Err e) <-> exists o i e, In (o, i) pairs /\ size i = Err e.
Proof. exact layout_fails. Qed.
Print Assumptions C27_fails.

(** With the sizes jacobian() asks for: it raises exactly when some requested input is not one of the model's. *)
Theorem C27_unlisted : forall infos pairs, (exists e, layout (input_size infos) pairs = Err e) <-> exists o i, In (o, i) pairs /\ ~ In i (map in_name infos).
Proof.
  intros infos pairs. rewrite layout_fails.
  assert (K : forall i, (exists e, input_size infos i = Err e) <-> ~ In i (map in_name infos)).
  { intros i. unfold input_size. destruct (find _ (rev infos)) as [x|] eqn:Fx.
    - apply find_some in Fx as [Hx Ex]. apply String.eqb_eq in Ex. apply in_rev in Hx. split; [intros [e E]; discriminate E|]. intros Ni. destruct Ni. rewrite <- Ex. apply in_map. exact Hx.
    - split; [|eauto]. intros _ Hi. apply in_map_iff in Hi as (x & <- & Hx). apply in_rev in Hx. apply (find_none _ _ Fx) in Hx. rewrite String.eqb_refl in Hx. discriminate Hx. }
  split.
  - intros (o & i & e & Hp & E). exists o, i. split; [exact Hp|]. apply K. exists e. exact E.
  - intros (o & i & Hp & Ni). apply K in Ni as [e E]. exists o, i, e. split; assumption.
Qed.
Print Assumptions C27_unlisted.

(** Reading a band back: see [C26_composed], whose blocks are what was accumulated for that input only. *)
Example C27_case : layout (input_size (jm_inputs jx_model)) [("u", "y"); ("z", "x"); ("z", "y")] = Ok ([("y", (0, 1)); ("x", (1, 2))], 3) /\
  is_ok (layout (input_size (jm_inputs jx_model)) [("u", "y"); ("z", "q")]) = false.
Proof. split; reflexivity. Qed.

(** * C28: jvp *)

(** jvp() contracts the blocks jacobian() returns with the tangents: one inner product per paired input, added in the
    order of the pairs; a missing tangent stands for zeros; outputs in no requested pair are left out. *)
Theorem C28_contracts : forall V (A : arith V) neg dot par base_ndim capture m (I st' : smap (tensor V)) D size d lins T b M,
  evaluated (a_zero A) neg par base_ndim m I D size d lins st' -> ~ single_forward m ->
  (forall o i t, In i (jm_inputs m) -> In (o, in_name i) (jm_derivs m) -> lookup (in_name i) T = Some t -> tangent_ok d D i t) ->
  layout (input_size (jm_inputs m)) (jm_derivs m) = Ok (b, M) ->
  exists outs jac outs' r, jacobian A neg dot par base_ndim capture m I = Ok (outs, jac) /\ jvp A neg dot par base_ndim capture m I T = Ok (outs', r) /\
    (forall n, lookup n outs = lookup n outs') /\ (forall o, lookup o r <> None <-> exists i, In (o, i) (jm_derivs m)) /\
    forall o ob t, In (o, ob) (jm_outs m) -> lookup o r = Some t ->
      wf t /\ t_dev t = d /\ t_shape t = D ++ ob /\
      exists infos, map in_name infos = paired (jm_derivs m) o /\ incl infos (jm_inputs m) /\
        forall e x, index_of D e -> index_of ob x ->
          elem t (e ++ x) = sum1 (a_add A) (map (fun i => dot (block_at jac o i e x) (tangent_at (a_zero A) T i e)) infos).
Proof.
  intros V A neg dot par base_ndim capture m I st' D size d lins T b M ev Ns Ht L.
  exact (jvp_contracts A neg dot par base_ndim capture m D size d I st' lins ev T Ht b M L Ns).
Qed.
Print Assumptions C28_contracts.

(** In exact arithmetic, for pairs without repetition (single forward segments included), it is the tangent carried
    through the segments. *)
Theorem C28_exact : forall V (A : arith V) opp neg par base_ndim capture m (I st' : smap (tensor V)) D size d lins T,
  ring_theory (a_zero A) (a_one A) (a_add A) (a_mul A) (a_sub A) opp eq ->
  evaluated (a_zero A) neg par base_ndim m I D size d lins st' -> NoDup (jm_derivs m) ->
  (forall o i t, In i (jm_inputs m) -> In (o, in_name i) (jm_derivs m) -> lookup (in_name i) T = Some t -> tangent_ok d D i t) ->
  exists outs r, jvp A neg (dotx (a_zero A) (a_add A) (a_mul A)) par base_ndim capture m I T = Ok (outs, r) /\
    (forall n, lookup n outs = if existsb (String.eqb n) (map fst (jm_outs m)) then lookup n st' else None) /\
    (forall o, lookup o r <> None <-> exists i, In (o, i) (jm_derivs m)) /\
    forall o ob t, In (o, ob) (jm_outs m) -> lookup o r = Some t ->
      wf t /\ t_dev t = d /\ t_shape t = D ++ ob /\
      forall e x, index_of D e -> index_of ob x ->
        elem t (e ++ x) = Some (push (a_zero A) (a_add A) (a_mul A) (rev (map (fun l => l e) lins))
                                  (seed (a_zero A) (jm_inputs m) (jm_derivs m) T o e) o (ravel ob x)).
Proof.
  intros V A opp neg par base_ndim capture m I st' D size d lins T R ev Nd Ht. destruct (layout_exists A neg par base_ndim m D size d I st' lins ev) as (b & M & L).
  destruct (jvp_ok A neg (dotx (a_zero A) (a_add A) (a_mul A)) par base_ndim capture m D size d I st' lins ev T Ht b M L) as (outs & r & E & Po & K & P).
  exists outs, r. split; [exact E|]. split; [exact Po|]. split; [exact K|]. intros o ob t Io L'. pose proof (P o ob t Io L') as Q.
  assert (X : exists i, In (o, i) (jm_derivs m)) by (apply K; congruence).
  split; [apply Q|]. split; [apply Q|]. split; [apply Q|]. exact (jvp_push A opp R neg par base_ndim m D size d I st' lins ev T Ht o ob t Nd X Q).
Qed.
Print Assumptions C28_exact.

(** ... and so it is linear in the tangents. *)
Theorem C28_linear : forall V (zero one : V) add mul sub opp, ring_theory zero one add mul sub opp eq ->
  forall k t1 t2 t3, (forall v r, t3 v r = add (mul k (t1 v r)) (t2 v r)) ->
  forall ls v r, push zero add mul ls t3 v r = add (mul k (push zero add mul ls t1 v r)) (push zero add mul ls t2 v r).
Proof. intros V zero one add mul sub opp R. exact (push_linear zero one add mul sub opp R). Qed.
Print Assumptions C28_linear.

Definition jx_tan : smap (tensor Z) := [("x", mkT [2] [1; 10]%Z cpu)].
Example C28_case : NoDup (jm_derivs jx_model) /\
  (forall o i t, In i (jm_inputs jx_model) -> In (o, in_name i) (jm_derivs jx_model) -> lookup (in_name i) jx_tan = Some t -> tangent_ok cpu [2] i t) /\
  exists outs, jvp zr Z.opp zdot jx_par [] false jx_model jx_in jx_tan = Ok (outs, [("u", mkT [2] [0; 0]%Z cpu); ("z", mkT [2; 2] [95; 470; 600; 1580]%Z cpu)]).
Proof.
  split; [repeat (constructor; [cbn; intuition discriminate|]); constructor|]. split.
  - intros o i t [<-|[<-|[]]] _ E; [|discriminate]. injection E as <-. split; [reflexivity|]. split; [reflexivity|]. exists []. split; [reflexivity|]. split; [cbn; lia|]. intros [|p] n k E; discriminate.
  - eexists. vm_compute. reflexivity.
Qed.

(** Finding: a pair requested twice is counted twice by jvp(), but returned once by jacobian(). *)
Definition jx_twice : jmodel Z := mkJM (jm_inputs jx_model) (jm_segs jx_model) (jm_outs jx_model) [("u", "y"); ("u", "y")].
Theorem C28_repeated_pair_refuted : exists outs jac outs' r,
  jacobian zr Z.opp zdot jx_par [] false jx_twice jx_in = Ok (outs, jac) /\ block jac "u" "y" = Some (mkT [2] [5; 5]%Z cpu) /\
  jvp zr Z.opp zdot jx_par [] false jx_twice jx_in [("y", mkT [2] [1; 1]%Z cpu)] = Ok (outs', r) /\ lookup "u" r = Some (mkT [2] [10; 10]%Z cpu).
Proof. do 4 eexists. split; [vm_compute; reflexivity|]. split; [vm_compute; reflexivity|]. split; vm_compute; reflexivity. Qed.
Print Assumptions C28_repeated_pair_refuted.
