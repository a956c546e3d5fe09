(** Property C76: an eager model answers as the compiled model of the same equations. *)
From Verif Require Import Base Tensor Broadcast SpecBroadcast Pack Implicit Substep Mat Jac SubstepJac JacModel ParamJac FwdModel SpecJac SpecAlgebra SpecValue MatProofs Example_Jac Prop_Value EagerModel SpecEagerModel EagerModelProofs EagerCallProofs EagerTwinProofs Example_EagerModel.
Local Open Scope string_scope.
Local Open Scope list_scope.

(** * What the model in Python is called with *)

(** Inputs it takes reach it broadcast to their common batch: the very tensors a compiled model of the same inputs
    prepares for its segments. *)
Theorem C76_prepared : forall V (m : emodel V) I D, NoDup (map fst (em_ins m)) -> given_wf m I -> welcome m I D ->
  exists args st, typed_args m I = Ok args /\ lifted m I D args /\ prepare_inputs (map plain (em_ins m)) I = Ok st /\
    Forall2 (fun i a => lookup (fst i) st = Some (w_data a)) (em_ins m) args /\ (forall n, In n (keys st) <-> In n (map fst (em_ins m))).
Proof.
  intros V m I D N Wf Hw. destruct (typed_args_ok m I D Wf Hw) as (args & E & L & _). destruct (prepared_same m N I D Wf Hw) as (args' & st & E' & H). exists args, st. split; [exact E|]. split; [exact L|].
  assert (args' = args) by congruence. subst args'. exact H.
Qed.
Print Assumptions C76_prepared.

(** Inputs a compiled model takes it takes too, when they are on its device. *)
Theorem C76_takes : forall V (m : emodel V) I st, NoDup (map fst (em_ins m)) -> given_wf m I ->
  (forall i t, In i (em_ins m) -> lookup (fst i) I = Some t -> on_device (em_dev m) (t_dev t) /\ length (snd i) <= dim t) ->
  prepare_inputs (map plain (em_ins m)) I = Ok st -> exists D, welcome m I D.
Proof. intros V m I st N. exact (compiled_takes m N I st). Qed.
Print Assumptions C76_takes.

(** Other inputs end every call in an error not to be retried after, before the model in Python is called. *)
Theorem C76_refused : forall V (zero one : V) add (m : emodel V) (P : eparams V) I T, given_wf m I -> (forall D, ~ welcome m I D) ->
  fatal (eager_forward m P I) /\ fatal (eager_jvp zero add m P I T) /\ fatal (eager_jacobian zero one m P I).
Proof. intros V zero one add m P I T. apply refused_all. Qed.
Print Assumptions C76_refused.

Example C76_boundary_case : NoDup (map fst (em_ins ex_model)) /\ given_wf ex_model ex_in /\ welcome ex_model ex_in [2] /\
  typed_args ex_model ex_in = Ok ex_args /\ (exists st, prepare_inputs (map plain (em_ins ex_model)) ex_in = Ok st) /\
  (exists w, eager_forward ex_model ex_params [("x", mkT [2; 2] [1; 2; 3; 4]%Z cpu); ("y", mkT [3] [5; 6; 7]%Z cpu)] = Err (Fatal w)) /\
  exists w, eager_forward ex_model ex_params [("x", mkT [2; 1] [1; 2]%Z cpu); ("y", mkT [2] [5; 6]%Z cpu)] = Err (Fatal w).
Proof.
  split; [apply ex_named|]. split; [exact ex_wf|]. split; [exact ex_welcome|]. split; [reflexivity|]. split; [eexists; reflexivity|]. split; eexists; reflexivity.
Qed.

(** * Values *)

(** forward() returns what the model in Python returns for them, under the names of the outputs. *)
Theorem C76_forward : forall V (m : emodel V) (P : eparams V) I D args ws v vals, named m -> given_wf m I -> welcome m I D -> lifted m I D args ->
  em_native m (values P) args None = Ok (ws, v) -> returned m ws vals -> exists r, eager_forward m P I = Ok r /\ outputs_are m r vals.
Proof. intros V m P I D args ws v vals [_ N]. exact (forward_ok m N P I D args ws v vals). Qed.
Print Assumptions C76_forward.

(** A solver that does not converge leaves an error to be retried after, anything else one that is not. *)
Theorem C76_forward_error : forall V (m : emodel V) (P : eparams V) I D args e, given_wf m I -> welcome m I D -> lifted m I D args ->
  em_native m (values P) args None = Err e ->
  ((exists w, e = Convergence w) -> recoverable (eager_forward m P I)) /\ ((forall w, e <> Convergence w) -> fatal (eager_forward m P I)).
Proof.
  intros V m P I D args e Wf Hw Hl En. rewrite (forward_err m P I D args e Wf Hw Hl En). split; [intros [w ->]; eexists; reflexivity|apply guarded_err].
Qed.
Print Assumptions C76_forward_error.

Definition ex_stuck (e : exn) : emodel Z := mkEM (em_ins ex_model) (em_outs ex_model) cpu (fun _ _ _ => Err e).
Example C76_forward_case : named ex_model /\ lifted ex_model ex_in [2] ex_args /\
  (exists ws v, em_native ex_model (values ex_params) ex_args None = Ok (ws, v) /\ returned ex_model ws ex_vals) /\
  eager_forward ex_model ex_params ex_in = Ok [("u", mkT [2] [35; 90]%Z cpu); ("z", mkT [2; 2] [35; 70; 270; 360]%Z cpu)] /\
  eager_forward (ex_stuck (Convergence "max iterations")) ex_params ex_in = Err (Convergence "neml2::eager::Model::forward: max iterations") /\
  eager_forward (ex_stuck (StdExn "RuntimeError")) ex_params ex_in = Err (Fatal "neml2::eager::Model::forward: RuntimeError").
Proof.
  split; [exact ex_named|]. split; [exact ex_lifted|]. split; [eexists; eexists; split; [reflexivity|]; split; [reflexivity|]; split; [repeat constructor|reflexivity]|]. repeat split; vm_compute; reflexivity.
Qed.

(** * Derivatives *)

(** jacobian() of a model whose chain rule carries seeds by its linearisation: for every output and input the block of
    sensitivities, at every entry of the call's batch, also when parameters have batches of their own. *)
Theorem C76_jacobian : forall V (zero one : V) add mul sub opp (m : emodel V) (P : eparams V) I D C d args vals L,
  ring_theory zero one add mul sub opp eq -> named m -> given_wf m I -> welcome m I D -> all_on m I d -> lifted m I D args -> em_outs m <> [] ->
  calls_at P D C -> carries m zero add mul d C 1 (values P) args vals L -> values_over m d C vals ->
  exists r J, eager_jacobian zero one m P I = Ok (r, J) /\ outputs_are m r vals /\
    (forall o ob i ib, In (o, ob) (em_outs m) -> In (i, ib) (em_ins m) -> exists t, block J o i = Some t /\ wf t /\ t_dev t = d /\ t_shape t = C ++ ob ++ ib /\
       forall e x y, index_of C e -> index_of ob x -> index_of ib y ->
         elem t (e ++ x ++ y) = Some (sensitivity zero one add (dotx zero add mul) (L e) o i (ravel ob x) (ravel ib y))) /\
    (forall o i, block J o i <> None -> In o (map fst (em_outs m)) /\ In i (map fst (em_ins m))).
Proof.
  intros V zero one add mul sub opp m P I D C d args vals L R [N1 N2] Wf Hw Hd Hl No Hc Hn Hv.
  exact (jacobian_ok m N1 N2 zero one add mul sub opp R P I D C d Wf Hw Hd args Hl vals L No Hc Hn Hv).
Qed.
Print Assumptions C76_jacobian.

(** jvp(): the tangents given, zeros for the others, carried forward; for every output. *)
Theorem C76_jvp : forall V (zero one : V) add mul sub opp (m : emodel V) (P : eparams V) I D d args vals L T,
  ring_theory zero one add mul sub opp eq -> named m -> given_wf m I -> welcome m I D -> all_on m I d -> lifted m I D args -> em_ins m <> [] ->
  tangents_ok m T d D -> carries m zero add mul d D 0 (values P) args vals L -> values_over m d D vals ->
  exists r t, eager_jvp zero add m P I T = Ok (r, t) /\ outputs_are m r vals /\ (forall n, lookup n t <> None <-> In n (map fst (em_outs m))) /\
    forall o ob, In (o, ob) (em_outs m) -> exists u, lookup o t = Some u /\ wf u /\ t_dev u = d /\ t_shape u = D ++ ob /\
      forall e x, index_of D e -> index_of ob x -> elem u (e ++ x) = Some (push zero add mul (L e) (tangent m zero T e) o (ravel ob x)).
Proof.
  intros V zero one add mul sub opp m P I D d args vals L T R [N1 N2] Wf Hw Hd Hl Ni Ht Hn Hv.
  exact (jvp_ok_ m N1 N2 zero one add mul sub opp R P I D d Wf Hw Hd args Hl vals L T Ht Ni Hn Hv).
Qed.
Print Assumptions C76_jvp.

Example C76_derivative_case : all_on ex_model ex_in cpu /\ em_ins ex_model <> [] /\ em_outs ex_model <> [] /\ calls_at ex_params [2] [2] /\
  (forall k, carries ex_model 0%Z Z.add Z.mul cpu [2] k (values ex_params) ex_args ex_vals ex_L) /\ values_over ex_model cpu [2] ex_vals /\ tangents_ok ex_model ex_T cpu [2] /\
  (exists r J, eager_jacobian 0%Z 1%Z ex_model ex_params ex_in = Ok (r, J) /\ block J "z" "x" = Some (mkT [2; 2; 2] [45; 5; 20; 45; 150; 45; 80; 150]%Z cpu) /\ block J "u" "y" = Some (mkT [2] [5; 5]%Z cpu)) /\
  exists r t, eager_jvp 0%Z Z.add ex_model ex_params ex_in ex_T = Ok (r, t) /\ lookup "u" t = Some (mkT [2] [560; 5170]%Z cpu) /\
    lookup "z" t = Some (mkT [2; 2] [595; 1470; 15600; 21580]%Z cpu).
Proof.
  split; [exact ex_on|]. split; [discriminate|]. split; [discriminate|]. split; [exact ex_calls|]. split; [exact ex_carries|]. split; [exact ex_values|]. split; [exact ex_tangents|].
  split; [do 2 eexists; split; [vm_compute; reflexivity|]; split; vm_compute; reflexivity|]. do 2 eexists; split; [vm_compute; reflexivity|]; split; vm_compute; reflexivity.
Qed.

(** * The compiled model of the same equations *)

(** Where the graphs and the model in Python have the same values and the same linearisation, the calls agree: forward(),
    the values of jvp() and jacobian(), the tangents of the outputs the compiled model differentiates by all inputs, and
    every block of a pair it declares. *)
Theorem C76_twin : forall V (A : arith V) opp neg par base_ndim capture (m : emodel V) jm (P : eparams V) (I st' : smap (tensor V)) D size d lins args ws v vals T,
  ring_theory (a_zero A) (a_one A) (a_add A) (a_mul A) (a_sub A) opp eq -> named m -> twin m jm -> given_wf m I -> welcome m I D -> all_on m I d -> lifted m I D args ->
  evaluated (a_zero A) neg par base_ndim jm I D size d lins st' -> coherent (jm_segs jm) -> NoDup (jm_derivs jm) -> tangents_ok m T d D -> calls_at P D D ->
  em_native m (values P) args None = Ok (ws, v) -> returned m ws vals -> Forall2 (fun o t => lookup (fst o) st' = Some t) (em_outs m) vals -> values_over m d D vals ->
  (forall k, k < 2 -> carries m (a_zero A) (a_add A) (a_mul A) d D k (values P) args vals (fun e => rev (map (fun l => l e) lins))) ->
  let dot := dotx (a_zero A) (a_add A) (a_mul A) in
  (exists re rc, eager_forward m P I = Ok re /\ forward_of A par base_ndim capture jm I = Ok rc /\ forall n, lookup n re = lookup n rc) /\
  (exists re te rc tc, eager_jvp (a_zero A) (a_add A) m P I T = Ok (re, te) /\ jvp A neg dot par base_ndim capture jm I T = Ok (rc, tc) /\ (forall n, lookup n re = lookup n rc) /\
     forall o, In o (map fst (em_outs m)) -> (forall i, In i (map fst (em_ins m)) -> In (o, i) (jm_derivs jm)) -> lookup o te = lookup o tc) /\
  (~ single_forward jm -> exists re je rc jc, eager_jacobian (a_zero A) (a_one A) m P I = Ok (re, je) /\ jacobian A neg dot par base_ndim capture jm I = Ok (rc, jc) /\
     (forall n, lookup n re = lookup n rc) /\ forall o i, In (o, i) (jm_derivs jm) -> block je o i <> None /\ block je o i = block jc o i).
Proof.
  intros V A opp neg par base_ndim capture m jm P I st' D size d lins args ws v vals T R N Tw Wf Hw Hd Hl Ev Co Nd Ht Hc En Hr Hv Ho Hn dot.
  destruct (twin_jvp A opp R neg par base_ndim capture m jm P I st' D size d lins args vals N Tw Wf Hw Hd Hl Ev Hv T Nd Ht (Hn 0 ltac:(lia)) Ho) as (re & te & rc & tc & Ee & Ec & S1 & S2 & S3).
  split; [exact (twin_forward A neg par base_ndim capture m jm P I st' D args vals N Tw Wf Hw Hl Hv ws v En Hr T rc tc Co Ec S2)|].
  split; [exists re, te, rc, tc; auto|]. intros Ns. exact (twin_jacobian A opp R neg par base_ndim capture m jm P I st' D size d lins args vals N Tw Wf Hw Hd Hl Ev Hv Ns Hc (Hn 1 ltac:(lia)) Ho).
Qed.
Print Assumptions C76_twin.

Example C76_twin_case : twin ex_model jx_model /\ evaluated 0%Z Z.opp jx_par [] jx_model ex_in [2] jx_size cpu jx_lins jx_st3 /\ coherent (jm_segs jx_model) /\ NoDup (jm_derivs jx_model) /\
  Forall2 (fun o t => lookup (fst o) jx_st3 = Some t) (em_outs ex_model) ex_vals /\ ~ single_forward jx_model /\
  exists r t r' t', eager_jvp 0%Z Z.add ex_model ex_params ex_in ex_T = Ok (r, t) /\ jvp zr Z.opp (dotx 0%Z Z.add Z.mul) jx_par [] false jx_model jx_in ex_T = Ok (r', t') /\ lookup "z" t = lookup "z" t' /\ lookup "z" t <> None.
Proof.
  split; [split; reflexivity|]. split; [exact jx_evaluated|]. split; [exact jx_coherent|]. split; [repeat (constructor; [cbn; intuition discriminate|]); constructor|]. split; [repeat constructor|].
  split; [intros (f & j & E & _); discriminate|]. do 4 eexists. split; [vm_compute; reflexivity|]. split; [vm_compute; reflexivity|]. split; [vm_compute; reflexivity|]. vm_compute. discriminate.
Qed.

(** * Parameters *)

(** A parameter set is the parameter read, on the device of the one before: repeated over its batch where it fits, in its
    place where not.  The others stay. *)
Theorem C76_parameter : forall V (P : eparams V) n (v : tensor V), NoDup (keys P) -> wf v ->
  (forall p, lookup n P = Some p -> exists P', eager_set_parameter P n v = Ok P' /\ keys P' = keys P /\
     (forall k, k <> n -> lookup k P' = lookup k P /\ lookup k (eager_named_parameters P') = lookup k (eager_named_parameters P)) /\
     exists u, lookup n (eager_named_parameters P') = Some u /\ lookup n (values P') = Some u /\
       (broadcastable (t_shape v) (t_shape (ep_val p)) -> t_shape u = t_shape (ep_val p) /\ broadcasts (to_dev (t_dev (ep_val p)) v) u) /\
       (~ broadcastable (t_shape v) (t_shape (ep_val p)) -> u = to_dev (t_dev (ep_val p)) v)) /\
  (lookup n P = None -> fatal (eager_set_parameter P n v)).
Proof.
  intros V P n v Nd W. split.
  - intros p L. unfold eager_set_parameter, adapter_set_parameter. rewrite L. cbn [guarded]. eexists. split; [reflexivity|]. split; [apply replace_keys|].
    assert (Nd' : NoDup (keys (replace P n (set_value p v)))) by (rewrite replace_keys; exact Nd). split.
    + intros k Ne. split; [exact (replace_other P n _ k Ne)|]. rewrite (named_lookup _ k Nd'), (named_lookup _ k Nd), (replace_other P n _ k Ne). reflexivity.
    + exists (ep_val (set_value p v)). rewrite (named_lookup _ n Nd'), (replace_same P n _ p L). split; [reflexivity|]. split.
      * apply (BaseProofs.lookup_nodup n (values (replace P n (set_value p v)))).
        -- unfold values, keys. rewrite map_map. exact Nd'.
        -- unfold values. apply in_map_iff. exists (n, set_value p v). split; [reflexivity|]. exact (BaseProofs.lookup_in _ _ _ (replace_same P n _ p L)).
      * destruct (set_value_to p v W) as (_ & _ & H). exact H.
  - intros L. unfold eager_set_parameter, adapter_set_parameter. rewrite L. apply guarded_std.
Qed.
Print Assumptions C76_parameter.

Example C76_parameter_case : NoDup (keys ex_params) /\
  (let* P := eager_set_parameter ex_params "c" (mkT [] [7]%Z cpu) in Ok (eager_named_parameters P)) = Ok [("c", mkT [1; 2] [7; 7]%Z cpu); ("k", mkT [] [5]%Z cpu)] /\
  (let* P := eager_set_parameter ex_params "k" (mkT [2] [8; 9]%Z cpu) in Ok (eager_named_parameters P)) = Ok [("c", mkT [1; 2] [1; 2]%Z cpu); ("k", mkT [2] [8; 9]%Z cpu)] /\
  exists w, eager_set_parameter ex_params "q" (mkT [] [7]%Z cpu) = Err (Fatal w).
Proof. split; [repeat (constructor; [cbn; intuition discriminate|]); constructor|]. split; [vm_compute; reflexivity|]. split; [vm_compute; reflexivity|]. eexists. reflexivity. Qed.

(** * Finding *)

(** y = E a + b with a parameter E of batch 2, called on single inputs: forward() and jacobian() return tensors of batch 2, but
    jvp() seeds over the batch of the inputs only.  It raises, or returns a tangent of another shape than the output's. *)
Definition bx_native (P : smap (tensor Z)) (args : list (wrapper Z)) (v : option (chain Z)) : result (list (wrapper Z) * chain Z) :=
  match lookup "E" P, args with
  | Some E, [a; b] =>
      let* ea := zip_bcast Z.mul E (w_data a) in
      let* y := zip_bcast Z.add ea (w_data b) in
      let* c := mapM (fun s => match snd s with
                               | [(i, w)] => if String.eqb i "a" then let* t := zip_bcast Z.mul E (w_data w) in Ok (i, mkW t 0 (w_k w)) else Ok (i, w)
                               | _ => Err (StdExn "seed")
                               end) (match v with Some sd => sd | None => [] end) in
      Ok ([mkW y 0 0], [("y", c)])
  | _, _ => Err (StdExn "arguments")
  end.
Definition bx_model : emodel Z := mkEM [("a", []); ("b", [])] [("y", [])] cpu bx_native.
Definition bx_params : eparams Z := [("E", mkEP (mkT [2] [3; 4]%Z cpu) 0 0)].
Definition bx_in : smap (tensor Z) := [("a", mkT [] [10]%Z cpu); ("b", mkT [] [1]%Z cpu)].
Theorem C76_jvp_batched_parameter_refuted : exists J r t, 
  eager_forward bx_model bx_params bx_in = Ok [("y", mkT [2] [31; 41]%Z cpu)] /\
  eager_jacobian 0%Z 1%Z bx_model bx_params bx_in = Ok ([("y", mkT [2] [31; 41]%Z cpu)], J) /\
  block J "y" "a" = Some (mkT [2] [3; 4]%Z cpu) /\ block J "y" "b" = Some (mkT [2] [1; 1]%Z cpu) /\
  fatal (eager_jvp 0%Z Z.add bx_model bx_params bx_in [("a", mkT [] [1]%Z cpu); ("b", mkT [] [1]%Z cpu)]) /\
  eager_jvp 0%Z Z.add bx_model bx_params bx_in [("b", mkT [] [1]%Z cpu)] = Ok (r, t) /\ lookup "y" r = Some (mkT [2] [31; 41]%Z cpu) /\ lookup "y" t = Some (mkT [] [1]%Z cpu).
Proof.
  do 3 eexists. split; [vm_compute; reflexivity|]. split; [vm_compute; reflexivity|]. split; [vm_compute; reflexivity|]. split; [vm_compute; reflexivity|].
  split; [eexists; vm_compute; reflexivity|]. split; [vm_compute; reflexivity|]. split; vm_compute; reflexivity.
Qed.
Print Assumptions C76_jvp_batched_parameter_refuted.
