(** Property C69, parameter derivatives: a loaded artifact computes what it says. *)
From Coq Require Import String.
From Verif Require Import Load SpecLoad LoadProofs Example_Load.
From Verif Require Import Base SpecMap Tensor SpecRename Rename Float Newton Example_Newton Krylov Substep Mat Jac JacModel ParamJac FwdModel
     Example_Solved Runtime RuntimeParam SpecRuntime SpecRuntimeParam RuntimeProofs RuntimeParamProofs Example_Krylov Example_Runtime Example_RuntimeParam.
Local Open Scope string_scope.
Local Open Scope list_scope.

(** The values of param_jacobian() are what the artifact says, unless a segment substeps or the first input has sub-batch axes
    (C56). *)
Theorem C69_param_jacobian : forall fsum rsum edot tri A neg dot of_int trunc cast open_pkg graph sdef kdef leaf d (a : artifact F),
  artifact_ok kdef (fun s => open_pkg s = Ok tt) a -> consistent rsum edot tri graph sdef a -> graphs_agree graph a -> plain_values a ->
  exists m, load of_int trunc cast open_pkg sdef kdef leaf d true (write a) = Ok m /\
    forall capture ov I I' out' jac', overrides_ok ov -> inputs_ok a I -> renamed (boundary (ar_in a)) I I' ->
      model_param_jacobian fsum rsum edot tri A neg dot graph m capture ov I' = Ok (out', jac') ->
      exists out, artifact_says fsum rsum edot tri A cast graph sdef leaf d a ov I out /\ renamed (boundary (ar_out a)) out out'.
Proof.
  intros * Ok_ Co Ga Pv. destruct (loads of_int trunc cast open_pkg sdef kdef leaf d a Ok_) as [m Hm]. exists m. split; [exact Hm|].
  intros * Ho Hi R E. eapply (param_meaning fsum rsum edot tri A neg dot of_int trunc cast open_pkg graph sdef kdef leaf d a Ok_ Co m Hm capture ov I I' out' jac' Ga Pv Ho Hi R E).
Qed.
Print Assumptions C69_param_jacobian.

(** param_jacobian() and param_vjp() are those of C29 of a model that has the inputs, the segments with their derivative graphs,
    pairs and solves, the outputs, the parameter pairs and the base shapes of the artifact, at the parameters of the call. *)
Theorem C69_param_described : forall fsum rsum edot tri A neg dot psum of_int trunc cast open_pkg graph sdef kdef leaf d (a : artifact F),
  artifact_ok kdef (fun s => open_pkg s = Ok tt) a -> consistent rsum edot tri graph sdef a -> derivatives_consistent a -> param_derivatives_consistent a ->
  exists m pm pb, load of_int trunc cast open_pkg sdef kdef leaf d true (write a) = Ok m /\ pmodel_says fsum rsum edot tri graph sdef a pm /\ bases_say a pb /\
    forall ov, overrides_ok ov -> exists par, params_say cast leaf d a ov par /\ forall capture,
      model_param_jacobian fsum rsum edot tri A neg dot graph m capture ov = facade_param_jacobian (load_tables (mkAliases (ar_in a) (ar_out a) (ar_par a))) (param_jacobian A neg dot par pb capture pm) /\
      model_param_vjp fsum rsum edot tri A neg dot psum graph m capture ov = facade_param_vjp (load_tables (mkAliases (ar_in a) (ar_out a) (ar_par a))) (param_vjp A neg dot psum par pb capture pm).
Proof. exact param_described. Qed.
Print Assumptions C69_param_described.

(** At a = 2, c = 2: u is 2 and 5, du/da 0.5 and 1.25, du/dc -0.5 and -1.25; with the cotangent 1, 2 the gradients sum up. *)
Definition rp_load : result (loaded F) := load lx_of_int lx_trunc lx_cast rp_open lx_sdef lx_kdef "float64" cpu true (write (rp_artifact 0 25)).
Definition rp_near (l : list F) (t : tensor F) : bool :=
  (Nat.eqb (length l) (length (t_data t)) && forallb (fun p => flt (fadd (fst p) (fnum (-1) (-10))) (snd p) && flt (snd p) (fadd (fst p) (fnum 1 (-10)))) (combine l (t_data t)))%bool.
Example C69_param_case :
  artifact_ok lx_kdef (fun s => rp_open s = Ok tt) (rp_artifact 0 25) /\ consistent sum0 kx_dot (fun _ b => b) rp_graph lx_sdef (rp_artifact 0 25) /\
  graphs_agree rp_graph (rp_artifact 0 25) /\ plain_values (rp_artifact 0 25) /\ derivatives_consistent (rp_artifact 0 25) /\ param_derivatives_consistent (rp_artifact 0 25) /\
  overrides_ok rx_ov /\ inputs_ok (rp_artifact 0 25) rx_in /\ renamed (boundary (ar_in (rp_artifact 0 25))) rx_in rx_in' /\
  exists t ja jc, (let* m := rp_load in model_param_jacobian sum0 sum0 kx_dot (fun _ b => b) vx_arith fopp kx_dot rp_graph m false rx_ov rx_in') = Ok ([("root", t)], [("root", [("c", jc); ("scale", ja)])]) /\
    t_shape ja = [2] /\ rp_near [fnum 2 0; fnum 5 0] t = true /\ rp_near [fnum 1 (-1); fnum 5 (-2)] ja = true /\ rp_near [fnum (-1) (-1); fnum (-5) (-2)] jc = true /\
  exists ga gc, (let* m := rp_load in model_param_vjp sum0 sum0 kx_dot (fun _ b => b) vx_arith fopp kx_dot sum0 rp_graph m false rx_ov rx_in' [("root", mkT [2] [fone; ftwo] cpu)]) = Ok [("c", gc); ("scale", ga)] /\
    t_shape ga = [] /\ rp_near [fnum 3 0] ga = true /\ rp_near [fnum (-3) 0] gc = true.
Proof.
  split; [apply rp_ok; lia|]. split; [apply rp_consistent; lia|]. split; [apply rp_agree|]. split; [apply rp_plain|]. split; [apply rp_derivatives|]. split; [apply rp_derivatives|].
  split; [apply rx_overrides|]. split; [apply rp_inputs|]. split; [apply rx_renamed|]. do 3 eexists. split; [vm_compute; reflexivity|]. split; [reflexivity|]. split; [vm_compute; reflexivity|].
  split; [vm_compute; reflexivity|]. split; [vm_compute; reflexivity|]. do 2 eexists. split; [vm_compute; reflexivity|]. split; [reflexivity|]. split; vm_compute; reflexivity.
Qed.
