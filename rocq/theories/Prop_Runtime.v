(** Property C69: a loaded artifact computes what it says. *)
From Coq Require Import String.
From Verif Require Import Load SpecLoad LoadProofs Example_Load.
From Verif Require Import Base SpecMap Tensor Spec SpecRename Rename Float Newton SpecNewton Example_Newton Krylov Broadcast SpecBroadcast Pack SpecPack Implicit Substep SpecSubstep
     Mat Jac JacModel FwdModel SystemAoti SpecSolved SpecSubSolved Example_Solved SpecValue Runtime SpecRuntime RuntimeProofs RuntimeComplete Example_Krylov Example_Runtime.
Local Open Scope string_scope.
Local Open Scope list_scope.

(** The artifact loads, and forward() of the loaded model returns, under the names of the boundary, what the artifact says at the
    inputs given under those names: segments in order, each what its packages say, implicit ones solved by Newton steps of
    their own graphs within the tolerances written, parameters the overrides or the stored values. *)
Theorem C69_forward : forall fsum rsum edot tri A of_int trunc cast open_pkg graph sdef kdef leaf d (a : artifact F),
  artifact_ok kdef (fun s => open_pkg s = Ok tt) a -> consistent rsum edot tri graph sdef a ->
  exists m, load of_int trunc cast open_pkg sdef kdef leaf d true (write a) = Ok m /\
    forall capture ov I I' out', overrides_ok ov -> inputs_ok a I -> renamed (boundary (ar_in a)) I I' ->
      model_forward fsum rsum edot tri A graph m capture ov I' = Ok out' ->
      exists out, artifact_says fsum rsum edot tri A cast graph sdef leaf d a ov I out /\ renamed (boundary (ar_out a)) out out'.
Proof.
  intros * Ok_ Co. destruct (loads of_int trunc cast open_pkg sdef kdef leaf d a Ok_) as [m Hm]. exists m. split; [exact Hm|].
  intros * Ho Hi R E. eapply forward_meaning; eassumption.
Qed.
Print Assumptions C69_forward.

(** Without implicit segments forward() returns whatever the artifact says: it does not fail where every graph has a result. *)
Theorem C69_forward_complete : forall fsum rsum edot tri A of_int trunc cast open_pkg graph sdef kdef leaf d (a : artifact F),
  artifact_ok kdef (fun s => open_pkg s = Ok tt) a -> consistent rsum edot tri graph sdef a ->
  Forall (fun s => exists f, Load.sg_kind s = MForward f) (ar_segs a) ->
  exists m, load of_int trunc cast open_pkg sdef kdef leaf d true (write a) = Ok m /\
    forall capture ov I I' out, overrides_ok ov -> inputs_ok a I -> renamed (boundary (ar_in a)) I I' -> sorted out ->
      artifact_says fsum rsum edot tri A cast graph sdef leaf d a ov I out ->
      exists out', model_forward fsum rsum edot tri A graph m capture ov I' = Ok out' /\ renamed (boundary (ar_out a)) out out'.
Proof.
  intros * Ok_ Co Hf. destruct (loads of_int trunc cast open_pkg sdef kdef leaf d a Ok_) as [m Hm]. exists m. split; [exact Hm|].
  intros * Ho Hi R So M. eapply forward_complete; eassumption.
Qed.
Print Assumptions C69_forward_complete.

(** jvp() returns the same values. *)
Theorem C69_jvp : forall fsum rsum edot tri A neg dot of_int trunc cast open_pkg graph sdef kdef leaf d (a : artifact F),
  artifact_ok kdef (fun s => open_pkg s = Ok tt) a -> consistent rsum edot tri graph sdef a -> graphs_agree graph a ->
  exists m, load of_int trunc cast open_pkg sdef kdef leaf d true (write a) = Ok m /\
    forall capture ov I I' W' out' jout', overrides_ok ov -> inputs_ok a I -> renamed (boundary (ar_in a)) I I' ->
      model_jvp fsum rsum edot tri A neg dot graph m capture ov I' W' = Ok (out', jout') ->
      exists out, artifact_says fsum rsum edot tri A cast graph sdef leaf d a ov I out /\ renamed (boundary (ar_out a)) out out'.
Proof.
  intros * Ok_ Co Ga. destruct (loads of_int trunc cast open_pkg sdef kdef leaf d a Ok_) as [m Hm]. exists m. split; [exact Hm|].
  intros * Ho Hi R E. eapply jvp_meaning; eassumption.
Qed.
Print Assumptions C69_jvp.

(** And so does jacobian(); of a single forward segment it returns the declared outputs among the others. *)
Theorem C69_jacobian : forall fsum rsum edot tri A neg dot of_int trunc cast open_pkg graph sdef kdef leaf d (a : artifact F),
  artifact_ok kdef (fun s => open_pkg s = Ok tt) a -> consistent rsum edot tri graph sdef a -> graphs_agree graph a ->
  (forall ps f, ar_segs a = [mkMseg ps (MForward f)] -> incl (map op_name (ar_outputs a)) (fw_outputs f) /\ clash_free (ar_out a) (fw_outputs f)) ->
  exists m, load of_int trunc cast open_pkg sdef kdef leaf d true (write a) = Ok m /\
    forall capture ov I I' out' jac', overrides_ok ov -> inputs_ok a I -> renamed (boundary (ar_in a)) I I' ->
      model_jacobian fsum rsum edot tri A neg dot graph m capture ov I' = Ok (out', jac') ->
      exists out, artifact_says fsum rsum edot tri A cast graph sdef leaf d a ov I out /\
        forall n, In n (map op_name (ar_outputs a)) -> lookup (boundary (ar_out a) n) out' = lookup n out.
Proof.
  intros * Ok_ Co Ga Si. destruct (loads of_int trunc cast open_pkg sdef kdef leaf d a Ok_) as [m Hm]. exists m. split; [exact Hm|].
  intros * Ho Hi R E.
  assert (D : (exists ps f, ar_segs a = [mkMseg ps (MForward f)] /\ fw_jvp f <> None) \/ forall ps f, ar_segs a = [mkMseg ps (MForward f)] -> fw_jvp f = None).
  { destruct (ar_segs a) as [|[ps [f|i]] [|s l]]; try (right; intros ps' f' C; discriminate C). destruct (fw_jvp f) eqn:J.
    - left. exists ps, f. split; [reflexivity|]. rewrite J. discriminate.
    - right. intros ps' f' C. injection C as <- <-. exact J. }
  destruct D as [(ps & f & Es & J)|Ns].
  - destruct (Si ps f Es) as [In_ Cf]. eapply single_meaning; eassumption.
  - destruct (jacobian_meaning fsum rsum edot tri A neg dot of_int trunc cast open_pkg graph sdef kdef leaf d a Ok_ Co m capture ov I I' out' jac' Hm Ga Ho Hi R Ns E) as (out & M & Rn).
    exists out. split; [exact M|]. intros n Hn. assert (M' := M). destruct M' as (infos & dyn & st0 & batch & par & st & _ & _ & _ & _ & _ & _ & Mo).
    destruct (proj1 (Mo n) Hn) as (t & _ & Lt). rewrite Lt. destruct Rn as (_ & R1 & _). exact (R1 n t Lt).
Qed.
Print Assumptions C69_jacobian.

(** The derivatives come from the description as well: the public operations are those of C06 to C26 of a model that has the
    inputs, the segments with their graphs, pairs and sensitivity solves, the outputs and the derivative pairs of the artifact,
    at the parameters of the call. *)
Theorem C69_described : forall fsum rsum edot tri A neg dot of_int trunc cast open_pkg graph sdef kdef leaf d (a : artifact F),
  artifact_ok kdef (fun s => open_pkg s = Ok tt) a -> consistent rsum edot tri graph sdef a -> derivatives_consistent a ->
  exists m jm nds, load of_int trunc cast open_pkg sdef kdef leaf d true (write a) = Ok m /\
    model_says fsum rsum edot tri graph sdef a jm /\
    (forall p, In p (ar_params a) -> lookup (ap_name p) nds = Some (length (ap_base p))) /\
    forall ov, overrides_ok ov -> exists par, params_say cast leaf d a ov par /\ forall capture,
      model_forward fsum rsum edot tri A graph m capture ov = facade_forward (load_tables (mkAliases (ar_in a) (ar_out a) (ar_par a))) (forward_of A par nds capture jm) /\
      model_jvp fsum rsum edot tri A neg dot graph m capture ov = facade_jvp (load_tables (mkAliases (ar_in a) (ar_out a) (ar_par a))) (jvp A neg dot par nds capture jm) /\
      model_jacobian fsum rsum edot tri A neg dot graph m capture ov = facade_jacobian (load_tables (mkAliases (ar_in a) (ar_out a) (ar_par a))) (jacobian A neg dot par nds capture jm).
Proof. exact described. Qed.
Print Assumptions C69_described.

(** The artifact of Example_Runtime.v, without and with substepping, one parameter overridden under its name at the boundary. *)
Definition rx_load (level miters : Z) : result (loaded F) := load lx_of_int lx_trunc lx_cast rx_open lx_sdef lx_kdef "float64" cpu true (write (rx_artifact level miters)).
Definition rx_forward_of (level miters : Z) (m : loaded F) : result (smap (tensor F)) :=
  model_forward sum0 sum0 kx_dot (fun _ b => b) vx_arith rx_graph m false rx_ov rx_in'.
Definition rx_near (lo hi : Z) (t : tensor F) : list bool := map (fun x => (flt (fnum lo (-1)) x && flt x (fnum hi (-1)))%bool) (t_data t).
Example C69_case :
  artifact_ok lx_kdef (fun s => rx_open s = Ok tt) (rx_artifact 0 25) /\ consistent sum0 kx_dot (fun _ b => b) rx_graph lx_sdef (rx_artifact 0 25) /\
  graphs_agree rx_graph (rx_artifact 0 25) /\ derivatives_consistent (rx_artifact 0 25) /\ overrides_ok rx_ov /\ inputs_ok (rx_artifact 0 25) rx_in /\
  renamed (boundary (ar_in (rx_artifact 0 25))) rx_in rx_in' /\
  exists t, (let* m := rx_load 0 25 in rx_forward_of 0 25 m) = Ok [("root", t)] /\ t_shape t = [2] /\ rx_near 3 11 t = [true; true].
Proof.
  split; [apply rx_ok; lia|]. split; [apply rx_consistent; lia|]. split; [apply rx_agree|]. split; [apply rx_derivatives|]. split; [apply rx_overrides|].
  split; [apply rx_inputs|]. split; [apply rx_renamed|]. eexists. split; [vm_compute; reflexivity|]. split; reflexivity.
Qed.
(** Six Newton steps are not enough without substeps. *)
Example C69_substepped_case :
  artifact_ok lx_kdef (fun s => rx_open s = Ok tt) (rx_artifact 3 6) /\ consistent sum0 kx_dot (fun _ b => b) rx_graph lx_sdef (rx_artifact 3 6) /\
  (exists e, (let* m := rx_load 0 6 in rx_forward_of 0 6 m) = Err e) /\
  exists t, (let* m := rx_load 3 6 in rx_forward_of 3 6 m) = Ok [("root", t)] /\ t_shape t = [2] /\ rx_near 3 11 t = [true; true].
Proof.
  split; [apply rx_ok; lia|]. split; [apply rx_consistent; lia|]. split; [eexists; vm_compute; reflexivity|]. eexists. split; [vm_compute; reflexivity|]. split; reflexivity.
Qed.
(** du/dx = a / (2 c u) *)
Example C69_jvp_case : exists t w,
  (let* m := rx_load 0 25 in model_jvp sum0 sum0 kx_dot (fun _ b => b) vx_arith fopp kx_dot rx_graph m false rx_ov rx_in' [("load", mkT [2] [fone; ftwo] cpu)]) = Ok ([("root", t)], [("root", w)]) /\
  rx_near 3 11 t = [true; true] /\
  t_shape w = [2] /\ map (fun x => (flt (fnum 3 (-4)) x && flt x (fnum 5 (-4)))%bool) (t_data w) = [true; true].
Proof. do 2 eexists. split; [vm_compute; reflexivity|]. repeat split; reflexivity. Qed.
(** A single forward segment: 2 x, without the override x. *)
Definition rx_plain_says ov : smap (tensor F) -> smap (tensor F) -> Prop := artifact_says sum0 sum0 kx_dot (fun _ b => b) vx_arith lx_cast rx_graph lx_sdef "float64" cpu rx_plain ov.
Example C69_plain_case :
  artifact_ok lx_kdef (fun s => rx_open s = Ok tt) rx_plain /\ consistent sum0 kx_dot (fun _ b => b) rx_graph lx_sdef rx_plain /\ graphs_agree rx_graph rx_plain /\
  Forall (fun s => exists f, Load.sg_kind s = MForward f) (ar_segs rx_plain) /\ inputs_ok rx_plain rx_x /\ renamed (boundary (ar_in rx_plain)) rx_x rx_x' /\
  (exists out, rx_plain_says rx_ov rx_x out /\ lookup "f" out = Some (mkT [2] [fnum 8 0; fnum 50 0] cpu)) /\
  (exists out, rx_plain_says None rx_x out /\ lookup "f" out = Some (mkT [2] [fnum 4 0; fnum 25 0] cpu)).
Proof.
  assert (G : forall ov v, overrides_ok ov ->
    (let* m := load lx_of_int lx_trunc lx_cast rx_open lx_sdef lx_kdef "float64" cpu true (write rx_plain) in
     model_forward sum0 sum0 kx_dot (fun _ b => b) vx_arith rx_graph m false ov rx_x') = Ok [("force", v)] ->
    exists out, rx_plain_says ov rx_x out /\ lookup "f" out = Some v).
  { intros ov v Ho E.
    destruct (C69_forward sum0 sum0 kx_dot (fun _ b => b) vx_arith lx_of_int lx_trunc lx_cast rx_open rx_graph lx_sdef lx_kdef "float64" cpu rx_plain rx_plain_ok (rx_plain_consistent _ _ _)) as (m & Em & H).
    rewrite Em in E. cbn [bind] in E. destruct (H false ov rx_x rx_x' _ Ho rx_plain_inputs rx_x_renamed E) as (out & M & R). exists out. split; [exact M|].
    destruct M as (infos & dyn & st0 & batch & par & st & _ & _ & _ & _ & _ & _ & Mo). destruct (proj1 (Mo "f") (or_introl eq_refl)) as (t & _ & L). rewrite L.
    destruct R as (_ & R & _). apply R in L. cbn in L. symmetry. exact L. }
  split; [exact rx_plain_ok|]. split; [apply rx_plain_consistent|]. split; [exact rx_plain_agree|]. split; [repeat constructor; eexists; reflexivity|].
  split; [exact rx_plain_inputs|]. split; [exact rx_x_renamed|]. split; apply G; [exact rx_overrides|vm_compute; reflexivity|intros o n t C; discriminate|vm_compute; reflexivity].
Qed.
