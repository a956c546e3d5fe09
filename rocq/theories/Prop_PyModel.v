(** Property C83: what a Python caller of a compiled model gets. *)
From Coq Require Import String.
From Verif Require Import Load SpecLoad LoadProofs Example_Load.
From Verif Require Import SpecLayout.
From Verif Require Import Base BaseProofs Tensor Spec SpecMap SpecRename Rename Float Newton Example_Newton Krylov Broadcast FwdModel Example_Solved Substep Mat Runtime SpecRuntime RuntimeProofs Example_Krylov Example_Runtime
     Bundle Serve ServeJac PyModel PyModelProofs.
Local Open Scope string_scope.
Local Open Scope list_scope.

(** forward() of the class returns or raises as the C++ one does; the dict it returns has the keys [output_names], in that order
    (each once, where it first comes, should an artifact declare an output twice), which are the boundary names of the outputs as
    declared, and under each what the artifact says of that output. *)
Theorem C83_forward : forall fsum rsum edot tri A of_int trunc cast open_pkg graph sdef kdef leaf d (a : artifact F),
  artifact_ok kdef (fun s => open_pkg s = Ok tt) a -> consistent rsum edot tri graph sdef a ->
  exists m, load of_int trunc cast open_pkg sdef kdef leaf d true (write a) = Ok m /\
    output_names m = map (boundary (ar_out a)) (map op_name (ar_outputs a)) /\
    forall capture ov I I', overrides_ok ov -> inputs_ok a I -> renamed (boundary (ar_in a)) I I' ->
      let cpp := model_forward fsum rsum edot tri A graph m capture ov in
      (forall e, py_forward m cpp I' = Err e <-> cpp I' = Err e) /\
      forall dict, py_forward m cpp I' = Ok dict ->
        map fst dict = firsts (output_names m) /\ (NoDup (map op_name (ar_outputs a)) -> map fst dict = output_names m) /\
        exists out, artifact_says fsum rsum edot tri A cast graph sdef leaf d a ov I out /\
          forall o, In o (ar_outputs a) -> exists t, lookup (boundary (ar_out a) (op_name o)) dict = Some t /\ lookup (op_name o) out = Some t.
Proof.
  intros * Ok_ Co. destruct (load_write of_int trunc cast open_pkg sdef kdef leaf d a Ok_) as (m & Em & Fm & _). exists m. split; [exact Em|].
  assert (On : output_names m = map (boundary (ar_out a)) (map op_name (ar_outputs a))) by (rewrite map_map; exact (output_names_say _ _ _ _ _ _ _ Fm)).
  split; [exact On|]. intros capture ov I I' Ho Hi R cpp.
  assert (Cf : clash_free (ar_out a) (map op_name (ar_outputs a))) by apply Co.
  assert (Nn : NoDup (map op_name (ar_outputs a)) -> NoDup (output_names m)).
  { intros Nd. rewrite On. revert Nd Cf. generalize (map op_name (ar_outputs a)). intros l Nd Cf.
    assert (Inj : forall x y, In x l -> In y l -> boundary (ar_out a) x = boundary (ar_out a) y -> x = y).
    { intros x y Hx Hy. apply Cf; apply in_or_app; left; assumption. }
    clear - Nd Inj. induction Nd as [|x l Nx _ IH]; cbn [map]; constructor.
    - intros Hx. apply in_map_iff in Hx as (y & Ey & Hy). apply Nx. rewrite <- (Inj y x (or_intror Hy) (or_introl eq_refl) Ey). exact Hy.
    - apply IH. intros y z Hy Hz. apply Inj; right; assumption. }
  assert (K : forall out', cpp I' = Ok out' -> exists dict out, py_forward m cpp I' = Ok dict /\ map fst dict = firsts (output_names m) /\
    artifact_says fsum rsum edot tri A cast graph sdef leaf d a ov I out /\
    forall o, In o (ar_outputs a) -> exists t, lookup (boundary (ar_out a) (op_name o)) dict = Some t /\ lookup (op_name o) out = Some t).
  { intros out' E. unfold py_forward. rewrite E. cbn [bind].
    assert (M : exists out, artifact_says fsum rsum edot tri A cast graph sdef leaf d a ov I out /\ renamed (boundary (ar_out a)) out out') by (eapply forward_meaning; eassumption).
    destruct M as (out & Sa & Rn). destruct Rn as (_ & R1 & _ & _).
    assert (L : forall n, In n (map op_name (ar_outputs a)) -> exists t, lookup n out = Some t /\ lookup (boundary (ar_out a) n) out' = Some t).
    { intros n Hn. destruct Sa as (infos & dyn & st0 & batch & par & st & _ & _ & _ & _ & _ & _ & Q). destruct (Q n) as [Q1 _]. destruct (Q1 Hn) as (t & _ & Et). exists t. split; [exact Et|exact (R1 n t Et)]. }
    destruct (repack_ok out' (output_names m)) as (r & Er & Kr & Lr).
    { intros n Hn. rewrite On in Hn. apply in_map_iff in Hn as (k & <- & Hk). destruct (L k Hk) as (t & _ & Et). rewrite Et. discriminate. }
    exists r, out. split; [exact Er|]. split; [exact Kr|]. split; [exact Sa|]. intros o Hj. apply (in_map op_name) in Hj. destruct (L _ Hj) as (t & E1 & E2). exists t. split; [|exact E1].
    rewrite Lr; [exact E2|]. rewrite On. apply in_map. exact Hj. }
  split.
  - intros e. split; intros E.
    + destruct (cpp I') as [out'|e'] eqn:Ec; [destruct (K out' eq_refl) as (dict & _ & Ed & _); rewrite E in Ed; discriminate Ed|]. unfold py_forward in E. rewrite Ec in E. exact E.
    + unfold py_forward. rewrite E. reflexivity.
  - intros dict E. destruct (cpp I') as [out'|e'] eqn:Ec; [|unfold py_forward in E; rewrite Ec in E; discriminate E].
    destruct (K out' eq_refl) as (dict' & out & Ed & Q). rewrite E in Ed. injection Ed as <-. destruct Q as (Q1 & Q2 & Q3). split; [exact Q1|]. split; [|exists out; split; assumption].
    intros Nd. rewrite Q1. apply firsts_same, Nn, Nd.
Qed.
Print Assumptions C83_forward.

(** A key of [input_names] that is not given raises, whatever else is given; these are the boundary names of the inputs as
    declared. *)
Theorem C83_missing : forall fsum rsum edot tri A of_int trunc cast open_pkg graph sdef kdef leaf d (a : artifact F),
  artifact_ok kdef (fun s => open_pkg s = Ok tt) a -> consistent rsum edot tri graph sdef a ->
  exists m, load of_int trunc cast open_pkg sdef kdef leaf d true (write a) = Ok m /\
    input_names m = map (boundary (ar_in a)) (map ip_name (ar_inputs a)) /\
    forall capture ov I I' n, overrides_ok ov -> inputs_ok a I -> renamed (boundary (ar_in a)) I I' -> In n (input_names m) -> lookup n I' = None ->
      exists e, py_forward m (model_forward fsum rsum edot tri A graph m capture ov) I' = Err e.
Proof.
  intros * Ok_ Co. destruct (load_write of_int trunc cast open_pkg sdef kdef leaf d a Ok_) as (m & Em & Fm & _). exists m. split; [exact Em|].
  assert (In_ : input_names m = map (boundary (ar_in a)) (map ip_name (ar_inputs a))) by (rewrite map_map; exact (input_names_say _ _ _ _ _ _ _ Fm)).
  split; [exact In_|]. intros capture ov I I' n Ho Hi R Hn Ln. unfold py_forward.
  destruct (model_forward fsum rsum edot tri A graph m capture ov I') as [out'|e] eqn:E; [exfalso|exists e; reflexivity].
  assert (M : exists out, artifact_says fsum rsum edot tri A cast graph sdef leaf d a ov I out /\ renamed (boundary (ar_out a)) out out') by (eapply forward_meaning; eassumption).
  destruct M as (out & (infos & dyn & st0 & batch & par & st & Fi & (ds & Ac & _) & _) & _).
  rewrite In_, map_map in Hn. apply in_map_iff in Hn as (i & <- & Hi'). destruct R as (_ & R1 & _).
  assert (L : exists t, lookup (ip_name i) I = Some t).
  { clear - Fi Ac Hi'. revert ds Ac. induction Fi as [|j x l l' (En & _) _ IH]; intros ds Ac; [destruct Hi'|]. inversion Ac as [|? ? ? ? (t & sub & Lt & _) Ac']; subst. destruct Hi' as [->|Hi']; [exists t; rewrite <- En; exact Lt|exact (IH Hi' _ Ac')]. }
  destruct L as (t & Lt). rewrite (R1 _ _ Lt) in Ln. discriminate Ln.
Qed.
Print Assumptions C83_missing.

(** The leaf that is opened: what is asked for, cpu and float64 when nothing or the empty string is given, an exception for any
    other scalar type. *)
Theorem C83_leaf : forall parse device dtype,
  let asked o default := match o with Some s => if String.eqb s "" then default else s | None => default end in
  (forall dt d, py_leaf parse device dtype = Ok (dt, d) <-> dt = asked dtype "float64" /\ (dt = "float64" \/ dt = "float32") /\ parse (asked device "cpu") = Ok d).
Proof.
  intros parse device dtype asked dt d. unfold py_leaf. change (match dtype with Some s => if String.eqb s "" then "float64" else s | None => "float64" end) with (asked dtype "float64").
  change (match device with Some s => if String.eqb s "" then "cpu" else s | None => "cpu" end) with (asked device "cpu"). generalize (asked dtype "float64"), (asked device "cpu"). intros x y.
  destruct (String.eqb_spec x "float64") as [->|N1]; [|destruct (String.eqb_spec x "float32") as [->|N2]]; cbn [orb]; destruct (parse y) as [z|e]; cbn [bind]; split;
    try discriminate; try (intros [= <- <-]; auto); try (intros (-> & _ & [= <-]); reflexivity); intros (-> & [->| ->] & E); try congruence.
Qed.
Print Assumptions C83_leaf.

(** The artifact of [rx_plain] with its input declared an output too, before the other: not the order of the names. *)
Definition rx_pair : artifact F :=
  mkAr [("x", "load")] [("f", "force")] [("a", "scale")] [rx_input "x"] [mkMout "x" [] 1; mkMout "f" [] 1] [("f", "x")] []
       [mkAp "a" None [] [] [fone]] None [mkMseg ["a"] (MForward rx_forward)].
Lemma rx_pair_ok : artifact_ok lx_kdef (opens rx_open) rx_pair.
Proof.
  assert (O : forall l, forallb (fun o => match o with Some s => is_ok (rx_open s) | None => true end) l = true -> opens_all (opens rx_open) l).
  { intros l H s I. rewrite forallb_forall in H. apply H in I. unfold opens. destruct (rx_open s) as [[]|]; [reflexivity|discriminate]. }
  unfold artifact_ok, rx_pair. cbn [ar_in ar_out ar_par ar_inputs ar_outputs ar_derivs ar_pderivs ar_params ar_solver ar_segs keys map fst].
  repeat match goal with |- _ /\ _ => split end.
  1-3: repeat constructor; intros [].
  - repeat (apply Forall_cons; [cbn; repeat split; try lx_small; apply Forall_nil|]). apply Forall_nil.
  - repeat (apply Forall_cons; [cbn; repeat split; try lx_small; apply Forall_nil|]). apply Forall_nil.
  - intros o i [E|[]]. injection E as <- <-. eexists. split; [left; reflexivity|reflexivity].
  - intros o i [].
  - repeat (apply Forall_cons; [unfold param_ok; cbn [ap_dtype ap_shape ap_base ap_values]; split;
      [intros s Es; discriminate|split; [apply Forall_nil|split; [apply Forall_nil|reflexivity]]]|]). apply Forall_nil.
  - cbn. repeat constructor; intros [].
  - cbn. repeat constructor; intros [].
  - exact I.
  - apply Forall_cons; [|apply Forall_nil]. unfold SpecLoad.segment_ok; cbn [Load.sg_kind].
    unfold forward_ok, rx_forward. cbn [fw_package fw_jvp fw_pjac fw_pvjp fw_pairs fw_ppairs fw_pvjp_params fw_pvjp_outputs].
    split; [apply O; reflexivity|]. split; [|split; [apply Forall_nil|split; [discriminate|split; [reflexivity|split; reflexivity]]]].
    apply Forall_cons; [|apply Forall_nil]. unfold pair_ok. cbn. repeat split; try reflexivity; apply Forall_nil.
Qed.
Lemma rx_pair_consistent rsum edot tri : consistent rsum edot tri rx_graph lx_sdef rx_pair.
Proof.
  unfold consistent, rx_pair. cbn [ar_inputs ar_solver ar_out ar_outputs ar_segs ar_params]. split; [|split; [|split; [|split; [|split]]]].
  - repeat constructor.
  - cbn. repeat constructor; intros [].
  - cbn. lia.
  - cbn. lia.
  - intros p q Ip Iq E. cbn in Ip, Iq. intuition (subst; first [reflexivity|discriminate E]).
  - intros ps k [E|[]]; injection E as <- <-. split; [intros n [<-|[]]; cbn; auto|]. cbn. repeat constructor. intros [].
Qed.
Lemma rx_pair_inputs : inputs_ok rx_pair rx_x.
Proof. exact rx_plain_inputs. Qed.
Definition rx_pair_cpp (m : loaded F) := model_forward sum0 sum0 kx_dot (fun _ b => b) vx_arith rx_graph m false rx_ov.
Example C83_case :
  artifact_ok lx_kdef (fun s => rx_open s = Ok tt) rx_pair /\ consistent sum0 kx_dot (fun _ b => b) rx_graph lx_sdef rx_pair /\ NoDup (map op_name (ar_outputs rx_pair)) /\
  overrides_ok rx_ov /\ inputs_ok rx_pair rx_x /\ renamed (boundary (ar_in rx_pair)) rx_x rx_x' /\
  exists m, load lx_of_int lx_trunc lx_cast rx_open lx_sdef lx_kdef "float64" cpu true (write rx_pair) = Ok m /\ output_names m = ["x"; "force"] /\ input_names m = ["load"] /\
    py_forward m (rx_pair_cpp m) rx_x' = Ok [("x", mkT [2] [fnum 4 0; fnum 25 0] cpu); ("force", mkT [2] [fnum 8 0; fnum 50 0] cpu)] /\
    is_ok (py_forward m (rx_pair_cpp m) []) = false.
Proof.
  split; [exact rx_pair_ok|]. split; [apply rx_pair_consistent|]. split; [repeat constructor; cbn; intuition discriminate|]. split; [apply rx_overrides|].
  split; [exact rx_pair_inputs|]. split; [exact rx_x_renamed|]. eexists. do 3 (split; [vm_compute; reflexivity|]). split; vm_compute; reflexivity.
Qed.
Example C83_leaf_case : let parse s := if String.eqb s "cpu" then Ok cpu else Err (StdExn "device") in
  py_leaf parse (Some "") None = Ok ("float64", cpu) /\ py_leaf parse None (Some "float32") = Ok ("float32", cpu) /\
  is_ok (py_leaf parse None (Some "int64")) = false /\ is_ok (py_leaf parse (Some "tpu") None) = false.
Proof. repeat split. Qed.

(** jvp() and jacobian() are not re-packed: their outputs come in the order of the map, which need not be that of [output_names]. *)
Theorem C83_order_refuted : exists m out T jout out2 jac,
  artifact_ok lx_kdef (fun s => rx_open s = Ok tt) rx_pair /\ consistent sum0 kx_dot (fun _ b => b) rx_graph lx_sdef rx_pair /\
  load lx_of_int lx_trunc lx_cast rx_open lx_sdef lx_kdef "float64" cpu true (write rx_pair) = Ok m /\
  model_jvp sum0 sum0 kx_dot (fun _ b => b) vx_arith fopp kx_dot rx_graph m false rx_ov rx_x' T = Ok (out, jout) /\
  model_jacobian sum0 sum0 kx_dot (fun _ b => b) vx_arith fopp kx_dot rx_graph m false rx_ov rx_x' = Ok (out2, jac) /\
  map fst out <> output_names m /\ map fst out2 <> output_names m /\
  exists dict, py_forward m (rx_pair_cpp m) rx_x' = Ok dict /\ map fst dict = output_names m.
Proof.
  do 2 eexists. exists [("load", mkT [2] [fone; ftwo] cpu)]. do 3 eexists. split; [exact rx_pair_ok|]. split; [apply rx_pair_consistent|].
  do 3 (split; [vm_compute; reflexivity|]). do 2 (split; [vm_compute; discriminate|]). eexists. split; vm_compute; reflexivity.
Qed.
Print Assumptions C83_order_refuted.
