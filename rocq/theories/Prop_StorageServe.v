(** Property C81, through to what a loaded model serves. *)
From Coq Require Import String.
From Verif Require Import Load SpecLoad LoadProofs Example_Load.
From Verif Require Import Base Tensor Spec SpecMap SpecRename Rename Float Newton Example_Newton Krylov BatchChunk Dispatch SpecDispatch Params SpecParams ParamsProofs Sched SpecSched Async SpecAsync AsyncOp Broadcast FwdModel
     Example_Solved Substep Mat Runtime SpecRuntime RuntimeProofs Example_Krylov Example_Runtime Bundle SpecBundle BundleProofs Example_Bundle Example_Async Serve SpecServe ServeProofs Example_Serve Prop_Serve ServeJac Storage SpecStorage StorageProofs.
Local Open Scope string_scope.
Local Open Scope list_scope.

(** load_model() and forward() with a synchronous scheduler, after any program that works on the tensors of named_parameters()
    in place, sets and assigns parameters, reuses its own tensors and evaluates, and goes through the mutable
    named_parameters() after its last in-place write: the result is what the artifact says, row by row, with the values the
    master's tensors have now. *)
Theorem C81_forward : forall C H N fsum rsum edot tri A graph (of_int : Z -> F) trunc cast sdef kdef parse_json open_pkg (parse_hit : C -> result H) find_node (param : N -> _) fs cwd p name s root a dflt,
  bundle parse_hit find_node param fs cwd p name root -> (forall x, s = Some x -> usable x) -> Forall compiled_for (SpecBundle.devices_of s) ->
  (forall d, In d (SpecBundle.devices_of s) -> holds kdef parse_json open_pkg fs root a d) -> (forall d, In d (SpecBundle.devices_of s) -> consistent rsum edot tri (graph d) sdef a) ->
  exists D d r, load_model of_int trunc cast sdef kdef parse_json open_pkg parse_hit find_node param fs cwd p name s = Ok D /\ SpecBundle.devices_of s = d :: r /\
    (exists s0, sound s0 /\ valued dflt s0 = fresh_of D) /\
    forall s0 h P, sound s0 -> valued dflt s0 = fresh_of D -> announced false h = true ->
    visible (valued dflt (srun dflt s0 h)) = Some P -> all_on d P -> Forall (fun kt => wf (snd kt)) P ->
    forall capture n I I' b in_dev st out, inputs_ok a I -> renamed (boundary (ar_in a)) I I' -> contract b I' -> all_on in_dev I' -> I' <> [] -> (0 <= n < 2 ^ 63)%Z ->
      serve_forward fsum rsum edot tri A graph capture D n (valued dflt (srun dflt s0 h)) I' = (st, Done (Ok out)) ->
      exists l rs nds, tiles 0 (Z.of_nat b) l /\ (forall x, In x l -> (snd x <= (if (n =? 0)%Z then Z.of_nat b else n))%Z) /\ ranks_of a nds /\
        Forall2 (fun x r => rows_say fsum rsum edot tri A cast graph sdef a nds P I b d (fst x) (snd x) r) l rs /\ in_place in_dev b l rs out.
Proof.
  intros * B Us Cd Hh Co.
  destruct (C72_forward _ _ _ fsum rsum edot tri A graph of_int trunc cast sdef kdef parse_json open_pkg parse_hit find_node param fs cwd p name s root a B Us Cd Hh Co) as (D & d & r & Ld & Es & K).
  pose proof (served_fresh of_int trunc cast sdef kdef parse_json open_pkg parse_hit find_node param fs cwd p name s root a B Us Cd Hh D Ld) as F.
  exists D, d, r. split; [exact Ld|]. split; [exact Es|]. split; [exact (fresh_has_storage dflt _ _ F eq_refl)|].
  intros s0 h P So Ev An Vp Ap Wp capture n I I' b in_dev st out Ii R Ct On Ne Hn E.
  rewrite <- Ev in F. destruct (announced_like dflt s0 _ h P So F An Vp) as (hv & Kk & Nl & V1 & Sy). rewrite Ev in V1, Sy.
  apply (K hv P Kk Nl V1 Ap Wp capture n I I' b in_dev st out Ii R Ct On Ne Hn). rewrite <- E. clear - Ne Sy.
  destruct I' as [|x I']; [destruct (Ne eq_refl)|]. unfold serve_forward. rewrite Sy. reflexivity.
Qed.
Print Assumptions C81_forward.

(** With an asynchronous one, whatever the schedule. *)
Theorem C81_pool : forall C H N fsum rsum edot tri A graph (of_int : Z -> F) trunc cast sdef kdef parse_json open_pkg (parse_hit : C -> result H) find_node (param : N -> _) fs cwd p name s root a tbl dflt,
  bundle parse_hit find_node param fs cwd p name root -> (forall x, s = Some x -> usable x) -> Forall compiled_for (SpecBundle.devices_of s) ->
  (forall d, In d (SpecBundle.devices_of s) -> holds kdef parse_json open_pkg fs root a d) -> (forall d, In d (SpecBundle.devices_of s) -> consistent rsum edot tri (graph d) sdef a) ->
  pool_ok tbl -> (forall t, In t tbl -> In (ds_dev t) (SpecBundle.devices_of s)) ->
  exists D d r, load_model of_int trunc cast sdef kdef parse_json open_pkg parse_hit find_node param fs cwd p name s = Ok D /\ SpecBundle.devices_of s = d :: r /\
    forall s0 h P, sound s0 -> valued dflt s0 = fresh_of D -> announced false h = true ->
    visible (valued dflt (srun dflt s0 h)) = Some P -> all_on d P -> Forall (fun kt => wf (snd kt)) P ->
    forall capture I I' b in_dev, inputs_ok a I -> renamed (boundary (ar_in a)) I I' -> contract b I' -> all_on in_dev I' -> I' <> [] ->
    exists st f, serve_pool fsum rsum edot tri A graph capture D (valued dflt (srun dflt s0 h)) I' = (st, Ok (Z.of_nat b, f)) /\
      forall run k ls rs0 out, finished_call run tbl k (Z.of_nat b) ls (Ok rs0) -> returns_only run k f -> async_forward (Ok rs0) = Ok out ->
      exists (l : list (device * (Z * Z))) rs nds, tiles 0 (Z.of_nat b) (map snd l) /\
        (forall x, In x l -> exists t, In t tbl /\ ds_dev t = fst x /\ (snd (snd x) <= ds_batch t)%Z) /\ ranks_of a nds /\
        Forall2 (fun x r => rows_say fsum rsum edot tri A cast graph sdef a nds P I b (fst x) (fst (snd x)) (snd (snd x)) r) l rs /\ in_place in_dev b (map snd l) rs out.
Proof.
  intros * B Us Cd Hh Co Po Ht.
  destruct (C72_pool _ _ _ fsum rsum edot tri A graph of_int trunc cast sdef kdef parse_json open_pkg parse_hit find_node param fs cwd p name s root a tbl B Us Cd Hh Co Po Ht) as (D & d & r & Ld & Es & K).
  pose proof (served_fresh of_int trunc cast sdef kdef parse_json open_pkg parse_hit find_node param fs cwd p name s root a B Us Cd Hh D Ld) as F.
  exists D, d, r. split; [exact Ld|]. split; [exact Es|].
  intros s0 h P So Ev An Vp Ap Wp capture I I' b in_dev Ii R Ct On Ne.
  rewrite <- Ev in F. destruct (announced_like dflt s0 _ h P So F An Vp) as (hv & Kk & Nl & V1 & Sy). rewrite Ev in V1, Sy.
  destruct (K hv P Kk Nl V1 Ap Wp capture I I' b in_dev Ii R Ct On Ne) as (st & f & E & Q). exists st, f. split; [|exact Q]. rewrite <- E. clear - Ne Sy.
  destruct I' as [|x I']; [destruct (Ne eq_refl)|]. unfold serve_pool. rewrite Sy. reflexivity.
Qed.
Print Assumptions C81_pool.

(** The derivatives likewise: after such a program every operation of either scheduler does what it does after some history
    of values that C72 and C74 speak of, with the same parameters visible. *)
Theorem C81_operations : forall C fsum rsum edot tri A neg dot psum graph pgraph capture (D : dispatched (V:=F) (C:=C)) dflt s0 P0 h P,
  fresh_disp (fresh_of D) P0 -> sound s0 -> valued dflt s0 = fresh_of D -> announced false h = true ->
  visible (valued dflt (srun dflt s0 h)) = Some P ->
  exists hv, keeps_keys hv /\ no_late hv /\ visible (prun (fresh_of D) hv) = Some P /\
    let s := valued dflt (srun dflt s0 h) in let s' := prun (fresh_of D) hv in
    forall I, I <> [] -> forall n T,
      serve_forward fsum rsum edot tri A graph capture D n s I = serve_forward fsum rsum edot tri A graph capture D n s' I /\
      serve_jvp fsum rsum edot tri A neg dot pgraph capture D n s I T = serve_jvp fsum rsum edot tri A neg dot pgraph capture D n s' I T /\
      serve_jacobian fsum rsum edot tri A neg dot pgraph capture D n s I = serve_jacobian fsum rsum edot tri A neg dot pgraph capture D n s' I /\
      serve_param_jacobian fsum rsum edot tri A neg dot pgraph capture D n s I = serve_param_jacobian fsum rsum edot tri A neg dot pgraph capture D n s' I /\
      serve_param_vjp fsum rsum edot tri A neg dot psum pgraph capture D n s I T = serve_param_vjp fsum rsum edot tri A neg dot psum pgraph capture D n s' I T /\
      serve_pool fsum rsum edot tri A graph capture D s I = serve_pool fsum rsum edot tri A graph capture D s' I /\
      pool_jvp fsum rsum edot tri A neg dot pgraph capture D s I T = pool_jvp fsum rsum edot tri A neg dot pgraph capture D s' I T /\
      pool_jacobian fsum rsum edot tri A neg dot pgraph capture D s I = pool_jacobian fsum rsum edot tri A neg dot pgraph capture D s' I /\
      pool_param_jacobian fsum rsum edot tri A neg dot pgraph capture D s I = pool_param_jacobian fsum rsum edot tri A neg dot pgraph capture D s' I /\
      pool_param_vjp fsum rsum edot tri A neg dot psum pgraph capture D s I T = pool_param_vjp fsum rsum edot tri A neg dot psum pgraph capture D s' I T.
Proof.
  intros * F So Ev An Vp. rewrite <- Ev in F. destruct (announced_like dflt s0 _ h P So F An Vp) as (hv & Kk & Nl & V1 & Sy). rewrite Ev in V1, Sy.
  exists hv. split; [exact Kk|]. split; [exact Nl|]. split; [exact V1|]. intros s s' I Ne n T. fold s in Sy. fold s' in Sy. clearbody s s'.
  destruct I as [|x I]; [destruct (Ne eq_refl)|].
  repeat split; unfold serve_forward, serve_pool, serve_jvp, serve_jacobian, serve_param_jacobian, serve_param_vjp, pool_jvp, pool_jacobian, pool_param_jacobian, pool_param_vjp, pool_of, after_sync; rewrite Sy; reflexivity.
Qed.
Print Assumptions C81_operations.

(** The case of C72, the batched parameter being a buffer of the program that is handed over, evaluated, and then filled with
    the values meant. *)
Definition stx_hist : list (sop F) :=
  [SNew cpu [3] [ftwo; ftwo; ftwo]; SSet "scale" (mkH 2 cpu [3] [0; 1; 2]); SEval; SWrite 2 (fun _ => [ftwo; ftwo; fnum 8 0]); SMut].
Example C81_forward_case : let s := mkSched true false [cpu] in sx_all s /\ announced false stx_hist = true /\
  exists D P0 st t, sx_load s = Ok D /\ sound (load_disp [] cpu [] P0) /\ valued ftwo (load_disp [] cpu [] P0) = fresh_of D /\
    visible (valued ftwo (srun ftwo (load_disp [] cpu [] P0) stx_hist)) = Some sx_params /\
    serve_forward sum0 sum0 kx_dot (fun _ b => b) vx_arith (fun _ => rx_graph) false D 2 (valued ftwo (srun ftwo (load_disp [] cpu [] P0) stx_hist)) sx_in' = (st, Done (Ok [("root", t)])) /\
    t_shape t = [3] /\ sx_near [fnum 2 0; fnum 5 0; fnum 6 0] t = true.
Proof.
  intros s. split; [apply sx_all_ok; [split; [discriminate|reflexivity]|repeat constructor]|]. split; [reflexivity|].
  destruct (sx_load s) as [D|] eqn:E; [|vm_compute in E; discriminate]. exists D. vm_compute in E. injection E as <-.
  exists [("c", mkT [] [ftwo] cpu); ("scale", mkT [] [fnum 1 0] cpu)]. do 2 eexists. split; [reflexivity|].
  split; [apply (load_sound ftwo)|]. split; [vm_compute; reflexivity|]. split; [vm_compute; reflexivity|]. split; [vm_compute; reflexivity|]. split; reflexivity.
Qed.
