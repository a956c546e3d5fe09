(** Property C82: settings of the Newton solver set at run time are those the model is solved with on every device. *)
From Coq Require Import String.
From Verif Require Import Load SpecLoad LoadProofs Example_Load.
From Verif Require Import Base Tensor Spec SpecMap SpecRename Rename Float Newton Example_Newton Krylov BatchChunk Dispatch SpecDispatch Params SpecParams ParamsProofs Broadcast FwdModel
     Example_Solved Substep Mat Runtime SpecRuntime RuntimeProofs Example_Krylov Example_Runtime Bundle SpecBundle BundleProofs Example_Bundle Serve SpecServe ServeProofs Example_Serve Prop_Serve ServeJac Eager Settings SpecSettings SettingsProofs.
Local Open Scope string_scope.
Local Open Scope list_scope.

(** A loaded model on which set_solver_config() was called any number of times, last with [c], and the model loaded from the
    artifact that was compiled with [c]: the same parameters at the beginning, and from any state of the parameters the same
    result, the same exception and the same state afterwards, of each of the five operations with a synchronous scheduler and of
    each chunk of a forward() with an asynchronous one.  Whether the linear solver is direct or matrix-free and the settings of
    the latter are as compiled. *)
Theorem C82_operations : forall C H N fsum rsum edot tri A neg dot psum graph (of_int : Z -> F) trunc cast sdef kdef json json' open_pkg (parse_hit : C -> result H) find_node (param : N -> _)
  fs fs' cwd cwd' p p' name name' s root root' a c cs,
  bundle parse_hit find_node param fs cwd p name root -> bundle parse_hit find_node param fs' cwd' p' name' root' -> (forall x, s = Some x -> usable x) -> Forall compiled_for (SpecBundle.devices_of s) ->
  (forall d, In d (SpecBundle.devices_of s) -> holds kdef json open_pkg fs root a d) -> (forall d, In d (SpecBundle.devices_of s) -> holds kdef json' open_pkg fs' root' (reconfigured c a) d) ->
  exists D0 D', load_model of_int trunc cast sdef kdef json open_pkg parse_hit find_node param fs cwd p name s = Ok D0 /\
    load_model of_int trunc cast sdef kdef json' open_pkg parse_hit find_node param fs' cwd' p' name' s = Ok D' /\
    let D := set_configs D0 (cs ++ [c]) in
    fresh_of D = fresh_of D0 /\ fresh_of D = fresh_of D' /\
    forall capture n st I T,
      serve_forward fsum rsum edot tri A graph capture D n st I = serve_forward fsum rsum edot tri A graph capture D' n st I /\
      serve_jvp fsum rsum edot tri A neg dot graph capture D n st I T = serve_jvp fsum rsum edot tri A neg dot graph capture D' n st I T /\
      serve_jacobian fsum rsum edot tri A neg dot graph capture D n st I = serve_jacobian fsum rsum edot tri A neg dot graph capture D' n st I /\
      serve_param_jacobian fsum rsum edot tri A neg dot graph capture D n st I = serve_param_jacobian fsum rsum edot tri A neg dot graph capture D' n st I /\
      serve_param_vjp fsum rsum edot tri A neg dot psum graph capture D n st I T = serve_param_vjp fsum rsum edot tri A neg dot psum graph capture D' n st I T /\
      let q := serve_pool fsum rsum edot tri A graph capture D st I in let q' := serve_pool fsum rsum edot tri A graph capture D' st I in
      fst q = fst q' /\
      match snd q, snd q' with
      | Ok (b, f), Ok (b', f') => b = b' /\ forall d z k, f d z k = f' d z k
      | Err e, Err e' => e = e'
      | _, _ => False
      end.
Proof.
  intros * B B' Us Cd Hh Hh'.
  assert (Ug : usable (given_scheduler s)) by (destruct s as [x|]; [exact (Us x eq_refl)|split; [discriminate|reflexivity]]).
  destruct (bundle_loads of_int trunc cast sdef kdef json open_pkg parse_hit find_node param fs cwd p name s root a B Ug Cd Hh) as (D0 & E & _).
  destruct (bundle_loads of_int trunc cast sdef kdef json' open_pkg parse_hit find_node param fs' cwd' p' name' s root' _ B' Ug Cd Hh') as (D' & E' & _).
  exists D0, D'. split; [exact E|]. split; [exact E'|]. cbv zeta. rewrite set_configs_last.
  pose proof (reconfigured_alike of_int trunc cast sdef kdef json json' open_pkg parse_hit find_node param fs fs' cwd cwd' p p' name name' s root root' c a D0 D' B B' Ug Cd Hh Hh' E E') as Al.
  split; [apply fresh_set|]. split; [exact (fresh_alike _ _ Al)|]. intros capture n st I T.
  split; [apply serve_forward_alike, Al|]. split; [apply serve_jvp_alike, Al|]. split; [apply serve_jacobian_alike, Al|].
  split; [apply serve_param_jacobian_alike, Al|]. split; [apply serve_param_vjp_alike, Al|]. apply serve_pool_alike, Al.
Qed.
Print Assumptions C82_operations.

(** The four derivative operations with an asynchronous scheduler. *)
Theorem C82_pool : forall C H N fsum rsum edot tri A neg dot psum graph (of_int : Z -> F) trunc cast sdef kdef json json' open_pkg (parse_hit : C -> result H) find_node (param : N -> _)
  fs fs' cwd cwd' p p' name name' s root root' a c cs D0 D',
  bundle parse_hit find_node param fs cwd p name root -> bundle parse_hit find_node param fs' cwd' p' name' root' -> (forall x, s = Some x -> usable x) -> Forall compiled_for (SpecBundle.devices_of s) ->
  (forall d, In d (SpecBundle.devices_of s) -> holds kdef json open_pkg fs root a d) -> (forall d, In d (SpecBundle.devices_of s) -> holds kdef json' open_pkg fs' root' (reconfigured c a) d) ->
  load_model of_int trunc cast sdef kdef json open_pkg parse_hit find_node param fs cwd p name s = Ok D0 ->
  load_model of_int trunc cast sdef kdef json' open_pkg parse_hit find_node param fs' cwd' p' name' s = Ok D' ->
  let D := set_configs D0 (cs ++ [c]) in forall capture st I T,
    starts_alike (pool_jvp fsum rsum edot tri A neg dot graph capture D st I T) (pool_jvp fsum rsum edot tri A neg dot graph capture D' st I T) /\
    starts_alike (pool_jacobian fsum rsum edot tri A neg dot graph capture D st I) (pool_jacobian fsum rsum edot tri A neg dot graph capture D' st I) /\
    starts_alike (pool_param_jacobian fsum rsum edot tri A neg dot graph capture D st I) (pool_param_jacobian fsum rsum edot tri A neg dot graph capture D' st I) /\
    starts_alike (pool_param_vjp fsum rsum edot tri A neg dot psum graph capture D st I T) (pool_param_vjp fsum rsum edot tri A neg dot psum graph capture D' st I T).
Proof.
  intros * B B' Us Cd Hh Hh' E E'.
  assert (Ug : usable (given_scheduler s)) by (destruct s as [x|]; [exact (Us x eq_refl)|split; [discriminate|reflexivity]]). cbv zeta. rewrite set_configs_last.
  pose proof (reconfigured_alike of_int trunc cast sdef kdef json json' open_pkg parse_hit find_node param fs fs' cwd cwd' p p' name name' s root root' c a D0 D' B B' Ug Cd Hh Hh' E E') as Al.
  intros capture st I T. split; [apply pool_jvp_alike, Al|]. split; [apply pool_jacobian_alike, Al|]. split; [apply pool_param_jacobian_alike, Al|apply pool_param_vjp_alike, Al].
Qed.
Print Assumptions C82_pool.

(** What forward() returns then is what the artifact compiled with these settings says, row by row, with the parameters visible
    now. *)
Theorem C82_forward : forall C H N fsum rsum edot tri A graph (of_int : Z -> F) trunc cast sdef kdef json json' open_pkg (parse_hit : C -> result H) find_node (param : N -> _)
  fs fs' cwd cwd' p p' name name' s root root' a c cs,
  bundle parse_hit find_node param fs cwd p name root -> bundle parse_hit find_node param fs' cwd' p' name' root' -> (forall x, s = Some x -> usable x) -> Forall compiled_for (SpecBundle.devices_of s) ->
  (forall d, In d (SpecBundle.devices_of s) -> holds kdef json open_pkg fs root a d) -> (forall d, In d (SpecBundle.devices_of s) -> holds kdef json' open_pkg fs' root' (reconfigured c a) d) ->
  (forall d, In d (SpecBundle.devices_of s) -> consistent rsum edot tri (graph d) sdef (reconfigured c a)) ->
  exists D0 d r, load_model of_int trunc cast sdef kdef json open_pkg parse_hit find_node param fs cwd p name s = Ok D0 /\ SpecBundle.devices_of s = d :: r /\
    let D := set_configs D0 (cs ++ [c]) in
    forall h P, keeps_keys h -> no_late h -> visible (prun (fresh_of D) h) = Some P -> all_on d P -> Forall (fun kt => wf (snd kt)) P ->
    forall capture n I I' b in_dev st out, inputs_ok a I -> renamed (boundary (ar_in a)) I I' -> contract b I' -> all_on in_dev I' -> I' <> [] -> (0 <= n < 2 ^ 63)%Z ->
      serve_forward fsum rsum edot tri A graph capture D n (prun (fresh_of D) h) I' = (st, Done (Ok out)) ->
      exists l rs nds, tiles 0 (Z.of_nat b) l /\ (forall x, In x l -> (snd x <= (if (n =? 0)%Z then Z.of_nat b else n))%Z) /\ ranks_of a nds /\
        Forall2 (fun x r => rows_say fsum rsum edot tri A cast graph sdef (reconfigured c a) nds P I b d (fst x) (snd x) r) l rs /\ in_place in_dev b l rs out.
Proof.
  intros * B B' Us Cd Hh Hh' Co.
  destruct (C82_operations C H N fsum rsum edot tri A (fun x => x) (fun _ _ => fone) (fun _ => fone) graph of_int trunc cast sdef kdef json json' open_pkg parse_hit find_node param
    fs fs' cwd cwd' p p' name name' s root root' a c cs B B' Us Cd Hh Hh') as (D0 & D' & E & E' & K).
  destruct (C72_forward _ _ _ fsum rsum edot tri A graph of_int trunc cast sdef kdef json' open_pkg parse_hit find_node param fs' cwd' p' name' s root' _ B' Us Cd Hh' Co) as (D1 & d & r & E1 & Es & Q).
  rewrite E' in E1. injection E1 as <-. exists D0, d, r. split; [exact E|]. split; [exact Es|]. cbv zeta in K |- *. destruct K as (_ & Ef & K).
  intros h P Kk Nl Vp Ap Wp capture n I I' b in_dev st out Ii R Ct On Ne Hn S. rewrite (proj1 (K capture n _ I' I')) in S. rewrite Ef in Vp, S.
  exact (Q h P Kk Nl Vp Ap Wp capture n I I' b in_dev st out Ii R Ct On Ne Hn S).
Qed.
Print Assumptions C82_forward.

(** The Python binding of a Model: counts that are no std::size_t raise a TypeError; otherwise the model solves with the
    configuration that newton_solve() has when given the same arguments, each in its own field, and nothing else is changed. *)
Theorem C82_binding : forall q m,
  (py_set_config q m = Err type_error <-> ~ (u64_range (pn_miters q) /\ u64_range (pn_ls_max_iters q))) /\
  forall m', py_set_config q m = Ok m' ->
    newton_args q = Ok (config_of (ld_cfg m')) /\
    ld_cfg m' = mkScfg (pn_atol q) (pn_rtol q) (pn_miters q) (pn_ls_type q) (pn_ls_max_iters q) (pn_ls_cutback q) (pn_ls_c q) (pn_del_tol q) /\
    with_config (ld_cfg m) m' = m.
Proof.
  intros q m. unfold py_set_config, newton_args, as_size, u64_range.
  destruct (Z.leb_spec 0 (pn_miters q)) as [L1|L1]; cbn [andb bind]; [|split; [split; [intros _ X; lia|reflexivity]|discriminate]].
  destruct (Z.ltb_spec (pn_miters q) (2 ^ 64)) as [L2|L2]; cbn [andb bind]; [|split; [split; [intros _ X; lia|reflexivity]|discriminate]].
  destruct (Z.leb_spec 0 (pn_ls_max_iters q)) as [L3|L3]; cbn [andb bind]; [|split; [split; [intros _ X; lia|reflexivity]|discriminate]].
  destruct (Z.ltb_spec (pn_ls_max_iters q) (2 ^ 64)) as [L4|L4]; cbn [andb bind]; [|split; [split; [intros _ X; lia|reflexivity]|discriminate]].
  split; [split; [discriminate|intros X; destruct X; lia]|]. intros m' E. injection E as <-. cbn [with_config ld_cfg]. unfold config_of.
  cbn [sc_atol sc_rtol sc_miters sc_ls_type sc_ls_max_iters sc_ls_cutback sc_ls_c sc_del_tol]. rewrite !Nat2Z.id, !Z2Nat.id by assumption.
  split; [reflexivity|]. split; [reflexivity|]. destruct m; reflexivity.
Qed.
Print Assumptions C82_binding.

(** The model of C72, compiled with 25 iterations.  One iteration is too few; set back, the roots are found as before. *)
Definition cx_json (c : bx) : result (json F) := match c with BMeta => Ok (write (rx_artifact 0 1)) | _ => Err (StdExn "parse_error") end.
Lemma cx_holds d : compiled_for d -> holds lx_kdef cx_json bx_open (under bx_home) (bx_home ++ ["m"]) (reconfigured (rx_newton 1) (rx_artifact 0 25)) d.
Proof.
  intros Cd. destruct (bx_holds bx_home d Cd) as ((j & Ej & Pj) & Dl & _). split; [|split; [exact Dl|]].
  - exists j. split; [exact Ej|]. destruct j; try discriminate Pj. reflexivity.
  - change (reconfigured (rx_newton 1) (rx_artifact 0 25)) with (rx_artifact 0 1). apply (artifact_mono lx_kdef (opens rx_open)); [|apply rx_ok; lia].
    intros s Es. unfold opens, rx_open in Es. destruct (mem_name s rx_pkgs) eqn:M; [|discriminate].
    assert (K : (String.eqb (d_type d) "cpu" || String.eqb (d_type d) "cuda")%bool = true) by (destruct Cd as [->| ->]; reflexivity).
    split; [apply bx_plain, M|]. exists (BPkg s). unfold artifact_at. rewrite <- app_assoc, under_is. cbn [app bx_tree]. unfold bx_leaf. rewrite K, M. split; reflexivity.
Qed.
Example C82_case : let s := mkSched true false [cpu] in sx_all s /\
  (forall d, In d [cpu] -> holds lx_kdef cx_json bx_open (under bx_home) (bx_home ++ ["m"]) (reconfigured (rx_newton 1) (rx_artifact 0 25)) d) /\
  consistent sum0 kx_dot (fun _ b => b) rx_graph lx_sdef (reconfigured (rx_newton 1) (rx_artifact 0 25)) /\
  exists D st st' w t, sx_load s = Ok D /\
    serve_forward sum0 sum0 kx_dot (fun _ b => b) vx_arith (fun _ => rx_graph) false (set_configs D [rx_newton 1]) 2 (prun (fresh_of D) sx_hist) sx_in' = (st', Done (Err (Convergence w))) /\
    serve_forward sum0 sum0 kx_dot (fun _ b => b) vx_arith (fun _ => rx_graph) false (set_configs D [rx_newton 1; rx_newton 25]) 2 (prun (fresh_of D) sx_hist) sx_in' = (st, Done (Ok [("root", t)])) /\
    sx_near [fnum 2 0; fnum 5 0; fnum 6 0] t = true.
Proof.
  intros s. split; [apply sx_all_ok; [split; [discriminate|reflexivity]|repeat constructor]|]. split; [intros d [<-|[]]; apply cx_holds; left; reflexivity|].
  split; [change (reconfigured (rx_newton 1) (rx_artifact 0 25)) with (rx_artifact 0 1); apply rx_consistent; lia|].
  destruct (sx_load s) as [D|] eqn:E; [|vm_compute in E; discriminate]. exists D. vm_compute in E. injection E as <-.
  do 4 eexists. split; [reflexivity|]. split; [vm_compute; reflexivity|]. split; [vm_compute; reflexivity|]. reflexivity.
Qed.
Example C82_binding_case : forall m, (exists m', py_set_config (mkPN (fnum 1 (-20)) (fnum 1 (-10)) 40 "STRONG_WOLFE" 3 (fnum 2 0) (fnum 1 (-10)) (fnum 1 (-20))) m = Ok m' /\ sc_miters (ld_cfg m') = 40%Z) /\
  py_set_config (mkPN (fnum 1 (-20)) (fnum 1 (-10)) (-1) "BACKTRACKING" 3 (fnum 2 0) (fnum 1 (-10)) (fnum 1 (-20))) m = Err type_error.
Proof. intros m. split; [eexists; split; reflexivity|reflexivity]. Qed.
