(** Property C72: a loaded model serves what its artifact says, row by row, whatever the scheduler. *)
From Coq Require Import String.
From Verif Require Import Load SpecLoad LoadProofs Example_Load.
From Verif Require Import Base Tensor Spec SpecMap SpecRename Rename Float Newton Example_Newton Krylov BatchChunk Dispatch SpecDispatch Params SpecParams ParamsProofs Sched SpecSched Async SpecAsync AsyncOp Broadcast FwdModel
     Example_Solved Substep Mat Runtime SpecRuntime RuntimeProofs Example_Krylov Example_Runtime Bundle SpecBundle BundleProofs Example_Bundle Example_Async Serve SpecServe ServeProofs Example_Serve.
Local Open Scope string_scope.
Local Open Scope list_scope.

(** load_model() and forward() with a synchronous scheduler of batch size [n], after any changes to the parameters: when it
    returns, the batch is cut into ranges of at most [n] rows, and the result has, in the place of each range, what the artifact
    says of these rows of the inputs on the active device with the parameters visible now, those given per batch element cut
    likewise. *)
Theorem C72_forward : forall C H N fsum rsum edot tri A graph (of_int : Z -> F) trunc cast sdef kdef parse_json open_pkg (parse_hit : C -> result H) find_node (param : N -> _) fs cwd p name s root a,
  bundle parse_hit find_node param fs cwd p name root -> (forall x, s = Some x -> usable x) -> Forall compiled_for (SpecBundle.devices_of s) ->
  (forall d, In d (SpecBundle.devices_of s) -> holds kdef parse_json open_pkg fs root a d) -> (forall d, In d (SpecBundle.devices_of s) -> consistent rsum edot tri (graph d) sdef a) ->
  exists D d r, load_model of_int trunc cast sdef kdef parse_json open_pkg parse_hit find_node param fs cwd p name s = Ok D /\ SpecBundle.devices_of s = d :: r /\
    forall h P, keeps_keys h -> no_late h -> visible (prun (fresh_of D) h) = Some P -> all_on d P -> Forall (fun kt => wf (snd kt)) P ->
    forall capture n I I' b in_dev st out, inputs_ok a I -> renamed (boundary (ar_in a)) I I' -> contract b I' -> all_on in_dev I' -> I' <> [] -> (0 <= n < 2 ^ 63)%Z ->
      serve_forward fsum rsum edot tri A graph capture D n (prun (fresh_of D) h) I' = (st, Done (Ok out)) ->
      exists l rs nds, tiles 0 (Z.of_nat b) l /\ (forall x, In x l -> (snd x <= (if (n =? 0)%Z then Z.of_nat b else n))%Z) /\ ranks_of a nds /\
        Forall2 (fun x r => rows_say fsum rsum edot tri A cast graph sdef a nds P I b d (fst x) (snd x) r) l rs /\ in_place in_dev b l rs out.
Proof.
  intros * B Us Cd Hh Co.
  assert (Ug : usable (given_scheduler s)) by (destruct s as [x|]; [apply Us; reflexivity|split; [discriminate|reflexivity]]).
  destruct (bundle_loads of_int trunc cast sdef kdef parse_json open_pkg parse_hit find_node param fs cwd p name s root a B Ug Cd Hh) as (D & Ld & _).
  destruct (served_active of_int trunc cast sdef kdef parse_json open_pkg parse_hit find_node param fs cwd p name s root a B Us Cd Hh D Ld) as (r & Es & _).
  exists D, (md_device (dm_active D)), r. split; [exact Ld|]. split; [exact Es|]. intros * Kk Nl Vp Ap Wp * Ii R Ct On Ne Hn E.
  destruct (served_sync fsum rsum edot tri A graph of_int trunc cast sdef kdef parse_json open_pkg parse_hit find_node param fs cwd p name s root a B Us Cd Hh D Ld capture Co h P I I' b in_dev Kk Nl Vp Ap Wp Ii R Ct On Ne n st out Hn E) as (l & rs & T & Bd & Fr & Ip). exists l, rs. eexists. split; [exact T|]. split; [exact Bd|]. split; [|split; [exact Fr|exact Ip]].
  apply (served_ranks of_int trunc cast sdef kdef parse_json open_pkg parse_hit find_node param fs cwd p name s root a B Us Cd Hh D Ld).
Qed.
Print Assumptions C72_forward.

(** With an asynchronous one, whatever the schedule: each range on a device of the pool and within its batch size. *)
Theorem C72_pool : forall C H N fsum rsum edot tri A graph (of_int : Z -> F) trunc cast sdef kdef parse_json open_pkg (parse_hit : C -> result H) find_node (param : N -> _) fs cwd p name s root a tbl,
  bundle parse_hit find_node param fs cwd p name root -> (forall x, s = Some x -> usable x) -> Forall compiled_for (SpecBundle.devices_of s) ->
  (forall d, In d (SpecBundle.devices_of s) -> holds kdef parse_json open_pkg fs root a d) -> (forall d, In d (SpecBundle.devices_of s) -> consistent rsum edot tri (graph d) sdef a) ->
  pool_ok tbl -> (forall t, In t tbl -> In (ds_dev t) (SpecBundle.devices_of s)) ->
  exists D d r, load_model of_int trunc cast sdef kdef parse_json open_pkg parse_hit find_node param fs cwd p name s = Ok D /\ SpecBundle.devices_of s = d :: r /\
    forall h P, keeps_keys h -> no_late h -> visible (prun (fresh_of D) h) = Some P -> all_on d P -> Forall (fun kt => wf (snd kt)) P ->
    forall capture I I' b in_dev, inputs_ok a I -> renamed (boundary (ar_in a)) I I' -> contract b I' -> all_on in_dev I' -> I' <> [] ->
    exists st f, serve_pool fsum rsum edot tri A graph capture D (prun (fresh_of D) h) I' = (st, Ok (Z.of_nat b, f)) /\
      forall run k ls rs0 out, finished_call run tbl k (Z.of_nat b) ls (Ok rs0) -> returns_only run k f -> async_forward (Ok rs0) = Ok out ->
      exists (l : list (device * (Z * Z))) rs nds, tiles 0 (Z.of_nat b) (map snd l) /\
        (forall x, In x l -> exists t, In t tbl /\ ds_dev t = fst x /\ (snd (snd x) <= ds_batch t)%Z) /\ ranks_of a nds /\
        Forall2 (fun x r => rows_say fsum rsum edot tri A cast graph sdef a nds P I b (fst x) (fst (snd x)) (snd (snd x)) r) l rs /\ in_place in_dev b (map snd l) rs out.
Proof.
  intros * B Us Cd Hh Co Po Ht.
  assert (Ug : usable (given_scheduler s)) by (destruct s as [x|]; [apply Us; reflexivity|split; [discriminate|reflexivity]]).
  destruct (bundle_loads of_int trunc cast sdef kdef parse_json open_pkg parse_hit find_node param fs cwd p name s root a B Ug Cd Hh) as (D & Ld & _).
  destruct (served_active of_int trunc cast sdef kdef parse_json open_pkg parse_hit find_node param fs cwd p name s root a B Us Cd Hh D Ld) as (r & Es & _).
  exists D, (md_device (dm_active D)), r. split; [exact Ld|]. split; [exact Es|]. intros * Kk Nl Vp Ap Wp * Ii R Ct On Ne.
  destruct (served_pool fsum rsum edot tri A graph of_int trunc cast sdef kdef parse_json open_pkg parse_hit find_node param fs cwd p name s root a B Us Cd Hh D Ld capture Co h P I I' b in_dev Kk Nl Vp Ap Wp Ii R Ct On Ne tbl Po Ht) as (f & Ef & Hf). do 2 eexists. split; [exact Ef|]. intros * Fc Ro E. destruct (Hf _ _ _ _ _ Fc Ro E) as (l & rs & T & Bd & Fr & Ip).
  exists l, rs. eexists. split; [exact T|]. split; [exact Bd|]. split; [|split; [exact Fr|exact Ip]]. apply (served_ranks of_int trunc cast sdef kdef parse_json open_pkg parse_hit find_node param fs cwd p name s root a B Us Cd Hh D Ld).
Qed.
Print Assumptions C72_pool.

(** The overrides of a chunk stand for the parameters of the same name, the others are those the Model holds: a call with them is
    a call without on the parameters so replaced. *)
Theorem C72_overrides : forall fsum rsum edot tri A graph capture (m : loaded F) d P ov I, incl (keys ov) (keys P) ->
  call_model fsum rsum edot tri A graph capture m d P (Some ov) I = call_model fsum rsum edot tri A graph capture m d (effective P ov) None I.
Proof. intros. apply overrides_effective. assumption. Qed.
Print Assumptions C72_overrides.

(** A call without inputs raises before anything else is done: the state is as before, copies of parameters on other devices that
    are out of date stay so. *)
Theorem C72_no_inputs : forall C fsum rsum edot tri A graph capture (D : dispatched (V:=F) (C:=C)) n s,
  (exists w, serve_forward fsum rsum edot tri A graph capture D n s [] = (s, Done (Err (Fatal w)))) /\
  exists w, serve_pool fsum rsum edot tri A graph capture D s [] = (s, Err (Fatal w)).
Proof. intros. split; eexists; reflexivity. Qed.
Print Assumptions C72_no_inputs.

Notation sx_load s := (load_model lx_of_int lx_trunc lx_cast lx_sdef lx_kdef bx_json bx_open bx_hit bx_find (bx_param "m") (under bx_home) ["home"; "u"] "../u//aoti/./m_aoti.i" "m" (Some s)).
Definition sx_all (s : scheduler) : Prop :=
  bundle bx_hit bx_find (bx_param "m") (under bx_home) ["home"; "u"] "../u//aoti/./m_aoti.i" "m" (bx_home ++ ["m"]) /\ usable s /\ Forall compiled_for (SpecBundle.devices_of (Some s)) /\
  (forall d, In d (SpecBundle.devices_of (Some s)) -> holds lx_kdef bx_json bx_open (under bx_home) (bx_home ++ ["m"]) (rx_artifact 0 25) d) /\
  consistent sum0 kx_dot (fun _ b => b) rx_graph lx_sdef (rx_artifact 0 25) /\ keeps_keys sx_hist /\ no_late sx_hist /\ all_on cpu sx_params /\ Forall (fun kt => wf (snd kt)) sx_params /\
  inputs_ok (rx_artifact 0 25) sx_in /\ renamed (boundary (ar_in (rx_artifact 0 25))) sx_in sx_in' /\ contract 3 sx_in' /\ all_on cpu sx_in'.
Lemma sx_all_ok s : usable s -> Forall compiled_for (sd_devices s) -> sx_all s.
Proof.
  intros Us Cd. split; [apply bx_bundle_home|]. split; [exact Us|]. split; [exact Cd|]. split; [intros d Hd; apply bx_holds; rewrite Forall_forall in Cd; apply Cd, Hd|].
  split; [apply rx_consistent; lia|]. split; [apply sx_keeps|]. split; [apply sx_no_late|]. split; [repeat constructor|]. split; [repeat constructor|].
  split; [apply sx_inputs|]. split; [apply sx_renamed|]. split; [apply sx_contract|]. repeat constructor.
Qed.
(** Two rows at a time. *)
Example C72_case : let s := mkSched true false [cpu] in sx_all s /\
  exists D st t, sx_load s = Ok D /\ visible (prun (fresh_of D) sx_hist) = Some sx_params /\
    serve_forward sum0 sum0 kx_dot (fun _ b => b) vx_arith (fun _ => rx_graph) false D 2 (prun (fresh_of D) sx_hist) sx_in' = (st, Done (Ok [("root", t)])) /\
    t_shape t = [3] /\ sx_near [fnum 2 0; fnum 5 0; fnum 6 0] t = true.
Proof.
  intros s. split; [apply sx_all_ok; [split; [discriminate|reflexivity]|repeat constructor]|].
  destruct (sx_load s) as [D|] eqn:E; [|vm_compute in E; discriminate]. exists D. vm_compute in E. injection E as <-.
  do 2 eexists. split; [reflexivity|]. split; [vm_compute; reflexivity|]. split; [vm_compute; reflexivity|]. split; reflexivity.
Qed.

Notation sx_pool D := (serve_pool sum0 sum0 kx_dot (fun _ b => b) vx_arith (fun _ => rx_graph) false D (prun (fresh_of D) sx_hist) sx_in').
Definition sx_ends (l : list act) (p : result (Z * (device -> Z -> Z -> result (smap (tensor F))))) : option (Z * result (smap (tensor F))) :=
  match p with
  | Ok (b, f) => match act_run f (new_call (ainit ex_tbl) 3) l with
                 | Some (_, s') => match a_main s' with MIdle (Some (Ok rs)) => Some (b, async_forward (Ok rs)) | _ => None end
                 | None => None
                 end
  | Err _ => None
  end.
Lemma sx_ends_ok l p b o : sx_ends l p = Some (b, o) -> exists f, p = Ok (b, f) /\
  exists ls rs, finished_call (det f) ex_tbl 1 (Z.of_nat 3) ls (Ok rs) /\ async_forward (Ok rs) = o.
Proof.
  unfold sx_ends. destruct p as [[b' f]|]; [|discriminate]. destruct (act_run f (new_call (ainit ex_tbl) 3) l) as [[ls s']|] eqn:E; [|discriminate].
  destruct (a_main s') as [[[rs|]|]| | | | | | | | | | | |] eqn:Em; try discriminate. intros [= <- <-]. exists f. split; [reflexivity|]. exists ls, rs.
  split; [eapply act_finished; [lia|exact E|exact Em]|reflexivity].
Qed.
Lemma sx_pool_run : match sx_load (mkSched false true [cpu; cuda 0]) with
  | Ok D => visible (prun (fresh_of D) sx_hist) = Some sx_params /\
            match sx_ends ex_sched (snd (sx_pool D)) with Some (b, Ok [(k, t)]) => b = 3%Z /\ k = "root" /\ t_shape t = [3] /\ sx_near [fnum 2 0; fnum 5 0; fnum 6 0] t = true | _ => False end
  | Err _ => False
  end.
Proof. vm_compute. repeat split. Qed.
(** The pool of two devices. *)
Example C72_pool_case : let s := mkSched false true [cpu; cuda 0] in sx_all s /\ pool_ok ex_tbl /\ (forall t, In t ex_tbl -> In (ds_dev t) (sd_devices s)) /\
  exists D st f, sx_load s = Ok D /\ visible (prun (fresh_of D) sx_hist) = Some sx_params /\
    serve_pool sum0 sum0 kx_dot (fun _ b => b) vx_arith (fun _ => rx_graph) false D (prun (fresh_of D) sx_hist) sx_in' = (st, Ok (Z.of_nat 3, f)) /\ returns_only (det f) 1 f /\
    exists ls rs t, finished_call (det f) ex_tbl 1 (Z.of_nat 3) ls (Ok rs) /\ async_forward (Ok rs) = Ok [("root", t)] /\ t_shape t = [3] /\ sx_near [fnum 2 0; fnum 5 0; fnum 6 0] t = true.
Proof.
  intros s. split; [apply sx_all_ok; [split; [discriminate|reflexivity]|constructor; [left; reflexivity|constructor; [right; reflexivity|constructor]]]|]. split; [exact ex_tbl_ok|].
  split; [intros t [<-|[<-|[]]]; vm_compute; auto|].
  pose proof sx_pool_run as R. fold s in R. destruct (sx_load s) as [D|]; [|destruct R]. destruct R as (V & R).
  destruct (sx_ends ex_sched (snd (sx_pool D))) as [[b [[|[k t] [|]]|]]|] eqn:E; try destruct R as (-> & -> & Sh & Nr); try destruct R.
  destruct (sx_ends_ok _ _ _ _ E) as (f & Ef & ls & rs & Fc & As). exists D, (fst (sx_pool D)), f. split; [reflexivity|]. split; [exact V|].
  split; [rewrite (surjective_pairing (sx_pool D)), Ef; reflexivity|]. split; [intros d x c v H; symmetry; exact H|].
  exists ls, rs, t. split; [exact Fc|]. split; [exact As|]. split; [exact Sh|exact Nr].
Qed.
(** The scale of one row only. *)
Example C72_overrides_case : incl (keys [("scale", mkT [] [fnum 8 0] cpu)]) (keys sx_params) /\
  exists D t, sx_load (mkSched true false [cpu]) = Ok D /\
    call_model sum0 sum0 kx_dot (fun _ b => b) vx_arith (fun _ => rx_graph) false (md_loaded (dm_active D)) cpu sx_params (Some [("scale", mkT [] [fnum 8 0] cpu)]) rx_in' = Ok [("root", t)] /\
    sx_near [fnum 4 0; fnum 10 0] t = true.
Proof.
  split; [intros k [<-|[]]; right; left; reflexivity|].
  destruct (sx_load (mkSched true false [cpu])) as [D|] eqn:E; [|vm_compute in E; discriminate]. exists D. vm_compute in E. injection E as <-.
  eexists. split; [reflexivity|]. split; vm_compute; reflexivity.
Qed.

(** Parameters changed since loading: a call without inputs raises and leaves the mark of the change for the next call. *)
Example C72_no_inputs_case : let s := mkSched true false [cpu] in exists D, sx_load s = Ok D /\
  let st := prun (fresh_of D) sx_hist in pd_dirty st = true /\
  serve_forward sum0 sum0 kx_dot (fun _ b => b) vx_arith (fun _ => rx_graph) false D 2 st [] = (st, Done (Err (Fatal "DispatchedModel::forward: inputs are empty."))).
Proof.
  intros s. destruct (sx_load s) as [D|] eqn:E; [|vm_compute in E; discriminate]. exists D. vm_compute in E. injection E as <-.
  split; [reflexivity|]. split; [vm_compute; reflexivity|reflexivity].
Qed.
