(** Property C70: a compiled bundle loads from wherever it lies. *)
From Coq Require Import String.
From Verif Require Import Load SpecLoad LoadProofs Example_Load.
From Verif Require Import Base Tensor Spec SpecRename Rename Float Newton Example_Newton Krylov Broadcast FwdModel Example_Solved Runtime SpecRuntime RuntimeProofs Example_Krylov Example_Runtime
     Bundle SpecBundle BundleProofs Example_Bundle.
Local Open Scope string_scope.
Local Open Scope list_scope.

(** A stub reached by any path, and the artifact its path names from the stub's own directory: load_model() succeeds.  Each
    device of the scheduler has its model, made from the artifact and from the double precision packages of that kind of
    device; there are no others, and the first device is the active one. *)
Theorem C70_bundle : forall V C H N (of_int : Z -> V) trunc cast sdef kdef parse_json open_pkg (parse_hit : C -> result H) find_node (param : N -> _) fs cwd p name s root a,
  bundle parse_hit find_node param fs cwd p name root -> (forall x, s = Some x -> usable x) -> Forall compiled_for (devices_of s) ->
  (forall d, In d (devices_of s) -> holds kdef parse_json open_pkg fs root a d) ->
  exists D, load_model of_int trunc cast sdef kdef parse_json open_pkg parse_hit find_node param fs cwd p name s = Ok D /\
    (forall d, In d (devices_of s) -> runs cast sdef kdef fs D root a d) /\
    (forall d, dm_model D d <> None -> In d (devices_of s)) /\
    (forall d r, devices_of s = d :: r -> dm_model D d = Some (dm_active D)).
Proof.
  intros * B Us Cd Hh. destruct (bundle_loads of_int trunc cast sdef kdef parse_json open_pkg parse_hit find_node param fs cwd p name s root a B) as (D & E & D1 & D2); try assumption.
  { destruct s as [x|]; [apply Us; reflexivity|split; [discriminate|reflexivity]]. }
  exists D. split; [exact E|]. split; [|exact D2]. intros d Hd. destruct (D1 d Hd) as (m & A1 & A2 & A3 & A4 & _). exists m. auto.
Qed.
Print Assumptions C70_bundle.

(** Moved as a whole, to another directory or another machine, it gives the same models: the same description and the same
    packages, whatever the two paths by which the stubs are opened. *)
Theorem C70_portable : forall V C H N (of_int : Z -> V) trunc cast sdef kdef parse_json open_pkg (parse_hit : C -> result H) find_node (param : N -> _) s a
    fs1 cwd1 p1 name1 root1 fs2 cwd2 p2 name2 root2,
  bundle parse_hit find_node param fs1 cwd1 p1 name1 root1 -> bundle parse_hit find_node param fs2 cwd2 p2 name2 root2 -> same_below fs1 root1 fs2 root2 ->
  (forall x, s = Some x -> usable x) -> Forall compiled_for (devices_of s) -> (forall d, In d (devices_of s) -> holds kdef parse_json open_pkg fs1 root1 a d) ->
  exists D1 D2,
    load_model of_int trunc cast sdef kdef parse_json open_pkg parse_hit find_node param fs1 cwd1 p1 name1 s = Ok D1 /\
    load_model of_int trunc cast sdef kdef parse_json open_pkg parse_hit find_node param fs2 cwd2 p2 name2 s = Ok D2 /\
    forall d, In d (devices_of s) -> exists m1 m2, dm_model D1 d = Some m1 /\ dm_model D2 d = Some m2 /\
      md_loaded m1 = md_loaded m2 /\ forall x, plain x -> md_package m1 x = md_package m2 x.
Proof.
  intros * B1 B2 Sb Us Cd Hh.
  assert (Ug : usable (given_scheduler s)) by (destruct s as [x|]; [apply Us; reflexivity|split; [discriminate|reflexivity]]).
  assert (H2 : forall d, In d (devices_of s) -> holds kdef parse_json open_pkg fs2 root2 a d).
  { intros d Hd. destruct (Hh d Hd) as ((j & E1 & E2) & E3 & E4). split; [|split].
    - exists j. rewrite <- Sb. auto.
    - rewrite <- Sb. exact E3.
    - revert E4. apply artifact_mono. intros x (Px & c & Ec & Eo). split; [exact Px|]. exists c. unfold artifact_at in *. rewrite <- Sb. auto. }
  destruct (bundle_loads of_int trunc cast sdef kdef parse_json open_pkg parse_hit find_node param fs1 cwd1 p1 name1 s root1 a B1 Ug Cd Hh) as (D1 & L1 & M1 & _).
  destruct (bundle_loads of_int trunc cast sdef kdef parse_json open_pkg parse_hit find_node param fs2 cwd2 p2 name2 s root2 a B2 Ug Cd H2) as (D2 & L2 & M2 & _).
  exists D1, D2. split; [exact L1|]. split; [exact L2|]. intros d Hd. destruct (M1 d Hd) as (m1 & A1 & _ & _ & A4 & A5), (M2 d Hd) as (m2 & B1' & _ & _ & B4 & B5).
  exists m1, m2. split; [exact A1|]. split; [exact B1'|]. split; [rewrite A5 in B5; injection B5 as E; exact E|]. intros x Px. rewrite A4, B4 by exact Px. apply Sb.
Qed.
Print Assumptions C70_portable.

(** What runs on a device computes what the artifact says (C69). *)
Theorem C70_computes : forall C H N fsum rsum edot tri A graph (of_int : Z -> F) trunc cast sdef kdef parse_json open_pkg (parse_hit : C -> result H) find_node (param : N -> _) fs cwd p name s root a d,
  bundle parse_hit find_node param fs cwd p name root -> (forall x, s = Some x -> usable x) -> Forall compiled_for (devices_of s) ->
  (forall d, In d (devices_of s) -> holds kdef parse_json open_pkg fs root a d) -> consistent rsum edot tri graph sdef a -> In d (devices_of s) ->
  exists D m, load_model of_int trunc cast sdef kdef parse_json open_pkg parse_hit find_node param fs cwd p name s = Ok D /\ dm_model D d = Some m /\
    forall capture ov I I' out', overrides_ok ov -> inputs_ok a I -> renamed (boundary (ar_in a)) I I' ->
      model_forward fsum rsum edot tri A graph (md_loaded m) capture ov I' = Ok out' ->
      exists out, artifact_says fsum rsum edot tri A cast graph sdef "float64" d a ov I out /\ renamed (boundary (ar_out a)) out out'.
Proof.
  intros * B Us Cd Hh Co Hd. destruct (bundle_loads of_int trunc cast sdef kdef parse_json open_pkg parse_hit find_node param fs cwd p name s root a B) as (D & E & D1 & _); try assumption.
  { destruct s as [x|]; [apply Us; reflexivity|split; [discriminate|reflexivity]]. }
  destruct (D1 d Hd) as (m & A1 & _ & _ & _ & A5). exists D, m. split; [exact E|]. split; [exact A1|]. intros * Ho Hi R Ef.
  eapply (forward_meaning fsum rsum edot tri A of_int trunc cast (fun _ => Ok tt) graph sdef kdef "float64" d a); try eassumption.
  destruct (Hh d Hd) as (_ & _ & Ok_). revert Ok_. apply artifact_mono. reflexivity.
Qed.
Print Assumptions C70_computes.

(** Nothing else loads: when load_model() returns, the stub is a file that has the block, of that type, with a path; the
    metadata is in the directory the path leads to from the stub's, and each device's directory of packages exists, with every
    package the model uses in it. *)
Theorem C70_sound : forall V C H N (of_int : Z -> V) trunc cast sdef kdef parse_json open_pkg (parse_hit : C -> result H) find_node (param : N -> _) fs cwd p name s D,
  tree fs -> Forall compiled_for (devices_of s) ->
  load_model of_int trunc cast sdef kdef parse_json open_pkg parse_hit find_node param fs cwd p name s = Ok D ->
  exists root, bundle parse_hit find_node param fs cwd p name root /\ (forall x, s = Some x -> usable x) /\
    (forall d, In d (devices_of s) -> exists m j meta, dm_model D d = Some m /\ md_device m = d /\
      fs (root ++ ["metadata.json"]) = Some (File j) /\ parse_json j = Ok meta /\ fs (root ++ [d_type d; "float64"]) = Some Dir /\
      metadata_sound meta (md_loaded m) /\
      loaded_sound (fun x => plain x -> exists c, fs (artifact_at root d x) = Some (File c) /\ open_pkg c d = Ok tt) (md_loaded m)) /\
    (forall d, dm_model D d <> None -> In d (devices_of s)) /\ (forall d r, devices_of s = d :: r -> dm_model D d = Some (dm_active D)).
Proof.
  intros * T Cd E. destruct (load_model_sound of_int trunc cast sdef kdef parse_json open_pkg parse_hit find_node param fs cwd p name s D T E Cd) as (root & B & Us & R).
  exists root. split; [exact B|]. split; [|exact R]. intros x ->. exact Us.
Qed.
Print Assumptions C70_sound.

(** Each mistake is refused as a FatalError: no such stub or one that does not parse, no such block, a block of another type or
    without a path, a scheduler that cannot be used, no packages for the (first) device. *)
Theorem C70_refused : forall V C H N (of_int : Z -> V) trunc cast sdef kdef parse_json open_pkg (parse_hit : C -> result H) find_node (param : N -> _) fs cwd p name s,
  let refused := exists w, load_model of_int trunc cast sdef kdef parse_json open_pkg parse_hit find_node param fs cwd p name s = Err (Fatal w) in
  ((forall c, node_at fs cwd p <> Some (File c)) -> refused) /\
  (forall c, node_at fs cwd p = Some (File c) ->
    (forall e, parse_hit c = Err e -> (forall t, e <> OtherExn t) -> refused) /\
    forall h, parse_hit c = Ok h ->
      (find_node h ("Models/" ++ name)%string = None -> refused) /\
      forall n t, find_node h ("Models/" ++ name)%string = Some n -> param n "type" = Ok t ->
        (t <> Some "AOTIModel" -> refused) /\
        forall path, param n "artifact_path" = Ok path ->
          (path = None \/ path = Some "" -> refused) /\ (forall x, s = Some x -> ~ usable x -> refused)) /\
  forall root a d r j, bundle parse_hit find_node param fs cwd p name root -> (forall x, s = Some x -> usable x) -> devices_of s = d :: r -> compiled_for d ->
    fs (root ++ ["metadata.json"]) = Some (File j) -> parse_json j = Ok (write a) -> fs (root ++ [d_type d; "float64"]) <> Some Dir -> refused.
Proof.
  intros *. subst refused. split; [|split]; [unfold load_model|unfold load_model|].
  - intros Nf. destruct (node_at fs cwd p) as [[|c]|]; [eexists; reflexivity|destruct (Nf c eq_refl)|eexists; reflexivity].
  - intros c ->. split.
    + intros e -> Ne. destruct e; try (eexists; reflexivity). destruct (Ne tag eq_refl).
    + intros h ->. cbn [to_fatal bind]. split; [intros ->; eexists; reflexivity|]. intros n t -> ->. cbn [bind]. split.
      * intros Nt. destruct t as [t|]; [|eexists; reflexivity]. destruct (String.eqb_spec t "AOTIModel"); [congruence|]. eexists; reflexivity.
      * intros path Ep. cbn [bind]. assert (Ty : forall f : unit -> result (dispatched (V:=V) (C:=C)), (exists w, bind (assert_ (match t with Some t => String.eqb t "AOTIModel" | None => false end)
            "aoti::load_model: block has another type, expected 'AOTIModel'") f = Err (Fatal w)) \/ bind (assert_ (match t with Some t => String.eqb t "AOTIModel" | None => false end)
            "aoti::load_model: block has another type, expected 'AOTIModel'") f = f tt).
        { intros f. destruct (match t with Some t => String.eqb t "AOTIModel" | None => false end); [right; reflexivity|left; eexists; reflexivity]. }
        split.
        -- intros Hp. match goal with |- exists w, bind _ ?f = _ => destruct (Ty f) as [R|R] end; [exact R|]. rewrite R, Ep. cbn [bind]. destruct Hp as [->| ->]; eexists; reflexivity.
        -- intros x -> Nu. match goal with |- exists w, bind _ ?f = _ => destruct (Ty f) as [R|R] end; [exact R|]. rewrite R, Ep. cbn [bind].
           destruct (String.eqb (match path with Some p0 => p0 | None => "" end) ""); [eexists; reflexivity|]. cbn [negb assert_ bind open_dispatched].
           destruct (sd_async x || sd_sync x)%bool eqn:Us; [|eexists; reflexivity]. cbn [assert_ bind]. destruct (sd_devices x) as [|d l] eqn:Ed; [eexists; reflexivity|].
           destruct Nu. split; [rewrite Ed; discriminate|exact Us].
  - intros * B Us Ed Cd Ej Pj Nl. eapply leaf_missing; try eassumption. destruct s as [x|]; [apply Us; reflexivity|split; [discriminate|reflexivity]].
Qed.
Print Assumptions C70_refused.

(** Devices of other kinds are not refused though there are no packages for them: the packages of the cpu are loaded. *)
Theorem C70_device_refuted : exists d D m, ~ compiled_for d /\ (forall l, bx_tree (["m"; d_type d] ++ l) = None) /\
  load_model lx_of_int lx_trunc lx_cast lx_sdef lx_kdef bx_json bx_open bx_hit bx_find (bx_param "m") (under bx_home) ["home"; "u"] "aoti/m_aoti.i" "m" (Some (mkSched true false [d])) = Ok D /\
  dm_model D d = Some m /\ md_package m "f.pt2" = under bx_home (bx_home ++ ["m"; "cpu"; "float64"; "f.pt2"]).
Proof.
  exists (mkDev "mps" (-1)). do 2 eexists. split; [intros [E|E]; discriminate E|]. split; [intros [|a [|b [|]]]; reflexivity|]. split; [vm_compute; reflexivity|]. split; [vm_compute; reflexivity|]. vm_compute. reflexivity.
Qed.
Print Assumptions C70_device_refuted.

(** Around a model that is there: it alone, as it is, when the scheduler is synchronous and of the same kind of device. *)
Theorem C70_adopt : forall V C (m : model (V:=V) (C:=C)) d,
  (forall sy asy ds D, adopt (Some m) (Some (mkSched sy asy (d :: ds))) = Ok D -> sy = true /\ d_type d = d_type (md_device m) /\ dm_active D = m /\ dm_models D = [(md_device m, m)]) /\
  (d_type d = d_type (md_device m) -> exists D, adopt (Some m) (Some (mkSched true false [d])) = Ok D) /\
  (d_type d <> d_type (md_device m) -> exists w, adopt (Some m) (Some (mkSched true false [d])) = Err (Fatal w)).
Proof.
  intros *. split; [|split].
  - intros sy asy ds D. unfold adopt. cbn [sd_async sd_sync sd_devices]. destruct (asy || sy)%bool; [|discriminate]. cbn [assert_ bind]. destruct sy; [|discriminate]. cbn [assert_ bind].
    destruct (String.eqb_spec (d_type (md_device m)) (d_type d)) as [E|]; [|discriminate]. cbn [assert_ bind]. intros H. injection H as <-. repeat split. symmetry. exact E.
  - intros E. unfold adopt. cbn [sd_async sd_sync sd_devices orb assert_ bind]. rewrite E, String.eqb_refl. eexists. reflexivity.
  - intros E. unfold adopt. cbn [sd_async sd_sync sd_devices orb assert_ bind]. destruct (String.eqb_spec (d_type (md_device m)) (d_type d)); [congruence|]. eexists. reflexivity.
Qed.
Print Assumptions C70_adopt.
(** The device itself may be another one: the scheduler's second gpu, the work on the first. *)
Theorem C70_adopt_refuted : forall V C (l : loaded V) (f : string -> option (node C)), exists D,
  adopt (Some (mkModel (cuda 0) l f)) (Some (mkSched true false [cuda 1])) = Ok D /\ dm_model D (cuda 1) = None /\ md_device (dm_active D) = cuda 0.
Proof. intros. eexists. split; [reflexivity|]. split; reflexivity. Qed.
Print Assumptions C70_adopt_refuted.

(** The two installations of Example_Bundle.v, for a cpu and two gpus. *)
Definition bx_sched : scheduler := mkSched false true [cpu; cuda 0; cuda 1; cpu].
Example C70_case :
  bundle bx_hit bx_find (bx_param "m") (under bx_home) ["home"; "u"] "../u//aoti/./m_aoti.i" "m" (bx_home ++ ["m"]) /\
  same_below (under bx_home) (bx_home ++ ["m"]) (under bx_opt) (bx_opt ++ ["m"]) /\ usable bx_sched /\ Forall compiled_for (devices_of (Some bx_sched)) /\
  (forall d, In d (devices_of (Some bx_sched)) -> holds lx_kdef bx_json bx_open (under bx_home) (bx_home ++ ["m"]) (rx_artifact 0 25) d) /\
  exists D m, load_model lx_of_int lx_trunc lx_cast lx_sdef lx_kdef bx_json bx_open bx_hit bx_find (bx_param "m") (under bx_home) ["home"; "u"] "../u//aoti/./m_aoti.i" "m" (Some bx_sched) = Ok D /\
    map fst (dm_models D) = [cpu; cuda 0; cuda 1] /\ md_device (dm_active D) = cpu /\
    dm_model D (cuda 1) = Some m /\ md_package m "r.pt2" = Some (File (BPkg "r.pt2")).
Proof.
  split; [apply bx_bundle_home|]. split; [intros x; rewrite <- !app_assoc, !under_is; reflexivity|]. split; [split; [discriminate|reflexivity]|].
  assert (Cd : Forall compiled_for (devices_of (Some bx_sched))) by (repeat constructor; (left; reflexivity) || (right; reflexivity)).
  split; [exact Cd|]. split; [intros d Hd; apply bx_holds; rewrite Forall_forall in Cd; apply Cd, Hd|].
  do 2 eexists. split; [vm_compute; reflexivity|]. split; [reflexivity|]. split; [reflexivity|]. split; [vm_compute; reflexivity|]. vm_compute. reflexivity.
Qed.
Example C70_absolute_case : bundle bx_hit bx_find (bx_param "/opt/m") (under bx_opt) [] "opt/m_aoti.i" "m" (bx_opt ++ ["m"]).
Proof. apply bx_bundle_opt. Qed.
(** Without a scheduler the cpu; the packages for the gpu are not needed. *)
Definition bx_cpu_only (l : location) : option (node bx) := match l with "m" :: "cuda" :: _ => None | _ => bx_tree l end.
Example C70_default_case : (exists D, load_model lx_of_int lx_trunc lx_cast lx_sdef lx_kdef bx_json bx_open bx_hit bx_find (bx_param "m") bx_cpu_only [] "m_aoti.i" "m" None = Ok D /\ map fst (dm_models D) = [cpu]) /\
  exists w, load_model lx_of_int lx_trunc lx_cast lx_sdef lx_kdef bx_json bx_open bx_hit bx_find (bx_param "m") bx_cpu_only [] "m_aoti.i" "m" (Some (mkSched true false [cuda 0])) = Err (Fatal w).
Proof. split; [eexists; split; [vm_compute; reflexivity|reflexivity]|eexists; vm_compute; reflexivity]. Qed.
