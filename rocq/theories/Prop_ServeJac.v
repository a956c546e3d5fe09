(** Property C74: a loaded model serves the derivatives its artifact says, row by row, whatever the scheduler. *)
From Coq Require Import String.
From Verif Require Import Load SpecLoad LoadProofs Example_Load.
From Verif Require Import Base Tensor Spec SpecMap SpecRename Rename Float Newton Example_Newton Krylov BatchChunk Dispatch SpecDispatch Params SpecParams ParamsProofs Sched SpecSched Async SpecAsync AsyncOp Broadcast FwdModel
     Example_Solved Substep Mat Jac JacModel ParamJac Runtime RuntimeParam SpecRuntime SpecRuntimeParam RuntimeProofs Example_Krylov Example_Runtime Example_RuntimeParam Bundle SpecBundle BundleProofs Example_Bundle Example_Async
     Serve SpecServe ServeProofs Example_Serve ServeJac SpecServeJac ServeJacProofs Example_ServeJac.
Local Open Scope string_scope.
Local Open Scope list_scope.

(** load_model() and jvp() with a synchronous scheduler of batch size [n], after any changes to the parameters: when it returns,
    the batch is cut into ranges of at most [n] rows, and values and products have, in the place of each range, those of the model
    that the artifact describes (C26, C28) on these rows of inputs and tangents, on the active device and at the parameters
    visible now, those given per batch element cut likewise; the values are what the artifact says. *)
Theorem C74_jvp : forall C H N fsum rsum edot tri A neg dot graph (of_int : Z -> F) trunc cast sdef kdef parse_json open_pkg (parse_hit : C -> result H) find_node (param : N -> _) fs cwd p name s root a,
  bundle parse_hit find_node param fs cwd p name root -> (forall x, s = Some x -> usable x) -> Forall compiled_for (SpecBundle.devices_of s) ->
  (forall d, In d (SpecBundle.devices_of s) -> holds kdef parse_json open_pkg fs root a d) -> (forall d, In d (SpecBundle.devices_of s) -> consistent rsum edot tri (graph d) sdef a) ->
  derivatives_consistent a -> (forall d, In d (SpecBundle.devices_of s) -> graphs_agree (graph d) a) ->
  exists D d r, load_model of_int trunc cast sdef kdef parse_json open_pkg parse_hit find_node param fs cwd p name s = Ok D /\ SpecBundle.devices_of s = d :: r /\
    forall h P, keeps_keys h -> no_late h -> visible (prun (fresh_of D) h) = Some P -> all_on d P -> Forall (fun kt => wf (snd kt)) P ->
    forall capture n I I' T T' b in_dev st out, inputs_ok a I -> renamed (boundary (ar_in a)) I I' -> Spec.contract b I' -> all_on in_dev I' -> I' <> [] -> (0 <= n < 2 ^ 63)%Z ->
      sorted T -> clash_free (ar_in a) (keys T) -> renamed (boundary (ar_in a)) T T' -> conforming b T' -> all_on in_dev T' ->
      serve_jvp fsum rsum edot tri A neg dot graph capture D n (prun (fresh_of D) h) I' T' = (st, Done (Ok out)) ->
      exists l rs nds, tiles 0 (Z.of_nat b) l /\ (forall x, In x l -> (snd x <= (if (n =? 0)%Z then Z.of_nat b else n))%Z) /\ ranks_of a nds /\
        Forall2 (fun x r => jvp_says fsum rsum edot tri A neg dot cast graph sdef a capture nds P I T b d (fst x) (snd x) r /\ values_say fsum rsum edot tri A cast graph sdef a nds P I b d (fst x) (snd x) (fst r)) l rs /\
        in_place in_dev b l (map fst rs) (fst out) /\ in_place in_dev b l (map snd rs) (snd out).
Proof.
  intros * B Us Cd Hh Co De Ga.
  assert (Ug : usable (given_scheduler s)) by (destruct s as [x|]; [apply Us; reflexivity|split; [discriminate|reflexivity]]).
  destruct (bundle_loads of_int trunc cast sdef kdef parse_json open_pkg parse_hit find_node param fs cwd p name s root a B Ug Cd Hh) as (D & Ld & _).
  destruct (served_active of_int trunc cast sdef kdef parse_json open_pkg parse_hit find_node param fs cwd p name s root a B Us Cd Hh D Ld) as (r & Es & _).
  exists D, (md_device (dm_active D)), r. split; [exact Ld|]. split; [exact Es|]. intros * Kk Nl Vp Ap Wp * Ii R Ct On Ne Hb Sw Cf Rw Cw Ow E.
  destruct (served_jvp fsum rsum edot tri A neg dot graph of_int trunc cast sdef kdef parse_json open_pkg parse_hit find_node param fs cwd p name s root a B Us Cd Hh D Ld capture Co h P I I' b in_dev Kk Nl Vp Ap Wp Ii R Ct On Ne De n st T T' out Hb Ga Sw Cf Rw Cw Ow E) as (l & rs & Tl & Bd & Fr & Ip & Iq).
  exists l, rs. do 1 eexists. split; [exact Tl|]. split; [exact Bd|].
  split; [exact (served_ranks of_int trunc cast sdef kdef parse_json open_pkg parse_hit find_node param fs cwd p name s root a B Us Cd Hh D Ld)|].
  split; [exact Fr|]. split; [exact Ip|exact Iq].
Qed.
Print Assumptions C74_jvp.

(** With an asynchronous one, whatever the schedule: each range on a device of the pool and within its batch size. *)
Theorem C74_pool_jvp : forall C H N fsum rsum edot tri A neg dot graph (of_int : Z -> F) trunc cast sdef kdef parse_json open_pkg (parse_hit : C -> result H) find_node (param : N -> _) fs cwd p name s root a tbl,
  bundle parse_hit find_node param fs cwd p name root -> (forall x, s = Some x -> usable x) -> Forall compiled_for (SpecBundle.devices_of s) ->
  (forall d, In d (SpecBundle.devices_of s) -> holds kdef parse_json open_pkg fs root a d) -> (forall d, In d (SpecBundle.devices_of s) -> consistent rsum edot tri (graph d) sdef a) ->
  derivatives_consistent a -> (forall d, In d (SpecBundle.devices_of s) -> graphs_agree (graph d) a) ->
  pool_ok tbl -> (forall t, In t tbl -> In (ds_dev t) (SpecBundle.devices_of s)) ->
  exists D d r, load_model of_int trunc cast sdef kdef parse_json open_pkg parse_hit find_node param fs cwd p name s = Ok D /\ SpecBundle.devices_of s = d :: r /\
    forall h P, keeps_keys h -> no_late h -> visible (prun (fresh_of D) h) = Some P -> all_on d P -> Forall (fun kt => wf (snd kt)) P ->
    forall capture I I' T T' b in_dev, inputs_ok a I -> renamed (boundary (ar_in a)) I I' -> Spec.contract b I' -> all_on in_dev I' -> I' <> [] ->
      sorted T -> clash_free (ar_in a) (keys T) -> renamed (boundary (ar_in a)) T T' -> conforming b T' ->
    exists st f g, pool_jvp fsum rsum edot tri A neg dot graph capture D (prun (fresh_of D) h) I' T' = (st, Ok ((Z.of_nat b, f), g)) /\
      forall run k ls rs0 out, finished_call run tbl k (Z.of_nat b) ls (Ok rs0) -> returns_only run k f -> g (Ok rs0) = Ok out ->
      exists (l : list (device * (Z * Z))) rs nds, tiles 0 (Z.of_nat b) (map snd l) /\
        (forall x, In x l -> exists t, In t tbl /\ ds_dev t = fst x /\ (snd (snd x) <= ds_batch t)%Z) /\ ranks_of a nds /\
        Forall2 (fun x r => jvp_says fsum rsum edot tri A neg dot cast graph sdef a capture nds P I T b (fst x) (fst (snd x)) (snd (snd x)) r /\ values_say fsum rsum edot tri A cast graph sdef a nds P I b (fst x) (fst (snd x)) (snd (snd x)) (fst r)) l rs /\
        in_place in_dev b (map snd l) (map fst rs) (fst out) /\ in_place in_dev b (map snd l) (map snd rs) (snd out).
Proof.
  intros * B Us Cd Hh Co De Ga Po Ht.
  assert (Ug : usable (given_scheduler s)) by (destruct s as [x|]; [apply Us; reflexivity|split; [discriminate|reflexivity]]).
  destruct (bundle_loads of_int trunc cast sdef kdef parse_json open_pkg parse_hit find_node param fs cwd p name s root a B Ug Cd Hh) as (D & Ld & _).
  destruct (served_active of_int trunc cast sdef kdef parse_json open_pkg parse_hit find_node param fs cwd p name s root a B Us Cd Hh D Ld) as (r & Es & _).
  exists D, (md_device (dm_active D)), r. split; [exact Ld|]. split; [exact Es|]. intros * Kk Nl Vp Ap Wp * Ii R Ct On Ne Sw Cf Rw Cw.
  destruct (pooled_jvp fsum rsum edot tri A neg dot graph of_int trunc cast sdef kdef parse_json open_pkg parse_hit find_node param fs cwd p name s root a B Us Cd Hh D Ld capture Co h P I I' b in_dev Kk Nl Vp Ap Wp Ii R Ct On Ne De tbl T T' Po Ht Ga Sw Cf Rw Cw) as (f & g & Ef & Hf). do 3 eexists. split; [exact Ef|].
  intros * Fc Ro E. destruct (Hf _ _ _ _ _ Fc Ro E) as (l & rs & Tl & Bd & Fr & Ip & Iq).
  exists l, rs. do 1 eexists. split; [exact Tl|]. split; [exact Bd|].
  split; [exact (served_ranks of_int trunc cast sdef kdef parse_json open_pkg parse_hit find_node param fs cwd p name s root a B Us Cd Hh D Ld)|].
  split; [exact Fr|]. split; [exact Ip|exact Iq].
Qed.
Print Assumptions C74_pool_jvp.

(** jacobian(): the values as before; a block that has a row per batch element has the rows of the ranges in place, and one that
    has the base axes only is that of the first range. *)
Theorem C74_jacobian : forall C H N fsum rsum edot tri A neg dot graph (of_int : Z -> F) trunc cast sdef kdef parse_json open_pkg (parse_hit : C -> result H) find_node (param : N -> _) fs cwd p name s root a,
  bundle parse_hit find_node param fs cwd p name root -> (forall x, s = Some x -> usable x) -> Forall compiled_for (SpecBundle.devices_of s) ->
  (forall d, In d (SpecBundle.devices_of s) -> holds kdef parse_json open_pkg fs root a d) -> (forall d, In d (SpecBundle.devices_of s) -> consistent rsum edot tri (graph d) sdef a) ->
  derivatives_consistent a -> (forall d, In d (SpecBundle.devices_of s) -> graphs_agree (graph d) a) -> named_pairs a -> NoDup (map op_name (ar_outputs a)) ->
  exists D d r, load_model of_int trunc cast sdef kdef parse_json open_pkg parse_hit find_node param fs cwd p name s = Ok D /\ SpecBundle.devices_of s = d :: r /\
    forall h P, keeps_keys h -> no_late h -> visible (prun (fresh_of D) h) = Some P -> all_on d P -> Forall (fun kt => wf (snd kt)) P ->
    forall capture n I I' b in_dev st out, inputs_ok a I -> renamed (boundary (ar_in a)) I I' -> Spec.contract b I' -> all_on in_dev I' -> I' <> [] -> (0 <= n < 2 ^ 63)%Z ->
      serve_jacobian fsum rsum edot tri A neg dot graph capture D n (prun (fresh_of D) h) I' = (st, Done (Ok out)) ->
      exists l rs nds onds inds, tiles 0 (Z.of_nat b) l /\ (forall x, In x l -> (snd x <= (if (n =? 0)%Z then Z.of_nat b else n))%Z) /\ ranks_of a nds /\ out_ranks_of a onds /\ in_ranks_of a inds /\
        Forall2 (fun x r => jacobian_says fsum rsum edot tri A neg dot cast graph sdef a capture nds P I b d (fst x) (snd x) r /\ values_say fsum rsum edot tri A cast graph sdef a nds P I b d (fst x) (snd x) (fst r)) l rs /\
        in_place in_dev b l (map fst rs) (fst out) /\ blocks_in_place in_dev b onds inds l (map snd rs) (snd out).
Proof.
  intros * B Us Cd Hh Co De Ga Hn Nd.
  assert (Ug : usable (given_scheduler s)) by (destruct s as [x|]; [apply Us; reflexivity|split; [discriminate|reflexivity]]).
  destruct (bundle_loads of_int trunc cast sdef kdef parse_json open_pkg parse_hit find_node param fs cwd p name s root a B Ug Cd Hh) as (D & Ld & _).
  destruct (served_active of_int trunc cast sdef kdef parse_json open_pkg parse_hit find_node param fs cwd p name s root a B Us Cd Hh D Ld) as (r & Es & _).
  exists D, (md_device (dm_active D)), r. split; [exact Ld|]. split; [exact Es|]. intros * Kk Nl Vp Ap Wp * Ii R Ct On Ne Hb E.
  destruct (served_jacobian fsum rsum edot tri A neg dot graph of_int trunc cast sdef kdef parse_json open_pkg parse_hit find_node param fs cwd p name s root a B Us Cd Hh D Ld capture Co h P I I' b in_dev Kk Nl Vp Ap Wp Ii R Ct On Ne De n st out Hb Ga Hn E) as (l & rs & Tl & Bd & (Fr & Ip & Iq) & Ir).
  exists l, rs. do 3 eexists. split; [exact Tl|]. split; [exact Bd|].
  split; [exact (served_ranks of_int trunc cast sdef kdef parse_json open_pkg parse_hit find_node param fs cwd p name s root a B Us Cd Hh D Ld)|].
  split; [exact (ranks_are rsum edot tri graph of_int trunc cast sdef kdef parse_json open_pkg parse_hit find_node param fs cwd p name s root a B Us Cd Hh D Ld Co h Nd)|].
  split; [exact Ir|].
  split; [exact Fr|]. split; [exact Ip|exact Iq].
Qed.
Print Assumptions C74_jacobian.

(** On the pool. *)
Theorem C74_pool_jacobian : forall C H N fsum rsum edot tri A neg dot graph (of_int : Z -> F) trunc cast sdef kdef parse_json open_pkg (parse_hit : C -> result H) find_node (param : N -> _) fs cwd p name s root a tbl,
  bundle parse_hit find_node param fs cwd p name root -> (forall x, s = Some x -> usable x) -> Forall compiled_for (SpecBundle.devices_of s) ->
  (forall d, In d (SpecBundle.devices_of s) -> holds kdef parse_json open_pkg fs root a d) -> (forall d, In d (SpecBundle.devices_of s) -> consistent rsum edot tri (graph d) sdef a) ->
  derivatives_consistent a -> (forall d, In d (SpecBundle.devices_of s) -> graphs_agree (graph d) a) -> named_pairs a -> NoDup (map op_name (ar_outputs a)) ->
  pool_ok tbl -> (forall t, In t tbl -> In (ds_dev t) (SpecBundle.devices_of s)) ->
  exists D d r, load_model of_int trunc cast sdef kdef parse_json open_pkg parse_hit find_node param fs cwd p name s = Ok D /\ SpecBundle.devices_of s = d :: r /\
    forall h P, keeps_keys h -> no_late h -> visible (prun (fresh_of D) h) = Some P -> all_on d P -> Forall (fun kt => wf (snd kt)) P ->
    forall capture I I' b in_dev, inputs_ok a I -> renamed (boundary (ar_in a)) I I' -> Spec.contract b I' -> all_on in_dev I' -> I' <> [] ->
    exists st f g, pool_jacobian fsum rsum edot tri A neg dot graph capture D (prun (fresh_of D) h) I' = (st, Ok ((Z.of_nat b, f), g)) /\
      forall run k ls rs0 out, finished_call run tbl k (Z.of_nat b) ls (Ok rs0) -> returns_only run k f -> g (Ok rs0) = Ok out ->
      exists (l : list (device * (Z * Z))) rs nds onds inds, tiles 0 (Z.of_nat b) (map snd l) /\
        (forall x, In x l -> exists t, In t tbl /\ ds_dev t = fst x /\ (snd (snd x) <= ds_batch t)%Z) /\ ranks_of a nds /\ out_ranks_of a onds /\ in_ranks_of a inds /\
        Forall2 (fun x r => jacobian_says fsum rsum edot tri A neg dot cast graph sdef a capture nds P I b (fst x) (fst (snd x)) (snd (snd x)) r /\ values_say fsum rsum edot tri A cast graph sdef a nds P I b (fst x) (fst (snd x)) (snd (snd x)) (fst r)) l rs /\
        in_place in_dev b (map snd l) (map fst rs) (fst out) /\ blocks_in_place in_dev b onds inds (map snd l) (map snd rs) (snd out).
Proof.
  intros * B Us Cd Hh Co De Ga Hn Nd Po Ht.
  assert (Ug : usable (given_scheduler s)) by (destruct s as [x|]; [apply Us; reflexivity|split; [discriminate|reflexivity]]).
  destruct (bundle_loads of_int trunc cast sdef kdef parse_json open_pkg parse_hit find_node param fs cwd p name s root a B Ug Cd Hh) as (D & Ld & _).
  destruct (served_active of_int trunc cast sdef kdef parse_json open_pkg parse_hit find_node param fs cwd p name s root a B Us Cd Hh D Ld) as (r & Es & _).
  exists D, (md_device (dm_active D)), r. split; [exact Ld|]. split; [exact Es|]. intros * Kk Nl Vp Ap Wp * Ii R Ct On Ne.
  destruct (pooled_jacobian fsum rsum edot tri A neg dot graph of_int trunc cast sdef kdef parse_json open_pkg parse_hit find_node param fs cwd p name s root a B Us Cd Hh D Ld capture Co h P I I' b in_dev Kk Nl Vp Ap Wp Ii R Ct On Ne De tbl Po Ht Ga Hn) as (f & g & Ef & Hf). do 3 eexists. split; [exact Ef|].
  intros * Fc Ro E. destruct (Hf _ _ _ _ _ Fc Ro E) as (l & rs & Tl & Bd & (Fr & Ip & Iq) & Ir).
  exists l, rs. do 3 eexists. split; [exact Tl|]. split; [exact Bd|].
  split; [exact (served_ranks of_int trunc cast sdef kdef parse_json open_pkg parse_hit find_node param fs cwd p name s root a B Us Cd Hh D Ld)|].
  split; [exact (ranks_are rsum edot tri graph of_int trunc cast sdef kdef parse_json open_pkg parse_hit find_node param fs cwd p name s root a B Us Cd Hh D Ld Co h Nd)|].
  split; [exact Ir|].
  split; [exact Fr|]. split; [exact Ip|exact Iq].
Qed.
Print Assumptions C74_pool_jacobian.

(** param_jacobian(): likewise, with the parameters in the place of the inputs; the values unless a segment substeps or the first
    input has sub-batch axes (C56). *)
Theorem C74_param_jacobian : forall C H N fsum rsum edot tri A neg dot graph (of_int : Z -> F) trunc cast sdef kdef parse_json open_pkg (parse_hit : C -> result H) find_node (param : N -> _) fs cwd p name s root a,
  bundle parse_hit find_node param fs cwd p name root -> (forall x, s = Some x -> usable x) -> Forall compiled_for (SpecBundle.devices_of s) ->
  (forall d, In d (SpecBundle.devices_of s) -> holds kdef parse_json open_pkg fs root a d) -> (forall d, In d (SpecBundle.devices_of s) -> consistent rsum edot tri (graph d) sdef a) ->
  derivatives_consistent a -> param_derivatives_consistent a -> (forall d, In d (SpecBundle.devices_of s) -> graphs_agree (graph d) a) -> named_params a -> NoDup (map op_name (ar_outputs a)) ->
  exists D d r, load_model of_int trunc cast sdef kdef parse_json open_pkg parse_hit find_node param fs cwd p name s = Ok D /\ SpecBundle.devices_of s = d :: r /\
    forall h P, keeps_keys h -> no_late h -> visible (prun (fresh_of D) h) = Some P -> all_on d P -> Forall (fun kt => wf (snd kt)) P ->
    forall capture n I I' b in_dev st out, inputs_ok a I -> renamed (boundary (ar_in a)) I I' -> Spec.contract b I' -> all_on in_dev I' -> I' <> [] -> (0 <= n < 2 ^ 63)%Z ->
      serve_param_jacobian fsum rsum edot tri A neg dot graph capture D n (prun (fresh_of D) h) I' = (st, Done (Ok out)) ->
      exists l rs nds onds, tiles 0 (Z.of_nat b) l /\ (forall x, In x l -> (snd x <= (if (n =? 0)%Z then Z.of_nat b else n))%Z) /\ ranks_of a nds /\ out_ranks_of a onds /\
        Forall2 (fun x r => param_jacobian_says fsum rsum edot tri A neg dot cast graph sdef a capture nds P I b d (fst x) (snd x) r /\ (plain_values a -> values_say fsum rsum edot tri A cast graph sdef a nds P I b d (fst x) (snd x) (fst r))) l rs /\
        in_place in_dev b l (map fst rs) (fst out) /\ blocks_in_place in_dev b onds nds l (map snd rs) (snd out).
Proof.
  intros * B Us Cd Hh Co De Pc Ga Hn Nd.
  assert (Ug : usable (given_scheduler s)) by (destruct s as [x|]; [apply Us; reflexivity|split; [discriminate|reflexivity]]).
  destruct (bundle_loads of_int trunc cast sdef kdef parse_json open_pkg parse_hit find_node param fs cwd p name s root a B Ug Cd Hh) as (D & Ld & _).
  destruct (served_active of_int trunc cast sdef kdef parse_json open_pkg parse_hit find_node param fs cwd p name s root a B Us Cd Hh D Ld) as (r & Es & _).
  exists D, (md_device (dm_active D)), r. split; [exact Ld|]. split; [exact Es|]. intros * Kk Nl Vp Ap Wp * Ii R Ct On Ne Hb E.
  destruct (served_param_jacobian fsum rsum edot tri A neg dot graph of_int trunc cast sdef kdef parse_json open_pkg parse_hit find_node param fs cwd p name s root a B Us Cd Hh D Ld capture Co h P I I' b in_dev Kk Nl Vp Ap Wp Ii R Ct On Ne De n st out Hb Ga Pc Hn E) as (l & rs & Tl & Bd & Fr & Ip & Iq).
  exists l, rs. do 2 eexists. split; [exact Tl|]. split; [exact Bd|].
  split; [exact (served_ranks of_int trunc cast sdef kdef parse_json open_pkg parse_hit find_node param fs cwd p name s root a B Us Cd Hh D Ld)|].
  split; [exact (ranks_are rsum edot tri graph of_int trunc cast sdef kdef parse_json open_pkg parse_hit find_node param fs cwd p name s root a B Us Cd Hh D Ld Co h Nd)|].
  split; [exact Fr|]. split; [exact Ip|exact Iq].
Qed.
Print Assumptions C74_param_jacobian.

(** On the pool. *)
Theorem C74_pool_param_jacobian : forall C H N fsum rsum edot tri A neg dot graph (of_int : Z -> F) trunc cast sdef kdef parse_json open_pkg (parse_hit : C -> result H) find_node (param : N -> _) fs cwd p name s root a tbl,
  bundle parse_hit find_node param fs cwd p name root -> (forall x, s = Some x -> usable x) -> Forall compiled_for (SpecBundle.devices_of s) ->
  (forall d, In d (SpecBundle.devices_of s) -> holds kdef parse_json open_pkg fs root a d) -> (forall d, In d (SpecBundle.devices_of s) -> consistent rsum edot tri (graph d) sdef a) ->
  derivatives_consistent a -> param_derivatives_consistent a -> (forall d, In d (SpecBundle.devices_of s) -> graphs_agree (graph d) a) -> named_params a -> NoDup (map op_name (ar_outputs a)) ->
  pool_ok tbl -> (forall t, In t tbl -> In (ds_dev t) (SpecBundle.devices_of s)) ->
  exists D d r, load_model of_int trunc cast sdef kdef parse_json open_pkg parse_hit find_node param fs cwd p name s = Ok D /\ SpecBundle.devices_of s = d :: r /\
    forall h P, keeps_keys h -> no_late h -> visible (prun (fresh_of D) h) = Some P -> all_on d P -> Forall (fun kt => wf (snd kt)) P ->
    forall capture I I' b in_dev, inputs_ok a I -> renamed (boundary (ar_in a)) I I' -> Spec.contract b I' -> all_on in_dev I' -> I' <> [] ->
    exists st f g, pool_param_jacobian fsum rsum edot tri A neg dot graph capture D (prun (fresh_of D) h) I' = (st, Ok ((Z.of_nat b, f), g)) /\
      forall run k ls rs0 out, finished_call run tbl k (Z.of_nat b) ls (Ok rs0) -> returns_only run k f -> g (Ok rs0) = Ok out ->
      exists (l : list (device * (Z * Z))) rs nds onds, tiles 0 (Z.of_nat b) (map snd l) /\
        (forall x, In x l -> exists t, In t tbl /\ ds_dev t = fst x /\ (snd (snd x) <= ds_batch t)%Z) /\ ranks_of a nds /\ out_ranks_of a onds /\
        Forall2 (fun x r => param_jacobian_says fsum rsum edot tri A neg dot cast graph sdef a capture nds P I b (fst x) (fst (snd x)) (snd (snd x)) r /\ (plain_values a -> values_say fsum rsum edot tri A cast graph sdef a nds P I b (fst x) (fst (snd x)) (snd (snd x)) (fst r))) l rs /\
        in_place in_dev b (map snd l) (map fst rs) (fst out) /\ blocks_in_place in_dev b onds nds (map snd l) (map snd rs) (snd out).
Proof.
  intros * B Us Cd Hh Co De Pc Ga Hn Nd Po Ht.
  assert (Ug : usable (given_scheduler s)) by (destruct s as [x|]; [apply Us; reflexivity|split; [discriminate|reflexivity]]).
  destruct (bundle_loads of_int trunc cast sdef kdef parse_json open_pkg parse_hit find_node param fs cwd p name s root a B Ug Cd Hh) as (D & Ld & _).
  destruct (served_active of_int trunc cast sdef kdef parse_json open_pkg parse_hit find_node param fs cwd p name s root a B Us Cd Hh D Ld) as (r & Es & _).
  exists D, (md_device (dm_active D)), r. split; [exact Ld|]. split; [exact Es|]. intros * Kk Nl Vp Ap Wp * Ii R Ct On Ne.
  destruct (pooled_param_jacobian fsum rsum edot tri A neg dot graph of_int trunc cast sdef kdef parse_json open_pkg parse_hit find_node param fs cwd p name s root a B Us Cd Hh D Ld capture Co h P I I' b in_dev Kk Nl Vp Ap Wp Ii R Ct On Ne De tbl Po Ht Ga Pc Hn) as (f & g & Ef & Hf). do 3 eexists. split; [exact Ef|].
  intros * Fc Ro E. destruct (Hf _ _ _ _ _ Fc Ro E) as (l & rs & Tl & Bd & Fr & Ip & Iq).
  exists l, rs. do 2 eexists. split; [exact Tl|]. split; [exact Bd|].
  split; [exact (served_ranks of_int trunc cast sdef kdef parse_json open_pkg parse_hit find_node param fs cwd p name s root a B Us Cd Hh D Ld)|].
  split; [exact (ranks_are rsum edot tri graph of_int trunc cast sdef kdef parse_json open_pkg parse_hit find_node param fs cwd p name s root a B Us Cd Hh D Ld Co h Nd)|].
  split; [exact Fr|]. split; [exact Ip|exact Iq].
Qed.
Print Assumptions C74_pool_param_jacobian.

(** param_vjp(): the gradient by a parameter given per batch element has the rows of the ranges in place, any other is the sum over
    the ranges. *)
Theorem C74_param_vjp : forall C H N fsum rsum edot tri A neg dot psum graph (of_int : Z -> F) trunc cast sdef kdef parse_json open_pkg (parse_hit : C -> result H) find_node (param : N -> _) fs cwd p name s root a,
  bundle parse_hit find_node param fs cwd p name root -> (forall x, s = Some x -> usable x) -> Forall compiled_for (SpecBundle.devices_of s) ->
  (forall d, In d (SpecBundle.devices_of s) -> holds kdef parse_json open_pkg fs root a d) -> (forall d, In d (SpecBundle.devices_of s) -> consistent rsum edot tri (graph d) sdef a) ->
  derivatives_consistent a -> param_derivatives_consistent a -> named_params a ->
  exists D d r, load_model of_int trunc cast sdef kdef parse_json open_pkg parse_hit find_node param fs cwd p name s = Ok D /\ SpecBundle.devices_of s = d :: r /\
    forall h P, keeps_keys h -> no_late h -> visible (prun (fresh_of D) h) = Some P -> all_on d P -> Forall (fun kt => wf (snd kt)) P ->
    forall capture n I I' W W' b in_dev st out, inputs_ok a I -> renamed (boundary (ar_in a)) I I' -> Spec.contract b I' -> all_on in_dev I' -> I' <> [] -> (0 <= n < 2 ^ 63)%Z ->
      sorted W -> clash_free (ar_out a) (keys W) -> renamed (boundary (ar_out a)) W W' -> conforming b W' -> all_on in_dev W' ->
      serve_param_vjp fsum rsum edot tri A neg dot psum graph capture D n (prun (fresh_of D) h) I' W' = (st, Done (Ok out)) ->
      exists l rs nds, tiles 0 (Z.of_nat b) l /\ (forall x, In x l -> (snd x <= (if (n =? 0)%Z then Z.of_nat b else n))%Z) /\ ranks_of a nds /\
        Forall2 (fun x r => param_vjp_says fsum rsum edot tri A neg dot psum cast graph sdef a capture nds P I W b d (fst x) (snd x) r) l rs /\
        gradients_together (a_add A) in_dev b nds P l rs out.
Proof.
  intros * B Us Cd Hh Co De Pc Hn.
  assert (Ug : usable (given_scheduler s)) by (destruct s as [x|]; [apply Us; reflexivity|split; [discriminate|reflexivity]]).
  destruct (bundle_loads of_int trunc cast sdef kdef parse_json open_pkg parse_hit find_node param fs cwd p name s root a B Ug Cd Hh) as (D & Ld & _).
  destruct (served_active of_int trunc cast sdef kdef parse_json open_pkg parse_hit find_node param fs cwd p name s root a B Us Cd Hh D Ld) as (r & Es & _).
  exists D, (md_device (dm_active D)), r. split; [exact Ld|]. split; [exact Es|]. intros * Kk Nl Vp Ap Wp * Ii R Ct On Ne Hb Sw Cf Rw Cw Ow E.
  destruct (served_param_vjp fsum rsum edot tri A neg dot psum graph of_int trunc cast sdef kdef parse_json open_pkg parse_hit find_node param fs cwd p name s root a B Us Cd Hh D Ld capture Co h P I I' b in_dev Kk Nl Vp Ap Wp Ii R Ct On Ne De n st W W' out Hb Pc Hn Sw Cf Rw Cw Ow E) as (l & rs & Tl & Bd & Fr & Ip).
  exists l, rs. do 1 eexists. split; [exact Tl|]. split; [exact Bd|].
  split; [exact (served_ranks of_int trunc cast sdef kdef parse_json open_pkg parse_hit find_node param fs cwd p name s root a B Us Cd Hh D Ld)|].
  split; [exact Fr|]. exact Ip.
Qed.
Print Assumptions C74_param_vjp.

(** On the pool. *)
Theorem C74_pool_param_vjp : forall C H N fsum rsum edot tri A neg dot psum graph (of_int : Z -> F) trunc cast sdef kdef parse_json open_pkg (parse_hit : C -> result H) find_node (param : N -> _) fs cwd p name s root a tbl,
  bundle parse_hit find_node param fs cwd p name root -> (forall x, s = Some x -> usable x) -> Forall compiled_for (SpecBundle.devices_of s) ->
  (forall d, In d (SpecBundle.devices_of s) -> holds kdef parse_json open_pkg fs root a d) -> (forall d, In d (SpecBundle.devices_of s) -> consistent rsum edot tri (graph d) sdef a) ->
  derivatives_consistent a -> param_derivatives_consistent a -> named_params a ->
  pool_ok tbl -> (forall t, In t tbl -> In (ds_dev t) (SpecBundle.devices_of s)) ->
  exists D d r, load_model of_int trunc cast sdef kdef parse_json open_pkg parse_hit find_node param fs cwd p name s = Ok D /\ SpecBundle.devices_of s = d :: r /\
    forall h P, keeps_keys h -> no_late h -> visible (prun (fresh_of D) h) = Some P -> all_on d P -> Forall (fun kt => wf (snd kt)) P ->
    forall capture I I' W W' b in_dev, inputs_ok a I -> renamed (boundary (ar_in a)) I I' -> Spec.contract b I' -> all_on in_dev I' -> I' <> [] ->
      sorted W -> clash_free (ar_out a) (keys W) -> renamed (boundary (ar_out a)) W W' -> conforming b W' ->
    exists st f g, pool_param_vjp fsum rsum edot tri A neg dot psum graph capture D (prun (fresh_of D) h) I' W' = (st, Ok ((Z.of_nat b, f), g)) /\
      forall run k ls rs0 out, finished_call run tbl k (Z.of_nat b) ls (Ok rs0) -> returns_only run k f -> g (Ok rs0) = Ok out ->
      exists (l : list (device * (Z * Z))) rs nds, tiles 0 (Z.of_nat b) (map snd l) /\
        (forall x, In x l -> exists t, In t tbl /\ ds_dev t = fst x /\ (snd (snd x) <= ds_batch t)%Z) /\ ranks_of a nds /\
        Forall2 (fun x r => param_vjp_says fsum rsum edot tri A neg dot psum cast graph sdef a capture nds P I W b (fst x) (fst (snd x)) (snd (snd x)) r) l rs /\
        gradients_together (a_add A) in_dev b nds P (map snd l) rs out.
Proof.
  intros * B Us Cd Hh Co De Pc Hn Po Ht.
  assert (Ug : usable (given_scheduler s)) by (destruct s as [x|]; [apply Us; reflexivity|split; [discriminate|reflexivity]]).
  destruct (bundle_loads of_int trunc cast sdef kdef parse_json open_pkg parse_hit find_node param fs cwd p name s root a B Ug Cd Hh) as (D & Ld & _).
  destruct (served_active of_int trunc cast sdef kdef parse_json open_pkg parse_hit find_node param fs cwd p name s root a B Us Cd Hh D Ld) as (r & Es & _).
  exists D, (md_device (dm_active D)), r. split; [exact Ld|]. split; [exact Es|]. intros * Kk Nl Vp Ap Wp * Ii R Ct On Ne Sw Cf Rw Cw.
  destruct (pooled_param_vjp fsum rsum edot tri A neg dot psum graph of_int trunc cast sdef kdef parse_json open_pkg parse_hit find_node param fs cwd p name s root a B Us Cd Hh D Ld capture Co h P I I' b in_dev Kk Nl Vp Ap Wp Ii R Ct On Ne De tbl W W' Po Ht Pc Hn Sw Cf Rw Cw) as (f & g & Ef & Hf). do 3 eexists. split; [exact Ef|].
  intros * Fc Ro E. destruct (Hf _ _ _ _ _ Fc Ro E) as (l & rs & Tl & Bd & Fr & Ip).
  exists l, rs. do 1 eexists. split; [exact Tl|]. split; [exact Bd|].
  split; [exact (served_ranks of_int trunc cast sdef kdef parse_json open_pkg parse_hit find_node param fs cwd p name s root a B Us Cd Hh D Ld)|].
  split; [exact Fr|]. exact Ip.
Qed.
Print Assumptions C74_pool_param_vjp.

(** The overrides of a chunk stand for the parameters of the same name. *)
Theorem C74_overrides : forall fsum rsum edot tri A neg dot psum graph capture (m : loaded F) d P ov I T, incl (keys ov) (keys P) ->
  call_jvp fsum rsum edot tri A neg dot graph capture m d P (Some ov) I T = call_jvp fsum rsum edot tri A neg dot graph capture m d (effective P ov) None I T /\
  call_jacobian fsum rsum edot tri A neg dot graph capture m d P (Some ov) I = call_jacobian fsum rsum edot tri A neg dot graph capture m d (effective P ov) None I /\
  call_param_jacobian fsum rsum edot tri A neg dot graph capture m d P (Some ov) I = call_param_jacobian fsum rsum edot tri A neg dot graph capture m d (effective P ov) None I /\
  call_param_vjp fsum rsum edot tri A neg dot psum graph capture m d P (Some ov) I T = call_param_vjp fsum rsum edot tri A neg dot psum graph capture m d (effective P ov) None I T.
Proof.
  intros * H. split; [apply jvp_effective, H|]. split; [apply jacobian_effective, H|]. split; [apply param_jacobian_effective, H|]. apply param_vjp_effective, H.
Qed.
Print Assumptions C74_overrides.

Notation jx_sync := (mkSched true false [cpu]).
Notation jx_async := (mkSched false true [cpu; cuda 0]).
Notation jx_call f := (f sum0 sum0 kx_dot (fun (_ : list (list F)) b => b) vx_arith fopp kx_dot) (only parsing).
Notation jx_graphs := (fun _ : device => rp_graph).
Definition jx_is (k : string) (l : list F) (m : smap (tensor F)) : bool := match lookup k m with Some t => shape_eqb (t_shape t) [3] && sx_near l t | None => false end.
Definition jx_pair (o i : string) (l : list F) (j : smap (smap (tensor F))) : bool := match lookup o j with Some r => jx_is i l r | None => false end.
(** u is 2, 5 and 6; du/dx = a / 4 u, du/da = x / 4 u, du/dc = - u / 4. *)
Definition jx_values (m : smap (tensor F)) : bool := jx_is "root" [fnum 2 0; fnum 5 0; fnum 6 0] m.
Definition jx_products (m : smap (tensor F)) : bool := jx_is "root" [fnum 1 0; fnum 2 0; fnum 8 0] m.
Definition jx_blocks (j : smap (smap (tensor F))) : bool := jx_pair "root" "load" [fnum 1 (-2); fdiv fone (fnum 10 0); fdiv fone (fnum 3 0)] j.
Definition jx_pblocks (j : smap (smap (tensor F))) : bool := jx_pair "root" "scale" [fnum 1 (-1); fnum 5 (-2); fnum 3 (-3)] j && jx_pair "root" "c" [fnum (-1) (-1); fnum (-5) (-2); fnum (-3) (-1)] j.
Definition jx_grads (g : smap (tensor F)) : bool :=
  jx_is "scale" [fnum 1 (-1); fnum 5 (-1); fnum 3 (-1)] g && match lookup "c" g with Some t => shape_eqb (t_shape t) [] && sx_near [fnum (-9) 0] t | None => false end.

(** Two rows at a time. *)
Definition jx_ok {R} (test : R -> bool) (c : pdisp (V:=F) * loop_result R) : Prop := exists st r, c = (st, Done (Ok r)) /\ test r = true.
Lemma jx_ok_if {R} (test : R -> bool) (c : pdisp (V:=F) * loop_result R) : match snd c with Done (Ok r) => test r | _ => false end = true -> jx_ok test c.
Proof. destruct c as [st [[r|]|]]; try discriminate. intros H. exists st, r. split; [reflexivity|exact H]. Qed.
Lemma jx_run : match jx_load jx_sync with
  | Ok D => visible (prun (fresh_of D) sx_hist) = Some sx_params /\
    match snd (jx_call serve_jvp jx_graphs false D 2 (prun (fresh_of D) sx_hist) sx_in' jx_tan') with Done (Ok r) => jx_values (fst r) && jx_products (snd r) | _ => false end = true /\
    match snd (jx_call serve_jacobian jx_graphs false D 2 (prun (fresh_of D) sx_hist) sx_in') with Done (Ok r) => jx_values (fst r) && jx_blocks (snd r) | _ => false end = true /\
    match snd (jx_call serve_param_jacobian jx_graphs false D 2 (prun (fresh_of D) sx_hist) sx_in') with Done (Ok r) => jx_values (fst r) && jx_pblocks (snd r) | _ => false end = true /\
    match snd (jx_call serve_param_vjp sum0 jx_graphs false D 2 (prun (fresh_of D) sx_hist) sx_in' jx_cot') with Done (Ok r) => jx_grads r | _ => false end = true
  | Err _ => False
  end.
Proof. vm_compute. repeat split. Qed.
Example C74_case : jx_all jx_sync /\ exists D, jx_load jx_sync = Ok D /\ visible (prun (fresh_of D) sx_hist) = Some sx_params /\
  jx_ok (fun r => jx_values (fst r) && jx_products (snd r))%bool (jx_call serve_jvp jx_graphs false D 2 (prun (fresh_of D) sx_hist) sx_in' jx_tan') /\
  jx_ok (fun r => jx_values (fst r) && jx_blocks (snd r))%bool (jx_call serve_jacobian jx_graphs false D 2 (prun (fresh_of D) sx_hist) sx_in') /\
  jx_ok (fun r => jx_values (fst r) && jx_pblocks (snd r))%bool (jx_call serve_param_jacobian jx_graphs false D 2 (prun (fresh_of D) sx_hist) sx_in') /\
  jx_ok jx_grads (jx_call serve_param_vjp sum0 jx_graphs false D 2 (prun (fresh_of D) sx_hist) sx_in' jx_cot').
Proof.
  split; [apply jx_all_ok; [split; [discriminate|reflexivity]|repeat constructor]|].
  pose proof jx_run as R. destruct (jx_load jx_sync) as [D|]; [|destruct R]. destruct R as (V & R1 & R2 & R3 & R4).
  exists D. split; [reflexivity|]. split; [exact V|]. split; [apply jx_ok_if, R1|]. split; [apply jx_ok_if, R2|]. split; [apply jx_ok_if, R3|apply jx_ok_if, R4].
Qed.
Example C74_tangents : (sorted jx_tan /\ clash_free (ar_in jx_artifact) (keys jx_tan) /\ renamed (boundary (ar_in jx_artifact)) jx_tan jx_tan' /\ conforming 3 jx_tan' /\ all_on cpu jx_tan') /\
  sorted jx_cot /\ clash_free (ar_out jx_artifact) (keys jx_cot) /\ renamed (boundary (ar_out jx_artifact)) jx_cot jx_cot' /\ conforming 3 jx_cot' /\ all_on cpu jx_cot'.
Proof. split; [exact jx_tangents|exact jx_cotangents]. Qed.

(** The pool of two devices. *)
Section Pool.
  Context {R : Type}.
  Definition jx_ends (l : list act) (p : result ((Z * (device -> Z -> Z -> result R)) * (result (list (option R)) -> result R))) : option (Z * result R) :=
    match p with
    | Ok (b, f, g) => match act_run f (new_call (ainit ex_tbl) 3) l with
                      | Some (_, s') => match a_main s' with MIdle (Some (Ok rs)) => Some (b, g (Ok rs)) | _ => None end
                      | None => None
                      end
    | Err _ => None
    end.
  Lemma jx_ends_ok l p b o : jx_ends l p = Some (b, o) -> exists f g, p = Ok (b, f, g) /\
    exists ls rs, finished_call (det f) ex_tbl 1 (Z.of_nat 3) ls (Ok rs) /\ g (Ok rs) = o.
  Proof.
    unfold jx_ends. destruct p as [[[b' f] g]|]; [|discriminate]. destruct (act_run f (new_call (ainit ex_tbl) 3) l) as [[ls s']|] eqn:E; [|discriminate].
    destruct (a_main s') as [[[rs|]|]| | | | | | | | | | | |] eqn:Em; try discriminate. intros [= <- <-]. exists f, g. split; [reflexivity|]. exists ls, rs.
    split; [eapply act_finished; [lia|exact E|exact Em]|reflexivity].
  Qed.
  (** A call that ends, on this schedule, with a result that passes the test. *)
  Definition jx_done (test : R -> bool) (c : pdisp (V:=F) * result ((Z * (device -> Z -> Z -> result R)) * (result (list (option R)) -> result R))) : Prop :=
    exists st f g, c = (st, Ok ((Z.of_nat 3, f), g)) /\ returns_only (det f) 1 f /\ exists ls rs out, finished_call (det f) ex_tbl 1 (Z.of_nat 3) ls (Ok rs) /\ g (Ok rs) = Ok out /\ test out = true.
  Lemma jx_done_ok test (c : pdisp (V:=F) * _) : match jx_ends ex_sched (snd c) with Some (b, Ok r) => (b =? 3)%Z && test r | _ => false end = true -> jx_done test c.
  Proof.
    destruct (jx_ends ex_sched (snd c)) as [[b [r|]]|] eqn:E; try discriminate. intros H. apply andb_prop in H as [Hb Ht]. apply Z.eqb_eq in Hb. subst b.
    destruct (jx_ends_ok _ _ _ _ E) as (f & g & Ef & ls & rs & Fc & As). exists (fst c), f, g. split; [rewrite (surjective_pairing c), Ef; reflexivity|].
    split; [intros d x k v H; symmetry; exact H|]. exists ls, rs, r. split; [exact Fc|]. split; [exact As|exact Ht].
  Qed.
End Pool.
Lemma jx_pool_run : match jx_load jx_async with
  | Ok D => visible (prun (fresh_of D) sx_hist) = Some sx_params /\
    match jx_ends ex_sched (snd (jx_call pool_jvp jx_graphs false D (prun (fresh_of D) sx_hist) sx_in' jx_tan')) with Some (b, Ok r) => (b =? 3)%Z && (jx_values (fst r) && jx_products (snd r)) | _ => false end = true /\
    match jx_ends ex_sched (snd (jx_call pool_jacobian jx_graphs false D (prun (fresh_of D) sx_hist) sx_in')) with Some (b, Ok r) => (b =? 3)%Z && (jx_values (fst r) && jx_blocks (snd r)) | _ => false end = true /\
    match jx_ends ex_sched (snd (jx_call pool_param_jacobian jx_graphs false D (prun (fresh_of D) sx_hist) sx_in')) with Some (b, Ok r) => (b =? 3)%Z && (jx_values (fst r) && jx_pblocks (snd r)) | _ => false end = true /\
    match jx_ends ex_sched (snd (jx_call pool_param_vjp sum0 jx_graphs false D (prun (fresh_of D) sx_hist) sx_in' jx_cot')) with Some (b, Ok r) => (b =? 3)%Z && jx_grads r | _ => false end = true
  | Err _ => False
  end.
Proof. vm_compute. repeat split. Qed.
Example C74_pool_case : jx_all jx_async /\ pool_ok ex_tbl /\ (forall t, In t ex_tbl -> In (ds_dev t) (sd_devices jx_async)) /\
  exists D, jx_load jx_async = Ok D /\ visible (prun (fresh_of D) sx_hist) = Some sx_params /\
    jx_done (fun r => jx_values (fst r) && jx_products (snd r))%bool (jx_call pool_jvp jx_graphs false D (prun (fresh_of D) sx_hist) sx_in' jx_tan') /\
    jx_done (fun r => jx_values (fst r) && jx_blocks (snd r))%bool (jx_call pool_jacobian jx_graphs false D (prun (fresh_of D) sx_hist) sx_in') /\
    jx_done (fun r => jx_values (fst r) && jx_pblocks (snd r))%bool (jx_call pool_param_jacobian jx_graphs false D (prun (fresh_of D) sx_hist) sx_in') /\
    jx_done jx_grads (jx_call pool_param_vjp sum0 jx_graphs false D (prun (fresh_of D) sx_hist) sx_in' jx_cot').
Proof.
  split; [apply jx_all_ok; [split; [discriminate|reflexivity]|constructor; [left; reflexivity|constructor; [right; reflexivity|constructor]]]|]. split; [exact ex_tbl_ok|].
  split; [intros t [<-|[<-|[]]]; vm_compute; auto|]. pose proof jx_pool_run as R. destruct (jx_load jx_async) as [D|]; [|destruct R]. destruct R as (V & R1 & R2 & R3 & R4).
  exists D. split; [reflexivity|]. split; [exact V|]. split; [apply jx_done_ok, R1|]. split; [apply jx_done_ok, R2|]. split; [apply jx_done_ok, R3|apply jx_done_ok, R4].
Qed.
(** Another scale in the overrides: u is 4 and 10. *)
Definition jx_other (r : smap (tensor F) * smap (smap (tensor F))) : bool :=
  match lookup "root" (fst r), pair_at "root" "load" (snd r) with Some t, Some j => sx_near [fnum 4 0; fnum 10 0] t && sx_near [fnum 1 (-1); fdiv fone (fnum 5 0)] j | _, _ => false end.
Lemma jx_over : match jx_load jx_sync with
  | Ok D => match jx_call call_jacobian jx_graphs false (md_loaded (dm_active D)) cpu sx_params (Some [("scale", mkT [] [fnum 8 0] cpu)]) rx_in' with Ok r => jx_other r | Err _ => false end = true
  | Err _ => False
  end.
Proof. vm_compute. reflexivity. Qed.
Example C74_overrides_case : incl (keys [("scale", mkT [] [fnum 8 0] cpu)]) (keys sx_params) /\
  exists D r, jx_load jx_sync = Ok D /\ jx_call call_jacobian jx_graphs false (md_loaded (dm_active D)) cpu sx_params (Some [("scale", mkT [] [fnum 8 0] cpu)]) rx_in' = Ok r /\ jx_other r = true.
Proof.
  split; [intros k [<-|[]]; right; left; reflexivity|]. pose proof jx_over as R. destruct (jx_load jx_sync) as [D|]; [|destruct R]. exists D.
  match type of R with match ?c with _ => _ end = _ => destruct c as [r|] eqn:E; [|discriminate R] end. exists r. split; [reflexivity|]. split; [reflexivity|exact R].
Qed.

(** A call without inputs raises, and changes nothing: stale copies of parameters on other devices stay stale. *)
Theorem C74_no_inputs : forall C fsum rsum edot tri A neg dot psum graph capture (D : dispatched (V:=F) (C:=C)) n s T W,
  let raises X (r : _ * X) (fail : exn -> X) := exists w, r = (s, fail (Fatal w)) in
  raises _ (serve_jvp fsum rsum edot tri A neg dot graph capture D n s [] T) (fun e => Done (Err e)) /\
  raises _ (serve_jacobian fsum rsum edot tri A neg dot graph capture D n s []) (fun e => Done (Err e)) /\
  raises _ (serve_param_jacobian fsum rsum edot tri A neg dot graph capture D n s []) (fun e => Done (Err e)) /\
  raises _ (serve_param_vjp fsum rsum edot tri A neg dot psum graph capture D n s [] W) (fun e => Done (Err e)) /\
  raises _ (pool_jvp fsum rsum edot tri A neg dot graph capture D s [] T) (fun e => Err e) /\
  raises _ (pool_jacobian fsum rsum edot tri A neg dot graph capture D s []) (fun e => Err e) /\
  raises _ (pool_param_jacobian fsum rsum edot tri A neg dot graph capture D s []) (fun e => Err e) /\
  raises _ (pool_param_vjp fsum rsum edot tri A neg dot psum graph capture D s [] W) (fun e => Err e).
Proof. intros. repeat split; eexists; reflexivity. Qed.
Print Assumptions C74_no_inputs.

(** Parameters changed since loading: the mark of the change is left for the next call. *)
Example C74_no_inputs_case : exists D, jx_load jx_sync = Ok D /\ let st := prun (fresh_of D) sx_hist in pd_dirty st = true /\
  jx_call serve_jvp jx_graphs false D 2 st [] jx_tan' = (st, Done (Err (Fatal "DispatchedModel::jvp: inputs are empty."))).
Proof.
  destruct (jx_load jx_sync) as [D|] eqn:E; [|vm_compute in E; discriminate]. exists D. vm_compute in E. injection E as <-.
  split; [reflexivity|]. split; [vm_compute; reflexivity|reflexivity].
Qed.
