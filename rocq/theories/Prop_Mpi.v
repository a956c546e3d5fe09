(** Property C20: MPI device assignment. *)
From Verif Require Import Base Tensor Mpi SpecMpi MpiProofs.

(** With at least one local rank per device, every rank gets a listed device, every
    device gets a rank, and the loads of two devices differ by at most one. *)
Theorem C20_round_robin : forall m n,
  1 <= n <= m ->
  let assign := fun r => given (mpi_device_index r m n) in
  (forall r, r < m -> exists i, assign r = Some i /\ i < n) /\
  (forall j, j < n -> 1 <= ranks_on assign m j) /\
  (forall i j, i < n -> j < n -> ranks_on assign m i <= ranks_on assign m j + 1).
Proof. exact round_robin_even. Qed.
Print Assumptions C20_round_robin.

(** With fewer ranks than devices it raises. *)
Theorem C20_too_few_ranks : forall r m n,
  m < n -> exists e, mpi_device_index r m n = Err (Fatal e).
Proof. exact too_few_ranks. Qed.
Print Assumptions C20_too_few_ranks.

(** Over a whole communicator the same holds on every node, provided no other host
    name hashes to the node's colour. *)
Theorem C20_every_node : forall hash hosts n host,
  (forall h, In h hosts -> color hash h = color hash host -> h = host) ->
  1 <= n <= length (node_of hosts host) ->
  let assign := fun r => given (determine_device_index hash hosts r n) in
  (forall r, In r (node_of hosts host) -> exists i, assign r = Some i /\ i < n) /\
  (forall j, j < n -> 1 <= node_load assign hosts host j) /\
  (forall i j, i < n -> j < n ->
     node_load assign hosts host i <= node_load assign hosts host j + 1).
Proof. exact node_even. Qed.
Print Assumptions C20_every_node.

(** ... and construction on a node with too few ranks raises. *)
Theorem C20_construction_raises : forall parse hash devices ds bs hosts r host,
  parse_mpi_devices parse devices = Ok ds -> length bs = 1 \/ length bs = length ds ->
  nth_error hosts r = Some host ->
  (forall h, In h hosts -> color hash h = color hash host -> h = host) ->
  length (node_of hosts host) < length ds ->
  exists e, make_mpi parse hash devices bs true hosts r = Err (Fatal e).
Proof. exact make_mpi_few. Qed.
Print Assumptions C20_construction_raises.

(** A device list is accepted exactly when it is non-empty, every entry parses to a
    CPU or CUDA device, and no two entries may denote the same device; the devices
    are then the parsed entries in order. *)
Theorem C20_device_list : forall parse names ds,
  parse_mpi_devices parse names = Ok ds <->
  names <> [] /\ mapM parse names = Ok ds /\ Forall supported ds /\ pairwise_distinct ds.
Proof. exact parse_iff. Qed.
Print Assumptions C20_device_list.

(** A constructed scheduler has a device of the list, and the batch size given for
    that device (or the only one given). *)
Theorem C20_constructed : forall parse hash devices bs inited hosts r s,
  make_mpi parse hash devices bs inited hosts r = Ok s ->
  exists d n, mpi_device s = Ok d /\ mpi_batch_size s = Ok n /\ In d (fst (fst s)) /\ In n bs /\
    (length bs <> 1 -> exists i, nth_error (fst (fst s)) i = Some d /\ nth_error bs i = Some n).
Proof. exact make_mpi_spec. Qed.
Print Assumptions C20_constructed.

(** Without the proviso on host names the claim is false: two hosts with one colour
    are counted as one node, the missing-rank check passes on both, and each host
    leaves a device idle. *)
Theorem C20_colliding_hosts_refuted :
  exists hash hosts n host,
    length (node_of hosts host) < n /\
    exists j, j < n /\
      (forall r, In r (node_of hosts host) ->
         exists i, determine_device_index hash hosts r n = Ok i) /\
      node_load (fun r => given (determine_device_index hash hosts r n)) hosts host j = 0.
Proof.
  exists (fun s => if String.eqb s "node-b" then 2147483647%Z else 0%Z), ["node-a"; "node-b"]%string, 2, "node-a"%string.
  split; [cbn; lia|]. exists 1. split; [lia|]. split; [|reflexivity].
  intros r [<-|[]]. exists 0. reflexivity.
Qed.
Print Assumptions C20_colliding_hosts_refuted.

(** ** Concrete cases *)
Definition parse3 (s : string) : result device :=
  if String.eqb s "cpu" then Ok cpu
  else if String.eqb s "cuda" then Ok (mkDev "cuda" (-1))
  else if String.eqb s "cuda:0" then Ok (cuda 0)
  else if String.eqb s "cuda:1" then Ok (cuda 1)
  else Err (OtherExn 1).

Example C20_case :
  let hosts := ["a"; "b"; "a"; "a"; "b"; "a"; "a"]%string in
  map (fun r => given (determine_device_index (fun s => if String.eqb s "a" then 5 else 7)%Z hosts r 2)) (seq 0 7)
  = [Some 0; Some 0; Some 1; Some 0; Some 1; Some 1; Some 0].
Proof. reflexivity. Qed.

Example C20_lists :
  parse_mpi_devices parse3 ["cuda:1"; "cpu"; "cuda:0"]%string = Ok [cuda 1; cpu; cuda 0] /\
  (exists e, parse_mpi_devices parse3 ["cuda:1"; "cuda:1"]%string = Err (Fatal e)) /\
  (exists e, parse_mpi_devices parse3 ["cuda"; "cuda:0"]%string = Err (Fatal e)) /\
  (exists e, parse_mpi_devices parse3 ["cpu"; "cpu"]%string = Err (Fatal e)) /\
  (exists e, parse_mpi_devices parse3 [] = Err (Fatal e)).
Proof.
  split; [reflexivity|]. repeat (split; [eexists; reflexivity|]). eexists. reflexivity.
Qed.

Example C20_scheduler :
  exists s, make_mpi parse3 (fun _ => 0%Z) ["cuda:1"; "cuda:0"]%string [10; 20]%Z true ["a"; "a"; "a"]%string 1 = Ok s /\
    mpi_device s = Ok (cuda 0) /\ mpi_batch_size s = Ok 20%Z.
Proof. eexists. repeat split. Qed.
