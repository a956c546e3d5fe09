(** dispatchers/MPISimpleScheduler.cpp and .h.  Definitions only.  std::size_t
    values are nat: nothing here adds or multiplies them. *)
From Verif Require Import Base Tensor.

(** MPISimpleScheduler.cpp:41-53 [mpi_device_index].  [ndevices = 0] would divide by
    zero; the constructor rejects an empty device list first. *)
Definition mpi_device_index (local_rank local_size ndevices : nat) : result nat :=
  let* _ := assert_ (Nat.leb ndevices local_size) "Idle GPUs are not allowed" in
  match ndevices with
  | 0 => Err (OtherExn 0)   (* undefined behaviour, excluded by the constructor *)
  | _ => Ok (local_rank mod ndevices)
  end.

Definition is_cpu_ (d : device) : bool := String.eqb (d_type d) "cpu".
Definition is_cuda_ (d : device) : bool := String.eqb (d_type d) "cuda".
(** c10::Device::has_index: the index is not -1. *)
Definition has_index (d : device) : bool := negb (d_index d =? -1)%Z.

Section Parse.
  (** at::Device(std::string): throws a c10::Error on an unrecognised string. *)
  Variable parse : string -> result device.

  (** MPISimpleScheduler.cpp:65-85, the loop; the accumulators are [ncpu],
      [nbare_cuda], [cuda_indices]. *)
  Fixpoint mpi_loop (ncpu nbare : nat) (idx : list Z) (devices : list string)
    : result (nat * nat * list Z * list device) :=
    match devices with
    | [] => Ok (ncpu, nbare, idx, [])
    | d :: rest =>
        let* dev := parse d in
        let* _ := assert_ (is_cpu_ dev || is_cuda_ dev) "not a CPU or CUDA device" in
        if is_cpu_ dev then
          let* (acc, ds) := mpi_loop (S ncpu) nbare idx rest in Ok (acc, dev :: ds)
        else if negb (has_index dev) then
          let* (acc, ds) := mpi_loop ncpu (S nbare) idx rest in Ok (acc, dev :: ds)
        else
          let* _ := assert_ (negb (existsb (Z.eqb (d_index dev)) idx)) "index appears more than once" in
          let* (acc, ds) := mpi_loop ncpu nbare (d_index dev :: idx) rest in Ok (acc, dev :: ds)
    end.

  (** MPISimpleScheduler.cpp:55-102 [parse_mpi_devices]. *)
  Definition parse_mpi_devices (devices : list string) : result (list device) :=
    let* _ := assert_ (negb (Nat.eqb (length devices) 0)) "devices must be non-empty" in
    let* r := mpi_loop 0 0 [] devices in
    let '(ncpu, nbare, idx, ds) := r in
    let* _ := assert_ (Nat.leb ncpu 1) "cpu may appear at most once" in
    let* _ := assert_ (Nat.leb nbare 1) "unpinned cuda may appear at most once" in
    let* _ := assert_ (Nat.eqb nbare 0 || Nat.eqb (length idx) 0) "cannot mix pinned and unpinned" in
    Ok ds.

  Section World.
    (** The communicator: the host name of each rank, in rank order, and
        std::hash reduced modulo INT_MAX. *)
    Variable hash : string -> Z.
    Definition color (host : string) : Z := (hash host mod (2 ^ 31 - 1))%Z.

    (** MPI_Comm_split(comm, color, world_rank): the ranks of my colour, ordered by
        world rank; local rank and size. *)
    Definition local_rank (hosts : list string) (r : nat) (host : string) : nat :=
      length (filter (fun h => (color h =? color host)%Z) (firstn r hosts)).
    Definition local_size (hosts : list string) (host : string) : nat :=
      length (filter (fun h => (color h =? color host)%Z) hosts).

    (** MPISimpleScheduler.cpp:117-145 [determine_device_index] on rank [r]. *)
    Definition determine_device_index (hosts : list string) (r ndevices : nat) : result nat :=
      match nth_error hosts r with
      | None => Err (OtherExn 0)   (* not a rank of the communicator *)
      | Some host => mpi_device_index (local_rank hosts r host) (local_size hosts host) ndevices
      end.

    (** MPISimpleScheduler.cpp:148-171: the constructor on rank [r]. *)
    Definition make_mpi (devices : list string) (batch_sizes : list Z) (inited : bool)
               (hosts : list string) (r : nat) : result (list device * list Z * nat) :=
      let* ds := parse_mpi_devices devices in
      let* _ := assert_ (negb (Nat.eqb (length batch_sizes) 0)) "batch_sizes must be non-empty" in
      let* _ := assert_ (Nat.eqb (length batch_sizes) 1 || Nat.eqb (length batch_sizes) (length ds))
                        "batch_sizes must have length 1 or match devices" in
      let* _ := assert_ inited "MPI has not been initialized" in
      let* i := determine_device_index hosts r (length ds) in
      Ok (ds, batch_sizes, i).
  End World.
End Parse.

(** MPISimpleScheduler.h:79-83. *)
Definition mpi_device (s : list device * list Z * nat) : result device :=
  match nth_error (fst (fst s)) (snd s) with Some d => Ok d | None => Err (StdExn "vector::at") end.
Definition mpi_batch_size (s : list device * list Z * nat) : result Z :=
  match snd (fst s) with
  | [n] => Ok n
  | l => match nth_error l (snd s) with Some n => Ok n | None => Err (StdExn "vector::at") end
  end.
