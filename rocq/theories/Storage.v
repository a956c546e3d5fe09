(** The storage behind the promoted parameters: which tensors share memory
    (aoti/Model.cpp:472-520, 1061-1072; dispatchers/DispatchedModel.cpp:362-435;
    python binding _aoti.cpp:285-305).  Definitions only.

    [Params] treats a parameter as a value.  Here a tensor is a handle on a
    storage: a number of handles may view one storage and an in-place operation
    ([fill_], [copy_], [mul_], ...) through any of them changes what all of them
    read.  A storage is a list of elements; a handle lists the positions it
    views.  Simplified: strides and offsets are that list of positions, and
    [is_contiguous] is "the positions are consecutive"; element types are not
    tracked. *)
From Verif Require Import Base Tensor BatchChunk Dispatch Params.

Section Storage.
  Context {V : Type}.
  (** What reading outside a storage would give; never read by a legal handle. *)
  Variable dflt : V.

  (** Every storage allocated so far. *)
  Definition heap := list (list V).

  (** at::Tensor: the storage viewed, the device, the shape, the positions. *)
  Record hnd : Type := mkH
    { h_cell : nat; h_dev : device; h_shape : list nat; h_idx : list nat }.

  Notation hmap := (smap hnd).

  (** The elements a handle reads now. *)
  Definition read (H : heap) (h : hnd) : list V :=
    map (fun i => nth i (nth (h_cell h) H []) dflt) (h_idx h).

  Definition tens_of (H : heap) (h : hnd) : tensor V := mkT (h_shape h) (read H h) (h_dev h).

  (** A new tensor with a storage of its own. *)
  Definition alloc (H : heap) (d : device) (shape : list nat) (c : list V) : heap * hnd :=
    (H ++ [c], mkH (length H) d shape (seq 0 (length c))).

  (** [t.is_contiguous()]. *)
  Definition is_contig (h : hnd) : bool :=
    if list_eq_dec Nat.eq_dec (h_idx h) (seq (hd 0 (h_idx h)) (length (h_idx h)))
    then true else false.

  (** [t.contiguous()]: the same tensor when it already is, a copy otherwise. *)
  Definition contiguous (H : heap) (h : hnd) : heap * hnd :=
    if is_contig h then (H, h) else alloc H (h_dev h) (h_shape h) (read H h).

  (** DispatchedModel.cpp:430 [(v.device() == dev) ? v : v.to(dev)]: the same
      tensor on the same device, a copy otherwise. *)
  Definition hmove (d : device) (H : heap) (h : hnd) : heap * hnd :=
    if device_eqb (h_dev h) d then (H, h) else alloc H d (h_shape h) (read H h).

  (** [it->second = h]. *)
  Definition hassign (k : string) (h : hnd) (m : hmap) : hmap :=
    map (fun kh => if String.eqb k (fst kh) then (fst kh, h) else kh) m.

  (** The dispatcher: [_models], [_active], [_params_dirty], and the memory. *)
  Record sdisp : Type := mkSD
    { sd_heap : heap; sd_models : list (device * hmap); sd_active : device; sd_dirty : bool }.

  (** DispatchedModel.cpp:362-367, 421: named_parameters() of the Model on device [d]. *)
  Fixpoint hstore (d : device) (l : list (device * hmap)) : option hmap :=
    match l with
    | [] => None
    | (d', p) :: l' => if device_eqb d d' then Some p else hstore d l'
    end.

  (** The slots of the Model on device [d] after an assignment. *)
  Definition hset_model (d : device) (p : hmap) (l : list (device * hmap)) : list (device * hmap) :=
    map (fun x => if device_eqb d (fst x) then (fst x, p) else x) l.

  (** Model.cpp:472-520: each parameter of the metadata becomes a tensor with a
      storage of its own ([from_blob(...).clone()], [.to(opts)], [.contiguous()]). *)
  Fixpoint load_map (d : device) (H : heap) (P : smap (tensor V)) : heap * hmap :=
    match P with
    | [] => (H, [])
    | (k, t) :: P' =>
        let (H1, h) := alloc H d (t_shape t) (t_data t) in
        let (H2, m) := load_map d H1 P' in (H2, (k, h) :: m)
    end.

  (** DispatchedModel.cpp:61-67: the Models, each from the artifact. *)
  Fixpoint load_models (ds : list device) (H : heap) (P : smap (tensor V))
    : heap * list (device * hmap) :=
    match ds with
    | [] => (H, [])
    | d :: ds' =>
        let (H1, m) := load_map d H P in
        let (H2, l) := load_models ds' H1 P in (H2, (d, m) :: l)
    end.

  (** DispatchedModel.cpp:47-70: one Model per device; the first one is the master.
      Simplified: [_models] is kept in the scheduler's order, not by name. *)
  Definition load_disp (H : heap) (d : device) (ds : list device) (P : smap (tensor V)) : sdisp :=
    let (H', l) := load_models (d :: ds) H P in mkSD H' l d false.

  (** DispatchedModel.cpp:421-431: the inner loop of sync_params. *)
  Fixpoint hassign_params (dev : device) (H : heap) (master dst : hmap)
    : heap * (hmap * result unit) :=
    match master with
    | [] => (H, (dst, Ok tt))
    | (k, v) :: rest =>
        match lookup k dst with
        | None => (H, (dst, Err (Fatal "DispatchedModel: promoted parameter is missing on device")))
        | Some _ => let (H', v') := hmove dev H v in
                    hassign_params dev H' rest (hassign k v' dst)
        end
    end.

  (** DispatchedModel.cpp:416-432: the outer loop. *)
  Fixpoint hsync_models (active : device) (H : heap) (master : hmap) (l : list (device * hmap))
    : heap * (list (device * hmap) * result unit) :=
    match l with
    | [] => (H, ([], Ok tt))
    | (dev, dst) :: rest =>
        if device_eqb dev active then
          let '(H', (rest', r)) := hsync_models active H master rest in
          (H', ((dev, dst) :: rest', r))
        else
          let '(H1, (dst', r)) := hassign_params dev H master dst in
          match r with
          | Err e => (H1, ((dev, dst') :: rest, Err e))
          | Ok _ => let '(H2, (rest', r')) := hsync_models active H1 master rest in
                    (H2, ((dev, dst') :: rest', r'))
          end
    end.

  (** DispatchedModel.cpp:408-435 [sync_params]. *)
  Definition hsync (s : sdisp) : sdisp * result unit :=
    if negb (sd_dirty s) || Nat.leb (length (sd_models s)) 1
    then (mkSD (sd_heap s) (sd_models s) (sd_active s) false, Ok tt)
    else match hstore (sd_active s) (sd_models s) with
         | None => (s, Err (StdExn "no active model"))
         | Some master =>
             let '(H, (l, r)) := hsync_models (sd_active s) (sd_heap s) master (sd_models s) in
             (mkSD H l (sd_active s) (match r with Ok _ => false | Err _ => true end), r)
         end.

  (** What a program does to the tensors and to the dispatcher. *)
  Inductive sop : Type :=
  | SNew (d : device) (shape : list nat) (c : list V)  (* the program makes a tensor *)
  | SWrite (c : nat) (w : list V -> list V)            (* an in-place operation on storage c *)
  | SSet (n : string) (h : hnd)                        (* set_parameter(n, h) *)
  | SAssign (n : string) (h : hnd)                     (* named_parameters().at(n) = h *)
  | SMut                                               (* named_parameters(), mutable *)
  | SEval.                                             (* a dispatched evaluation *)

  (** An in-place ATen operation: the contents of storage [c] become [w] of them. *)
  Definition write (c : nat) (w : list V -> list V) (H : heap) : heap :=
    map (fun ix => if Nat.eqb c (fst ix) then w (snd ix) else snd ix)
        (combine (seq 0 (length H)) H).

  (** A program only holds tensors that exist. *)
  Definition exists_ (H : heap) (h : hnd) : bool := Nat.ltb (h_cell h) (length H).

  (** DispatchedModel.cpp:362-375; Model.cpp:1061-1072 (set_parameter of a name
      that is not promoted throws and changes nothing). *)
  Definition sstep (s : sdisp) (o : sop) : sdisp :=
    match hstore (sd_active s) (sd_models s) with
    | None => s
    | Some master =>
        match o with
        | SNew d shape c =>
            mkSD (fst (alloc (sd_heap s) d shape c)) (sd_models s) (sd_active s) (sd_dirty s)
        | SWrite c w => mkSD (write c w (sd_heap s)) (sd_models s) (sd_active s) (sd_dirty s)
        | SSet n h =>
            if exists_ (sd_heap s) h then
              match lookup n master with
              | None => s
              | Some _ =>
                  let (H, h') := contiguous (sd_heap s) h in
                  mkSD H (hset_model (sd_active s) (hassign n h' master) (sd_models s))
                       (sd_active s) true
              end
            else s
        | SAssign n h =>
            if exists_ (sd_heap s) h then
              mkSD (sd_heap s) (hset_model (sd_active s) (hassign n h master) (sd_models s))
                   (sd_active s) true
            else s
        | SMut => mkSD (sd_heap s) (sd_models s) (sd_active s) true
        | SEval => fst (hsync s)
        end
    end.

  (** A history of a program. *)
  Definition srun (s : sdisp) (h : list sop) : sdisp := fold_left sstep h s.
End Storage.
Arguments heap V : clear implicits.
Arguments sdisp V : clear implicits.
Arguments sop V : clear implicits.
