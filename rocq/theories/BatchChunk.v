(** dispatchers/batch_chunk.h, function by function.  Definitions only. *)
From Verif Require Import Base Tensor.

Section BatchChunk.
  Context {V : Type}.
  Notation tens := (tensor V).
  Notation vmap := (smap (tensor V)).
  (** [VariablePairJacobian]: {out: {in: block}}. *)
  Notation nmap := (smap (smap (tensor V))).

  (** batch_chunk.h:52-60 [infer_batch_size]. *)
  Definition infer_batch_size (m : vmap) : Z :=
    fold_left (fun b kt => if Nat.leb 1 (dim (snd kt))
                           then Z.max b (Z.of_nat (lead (snd kt))) else b) m 1%Z.

  (** batch_chunk.h:64-76 [slice_batch], one entry. *)
  Definition slice_entry (start count : Z) (t : tens) : result tens :=
    if Nat.leb 1 (dim t) && negb (Nat.eqb (lead t) 1)
    then narrow0 t start count
    else Ok t.

  (** batch_chunk.h:64-76 [slice_batch]. *)
  Definition slice_batch (m : vmap) (start count : Z) : result vmap :=
    vmapM (slice_entry start count) m.

  (** batch_chunk.h:87-99 [index_select_batch]. *)
  Definition index_select_batch (m : vmap) (idx : list Z) : result vmap :=
    vmapM (fun t => if Nat.leb 1 (dim t) then index_select0 t idx else Ok t) m.

  (** batch_chunk.h:106-117 [scatter_batch_] (returns the mutated [dst]). *)
  Fixpoint scatter_batch (dst : vmap) (idx : list Z) (sub : vmap) : result vmap :=
    match dst with
    | [] => Ok []
    | (name, t) :: dst' =>
        let* t' := match lookup name sub with
                   | Some s => if Nat.leb 1 (dim t) then index_copy0 t idx s else Ok t
                   | None => Ok t
                   end in
        let* r := scatter_batch dst' idx sub in
        Ok ((name, t') :: r)
    end.

  (** batch_chunk.h:132-139: the parts of one key, one per chunk. *)
  Definition parts_of (name : string) (chunks : list vmap) : result (list tens) :=
    mapM (fun c => match lookup name c with
                   | Some t => Ok t
                   | None => Err (Fatal "cat_batch: key is missing from one of the chunks.")
                   end) chunks.

  (** batch_chunk.h:121-143 [cat_batch]. *)
  Definition cat_batch (chunks : list vmap) : result vmap :=
    match chunks with
    | [] => Err (Fatal "cat_batch: no chunks to concatenate.")
    | [c] => Ok c
    | c :: _ =>
        mapM (fun kt => let* parts := parts_of (fst kt) chunks in
                        let* t := cat0 parts in
                        Ok (fst kt, t)) c
    end.

  (** batch_chunk.h:147-154 [cat_batch_tensor]. *)
  Definition cat_batch_tensor (parts : list tens) : result tens :=
    match parts with
    | [] => Err (Fatal "cat_batch_tensor: no parts to concatenate.")
    | [t] => Ok t
    | _ => cat0 parts
    end.

  (** batch_chunk.h:158-165 [to_device]. *)
  Definition move (d : device) (t : tens) : tens :=
    if device_eqb (t_dev t) d then t else to_dev d t.
  Definition to_device (m : vmap) (d : device) : vmap := vmap_ (move d) m.

  (** batch_chunk.h:169-178 [to_device_nested].  [out[o].emplace] creates the
      row only when it has an entry, so an empty row disappears. *)
  Definition to_device_nested (j : nmap) (d : device) : nmap :=
    flat_map (fun orow => match snd orow with
                          | [] => []
                          | _ => [(fst orow, vmap_ (move d) (snd orow))]
                          end) j.

  (** batch_chunk.h:212-226: the parts of one block, one per chunk. *)
  Definition nparts_of (o i : string) (chunks : list nmap) : result (list tens) :=
    mapM (fun c => match lookup o c with
                   | None => Err (Fatal "cat_batch_nested: output missing from a chunk.")
                   | Some row =>
                       match lookup i row with
                       | None => Err (Fatal "cat_batch_nested: block missing from a chunk.")
                       | Some t => Ok t
                       end
                   end) chunks.

  (** batch_chunk.h:203-228: one block of [cat_batch_nested]. *)
  Definition cat_block (chunks : list nmap) (out_nd in_nd : smap nat)
             (o i : string) (first : tens) : result tens :=
    let* no := at_ o out_nd in
    let* ni := at_ i in_nd in
    if Nat.eqb (dim first) (no + ni) then Ok first
    else let* parts := nparts_of o i chunks in cat0 parts.

  (** batch_chunk.h:191-230 [cat_batch_nested]; empty rows disappear as in
      [to_device_nested]. *)
  Definition cat_batch_nested (chunks : list nmap) (out_nd in_nd : smap nat) : result nmap :=
    match chunks with
    | [] => Err (Fatal "cat_batch_nested: no chunks to concatenate.")
    | [c] => Ok c
    | c :: _ =>
        let* rows :=
          mapM (fun orow =>
                  let* row := mapM (fun it =>
                                let* t := cat_block chunks out_nd in_nd
                                            (fst orow) (fst it) (snd it) in
                                Ok (fst it, t)) (snd orow) in
                  Ok (fst orow, row)) c in
        Ok (filter (fun orow => match snd orow with [] => false | _ => true end) rows)
    end.
End BatchChunk.
