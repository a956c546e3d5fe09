(** Specification vocabulary for shared parameter storage. *)
From Verif Require Import Base Tensor Spec Dispatch Params SpecParams Storage.

Section S.
  Context {V : Type}.
  Variable dflt : V.

  (** ** Values
      A map of tensors, as the values its tensors read now. *)
  Definition see (H : heap V) (m : smap hnd) : smap (tensor V) :=
    map (fun kh => (fst kh, mkT (h_shape (snd kh)) (read dflt H (snd kh)) (h_dev (snd kh)))) m.

  (** The dispatcher of [Params] that holds these values. *)
  Definition valued (s : sdisp V) : pdisp (V := V) :=
    mkPD (map (fun dm => (fst dm, see (sd_heap s) (snd dm))) (sd_models s))
         (sd_active s) (sd_dirty s).

  (** Every parameter has a storage. *)
  Definition sound (s : sdisp V) : Prop :=
    forall d m k h, In (d, m) (sd_models s) -> In (k, h) m -> h_cell h < length (sd_heap s).

  (** ** Histories *)
  (** What the in-place operations of a history make of the storage [c]. *)
  Fixpoint written (c : nat) (h : list (sop V)) (x : list V) : list V :=
    match h with
    | [] => x
    | SWrite c' w :: h' => written c h' (if Nat.eqb c c' then w x else x)
    | _ :: h' => written c h' x
    end.

  (** The history never puts another tensor in the slot of [n]. *)
  Definition keeps_slot (n : string) (h : list (sop V)) : Prop :=
    forall x, ~ In (SSet n x) h /\ ~ In (SAssign n x) h.

  (** The history makes no in-place write. *)
  Definition no_write (h : list (sop V)) : Prop := forall c w, ~ In (SWrite c w) h.

  (** Between an in-place write and the next evaluation the program goes through
      the mutable named_parameters() again; [pending] says a write is waiting. *)
  Fixpoint announced (pending : bool) (h : list (sop V)) : bool :=
    match h with
    | [] => negb pending
    | SWrite _ _ :: h' => announced true h'
    | SMut :: h' => announced false h'
    | SEval :: h' => negb pending && announced false h'
    | _ :: h' => announced pending h'
    end.

  (** The tensor in the slot of [n] of the master map. *)
  Definition slot (s : sdisp V) (n : string) : option hnd :=
    match hstore (sd_active s) (sd_models s) with Some m => lookup n m | None => None end.

  (** The storages of all parameters of all devices, in order. *)
  Definition cells (s : sdisp V) : list nat :=
    flat_map (fun dm => map (fun kh => h_cell (snd kh)) (snd dm)) (sd_models s).

  (** The same program, as [Params] sees it: the value each tensor has when it is
      handed over. *)
  Fixpoint by_value (s : sdisp V) (h : list (sop V)) : list (pop V) :=
    match h with
    | [] => []
    | o :: h' =>
        match o with
        | SSet n x => if Nat.ltb (h_cell x) (length (sd_heap s))
                      then [PSet n (mkT (h_shape x) (read dflt (sd_heap s) x) (h_dev x))] else []
        | SAssign n x => if Nat.ltb (h_cell x) (length (sd_heap s))
                         then [PMut (assign_slot n (mkT (h_shape x) (read dflt (sd_heap s) x) (h_dev x)))]
                         else []
        | SMut => [PMut (fun m => m)]
        | SEval => [PEval]
        | _ => []
        end ++ by_value (sstep dflt s o) h'
    end.
End S.
