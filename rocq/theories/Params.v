(** Promoted parameters: the dispatcher's per-device copies
    (dispatchers/DispatchedModel.cpp:362-435, aoti/Model.cpp:1061-1072) and the
    per-call override pointer (aoti/internal.h:748-766).  Definitions only.

    Tensors are values: writing in place into a tensor shared by two maps is not
    modelled. *)
From Verif Require Import Base Tensor BatchChunk Dispatch.

Section Params.
  Context {V : Type}.
  Notation tens := (tensor V).
  Notation vmap := (smap (tensor V)).

  (** Overwrite the slot of [k] ([it->second = v]); nothing when absent. *)
  Definition assign_slot (k : string) (v : tens) (m : vmap) : vmap :=
    map (fun kt => if String.eqb k (fst kt) then (fst kt, v) else kt) m.

  (** [_models] (device -> named_parameters()), [_active], [_params_dirty]. *)
  Record pdisp : Type := mkPD
    { pd_models : list (device * vmap); pd_active : device; pd_dirty : bool }.

  (** Replace the parameters of the Model on device [d]. *)
  Definition set_model (d : device) (p : vmap) (l : list (device * vmap)) : list (device * vmap) :=
    map (fun x => if device_eqb d (fst x) then (fst x, p) else x) l.

  (** DispatchedModel.cpp:421-431: the inner loop of sync_params; the slots
      assigned so far and whether a key was missing. *)
  Fixpoint assign_params (dev : device) (master dst : vmap) : vmap * result unit :=
    match master with
    | [] => (dst, Ok tt)
    | (k, v) :: rest =>
        match lookup k dst with
        | None => (dst, Err (Fatal "DispatchedModel: promoted parameter is missing on device"))
        | Some _ => assign_params dev rest (assign_slot k (move dev v) dst)
        end
    end.

  (** DispatchedModel.cpp:416-432: the outer loop. *)
  Fixpoint sync_models (active : device) (master : vmap) (l : list (device * vmap))
    : list (device * vmap) * result unit :=
    match l with
    | [] => ([], Ok tt)
    | (dev, dst) :: rest =>
        if device_eqb dev active then
          let (rest', r) := sync_models active master rest in ((dev, dst) :: rest', r)
        else
          let (dst', r) := assign_params dev master dst in
          match r with
          | Err e => ((dev, dst') :: rest, Err e)
          | Ok _ => let (rest', r') := sync_models active master rest in
                    ((dev, dst') :: rest', r')
          end
    end.

  (** DispatchedModel.cpp:408-435 [sync_params]. *)
  Definition sync_params (s : pdisp) : pdisp * result unit :=
    if negb (pd_dirty s) || Nat.leb (length (pd_models s)) 1
    then (mkPD (pd_models s) (pd_active s) false, Ok tt)
    else match store_of (pd_active s) (pd_models s) with
         | None => (s, Err (StdExn "no active model"))
         | Some master =>
             let (l, r) := sync_models (pd_active s) master (pd_models s) in
             (mkPD l (pd_active s) (match r with Ok _ => false | Err _ => true end), r)
         end.

  (** What a program does to a dispatcher's parameters. *)
  Inductive pop : Type :=
  | PSet (name : string) (v : tens)        (* set_parameter *)
  | PMut (edit : vmap -> vmap)             (* named_parameters() and writing at once *)
  | PLate (edit : vmap -> vmap)            (* writing through a reference kept from earlier *)
  | PEval.                                 (* a dispatched evaluation *)

  (** DispatchedModel.cpp:362-375; Model.cpp:1061-1072; 99-100 and the like. *)
  Definition pstep_ (s : pdisp) (o : pop) : pdisp :=
    match store_of (pd_active s) (pd_models s) with
    | None => s
    | Some master =>
        match o with
        | PSet n v =>
            match lookup n master with
            | None => s
            | Some _ => mkPD (set_model (pd_active s) (assign_slot n v master) (pd_models s))
                             (pd_active s) true
            end
        | PMut f => mkPD (set_model (pd_active s) (f master) (pd_models s)) (pd_active s) true
        | PLate f =>
            mkPD (set_model (pd_active s) (f master) (pd_models s)) (pd_active s) (pd_dirty s)
        | PEval => fst (sync_params s)
        end
    end.

  Definition prun (s : pdisp) (h : list pop) : pdisp := fold_left pstep_ h s.

  (** ** The override pointer of one Model
      [_param_overrides] is the cell; each evaluation in progress has a guard on
      the C++ stack remembering the previous pointer. *)
  Record ostate : Type := mkO { o_cell : option vmap; o_guards : list (option vmap) }.

  Inductive oevent : Type :=
  | OEnter (ov : vmap)   (* internal.h:752-762: the guard is constructed *)
  | OLeave.              (* internal.h:763: the guard is destroyed, by return or by exception *)

  Definition ostep (s : ostate) (e : oevent) : option ostate :=
    match e with
    | OEnter ov => Some (mkO (match ov with [] => o_cell s | _ => Some ov end)
                             (o_cell s :: o_guards s))
    | OLeave => match o_guards s with
                | [] => None
                | prev :: g => Some (mkO prev g)
                end
    end.

  Fixpoint orun (s : ostate) (l : list oevent) : option ostate :=
    match l with
    | [] => Some s
    | e :: l' => match ostep s e with Some s' => orun s' l' | None => None end
    end.

  (** Two threads evaluating the same Model: one cell, one stack each. *)
  Record ostate2 : Type := mkO2
    { o2_cell : option vmap; o2_g1 : list (option vmap); o2_g2 : list (option vmap) }.

  Definition ostep2 (s : ostate2) (who : bool) (e : oevent) : option ostate2 :=
    match ostep (mkO (o2_cell s) (if who then o2_g2 s else o2_g1 s)) e with
    | None => None
    | Some s' => Some (if who then mkO2 (o_cell s') (o2_g1 s) (o_guards s')
                       else mkO2 (o_cell s') (o_guards s') (o2_g2 s))
    end.

  Fixpoint orun2 (s : ostate2) (l : list (bool * oevent)) : option ostate2 :=
    match l with
    | [] => Some s
    | (w, e) :: l' => match ostep2 s w e with Some s' => orun2 s' l' | None => None end
    end.
End Params.
Arguments pop V : clear implicits.
Arguments oevent V : clear implicits.
