(** Specification vocabulary for promoted parameters. *)
From Verif Require Import Base Tensor Spec Dispatch Params.

Section S.
  Context {V : Type}.
  Notation vmap := (smap (tensor V)).

  (** The parameters currently visible in the dispatcher's master map. *)
  Definition visible (s : pdisp (V := V)) : option vmap := store_of (pd_active s) (pd_models s).

  Definition devices_of (s : pdisp (V := V)) : list device := map fst (pd_models s).

  (** The Model on device [d] holds every visible parameter, moved to [d]. *)
  Definition up_to_date (s : pdisp (V := V)) (d : device) : Prop :=
    forall master p k v, visible s = Some master -> store_of d (pd_models s) = Some p ->
      d <> pd_active s -> lookup k master = Some v -> lookup k p = Some (to_dev d v).

  (** A dispatcher just constructed: one Model per device, loaded from the same
      artifact. *)
  Definition fresh_disp (s : pdisp (V := V)) (P : vmap) : Prop :=
    NoDup (devices_of s) /\ In (pd_active s) (devices_of s) /\ NoDup (keys P) /\
    (forall d p, In (d, p) (pd_models s) -> p = on_dev d P) /\ all_on (pd_active s) P.

  (** No write through a retained reference. *)
  Definition no_late (h : list (pop V)) : Prop := forall f, ~ In (PLate f) h.

  (** Edits change values only, not the set of parameters. *)
  Definition keeps_keys (h : list (pop V)) : Prop :=
    forall f, In (PMut f) h -> forall m, keys (f m) = keys m.

  (** The overrides of the evaluations in progress, innermost first. *)
  Fixpoint open_calls (l : list (oevent V)) (acc : list vmap) : option (list vmap) :=
    match l with
    | [] => Some acc
    | OEnter ov :: l' => open_calls l' (ov :: acc)
    | OLeave :: l' => match acc with [] => None | _ :: a => open_calls l' a end
    end.

  (** What an evaluation resolves to: the innermost evaluation in progress that
      was given overrides decides. *)
  Fixpoint scope (calls : list vmap) : option vmap :=
    match calls with
    | [] => None
    | [] :: l => scope l
    | ov :: _ => Some ov
    end.
End S.
