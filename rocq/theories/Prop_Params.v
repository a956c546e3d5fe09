(** Properties C21-C23: parameters across devices, per-call overrides, boundary
    renames. *)
From Verif Require Import Base BaseProofs Tensor Spec SpecDispatch BatchChunk Dispatch Params SpecParams ParamsProofs
     Except SpecMap Rename SpecRename RenameProofs.

(** * C21 *)

(** After any history of set_parameter calls, mutable accesses and evaluations, an
    evaluation either stops with an exception before any chunk is run (some
    visible parameter does not exist on another device) or sees, on every device,
    the visible value of every visible parameter. *)
Theorem C21_every_device_up_to_date : forall V (s : pdisp (V := V)) P h,
  fresh_disp s P -> keeps_map h -> no_late h ->
  snd (sync_params (prun s h)) = Ok tt ->
  forall d, up_to_date (fst (sync_params (prun s h))) d.
Proof. exact @history_up_to_date. Qed.
Print Assumptions C21_every_device_up_to_date.

(** When the edits change values only, the evaluation is never stopped and every
    device holds exactly the visible map: the hypothesis [pc_stores] of the
    dispatch theorems (C09), whatever happened before. *)
Theorem C21_copies_exact : forall V (s : pdisp (V := V)) P h,
  fresh_disp s P -> keeps_keys h -> no_late h ->
  let s' := fst (sync_params (prun s h)) in
  snd (sync_params (prun s h)) = Ok tt /\
  exists m, visible s' = Some m /\ visible (prun s h) = Some m /\ keys m = keys P /\
    forall d, In d (devices_of s) ->
      store_of d (pd_models s') = Some (if device_eqb d (pd_active s) then m else on_dev d m).
Proof. exact @history_exact. Qed.
Print Assumptions C21_copies_exact.

Definition ex_pd : pdisp (V := Z) :=
  mkPD [(cpu, [("k"%string, mkT [] [3%Z] cpu)]); (cuda 0, [("k"%string, mkT [] [3%Z] (cuda 0))])] cpu false.
Definition ex_hist : list (pop Z) :=
  [PEval; PSet "k" (mkT [2] [5%Z; 6%Z] cpu); PEval; PMut (fun m => assign_slot "k" (mkT [] [7%Z] cpu) m)].

Example C21_hypotheses :
  fresh_disp ex_pd [("k"%string, mkT [] [3%Z] cpu)] /\ keeps_keys ex_hist /\ keeps_map ex_hist /\
  no_late ex_hist.
Proof.
  split; [|split; [|split]].
  - split; [|split; [|split; [|split]]].
    + vm_compute. constructor; [intros [E|[]]; discriminate|]. constructor; [intros []|constructor].
    + vm_compute. left. reflexivity.
    + vm_compute. constructor; [intros []|constructor].
    + intros d p [E|[E|[]]]; injection E as <- <-; reflexivity.
    + repeat constructor.
  - intros f [E|[E|[E|[E|[]]]]]; try discriminate. injection E as <-. intros m. apply keys_assign_slot.
  - intros f [E|[E|[E|[E|[]]]]]; try discriminate. injection E as <-. intros m.
    rewrite keys_assign_slot. exact (fun H => H).
  - intros f [E|[E|[E|[E|[]]]]]; discriminate.
Qed.

Example C21_case :
  let s' := fst (sync_params (prun ex_pd ex_hist)) in
  store_of (cuda 0) (pd_models (prun ex_pd ex_hist)) = Some [("k"%string, mkT [2] [5%Z; 6%Z] (cuda 0))] /\
  store_of (cuda 0) (pd_models s') = Some [("k"%string, mkT [] [7%Z] (cuda 0))].
Proof. vm_compute. split; reflexivity. Qed.

(** Finding: a reference obtained from named_parameters() before an evaluation and
    written afterwards leaves the other devices on the old value. *)
Theorem C21_retained_reference_refuted :
  exists (s : pdisp (V := Z)) P h d m p k v,
    fresh_disp s P /\
    (* the only writes go through named_parameters() *)
    (forall o, In o h -> o = PEval \/ (exists f, o = PMut f \/ o = PLate f)) /\
    let s' := fst (sync_params (prun s h)) in
    snd (sync_params (prun s h)) = Ok tt /\ visible s' = Some m /\
    store_of d (pd_models s') = Some p /\ lookup k m = Some v /\ lookup k p <> Some (to_dev d v).
Proof.
  exists ex_pd, [("k"%string, mkT [] [3%Z] cpu)],
    [PMut (fun m => m); PEval; PLate (fun m => assign_slot "k" (mkT [] [9%Z] cpu) m)],
    (cuda 0), [("k"%string, mkT [] [9%Z] cpu)], [("k"%string, mkT [] [3%Z] (cuda 0))],
    "k"%string, (mkT [] [9%Z] cpu).
  split; [apply C21_hypotheses|]. split.
  - intros o [<-|[<-|[<-|[]]]]; eauto.
  - vm_compute. repeat (split; [reflexivity|]). discriminate.
Qed.
Print Assumptions C21_retained_reference_refuted.

(** Finding: a parameter erased from the master map stays on the other devices,
    so the primary device fails on it while the others use the old value. *)
Theorem C21_erased_parameter_refuted :
  exists (s : pdisp (V := Z)) P h d m p k,
    fresh_disp s P /\ no_late h /\
    let s' := fst (sync_params (prun s h)) in
    snd (sync_params (prun s h)) = Ok tt /\ visible s' = Some m /\ lookup k m = None /\
    store_of d (pd_models s') = Some p /\ lookup k p <> None.
Proof.
  exists ex_pd, [("k"%string, mkT [] [3%Z] cpu)], [PMut (fun _ => [])],
    (cuda 0), [], [("k"%string, mkT [] [3%Z] (cuda 0))], "k"%string.
  split; [apply C21_hypotheses|]. split; [intros f [E|[]]; discriminate|].
  vm_compute. repeat (split; [reflexivity|]). discriminate.
Qed.
Print Assumptions C21_erased_parameter_refuted.

(** * C22 *)

(** At every moment of every well-nested sequence of evaluations of one Model,
    ended by return or by exception, a parameter resolves to the override of the
    innermost evaluation in progress that was given overrides, if that lists it,
    and to the stored value otherwise. *)
Theorem C22_overrides_scoped : forall V (l : list (oevent V)) calls,
  open_calls l [] = Some calls ->
  exists s', orun (mkO None []) l = Some s' /\
  forall t store n,
    let key := translate (param_o2e t) n in
    let listed := match scope calls with Some ov => lookup key ov | None => None end in
    (forall v, listed = Some v -> resolve_param t (o_cell s') store n = Ok v) /\
    (listed = None -> forall v, resolve_param t (o_cell s') store n = Ok v <-> lookup key store = Some v).
Proof.
  intros V l calls H. destruct (override_scoped l calls H) as (s' & R & C). exists s'.
  split; [exact R|]. intros t store n key listed. unfold resolve_param. fold key. rewrite C.
  unfold listed. split.
  - intros v E. destruct (scope calls) as [ov|]; [|discriminate]. rewrite E. reflexivity.
  - intros E v. destruct (scope calls) as [ov|]; [rewrite E|]; destruct (lookup key store);
      split; congruence.
Qed.
Print Assumptions C22_overrides_scoped.

(** When the evaluations started in [l2] have ended, resolution is what it was. *)
Theorem C22_restored : forall V (l1 l2 : list (oevent V)) calls,
  open_calls l1 [] = Some calls -> open_calls (l1 ++ l2) [] = Some calls ->
  exists s1 s2, orun (mkO None []) l1 = Some s1 /\ orun (mkO None []) (l1 ++ l2) = Some s2 /\
    forall t store n, resolve_param t (o_cell s2) store n = resolve_param t (o_cell s1) store n.
Proof.
  intros V l1 l2 calls H1 H2. destruct (override_scoped l1 calls H1) as (s1 & R1 & C1).
  destruct (override_scoped _ calls H2) as (s2 & R2 & C2). exists s1, s2.
  split; [exact R1|]. split; [exact R2|]. intros t store n. rewrite C1, C2. reflexivity.
Qed.
Print Assumptions C22_restored.

Definition ex_ov (z : Z) : smap (tensor Z) := [("k"%string, mkT [] [z] cpu)].

(** Override 1, an inner evaluation without overrides, an inner one with override 2. *)
Example C22_case :
  let l := [OEnter (ex_ov 1); OEnter []; OLeave; OEnter (ex_ov 2)] in
  let t := load_tables (mkAliases [] [] []) in
  open_calls l [] = Some [ex_ov 2; ex_ov 1] /\
  (exists s, orun (mkO None []) l = Some s /\
             resolve_param t (o_cell s) (ex_ov 9) "k" = Ok (mkT [] [2%Z] cpu)) /\
  (exists s, orun (mkO None []) (firstn 2 l) = Some s /\
             resolve_param t (o_cell s) (ex_ov 9) "k" = Ok (mkT [] [1%Z] cpu)) /\
  (exists s, orun (mkO None []) (l ++ [OLeave; OLeave]) = Some s /\
             resolve_param t (o_cell s) (ex_ov 9) "k" = Ok (mkT [] [9%Z] cpu)).
Proof.
  split; [reflexivity|]. repeat split; eexists; split; reflexivity.
Qed.

(** Finding: the pointer lives in the (const) Model, so two threads evaluating one
    Model at the same time interfere: thread 1 resolves to thread 2's override, and
    after both have ended the pointer still designates thread 1's, now dead, map. *)
Theorem C22_concurrent_refuted :
  exists (ev : list (bool * oevent Z)) n s1 s2,
    (* each thread by itself makes one complete evaluation *)
    map snd (filter (fun x => negb (fst x)) ev) = [OEnter (ex_ov 1); OLeave] /\
    map snd (filter fst ev) = [OEnter (ex_ov 2); OLeave] /\
    orun2 (mkO2 None [] []) (firstn n ev) = Some s1 /\ o2_g1 s1 <> [] /\
    resolve_param (load_tables (mkAliases [] [] [])) (o2_cell s1) (ex_ov 9) "k" = Ok (mkT [] [2%Z] cpu) /\
    orun2 (mkO2 None [] []) ev = Some s2 /\ o2_g1 s2 = [] /\ o2_g2 s2 = [] /\ o2_cell s2 = Some (ex_ov 1).
Proof.
  exists [(false, OEnter (ex_ov 1)); (true, OEnter (ex_ov 2)); (false, OLeave); (true, OLeave)], 2.
  eexists _, _. split; [reflexivity|]. split; [reflexivity|]. split; [reflexivity|].
  split; [discriminate|]. split; [reflexivity|]. split; [reflexivity|].
  split; [reflexivity|]. split; reflexivity.
Qed.
Print Assumptions C22_concurrent_refuted.

(** * C23 *)

(** [a] is the artifact's rename table, [impl] the unrenamed operation; [ins], [outs],
    [pars] are names among which no two share a boundary name. *)
Theorem C23_forward : forall T a ins outs (impl : smap T -> result (smap T)) I I',
  NoDup (keys (al_in a)) -> NoDup (keys (al_out a)) ->
  clash_free (al_in a) ins -> clash_free (al_out a) outs ->
  sorted I -> keys_in ins I -> renamed (boundary (al_in a)) I I' ->
  (forall out, impl I = Ok out -> sorted out -> keys_in outs out ->
     exists out', facade_forward (load_tables a) impl I' = Ok out' /\
                  renamed (boundary (al_out a)) out out') /\
  (forall e, impl I = Err e -> facade_forward (load_tables a) impl I' = guarded (Err e)).
Proof.
  intros T a ins outs impl I I' N1 N2 C1 C2.
  exact (forward_transparent a N1 N2 ins outs C1 C2 impl I I').
Qed.
Print Assumptions C23_forward.

Theorem C23_jvp : forall T a ins outs (impl : smap T -> smap T -> result (smap T * smap T)) I I' W W',
  NoDup (keys (al_in a)) -> NoDup (keys (al_out a)) ->
  clash_free (al_in a) ins -> clash_free (al_out a) outs ->
  sorted I -> keys_in ins I -> renamed (boundary (al_in a)) I I' ->
  sorted W -> keys_in ins W -> renamed (boundary (al_in a)) W W' ->
  (forall out jout, impl I W = Ok (out, jout) ->
     sorted out -> keys_in outs out -> sorted jout -> keys_in outs jout ->
     exists out' jout', facade_jvp (load_tables a) impl I' W' = Ok (out', jout') /\
       renamed (boundary (al_out a)) out out' /\ renamed (boundary (al_out a)) jout jout') /\
  (forall e, impl I W = Err e -> facade_jvp (load_tables a) impl I' W' = guarded (Err e)).
Proof.
  intros T a ins outs impl I I' W W' N1 N2 C1 C2.
  exact (jvp_transparent a N1 N2 ins outs C1 C2 impl I I' W W').
Qed.
Print Assumptions C23_jvp.

Theorem C23_jacobian : forall T a ins outs (impl : smap T -> result (smap T * smap (smap T))) I I',
  NoDup (keys (al_in a)) -> NoDup (keys (al_out a)) ->
  clash_free (al_in a) ins -> clash_free (al_out a) outs ->
  sorted I -> keys_in ins I -> renamed (boundary (al_in a)) I I' ->
  (forall out jac, impl I = Ok (out, jac) -> sorted out -> keys_in outs out ->
     sorted jac -> keys_in outs jac ->
     (forall k r, In (k, r) jac -> sorted r /\ keys_in ins r) ->
     exists out' jac', facade_jacobian (load_tables a) impl I' = Ok (out', jac') /\
       renamed (boundary (al_out a)) out out' /\
       renamed2 (boundary (al_out a)) (boundary (al_in a)) jac jac') /\
  (forall e, impl I = Err e -> facade_jacobian (load_tables a) impl I' = guarded (Err e)).
Proof.
  intros T a ins outs impl I I' N1 N2 C1 C2.
  exact (jacobian_transparent a N1 N2 ins outs C1 C2 impl I I').
Qed.
Print Assumptions C23_jacobian.

Theorem C23_param_jacobian : forall T a ins outs pars
    (impl : smap T -> result (smap T * smap (smap T))) I I',
  NoDup (keys (al_in a)) -> NoDup (keys (al_out a)) -> NoDup (keys (al_param a)) ->
  clash_free (al_in a) ins -> clash_free (al_out a) outs -> clash_free (al_param a) pars ->
  sorted I -> keys_in ins I -> renamed (boundary (al_in a)) I I' ->
  (forall out jac, impl I = Ok (out, jac) -> sorted out -> keys_in outs out ->
     sorted jac -> keys_in outs jac ->
     (forall k r, In (k, r) jac -> sorted r /\ keys_in pars r) ->
     exists out' jac', facade_param_jacobian (load_tables a) impl I' = Ok (out', jac') /\
       renamed (boundary (al_out a)) out out' /\
       renamed2 (boundary (al_out a)) (boundary (al_param a)) jac jac') /\
  (forall e, impl I = Err e -> facade_param_jacobian (load_tables a) impl I' = guarded (Err e)).
Proof.
  intros T a ins outs pars impl I I' N1 N2 N3 C1 C2 C3.
  exact (param_jacobian_transparent a N1 N2 N3 ins outs pars C1 C2 C3 impl I I').
Qed.
Print Assumptions C23_param_jacobian.

Theorem C23_param_vjp : forall T a ins outs pars (impl : smap T -> smap T -> result (smap T)) I I' C C',
  NoDup (keys (al_in a)) -> NoDup (keys (al_out a)) -> NoDup (keys (al_param a)) ->
  clash_free (al_in a) ins -> clash_free (al_out a) outs -> clash_free (al_param a) pars ->
  sorted I -> keys_in ins I -> renamed (boundary (al_in a)) I I' ->
  sorted C -> keys_in outs C -> renamed (boundary (al_out a)) C C' ->
  (forall g, impl I C = Ok g -> sorted g -> keys_in pars g ->
     exists g', facade_param_vjp (load_tables a) impl I' C' = Ok g' /\
                renamed (boundary (al_param a)) g g') /\
  (forall e, impl I C = Err e -> facade_param_vjp (load_tables a) impl I' C' = guarded (Err e)).
Proof.
  intros T a ins outs pars impl I I' C C' N1 N2 N3 C1 C2 C3.
  exact (param_vjp_transparent a N1 N2 N3 ins outs pars C1 C2 C3 impl I I' C C').
Qed.
Print Assumptions C23_param_vjp.

(** Parameters: what is loaded from the metadata is the renamed list, and a segment's
    reference by original name finds the override or stored value of the boundary name. *)
Theorem C23_parameters_loaded : forall T a pars (params : list (string * T)),
  NoDup (keys (al_param a)) -> clash_free (al_param a) pars ->
  NoDup (keys params) -> keys_in pars params ->
  renamed (boundary (al_param a)) params (load_parameters (load_tables a) params).
Proof. intros T a pars params N C. exact (load_parameters_renamed a N pars C params). Qed.
Print Assumptions C23_parameters_loaded.

Theorem C23_parameters_resolve : forall T a pars (ov ov' : option (smap T)) store store' n,
  NoDup (keys (al_param a)) -> clash_free (al_param a) pars ->
  keys_in pars store -> renamed (boundary (al_param a)) store store' ->
  match ov, ov' with
  | None, None => True
  | Some o, Some o' => keys_in pars o /\ renamed (boundary (al_param a)) o o'
  | _, _ => False
  end ->
  In n pars ->
  resolve_param (load_tables a) ov' store' n
  = match (match ov with Some o => lookup n o | None => None end) with
    | Some v => Ok v
    | None => match lookup n store with
              | Some v => Ok v
              | None => Err (Fatal "segment references a missing promoted parameter")
              end
    end.
Proof. intros T a pars ov ov' store store' n N C. exact (resolve_transparent a N pars C ov ov' store store' n). Qed.
Print Assumptions C23_parameters_resolve.

(** A rename that swaps two inputs. *)
Definition ex_al : aliases := mkAliases [("a", "b"); ("b", "a")]%string [("y", "out")]%string [].

Example C23_hypotheses :
  NoDup (keys (al_in ex_al)) /\ clash_free (al_in ex_al) ["a"; "b"; "c"]%string /\
  clash_free (al_out ex_al) ["y"; "z"]%string /\
  sorted [("a", 1); ("b", 2); ("c", 3)]%string /\
  renamed (boundary (al_in ex_al)) [("a", 1); ("b", 2); ("c", 3)]%string
          [("a", 2); ("b", 1); ("c", 3)]%string.
Proof.
  split; [|split; [|split; [|split]]].
  - vm_compute. constructor; [intros [E|[]]; discriminate|]. constructor; [intros []|constructor].
  - intros x y Ix Iy. cbn in Ix, Iy.
    destruct Ix as [<-|[<-|[<-|[<-|[<-|[]]]]]], Iy as [<-|[<-|[<-|[<-|[<-|[]]]]]]; vm_compute; congruence.
  - intros x y Ix Iy. cbn in Ix, Iy.
    destruct Ix as [<-|[<-|[<-|[]]]], Iy as [<-|[<-|[<-|[]]]]; vm_compute; congruence.
  - repeat constructor.
  - split; [repeat constructor|]. split; [|split; [|reflexivity]].
    + intros k v. cbn [lookup].
      destruct (String.eqb_spec k "a") as [->|]; [intros E; injection E as <-; reflexivity|].
      destruct (String.eqb_spec k "b") as [->|]; [intros E; injection E as <-; reflexivity|].
      destruct (String.eqb_spec k "c") as [->|]; [intros E; injection E as <-; reflexivity|].
      discriminate.
    + intros e v. cbn [lookup].
      destruct (String.eqb_spec e "a") as [->|]; [intros E; injection E as <-; exists "b"%string; split; reflexivity|].
      destruct (String.eqb_spec e "b") as [->|]; [intros E; injection E as <-; exists "a"%string; split; reflexivity|].
      destruct (String.eqb_spec e "c") as [->|]; [intros E; injection E as <-; exists "c"%string; split; reflexivity|].
      discriminate.
Qed.

Example C23_case :
  facade_forward (load_tables ex_al)
    (fun I => match lookup "a" I, lookup "b" I with
              | Some x, Some y => Ok [("y", x - y); ("z", x)]%string
              | _, _ => Err (Fatal "missing")
              end)
    [("a", 2); ("b", 7)]%string = Ok [("out", 5); ("z", 7)]%string.
Proof. reflexivity. Qed.

(** Finding: outside [clash_free] entries are lost without an error, and an
    undeclared entry under the original name shadows the renamed input. *)
Theorem C23_clash_refuted :
  exists a (impl : smap nat -> result (smap nat)) I,
    (exists out, impl (rekey I (in_e2o (load_tables a))) = Ok out /\ length out = 2) /\
    exists out', facade_forward (load_tables a) impl I = Ok out' /\ length out' = 1.
Proof.
  exists (mkAliases [] [("y", "z")]%string []), (fun _ => Ok [("y", 1); ("z", 2)]%string), [("x", 0)]%string.
  split; eexists; split; reflexivity.
Qed.
Print Assumptions C23_clash_refuted.

Theorem C23_original_name_shadows_refuted :
  exists a (impl : smap nat -> result (smap nat)),
    clash_free (al_in a) ["a"]%string /\
    facade_forward (load_tables a) impl [("x", 1)]%string = Ok [("y", 1)]%string /\
    facade_forward (load_tables a) impl [("a", 2); ("x", 1)]%string = Ok [("y", 2)]%string.
Proof.
  exists (mkAliases [("a", "x")]%string [] []),
    (fun I => match lookup "a" I with Some v => Ok [("y", v)]%string | None => Err (Fatal "missing") end).
  split; [|split; reflexivity].
  intros x y Ix Iy. cbn in Ix, Iy.
  destruct Ix as [<-|[<-|[]]], Iy as [<-|[<-|[]]]; congruence.
Qed.
Print Assumptions C23_original_name_shadows_refuted.
