(** The failure context of a ConvergenceError (aoti/Exception.h:92-117) on its way from a failed solve through
    Model::forward and DispatchedModel::forward.  Definitions only.

    Simplifications: [exn] carries no tensors, so the context travels beside it; the mask is the list of its elements
    (its shape is the dynamic batch shape); a substepped segment attaches what SubstepLog.v says, its log off. *)
From Coq Require Import String.
From Verif Require Import Base Tensor BatchChunk Broadcast Pack Implicit Substep Mat Jac SubstepJac JacModel SubstepLog FwdModel Dispatch.
Local Open Scope list_scope.

Section FailContext.
  Context {V : Type}.
  Notation vmap := (smap (tensor V)).

  (** Exception.h:107-117: mask and unknowns. *)
  Record fcontext := mkFc { fc_mask : list bool; fc_unknowns : vmap }.

  (** A call that may throw, and what the exception carries (None: an undefined mask and no unknowns). *)
  Definition attempt (X : Type) : Type := result X * option fcontext.
  Definition plain {X} (r : result X) : attempt X := (r, None).
  Definition abind {X Y} (m : attempt X) (f : X -> attempt Y) : attempt Y :=
    match m with (Ok x, _) => f x | (Err e, c) => (Err e, c) end.

  Section Model.
    Variable A : arith V.
    Variable par : string -> result (tensor V).
    Variable base_ndim : smap nat.
    Variable capture : bool.

    (** solve.cpp:404-406: [stuck[v.name] = state.at(v.name)]. *)
    Fixpoint stuck (vs : list var_info) (st : vmap) (acc : vmap) : result vmap :=
      match vs with
      | [] => Ok acc
      | v :: vs' => let* t := at_ (v_name v) st in stuck vs' st (set_ (v_name v) t acc)
      end.

    (** solve.cpp:322-413 [_run_implicit_segment], with what is thrown. *)
    Definition try_implicit (sg : iseg V) (st : vmap) : attempt vmap :=
      abind (plain (fst (prepare_solve (a_zero A) par sg st)))
        (fun '(st, gs, ps, us) =>
           match is_solve sg gs ps us with
           | Ok u => plain (unpack_groups u (is_unknown_groups sg) st)
           | Err (Convergence w) =>
               if capture then
                 abind (plain (is_solve_masked sg gs ps us)) (fun um =>
                 abind (plain (unpack_groups (fst um) (is_unknown_groups sg) st)) (fun st =>
                 abind (plain (stuck (is_unknowns sg) st [])) (fun us =>
                 (Err (Convergence w), Some (mkFc (snd um) us)))))
               else plain (Err (Convergence w))
           | Err e => plain (Err e)
           end).

    (** substep.cpp:155-313, with what is thrown (273-282). *)
    Definition try_substepped (i : iseg V) (level : nat) (st : vmap) : attempt vmap :=
      let (r, w) := watch_substepped A (fun _ _ _ => Ok tt) (fun _ => Ok false) capture (run_implicit_masked (a_zero A) par i)
                                     (is_givens i) (is_unknowns i) level st watch0 in
      (r, match w_attached w with Some c => Some (mkFc (cx_mask c) (cx_unknowns c)) | None => None end).

    (** ops.cpp:168-184: one segment, and all of them. *)
    Definition try_step (batch : list nat) (sg : jseg V) (st : vmap) : attempt vmap :=
      match sg with
      | JF f => plain (run_forward_segment par base_ndim (jf_seg f) batch st)
      | JI i => if Nat.ltb 0 (ji_level i) then try_substepped (ji_seg i) (ji_level i) st else try_implicit (ji_seg i) st
      end.
    Fixpoint try_steps (batch : list nat) (sgs : list (jseg V)) (st : vmap) : attempt vmap :=
      match sgs with
      | [] => plain (Ok st)
      | sg :: r => abind (try_step batch sg st) (try_steps batch r)
      end.

    (** ops.cpp:153-197 [Model::Impl::forward]. *)
    Definition try_forward (infos : list in_info) (sgs : list (jseg V)) (outs : list string) (inputs : vmap) : attempt vmap :=
      abind (plain (prepare_inputs infos inputs)) (fun st =>
      abind (plain (match infos with
                    | [] => Ok []
                    | i :: _ => let* t := at_ (in_name i) st in Ok (batch_shape_of i t)
                    end)) (fun batch =>
      abind (try_steps batch sgs st) (fun st => plain (collect outs st [])))).
  End Model.

  (** DispatchedModel.cpp:119-122: the chunk loop; None: still running when the fuel is used up (as [Unfinished]). *)
  Fixpoint try_loop {R} (fuel : nat) (chunk_fn : Z -> Z -> attempt R) (chunk b s : Z) : option (attempt (list R)) :=
    if (s <? b)%Z then
      match fuel with
      | O => None
      | S fuel' =>
          match chunk_fn s (Z.min chunk (b - s)) with
          | (Err e, c) => Some (Err e, c)
          | (Ok r, _) =>
              match try_loop fuel' chunk_fn chunk b (s + chunk)%Z with
              | None => None
              | Some x => Some (abind x (fun rs => plain (Ok (r :: rs))))
              end
          end
      end
    else Some (plain (Ok [])).
  Definition try_chunks {R} (n b : Z) (chunk_fn : Z -> Z -> attempt R) : option (attempt (list R)) :=
    try_loop (Z.to_nat b) chunk_fn (chunk_extent n b) b 0.

  Section Dispatched.
    (** The compiled Models, per device, with what they throw. *)
    Variable fwd : device -> vmap -> vmap -> attempt vmap.

    (** DispatchedModel.cpp:106-111: an exception passes as it is; only results are moved back to the input device. *)
    Definition try_chunk (D : disp V) (in_dev : device) (b : Z) (inputs : vmap) (d : device) (s cnt : Z) : attempt vmap :=
      abind (plain (slice_batch inputs s cnt)) (fun sl =>
      abind (plain (overrides_for D b d s cnt)) (fun ov =>
      abind (plain (model_at D d)) (fun st =>
      abind (fwd d (effective st ov) (to_device sl d)) (fun out => plain (Ok (to_device out in_dev)))))).

    (** DispatchedModel.cpp:97-124 [forward], synchronous branch, as [sync_forward]. *)
    Definition try_dispatched (n : Z) (D : disp V) (inputs : vmap) : option (attempt vmap) :=
      match input_device inputs with
      | Err e => Some (plain (Err e))
      | Ok in_dev =>
          let b := infer_batch_size inputs in
          if (b <=? chunk_extent n b)%Z && device_eqb (dp_active D) in_dev
          then Some (abind (plain (model_at D (dp_active D))) (fun st => fwd (dp_active D) (effective st []) inputs))
          else match try_chunks n b (try_chunk D in_dev b inputs (dp_active D)) with
               | None => None
               | Some x => Some (abind x (fun rs => plain (cat_batch rs)))
               end
      end.
  End Dispatched.

  (** What leaves run_async: one exception as it was caught, or an AggregateError holding several (Exception.h:126-144). *)
  Inductive raised := One (e : exn) (c : option fcontext) | Several (l : list (exn * option fcontext)).
  Definition dynamic (x : raised) : exn := match x with One e _ => e | Several l => Aggregate (map fst l) end.

  (** DispatchedModel.cpp:596-609. *)
  Definition leave (failures : list (exn * option fcontext)) : option raised :=
    match failures with [] => None | [(e, c)] => Some (One e c) | l => Some (Several l) end.
  (** What a [catch (const ConvergenceError &)] of the caller can read (Exception.h:107-113). *)
  Definition readable (x : raised) : option fcontext := match x with One (Convergence _) c => c | _ => None end.
End FailContext.
Arguments fcontext V : clear implicits.
Arguments attempt V X : clear implicits.
Arguments raised V : clear implicits.
