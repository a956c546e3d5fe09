(** Implicit segments (aoti/solve.cpp): initial guess, predictor, packing, solve, unpacking.
    Definitions only.

    The nonlinear solve itself is a function of the packed givens, the parameters and the packed
    initial guess (Newton.v models what it does); the compiled graphs are functions on tensors.
    Dtype conversions are left out. *)
From Verif Require Import Base Tensor Broadcast Pack.

(** internal.h:273-293 [VarInfo] of a given: with its substep role and counterpart. *)
Record given_info := mkGiven { gv_var : var_info; gv_role : string; gv_pair : string }.

(** internal.h [PredictorFeedback]. *)
Record feedback := mkFb { fb_iterations : Z; fb_input : string; fb_output : string; fb_sub : list nat; fb_base : list nat }.

Section Implicit.
  Context {V : Type}.
  Variable zero : V.
  Notation vmap := (smap (tensor V)).

  Record predictor := mkPred {
    pr_inputs : list string; pr_params : list string; pr_outputs : list string; pr_feedback : feedback;
    pr_run : list (tensor V) -> result (list (tensor V))
  }.

  (** The parts of a Segment used here.  The solves take packed givens, parameters and the packed
      initial guess; the masked one also returns the mask. *)
  Record iseg := mkIseg {
    is_givens : list given_info; is_unknowns : list var_info;
    is_given_groups : list group_info; is_unknown_groups : list group_info;
    is_params : list string;
    is_predictor : option predictor;
    is_solve : list (tensor V) -> list (tensor V) -> list (tensor V) -> result (list (tensor V));
    is_solve_masked : list (tensor V) -> list (tensor V) -> list (tensor V) -> result (list (tensor V) * list bool)
  }.

  (** [at::zeros(shape, opts)]. *)
  Definition zeros (sh : list nat) (d : device) : tensor V := mkT sh (repeat zero (numel sh)) d.

  (** Calls of the predictor graph made on the way, oldest first. *)
  Definition log (A : Type) : Type := result A * list (list (tensor V)).

  Section Run.
    Variable par : string -> result (tensor V).   (* _resolve_param *)

    (** solve.cpp:285-314: one pass over the predictor graph. *)
    Definition predictor_pass (p : predictor) (dev : device) (st : vmap) : log vmap :=
      match mapM (fun n => match lookup n st with
                           | Some t => Ok t
                           | None => Err (Fatal "aoti::Model: implicit segment predictor needs input")
                           end) (pr_inputs p) with
      | Err e => (Err e, [])
      | Ok ins =>
          match mapM par (pr_params p) with
          | Err e => (Err e, [])
          | Ok ps =>
              (let* outs := pr_run p (ins ++ ps) in
               let* _ := assert_ (Nat.eqb (length outs) (length (pr_outputs p))) "aoti::Model: predictor returned wrong number of outputs" in
               Ok (set_all (pr_outputs p) (map (to_dev dev) outs) st),
               [ins ++ ps])
          end
      end.

    (** solve.cpp:315-318: feed the output back.  [state[fb.output]] default-constructs a missing
        entry, which is then an undefined tensor: [OtherExn] here. *)
    Definition feed (fb : feedback) (st : vmap) : result vmap :=
      match lookup (fb_output fb) st with
      | Some t => Ok (set_ (fb_input fb) t st)
      | None => Err (OtherExn 0)
      end.

    (** solve.cpp:283-319: the loop. *)
    Fixpoint predictor_loop (p : predictor) (dev : device) (iterating : bool) (passes : nat) (st : vmap) : log vmap :=
      match passes with
      | 0 => (Ok st, [])
      | S k =>
          let (r, l) := predictor_pass p dev st in
          match (let* st := r in if iterating then feed (pr_feedback p) st else Ok st) with
          | Err e => (Err e, l)
          | Ok st => let (r', l') := predictor_loop p dev iterating k st in (r', l ++ l')
          end
      end.

    (** solve.cpp:253-320 [_run_predictor]. *)
    Definition run_predictor (sg : iseg) (dev : device) (batch : list nat) (st : vmap) : log vmap :=
      match is_predictor sg with
      | None => (Ok st, [])
      | Some p =>
          let fb := pr_feedback p in
          let iterating := (0 <? fb_iterations fb)%Z in
          let st := if iterating then set_ (fb_input fb) (zeros (batch ++ fb_sub fb ++ fb_base fb) dev) st else st in
          predictor_loop p dev iterating (if iterating then Z.to_nat (fb_iterations fb) else 1) st
      end.

    (** solve.cpp:370-372: zeros for the unknowns without a value. *)
    Fixpoint seed_unknowns (vs : list var_info) (dev : device) (batch : list nat) (st : vmap) : vmap :=
      match vs with
      | [] => st
      | v :: vs' =>
          let st := match lookup (v_name v) st with
                    | Some _ => st
                    | None => set_ (v_name v) (zeros (batch ++ v_sub v ++ v_base v) dev) st
                    end in
          seed_unknowns vs' dev batch st
      end.

    (** solve.cpp:332-378, 424-460: what the solve is given. *)
    Definition prepare_solve (sg : iseg) (st : vmap) : log (vmap * list (tensor V) * list (tensor V) * list (tensor V)) :=
      match is_givens sg with
      | [] => (Err (Fatal "aoti::Model: implicit segment has no givens"), [])
      | g0 :: _ =>
          let v0 := gv_var g0 in
          match lookup (v_name v0) st with
          | None => (Err (Fatal "aoti::Model: implicit segment needs given"), [])
          | Some t0 =>
              let trail := length (v_sub v0) + length (v_base v0) in
              if Nat.ltb (dim t0) trail then (Err (Fatal "aoti::Model: given tensor ndim too small"), [])
              else
                let batch := firstn (dim t0 - trail) (t_shape t0) in
                let dev := t_dev t0 in
                let st := seed_unknowns (is_unknowns sg) dev batch st in
                let (r, l) := run_predictor sg dev batch st in
                (let* st := r in
                 let* gs := pack_groups st (is_given_groups sg) in
                 let* us := pack_groups st (is_unknown_groups sg) in
                 let* ps := mapM par (is_params sg) in
                 Ok (st, gs, ps, us), l)
          end
      end.

    (** solve.cpp:322-413 [_run_implicit_segment]; returns the new state.  With [capture] a failed
        solve is repeated in masking mode and the error thrown again with the same message (its
        payload, the mask and the iterate, is not carried by [exn]). *)
    Definition run_implicit (capture : bool) (sg : iseg) (st : vmap) : result vmap :=
      let* (st, gs, ps, us) := fst (prepare_solve sg st) in
      match is_solve sg gs ps us with
      | Ok u => unpack_groups u (is_unknown_groups sg) st
      | Err (Convergence w) =>
          if capture then
            let* um := is_solve_masked sg gs ps us in
            let* st := unpack_groups (fst um) (is_unknown_groups sg) st in
            let* _ := mapM (fun v => at_ (v_name v) st) (is_unknowns sg) in
            Err (Convergence w)
          else Err (Convergence w)
      | Err e => Err e
      end.

    (** solve.cpp:415-467 [_run_implicit_segment_masked]. *)
    Definition run_implicit_masked (sg : iseg) (st : vmap) : result (vmap * list bool) :=
      let* (st, gs, ps, us) := fst (prepare_solve sg st) in
      let* (u, m) := is_solve_masked sg gs ps us in
      let* st := unpack_groups u (is_unknown_groups sg) st in
      Ok (st, m).
  End Run.
End Implicit.
Arguments predictor V : clear implicits.
Arguments iseg V : clear implicits.
Arguments log V A : clear implicits.
