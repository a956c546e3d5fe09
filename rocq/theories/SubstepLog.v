(** The substepping drivers (aoti/substep.cpp) with their console output, their counters and the context they attach to
    a failure.  Definitions only.

    [Substep] and [SubstepJac] leave these out.  The two recursions of substep.cpp (211-290, 388-483) are the same text
    but for what is solved and what is stored, so one recursion is given here, with the solve and the store as arguments.

    Simplifications: a line of text is a [span_note] of the numbers in it; [say] is what [log::emit] does with it (a sink
    may throw), depending on what was emitted before; the counters do not wrap; the text of the error is that of
    [Substep], the two numbers in it are kept beside it ([w_raised]); what is attached is kept beside the error too
    ([w_attached]), as [exn] carries no tensors. *)
From Verif Require Import Base Tensor BatchChunk Broadcast Pack Implicit Substep Jac SubstepJac Log.

(** substep.cpp:237-241 and 416-420; 295-298 and 489-492. *)
Inductive span_note (V : Type) :=
| NSpan (a b : V) (level active converged failed : nat)
| NSummary (path : string) (B substepped depth solves : nat).
Arguments NSpan {V}. Arguments NSummary {V}.

Section SubstepLog.
  Context {V : Type}.
  Variable A : arith V.
  Notation vmap := (smap (tensor V)).

  (** What a call does, in order: solves of the segment, and emitted lines. *)
  Inductive span_event := ESolve (e : solve_log (V := V)) | ELine (l : level) (m : span_note V).
  Definition solves_of (l : list span_event) : list (solve_log (V := V)) :=
    flat_map (fun e => match e with ESolve s => [s] | ELine _ _ => [] end) l.
  Definition lines_of (l : list span_event) : list (level * span_note V) :=
    flat_map (fun e => match e with ESolve _ => [] | ELine l m => [(l, m)] end) l.

  (** The mask and the unknowns a failure carries; the mask has a shape of its own (errors.h). *)
  Record context := mkContext { cx_shape : list nat; cx_mask : list bool; cx_unknowns : vmap }.

  (** substep.cpp:208-210 and 385-387, and what was thrown. *)
  Record watch := mkWatch {
    w_solves : nat; w_depth : nat; w_sub : nat; w_cap : option (list bool * vmap);
    w_events : list span_event; w_raised : option (nat * nat); w_attached : option context
  }.
  Definition watch0 : watch := mkWatch 0 0 0 None [] None None.

  Definition wio (X : Type) : Type := watch -> result X * watch.
  Definition wret {X} (x : X) : wio X := fun w => (Ok x, w).
  Definition wres {X} (r : result X) : wio X := fun w => (r, w).
  Definition wbind {X Y} (m : wio X) (f : X -> wio Y) : wio Y :=
    fun w => match m w with (Ok x, w') => f x w' | (Err e, w') => (Err e, w') end.
  Notation "'dow' x '<-' e1 'in' e2" := (wbind e1 (fun x => e2))
    (at level 200, x pattern, e1 at level 100, e2 at level 200, right associativity).

  Variable say : list (level * span_note V) -> level -> span_note V -> result unit.
  Variable is_on : level -> result bool.

  Definition emit (l : level) (m : span_note V) : wio unit := fun w =>
    (say (lines_of (w_events w)) l m,
     mkWatch (w_solves w) (w_depth w) (w_sub w) (w_cap w) (w_events w ++ [ELine l m]) (w_raised w) (w_attached w)).
  Definition wwhen (b : bool) (m : wio unit) : wio unit := if b then m else wret tt.

  (** substep.cpp:221-224 and 401-404, with the solve noted. *)
  Definition count_solve (lev : nat) (e : solve_log (V := V)) (failed : nat) : wio unit := fun w =>
    (Ok tt, mkWatch (S (w_solves w)) (Nat.max (w_depth w) lev) (if lev =? 0 then failed else w_sub w) (w_cap w)
                    (w_events w ++ [ESolve e]) (w_raised w) (w_attached w)).
  Definition set_cap (mask : list bool) (us : vmap) : wio unit := fun w =>
    (Ok tt, mkWatch (w_solves w) (w_depth w) (w_sub w) (Some (mask, us)) (w_events w) (w_raised w) (w_attached w)).
  (** [throw ConvergenceError]; the numbers of its message, and what it carries. *)
  Definition throw_failed {X} (failed lev : nat) (c : option context) : wio X := fun w =>
    (Err (Convergence "aoti::Model substepping: element(s) failed to converge at max_substepping_level"),
     mkWatch (w_solves w) (w_depth w) (w_sub w) (w_cap w) (w_events w) (Some (failed, lev)) c).

  (** [cap_mask.reshape(dyn)]. *)
  Definition reshape_mask (mask : list bool) (dyn : option (list nat)) : result (list nat * list bool) :=
    match dyn with
    | None => Ok ([length mask], mask)
    | Some d => if numel d =? length mask then Ok (d, mask) else Err (StdExn "reshape: invalid shape")
    end.

  Section Recursion.
    Context {Bufs Span : Type}.
    Variable capture debug : bool.
    Variable unknowns : list var_info.
    Variable dyn : option (list nat).            (* the batch, if the givens were flattened *)
    Variable solve : V -> V -> list Z -> Bufs -> result (Span * list bool).
    Variable values : Span -> vmap.              (* [span] *)
    Variable save : list Z -> list Z -> Span -> Bufs -> result Bufs.

    (** substep.cpp:225-233 and 405-412 *)
    Definition capture_at (lev : nat) (mask : list bool) (span : Span) : wio unit :=
      wwhen (capture && (lev =? 0))
        (dow us <- wres (take_all (unknown_srcs unknowns) (values span) []) in set_cap mask us).

    (** substep.cpp:264-283 and 458-476: the level-0 context into the error. *)
    Definition give_up (failed lev : nat) : wio Bufs := fun w =>
      if capture then
        match w_cap w with
        | None => (Err (StdExn "map::at"), w)
        | Some (mask, us) =>
            (dow stuck <- wres (put_results unknowns us dyn []) in
             dow (shape, mask) <- wres (reshape_mask mask dyn) in
             throw_failed failed lev (Some (mkContext shape mask stuck))) w
        end
      else throw_failed failed lev None w.

    (** substep.cpp:211-290 and 388-483 [solve_to]; [left] is max_substepping_level - [lev]. *)
    Fixpoint watch_to (left lev : nat) (a b : V) (active : list Z) (bufs : Bufs) : wio Bufs :=
      dow (span, mask) <- wres (solve a b active bufs) in
      let conv := positions true 0 mask in
      let fail := positions false 0 mask in
      dow _ <- count_solve lev (a, b, active, mask) (length fail) in
      dow _ <- capture_at lev mask span in
      dow _ <- wwhen debug (emit Debug (NSpan a b lev (length active) (length conv) (length fail))) in
      dow bufs <- wres (save active conv span bufs) in
      match fail with
      | [] => wret bufs
      | _ =>
          match left with
          | 0 => give_up (length fail) lev
          | S left' =>
              dow fail_g <- wres (pick active fail) in
              let mid := a_mul A (a_half A) (a_add A a b) in
              dow bufs <- watch_to left' (S lev) a mid fail_g bufs in
              watch_to left' (S lev) mid b fail_g bufs
          end
      end.

    (** substep.cpp:292-300 and 486-494 *)
    Definition summary (info : bool) (path : string) (B : nat) : wio unit := fun w =>
      wwhen info (emit Info (NSummary path B (w_sub w) (w_depth w) (w_solves w))) w.
  End Recursion.

  (** substep.cpp:155-313 [_run_implicit_segment_substepped_masked]; what comes before the questions to the log as in
      [run_substepped]. *)
  Definition watch_substepped (capture : bool) (masked : vmap -> result (vmap * list bool)) (givens : list given_info)
             (unknowns : list var_info) (level : nat) (st : vmap) : wio vmap :=
    match givens with
    | [] => wres (Err (OtherExn 0))
    | g0 :: _ =>
        let v0 := gv_var g0 in
        dow t0 <- wres (at_ (v_name v0) st) in
        if Nat.ltb (dim t0) (var_trail v0) then wres (Err (OtherExn 0))
        else
          let dyn := firstn (dim t0 - var_trail v0) (t_shape t0) in
          let needed := negb (Nat.eqb (length dyn) 1) in
          let batch := if needed then Some dyn else None in
          dow (orig, B, bufs) <-
            wres (let* flat := if needed then flatten_givens givens st else Ok st in
                  let* orig := collect_givens givens flat [] in
                  let* f0 := at_ (v_name v0) orig in
                  match firstn (dim f0 - var_trail v0) (t_shape f0) with
                  | [] => Err (OtherExn 0)
                  | B :: rest =>
                      let* ch := collect_givens (filter is_old_state givens) orig [] in
                      let res := fold_left (fun m u => set_ (v_name u)
                                   (zeros (a_zero A) (B :: rest ++ v_sub u ++ v_base u) (t_dev f0)) m) unknowns [] in
                      Ok (orig, B, (res, ch))
                  end) in
          dow info <- wres (is_on Info) in
          dow debug <- wres (is_on Debug) in
          dow bufs <- watch_to capture debug unknowns batch
                        (fun a b active bufs => solve_span A masked givens orig a b active (snd bufs)) (fun span => span)
                        (store givens unknowns) level 0 (a_zero A) (a_one A) (map Z.of_nat (seq 0 B)) bufs in
          dow _ <- summary info "value" B in
          wres (put_results unknowns (fst bufs) batch st)
    end.

  (** substep.cpp:315-516 [_run_implicit_segment_substepped_masked_jacobian], likewise. *)
  Definition watch_substepped_d (capture : bool) (masked : vmap -> result (vmap * list bool)) (ift : vmap -> vmap -> result vmap)
             (givens : list given_info) (unknowns : list var_info) (level : nat) (st ds : vmap) : wio (vmap * vmap) :=
    match givens with
    | [] => wres (Err (OtherExn 0))
    | g0 :: _ =>
        let v0 := gv_var g0 in
        dow t0 <- wres (at_ (v_name v0) st) in
        if Nat.ltb (dim t0) (var_trail v0) then wres (Err (OtherExn 0))
        else
          let dyn := firstn (dim t0 - var_trail v0) (t_shape t0) in
          let needed := negb (Nat.eqb (length dyn) 1) in
          let batch := if needed then Some dyn else None in
          dow (orig, orig_d, B, bufs) <-
            wres (let* flat := if needed then flatten_givens givens st else Ok st in
                  let* flat_d := if needed then flatten_carriers givens ds else Ok ds in
                  let* orig := collect_givens givens flat [] in
                  let* orig_d := collect_givens givens flat_d [] in
                  let* f0 := at_ (v_name v0) orig in
                  match firstn (dim f0 - var_trail v0) (t_shape f0) with
                  | [] => Err (OtherExn 0)
                  | B :: rest =>
                      let* d0 := at_ (v_name v0) orig_d in
                      let* M := size_at d0 (-1) in
                      let* ch := collect_givens (filter is_old_state givens) orig [] in
                      let* ch_d := collect_givens (filter is_old_state givens) orig_d [] in
                      let res := fold_left (fun m u => set_ (v_name u)
                                   (zeros (a_zero A) (B :: rest ++ v_sub u ++ v_base u) (t_dev f0)) m) unknowns [] in
                      let res_d := fold_left (fun m u => set_ (v_name u)
                                   (zeros (a_zero A) (B :: rest ++ [var_size u; M]) (t_dev f0)) m) unknowns [] in
                      Ok (orig, orig_d, B, ((res, ch), (res_d, ch_d)))
                  end) in
          dow info <- wres (is_on Info) in
          dow debug <- wres (is_on Debug) in
          dow bufs <- watch_to capture debug unknowns batch
                        (fun a b active bufs =>
                           let* r := solve_span_d A masked givens orig orig_d a b active (snd (fst bufs)) (snd (snd bufs)) in
                           Ok ((fst (fst r), snd r), snd (fst r)))
                        (fun span => fst span)
                        (fun active conv span bufs => store_d ift givens unknowns active conv (fst span) (snd span) bufs)
                        level 0 (a_zero A) (a_one A) (map Z.of_nat (seq 0 B)) bufs in
          dow _ <- summary info "jacobian" B in
          wres (let* st := put_results unknowns (fst (fst bufs)) batch st in
                let* ds := put_tangents unknowns (fst (snd bufs)) batch ds in
                Ok (st, ds))
    end.
End SubstepLog.
