(** The linear solvers of aoti/krylov.h and the Newton step of aoti/nonlinear_system_krylov.h with what they write on
    the [linear] log channel.  Definitions only.

    [Krylov] and [KrylovSystem] leave the log out; the loops are repeated here with it, and the numerics (what happens
    to the rows between two calls) are theirs.

    Simplifications: a line of text is a [klog_note] of the numbers in it; [say] is what [log::emit] does with a line (a
    sink may throw), depending on what was emitted before; [is_on] is [log::enabled] on the channel, the same answer
    throughout a step; [vmax] is torch's [max] over the rows (never called on an empty batch: such a batch has no
    iteration); the iteration counters do not wrap. *)
From Verif Require Import Base Tensor Newton Krylov Pack KrylovSystem Log.

(** nonlinear_system_krylov.h:133-136; 155-156; 162. *)
Inductive klog_note (V : Type) :=
| NIter (it : nat) (worst ratio : V)
| NNotConverged (iters failed : nat)
| NConverged (iters : nat).
Arguments NIter {V}. Arguments NNotConverged {V}. Arguments NConverged {V}.

(** What a solve does, in order: calls of the operator and of the preconditioner, and emitted lines. *)
Inductive kevent (V : Type) := KCall (c : kcall V) | KLine (l : level) (m : klog_note V).
Arguments KCall {V}. Arguments KLine {V}.
Definition calls_in {V} (l : list (kevent V)) : list (kcall V) :=
  flat_map (fun e => match e with KCall c => [c] | KLine _ _ => [] end) l.
Definition lines_in {V} (l : list (kevent V)) : list (level * klog_note V) :=
  flat_map (fun e => match e with KCall _ => [] | KLine l m => [(l, m)] end) l.

Definition lio (V X : Type) : Type := list (kevent V) -> result X * list (kevent V).
Definition lret {V X} (x : X) : lio V X := fun w => (Ok x, w).
Definition lbind {V X Y} (m : lio V X) (f : X -> lio V Y) : lio V Y :=
  fun w => match m w with (Ok x, w') => f x w' | (Err e, w') => (Err e, w') end.
Notation "'ldo' x '<-' e1 'in' e2" := (lbind e1 (fun x => e2))
  (at level 200, x pattern, e1 at level 100, e2 at level 200, right associativity).
(** A part that writes no line. *)
Definition quiet {V X} (m : kio V X) : lio V X := fun w => (fst m, w ++ map KCall (snd m)).

Section KrylovLog.
  Context {V : Type}.
  Variable N : num V.
  Variable rsum : list V -> V.
  Variable edot : list V -> list V -> V.
  Variable tri : list (list V) -> list V -> list V.
  Variable vmax : list V -> V.
  Variable say : list (level * klog_note V) -> level -> klog_note V -> result unit.
  Notation vec := (list V).

  Definition emit_line (l : level) (m : klog_note V) : lio V unit :=
    fun w => (say (lines_in w) l m, w ++ [KLine l m]).

  (** nonlinear_system_krylov.h:130-137: the hook, if it was installed. *)
  Definition on_iter (hook : bool) (it : nat) (resid bn : vec) : lio V unit :=
    if hook then emit_line Debug (NIter it (vmax resid) (vmax (map2 (n_div N) resid bn))) else lret tt.

  Section Solve.
    Variable matvec minv : list vec -> result (list vec).
    Variable hook : bool.

    (** krylov.h:350-383, [it] iterations made, [more] left. *)
    Fixpoint log_bicg_loop (cfg : kconfig V) (b : list vec) (it more : nat) (st : list (brow V)) : lio V (list (brow V)) :=
      match more with
      | 0 => lret st
      | S more' =>
          if all_done st then lret st
          else
            let p := map2 (bicg_p N edot) b st in
            ldo phat <- quiet (apply_m minv p) in
            ldo v <- quiet (apply_a matvec phat) in
            let s := map2 (fun q st => bicg_s N edot (fst q) (snd q) st) (combine b v) st in
            ldo shat <- quiet (apply_m minv s) in
            ldo t <- quiet (apply_a matvec shat) in
            let st := map2 (fun q st => bicg_update N rsum edot cfg (fst (fst q)) (fst (snd (fst q))) (snd (snd (fst q)))
                                             (fst (fst (snd q))) (snd (fst (snd q))) (snd (snd q)) st)
                           (combine (combine b (combine p phat)) (combine (combine v shat) t)) st in
            (* krylov.h:379-381 *)
            ldo _ <- on_iter hook (it + 1) (map (fun s => row_norm N rsum (br_r s)) st) (map (bnorm N rsum) b) in
            log_bicg_loop cfg b (it + 1) more' st
      end.

    (** krylov.h:317-386 *)
    Definition log_bicgstab (b : list vec) (cfg : kconfig V) : lio V (kresult V) :=
      ldo st <- log_bicg_loop cfg b 0 (Z.to_nat (k_max_its cfg)) (map (bicg_start N rsum cfg) b) in
      quiet (finish (map br_x st) (map br_iters st) (map br_done st), []).

    (** krylov.h:219-293, [inner_it] so far and [more] columns left. *)
    Fixpoint log_cycle (cfg : kconfig V) (b : list vec) (inner_it more : nat) (st : list (grow V)) : lio V (nat * list (grow V)) :=
      match more with
      | 0 => lret (inner_it, st)
      | S more' =>
          ldo av <- quiet (apply_a matvec (map (fun s => last_v (gr_arn s)) st)) in
          ldo w <- quiet (apply_m minv av) in
          let st := map2 (fun q s => gmres_column N rsum edot cfg (fst q) (snd q) s) (combine b w) st in
          (* krylov.h:272-275: every row, also one that is done *)
          ldo _ <- on_iter hook (inner_it + 1) (map (fun s => n_abs N (ar_last (gr_arn s))) st) (map (bnorm N rsum) b) in
          if forallb gr_done st then lret (inner_it + 1, st) else log_cycle cfg b (inner_it + 1) more' st
      end.

    (** krylov.h:189-306 *)
    Fixpoint log_loop (cfg : kconfig V) (b : list vec) (m : nat) (first : bool) (inner_it cycles : nat) (st : list (grow V))
      : lio V (list (grow V)) :=
      match cycles with
      | 0 => lret st
      | S cycles' =>
          ldo r <- quiet (gmres_residual N matvec minv b first st) in
          let st := map2 (fun q s => gmres_begin N rsum cfg (fst q) (snd q) s) (combine b r) st in
          if forallb gr_done st then lret st
          else
            ldo (it, st) <- log_cycle cfg b inner_it m st in
            log_loop cfg b m false it cycles' (map (gmres_correct N edot tri) st)
      end.

    (** krylov.h:173-309 *)
    Definition log_gmres (b : list vec) (cfg : kconfig V) : lio V (kresult V) :=
      ldo cycles <- quiet (cycles_of cfg, []) in
      let m := k_restart cfg in
      ldo st <-
        (if (m <? 0)%Z && (0 <? cycles)%Z
         then
           ldo r <- quiet (apply_m minv b) in
           if forallb gr_done (map2 (fun q s => gmres_begin N rsum cfg (fst q) (snd q) s) (combine b r) (map (gmres_start N) b))
           then lret (map2 (fun q s => gmres_begin N rsum cfg (fst q) (snd q) s) (combine b r) (map (gmres_start N) b))
           else quiet (Err (StdExn "empty: negative dimension"), [])
         else log_loop cfg b (Z.to_nat m) true 0 (Z.to_nat cycles) (map (gmres_start N) b)) in
      quiet (finish (map gr_x st) (map gr_iters st) (map gr_done st), []).

    (** krylov.h:389-397 *)
    Definition log_solve (b : list vec) (cfg : kconfig V) : lio V (kresult V) :=
      match k_method cfg with BiCGStab => log_bicgstab b cfg | GMRES => log_gmres b cfg end.
  End Solve.

  Variable is_on : level -> result bool.

  (** nonlinear_system_krylov.h:149-165: the summary. *)
  Definition log_summary (res : kresult V) : lio V unit :=
    ldo warn <- quiet (is_on Warning, []) in
    if warn then
      if negb (forallb (fun c => c) (kr_converged res))
      then emit_line Warning (NNotConverged (kr_iters res) (length (filter negb (kr_converged res))))
      else
        ldo info <- quiet (is_on Info, []) in
        if info then emit_line Info (NConverged (kr_iters res)) else lret tt
    else lret tt.

  (** nonlinear_system_krylov.h:75-169 [step]: as [kstep], with the events of its linear solve and summary. *)
  Definition log_kstep (s : ksystem V) (u : list (tensor V)) (st : kstate V)
    : (result (list (tensor V) * list (tensor V)) * kstate V * list (sys_call (V := V))) * list (kevent V) :=
    let head :=
      let* _ := assert_all_dense (ks_unknown s) in
      let* _ := assert_all_dense (ks_residual s) in
      Ok tt in
    match head with
    | Err e => (sret (Err e) st [], [])
    | Ok _ =>
        let flats :=
          let* b := ks_res s u in
          let* (bf, bspec) := flatten_dense b (ks_residual s) in
          let* (_, uspec) := flatten_dense u (ks_unknown s) in
          let* rows := rows_of bf in
          Ok (b, bf, rows, mkSpec (fs_batch bspec) (fs_widths uspec) (fs_n uspec)) in
        match flats with
        | Err e => (sret (Err e) st [SResidual u], [])
        | Ok (b, bf, rows, uspec) =>
            match refresh s u st with
            | (Err e, l) => (sret (Err e) st (SResidual u :: l), [])
            | (Ok st1, l) =>
                match is_on Debug with
                | Err e => (sret (Err e) st1 (SResidual u :: l), [])
                | Ok hook =>
                    let '(r, ev) := log_solve (flat_matvec s u uspec bf) (flat_minv s (st_precond st1) bf) hook rows (ks_cfg s) [] in
                    match r with
                    | Err e => (sret (Err e) st1 (SResidual u :: l ++ [SSolve (st_precond st1) (calls_in ev) (Err e)]), ev)
                    | Ok res =>
                        let st2 := mkKst (st_precond st1) (st_ready st1) (Z.of_nat (kr_iters res)) in
                        let '(said, ev') := log_summary res ev in
                        (sret (let* _ := said in let* du := unflatten_dense (of_rows bf (kr_du res)) uspec in Ok (du, b))
                              st2 (SResidual u :: l ++ [SSolve (st_precond st1) (calls_in ev) (Ok (kr_iters res))]), ev')
                    end
                end
            end
        end
    end.
End KrylovLog.
