(** Adaptive substepping of an implicit segment with its tangent (aoti/substep.cpp, Jacobian path).
    Definitions only; simplifications as in Substep.v. *)
From Verif Require Import Base Tensor BatchChunk Broadcast Pack Implicit Substep Jac.

Section SubstepJac.
  Context {V : Type}.
  Variable A : arith V.
  Notation vmap := (smap (tensor V)).

  Section Driver.
    Variable masked : vmap -> result (vmap * list bool).   (* _run_implicit_segment_masked *)
    Variable ift : vmap -> vmap -> result vmap.            (* pack the groups, then _run_implicit_segment_jacobian *)
    Variable givens : list given_info.
    Variable unknowns : list var_info.
    Variable orig orig_d : vmap.

    (** The buffers: result, chained, result_d, chained_d. *)
    Definition bufs4 : Type := ((vmap * vmap) * (vmap * vmap))%type.

    (** The entries [src name] of [m]. *)
    Fixpoint take_all (l : list (string * string)) (m acc : vmap) : result vmap :=
      match l with
      | [] => Ok acc
      | (name, src) :: l' =>
          let* t := at_ src m in
          take_all l' m (set_ name t acc)
      end.
    Definition unknown_srcs : list (string * string) := map (fun u => (v_name u, v_name u)) unknowns.
    Definition old_srcs : list (string * string) :=
      map (fun g => (v_name (gv_var g), gv_pair g)) (filter is_old_state givens).

    (** substep.cpp:383-391: the values and tangents of the active rows on [a,b], and the solve. *)
    Definition solve_span_d (a b : V) (active : list Z) (ch ch_d : vmap) : result ((vmap * list bool) * vmap) :=
      let* orig_a := index_select_batch orig active in
      let* ch_a := index_select_batch ch active in
      let* orig_da := index_select_batch orig_d active in
      let* ch_da := index_select_batch ch_d active in
      let* span := apply_span A givens orig_a a b ch_a [] in
      let* span_d := apply_span A givens orig_da a b ch_da [] in
      let* sm := masked span in
      Ok (sm, span_d).

    (** substep.cpp:414-443: store what converged, with its tangent. *)
    Definition store_d (active conv : list Z) (span span_d : vmap) (bufs : bufs4) : result bufs4 :=
      match conv with
      | [] => Ok bufs
      | _ =>
          let '((res, ch), (res_d, ch_d)) := bufs in
          let* conv_g := pick active conv in
          let* conv_span := index_select_batch span conv in
          let* conv_span_d := index_select_batch span_d conv in
          let* conv_span_d := ift conv_span conv_span_d in
          let* cs := take_all unknown_srcs conv_span [] in
          let* csd := take_all unknown_srcs conv_span_d [] in
          let* res := scatter_batch res conv_g cs in
          let* res_d := scatter_batch res_d conv_g csd in
          let* cc := take_all old_srcs conv_span [] in
          let* ccd := take_all old_srcs conv_span_d [] in
          let* ch := scatter_batch ch conv_g cc in
          let* ch_d := scatter_batch ch_d conv_g ccd in
          Ok ((res, ch), (res_d, ch_d))
      end.

    (** substep.cpp:380-479 [solve_to]. *)
    Fixpoint solve_to_d (left : nat) (a b : V) (active : list Z) (bufs : bufs4) : result bufs4 * list (solve_log (V := V)) :=
      match solve_span_d a b active (snd (fst bufs)) (snd (snd bufs)) with
      | Err e => (Err e, [])
      | Ok ((span, mask), span_d) =>
          let entry := (a, b, active, mask) in
          let fail := positions false 0 mask in
          match store_d active (positions true 0 mask) span span_d bufs with
          | Err e => (Err e, [entry])
          | Ok bufs =>
              match fail with
              | [] => (Ok bufs, [entry])
              | _ =>
                  match left with
                  | 0 => (Err (Convergence "aoti::Model substepping: element(s) failed to converge at max_substepping_level"), [entry])
                  | S left' =>
                      match pick active fail with
                      | Err e => (Err e, [entry])
                      | Ok fail_g =>
                          let mid := a_mul A (a_half A) (a_add A a b) in
                          let (r1, l1) := solve_to_d left' a mid fail_g bufs in
                          match r1 with
                          | Err e => (Err e, entry :: l1)
                          | Ok bufs =>
                              let (r2, l2) := solve_to_d left' mid b fail_g bufs in
                              (r2, entry :: l1 ++ l2)
                          end
                      end
                  end
              end
          end
      end.
  End Driver.

  (** substep.cpp:331-339: the givens' carriers in flattened form, two trailing axes each. *)
  Fixpoint flatten_carriers (gs : list given_info) (ds : vmap) : result vmap :=
    match gs with
    | [] => Ok ds
    | g :: gs' =>
        let n := v_name (gv_var g) in
        let* t := at_ n ds in
        let* f := flatten_dyn t 2 in
        flatten_carriers gs' (set_ n f ds)
    end.
  (** substep.cpp:491-515: the tangents into the carrier. *)
  Fixpoint put_tangents (us : list var_info) (res : vmap) (dyn : option (list nat)) (ds : vmap) : result vmap :=
    match us with
    | [] => Ok ds
    | u :: us' =>
        let* t := at_ (v_name u) res in
        let* t := match dyn with None => Ok t | Some d => unflatten_dyn t d 2 end in
        put_tangents us' res dyn (set_ (v_name u) t ds)
    end.

  (** substep.cpp:315-516 [_run_implicit_segment_substepped_masked_jacobian]. *)
  Definition run_substepped_d (masked : vmap -> result (vmap * list bool)) (ift : vmap -> vmap -> result vmap)
             (givens : list given_info) (unknowns : list var_info) (level : nat) (st ds : vmap)
    : result (vmap * vmap) * list (solve_log (V := V)) :=
    match givens with
    | [] => (Err (OtherExn 0), [])
    | g0 :: _ =>
        let v0 := gv_var g0 in
        match at_ (v_name v0) st with
        | Err e => (Err e, [])
        | Ok t0 =>
            if Nat.ltb (dim t0) (var_trail v0) then (Err (OtherExn 0), [])
            else
              let dyn := firstn (dim t0 - var_trail v0) (t_shape t0) in
              let needed := negb (Nat.eqb (length dyn) 1) in
              match (let* flat := if needed then flatten_givens givens st else Ok st in
                     let* flat_d := if needed then flatten_carriers givens ds else Ok ds in
                     let* orig := collect_givens givens flat [] in
                     let* orig_d := collect_givens givens flat_d [] in
                     let* f0 := at_ (v_name v0) orig in
                     match firstn (dim f0 - var_trail v0) (t_shape f0) with
                     | [] => Err (OtherExn 0)
                     | B :: rest =>
                         let* d0 := at_ (v_name v0) orig_d in
                         let* M := size_at d0 (-1) in
                         let* ch := collect_givens (filter is_old_state givens) orig [] in
                         let* ch_d := collect_givens (filter is_old_state givens) orig_d [] in
                         let res := fold_left (fun m u => set_ (v_name u)
                                      (zeros (a_zero A) (B :: rest ++ v_sub u ++ v_base u) (t_dev f0)) m) unknowns [] in
                         let res_d := fold_left (fun m u => set_ (v_name u)
                                      (zeros (a_zero A) (B :: rest ++ [var_size u; M]) (t_dev f0)) m) unknowns [] in
                         Ok (orig, orig_d, B, ((res, ch), (res_d, ch_d)))
                     end) with
              | Err e => (Err e, [])
              | Ok (orig, orig_d, B, bufs) =>
                  let (r, l) := solve_to_d masked ift givens unknowns orig orig_d level (a_zero A) (a_one A)
                                           (map Z.of_nat (seq 0 B)) bufs in
                  (let* bufs := r in
                   let* st := put_results unknowns (fst (fst bufs)) (if needed then Some dyn else None) st in
                   let* ds := put_tangents unknowns (fst (snd bufs)) (if needed then Some dyn else None) ds in
                   Ok (st, ds), l)
              end
        end
    end.
End SubstepJac.
