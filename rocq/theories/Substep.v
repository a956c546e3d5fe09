(** Adaptive substepping of an implicit segment (aoti/substep.cpp), value path.
    Definitions only.

    Simplifications: the logging and the captured failure payload are left out; the
    arithmetic between two tensors of different shapes (torch would broadcast) raises. *)
From Verif Require Import Base Tensor BatchChunk Pack Implicit.

(** The scalar operations used: torch's on elements, and C++'s on the interval ends. *)
Record arith (V : Type) := mkArith {
  a_add : V -> V -> V; a_sub : V -> V -> V; a_mul : V -> V -> V; a_zero : V; a_one : V; a_half : V
}.
Arguments mkArith {V}. Arguments a_add {V}. Arguments a_sub {V}. Arguments a_mul {V}.
Arguments a_zero {V}. Arguments a_one {V}. Arguments a_half {V}.

Section Substep.
  Context {V : Type}.
  Variable A : arith V.
  Notation vmap := (smap (tensor V)).

  (** [old + (new - old) * x] on tensors. *)
  Definition scale (x : V) (t : tensor V) : tensor V := mkT (t_shape t) (map (fun y => a_mul A y x) (t_data t)) (t_dev t).
  Definition lerp (old new : tensor V) (x : V) : result (tensor V) :=
    let* d := zip_same (a_sub A) new old in
    zip_same (a_add A) old (scale x d).

  (** substep.cpp:48-93 [_apply_substep_span]. *)
  Definition span_entry (g : given_info) (orig : vmap) (a b : V) (chained : vmap) : result (tensor V) :=
    let n := v_name (gv_var g) in
    if String.eqb (gv_role g) "old_state" then
      match lookup n chained with
      | Some t => Ok t
      | None => Err (Fatal "aoti::Model substepping: no chained value for old-state given")
      end
    else if String.eqb (gv_role g) "old_force" then
      let* o := at_ n orig in let* w := at_ (gv_pair g) orig in lerp o w a
    else if String.eqb (gv_role g) "cur_force" then
      let* o := at_ (gv_pair g) orig in let* w := at_ n orig in lerp o w b
    else at_ n orig.
  Fixpoint apply_span (gs : list given_info) (orig : vmap) (a b : V) (chained dst : vmap) : result vmap :=
    match gs with
    | [] => Ok dst
    | g :: gs' =>
        let* t := span_entry g orig a b chained in
        apply_span gs' orig a b chained (set_ (v_name (gv_var g)) t dst)
    end.

  (** substep.cpp:112-116 [mask_to_idx], of the mask and of its negation. *)
  Fixpoint positions (x : bool) (i : Z) (m : list bool) : list Z :=
    match m with
    | [] => []
    | y :: m' => if Bool.eqb x y then i :: positions x (i + 1) m' else positions x (i + 1) m'
    end.

  (** [active.index_select(0, idx)] of an index tensor. *)
  Definition pick (active idx : list Z) : result (list Z) :=
    mapM (fun i => match nth_error active (Z.to_nat i) with
                   | Some x => Ok x
                   | None => Err (StdExn "index_select: index out of range")
                   end) idx.

  Definition var_trail (v : var_info) : nat := length (v_sub v) + length (v_base v).

  (** substep.cpp:131-140 [flatten_dyn]: [reshape] with a leading -1, which torch refuses when the
      other sizes have no elements. *)
  Definition flatten_dyn (t : tensor V) (trail : nat) : result (tensor V) :=
    let tail := skipn (dim t - trail) (t_shape t) in
    if Nat.eqb (numel tail) 0 then Err (StdExn "reshape: cannot infer the size of dimension -1")
    else reshape t (Nat.div (numel (t_shape t)) (numel tail) :: tail).
  (** substep.cpp:144-151 [unflatten_dyn]. *)
  Definition unflatten_dyn (t : tensor V) (dyn : list nat) (trail : nat) : result (tensor V) :=
    reshape t (dyn ++ skipn (dim t - trail) (t_shape t)).

  Section Driver.
    Variable masked : vmap -> result (vmap * list bool).   (* _run_implicit_segment_masked *)
    Variable givens : list given_info.
    Variable unknowns : list var_info.
    Variable orig : vmap.

    Definition is_old_state (g : given_info) : bool := String.eqb (gv_role g) "old_state".

    (** One solve of the segment: interval, active rows and resulting mask. *)
    Definition solve_log : Type := (V * V * list Z * list bool)%type.

    (** substep.cpp:214-218: solve the active rows on [a,b]. *)
    Definition solve_span (a b : V) (active : list Z) (chained : vmap) : result (vmap * list bool) :=
      let* orig_a := index_select_batch orig active in
      let* chained_a := index_select_batch chained active in
      let* span := apply_span givens orig_a a b chained_a [] in
      masked span.

    (** The rows [idx] of the entries [src name] of [span]. *)
    Fixpoint rows_at (l : list (string * string)) (span : vmap) (idx : list Z) (acc : vmap) : result vmap :=
      match l with
      | [] => Ok acc
      | (name, src) :: l' =>
          let* t := at_ src span in
          let* r := index_select0 t idx in
          rows_at l' span idx (set_ name r acc)
      end.

    (** substep.cpp:248-259: store what converged. *)
    Definition store (active conv : list Z) (span : vmap) (bufs : vmap * vmap) : result (vmap * vmap) :=
      match conv with
      | [] => Ok bufs
      | _ =>
          let* conv_g := pick active conv in
          let* cs := rows_at (map (fun u => (v_name u, v_name u)) unknowns) span conv [] in
          let* res := scatter_batch (fst bufs) conv_g cs in
          let* cc := rows_at (map (fun g => (v_name (gv_var g), gv_pair g)) (filter is_old_state givens)) span conv [] in
          let* ch := scatter_batch (snd bufs) conv_g cc in
          Ok (res, ch)
      end.

    (** substep.cpp:211-289 [solve_to]; [left] is max_substepping_level - level; [bufs] are the
        result and chained buffers.  The solves made are logged. *)
    Fixpoint solve_to (left : nat) (a b : V) (active : list Z) (bufs : vmap * vmap)
      : result (vmap * vmap) * list solve_log :=
      match solve_span a b active (snd bufs) with
      | Err e => (Err e, [])
      | Ok (span, mask) =>
          let entry := (a, b, active, mask) in
          let fail := positions false 0 mask in
          match store active (positions true 0 mask) span bufs with
          | Err e => (Err e, [entry])
          | Ok bufs =>
              match fail with
              | [] => (Ok bufs, [entry])
              | _ =>
                  match left with
                  | 0 => (Err (Convergence "aoti::Model substepping: element(s) failed to converge at max_substepping_level"), [entry])
                  | S left' =>
                      match pick active fail with
                      | Err e => (Err e, [entry])
                      | Ok fail_g =>
                          let mid := a_mul A (a_half A) (a_add A a b) in
                          let (r1, l1) := solve_to left' a mid fail_g bufs in
                          match r1 with
                          | Err e => (Err e, entry :: l1)
                          | Ok bufs =>
                              let (r2, l2) := solve_to left' mid b fail_g bufs in
                              (r2, entry :: l1 ++ l2)
                          end
                      end
                  end
              end
          end
      end.
  End Driver.

  (** substep.cpp:165-178: the givens in their flattened form. *)
  Fixpoint flatten_givens (gs : list given_info) (st : vmap) : result vmap :=
    match gs with
    | [] => Ok st
    | g :: gs' =>
        let n := v_name (gv_var g) in
        let* t := at_ n st in
        let* f := flatten_dyn t (var_trail (gv_var g)) in
        flatten_givens gs' (set_ n f st)
    end.
  Fixpoint collect_givens (gs : list given_info) (st acc : vmap) : result vmap :=
    match gs with
    | [] => Ok acc
    | g :: gs' =>
        let n := v_name (gv_var g) in
        let* t := at_ n st in
        collect_givens gs' st (set_ n t acc)
    end.
  (** substep.cpp:301-312: the results into the state. *)
  Fixpoint put_results (us : list var_info) (res : vmap) (dyn : option (list nat)) (st : vmap) : result vmap :=
    match us with
    | [] => Ok st
    | u :: us' =>
        let* t := at_ (v_name u) res in
        let* t := match dyn with None => Ok t | Some d => unflatten_dyn t d (var_trail u) end in
        put_results us' res dyn (set_ (v_name u) t st)
    end.

  (** substep.cpp:155-313 [_run_implicit_segment_substepped_masked].  [level] is
      max_substepping_level.  An empty list of givens and a first given of too low rank are
      undefined behaviour in C++: [OtherExn]. *)
  Definition run_substepped (masked : vmap -> result (vmap * list bool)) (givens : list given_info)
             (unknowns : list var_info) (level : nat) (st : vmap) : result vmap * list solve_log :=
    match givens with
    | [] => (Err (OtherExn 0), [])
    | g0 :: _ =>
        let v0 := gv_var g0 in
        match at_ (v_name v0) st with
        | Err e => (Err e, [])
        | Ok t0 =>
            if Nat.ltb (dim t0) (var_trail v0) then (Err (OtherExn 0), [])
            else
              let dyn := firstn (dim t0 - var_trail v0) (t_shape t0) in
              let needed := negb (Nat.eqb (length dyn) 1) in
              match (let* flat := if needed then flatten_givens givens st else Ok st in
                     let* orig := collect_givens givens flat [] in
                     let* f0 := at_ (v_name v0) orig in
                     match firstn (dim f0 - var_trail v0) (t_shape f0) with
                     | [] => Err (OtherExn 0)
                     | B :: rest =>
                         let* ch := collect_givens (filter is_old_state givens) orig [] in
                         let res := fold_left (fun m u => set_ (v_name u)
                                      (zeros (a_zero A) (B :: rest ++ v_sub u ++ v_base u) (t_dev f0)) m) unknowns [] in
                         Ok (orig, B, res, ch)
                     end) with
              | Err e => (Err e, [])
              | Ok (orig, B, res, ch) =>
                  let (r, l) := solve_to masked givens unknowns orig level (a_zero A) (a_one A)
                                         (map Z.of_nat (seq 0 B)) (res, ch) in
                  (let* bufs := r in
                   put_results unknowns (fst bufs) (if needed then Some dyn else None) st, l)
              end
        end
    end.
End Substep.
