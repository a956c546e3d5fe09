(** Vocabulary of C39: the derivative carried through the substeps of one row. *)
From Verif Require Import Base SpecMap Tensor Spec Broadcast SpecBroadcast Pack Implicit Substep SpecSubstep Jac SpecJac SpecAlgebra.

(** The derivative of a variable with respect to [M] seed columns: a matrix per batch entry, row-major. *)
Definition carrier (M : nat) (v : var_info) : var_info := mkVar (v_name v) [] [var_size v; M].
Definition given_carriers (M : nat) (givens : list given_info) : smap (list nat) :=
  map (fun g => (given_name g, [var_size (gv_var g); M])) givens.

Section Row.
  Context {V : Type}.
  Variable A : arith V.
  Variable givens : list given_info.
  Variable unknowns : list var_info.
  Variable solve_row : list (list V) -> list (list V) * bool.
  (** The implicit function theorem at a solved row: the givens, the unknowns and the derivatives of the givens to the
      derivatives of the unknowns. *)
  Variable ift_row : list (list V) -> list (list V) -> list (list V) -> list (list V).

  (** The row's givens are [o] with derivatives [od].  Solving over each interval of the list in turn, from the old
      state [c] with derivative [cd], ends with the unknowns [us] and their derivatives [usd].  The derivatives of
      the givens of a solve are got like the givens themselves: forces interpolated, old states carried over. *)
  Inductive marched (o od : list (list V)) : list (V * V) -> list (list V) -> list (list V) -> list (list V) -> list (list V) -> Prop :=
  | marched_last a b c cd us :
      solve_row (map (row_input A givens o c a b) givens) = (us, true) ->
      marched o od [(a, b)] c cd us (ift_row (map (row_input A givens o c a b) givens) us (map (row_input A givens od cd a b) givens))
  | marched_more a b l c cd us us' usd' :
      solve_row (map (row_input A givens o c a b) givens) = (us, true) ->
      marched o od l (carried givens unknowns us)
        (carried givens unknowns (ift_row (map (row_input A givens o c a b) givens) us (map (row_input A givens od cd a b) givens))) us' usd' ->
      marched o od ((a, b) :: l) c cd us' usd'.
End Row.

(** A masked solve that answers for every row and leaves the givens as they were. *)
Definition answers_all {V} (d : device) (givens : list given_info) (unknowns : list var_info)
           (masked : smap (tensor V) -> result (smap (tensor V) * list bool)) : Prop :=
  forall n span, table d n (given_shapes givens) span ->
  exists span' mask ks, masked span = Ok (span', mask) /\ length mask = n /\ table d n ks span' /\
    (forall u, In u unknowns -> lookup (v_name u) ks = Some (trailing u)) /\
    (forall g, In g givens -> lookup (given_name g) span' = lookup (given_name g) span).

(** The tangent step of converged rows treats every row as [ift_row]. *)
Definition tangents_by_row {V} (d : device) (givens : list given_info) (unknowns : list var_info) (M : nat)
           (solve_row : list (list V) -> list (list V) * bool)
           (ift : smap (tensor V) -> smap (tensor V) -> result (smap (tensor V)))
           (ift_row : list (list V) -> list (list V) -> list (list V) -> list (list V)) : Prop :=
  forall n ks span span_d, 0 < n -> table d n ks span ->
  (forall u, In u unknowns -> lookup (v_name u) ks = Some (trailing u)) ->
  (forall g, In g givens -> lookup (given_name g) ks = Some (trailing (gv_var g))) ->
  table d n (given_carriers M givens) span_d ->
  (forall i, i < n -> solve_row (rows_of_names span (given_names givens) i) = (rows_of_names span (unknown_names unknowns) i, true)) ->
  exists span_d', ift span span_d = Ok span_d' /\
    (forall u, In u unknowns -> exists t, lookup (v_name u) span_d' = Some t /\ rowsof d n [var_size u; M] t) /\
    forall i, i < n -> rows_of_names span_d' (unknown_names unknowns) i =
      ift_row (rows_of_names span (given_names givens) i) (rows_of_names span (unknown_names unknowns) i)
              (rows_of_names span_d (given_names givens) i).

(** ** The same as a product of matrices, in exact arithmetic *)
Section Product.
  Context {V : Type}.
  Variable A : arith V.
  Variable givens : list given_info.
  Variable unknowns : list var_info.
  Variable M : nat.
  Variable solve_row : list (list V) -> list (list V) * bool.
  (** [slope gs us u r g y]: derivative of component [r] of the unknown [u] by component [y] of the given [g], at a
      solved row with givens [gs] and unknowns [us]. *)
  Variable slope : list (list V) -> list (list V) -> string -> nat -> string -> nat -> V.

  (** Entry (r, m) of the derivative of [n], when the rows [rows] are those of the names [ns]. *)
  Definition component (ns : list string) (rows : list (list V)) (n : string) (r m : nat) : V :=
    nth (r * M + m) (getrow ns rows n) (a_zero A).
  (** The components of the givens. *)
  Definition cells : list (given_info * nat) := flat_map (fun g => map (pair g) (seq 0 (var_size (gv_var g)))) givens.
  Definition over_cells (f : given_info -> nat -> V) : V := sum (a_zero A) (a_add A) (map (fun c => f (fst c) (snd c)) cells).

  (** The tangents of the rows fit their variables. *)
  Definition fits (ns : list string) (vs : list var_info) (rows : list (list V)) : Prop :=
    forall v, In v vs -> length (getrow ns rows (v_name v)) = var_size v * M.
  (** At every solved row the tangents of the unknowns are [slope] applied to those of the givens. *)
  Definition linear_ift (ift_row : list (list V) -> list (list V) -> list (list V) -> list (list V)) : Prop :=
    forall gs us td, solve_row gs = (us, true) -> fits (given_names givens) (map gv_var givens) td ->
    fits (unknown_names unknowns) unknowns (ift_row gs us td) /\
    forall u r m, In u unknowns -> r < var_size u -> m < M ->
      component (unknown_names unknowns) (ift_row gs us td) (v_name u) r m =
      over_cells (fun g y => a_mul A (slope gs us (v_name u) r (given_name g) y) (component (given_names givens) td (given_name g) y m)).

  Definition unit_entry (n : string) (r : nat) (k : string) (y : nat) : V := if String.eqb n k && Nat.eqb r y then a_one A else a_zero A.
  (** Derivative of component [r] of the given [h] of the solve over [a, b] by component [y] of the original given [g];
      [before h] is that of the old state [h] reached at [a]. *)
  Definition input_slope (a b : V) (before : string -> nat -> string -> nat -> V) (h : given_info) (r : nat) (g : string) (y : nat) : V :=
    let own := unit_entry (given_name h) r g y in
    let other := unit_entry (gv_pair h) r g y in
    if String.eqb (gv_role h) "old_state" then before (given_name h) r g y
    else if String.eqb (gv_role h) "old_force" then a_add A (a_mul A (a_sub A (a_one A) a) own) (a_mul A a other)
    else if String.eqb (gv_role h) "cur_force" then a_add A (a_mul A (a_sub A (a_one A) b) other) (a_mul A b own)
    else own.
  (** Chain rule for one solve: the solve's own derivative times that of its givens. *)
  Definition step_slope (local : string -> nat -> string -> nat -> V) (a b : V) (before : string -> nat -> string -> nat -> V)
             (u : string) (r : nat) (g : string) (y : nat) : V :=
    over_cells (fun h x => a_mul A (local u r (given_name h) x) (input_slope a b before h x g y)).
  (** What the old states are after the solve. *)
  Definition carried_slope (J : string -> nat -> string -> nat -> V) (h : string) (r : nat) (g : string) (y : nat) : V :=
    match find (fun k => String.eqb (given_name k) h) givens with
    | Some k => J (gv_pair k) r g y
    | None => a_zero A
    end.

  (** [J] is the product of the solves' derivatives over the intervals of the list, from the old state [c] with derivative [before]. *)
  Inductive product (o : list (list V)) : list (V * V) -> list (list V) -> (string -> nat -> string -> nat -> V) -> (string -> nat -> string -> nat -> V) -> Prop :=
  | product_last a b c before us :
      solve_row (map (row_input A givens o c a b) givens) = (us, true) ->
      product o [(a, b)] c before (step_slope (slope (map (row_input A givens o c a b) givens) us) a b before)
  | product_more a b l c before us J :
      solve_row (map (row_input A givens o c a b) givens) = (us, true) ->
      product o l (carried givens unknowns us)
        (carried_slope (step_slope (slope (map (row_input A givens o c a b) givens) us) a b before)) J ->
      product o ((a, b) :: l) c before J.
End Product.

(** ** The derivative graphs of a segment, row by row *)
Section Graphs.
  Context {V : Type}.
  Variable A : arith V.
  Variable neg : V -> V.
  Variable dot : list V -> list V -> V.
  Variable par : string -> result (tensor V).
  Variable d : device.
  Variable i : jimp V.
  Variable given : list (tensor V) -> result (list (tensor V)).
  Variable M : nat.
  Variable solve_row : list (list V) -> list (list V) * bool.
  Variable slope : list (list V) -> list (list V) -> string -> nat -> string -> nat -> V.
  Variable size : string -> nat.
  Notation givens := (is_givens (ji_seg i)).
  Notation unknowns := (is_unknowns (ji_seg i)).

  (** On a table of solved rows the graphs give the blocks du/dg, one per declared pair, and their row [k] is [slope] at
      the givens and unknowns of that row. *)
  Definition slopes_by_row : Prop :=
    (forall g, In g givens -> size (given_name g) = var_size (gv_var g)) /\
    (forall u, In u unknowns -> size (v_name u) = var_size u) /\
    (forall p, In p (ji_pairs i) -> In (p_in p) (given_names givens) /\ In (p_out p) (unknown_names unknowns)) /\
    exists ps, mapM par (is_params (ji_seg i)) = Ok ps /\
    forall n ks span, 0 < n -> table d n ks span ->
    (forall u, In u unknowns -> lookup (v_name u) ks = Some (trailing u)) ->
    (forall g, In g givens -> lookup (given_name g) ks = Some (trailing (gv_var g))) ->
    (forall k, k < n -> solve_row (rows_of_names span (given_names givens) k) = (rows_of_names span (unknown_names unknowns) k, true)) ->
    exists us gs As rest Bs blks,
      pack_groups span (is_unknown_groups (ji_seg i)) = Ok us /\ pack_groups span (is_given_groups (ji_seg i)) = Ok gs /\
      ji_jac i (us ++ gs ++ ps) = Ok (As ++ rest) /\ length As = ji_nres i * length (is_unknown_groups (ji_seg i)) /\
      given (us ++ gs ++ ps) = Ok Bs /\ du_dg neg i As Bs blks /\
      Forall2 (fun p t => ift_ok d [n] size p t /\
        forall k r, k < n -> r < size (p_out p) ->
        snd (SpecJac.ift_row [n] size p t [k] r) =
        map (slope (rows_of_names span (given_names givens) k) (rows_of_names span (unknown_names unknowns) k) (p_out p) r (p_in p)) (seq 0 (size (p_in p))))
        (ji_pairs i) blks.

  (** The tangents of the unknowns of one row: over the declared pairs, blocks times tangents of the givens. *)
  Definition tangent_row (gs us td : list (list V)) : list (list V) :=
    map (fun u => flat_map (fun r => map (fun m =>
      fold_left (fun acc p =>
        if String.eqb (p_out p) (v_name u)
        then a_add A acc (dot (map (slope gs us (p_out p) r (p_in p)) (seq 0 (size (p_in p))))
                              (map (fun y => component A M (given_names givens) td (p_in p) y m) (seq 0 (size (p_in p)))))
        else acc) (ji_pairs i) (a_zero A)) (seq 0 M)) (seq 0 (var_size u))) unknowns.
  (** The derivatives as declared: zero without a pair. *)
  Definition declared_slope (gs us : list (list V)) (u : string) (r : nat) (g : string) (y : nat) : V :=
    if existsb (fun p => String.eqb (p_out p) u && String.eqb (p_in p) g) (ji_pairs i) then slope gs us u r g y else a_zero A.
End Graphs.
