(** Vocabulary of the substepping properties (C35-C39). *)
From Verif Require Import Base SpecMap Tensor Spec Pack Implicit Substep.

Section Intervals.
  Context {V : Type}.
  Variable half_way : V -> V -> V.

  (** [(x, y)] is one of the intervals got from [(a, b)] by [n] halvings. *)
  Inductive halved : nat -> V -> V -> V -> V -> Prop :=
  | halved_none a b : halved 0 a b a b
  | halved_left n a b x y : halved n a (half_way a b) x y -> halved (S n) a b x y
  | halved_right n a b x y : halved n (half_way a b) b x y -> halved (S n) a b x y.

  (** The intervals follow each other from [a] to [b]. *)
  Inductive chain : V -> V -> list (V * V) -> Prop :=
  | chain_last a b : chain a b [(a, b)]
  | chain_more a m b l : chain m b l -> chain a b ((a, m) :: l).

  (** Row [i] was solved and its solution accepted in this solve. *)
  Definition accepts (i : Z) (e : solve_log (V := V)) : bool :=
    let '(_, _, active, mask) := e in existsb (fun p => Z.eqb (fst p) i && snd p) (combine active mask).
  (** The intervals on which row [i] was accepted, in order. *)
  Definition accepted (i : Z) (log : list (solve_log (V := V))) : list (V * V) :=
    map (fun e => let '(a, b, _, _) := e in (a, b)) (filter (accepts i) log).
  (** Some row failed in this solve. *)
  Definition rejects (e : solve_log (V := V)) : bool := let '(_, _, _, mask) := e in existsb negb mask.
End Intervals.

(** ** Maps of tensors with a common leading axis, on one device *)
Section Tables.
  Context {V : Type}.
  Variable d : device.
  Notation vmap := (smap (tensor V)).

  (** [n] rows of shape [sh]. *)
  Definition rowsof (n : nat) (sh : list nat) (t : tensor V) : Prop := wf t /\ t_dev t = d /\ t_shape t = n :: sh.
  (** Exactly the names of [ks], each with [n] rows of its shape. *)
  Definition table (n : nat) (ks : smap (list nat)) (m : vmap) : Prop :=
    sorted m /\ (forall k, lookup k m = None <-> lookup k ks = None) /\
    forall k sh t, lookup k ks = Some sh -> lookup k m = Some t -> rowsof n sh t.
  (** Row [i] of the entry [k]. *)
  Definition val (m : vmap) (k : string) (i : nat) : list V := match lookup k m with Some t => row t i | None => [] end.
  Definition rows_of_names (m : vmap) (ns : list string) (i : nat) : list (list V) := map (fun n => val m n i) ns.
End Tables.

(** ** One row substepped on its own *)
Definition trailing (v : var_info) : list nat := v_sub v ++ v_base v.
Definition given_name (g : given_info) : string := v_name (gv_var g).
Definition given_names (givens : list given_info) : list string := map given_name givens.
Definition unknown_names (unknowns : list var_info) : list string := map v_name unknowns.
Definition old_states (givens : list given_info) : list given_info := filter (fun g => String.eqb (gv_role g) "old_state") givens.
(** A force: its value moves over the step. *)
Definition forced (g : given_info) : Prop := gv_role g = "old_force"%string \/ gv_role g = "cur_force"%string.

(** What the exporter writes: distinct names; an old state goes with an unknown and a force with
    another given, of the same shape. *)
Definition seg_ok (givens : list given_info) (unknowns : list var_info) : Prop :=
  givens <> [] /\ NoDup (given_names givens) /\ NoDup (unknown_names unknowns) /\
  (forall g, In g givens -> gv_role g = "old_state"%string ->
     exists u, In u unknowns /\ v_name u = gv_pair g /\ trailing u = trailing (gv_var g)) /\
  (forall g, In g givens -> forced g ->
     exists g', In g' givens /\ given_name g' = gv_pair g /\ trailing (gv_var g') = trailing (gv_var g)).

Definition given_shapes (givens : list given_info) : smap (list nat) := map (fun g => (given_name g, trailing (gv_var g))) givens.
Definition unknown_shapes (unknowns : list var_info) : smap (list nat) := map (fun u => (v_name u, trailing u)) unknowns.

Section Row.
  Context {V : Type}.
  Variable A : arith V.
  Variable givens : list given_info.
  Variable unknowns : list var_info.

  (** The row with name [n], when the rows [rows] are those of the names [ns]. *)
  Definition getrow (ns : list string) (rows : list (list V)) (n : string) : list V :=
    match lookup n (combine ns rows) with Some r => r | None => [] end.

  (** [x] of the way from [o] to [w]. *)
  Definition between (o w : list V) (x : V) : list V :=
    map (fun p => a_add A (fst p) (a_mul A (a_sub A (snd p) (fst p)) x)) (combine o w).

  (** What the solve over [a, b] gets for a given, from the row's own givens [o] and the old state [c] reached at [a]. *)
  Definition row_input (o c : list (list V)) (a b : V) (g : given_info) : list V :=
    if String.eqb (gv_role g) "old_state" then getrow (given_names (old_states givens)) c (given_name g)
    else if String.eqb (gv_role g) "old_force" then
      between (getrow (given_names givens) o (given_name g)) (getrow (given_names givens) o (gv_pair g)) a
    else if String.eqb (gv_role g) "cur_force" then
      between (getrow (given_names givens) o (gv_pair g)) (getrow (given_names givens) o (given_name g)) b
    else getrow (given_names givens) o (given_name g).

  (** The old state after a step with the unknowns [us]. *)
  Definition carried (us : list (list V)) : list (list V) :=
    map (fun g => getrow (unknown_names unknowns) us (gv_pair g)) (old_states givens).

  (** The solve of one row: the givens to the unknowns and whether it converged. *)
  Variable solve_row : list (list V) -> list (list V) * bool.

  (** Substepping of one row over [a, b]: solve at once, or in two halves, at most [left] times deep. *)
  Fixpoint advance (left : nat) (a b : V) (o c : list (list V)) : option (list (list V) * list (list V)) :=
    let (us, ok) := solve_row (map (row_input o c a b) givens) in
    if ok then Some (us, carried us)
    else match left with
         | 0 => None
         | S left' =>
             let mid := a_mul A (a_half A) (a_add A a b) in
             match advance left' a mid o c with
             | None => None
             | Some (_, c1) => advance left' mid b o c1
             end
         end.
End Row.

(** A masked solve of any number of rows, which answers for every row. *)
Definition answers {V} (d : device) (givens : list given_info) (unknowns : list var_info)
           (masked : smap (tensor V) -> result (smap (tensor V) * list bool)) : Prop :=
  forall n span, table d n (given_shapes givens) span ->
  exists span' mask, masked span = Ok (span', mask) /\ length mask = n /\
    forall u, In u unknowns -> exists t, lookup (v_name u) span' = Some t /\ rowsof d n (trailing u) t.
(** It treats every row as [solve_row]. *)
Definition rowwise {V} (d : device) (givens : list given_info) (unknowns : list var_info)
           (masked : smap (tensor V) -> result (smap (tensor V) * list bool))
           (solve_row : list (list V) -> list (list V) * bool) : Prop :=
  forall n span span' mask, table d n (given_shapes givens) span -> masked span = Ok (span', mask) ->
  forall i, i < n ->
    let out := solve_row (rows_of_names span (given_names givens) i) in
    rows_of_names span' (unknown_names unknowns) i = fst out /\ nth_error mask i = Some (snd out).

(** ** A state over a batch of any shape *)
Section Batch.
  Context {V : Type}.

  (** Batch entry [i] (in row-major order) of a tensor for variable [v]. *)
  Definition entry (v : var_info) (t : tensor V) (i : nat) : list V :=
    firstn (numel (trailing v)) (skipn (i * numel (trailing v)) (t_data t)).
  Definition entries (vs : list var_info) (st : smap (tensor V)) (i : nat) : list (list V) :=
    map (fun v => match lookup (v_name v) st with Some t => entry v t i | None => [] end) vs.

  (** The variables are in the state, over the batch [dyn] and on device [d]. *)
  Definition over (d : device) (dyn : list nat) (vs : list var_info) (st : smap (tensor V)) : Prop :=
    forall v, In v vs -> exists t, lookup (v_name v) st = Some t /\ wf t /\ t_dev t = d /\ t_shape t = dyn ++ trailing v.
End Batch.
(** Every variable has an element (without one a batch of rank other than 1 cannot be flattened). *)
Definition solid (dyn : list nat) (vs : list var_info) : Prop :=
  length dyn = 1 \/ forall v, In v vs -> numel (trailing v) <> 0.

(** The point half way between two. *)
Definition middle {V} (A : arith V) (a b : V) : V := a_mul A (a_half A) (a_add A a b).
(** What the interpolation needs of exact arithmetic. *)
Definition exact_ends {V} (A : arith V) : Prop :=
  forall x y, a_add A x (a_mul A (a_sub A y x) (a_zero A)) = x /\ a_add A x (a_mul A (a_sub A y x) (a_one A)) = y.
