(** Vocabulary of the Jacobian properties in exact arithmetic: sums, inner product, tangents pushed forward. *)
From Verif Require Import Base Tensor Spec Broadcast SpecBroadcast Jac SpecJac.

Section Algebra.
  Context {V : Type}.
  Variables zero one : V.
  Variables add mul : V -> V -> V.

  Definition sum (l : list V) : V := fold_right add zero l.
  (** Sum of [f k] for [k < n]. *)
  Definition sum_to (n : nat) (f : nat -> V) : V := sum (map f (seq 0 n)).
  (** Exact inner product. *)
  Fixpoint dotx (a b : list V) : V :=
    match a, b with
    | x :: a', y :: b' => add (mul x y) (dotx a' b')
    | _, _ => zero
    end.

  (** Forward differentiation: the tangent [t0] of the inputs carried through the segments [ls] (latest first). *)
  Fixpoint push (ls : list (lin V)) (t0 : string -> nat -> V) (v : string) (r : nat) : V :=
    match ls with
    | [] => t0 v r
    | l :: before =>
        if existsb (String.eqb v) (l_outs l) then
          fold_left (fun a p => let '(o, n, rows) := p in
                                if String.eqb o v
                                then add a (dotx (snd (rows r)) (map (fun k => push before t0 n k) (fst (rows r))))
                                else a)
                    (l_pairs l) zero
        else push before t0 v r
    end.
End Algebra.

(** [v] depends on [i] through the declared derivative blocks. *)
Inductive depends {V} : list (lin V) -> string -> string -> Prop :=
| dep_self i : depends [] i i
| dep_keep l before v i : ~ In v (l_outs l) -> depends before v i -> depends (l :: before) v i
| dep_block l before v n rows i : In v (l_outs l) -> In (v, n, rows) (l_pairs l) -> depends before n i -> depends (l :: before) v i.

(** The linearisation of an implicit segment with unknowns [us] and givens [gs]: a block for each of some pairs, with
    coefficients [X u g] (row, column) and none for the others. *)
Definition solves_for {V} (zero : V) (size : string -> nat) (us gs : list string) (X : string -> string -> nat -> nat -> V) (l : lin V) : Prop :=
  l_outs l = us /\ NoDup (map fst (l_pairs l)) /\
  (forall u g rows, In (u, g, rows) (l_pairs l) -> In u us /\ In g gs /\
     forall x, x < size u -> rows x = (seq 0 (size g), map (X u g x) (seq 0 (size g)))) /\
  (forall u g, In u us -> In g gs -> ~ In (u, g) (map fst (l_pairs l)) -> forall x y, X u g x y = zero).

Section Tangent.
  Context {V : Type}.
  Variable zero : V.
  (** Component [c] of the tangent of [i] at batch entry [e], for the inputs paired with the output [o]. *)
  Definition seed (infos : list in_info) (derivs : list (string * string)) (T : smap (tensor V)) (o : string) (e : list nat) (i : string) (c : nat) : V :=
    match find (fun info => String.eqb (in_name info) i) infos with
    | Some info => if existsb (String.eqb i) (paired derivs o) then nth c (tangent_at zero T info e) zero else zero
    | None => zero
    end.
  (** Coefficient (x, y) of the block of [u] by [g] at batch entry [e]; zero without a block. *)
  Definition ift_coeff (D : list nat) (ps : list pair_info) (blks : list (tensor V)) (e : list nat) (u g : string) (x y : nat) : V :=
    match find (fun pt => String.eqb (p_out (fst pt)) u && String.eqb (p_in (fst pt)) g) (combine ps blks) with
    | Some (p, t) => match elem t (pull (firstn (length D) (t_shape t)) e ++ [x; y]) with Some v => v | None => zero end
    | None => zero
    end.
End Tangent.

(** The variables [l] occupy consecutive positions from [start] to [stop]. *)
Fixpoint tiled (size off : string -> nat) (l : list string) (start stop : nat) : Prop :=
  match l with
  | [] => start = stop
  | v :: r => off v = start /\ tiled size off r (start + size v) stop
  end.
