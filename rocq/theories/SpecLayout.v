(** Vocabulary of the column layout property (C27). *)
From Verif Require Import Base Jac.

(** Column [m] is component [c] of the input (or parameter) [i]. *)
Definition column (b : bands) (m : nat) (i : string) (c : nat) : Prop :=
  exists off s, lookup i b = Some (off, s) /\ c < s /\ m = off + c.

(** The names of a list without repetitions, in the order they first come. *)
Fixpoint firsts (l : list string) : list string :=
  match l with
  | [] => []
  | x :: r => x :: filter (fun y => negb (String.eqb y x)) (firsts r)
  end.
