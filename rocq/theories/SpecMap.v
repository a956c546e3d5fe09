(** What a [std::map<std::string, T>] is as an association list: keys strictly
    increasing. *)
From Coq Require Import Sorted.
From Verif Require Import Base.

Definition sorted {T} (m : smap T) : Prop :=
  StronglySorted (fun a b => key_lt a b = true) (keys m).
