(** Concrete solves for C68. *)
From Verif Require Import Base Float Newton SpecNewton Log NewtonLog SpecNewtonLog Example_Newton.

Definition big (l : list F) : F := fold_right (fun x y => if flt x y then y else x) (hd fzero l) (tl l).
Definition small (l : list F) : F := fold_right (fun x y => if flt y x then y else x) (hd fzero l) (tl l).
Definition hush (e : list (level * note)) (l : level) (m : note) : result unit := Ok tt.
(** A sink that gives up at its third line. *)
Definition full (e : list (level * note)) (l : level) (m : note) : result unit :=
  if length e <? 2 then Ok tt else Err (StdExn "disk full").
Definition loud (l : level) : result bool := Ok true.
Definition at_info (l : level) : result bool := Ok (level_int l <=? 2).
Definition two_rows : system := rows_system [1] [long_sys; exact_sys].
Definition start2 : batch := [at1 fone; at1 (fnum 3 0)].
Definition slow1 : system := rows_system [1] [slow_sys].
Definition start1 : batch := [at1 fone].
