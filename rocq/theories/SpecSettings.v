(** Vocabulary of C82. *)
From Coq Require Import String.
From Verif Require Import Base Tensor Krylov Load SpecLoad.

(** The artifact the exporter would have written with these settings of the Newton solver, all else as it is. *)
Definition reconfigured {V} (c : sconfig V) (a : artifact V) : artifact V :=
  mkAr (ar_in a) (ar_out a) (ar_par a) (ar_inputs a) (ar_outputs a) (ar_derivs a) (ar_pderivs a) (ar_params a)
       (Some (c, match ar_solver a with Some (_, k) => k | None => None end)) (ar_segs a).

(** Two asynchronous calls that start the same: the same state, the same batch, the same result of each chunk wherever it runs,
    and the same made of the results. *)
Definition starts_alike {S R} (x y : S * result ((Z * (device -> Z -> Z -> result R)) * (result (list (option R)) -> result R))) : Prop :=
  fst x = fst y /\
  match snd x, snd y with
  | Ok (b, f, g), Ok (b', f', g') => b = b' /\ (forall d z k, f d z k = f' d z k) /\ forall l, g l = g' l
  | Err e, Err e' => e = e'
  | _, _ => False
  end.
