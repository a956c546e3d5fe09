(** Vocabulary of C68: what the lines about a solve may say. *)
From Verif Require Import Base Float Newton SpecNewton Log NewtonLog.

Definition calls (st : list event) : list call := flat_map (fun e => match e with ECall c => [c] | _ => [] end) st.
Definition notes_at (l : level) (st : list event) : list note :=
  flat_map (fun e => match e with EEmit l' m => if Nat.eqb (level_int l) (level_int l') then [m] else [] | _ => [] end) st.
Definition never_throws (say : list (level * note) -> level -> note -> result unit) : Prop := forall e l m, say e l m = Ok tt.
Definition ends_in_call (st : list event) : Prop := exists st0 c, st = st0 ++ [ECall c].

Section Tells.
  Variables (fsum tmax : list F -> F) (cfg : config) (s : system).
  Definition worst (b : batch) : F := tmax (map (rnorm fsum) b).

  (** The notes that go with the calls of a solve: one for the start, one for each trial if there is a line search, one
      for each iteration, each with the largest residual norm at the point just tried.
      [rest b0 i cs ns w n]: [i] iterations are done, [cs] are the calls to come, [n] iterations in all.  [w] is false if
      the last call is left without its notes. *)
  Inductive rest (b0 : batch) : nat -> list call -> list note -> bool -> nat -> Prop :=
  | rs_end i : rest b0 i [] [] true i
  | rs_cut i u : rest b0 i [CStep u] [] false i
  | rs_step i u cs ns w n : tries b0 i 1 cs ns w n -> rest b0 i (CStep u :: cs) ns w n
  with tries (b0 : batch) : nat -> nat -> list call -> list note -> bool -> nat -> Prop :=
  | tr_cut i k u : tries b0 i k [CResidual u] [] false i
  | tr_more i k u b a c cs ns w n : sy_residual s u = Ok b -> 1 < cf_ls_max_iters cfg -> tries b0 i (S k) cs ns w n ->
      tries b0 i k (CResidual u :: cs) (NTrial k a (worst b) c :: ns) w n
  | tr_last i k u b ts cs ns w n : sy_residual s u = Ok b ->
      (cf_ls_max_iters cfg <= 1 /\ ts = [] \/ 1 < cf_ls_max_iters cfg /\ exists a c, ts = [NTrial k a (worst b) c]) ->
      rest b0 (S i) cs ns w n ->
      tries b0 i k (CResidual u :: cs) (ts ++ NIter (S i) (worst b) (worst b0) :: ns) w n.
  Inductive tells : list call -> list note -> bool -> nat -> Prop :=
  | tl_none : tells [] [] false 0
  | tl_cut u : tells [CResidual u] [] false 0
  | tl_start u b0 cs ns w n : sy_residual s u = Ok b0 -> rest b0 0 cs ns w n ->
      tells (CResidual u :: cs) (NIter 0 (worst b0) (worst b0) :: ns) w n.

  (** The reason given holds at the point returned. *)
  Definition truthful (why : reason) (u0 u : batch) : Prop :=
    forall b0 b, sy_residual s u0 = Ok b0 -> sy_residual s u = Ok b ->
    (why = AbsTol \/ why = Both <-> forall r, In r b -> flt (rnorm fsum r) (cf_atol cfg) = true) /\
    (why = RelTol \/ why = Both <-> forall i r r0, nth_error b i = Some r -> nth_error b0 i = Some r0 ->
       flt (fdiv (rnorm fsum r) (rnorm fsum r0)) (cf_rtol cfg) = true).
  (** The summary line for an outcome. *)
  Definition summary (u0 : batch) (r : result (batch * nat * list note)) (x : note) : Prop :=
    match r with
    | Ok (u, n, _) => exists why, truthful why u0 u /\ (n = 0 /\ x = NPredictor why \/ 0 < n /\ x = NConverged n why)
    | Err e => e = Convergence "AOTI Newton diverged" /\ (exists i, 0 < i /\ x = NDiverged i) \/
               e = Convergence "AOTI Newton failed to converge" /\ exists b b0, sy_residual s u0 = Ok b0 /\ (exists u, sy_residual s u = Ok b) /\ x = NGaveUp (cf_miters cfg) (worst b) (worst b0)
    end.
End Tells.
