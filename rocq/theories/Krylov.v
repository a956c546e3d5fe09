(** aoti/krylov.h: the batched Krylov linear solvers.  Definitions only.

    Representation.  A (B, N) tensor is the list of its B rows.  Everything the solvers compute
    between two calls of the operator, of the preconditioner or of [done.all()] is done row by row, so
    what they keep is written here as one record per row; the buffers [V], [H], [cs], [sn], [g]
    (allocated for the full restart width) are the lists of the columns written so far.
    Simplifications:
    - the arithmetic is a parameter (binary64 is [binary64] below), the dtype's epsilon with it;
    - [rsum] (at::sum over one row), [edot] (the einsum contractions over one row) and [tri] (the triangular
      solve of one row) are arbitrary functions, as torch does not fix the order of their operations;
    - an operator or preconditioner that returns the wrong shape raises; torch would raise or broadcast;
    - the logging hook is left out. *)
From Verif Require Import Base Float Newton.
Local Open Scope string_scope.
Local Open Scope list_scope.

(** krylov.h:55-68 *)
Inductive method := GMRES | BiCGStab.
Inductive cache_strategy := CacheNone | Chord | MaxLinearIters.

(** The arithmetic of the tensors' dtype. *)
Record num (V : Type) := mkNum {
  n_zero : V; n_one : V; n_add : V -> V -> V; n_sub : V -> V -> V; n_mul : V -> V -> V; n_div : V -> V -> V;
  n_neg : V -> V; n_sqrt : V -> V; n_abs : V -> V; n_lt : V -> V -> bool; n_eps : V }.
Arguments mkNum {V}. Arguments n_zero {V}. Arguments n_one {V}. Arguments n_add {V}. Arguments n_sub {V}.
Arguments n_mul {V}. Arguments n_div {V}. Arguments n_neg {V}. Arguments n_sqrt {V}. Arguments n_abs {V}.
Arguments n_lt {V}. Arguments n_eps {V}.
Definition binary64 : num F :=
  mkNum fzero fone fadd fsub fmul fdiv fopp fsqrt fabs flt (fnum 1 (-52)).

(** krylov.h:76-85 KrylovConfig *)
Record kconfig (V : Type) := mkKcfg {
  k_method : method; k_cache : cache_strategy; k_restart : Z; k_max_its : Z;
  k_abs_tol : V; k_rel_tol : V; k_cache_max_its : Z }.
Arguments mkKcfg {V}. Arguments k_method {V}. Arguments k_cache {V}. Arguments k_restart {V}.
Arguments k_max_its {V}. Arguments k_abs_tol {V}. Arguments k_rel_tol {V}. Arguments k_cache_max_its {V}.

(** krylov.h:90-116 [parse_krylov_method], [parse_cache_strategy] *)
Definition parse_method (s : string) : option method :=
  if String.eqb s "gmres" then Some GMRES else if String.eqb s "bicgstab" then Some BiCGStab else None.
Definition parse_cache (s : string) : option cache_strategy :=
  if String.eqb s "none" then Some CacheNone else if String.eqb s "chord" then Some Chord
  else if String.eqb s "max_its" then Some MaxLinearIters else None.

(** What a solve calls, in order. *)
Inductive kcall (V : Type) := CMat (x : list (list V)) | CPre (r : list (list V)).
Arguments CMat {V}. Arguments CPre {V}.
Definition kio (V A : Type) : Type := result A * list (kcall V).
Definition kret {V A} (a : A) : kio V A := (Ok a, []).
Definition kbind {V A B} (x : kio V A) (f : A -> kio V B) : kio V B :=
  match x with
  | (Ok a, l) => let '(r, l') := f a in (r, l ++ l')
  | (Err e, l) => (Err e, l)
  end.
Notation "'kdo' x '<-' e1 'in' e2" := (kbind e1 (fun x => e2))
  (at level 200, x pattern, e1 at level 100, e2 at level 200, right associativity).

Section Krylov.
  Context {V : Type}.
  Variable N : num V.
  Variable rsum : list V -> V.
  Variable edot : list V -> list V -> V.
  Variable tri : list (list V) -> list V -> list V.
  Notation zero := (n_zero N). Notation one := (n_one N).
  Notation add := (n_add N). Notation sub := (n_sub N). Notation mul := (n_mul N). Notation div := (n_div N).
  Notation neg := (n_neg N). Notation lt := (n_lt N). Notation eps := (n_eps N).
  Notation vec := (list V).

  Variable matvec : list vec -> result (list vec).
  Variable minv : list vec -> result (list vec).

  (** Calls of the functors; [x.sizes()] back. *)
  Definition like (x y : list vec) : bool :=
    sizes_eqb (map (@length V) y) (map (@length V) x).
  Definition call_op (f : list vec -> result (list vec)) (c : kcall V) (x : list vec) : kio V (list vec) :=
    (let* y := f x in if like x y then Ok y else Err (StdExn "shape mismatch"), [c]).
  Definition apply_a (x : list vec) : kio V (list vec) := call_op matvec (CMat x) x.
  Definition apply_m (r : list vec) : kio V (list vec) := call_op minv (CPre r) r.

  (** One-row arithmetic. *)
  Definition vadd : vec -> vec -> vec := map2 add.
  Definition vsub : vec -> vec -> vec := map2 sub.
  Definition vscale (a : V) : vec -> vec := map (mul a).
  Definition zeros (x : vec) : vec := map (fun _ => zero) x.
  (** [clamp_min(eps)] *)
  Definition clamp (x : V) : V := if lt x eps then eps else x.
  (** krylov.h:149-153 *)
  Definition row_norm (x : vec) : V := n_sqrt N (rsum (map (fun a => mul a a) x)).
  (** krylov.h:155-165 *)
  Definition sign (d : V) : V := if lt zero d then one else if lt d zero then neg one else one.
  Definition safe_denom (d : V) : V := if lt (n_abs N d) eps then mul (sign d) eps else d.

  Definition meets (cfg : kconfig V) (bnorm rn : V) : bool :=
    lt rn (k_abs_tol cfg) || lt (div rn bnorm) (k_rel_tol cfg).
  (** krylov.h:184: the norm of the right-hand side, floored. *)
  Definition bnorm (b : vec) : V := clamp (row_norm b).

  (** ** BiCGStab *)
  Record brow := mkB {
    br_x : vec; br_r : vec; br_p : vec; br_v : vec; br_rho : V; br_alpha : V; br_omega : V;
    br_done : bool; br_iters : nat }.

  (** krylov.h:327-346 *)
  Definition bicg_start (cfg : kconfig V) (b : vec) : brow :=
    mkB (zeros b) b (zeros b) (zeros b) one one one (meets cfg (bnorm b) (row_norm b)) 0.

  (** krylov.h:355-359: [rho_new] and [p_new]; [rhat] is the right-hand side. *)
  Definition bicg_rho (rhat : vec) (s : brow) : V := edot rhat (br_r s).
  Definition bicg_p (rhat : vec) (s : brow) : vec :=
    let beta := mul (div (bicg_rho rhat s) (safe_denom (br_rho s)))
                    (div (br_alpha s) (safe_denom (br_omega s))) in
    vadd (br_r s) (vscale beta (vsub (br_p s) (vscale (br_omega s) (br_v s)))).
  (** krylov.h:362 *)
  Definition bicg_alpha (rhat v : vec) (s : brow) : V :=
    div (bicg_rho rhat s) (safe_denom (edot rhat v)).
  (** krylov.h:363 *)
  Definition bicg_s (rhat v : vec) (s : brow) : vec :=
    vsub (br_r s) (vscale (bicg_alpha rhat v s) v).
  (** krylov.h:366 *)
  Definition bicg_omega (t sv : vec) : V := div (edot t sv) (clamp (edot t t)).
  (** krylov.h:367-382; [p], [phat], [v], [shat], [t] are this row of the tensors so named. *)
  Definition bicg_update (cfg : kconfig V) (rhat p phat v shat t : vec) (s : brow) : brow :=
    if br_done s then s
    else
      let alpha := bicg_alpha rhat v s in
      let sv := bicg_s rhat v s in
      let omega := bicg_omega t sv in
      let r := vsub sv (vscale omega t) in
      mkB (vadd (vadd (br_x s) (vscale alpha phat)) (vscale omega shat)) r p v
          (bicg_rho rhat s) alpha omega
          (meets cfg (bnorm rhat) (row_norm r)) (S (br_iters s)).

  Definition all_done (l : list brow) : bool := forallb br_done l.

  (** krylov.h:350-383, [more] iterations left. *)
  Fixpoint bicg_loop (cfg : kconfig V) (b : list vec) (more : nat) (st : list brow) : kio V (list brow) :=
    match more with
    | 0 => kret st
    | S more' =>
        if all_done st then kret st
        else
          let p := map2 bicg_p b st in
          kdo phat <- apply_m p in
          kdo v <- apply_a phat in
          let s := map2 (fun q st => bicg_s (fst q) (snd q) st) (combine b v) st in
          kdo shat <- apply_m s in
          kdo t <- apply_a shat in
          bicg_loop cfg b more'
            (map2 (fun q st => bicg_update cfg (fst (fst q)) (fst (snd (fst q))) (snd (snd (fst q)))
                                           (fst (fst (snd q))) (snd (fst (snd q))) (snd (snd q)) st)
                  (combine (combine b (combine p phat)) (combine (combine v shat) t)) st)
    end.

  Record kresult := mkKres { kr_du : list vec; kr_iters : nat; kr_converged : list bool }.
  Definition max_of (l : list nat) : nat := fold_right Nat.max 0 l.
  (** [iters.max()] raises on an empty batch. *)
  Definition finish (x : list vec) (iters : list nat) (done : list bool) : result kresult :=
    match iters with
    | [] => Err (StdExn "max(): Expected reduction dim to be specified for input.numel() == 0")
    | _ => Ok (mkKres x (max_of iters) done)
    end.

  (** krylov.h:317-386 *)
  Definition bicgstab (b : list vec) (cfg : kconfig V) : kio V kresult :=
    kdo st <- bicg_loop cfg b (Z.to_nat (k_max_its cfg)) (map (bicg_start cfg) b) in
    (finish (map br_x st) (map br_iters st) (map br_done st), []).

  (** ** GMRES *)
  (** The columns of one cycle: [V], the rotated columns of [H] (their upper part), the rotations,
      [g] and its last entry. *)
  Record arnoldi := mkArn {
    ar_vs : list vec; ar_cols : list vec; ar_rot : list (V * V); ar_g : vec; ar_last : V }.
  (** A row of the batch: the solution, the counter and the flag; [gr_active] since the cycle's start. *)
  Record grow := mkG { gr_x : vec; gr_iters : nat; gr_done : bool; gr_active : bool; gr_arn : arnoldi }.

  (** The column [n] of a list of vectors. *)
  Definition column (l : list vec) (n : nat) : vec := flat_map (fun v => match nth_error v n with Some x => [x] | None => [] end) l.
  (** [einsum("bk,bkn->bn", h, V)] for one row; [like] has the length of the result. *)
  Definition combination (h : vec) (vs : list vec) (w : vec) : vec :=
    map (fun n => edot h (column vs n)) (seq 0 (length w)).
  (** krylov.h:225-235: one Gram-Schmidt pass. *)
  Definition project (vs : list vec) (w : vec) : vec * vec :=
    let h := map (fun v => edot v w) vs in
    (h, vsub w (combination h vs w)).

  (** krylov.h:241-251: the rotations so far, applied to a column. *)
  Fixpoint rotate (rot : list (V * V)) (col : vec) : vec :=
    match rot, col with
    | (c, s) :: rot', a :: b :: col' =>
        add (mul c a) (mul s b) :: rotate rot' (add (mul (neg s) a) (mul c b) :: col')
    | _, _ => col
    end.

  (** krylov.h:221-270: a column of the basis from [w], this row of [minv(matvec(V_j))].  [rotate]
      leaves at the end of the column the entries [Hjj] and [Hj1j]. *)
  Definition arnoldi_step (w : vec) (a : arnoldi) : arnoldi :=
    let '(h1, w1) := project (ar_vs a) w in
    let '(h2, w2) := project (ar_vs a) w1 in
    let h := vadd h1 h2 in
    let hjp := row_norm w2 in
    let col := rotate (ar_rot a) (h ++ [hjp]) in
    let hjj := nth (length (ar_rot a)) col zero in
    let hj1 := nth (S (length (ar_rot a))) col zero in
    let denom := clamp (n_sqrt N (add (mul hjj hjj) (mul hj1 hj1))) in
    let c := div hjj denom in
    let s := div hj1 denom in
    mkArn (ar_vs a ++ [map (fun x => div x (clamp hjp)) w2])
          (ar_cols a ++ [firstn (length (ar_rot a)) col ++ [add (mul c hjj) (mul s hj1)]])
          (ar_rot a ++ [(c, s)])
          (ar_g a ++ [mul c (ar_last a)])
          (mul (neg s) (ar_last a)).

  (** krylov.h:272-280 *)
  Definition gmres_test (cfg : kconfig V) (b : vec) (s : grow) : grow :=
    let resid := n_abs N (ar_last (gr_arn s)) in
    let counting := gr_active s && negb (gr_done s) in
    mkG (gr_x s) (if counting then S (gr_iters s) else gr_iters s)
        (gr_done s || (counting && meets cfg (bnorm b) resid)) (gr_active s) (gr_arn s).

  Definition last_v (a : arnoldi) : vec := last (ar_vs a) [].
  Definition gmres_column (cfg : kconfig V) (b w : vec) (s : grow) : grow :=
    gmres_test cfg b (mkG (gr_x s) (gr_iters s) (gr_done s) (gr_active s) (arnoldi_step w (gr_arn s))).

  (** krylov.h:219-293, [more] columns left. *)
  Fixpoint gmres_cycle (cfg : kconfig V) (b : list vec) (more : nat) (st : list grow) : kio V (list grow) :=
    match more with
    | 0 => kret st
    | S more' =>
        kdo av <- apply_a (map (fun s => last_v (gr_arn s)) st) in
        kdo w <- apply_m av in
        let st := map2 (fun q s => gmres_column cfg (fst q) (snd q) s) (combine b w) st in
        if forallb gr_done st then kret st else gmres_cycle cfg b more' st
    end.

  (** krylov.h:295-305: [R_reg y = g], [x += V y]. *)
  Definition regularized (cols : list vec) : list vec :=
    map (fun p => map (fun q => add (snd q) (mul eps (if Nat.eqb (fst q) (fst p) then one else zero)))
                      (combine (seq 0 (length (snd p))) (snd p)))
        (combine (seq 0 (length cols)) cols).
  Definition gmres_correct (s : grow) : grow :=
    let a := gr_arn s in
    let y := tri (regularized (ar_cols a)) (ar_g a) in
    mkG (vadd (gr_x s) (combination y (firstn (length (ar_cols a)) (ar_vs a)) (gr_x s)))
        (gr_iters s) (gr_done s) (gr_active s) a.

  (** krylov.h:196-200 *)
  Definition gmres_residual (b : list vec) (first : bool) (st : list grow) : kio V (list vec) :=
    if first then apply_m b
    else
      kdo ax <- apply_a (map gr_x st) in
      apply_m (map2 vsub b ax).
  (** krylov.h:197-198, 211-217: this row at the start of a cycle. *)
  Definition gmres_begin (cfg : kconfig V) (b r : vec) (s : grow) : grow :=
    let beta := row_norm r in
    let done := gr_done s || meets cfg (bnorm b) beta in
    mkG (gr_x s) (gr_iters s) done (negb done)
        (mkArn [map (fun x => div x (clamp beta)) r] [] [] [] beta).

  (** krylov.h:189-306, [cycles] left. *)
  Fixpoint gmres_loop (cfg : kconfig V) (b : list vec) (m : nat) (first : bool) (cycles : nat) (st : list grow)
    : kio V (list grow) :=
    match cycles with
    | 0 => kret st
    | S cycles' =>
        kdo r <- gmres_residual b first st in
        let st := map2 (fun q s => gmres_begin cfg (fst q) (snd q) s) (combine b r) st in
        if forallb gr_done st then kret st
        else
          kdo st <- gmres_cycle cfg b m st in
          gmres_loop cfg b m false cycles' (map gmres_correct st)
    end.

  Definition gmres_start (b : vec) : grow := mkG (zeros b) 0 false true (mkArn [] [] [] [] zero).

  (** krylov.h:181-182: the number of cycles; a zero width divides by zero, an overflow is undefined.
      Torch refuses to allocate the buffers of a negative width. *)
  Definition int64_ok (z : Z) : bool := ((- 2 ^ 63 <=? z) && (z <? 2 ^ 63))%Z.
  Definition cycles_of (cfg : kconfig V) : result Z :=
    let m := k_restart cfg in
    if (m =? 0)%Z || negb (int64_ok (k_max_its cfg + m)) || negb (int64_ok (k_max_its cfg + m - 1))
       || negb (int64_ok (Z.quot (k_max_its cfg + m - 1) m))
    then Err (OtherExn 0)
    else Ok (Z.quot (k_max_its cfg + m - 1) m).

  (** krylov.h:173-309 *)
  Definition gmres (b : list vec) (cfg : kconfig V) : kio V kresult :=
    kdo cycles <- (cycles_of cfg, []) in
    let m := k_restart cfg in
    kdo st <-
      (if (m <? 0)%Z && (0 <? cycles)%Z
       then
         (* the first cycle up to the allocation of [V] *)
         kdo r <- apply_m b in
         if forallb gr_done (map2 (fun q s => gmres_begin cfg (fst q) (snd q) s) (combine b r) (map gmres_start b))
         then kret (map2 (fun q s => gmres_begin cfg (fst q) (snd q) s) (combine b r) (map gmres_start b))
         else (Err (StdExn "empty: negative dimension"), [])
       else gmres_loop cfg b (Z.to_nat m) true (Z.to_nat cycles) (map gmres_start b)) in
    (finish (map gr_x st) (map gr_iters st) (map gr_done st), []).

  (** krylov.h:389-397 *)
  Definition krylov_solve (b : list vec) (cfg : kconfig V) : kio V kresult :=
    match k_method cfg with BiCGStab => bicgstab b cfg | GMRES => gmres b cfg end.
End Krylov.
Arguments kresult V : clear implicits.
Arguments brow V : clear implicits.
Arguments grow V : clear implicits.
Arguments arnoldi V : clear implicits.
