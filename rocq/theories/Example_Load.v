(** An artifact for C60 and C61: a forward segment and a matrix-free implicit segment with a predictor, over binary64. *)
From Coq Require Import String.
From Verif Require Import Base Tensor SpecRename Rename Krylov Float Load SpecLoad LoadProofs.
Local Open Scope string_scope.
Local Open Scope list_scope.
Local Open Scope Z_scope.

Definition lx_of_int (z : Z) : F := fnum z 0.
(** Integers are never written as doubles here. *)
Definition lx_trunc (_ : F) : result Z := Err (OtherExn 0).
(** float64 *)
Definition lx_cast (_ : string) (x : F) : F := x.
Definition lx_open (s : string) : result unit :=
  if mem_name s ["f.pt2"; "f_jvp.pt2"; "f_pvjp.pt2"; "r.pt2"; "mv.pt2"; "ps.pt2"; "pa.pt2"; "jg.pt2"; "pred.pt2"] then Ok tt
  else Err (StdExn "no such package").
(** Model.h:50-76, krylov.h:76-88, rounded to a power of two where they are decimal fractions *)
Definition lx_sdef : sconfig F := mkScfg (fnum 1 (-33)) (fnum 1 (-27)) 25 "BACKTRACKING" 1 (fnum 2 0) (fnum 1 (-10)) (fnum 1 (-20)).
Definition lx_kdef : kconfig F := mkKcfg GMRES CacheNone 40 1000 (fnum 0 0) (fnum 1 (-13)) 10.

Definition lx_forward : mforward :=
  mkMfwd "f.pt2" (Some "f_jvp.pt2") ["strain"; "T"] ["trial"] [mkMpair "trial" "strain" [6] [6] [] true 0 0]
         None [] (Some "f_pvjp.pt2") ["E"] ["trial"].
Definition lx_unknown : mvar := mkMvar "stress" 6 [4] [6] "static" "".
Definition lx_pred : mpredictor :=
  mkMpred "pred.pt2" ["trial"; "guess"] ["stress"; "next"] [] (Some (mkMfb "guess" "next" 3 [4] [6])).
Definition lx_sens : kconfig F := mkKcfg BiCGStab CacheNone 30 200 (fnum 1 (-40)) (fnum 1 (-30)) 10.
Definition lx_implicit : mimplicit F :=
  mkMimp 2 "r.pt2" None None (Some "mv.pt2") (Some ("ps.pt2", "pa.pt2")) (Some "jg.pt2") None "krylov" lx_sens
         [lx_unknown] [mkMvar "trial" 6 [4] [6] "force" "trial~1"; mkMvar "trial~1" 6 [4] [6] "old_force" ""] [mkMvar "res" 6 [4] [6] "static" ""]
         [mkMgroup "block" [4] [lx_unknown]] [] [mkMgroup "block" [4] [mkMvar "res" 6 [4] [6] "static" ""]]
         [mkMpair "stress" "trial" [6] [6] [4] false 0 6] None None [] "direct" lx_kdef (Some lx_pred).
Definition lx_newton : sconfig F := mkScfg (fnum 1 (-40)) (fnum 1 (-30)) 50 "STRONG_WOLFE" 10 (fnum 3 (-1)) (fnum 1 (-12)) (fnum 1 (-21)).
Definition lx_krylov : kconfig F := mkKcfg GMRES MaxLinearIters 20 300 (fnum 1 (-45)) (fnum 1 (-15)) 7.
Definition lx_artifact : artifact F :=
  mkAr [("strain", "eps")] [("stress", "sigma")] [("E", "youngs")]
       [mkMin "strain" 6 [6] [4]; mkMin "T" 1 [] []; mkMin "trial~1" 6 [6] [4]] [mkMout "stress" [6] 6] [("stress", "strain")] [("stress", "E")]
       [mkAp "E" None [2]%nat [] [fnum 5 0; fnum 7 0]; mkAp "n" (Some "int64") []%nat [] [fnum 3 0]]
       (Some (lx_newton, Some lx_krylov)) [mkMseg ["E"] (MForward lx_forward); mkMseg ["E"; "n"] (MImplicit lx_implicit)].

Ltac lx_small := unfold i64_range, i32_range, u64_range; lia.

Lemma lx_ok : artifact_ok lx_kdef (opens lx_open) lx_artifact.
Proof.
  assert (O : forall l, forallb (fun o => match o with Some s => is_ok (lx_open s) | None => true end) l = true -> opens_all (opens lx_open) l).
  { intros l H s I. rewrite forallb_forall in H. apply H in I. unfold opens. destruct (lx_open s) as [[]|]; [reflexivity|discriminate]. }
  unfold artifact_ok, lx_artifact. cbn [ar_in ar_out ar_par ar_inputs ar_outputs ar_derivs ar_pderivs ar_params ar_solver ar_segs keys map fst].
  repeat match goal with |- _ /\ _ => split end.
  1-3: repeat constructor; intros [].
  - repeat (apply Forall_cons; [cbn; repeat split; try lx_small; repeat (apply Forall_cons; [lx_small|]); apply Forall_nil|]). apply Forall_nil.
  - repeat (apply Forall_cons; [cbn; repeat split; try lx_small; repeat (apply Forall_cons; [lx_small|]); apply Forall_nil|]). apply Forall_nil.
  - intros o i [E|[]]. injection E as <- <-. eexists. split; [left; reflexivity|reflexivity].
  - intros o i [E|[]]. injection E as <- <-. eexists. split; [left; reflexivity|reflexivity].
  - repeat (apply Forall_cons; [unfold param_ok; cbn [ap_dtype ap_shape ap_base ap_values]; split;
      [intros s Es; first [discriminate|injection Es as <-; unfold known_dtype; cbn; tauto]|
       split; [repeat (apply Forall_cons; [lx_small|]); apply Forall_nil|split; [apply Forall_nil|reflexivity]]]|]). apply Forall_nil.
  - cbn. repeat constructor; cbn; intros H; repeat destruct H as [H|H]; try discriminate H; destruct H.
  - cbn. repeat constructor; cbn; intros H; repeat destruct H as [H|H]; try discriminate H; destruct H.
  - cbn. lx_small.
  - cbn. lx_small.
  - unfold krylov_ok. cbn. repeat split; lx_small.
  - assert (V6 : forall n r p, var_ok (mkMvar n 6 [4] [6] r p)).
    { intros. unfold var_ok. cbn. split; [lx_small|]. split; repeat (apply Forall_cons; [lx_small|]); apply Forall_nil. }
    repeat (apply Forall_cons); [| |apply Forall_nil]; unfold segment_ok; cbn [sg_kind].
    + unfold forward_ok, lx_forward. cbn [fw_package fw_jvp fw_pjac fw_pvjp fw_pairs fw_ppairs fw_pvjp_params fw_pvjp_outputs].
      split; [apply O; reflexivity|]. split; [|split; [apply Forall_nil|split; [discriminate|split; [reflexivity|discriminate]]]].
      apply Forall_cons; [|apply Forall_nil]. unfold pair_ok. cbn. repeat split; try reflexivity; repeat (apply Forall_cons; [lx_small|]); apply Forall_nil.
    + unfold implicit_ok, lx_implicit.
      cbn [im_level im_residual im_jacobian im_solve im_matvec im_precond im_given im_solve_ift im_in_kind im_in_krylov im_unknowns im_givens im_residuals im_ugroups im_ggroups im_rgroups im_pairs im_drdp im_solve_param im_ppairs im_par_kind im_par_krylov im_predictor].
      split; [lx_small|]. split; [apply O; reflexivity|]. split; [discriminate|].
      assert (P6 : forall n, plain_var (mkMvar n 6 [4] [6] "static" "")) by (intros; split; [apply V6|split; reflexivity]).
      assert (G6 : forall n, group_ok (mkMgroup "block" [4] [mkMvar n 6 [4] [6] "static" ""])).
      { intros. split; cbn; [repeat (apply Forall_cons; [lx_small|]); apply Forall_nil|]. apply Forall_cons; [apply P6|apply Forall_nil]. }
      split; [apply Forall_cons; [apply P6|apply Forall_nil]|].
      split; [apply Forall_cons; [apply V6|apply Forall_cons; [apply V6|apply Forall_nil]]|].
      split; [apply Forall_cons; [apply P6|apply Forall_nil]|].
      split; [apply Forall_cons; [apply G6|apply Forall_nil]|]. split; [apply Forall_nil|].
      split; [apply Forall_cons; [apply G6|apply Forall_nil]|].
      split; [apply Forall_cons; [|apply Forall_nil]; unfold pair_ok; cbn; repeat split; try lx_small; repeat (apply Forall_cons; [lx_small|]); apply Forall_nil|].
      split; [apply Forall_nil|].
      split; [left; unfold krylov_ok; cbn; repeat split; lx_small|]. split; [right; split; reflexivity|].
      split; [discriminate|]. split; [split; reflexivity|].
      unfold predictor_ok, lx_pred, feedback_ok. cbn. repeat split; try lx_small; try (repeat (apply Forall_cons; [lx_small|]); apply Forall_nil); tauto.
Qed.

(** A minimal metadata file with settings of one's own. *)
Definition lx_meta (version : json F) (solver : list (string * option (json F))) : json F :=
  obj [("schema_version", Some version); ("type", w_str "composed"); ("inputs", Some (JArr [])); ("outputs", Some (JArr []));
       ("segments", Some (JArr [])); ("solver_config", Some (obj solver))].
Definition lx_load : json F -> result (loaded F) := load lx_of_int lx_trunc lx_cast lx_open lx_sdef lx_kdef "float64" cpu true.
