(** Concrete cases for C66: the segment c u^2 = w of Example_Solved, with compiled graphs and with Krylov iterations
    whose preconditioner is built once. *)
From Verif Require Import Base BaseProofs Tensor TensorProofs Float Newton SpecNewton Example_Newton Pack SpecPack PackProofs Krylov SpecKrylov Example_Krylov
     KrylovSystem SpecKrylovSystem SpecKrylovStep Implicit SystemAoti SpecSolved Example_Solved SpecIncrement.

Local Open Scope string_scope.
Local Open Scope list_scope.

(** The slope 2 c u; the residual, the slope times a direction, and a direction divided by a slope, all on the CPU. *)
Definition vk_cpu (t : tensor F) : tensor F := mkT (t_shape t) (t_data t) cpu.
Definition vk_slope (u c : tensor F) : tensor F := vx_map (fmul ftwo) (vx_scale c u).
Definition vk_residual (l : list (tensor F)) : result (list (tensor F)) := rmap (map vk_cpu) (vx_residual l).
Definition vk_zip (f : F -> F -> F) (v a : tensor F) : result (list (tensor F)) :=
  if Nat.eqb (length (t_data a)) (length (t_data v)) then Ok [vk_cpu (vx_zip f v a)] else Err (StdExn "shapes").
Definition vk_mat (l : list (tensor F)) : result (list (tensor F)) :=
  match l with [u; w; c; v] => vk_zip fmul v (vk_slope u c) | _ => Err (StdExn "arguments") end.
Definition vk_setup (l : list (tensor F)) : result (list (tensor F)) :=
  match l with [u; w; c] => Ok [vk_slope u c] | _ => Err (StdExn "arguments") end.
Definition vk_apply (l : list (tensor F)) : result (list (tensor F)) :=
  match l with [a; r] => vk_zip fdiv r a | _ => Err (StdExn "arguments") end.

Definition vk_cfg : kconfig F := mkKcfg BiCGStab Chord 40 1000 fzero kx_rel 10.
Definition vk_seg : solver_seg :=
  mkSseg [mkGiven (mkVar "w" [] []) "" ""] [mkVar "u" [] []] [vx_group "w"] [vx_group "u"] [vx_group "r"] ["c"]
    (Some (mkPred ["w"] [] ["u"] (mkFb 0 "" "" [] []) (fun l => Ok l))) vk_residual
    (MatrixFree kx_sum kx_dot kx_tri vk_cfg vk_mat (Some (vk_setup, vk_apply))).
Lemma vk_ok : segment_ok vk_seg.
Proof. exact vx_ok. Qed.

Lemma vk_zip_dense f v a dyn w out : dense_groups dyn cpu [v] [w] -> vk_zip f v a = Ok out -> dense_groups dyn cpu out [w].
Proof.
  intros G H. inversion G as [|? ? ? ? [W [_ S]] _]; subst. unfold vk_zip in H. destruct (_ =? _)%nat eqn:E; [|discriminate]. apply Nat.eqb_eq in E. injection H as <-.
  constructor; [|constructor]. split; [|split; [reflexivity|exact S]]. unfold wf, vk_cpu, vx_zip. cbn [t_data t_shape]. rewrite map_length, combine_length, E, Nat.min_id. exact W.
Qed.
Lemma vk_faithful : faithful vk_seg cpu.
Proof.
  intros dyn u gs ps _. cbn [ss_kind vk_seg]. change (widths (ss_unknown_groups vk_seg)) with [1]. change (widths (ss_residual_groups vk_seg)) with [1]. split; [|split].
  - intros b H. change (vk_residual (u ++ gs ++ ps) = Ok b) in H. unfold vk_residual in H. destruct (vx_residual _) as [x|]; [|discriminate]. cbn [rmap bind] in H. injection H as <-.
    apply Forall_forall. intros t I. apply in_map_iff in I. destruct I as [y [<- _]]. reflexivity.
  - intros v w G H. inversion G as [|v0 ? ? ? V0 N]; subst. inversion N; subst.
    unfold vk_mat in H. rewrite !app_assoc in H. destruct ((u ++ gs) ++ ps) as [|a [|b [|c [|e l]]]]; cbn [app] in H; try discriminate.
    + eapply vk_zip_dense; [|exact H]. exact G.
    + destruct l; discriminate.
  - cbv zeta. change (sum_of [1]) with 1. intros state r z H G A. unfold vk_setup in H. destruct (u ++ gs ++ ps) as [|a [|b [|c [|? ?]]]]; try discriminate. injection H as <-.
    cbn [app] in A. unfold vk_apply in A. eapply vk_zip_dense; [exact G|exact A].
Qed.

Definition vk_run (s : solver_seg) := run_implicit fzero vx_par false (seg_of sum0 cfg0 s) vx_w.
Definition vk_run_masked (s : solver_seg) := run_implicit_masked fzero vx_par (seg_of sum0 cfg0 s) vx_w.
