(** A concrete segment for C58: c u^2 = f by at most a few Newton steps from the old state, with a force that moves over the step. *)
From Verif Require Import Base Tensor Spec Float Newton SpecNewton Example_Newton Broadcast Pack SpecPack Implicit Substep SpecSubstep Mat Jac JacModel FwdModel SystemAoti SpecSolved
     SpecSubSolved Example_Solved.
Local Open Scope string_scope.
Local Open Scope list_scope.

Definition ux_givens : list given_info :=
  [mkGiven (mkVar "f" [] []) "cur_force" "f~1"; mkGiven (mkVar "f~1" [] []) "old_force" "f"; mkGiven (mkVar "u~1" [] []) "old_state" "u"].
Definition ux_seg : solver_seg :=
  mkSseg ux_givens [mkVar "u" [] []] [vx_group "f"] [vx_group "u"] [vx_group "r"] ["c"]
    (Some (mkPred ["u~1"] [] ["u"] (mkFb 0 "" "" [] []) (fun l => match l with [t] => Ok [t] | _ => Err (StdExn "arguments") end)))
    vx_residual (Direct vx_jacobian vx_linear).
Definition ux_cfg : config := with_miters 6 cfg0.
Definition ux_in (a b : Z) : smap (tensor F) :=
  [("f", mkT [2] [fnum 8 0; fnum b 0] cpu); ("f~1", mkT [2] [fnum 2 0; fnum a 0] cpu); ("u~1", mkT [2] [fone; fone] cpu)].
Definition ux_imp (level : nat) : jimp F :=
  mkJI (seg_of sum0 ux_cfg ux_seg) 1 (fun _ => Err (StdExn "not used")) None (Compiled (fun _ => Err (StdExn "not used"))) [] level.
Definition ux_run level a b := forward vx_arith vx_par [] false [mkIn "f" [] []; mkIn "f~1" [] []; mkIn "u~1" [] []] [JI (ux_imp level)] ["u"] (ux_in a b).

Lemma ux_ok : segment_ok ux_seg.
Proof.
  split; [|split].
  - constructor; [|constructor]. split; [discriminate|]. intros C. discriminate C.
  - constructor; [intros []|constructor].
  - intros n [<-|[]] [C|[]]. discriminate C.
Qed.
Lemma ux_seg_ok : seg_ok (ss_givens ux_seg) (ss_unknowns ux_seg).
Proof.
  split; [discriminate|]. split; [repeat constructor; cbn; intuition discriminate|]. split; [repeat constructor; cbn; intuition discriminate|]. split.
  - intros g I R. cbn in I. intuition subst; try discriminate. eexists. split; [left; reflexivity|]. split; reflexivity.
  - intros g I R. cbn in I. intuition subst; try (destruct R; discriminate).
    + eexists. split; [right; left; reflexivity|]. split; reflexivity.
    + eexists. split; [left; reflexivity|]. split; reflexivity.
Qed.
Lemma ux_names : names_ok ux_seg.
Proof.
  split.
  - intros u. cbn. split; [intros [<-|[]]; eexists; split; [left; reflexivity|left; reflexivity]|intros [g [[<-|[]] [<-|[]]]]; left; reflexivity].
  - intros n I. cbn in I. split; [intros [C|[]]; subst; cbn in I; intuition discriminate|]. intros p E. cbn in E. injection E as <-. cbn.
    split; [intros [C|[]]; subst; intuition discriminate|]. intros C. subst. intuition discriminate.
Qed.
Lemma ux_predictor : predictor_ok ux_seg.
Proof.
  exists (fun _ => []). split; [intros g I; cbn in I; intuition subst; reflexivity|]. split; [intros u [<-|[]]; reflexivity|].
  intros p E. cbn in E. injection E as <-. split; [cbn; lia|].
  intros n ins ps outs H W k name t Nk Tk. cbn in H, W, Nk. inversion W as [|? t0 ? ? W0 Wr]; subst. inversion Wr; subst. cbn [app] in H. destruct ps; [|discriminate].
  injection H as <-. destruct k as [|[|k]]; try discriminate. injection Tk as <-. exact W0.
Qed.
