(** The artifact of Example_Runtime.v with the derivatives by both parameters: du/da = x / (2 c u), du/dc = - u / (2 c). *)
From Coq Require Import String.
From Verif Require Import Load SpecLoad LoadProofs Example_Load.
From Verif Require Import Base SpecMap Tensor Spec SpecRename Rename Float Newton SpecNewton Example_Newton Krylov Broadcast SpecBroadcast Pack SpecPack Implicit Substep SpecSubstep
     Mat Jac JacModel ParamJac FwdModel SystemAoti SpecSolved SpecSubSolved Example_Solved Runtime SpecRuntime SpecRuntimeParam RuntimeProofs Example_Runtime.
Local Open Scope string_scope.
Local Open Scope list_scope.

Definition rp_open (s : string) : result unit := if mem_name s ["fp.pt2"; "dp.pt2"; "sp.pt2"] then Ok tt else rx_open s.
Definition rp_graph (s : string) (l : list (tensor F)) : result (list (tensor F)) :=
  if String.eqb s "fp.pt2" then match l with [x; a] => Ok [x] | _ => Err (StdExn "arguments") end
  else if String.eqb s "dp.pt2" then match l with [u; f; c] => Ok [vx_map (fmul ftwo) (vx_zip fmul c u); vx_zip fmul u u] | _ => Err (StdExn "arguments") end
  else if String.eqb s "sp.pt2" then match l with [a; b] => Ok [vx_map fopp (vx_zip fdiv b a)] | _ => Err (StdExn "arguments") end
  else rx_graph s l.
Definition rp_forward : mforward :=
  mkMfwd "f.pt2" (Some "f_jvp.pt2") ["x"] ["f"] [mkMpair "f" "x" [] [] [] false 0 0] (Some "fp.pt2") [mkMppair "f" "a" [] [] 0 0] None [] [].
Definition rp_implicit (level : Z) : mimplicit F :=
  mkMimp level "r.pt2" (Some "j.pt2") (Some "s.pt2") None None (Some "jg.pt2") (Some "ift.pt2") "direct" lx_kdef
         [rx_var "u" "static" ""] rx_givens [rx_var "r" "static" ""]
         [rx_group "u"] [rx_group "f"] [rx_group "r"]
         [mkMpair "u" "f" [] [] [] false 0 0] (Some "dp.pt2") (Some "sp.pt2") [mkMppair "u" "c" [] [] 0 0] "direct" lx_kdef (Some rx_pred).
Definition rp_artifact (level miters : Z) : artifact F :=
  mkAr [("x", "load")] [("u", "root")] [("a", "scale")]
       [rx_input "x"; rx_input "f~1"; rx_input "u~1"] [mkMout "u" [] 1] [("u", "x")] [("u", "a"); ("u", "c")]
       [mkAp "a" None [] [] [fone]; mkAp "c" None [] [] [ftwo]]
       (Some (rx_newton miters, None)) [mkMseg ["a"] (MForward rp_forward); mkMseg ["c"] (MImplicit (rp_implicit level))].

Lemma rp_ok level miters : (0 <= level < 10)%Z -> (0 <= miters < 100)%Z -> artifact_ok lx_kdef (opens rp_open) (rp_artifact level miters).
Proof.
  intros Lv Mi.
  assert (O : forall l, forallb (fun o => match o with Some s => is_ok (rp_open s) | None => true end) l = true -> opens_all (opens rp_open) l).
  { intros l H s I. rewrite forallb_forall in H. apply H in I. unfold opens. destruct (rp_open s) as [[]|]; [reflexivity|discriminate]. }
  unfold artifact_ok, rp_artifact. cbn [ar_in ar_out ar_par ar_inputs ar_outputs ar_derivs ar_pderivs ar_params ar_solver ar_segs keys map fst].
  repeat match goal with |- _ /\ _ => split end.
  1-3: repeat constructor; intros [].
  - repeat (apply Forall_cons; [cbn; repeat split; try lx_small; apply Forall_nil|]). apply Forall_nil.
  - repeat (apply Forall_cons; [cbn; repeat split; try lx_small; apply Forall_nil|]). apply Forall_nil.
  - intros o i [E|[]]. injection E as <- <-. eexists. split; [left; reflexivity|reflexivity].
  - intros o i [E|[E|[]]]; injection E as <- <-; eexists; [split; [left; reflexivity|reflexivity]|split; [right; left; reflexivity|reflexivity]].
  - repeat (apply Forall_cons; [unfold param_ok; cbn [ap_dtype ap_shape ap_base ap_values]; split;
      [intros s Es; discriminate|split; [apply Forall_nil|split; [apply Forall_nil|reflexivity]]]|]). apply Forall_nil.
  - cbn. repeat constructor; cbn; intros H; repeat destruct H as [H|H]; try discriminate H; destruct H.
  - cbn. repeat constructor; cbn; intros H; repeat destruct H as [H|H]; try discriminate H; destruct H.
  - cbn. lx_small.
  - cbn. lx_small.
  - exact I.
  - assert (V0 : forall n r p, var_ok (rx_var n r p)).
    { intros. unfold var_ok. cbn. split; [lx_small|]. split; apply Forall_nil. }
    repeat (apply Forall_cons); [| |apply Forall_nil]; unfold SpecLoad.segment_ok; cbn [Load.sg_kind].
    + unfold forward_ok, rp_forward. cbn [fw_package fw_jvp fw_pjac fw_pvjp fw_pairs fw_ppairs fw_pvjp_params fw_pvjp_outputs].
      split; [apply O; reflexivity|]. split; [|split; [|split; [discriminate|split; [discriminate|split; reflexivity]]]].
      2: { apply Forall_cons; [|apply Forall_nil]. unfold ppair_ok. cbn. repeat split; try reflexivity; apply Forall_nil. }
      apply Forall_cons; [|apply Forall_nil]. unfold pair_ok. cbn. repeat split; try reflexivity; apply Forall_nil.
    + unfold implicit_ok, rp_implicit.
      cbn [im_level im_residual im_jacobian im_solve im_matvec im_precond im_given im_solve_ift im_in_kind im_in_krylov im_unknowns im_givens im_residuals im_ugroups im_ggroups im_rgroups im_pairs im_drdp im_solve_param im_ppairs im_par_kind im_par_krylov im_predictor].
      split; [lx_small|]. split; [apply O; reflexivity|]. split; [discriminate|].
      assert (P0 : forall n, plain_var (rx_var n "static" "")) by (intros; split; [apply V0|split; reflexivity]).
      assert (G0 : forall n, SpecLoad.group_ok (rx_group n)).
      { intros. split; cbn; [apply Forall_nil|]. apply Forall_cons; [apply P0|apply Forall_nil]. }
      split; [apply Forall_cons; [apply P0|apply Forall_nil]|].
      split; [repeat (apply Forall_cons; [apply V0|]); apply Forall_nil|].
      split; [apply Forall_cons; [apply P0|apply Forall_nil]|].
      split; [apply Forall_cons; [apply G0|apply Forall_nil]|]. split; [apply Forall_cons; [apply G0|apply Forall_nil]|].
      split; [apply Forall_cons; [apply G0|apply Forall_nil]|].
      split; [apply Forall_cons; [|apply Forall_nil]; unfold pair_ok; cbn; repeat split; try lx_small; apply Forall_nil|].
      split; [apply Forall_cons; [|apply Forall_nil]; unfold ppair_ok; cbn; repeat split; try lx_small; apply Forall_nil|].
      split; [right; split; reflexivity|]. split; [right; split; reflexivity|].
      split; [discriminate|]. split; [discriminate|].
      unfold SpecLoad.predictor_ok, rx_pred. cbn. repeat split; tauto.
Qed.

Lemma rp_consistent rsum edot tri level miters : (0 <= miters)%Z -> consistent rsum edot tri rp_graph lx_sdef (rp_artifact level miters).
Proof.
  intros Mi. unfold consistent, rp_artifact. cbn [ar_inputs ar_solver ar_out ar_outputs ar_segs ar_params]. split; [|split; [|split; [|split; [|split]]]].
  - repeat constructor.
  - cbn. repeat constructor; cbn; intuition discriminate.
  - exact Mi.
  - cbn. lia.
  - intros p q Ip Iq E. cbn in Ip, Iq. intuition (subst; reflexivity).
  - intros ps k [E|[E|[]]]; injection E as <- <-.
    + split; [intros n [<-|[]]; cbn; auto|]. cbn. repeat constructor. intros [].
    + split; [intros n [<-|[]]; cbn; auto|]. split; [|split].
      * repeat (split; [repeat constructor|]). exact I.
      * cbn. split; discriminate.
      * intros s (Gv & Un & Gg & Ug & Rg & Ps & Pr & Rs & Kd). destruct s as [gv un gg ug rg ps pr rs kd].
        cbn [ss_givens ss_unknowns ss_given_groups ss_unknown_groups ss_residual_groups ss_params ss_predictor ss_residual_graph ss_kind
             rp_implicit rx_givens im_givens im_unknowns im_ggroups im_ugroups im_rgroups im_predictor] in *. unfold rx_givens in *. rx_lists.
        repeat match goal with H : given_says _ _ |- _ => apply rx_given_said in H | H : var_says _ _ |- _ => apply rx_var_said in H | H : group_says _ _ |- _ => apply rx_group_said in H end. subst.
        destruct pr as [p|]; cbn in Pr; [|destruct Pr]. destruct Pr as (P1 & P2 & P3 & P4 & P5). unfold segment_consistent, SpecSolved.segment_ok, seg_ok, names_ok, SpecSubSolved.predictor_ok.
        cbn [ss_givens ss_unknowns ss_given_groups ss_unknown_groups ss_predictor]. split; [|intros _; split; [|split]].
        -- split; [|split].
           ++ constructor; [|constructor]. split; [discriminate|]. intros C. discriminate C.
           ++ constructor; [intros []|constructor].
           ++ intros n [<-|[]] [C|[]]. discriminate C.
        -- split; [discriminate|]. split; [repeat constructor; cbn; intuition discriminate|]. split; [repeat constructor; cbn; intuition discriminate|]. split.
           ++ intros g Ig R. cbn in Ig. intuition subst; try discriminate. eexists. split; [left; reflexivity|]. split; reflexivity.
           ++ intros g Ig R. cbn in Ig. intuition subst; try (destruct R; discriminate).
              ** eexists. split; [right; left; reflexivity|]. split; reflexivity.
              ** eexists. split; [left; reflexivity|]. split; reflexivity.
        -- split.
           ++ intros u. cbn. split; [intros [<-|[]]; eexists; split; [left; reflexivity|left; reflexivity]|intros [g [[<-|[]] [<-|[]]]]; left; reflexivity].
           ++ intros n In_. cbn in In_. split; [intros [C|[]]; subst; cbn in In_; intuition discriminate|]. intros p' E. injection E as <-. rewrite P3. cbn [md_outputs].
              split; [intros [C|[]]; subst; intuition discriminate|]. intros C. exfalso. apply P5. apply Z.lt_gt in C. exact C.
        -- exists (fun _ => []). split; [intros g Ig; cbn in Ig; intuition subst; reflexivity|]. split; [intros u [<-|[]]; reflexivity|].
           intros p' E. injection E as <-. split; [intros C; exfalso; apply P5; apply Z.lt_gt in C; exact C|].
           intros n ins qs outs H W k name t Nk Tk. rewrite P1 in W. rewrite P3 in Nk. rewrite P4 in H. cbn in W, Nk. inversion W as [|? t0 ? ? W0 Wr]; subst. inversion Wr; subst.
           cbn [app] in H. destruct qs; [|discriminate].
           injection H as <-. destruct k as [|[|k]]; try discriminate. injection Tk as <-. exact W0.
Qed.

Lemma rp_derivatives level miters : derivatives_consistent (rp_artifact level miters) /\ param_derivatives_consistent (rp_artifact level miters).
Proof.
  split.
  - split; [repeat constructor|]. intros ps k [E|[E|[]]]; injection E as <- <-; cbn; (apply Forall_cons; [|apply Forall_nil]); unfold pair_sizes, nonneg; cbn [mp_out_base mp_in_base mp_in_sub mp_row mp_col]; repeat (split; [first [lia|apply Forall_nil]|]); lia.
  - split; [repeat constructor|]. intros ps k [E|[E|[]]]; injection E as <- <-; cbn; (apply Forall_cons; [|apply Forall_nil]); unfold ppair_sizes, nonneg; cbn [mq_out_base mq_base mq_row mq_col]; repeat (split; [first [lia|apply Forall_nil]|]); lia.
Qed.
Lemma rp_agree level miters : graphs_agree rp_graph (rp_artifact level miters).
Proof.
  intros ps k [E|[E|[]]]; injection E as <- <-.
  - intros j args l J H _. cbn in J. injection J as <-. cbn in *. rewrite H. reflexivity.
  - intros g Ig R. cbn in Ig. intuition subst; try discriminate. eexists. split; [left; reflexivity|reflexivity].
Qed.
Lemma rp_plain miters : plain_values (rp_artifact 0 miters).
Proof. split; [intros ps i [E|[E|[]]]; [discriminate|injection E as _ <-; cbn; lia]|]. intros i rest E. injection E as <- _. reflexivity. Qed.
Lemma rp_inputs level miters : inputs_ok (rp_artifact level miters) rx_in.
Proof. exact (rx_inputs level miters). Qed.
