(** An artifact for C69: f = a x by a forward segment with the promoted parameter a, then c u^2 = f by Newton from the
    old state, with or without substepping.  The names x, u and a are others at the boundary. *)
From Coq Require Import String.
From Verif Require Import Load SpecLoad LoadProofs Example_Load.
From Verif Require Import Base SpecMap Tensor Spec SpecRename Rename Float Newton SpecNewton Example_Newton Krylov Broadcast SpecBroadcast Pack SpecPack Implicit Substep SpecSubstep
     Mat Jac JacModel FwdModel SystemAoti SpecSolved SpecSubSolved Example_Solved Runtime SpecRuntime RuntimeProofs.
Local Open Scope string_scope.
Local Open Scope list_scope.

Definition rx_pkgs : list string := ["f.pt2"; "f_jvp.pt2"; "r.pt2"; "j.pt2"; "s.pt2"; "jg.pt2"; "ift.pt2"; "pred.pt2"].
Definition rx_open (s : string) : result unit := if mem_name s rx_pkgs then Ok tt else Err (StdExn "no such package").
Definition rx_col (t : tensor F) : tensor F := mkT (t_shape t ++ [1]) (t_data t) (t_dev t).
(** What the packages compute. *)
Definition rx_fjvp (l : list (tensor F)) : result (list (tensor F)) :=
  match l with [x; a] => Ok [vx_zip fmul x a; a] | _ => Err (StdExn "arguments") end.
Definition rx_graph (s : string) (l : list (tensor F)) : result (list (tensor F)) :=
  if String.eqb s "f.pt2" then rmap (firstn 1) (rx_fjvp l)
  else if String.eqb s "f_jvp.pt2" then rx_fjvp l
  else if String.eqb s "r.pt2" then vx_residual l
  else if String.eqb s "j.pt2" then let* o := vx_jacobian l in match o with [a; b] => Ok [rx_col a; b] | _ => Err (StdExn "outputs") end
  else if String.eqb s "s.pt2" then vx_linear l
  else if String.eqb s "jg.pt2" then match l with [u; f; c] => Ok [rx_col (vx_map (fun _ => fone) u)] | _ => Err (StdExn "arguments") end
  else if String.eqb s "ift.pt2" then vx_linear l
  else if String.eqb s "pred.pt2" then match l with [t] => Ok [t] | _ => Err (StdExn "arguments") end
  else Err (StdExn "no such package").

Definition rx_var (n r p : string) : mvar := mkMvar n 1 [] [] r p.
Definition rx_group (n : string) : mgroup := mkMgroup "dense" [] [rx_var n "static" ""].
Definition rx_forward : mforward :=
  mkMfwd "f.pt2" (Some "f_jvp.pt2") ["x"] ["f"] [mkMpair "f" "x" [] [] [] false 0 0] None [] None [] [].
Definition rx_givens : list mvar := [rx_var "f" "cur_force" "f~1"; rx_var "f~1" "old_force" "f"; rx_var "u~1" "old_state" "u"].
Definition rx_pred : mpredictor := mkMpred "pred.pt2" ["u~1"] ["u"] [] None.
Definition rx_implicit (level : Z) : mimplicit F :=
  mkMimp level "r.pt2" (Some "j.pt2") (Some "s.pt2") None None (Some "jg.pt2") (Some "ift.pt2") "direct" lx_kdef
         [rx_var "u" "static" ""] rx_givens [rx_var "r" "static" ""]
         [rx_group "u"] [rx_group "f"] [rx_group "r"]
         [mkMpair "u" "f" [] [] [] false 0 0] None None [] "direct" lx_kdef (Some rx_pred).
Definition rx_newton (miters : Z) : sconfig F := mkScfg (fnum 1 (-33)) (fnum 1 (-27)) miters "BACKTRACKING" 1 (fnum 2 0) (fnum 1 (-10)) (fnum 1 (-20)).
Definition rx_input (n : string) : minput := mkMin n 1 [] [].
Definition rx_artifact (level miters : Z) : artifact F :=
  mkAr [("x", "load")] [("u", "root")] [("a", "scale")]
       [rx_input "x"; rx_input "f~1"; rx_input "u~1"] [mkMout "u" [] 1] [("u", "x")] []
       [mkAp "a" None [] [] [fone]; mkAp "c" None [] [] [ftwo]]
       (Some (rx_newton miters, None)) [mkMseg ["a"] (MForward rx_forward); mkMseg ["c"] (MImplicit (rx_implicit level))].

Lemma rx_ok level miters : (0 <= level < 10)%Z -> (0 <= miters < 100)%Z -> artifact_ok lx_kdef (opens rx_open) (rx_artifact level miters).
Proof.
  intros Lv Mi.
  assert (O : forall l, forallb (fun o => match o with Some s => is_ok (rx_open s) | None => true end) l = true -> opens_all (opens rx_open) l).
  { intros l H s I. rewrite forallb_forall in H. apply H in I. unfold opens. destruct (rx_open s) as [[]|]; [reflexivity|discriminate]. }
  unfold artifact_ok, rx_artifact. cbn [ar_in ar_out ar_par ar_inputs ar_outputs ar_derivs ar_pderivs ar_params ar_solver ar_segs keys map fst].
  repeat match goal with |- _ /\ _ => split end.
  1-3: repeat constructor; intros [].
  - repeat (apply Forall_cons; [cbn; repeat split; try lx_small; apply Forall_nil|]). apply Forall_nil.
  - repeat (apply Forall_cons; [cbn; repeat split; try lx_small; apply Forall_nil|]). apply Forall_nil.
  - intros o i [E|[]]. injection E as <- <-. eexists. split; [left; reflexivity|reflexivity].
  - intros o i [].
  - repeat (apply Forall_cons; [unfold param_ok; cbn [ap_dtype ap_shape ap_base ap_values]; split;
      [intros s Es; discriminate|split; [apply Forall_nil|split; [apply Forall_nil|reflexivity]]]|]). apply Forall_nil.
  - cbn. repeat constructor; cbn; intros H; repeat destruct H as [H|H]; try discriminate H; destruct H.
  - cbn. repeat constructor; cbn; intros H; repeat destruct H as [H|H]; try discriminate H; destruct H.
  - cbn. lx_small.
  - cbn. lx_small.
  - exact I.
  - assert (V0 : forall n r p, var_ok (rx_var n r p)).
    { intros. unfold var_ok. cbn. split; [lx_small|]. split; apply Forall_nil. }
    repeat (apply Forall_cons); [| |apply Forall_nil]; unfold SpecLoad.segment_ok; cbn [Load.sg_kind].
    + unfold forward_ok, rx_forward. cbn [fw_package fw_jvp fw_pjac fw_pvjp fw_pairs fw_ppairs fw_pvjp_params fw_pvjp_outputs].
      split; [apply O; reflexivity|]. split; [|split; [apply Forall_nil|split; [discriminate|split; [reflexivity|split; reflexivity]]]].
      apply Forall_cons; [|apply Forall_nil]. unfold pair_ok. cbn. repeat split; try reflexivity; apply Forall_nil.
    + unfold implicit_ok, rx_implicit.
      cbn [im_level im_residual im_jacobian im_solve im_matvec im_precond im_given im_solve_ift im_in_kind im_in_krylov im_unknowns im_givens im_residuals im_ugroups im_ggroups im_rgroups im_pairs im_drdp im_solve_param im_ppairs im_par_kind im_par_krylov im_predictor].
      split; [lx_small|]. split; [apply O; reflexivity|]. split; [discriminate|].
      assert (P0 : forall n, plain_var (rx_var n "static" "")) by (intros; split; [apply V0|split; reflexivity]).
      assert (G0 : forall n, SpecLoad.group_ok (rx_group n)).
      { intros. split; cbn; [apply Forall_nil|]. apply Forall_cons; [apply P0|apply Forall_nil]. }
      split; [apply Forall_cons; [apply P0|apply Forall_nil]|].
      split; [repeat (apply Forall_cons; [apply V0|]); apply Forall_nil|].
      split; [apply Forall_cons; [apply P0|apply Forall_nil]|].
      split; [apply Forall_cons; [apply G0|apply Forall_nil]|]. split; [apply Forall_cons; [apply G0|apply Forall_nil]|].
      split; [apply Forall_cons; [apply G0|apply Forall_nil]|].
      split; [apply Forall_cons; [|apply Forall_nil]; unfold pair_ok; cbn; repeat split; try lx_small; apply Forall_nil|].
      split; [apply Forall_nil|].
      split; [right; split; reflexivity|]. split; [right; split; reflexivity|].
      split; [discriminate|]. split; [split; reflexivity|].
      unfold SpecLoad.predictor_ok, rx_pred. cbn. repeat split; tauto.
Qed.

(** The descriptions of these variables and groups. *)
Lemma rx_sized sh : sized [] sh -> sh = [].
Proof. destruct sh; [reflexivity|discriminate]. Qed.
Lemma rx_var_said n r p x : var_says (rx_var n r p) x -> x = mkVar n [] [].
Proof. intros (E & S & B). destruct x as [xn xs xb]. cbn in *. apply rx_sized in S, B. subst. reflexivity. Qed.
Lemma rx_given_said n r p x : given_says (rx_var n r p) x -> x = mkGiven (mkVar n [] []) r p.
Proof. intros (V & R & P). destruct x as [v xr xp]. cbn in *. apply rx_var_said in V. subst. reflexivity. Qed.
Lemma rx_group_said n x : group_says (rx_group n) x -> x = vx_group n.
Proof.
  intros (E & S & V). destruct x as [xs xb xv]. cbn in *. apply rx_sized in S. subst. inversion V as [|? v ? l V1 V2]; subst. inversion V2; subst.
  apply rx_var_said in V1. subst. reflexivity.
Qed.
Ltac rx_lists := repeat match goal with H : Forall2 _ (_ :: _) _ |- _ => inversion H; subst; clear H | H : Forall2 _ [] _ |- _ => inversion H; subst; clear H end.

Lemma rx_consistent rsum edot tri level miters : (0 <= miters)%Z -> consistent rsum edot tri rx_graph lx_sdef (rx_artifact level miters).
Proof.
  intros Mi. unfold consistent, rx_artifact. cbn [ar_inputs ar_solver ar_out ar_outputs ar_segs ar_params]. split; [|split; [|split; [|split; [|split]]]].
  - repeat constructor.
  - cbn. repeat constructor; cbn; intuition discriminate.
  - exact Mi.
  - cbn. lia.
  - intros p q Ip Iq E. cbn in Ip, Iq. intuition (subst; reflexivity).
  - intros ps k [E|[E|[]]]; injection E as <- <-.
    + split; [intros n [<-|[]]; cbn; auto|]. cbn. repeat constructor. intros [].
    + split; [intros n [<-|[]]; cbn; auto|]. split; [|split].
      * repeat (split; [repeat constructor|]). exact I.
      * cbn. split; discriminate.
      * intros s (Gv & Un & Gg & Ug & Rg & Ps & Pr & Rs & Kd). destruct s as [gv un gg ug rg ps pr rs kd].
        cbn [ss_givens ss_unknowns ss_given_groups ss_unknown_groups ss_residual_groups ss_params ss_predictor ss_residual_graph ss_kind
             rx_implicit rx_givens im_givens im_unknowns im_ggroups im_ugroups im_rgroups im_predictor] in *. unfold rx_givens in *. rx_lists.
        repeat match goal with H : given_says _ _ |- _ => apply rx_given_said in H | H : var_says _ _ |- _ => apply rx_var_said in H | H : group_says _ _ |- _ => apply rx_group_said in H end. subst.
        destruct pr as [p|]; cbn in Pr; [|destruct Pr]. destruct Pr as (P1 & P2 & P3 & P4 & P5). unfold segment_consistent, SpecSolved.segment_ok, seg_ok, names_ok, SpecSubSolved.predictor_ok.
        cbn [ss_givens ss_unknowns ss_given_groups ss_unknown_groups ss_predictor]. split; [|intros _; split; [|split]].
        -- split; [|split].
           ++ constructor; [|constructor]. split; [discriminate|]. intros C. discriminate C.
           ++ constructor; [intros []|constructor].
           ++ intros n [<-|[]] [C|[]]. discriminate C.
        -- split; [discriminate|]. split; [repeat constructor; cbn; intuition discriminate|]. split; [repeat constructor; cbn; intuition discriminate|]. split.
           ++ intros g Ig R. cbn in Ig. intuition subst; try discriminate. eexists. split; [left; reflexivity|]. split; reflexivity.
           ++ intros g Ig R. cbn in Ig. intuition subst; try (destruct R; discriminate).
              ** eexists. split; [right; left; reflexivity|]. split; reflexivity.
              ** eexists. split; [left; reflexivity|]. split; reflexivity.
        -- split.
           ++ intros u. cbn. split; [intros [<-|[]]; eexists; split; [left; reflexivity|left; reflexivity]|intros [g [[<-|[]] [<-|[]]]]; left; reflexivity].
           ++ intros n In_. cbn in In_. split; [intros [C|[]]; subst; cbn in In_; intuition discriminate|]. intros p' E. injection E as <-. rewrite P3. cbn [md_outputs].
              split; [intros [C|[]]; subst; intuition discriminate|]. intros C. exfalso. apply P5. apply Z.lt_gt in C. exact C.
        -- exists (fun _ => []). split; [intros g Ig; cbn in Ig; intuition subst; reflexivity|]. split; [intros u [<-|[]]; reflexivity|].
           intros p' E. injection E as <-. split; [intros C; exfalso; apply P5; apply Z.lt_gt in C; exact C|].
           intros n ins qs outs H W k name t Nk Tk. rewrite P1 in W. rewrite P3 in Nk. rewrite P4 in H. cbn in W, Nk. inversion W as [|? t0 ? ? W0 Wr]; subst. inversion Wr; subst.
           cbn [app] in H. destruct qs; [|discriminate].
           injection H as <-. destruct k as [|[|k]]; try discriminate. injection Tk as <-. exact W0.
Qed.

Lemma rx_derivatives level miters : derivatives_consistent (rx_artifact level miters).
Proof.
  split; [repeat constructor|]. intros ps k [E|[E|[]]]; injection E as <- <-; cbn; (apply Forall_cons; [|apply Forall_nil]); unfold pair_sizes, nonneg; cbn [mp_out_base mp_in_base mp_in_sub mp_row mp_col]; repeat (split; [first [lia|apply Forall_nil]|]); lia.
Qed.
Lemma rx_agree level miters : graphs_agree rx_graph (rx_artifact level miters).
Proof.
  intros ps k [E|[E|[]]]; injection E as <- <-.
  - intros j args l J H _. cbn in J. injection J as <-. cbn in *. rewrite H. reflexivity.
  - intros g Ig R. cbn in Ig. intuition subst; try discriminate. eexists. split; [left; reflexivity|reflexivity].
Qed.

Definition rx_in : smap (tensor F) :=
  [("f~1", mkT [] [fnum 2 0] cpu); ("u~1", mkT [2] [fone; fone] cpu); ("x", mkT [2] [fnum 4 0; fnum 25 0] cpu)].
(** The same with the name of the boundary. *)
Definition rx_in' : smap (tensor F) :=
  [("f~1", mkT [] [fnum 2 0] cpu); ("load", mkT [2] [fnum 4 0; fnum 25 0] cpu); ("u~1", mkT [2] [fone; fone] cpu)].
Definition rx_ov : option (smap (tensor F)) := Some [("scale", mkT [] [ftwo] cpu)].
Lemma rx_inputs level miters : inputs_ok (rx_artifact level miters) rx_in.
Proof.
  split; [repeat constructor|]. split; [intros p q Ip Iq E; cbn in Ip, Iq; intuition (subst; first [reflexivity|discriminate E])|].
  intros i t [<-|[<-|[<-|[]]]] L; vm_compute in L; injection L as <-; (split; [reflexivity|cbn; lia]).
Qed.
Lemma rx_renamed : renamed (boundary [("x", "load")]) rx_in rx_in'.
Proof.
  split; [repeat constructor|]. split; [|split; [|reflexivity]].
  - intros k v L. unfold rx_in in L. cbn [lookup] in L.
    destruct (String.eqb k "f~1") eqn:E1; [apply String.eqb_eq in E1; subst; injection L as <-; reflexivity|].
    destruct (String.eqb k "u~1") eqn:E2; [apply String.eqb_eq in E2; subst; injection L as <-; reflexivity|].
    destruct (String.eqb k "x") eqn:E3; [apply String.eqb_eq in E3; subst; injection L as <-; reflexivity|discriminate].
  - intros k v L. unfold rx_in' in L. cbn [lookup] in L.
    destruct (String.eqb k "f~1") eqn:E1; [apply String.eqb_eq in E1; subst; injection L as <-; exists "f~1"; split; reflexivity|].
    destruct (String.eqb k "load") eqn:E2; [apply String.eqb_eq in E2; subst; injection L as <-; exists "x"; split; reflexivity|].
    destruct (String.eqb k "u~1") eqn:E3; [apply String.eqb_eq in E3; subst; injection L as <-; exists "u~1"; split; reflexivity|discriminate].
Qed.
Lemma rx_overrides : overrides_ok rx_ov.
Proof. intros o n t E L. injection E as <-. cbn in L. destruct (String.eqb n "scale"); [|discriminate]. injection L as <-. reflexivity. Qed.

(** The forward segment alone. *)
Definition rx_plain : artifact F :=
  mkAr [("x", "load")] [("f", "force")] [("a", "scale")] [rx_input "x"] [mkMout "f" [] 1] [("f", "x")] []
       [mkAp "a" None [] [] [fone]] None [mkMseg ["a"] (MForward rx_forward)].
Lemma rx_plain_ok : artifact_ok lx_kdef (opens rx_open) rx_plain.
Proof.
  assert (O : forall l, forallb (fun o => match o with Some s => is_ok (rx_open s) | None => true end) l = true -> opens_all (opens rx_open) l).
  { intros l H s I. rewrite forallb_forall in H. apply H in I. unfold opens. destruct (rx_open s) as [[]|]; [reflexivity|discriminate]. }
  unfold artifact_ok, rx_plain. cbn [ar_in ar_out ar_par ar_inputs ar_outputs ar_derivs ar_pderivs ar_params ar_solver ar_segs keys map fst].
  repeat match goal with |- _ /\ _ => split end.
  1-3: repeat constructor; intros [].
  - repeat (apply Forall_cons; [cbn; repeat split; try lx_small; apply Forall_nil|]). apply Forall_nil.
  - repeat (apply Forall_cons; [cbn; repeat split; try lx_small; apply Forall_nil|]). apply Forall_nil.
  - intros o i [E|[]]. injection E as <- <-. eexists. split; [left; reflexivity|reflexivity].
  - intros o i [].
  - repeat (apply Forall_cons; [unfold param_ok; cbn [ap_dtype ap_shape ap_base ap_values]; split;
      [intros s Es; discriminate|split; [apply Forall_nil|split; [apply Forall_nil|reflexivity]]]|]). apply Forall_nil.
  - cbn. repeat constructor; intros [].
  - cbn. repeat constructor; intros [].
  - exact I.
  - apply Forall_cons; [|apply Forall_nil]. unfold SpecLoad.segment_ok; cbn [Load.sg_kind].
    unfold forward_ok, rx_forward. cbn [fw_package fw_jvp fw_pjac fw_pvjp fw_pairs fw_ppairs fw_pvjp_params fw_pvjp_outputs].
    split; [apply O; reflexivity|]. split; [|split; [apply Forall_nil|split; [discriminate|split; [reflexivity|split; reflexivity]]]].
    apply Forall_cons; [|apply Forall_nil]. unfold pair_ok. cbn. repeat split; try reflexivity; apply Forall_nil.
Qed.
Lemma rx_plain_consistent rsum edot tri : consistent rsum edot tri rx_graph lx_sdef rx_plain.
Proof.
  unfold consistent, rx_plain. cbn [ar_inputs ar_solver ar_out ar_outputs ar_segs ar_params]. split; [|split; [|split; [|split; [|split]]]].
  - repeat constructor.
  - cbn. repeat constructor; intros [].
  - cbn. lia.
  - cbn. lia.
  - intros p q Ip Iq E. cbn in Ip, Iq. intuition (subst; reflexivity).
  - intros ps k [E|[]]; injection E as <- <-. split; [intros n [<-|[]]; cbn; auto|]. cbn. repeat constructor. intros [].
Qed.
Lemma rx_plain_agree : graphs_agree rx_graph rx_plain.
Proof. intros ps k [E|[]]; injection E as <- <-. intros j args l J H _. cbn in J. injection J as <-. cbn in *. rewrite H. reflexivity. Qed.
Definition rx_x : smap (tensor F) := [("x", mkT [2] [fnum 4 0; fnum 25 0] cpu)].
Definition rx_x' : smap (tensor F) := [("load", mkT [2] [fnum 4 0; fnum 25 0] cpu)].
Lemma rx_plain_inputs : inputs_ok rx_plain rx_x.
Proof.
  split; [repeat constructor|]. split; [intros p q Ip Iq E; cbn in Ip, Iq; intuition (subst; first [reflexivity|discriminate E])|].
  intros i t [<-|[]] L; vm_compute in L; injection L as <-; (split; [reflexivity|cbn; lia]).
Qed.
Lemma rx_x_renamed : renamed (boundary [("x", "load")]) rx_x rx_x'.
Proof.
  split; [repeat constructor|]. split; [|split; [|reflexivity]].
  - intros k v L. unfold rx_x in L. cbn [lookup] in L. destruct (String.eqb k "x") eqn:E; [apply String.eqb_eq in E; subst; injection L as <-; reflexivity|discriminate].
  - intros k v L. unfold rx_x' in L. cbn [lookup] in L. destruct (String.eqb k "load") eqn:E; [apply String.eqb_eq in E; subst; injection L as <-; exists "x"; split; reflexivity|discriminate].
Qed.
