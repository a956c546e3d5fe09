(** Properties C55 and C56: asking for derivatives does not change the values. *)
From Verif Require Import Base Tensor Broadcast Pack Implicit Substep Mat Jac SubstepJac JacModel ParamJac FwdModel SpecJac SpecValue ValueProofs Example_Jac Example_Param.
Local Open Scope string_scope.

(** * C55: jacobian() and jvp() *)

(** When jvp() returns, forward() on the same inputs and parameters returns, and returns the same outputs: whatever the
    segments, substepped ones and ones off the requested paths included. *)
Theorem C55_jvp_values : forall V (A : arith V) neg dot par base_ndim capture m (I T outs r : smap (tensor V)),
  coherent (jm_segs m) -> jvp A neg dot par base_ndim capture m I T = Ok (outs, r) ->
  forward_of A par base_ndim capture m I = Ok outs.
Proof. intros V A neg dot par base_ndim capture m I T outs r. apply jvp_value. Qed.
Print Assumptions C55_jvp_values.

(** So does jacobian() ... *)
Theorem C55_jacobian_values : forall V (A : arith V) neg dot par base_ndim capture m (I outs : smap (tensor V)) jac,
  coherent (jm_segs m) -> ~ single_forward m -> jacobian A neg dot par base_ndim capture m I = Ok (outs, jac) ->
  forward_of A par base_ndim capture m I = Ok outs.
Proof.
  intros V A neg dot par base_ndim capture m I outs jac C N. apply composed_value; [exact C|]. intros f g S J. apply N. exists f, g. auto.
Qed.
Print Assumptions C55_jacobian_values.

(** ... and for a model that is one forward segment it returns all outputs of the segment, which have the values
    forward() returns. *)
Theorem C55_single_values : forall V (A : arith V) neg dot par base_ndim capture m f g (I outs : smap (tensor V)) jac,
  coherent (jm_segs m) -> jm_segs m = [JF f] -> jf_jvp f = Some g -> incl (map fst (jm_outs m)) (sg_out (jf_seg f)) ->
  jacobian A neg dot par base_ndim capture m I = Ok (outs, jac) ->
  exists outs', forward_of A par base_ndim capture m I = Ok outs' /\
    forall n, lookup n outs' = if existsb (String.eqb n) (map fst (jm_outs m)) then lookup n outs else None.
Proof. intros V A neg dot par base_ndim capture m f g I outs jac. apply single_value. Qed.
Print Assumptions C55_single_values.

Lemma jx_coherent : coherent (jm_segs jx_model).
Proof.
  intros sg [<-|[<-|[<-|[]]]].
  - intros jvp args l J E _. injection J as <-. cbn [jf_seg jx_seg1 sg_run sg_out length]. rewrite E. reflexivity.
  - intros g [<-|[]] R. discriminate.
  - intros jvp args l J E _. injection J as <-. cbn [jf_seg jx_seg3 sg_run sg_out length]. rewrite E. reflexivity.
Qed.
Example C55_case : coherent (jm_segs jx_model) /\ ~ single_forward jx_model /\
  (exists outs jac, jacobian zr Z.opp zdot jx_par [] false jx_model jx_in = Ok (outs, jac)) /\
  forward_of zr jx_par [] false jx_model jx_in = Ok [("u", mkT [2] [35; 90]%Z cpu); ("z", mkT [2; 2] [35; 70; 270; 360]%Z cpu)] /\
  coherent (jm_segs lx_jmodel) /\ forward_of lx_arith lx_par (vmap_ (@length nat) lx_pbase) false lx_jmodel (lx_in 6) = Ok [("s", mkT [2] [16; 23]%Z cpu)] /\
  exists jac, jacobian lx_arith Z.opp zdot lx_par (vmap_ (@length nat) lx_pbase) false lx_jmodel (lx_in 6) = Ok ([("s", mkT [2] [16; 23]%Z cpu)], jac).
Proof.
  split; [exact jx_coherent|]. split; [intros (f & j & E & _); discriminate|]. split; [do 2 eexists; vm_compute; reflexivity|].
  split; [vm_compute; reflexivity|]. split.
  - intros sg [<-|[]] g [<-|[<-|[<-|[]]]] R; try discriminate. eexists. split; [left; reflexivity|reflexivity].
  - split; [vm_compute; reflexivity|]. eexists. vm_compute. reflexivity.
Qed.

(** Finding: on a single forward segment jacobian() returns the outputs of the segment, also those the model does not
    declare, and leaves out a declared output that is none of them. *)
Definition jx_narrow : jmodel Z := mkJM [mkIn "x" [] [2]; mkIn "y" [] []] [JF jx_seg1] [("y", [])] [("w", "x"); ("w", "y")].
Theorem C55_single_outputs_refuted : exists outs jac outs',
  coherent (jm_segs jx_narrow) /\ jacobian zr Z.opp zdot jx_par [] false jx_narrow jx_in = Ok (outs, jac) /\ lookup "w" outs = Some (mkT [2] [7; 18]%Z cpu) /\ lookup "y" outs = None /\
  forward_of zr jx_par [] false jx_narrow jx_in = Ok outs' /\ lookup "w" outs' = None /\ lookup "y" outs' = Some (mkT [2] [5; 6]%Z cpu).
Proof.
  do 3 eexists. split; [intros sg [<-|[]]; apply (jx_coherent (JF jx_seg1)); left; reflexivity|]. split; [vm_compute; reflexivity|].
  split; [reflexivity|]. split; [reflexivity|]. split; [vm_compute; reflexivity|]. split; reflexivity.
Qed.
Print Assumptions C55_single_outputs_refuted.

(** * C56: param_jacobian() *)

(** Without substepped segments and with a first input that has no sub-batch axes: when param_jacobian() returns, so
    does forward(), with the same outputs.  Not so in general, see below. *)
Theorem C56_param_values_partial : forall V (A : arith V) neg dot par pbase capture m (I outs : smap (tensor V)) jac,
  (forall sg, In sg (pm_segs m) -> match sg with PF f _ _ _ => same_values f | PI i _ _ _ _ => ji_level i = 0 end) ->
  (forall i rest, pm_inputs m = i :: rest -> in_sub i = []) ->
  param_jacobian A neg dot par pbase capture m I = Ok (outs, jac) ->
  forward_of_p A par (vmap_ (@length nat) pbase) capture m I = Ok outs.
Proof. intros V A neg dot par pbase capture m I outs jac. apply param_value. Qed.
Print Assumptions C56_param_values_partial.

Example C56_case :
  (forall sg, In sg (pm_segs px_model) -> match sg with PF f _ _ _ => same_values f | PI i _ _ _ _ => ji_level i = 0 end) /\
  (forall i rest, pm_inputs px_model = i :: rest -> in_sub i = []) /\
  (exists outs jac, param_jacobian zr Z.opp zdot px_par px_pbase false px_model jx_in = Ok (outs, jac) /\ lookup "z" outs = Some (mkT [2; 2] [58; 232; 936; 416]%Z cpu)) /\
  rmap (lookup "z") (forward_of_p zr px_par (vmap_ (@length nat) px_pbase) false px_model jx_in) = Ok (Some (mkT [2; 2] [58; 232; 936; 416]%Z cpu)).
Proof.
  split; [|split; [|split]].
  - intros sg [<-|[<-|[<-|[]]]].
    + intros jvp args l J. discriminate.
    + reflexivity.
    + intros jvp args l J E _. injection J as <-. cbn [jf_seg px_f3 sg_run sg_out length]. rewrite E. reflexivity.
  - intros i rest E. injection E as <- _. reflexivity.
  - do 2 eexists. split; [vm_compute; reflexivity|reflexivity].
  - vm_compute. reflexivity.
Qed.

(** Finding: with substepping the two disagree.  s = s~1 + (f - f~1)^2, where the masked solve asks for steps of at most
    4 and the plain solve does not (its test is the weaker one, newton.cpp:48-52 against 489-495): forward() takes two
    substeps of 3, param_jacobian() one step of 6. *)
Definition lq_masked (gs ps us : list (tensor Z)) : result (list (tensor Z) * list bool) :=
  match gs with
  | [g] => let df b := (jx_at g (3 * b) - jx_at g (3 * b + 1))%Z in
           Ok ([jx_vec [jx_rows g; 1] (fun b => jx_at g (3 * b + 2) + df b * df b)%Z], map (fun b => Z.leb (Z.abs (df b)) 4) (seq 0 (jx_rows g)))
  | _ => Err (StdExn "arguments")
  end.
Definition lq_imp : jimp Z :=
  let s := ji_seg lx_imp in
  mkJI (mkIseg (is_givens s) (is_unknowns s) (is_given_groups s) (is_unknown_groups s) (is_params s) None (fun gs ps us => rmap fst (lq_masked gs ps us)) lq_masked)
       (ji_nres lx_imp) (ji_jac lx_imp) (ji_given lx_imp) (ji_sens lx_imp) (ji_pairs lx_imp) (ji_level lx_imp).
Definition lq_pmodel : pmodel Z :=
  mkPM (pm_inputs lx_pmodel) (map (fun s => match s with PI _ a b c d => PI lq_imp a b c d | s => s end) (pm_segs lx_pmodel)) (pm_outs lx_pmodel) (pm_derivs lx_pmodel).
Theorem C56_substepping_refuted : exists outs outs' jac,
  forward_of_p lx_arith lx_par (vmap_ (@length nat) lx_pbase) false lq_pmodel (lx_in 6) = Ok outs /\ lookup "s" outs = Some (mkT [2] [28; 29]%Z cpu) /\
  param_jacobian lx_arith Z.opp zdot lx_par lx_pbase false lq_pmodel (lx_in 6) = Ok (outs', jac) /\ lookup "s" outs' = Some (mkT [2] [46; 29]%Z cpu).
Proof. do 3 eexists. split; [vm_compute; reflexivity|]. split; [reflexivity|]. split; [vm_compute; reflexivity|reflexivity]. Qed.
Print Assumptions C56_substepping_refuted.

(** Finding: with a sub-batched first input, forward() gives promoted parameters the axes of the whole batch of that
    input, param_jacobian() the dynamic ones only (jacobian.cpp:430-432,464-469).  Two sub-batch entries, the
    parameter of shape (2, 1): forward() evaluates the model, param_jacobian() raises. *)
Definition sx_mul (l : list (tensor Z)) : result (list (tensor Z)) :=
  match l with [x; k] => let* t := zip_bcast Z.mul x k in Ok [t] | _ => Err (StdExn "arguments") end.
Definition sx_model : pmodel Z :=
  let sg n o := PF (mkJF (mkSeg [n] ["k"] [o] sx_mul) None []) None [] None in
  mkPM [mkIn "x" [2] []] [sg "x" "y"; sg "y" "z"] [("z", [])] [("z", "k")].
Theorem C56_sub_batch_refuted : exists outs e,
  let I := [("x", mkT [2; 2] [1; 2; 3; 4]%Z cpu)] in
  let par := fun _ : string => Ok (mkT [2; 1] [10; 100]%Z cpu) in
  forward_of_p zr par [("k", 0)] false sx_model I = Ok outs /\ lookup "z" outs = Some (mkT [2; 2] [100; 200; 30000; 40000]%Z cpu) /\
  param_jacobian zr Z.opp zdot par [("k", [])] false sx_model I = Err e.
Proof. do 2 eexists. split; [vm_compute; reflexivity|]. split; [reflexivity|]. vm_compute. reflexivity. Qed.
Print Assumptions C56_sub_batch_refuted.
