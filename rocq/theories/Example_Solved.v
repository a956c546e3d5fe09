(** A concrete model for C57: w = 2 x by a forward segment, then c u^2 = w by Newton, started from the predictor's guess
    u = w. *)
From Verif Require Import Base Tensor Spec Float Newton SpecNewton Example_Newton Broadcast Pack SpecPack Implicit Substep Mat Jac JacModel FwdModel SystemAoti SpecSolved.

Local Open Scope string_scope.
Local Open Scope list_scope.

Definition vx_arith : arith F := mkArith fadd fsub fmul fzero fone fhalf.
Definition vx_par (n : string) : result (tensor F) := if String.eqb n "c" then Ok (mkT [] [ftwo] cpu) else Err (Fatal "parameter").
Definition vx_map (f : F -> F) (t : tensor F) : tensor F := mkT (t_shape t) (map f (t_data t)) (t_dev t).
Definition vx_zip (f : F -> F -> F) (a b : tensor F) : tensor F := mkT (t_shape a) (map (fun p => f (fst p) (snd p)) (combine (t_data a) (t_data b))) (t_dev a).
Definition vx_scale (c : tensor F) (t : tensor F) : tensor F := match t_data c with [k] => vx_map (fmul k) t | _ => t end.

(** w - c u^2; its Jacobian 2 c u (the sign is the step's); the step (w - c u^2) / (2 c u). *)
Definition vx_residual (l : list (tensor F)) : result (list (tensor F)) :=
  match l with [u; w; c] => Ok [vx_zip fsub w (vx_scale c (vx_zip fmul u u))] | _ => Err (StdExn "arguments") end.
Definition vx_jacobian (l : list (tensor F)) : result (list (tensor F)) :=
  match l with
  | [u; w; c] => Ok [vx_map (fmul ftwo) (vx_scale c u); vx_zip fsub w (vx_scale c (vx_zip fmul u u))]
  | _ => Err (StdExn "arguments")
  end.
Definition vx_linear (l : list (tensor F)) : result (list (tensor F)) :=
  match l with [a; b] => Ok [vx_zip fdiv b a] | _ => Err (StdExn "arguments") end.

Definition vx_group (n : string) : group_info := mkGroup "dense" [] [mkVar n [] []].
Definition vx_seg : solver_seg :=
  mkSseg [mkGiven (mkVar "w" [] []) "" ""] [mkVar "u" [] []] [vx_group "w"] [vx_group "u"] [vx_group "r"] ["c"]
    (Some (mkPred ["w"] [] ["u"] (mkFb 0 "" "" [] []) (fun l => Ok l))) vx_residual (Direct vx_jacobian vx_linear).
Lemma vx_ok : segment_ok vx_seg.
Proof.
  split; [|split].
  - constructor; [|constructor]. split; [discriminate|]. intros C. discriminate C.
  - constructor; [intros []|constructor].
  - intros n [<-|[]] [C|[]]. discriminate C.
Qed.

(** du/dw = 1 / (2 c u). *)
Definition vx_mat (t : tensor F) : tensor F := mkT (t_shape t ++ [1]) (t_data t) (t_dev t).
Definition vx_imp : jimp F :=
  mkJI (seg_of sum0 cfg0 vx_seg) 1
    (fun l => let* o := vx_jacobian l in match o with [a; b] => Ok [vx_mat a; b] | _ => Err (StdExn "outputs") end)
    (Some (fun l => match l with [u; w; c] => Ok [vx_mat (vx_map (fun _ => fone) u)] | _ => Err (StdExn "arguments") end))
    (Compiled (fun l => match l with [a; b] => Ok [vx_zip fdiv b a] | _ => Err (StdExn "arguments") end))
    [mkPair "u" "w" [] [] [] false 0 0] 0.
Definition vx_fwd : jfwd F := mkJF (mkSeg ["x"] [] ["w"] (fun l => Ok (map (vx_map (fmul ftwo)) l))) None [].
Definition vx_infos : list in_info := [mkIn "x" [] []].
Definition vx_in : smap (tensor F) := [("x", mkT [2] [fnum 4 0; fnum 25 0] cpu)].
Definition vx_model : jmodel F := mkJM [mkIn "w" [] []] [JI vx_imp] [("u", [])] [("u", "w")].
Definition vx_w : smap (tensor F) := [("w", mkT [2] [fnum 8 0; fnum 50 0] cpu)].
Definition vx_dw : smap (tensor F) := [("w", mkT [2] [fone; ftwo] cpu)].
