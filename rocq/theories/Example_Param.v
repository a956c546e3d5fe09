(** A model with parameters k (global) and q (batched): w = k (x0 + x1) + y, u - 5 w - (q0 + q1) = 0, z = u x q. *)
From Verif Require Import Base Tensor Spec Broadcast SpecBroadcast BroadcastProofs Pack Implicit Substep Mat Jac SubstepJac JacModel ParamJac SpecJac MatProofs SpecAlgebra SpecParam Example_Jac.

Local Open Scope string_scope.

(** No derivative of w by the inputs is needed: the segment has a parameter graph only. *)
Definition px_run1 (l : list (tensor Z)) : result (list (tensor Z)) :=
  match l with
  | [x; y; k] => Ok [jx_vec [jx_rows x] (fun b => jx_at k b * (jx_at x (2 * b) + jx_at x (2 * b + 1)) + jx_at y b)%Z]
  | _ => Err (StdExn "arguments")
  end.
Definition px_pjac1 (l : list (tensor Z)) : result (list (tensor Z)) :=
  match l with
  | [x; y; k] => Ok [jx_vec [jx_rows x] (fun b => jx_at x (2 * b) + jx_at x (2 * b + 1))%Z]
  | _ => Err (StdExn "arguments")
  end.
Definition px_f1 : jfwd Z := mkJF (mkSeg ["x"; "y"] ["k"] ["w"] px_run1) None [].
Definition px_seg1 : pseg Z := PF px_f1 (Some px_pjac1) [mkPP "w" "k" [] [] 0 0] None.
Definition px_given (l : list (tensor Z)) : result (list (tensor Z)) :=
  match l with [u; w; q] => Ok [jx_vec [jx_rows u; 1; 1] (fun _ => (-5)%Z)] | _ => Err (StdExn "arguments") end.
(** A = 1 and dr/dq = (-1, -1); the iterative solve has nothing to do. *)
Definition px_dr (l : list (tensor Z)) : result (list (tensor Z)) :=
  match l with [u; w; q] => Ok [jx_vec [jx_rows u; 1; 1] (fun _ => 1%Z); jx_vec [jx_rows u; 1; 2] (fun _ => (-1)%Z)] | _ => Err (StdExn "arguments") end.
Definition px_i2 : jimp Z :=
  mkJI (mkIseg [mkGiven (mkVar "w" [] []) "" ""] [mkVar "u" [] []] [mkGroup "dense" [] [mkVar "w" [] []]]
               [mkGroup "dense" [] [mkVar "u" [] []]] ["q"] None
               (fun gs ps _ => match gs, ps with
                               | [w], [q] => Ok [jx_vec (t_shape w) (fun b => 5 * jx_at w b + (jx_at q (2 * b) + jx_at q (2 * b + 1)))%Z]
                               | _, _ => Err (StdExn "arguments")
                               end)
               (fun gs ps us => Ok (us, [])))
       1
       (fun l => match l with [u; w; q] => Ok [jx_vec [jx_rows u; 1; 1] (fun _ => 1%Z); jx_vec [jx_rows u; 1] (fun _ => 0%Z)] | _ => Err (StdExn "arguments") end)
       (Some px_given)
       (Compiled (fun l => match l with [a; b] => Ok [mkT (t_shape b) (map Z.opp (t_data b)) (t_dev b)] | _ => Err (StdExn "arguments") end))
       [mkPair "u" "w" [] [] [] false 0 0] 0.
Definition px_krylov (a b : tensor Z) : result (tensor Z) := Ok b.
Definition px_ps2 : list ppair := [mkPP "u" "q" [] [2] 0 0].
Definition px_seg2 : pseg Z := PI px_i2 (Some px_dr) None (Some px_krylov) px_ps2.
Definition px_jvp3 (l : list (tensor Z)) : result (list (tensor Z)) :=
  match l with
  | [u; x; q] =>
      let n := jx_rows u in
      Ok [jx_vec [n; 2] (fun k => jx_at u (k / 2) * jx_at x k * jx_at q k)%Z;
          jx_vec [n; 2] (fun k => jx_at x k * jx_at q k)%Z;
          jx_vec [n; 2; 2] (fun k => if Nat.eqb (k mod 4) 0 || Nat.eqb (k mod 4) 3 then (jx_at u (k / 4) * jx_at q (k / 2))%Z else 0%Z)]
  | _ => Err (StdExn "arguments")
  end.
Definition px_pjac3 (l : list (tensor Z)) : result (list (tensor Z)) :=
  match l with
  | [u; x; q] => Ok [jx_vec [jx_rows u; 2; 2] (fun k => if Nat.eqb (k mod 4) 0 || Nat.eqb (k mod 4) 3 then (jx_at u (k / 4) * jx_at x (k / 2))%Z else 0%Z)]
  | _ => Err (StdExn "arguments")
  end.
Definition px_f3 : jfwd Z :=
  mkJF (mkSeg ["u"; "x"] ["q"] ["z"] (fun l => rmap (firstn 1) (px_jvp3 l))) (Some px_jvp3)
       [mkPair "z" "u" [2] [] [] false 0 0; mkPair "z" "x" [2] [2] [] false 0 0].
Definition px_seg3 : pseg Z := PF px_f3 (Some px_pjac3) [mkPP "z" "q" [2] [2] 0 0] None.

Definition px_model : pmodel Z :=
  mkPM [mkIn "x" [] [2]; mkIn "y" [] []] [px_seg1; px_seg2; px_seg3] [("z", [2]); ("u", [])] [("z", "k"); ("z", "q"); ("u", "k"); ("u", "q")].
Definition px_pbase : smap (list nat) := [("k", []); ("q", [2])].
Definition px_k : tensor Z := mkT [] [2]%Z cpu.
Definition px_q : tensor Z := mkT [2; 2] [1; 2; 3; 1]%Z cpu.
Definition px_par (n : string) : result (tensor Z) :=
  if String.eqb n "k" then Ok px_k else if String.eqb n "q" then Ok px_q else Err (Fatal "no such parameter").

Definition px_st1 := set_all ["w"] [mkT [2] [11; 20]%Z cpu] jx_in.
Definition px_st2 : smap (tensor Z) := [("u", mkT [2] [58; 104]%Z cpu); ("w", mkT [2] [11; 20]%Z cpu); ("x", mkT [2; 2] [1; 2; 3; 4]%Z cpu); ("y", mkT [2] [5; 6]%Z cpu)].
Definition px_st3 := set_all ["z"] [mkT [2; 2] [58; 232; 936; 416]%Z cpu] px_st2.
Definition px_own1 : list (tensor Z) := [mkT [2] [3; 7]%Z cpu].
Definition px_own2 : list (tensor Z) := [mkT [2; 1; 2] [1; 1; 1; 1]%Z cpu].
Definition px_own3 : list (tensor Z) := [mkT [2; 2; 2] [58; 0; 0; 116; 312; 0; 0; 416]%Z cpu].
Definition px_blks2 : list (tensor Z) := [mkT [2; 1; 1] [5; 5]%Z cpu].
Definition px_blks3 : list (tensor Z) := [mkT [2; 2] [1; 4; 9; 4]%Z cpu; mkT [2; 2; 2] [58; 0; 0; 116; 312; 0; 0; 104]%Z cpu].
Definition px_lins : list (list nat -> plin Z) :=
  [fun e => mkPL (mkLin ["w"] []) (directs 0%Z px_pbase [2] [mkPP "w" "k" [] [] 0 0] px_own1 e);
   fun e => mkPL (implicit_lin [2] jx_size px_i2 px_blks2 e) (directs 0%Z px_pbase [2] px_ps2 px_own2 e);
   fun e => mkPL (forward_lin px_f3 px_blks3 e) (directs 0%Z px_pbase [2] [mkPP "z" "q" [2] [2] 0 0] px_own3 e)].

Lemma px_spread_k : spread px_par px_pbase [2] "k" (mkT [2] [2; 2]%Z cpu).
Proof. exists px_k, []. split; [reflexivity|]. split; [reflexivity|]. vm_compute. reflexivity. Qed.
Lemma px_spread_q : spread px_par px_pbase [2] "q" px_q.
Proof. exists px_q, [2]. split; [reflexivity|]. split; [reflexivity|]. vm_compute. reflexivity. Qed.

Lemma px_slices : Forall2 (pslice_of Z.opp px_pbase (mkT [2; 1; 2] [-1; -1; -1; -1]%Z cpu)) px_ps2 px_own2.
Proof.
  constructor; [|constructor]. exists [2], 1, 2. do 4 (split; [reflexivity|]). split; [cbn; lia|]. split; [vm_compute; lia|]. split; [reflexivity|].
  intros b r c Ib Hr Hc. assert (r = 0) by (cbn in Hr; lia). subst r. inversion Ib as [|b0 ? ? ? H0 H1]; subst. inversion H1; subst. assert (H : b0 = 0 \/ b0 = 1) by lia.
  assert (Hc' : c = 0 \/ c = 1) by (vm_compute in Hc; lia). destruct H as [-> | ->], Hc' as [-> | ->]; reflexivity.
Qed.

Lemma px_evaluated : pevaluated 0%Z Z.opp px_par px_pbase px_model jx_in [2] jx_size cpu px_lins px_st3.
Proof.
  split; [repeat (constructor; [cbn; intuition discriminate|]); constructor|]. split; [repeat (constructor; [cbn; intuition discriminate|]); constructor|].
  split; [discriminate|]. split; [intros i [<-|[<-|[]]]; reflexivity|]. split.
  - intros o p [E|[E|[E|[E|[]]]]]; injection E as <- <-; (split; [|eexists; reflexivity]).
    + exists [2]. left. reflexivity.
    + exists [2]. left. reflexivity.
    + exists []. right. left. reflexivity.
    + exists []. right. left. reflexivity.
  - exists (mkIn "x" [] [2]), [mkIn "y" [] []], jx_in, (mkT [2; 2] [1; 2; 3; 4]%Z cpu), ["z"; "u"; "w"; "x"; "y"], [].
    split; [reflexivity|]. split; [vm_compute; reflexivity|]. split; [reflexivity|]. split; [reflexivity|]. split; [reflexivity|]. split; [reflexivity|]. split.
    + eapply (pr_cons 0%Z Z.opp px_par px_pbase cpu [2] jx_size _ ["x"; "y"] jx_in px_seg1 _ ["w"; "x"; "y"] px_st1).
      { eapply pl_forward_param with (ins := [mkT [2; 2] [1; 2; 3; 4]%Z cpu; mkT [2] [5; 6]%Z cpu]).
        - apply (lin_forward_off 0%Z Z.opp px_par _ cpu [2] [2] jx_size ["x"; "y"] jx_in px_f1).
          + reflexivity.
          + reflexivity.
          + discriminate.
          + repeat (constructor; [cbn; intuition discriminate|]); constructor.
          + vm_compute. reflexivity.
          + intros n [<-|[]]. eexists. split; [reflexivity|]. split; [reflexivity|]. split; [reflexivity|]. exists []. split; reflexivity.
        - intros n [<-|[<-|[]]] [E|[]]; discriminate.
        - repeat constructor.
        - constructor; [exact px_spread_k|constructor].
        - vm_compute. reflexivity.
        - constructor; [|constructor]. split; [left; reflexivity|]. split; [left; reflexivity|]. split; [reflexivity|]. exists [], []. repeat split. }
      eapply (pr_cons 0%Z Z.opp px_par px_pbase cpu [2] jx_size _ ["w"; "x"; "y"] px_st1 px_seg2 _ ["u"; "w"; "x"; "y"] px_st2).
      { eapply pl_implicit_param with (qs := [px_q]) (op := [mkT [2; 1; 1] [1; 1]%Z cpu; mkT [2; 1; 2] [-1; -1; -1; -1]%Z cpu]).
        - apply (lin_implicit 0%Z Z.opp px_par _ cpu [2] [2] jx_size ["w"; "x"; "y"] px_st1 px_i2 px_given
                 (set_ "u" (mkT [2] [0; 0]%Z cpu) px_st1) [mkT [2; 1] [11; 20]%Z cpu] [px_q] [mkT [2; 1] [0; 0]%Z cpu] [mkT [2; 1] [58; 104]%Z cpu] px_st2
                 [mkT [2; 1; 1] [1; 1]%Z cpu] [mkT [2; 1] [0; 0]%Z cpu] [mkT [2; 1; 1] [-5; -5]%Z cpu] px_blks2).
          + reflexivity.
          + reflexivity.
          + vm_compute. reflexivity.
          + vm_compute. reflexivity.
          + vm_compute. reflexivity.
          + vm_compute. reflexivity.
          + reflexivity.
          + vm_compute. reflexivity.
          + eapply du_compiled; [reflexivity|vm_compute; reflexivity].
          + intros g [<-|[]]. left. reflexivity.
          + repeat (constructor; [cbn; intuition discriminate|]); constructor.
          + intros v [<-|[]]. reflexivity.
          + constructor; [|constructor]. split; [left; reflexivity|]. split; [left; reflexivity|]. split; [reflexivity|]. split; [reflexivity|]. split; [reflexivity|].
            exists [2]. split; [reflexivity|]. split; [reflexivity|apply broadcastable_refl].
        - vm_compute. reflexivity.
        - vm_compute. reflexivity.
        - constructor; [exact px_spread_q|constructor].
        - vm_compute. reflexivity.
        - eapply dp_iterative; [reflexivity|reflexivity|exact px_slices].
        - constructor; [|constructor]. split; [left; reflexivity|]. split; [right; left; reflexivity|]. split; [reflexivity|]. exists [2], [1; 2]. repeat split. }
      eapply (pr_cons 0%Z Z.opp px_par px_pbase cpu [2] jx_size _ ["u"; "w"; "x"; "y"] px_st2 px_seg3 _ ["z"; "u"; "w"; "x"; "y"] px_st3).
      { eapply pl_forward_param with (ins := [mkT [2] [58; 104]%Z cpu; mkT [2; 2] [1; 2; 3; 4]%Z cpu]).
        - apply (lin_forward 0%Z Z.opp px_par _ cpu [2] [2] jx_size ["u"; "w"; "x"; "y"] px_st2 px_f3 px_jvp3
                 [mkT [2] [58; 104]%Z cpu; mkT [2; 2] [1; 2; 3; 4]%Z cpu] [px_q] [mkT [2; 2] [58; 232; 936; 416]%Z cpu] px_blks3).
          + reflexivity.
          + discriminate.
          + intros x [<-|[<-|[]]]; cbn; auto.
          + repeat (constructor; [cbn; intuition discriminate|]); constructor.
          + repeat constructor.
          + constructor; [|constructor]. exists px_q, 1. split; [reflexivity|]. split; [reflexivity|]. vm_compute. reflexivity.
          + vm_compute. reflexivity.
          + constructor; [|constructor]. split; [reflexivity|]. split; [reflexivity|]. exists [2]. split; reflexivity.
          + constructor; [|constructor; [|constructor]].
            * split; [left; reflexivity|]. split; [left; reflexivity|]. split; [reflexivity|]. split; [reflexivity|]. split; [|split; reflexivity]. exists [2]. split; [reflexivity|apply broadcastable_refl].
            * split; [right; right; left; reflexivity|]. split; [left; reflexivity|]. split; [reflexivity|]. split; [reflexivity|]. split; [|split; reflexivity]. exists [2]. split; [reflexivity|apply broadcastable_refl].
        - intros n [<-|[<-|[]]] [E|[]]; discriminate.
        - repeat constructor.
        - constructor; [exact px_spread_q|constructor].
        - vm_compute. reflexivity.
        - constructor; [|constructor]. split; [left; reflexivity|]. split; [right; left; reflexivity|]. split; [reflexivity|]. exists [2], [2; 2]. repeat split. }
      constructor.
    + intros o ob [E|[E|[]]]; injection E as <- <-.
      * split; [left; reflexivity|]. split; [reflexivity|]. eexists. reflexivity.
      * split; [right; left; reflexivity|]. split; [reflexivity|]. eexists. reflexivity.
Qed.

(** A single implicit segment with substepping: s = s~1 + (f - f~1), which does not converge when f changes by more than
    4; one parameter m that does not act.  Eight parts per unit, as in Example_Substep. *)
Definition lx_arith : arith Z := mkArith Z.add Z.sub (fun x y => (x * y / 8)%Z) 0%Z 8%Z 4%Z.
Definition lx_row (g : tensor Z) (b : nat) : Z * bool :=
  let df := (jx_at g (3 * b) - jx_at g (3 * b + 1))%Z in ((jx_at g (3 * b + 2) + df)%Z, Z.leb (Z.abs df) 4).
Definition lx_solve (gs ps us : list (tensor Z)) : result (list (tensor Z)) :=
  match gs with
  | [g] => if forallb (fun b => snd (lx_row g b)) (seq 0 (jx_rows g)) then Ok [jx_vec [jx_rows g; 1] (fun b => fst (lx_row g b))]
           else Err (Convergence "not converged")
  | _ => Err (StdExn "arguments")
  end.
Definition lx_masked (gs ps us : list (tensor Z)) : result (list (tensor Z) * list bool) :=
  match gs with
  | [g] => Ok ([jx_vec [jx_rows g; 1] (fun b => fst (lx_row g b))], map (fun b => snd (lx_row g b)) (seq 0 (jx_rows g)))
  | _ => Err (StdExn "arguments")
  end.
Definition lx_imp : jimp Z :=
  mkJI (mkIseg [mkGiven (mkVar "f" [] []) "cur_force" "f~1"; mkGiven (mkVar "f~1" [] []) "old_force" "f"; mkGiven (mkVar "s~1" [] []) "old_state" "s"]
               [mkVar "s" [] []] [mkGroup "dense" [] [mkVar "f" [] []; mkVar "f~1" [] []; mkVar "s~1" [] []]]
               [mkGroup "dense" [] [mkVar "s" [] []]] ["m"] None lx_solve lx_masked)
       1
       (fun l => match l with u :: _ => Ok [jx_vec [jx_rows u; 1; 1] (fun _ => 1%Z)] | _ => Err (StdExn "arguments") end)
       (Some (fun l => match l with u :: _ => Ok [jx_vec [jx_rows u; 1; 3] (fun k => match k mod 3 with 1 => 1%Z | _ => (-1)%Z end)] | _ => Err (StdExn "arguments") end))
       (Compiled (fun l => match l with
                           | a :: _ => let t v := jx_vec [jx_rows a; 1; 1] (fun _ => v) in Ok [t 1%Z; t (-1)%Z; t 1%Z]
                           | _ => Err (StdExn "arguments")
                           end))
       [mkPair "s" "f" [] [] [] false 0 0; mkPair "s" "f~1" [] [] [] false 0 1; mkPair "s" "s~1" [] [] [] false 0 2] 1.
Definition lx_inputs : list in_info := [mkIn "f" [] []; mkIn "f~1" [] []; mkIn "s~1" [] []].
Definition lx_jmodel : jmodel Z := mkJM lx_inputs [JI lx_imp] [("s", [])] [("s", "f")].
Definition lx_pmodel : pmodel Z :=
  mkPM lx_inputs [PI lx_imp (Some (fun l => Ok l)) (Some (fun l => match l with u :: _ => Ok [jx_vec [jx_rows u] (fun _ => 0%Z)] | _ => Err (StdExn "arguments") end)) None
                     [mkPP "s" "m" [] [] 0 0]] [("s", [])] [("s", "m")].
Definition lx_in (f : Z) : smap (tensor Z) := [("f", mkT [2] [f; 3]%Z cpu); ("f~1", mkT [2] [0; 0]%Z cpu); ("s~1", mkT [2] [10; 20]%Z cpu)].
Definition lx_par (n : string) : result (tensor Z) := Ok (mkT [] [1]%Z cpu).
Definition lx_pbase : smap (list nat) := [("m", [])].
