(** A model with a forward, an implicit and a forward segment: w = x0 x1 + y, u - 5 w = 0, z = u x. *)
From Verif Require Import Base Tensor Spec Broadcast SpecBroadcast BroadcastProofs Pack Implicit Substep Mat Jac SubstepJac JacModel SpecJac MatProofs SpecAlgebra.

Local Open Scope string_scope.

Definition zr : arith Z := mkArith Z.add Z.sub Z.mul 0%Z 1%Z 0%Z.
Definition zdot : list Z -> list Z -> Z := dotx 0%Z Z.add Z.mul.

Definition jx_vec (sh : list nat) (f : nat -> Z) : tensor Z := mkT sh (map f (seq 0 (numel sh))) cpu.
Definition jx_at (t : tensor Z) (k : nat) : Z := nth k (t_data t) 0%Z.
Definition jx_rows (t : tensor Z) : nat := nth 0 (t_shape t) 0.

(** w, dw/dx, dw/dy; the last does not depend on the batch. *)
Definition jx_jvp1 (l : list (tensor Z)) : result (list (tensor Z)) :=
  match l with
  | [x; y] =>
      let n := jx_rows x in
      Ok [jx_vec [n] (fun b => jx_at x (2 * b) * jx_at x (2 * b + 1) + jx_at y b)%Z;
          jx_vec [n; 2] (fun k => jx_at x (if Nat.even k then k + 1 else k - 1));
          jx_vec [1] (fun _ => 1%Z)]
  | _ => Err (StdExn "arguments")
  end.
Definition jx_seg1 : jfwd Z :=
  mkJF (mkSeg ["x"; "y"] [] ["w"] (fun l => rmap (firstn 1) (jx_jvp1 l))) (Some jx_jvp1)
       [mkPair "w" "x" [] [2] [] false 0 0; mkPair "w" "y" [] [] [] true 0 0].
(** The unknown u; the solve finds 5 w, A = 1, B = -5, the sensitivity solve gives 5. *)
Definition jx_seg2 : jimp Z :=
  mkJI (mkIseg [mkGiven (mkVar "w" [] []) "" ""] [mkVar "u" [] []] [mkGroup "dense" [] [mkVar "w" [] []]]
               [mkGroup "dense" [] [mkVar "u" [] []]] [] None
               (fun gs _ _ => match gs with [w] => Ok [mkT (t_shape w) (map (Z.mul 5) (t_data w)) (t_dev w)] | _ => Err (StdExn "arguments") end)
               (fun gs ps us => Ok (us, [])))
       1
       (fun l => match l with [u; w] => Ok [jx_vec [jx_rows u; 1; 1] (fun _ => 1%Z); jx_vec [jx_rows u; 1] (fun _ => 0%Z)] | _ => Err (StdExn "arguments") end)
       (Some (fun l => match l with [u; w] => Ok [jx_vec [jx_rows u; 1; 1] (fun _ => (-5)%Z)] | _ => Err (StdExn "arguments") end))
       (Compiled (fun l => match l with [a; b] => Ok [mkT (t_shape b) (map Z.opp (t_data b)) (t_dev b)] | _ => Err (StdExn "arguments") end))
       [mkPair "u" "w" [] [] [] false 0 0] 0.
(** z, dz/du, dz/dx. *)
Definition jx_jvp3 (l : list (tensor Z)) : result (list (tensor Z)) :=
  match l with
  | [u; x] =>
      let n := jx_rows u in
      Ok [jx_vec [n; 2] (fun k => jx_at u (k / 2) * jx_at x k)%Z;
          jx_vec [n; 2] (fun k => jx_at x k);
          jx_vec [n; 2; 2] (fun k => if Nat.eqb (k mod 4) 0 || Nat.eqb (k mod 4) 3 then jx_at u (k / 4) else 0%Z)]
  | _ => Err (StdExn "arguments")
  end.
Definition jx_seg3 : jfwd Z :=
  mkJF (mkSeg ["u"; "x"] [] ["z"] (fun l => rmap (firstn 1) (jx_jvp3 l))) (Some jx_jvp3)
       [mkPair "z" "u" [2] [] [] false 0 0; mkPair "z" "x" [2] [2] [] false 0 0].

Definition jx_model : jmodel Z :=
  mkJM [mkIn "x" [] [2]; mkIn "y" [] []] [JF jx_seg1; JI jx_seg2; JF jx_seg3] [("z", [2]); ("u", [])] [("z", "x"); ("z", "y"); ("u", "y")].
Definition jx_in : smap (tensor Z) := [("x", mkT [2; 2] [1; 2; 3; 4]%Z cpu); ("y", mkT [2] [5; 6]%Z cpu)].
Definition jx_par : string -> result (tensor Z) := fun _ => Err (Fatal "no parameters").
Definition jx_size (n : string) : nat := if String.eqb n "x" || String.eqb n "z" then 2 else 1.

Definition jx_st1 := set_all ["w"] [mkT [2] [7; 18]%Z cpu] jx_in.
Definition jx_st2 : smap (tensor Z) := [("u", mkT [2] [35; 90]%Z cpu); ("w", mkT [2] [7; 18]%Z cpu); ("x", mkT [2; 2] [1; 2; 3; 4]%Z cpu); ("y", mkT [2] [5; 6]%Z cpu)].
Definition jx_st3 := set_all ["z"] [mkT [2; 2] [35; 70; 270; 360]%Z cpu] jx_st2.
Definition jx_blks1 : list (tensor Z) := [mkT [2; 2] [2; 1; 4; 3]%Z cpu; mkT [1] [1]%Z cpu].
Definition jx_blks2 : list (tensor Z) := [mkT [2; 1; 1] [5; 5]%Z cpu].
Definition jx_blks3 : list (tensor Z) := [mkT [2; 2] [1; 2; 3; 4]%Z cpu; mkT [2; 2; 2] [35; 0; 0; 35; 90; 0; 0; 90]%Z cpu].
Definition jx_lins : list (list nat -> lin Z) :=
  [forward_lin jx_seg1 jx_blks1; implicit_lin [2] jx_size jx_seg2 jx_blks2; forward_lin jx_seg3 jx_blks3].

Lemma broadcastable_one (D : list nat) : D <> [] -> broadcastable [1] D.
Proof.
  intros N. destruct D as [|x D] using rev_ind; [contradiction|]. split; [rewrite app_length; cbn; lia|]. intros p n m H _. right.
  unfold rsize in H. destruct p as [|p]; cbn in H; [congruence|destruct p; discriminate].
Qed.

Lemma jx_evaluated : evaluated 0%Z Z.opp jx_par [] jx_model jx_in [2] jx_size cpu jx_lins jx_st3.
Proof.
  split; [repeat (constructor; [cbn; intuition discriminate|]); constructor|]. split; [repeat (constructor; [cbn; intuition discriminate|]); constructor|].
  split; [discriminate|]. split; [intros i [<-|[<-|[]]]; reflexivity|]. split.
  - assert (Ix : exists info, In info (jm_inputs jx_model) /\ in_name info = "x" /\ numel (in_sub info) = 1) by (exists (mkIn "x" [] [2]); split; [left; reflexivity|split; reflexivity]).
    assert (Iy : exists info, In info (jm_inputs jx_model) /\ in_name info = "y" /\ numel (in_sub info) = 1) by (exists (mkIn "y" [] []); split; [right; left; reflexivity|split; reflexivity]).
    intros o i [E|[E|[E|[]]]]; injection E as <- <-; (split; [|assumption]).
    + exists [2]. left. reflexivity.
    + exists [2]. left. reflexivity.
    + exists []. right. left. reflexivity.
  - exists (mkIn "x" [] [2]), [mkIn "y" [] []], jx_in, (mkT [2; 2] [1; 2; 3; 4]%Z cpu), ["z"; "u"; "w"; "x"; "y"], [].
    split; [reflexivity|]. split; [vm_compute; reflexivity|]. split; [reflexivity|]. split; [reflexivity|]. split; [reflexivity|]. split; [reflexivity|]. split.
    + change (batch_shape_of (mkIn "x" [] [2]) (mkT [2; 2] [1; 2; 3; 4]%Z cpu)) with [2].
      apply (lr_cons 0%Z Z.opp jx_par [] cpu [2] [2] jx_size ["x"; "y"] jx_in (JF jx_seg1) _ ["w"; "x"; "y"] jx_st1).
      { apply (lin_forward 0%Z Z.opp jx_par [] cpu [2] [2] jx_size ["x"; "y"] jx_in jx_seg1 jx_jvp1
                 [mkT [2; 2] [1; 2; 3; 4]%Z cpu; mkT [2] [5; 6]%Z cpu] [] [mkT [2] [7; 18]%Z cpu] jx_blks1).
        - reflexivity.
        - discriminate.
        - apply incl_refl.
        - repeat (constructor; [cbn; intuition discriminate|]); constructor.
        - repeat constructor.
        - constructor.
        - vm_compute. reflexivity.
        - constructor; [|constructor]. split; [reflexivity|]. split; [reflexivity|]. exists []. split; reflexivity.
        - constructor; [|constructor; [|constructor]].
          + split; [left; reflexivity|]. split; [left; reflexivity|]. split; [reflexivity|]. split; [reflexivity|]. split; [|split; reflexivity]. exists [2]. split; [reflexivity|apply broadcastable_refl].
          + split; [right; left; reflexivity|]. split; [left; reflexivity|]. split; [reflexivity|]. split; [reflexivity|]. split; [|split; reflexivity]. exists [1]. split; [reflexivity|apply broadcastable_one; discriminate]. }
      apply (lr_cons 0%Z Z.opp jx_par [] cpu [2] [2] jx_size ["w"; "x"; "y"] jx_st1 (JI jx_seg2) _ ["u"; "w"; "x"; "y"] jx_st2).
      { apply (lin_implicit 0%Z Z.opp jx_par [] cpu [2] [2] jx_size ["w"; "x"; "y"] jx_st1 jx_seg2
                 (fun l => match l with [u; w] => Ok [jx_vec [jx_rows u; 1; 1] (fun _ => (-5)%Z)] | _ => Err (StdExn "arguments") end)
                 (set_ "u" (mkT [2] [0; 0]%Z cpu) jx_st1) [mkT [2; 1] [7; 18]%Z cpu] [] [mkT [2; 1] [0; 0]%Z cpu] [mkT [2; 1] [35; 90]%Z cpu] jx_st2
                 [mkT [2; 1; 1] [1; 1]%Z cpu] [mkT [2; 1] [0; 0]%Z cpu] [mkT [2; 1; 1] [-5; -5]%Z cpu] jx_blks2).
        - reflexivity.
        - reflexivity.
        - vm_compute. reflexivity.
        - vm_compute. reflexivity.
        - vm_compute. reflexivity.
        - vm_compute. reflexivity.
        - reflexivity.
        - vm_compute. reflexivity.
        - eapply du_compiled; [reflexivity|vm_compute; reflexivity].
        - intros g [<-|[]]. left. reflexivity.
        - repeat (constructor; [cbn; intuition discriminate|]); constructor.
        - intros v [<-|[]]. reflexivity.
        - constructor; [|constructor]. split; [left; reflexivity|]. split; [left; reflexivity|]. split; [reflexivity|]. split; [reflexivity|]. split; [reflexivity|].
          exists [2]. split; [reflexivity|]. split; [reflexivity|apply broadcastable_refl]. }
      apply (lr_cons 0%Z Z.opp jx_par [] cpu [2] [2] jx_size ["u"; "w"; "x"; "y"] jx_st2 (JF jx_seg3) _ ["z"; "u"; "w"; "x"; "y"] jx_st3).
      { apply (lin_forward 0%Z Z.opp jx_par [] cpu [2] [2] jx_size ["u"; "w"; "x"; "y"] jx_st2 jx_seg3 jx_jvp3
                 [mkT [2] [35; 90]%Z cpu; mkT [2; 2] [1; 2; 3; 4]%Z cpu] [] [mkT [2; 2] [35; 70; 270; 360]%Z cpu] jx_blks3).
        - reflexivity.
        - discriminate.
        - intros x [<-|[<-|[]]]; cbn; auto.
        - repeat (constructor; [cbn; intuition discriminate|]); constructor.
        - repeat constructor.
        - constructor.
        - vm_compute. reflexivity.
        - constructor; [|constructor]. split; [reflexivity|]. split; [reflexivity|]. exists [2]. split; reflexivity.
        - constructor; [|constructor; [|constructor]].
          + split; [left; reflexivity|]. split; [left; reflexivity|]. split; [reflexivity|]. split; [reflexivity|]. split; [|split; reflexivity]. exists [2]. split; [reflexivity|apply broadcastable_refl].
          + split; [right; right; left; reflexivity|]. split; [left; reflexivity|]. split; [reflexivity|]. split; [reflexivity|]. split; [|split; reflexivity]. exists [2]. split; [reflexivity|apply broadcastable_refl]. }
      constructor.
    + intros o ob [E|[E|[]]]; injection E as <- <-.
      * split; [left; reflexivity|]. split; [reflexivity|]. eexists. reflexivity.
      * split; [right; left; reflexivity|]. split; [reflexivity|]. eexists. reflexivity.
Qed.
