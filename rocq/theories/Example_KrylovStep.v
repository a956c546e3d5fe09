(** Concrete case of the Krylov step properties: two rows, one unknown group, two residual groups, a preconditioner. *)
From Coq Require Import QArith Qcanon.
From Verif Require Import Base BaseProofs Tensor Newton Pack Krylov SpecKrylov KrylovSystem SpecKrylovSystem KrylovDenseProofs
     SpecKrylovStep KrylovStepProofs Example_Krylov.
Local Open Scope nat_scope.
Local Open Scope string_scope.
Local Open Scope list_scope.

(** Row 0 of the batch has the matrix [2 1; 1 3], row 1 the identity. *)
Definition ks_A (i : nat) : list Qc -> list Qc := match i with 0 => qk_mat | _ => fun v => v end.
Definition ks_half (v : list Qc) : list Qc := map (Qcmult (Q2Qc (1 # 2))) v.
Definition ks_u : list (tensor Qc) := [mkT [2; 2] (map qk [0; 0; 0; 0]%Z) cpu].
Definition ks_mat0 (v : list (tensor Qc)) : result (list (tensor Qc)) :=
  match v with
  | [mkT [2; 2] [a; b; c; e] d] =>
      Ok [mkT [2; 1] [Qcplus (Qcmult (qk 2) a) b; c] d; mkT [2; 1] [Qcplus a (Qcmult (qk 3) b); e] d]
  | _ => Err (Fatal "shape")
  end.
Definition ks_sys (its : Z) : ksystem Qc :=
  mkKsys [mkLayout "dense" []] [mkLayout "dense" []; mkLayout "dense" []] (qk_cfg its)
    (fun _ => Ok [mkT [2; 1] [qk 1; qk 1] cpu; mkT [2; 1] [qk 2; qk 0] cpu])
    (fun _ => ks_mat0)
    (Some (fun _ => Ok [], fun _ r => Ok (mkT (t_shape r) (ks_half (t_data r)) (t_dev r)))).
Definition ks_run (its : Z) := kstep qk_num qk_sum qk_dot qk_tri (ks_sys its) ks_u (fresh_state (V:=Qc)).
Definition ks_b : list (tensor Qc) := [mkT [2; 1] [qk 1; qk 1] cpu; mkT [2; 1] [qk 2; qk 0] cpu].
(** The solutions (1/5, 3/5) and (1, 0), read off without the divisibility proofs. *)
Definition nums (ts : list (tensor Qc)) : list (list Q) := map (fun t => map this (t_data t)) ts.

Definition ks_look (x : result (list (tensor Qc) * list (tensor Qc)) * kstate Qc * list (sys_call (V:=Qc))) :=
  match x with (r, st, _) => (rmap (fun p => nums (fst p)) r, st_last st) end.
Lemma ks_looks : ks_look (ks_run 5) = (Ok [[1 # 5; 3 # 5; 1; 0]%Q], 2%Z).
Proof. vm_compute. reflexivity. Qed.
Lemma ks_open x o k : ks_look x = (Ok o, k) -> exists du b st l, x = (Ok (du, b), st, l) /\ nums du = o /\ st_last st = k.
Proof.
  destruct x as [[[[du b]|e] st] l]; unfold ks_look; cbn [rmap fst]; intros H; [|discriminate]. injection H as H1 H2.
  exists du, b, st, l. auto.
Qed.
Lemma ks_runs : exists du st l, ks_run 5 = (Ok (du, ks_b), st, l) /\ nums du = [[1 # 5; 3 # 5; 1; 0]%Q] /\ st_last st = 2%Z.
Proof.
  destruct (ks_open _ _ _ ks_looks) as (du & b & st & l & E & D & L). exists du, st, l.
  destruct (step_parts _ _ _ _ _ _ _ _ _ _ _ E) as (bf & bspec & uf & uspec & rows & st1 & l1 & res & calls & _ & _ & Er & _).
  assert (Eb : b = ks_b) by (change (Ok ks_b = Ok b) in Er; injection Er as <-; reflexivity). rewrite <- Eb. auto.
Qed.
Lemma ks_linear i : i < 2 -> linear_op qk_num 2 (ks_A i).
Proof.
  intros Hi. destruct i as [|i]; [apply qk_mat_linear|]. cbn. split; [intros x H; exact H|]. split; reflexivity.
Qed.
Lemma ks_half_width n : keeps_width n ks_half.
Proof. intros x H. unfold ks_half. rewrite map_length. exact H. Qed.
Lemma ks_res_dense its b : ks_res (ks_sys its) ks_u = Ok b -> dense_groups [2] cpu b [1; 1].
Proof. cbn. intros H. injection H as <-. repeat constructor. Qed.
Lemma ks_mat_rows its : row_operator [2] cpu (map width ks_u) [1; 1] ks_A (ks_mat (ks_sys its) ks_u).
Proof.
  intros v jv G H. cbn in H. inversion G as [|t w r ws (W & D & Sh) G' E1 E2]; subst. inversion G'; subst. clear G G'. cbn in H, Sh.
  destruct t as [sh da dev]. cbn in W, D, Sh. subst. unfold wf in W. cbn in W.
  destruct da as [|a [|b [|c [|e [|f da]]]]]; try discriminate W. injection H as <-. split; [repeat constructor|].
  intros i Hi. cbn in Hi. destruct i as [|[|i]]; [| |lia].
  - change ([Qcplus (Qcmult (qk 2) a) b; Qcplus a (Qcmult (qk 3) b)] =
      [Qcplus (Qcmult (qk 2) a) (Qcplus (Qcmult (qk 1) b) (Q2Qc 0)); Qcplus (Qcmult (qk 1) a) (Qcplus (Qcmult (qk 3) b) (Q2Qc 0))]).
    change (qk 1) with 1%Qc. f_equal; [ring|]. f_equal. ring.
  - reflexivity.
Qed.
Lemma ks_precond_rows its p : precond_rows (ks_sys its) 2 2 cpu (fun _ => ks_half) p.
Proof.
  intros r z W D Sh H. injection H as <-. unfold wf in *. cbn [t_shape t_data]. split; [unfold ks_half; rewrite map_length; exact W|].
  split; [exact Sh|]. intros i Hi. unfold row_entries, ks_half. cbn [flat_map t_shape t_data]. rewrite Sh. cbn [last]. rewrite !app_nil_r.
  rewrite skipn_map, firstn_map. reflexivity.
Qed.
