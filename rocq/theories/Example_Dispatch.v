(** A concrete Model used to show that the hypotheses of the dispatcher theorems
    can be met: y_i = x_i + p_i (p per batch element or a single value), with a
    batch-independent Jacobian block dy/dx and gradient dp_i = w_i (summed when
    p is a single value). *)
From Verif Require Import Base Tensor Spec BatchChunk Dispatch SpecDispatch BaseProofs TensorProofs
     DispatchProofs SyncProofs.

Local Open Scope Z_scope.

Definition zmap := smap (tensor Z).

Definition addv (x p : list Z) : list Z :=
  match p with
  | [q] => map (fun a => a + q) x
  | _ => map (fun ab => fst ab + snd ab) (combine x p)
  end.

Definition ex_ref (a : zmap * zmap) : result zmap :=
  match lookup "x" (snd a), lookup "p" (fst a) with
  | Some x, Some p => Ok [("y"%string, mkT (t_shape x) (addv (t_data x) (t_data p)) cpu)]
  | _, _ => Err (Fatal "missing")
  end.

Definition ex_fwd (d : device) (P I : zmap) : result zmap := rmap (on_dev d) (ex_ref (P, I)).

Lemma lookup_on_dev d k (m : zmap) : lookup k (on_dev d m) = option_map (to_dev d) (lookup k m).
Proof. apply lookup_vmap. Qed.

Lemma ex_fwd_computes d : computes1 ex_fwd on_dev ex_ref d.
Proof.
  intros P I. unfold ex_fwd, ex_ref. cbn [fst snd]. rewrite !lookup_on_dev.
  destruct (lookup "x" I), (lookup "p" P); reflexivity.
Qed.

Definition ex_jref (a : zmap * zmap) : result (zmap * smap zmap) :=
  let* y := ex_ref a in
  Ok (y, [("y"%string, [("x"%string, mkT [] [1] cpu)])]).
Definition ex_pjref (a : zmap * zmap) : result (zmap * smap zmap) :=
  let* y := ex_ref a in
  match y with
  | (_, t) :: _ =>
      Ok (y, [("y"%string, [("p"%string, mkT (t_shape t) (map (fun _ => 1) (t_data t)) cpu)])])
  | [] => Err (Fatal "missing")
  end.
Definition ex_jac (d : device) (P I : zmap) := rmap (on_jac d) (ex_jref (P, I)).
Definition ex_pjac (d : device) (P I : zmap) := rmap (on_jac d) (ex_pjref (P, I)).

Lemma ex_jac_computes d : computes1 ex_jac on_jac ex_jref d.
Proof.
  intros P I. unfold ex_jac, ex_jref, ex_ref. cbn [fst snd]. rewrite !lookup_on_dev.
  destruct (lookup "x" I), (lookup "p" P); reflexivity.
Qed.
Lemma ex_pjac_computes d : computes1 ex_pjac on_jac ex_pjref d.
Proof.
  intros P I. unfold ex_pjac, ex_pjref, ex_ref. cbn [fst snd]. rewrite !lookup_on_dev.
  destruct (lookup "x" I), (lookup "p" P); reflexivity.
Qed.

Definition ex_tref (a : zmap * zmap * zmap) : result (zmap * zmap) :=
  let* y := ex_ref (fst a) in
  match lookup "x" (snd a) with
  | Some v => Ok (y, [("y"%string, to_dev cpu v)])
  | None => Err (Fatal "missing")
  end.
Definition ex_jvp (d : device) (P I T : zmap) := rmap (on_pair d) (ex_tref (P, I, T)).
Lemma ex_jvp_computes d : computes2 ex_jvp on_pair ex_tref d.
Proof.
  intros P I T. unfold ex_jvp, ex_tref, ex_ref. cbn [fst snd]. rewrite !lookup_on_dev.
  destruct (lookup "x" I), (lookup "p" P), (lookup "x" T); reflexivity.
Qed.

(** Gradient of the parameter: the cotangent itself, kept per element when the
    parameter has an axis beyond its (rank 0) base, summed left to right
    otherwise -- the Model's rule, aoti/ops.cpp:397-413. *)
Section Grad.
  Context {V : Type} (add : V -> V -> V) (zero : V).
  Definition gv_ref (a : smap (tensor V) * smap (tensor V) * smap (tensor V))
    : result (smap (tensor V)) :=
    match lookup "p" (fst (fst a)), lookup "y" (snd a) with
    | Some p, Some w =>
        Ok [("p"%string,
             match t_shape p with
             | [] => mkT [] [match t_data w with
                             | [] => zero
                             | x :: l => fold_left add l x
                             end] cpu
             | _ => to_dev cpu w
             end)]
    | _, _ => Err (Fatal "missing")
    end.
  Definition gv_pvjp (d : device) (P I C : smap (tensor V)) :=
    rmap (on_dev d) (gv_ref (P, I, C)).
  Lemma gv_pvjp_computes d : computes2 gv_pvjp on_dev gv_ref d.
  Proof.
    intros P I C. unfold gv_pvjp, gv_ref. cbn [fst snd].
    unfold on_dev. rewrite !lookup_vmap.
    destruct (lookup "p" P), (lookup "y" C); reflexivity.
  Qed.
End Grad.
Definition ex_vref := gv_ref Z.add 0.
Definition ex_pvjp := gv_pvjp Z.add 0.
Definition ex_pvjp_computes := gv_pvjp_computes Z.add 0.

(** Parameter per batch element, one broadcast input. *)
Definition ex_P : zmap := [("p"%string, mkT [3%nat] [10; 20; 30] (cuda 0))].
Definition ex_Pg : zmap := [("p"%string, mkT [] [10] (cuda 0))].
Definition ex_I : zmap :=
  [("c"%string, mkT [1%nat] [7] cpu); ("x"%string, mkT [3%nat] [1; 2; 3] cpu)].
Definition ex_T : zmap := [("x"%string, mkT [3%nat] [4; 5; 6] cpu)].
Definition ex_C : zmap := [("y"%string, mkT [3%nat] [4; 5; 6] cpu)].
Definition ex_layout : layout :=
  mkLayout [("y"%string, 0%nat)] [("c"%string, 0%nat); ("x"%string, 0%nat)] [("p"%string, 0%nat)].
Definition ex_D (P : zmap) : disp Z := mkDisp ex_layout (cuda 0) [(cuda 0, P)].

Ltac nodup := repeat (constructor; [cbn; intuition discriminate|]); try constructor.

Lemma ex_contract : contract 3 ex_I.
Proof.
  split; [lia|]. split.
  - unfold conforming, ex_I. apply Forall_cons; [|apply Forall_cons; [|apply Forall_nil]].
    + split; [reflexivity|]. right; left. exists []. reflexivity.
    + split; [reflexivity|]. right; right. exists []. reflexivity.
  - right. apply Exists_cons_tl. apply Exists_cons_hd. exists []. reflexivity.
Qed.

Lemma ex_call_ok P : params_ok P -> all_on (cuda 0) P -> call_ok 2 (ex_D P) P ex_I 3 cpu.
Proof.
  intros Hp Hd. constructor; try assumption; try lia.
  - exact ex_contract.
  - discriminate.
  - repeat constructor.
  - reflexivity.
Qed.

Lemma ex_P_ok : params_ok ex_P /\ all_on (cuda 0) ex_P.
Proof. repeat split; repeat constructor. cbn. tauto. Qed.
Lemma ex_Pg_ok : params_ok ex_Pg /\ all_on (cuda 0) ex_Pg.
Proof. repeat split; repeat constructor. cbn. tauto. Qed.

(** A property of every range of a batch of three, by cases. *)
Lemma range3 (Q : nat -> nat -> Prop) :
  Q 0%nat 1%nat -> Q 0%nat 2%nat -> Q 0%nat 3%nat -> Q 1%nat 1%nat -> Q 1%nat 2%nat ->
  Q 2%nat 1%nat -> forall s c, valid_range 3 s c -> Q s c.
Proof.
  intros H1 H2 H3 H4 H5 H6 s c [Hc Hsc].
  destruct s as [|[|[|s]]]; destruct c as [|[|[|[|c]]]]; try lia; assumption.
Qed.

Lemma batched1 (n : nat) r (l : list Z) d : batched n (mkT (n :: r) l d).
Proof. exists r. reflexivity. Qed.

Lemma ex_full k (l : list Z) d : length l = 3%nat -> full_map 3 [(k, mkT [3%nat] l d)].
Proof.
  intros H. split; [nodup|]. apply Forall_cons; [|apply Forall_nil].
  split; [exact H|apply batched1].
Qed.

Lemma ex_forward_rows : forward_rows [("p"%string, 0%nat)] 3 ex_ref (ex_P, ex_I).
Proof.
  split; [|intros l _ _; reflexivity].
  intros out H. vm_compute in H. injection H as <-. split.
  - apply ex_full. reflexivity.
  - apply range3; vm_compute; reflexivity.
Qed.

Lemma ex_jvp_rows : jvp_rows [("p"%string, 0%nat)] 3 ex_tref (ex_P, ex_I, ex_T).
Proof.
  split; [|intros l _ _; reflexivity].
  intros out jout H. vm_compute in H. injection H as <- <-. split; [|split].
  - apply ex_full. reflexivity.
  - apply ex_full. reflexivity.
  - apply range3; vm_compute; reflexivity.
Qed.

Lemma ex_jac_rows :
  jacobian_rows [("p"%string, 0%nat)] 3 (l_out ex_layout) (l_in ex_layout) ex_jref (ex_P, ex_I).
Proof.
  split; [|intros l _ _; reflexivity].
  intros out j H. vm_compute in H. injection H as <- <-. split; [|split].
  - apply ex_full. reflexivity.
  - split; [nodup|]. apply Forall_cons; [|apply Forall_nil].
    split; [discriminate|]. split; [nodup|]. split; [left; reflexivity|].
    apply Forall_cons; [|apply Forall_nil]. split; [right; left; reflexivity|].
    split; [reflexivity|]. left. reflexivity.
  - apply range3; vm_compute; reflexivity.
Qed.

Lemma ex_pjac_rows :
  jacobian_rows [("p"%string, 0%nat)] 3 (l_out ex_layout) (l_param ex_layout) ex_pjref (ex_P, ex_I).
Proof.
  split; [|intros l _ _; reflexivity].
  intros out j H. vm_compute in H. injection H as <- <-. split; [|split].
  - apply ex_full. reflexivity.
  - split; [nodup|]. apply Forall_cons; [|apply Forall_nil].
    split; [discriminate|]. split; [nodup|]. split; [left; reflexivity|].
    apply Forall_cons; [|apply Forall_nil]. split; [left; reflexivity|].
    split; [reflexivity|]. right. apply batched1.
  - apply range3; vm_compute; reflexivity.
Qed.

Lemma ex_vjp_rows_elem : vjp_rows [("p"%string, 0%nat)] 3 Z.add ex_vref (ex_P, ex_I, ex_C).
Proof.
  split; [|intros l _ _; reflexivity].
  intros r H. vm_compute in H. injection H as <-. split; [nodup|].
  exists (fun s c => [("p"%string, rows_of s c (mkT [3%nat] [4; 5; 6] cpu))]). split.
  - apply range3; vm_compute; split; reflexivity.
  - split; [reflexivity|]. intros q t Hl. cbn in Hl.
    destruct (String.eqb_spec q "p") as [->|]; [|discriminate]. injection Hl as <-.
    assert (per_element [("p"%string, 0%nat)] 3 (fst (fst (ex_P, ex_I, ex_C))) "p") as Hpe.
    { eexists. split; [reflexivity|]. split; [exists []; reflexivity|cbn; lia]. }
    split; [intros _|intros Hn; contradiction]. repeat split.
    + exists []. reflexivity.
    + intros s c _. eexists. split; reflexivity.
Qed.

Lemma ex_vjp_rows_global : vjp_rows [("p"%string, 0%nat)] 3 Z.add ex_vref (ex_Pg, ex_I, ex_C).
Proof.
  split; [|intros l _ _; reflexivity].
  intros r H. vm_compute in H. injection H as <-. split; [nodup|].
  exists (fun s c => [("p"%string, mkT [] [match firstn c (skipn s [4; 5; 6]) with [] => 0 | x :: l => fold_left Z.add l x end] cpu)]).
  split.
  - apply range3; vm_compute; split; reflexivity.
  - split; [reflexivity|]. intros q t Hl. cbn in Hl.
    destruct (String.eqb_spec q "p") as [->|]; [|discriminate]. injection Hl as <-.
    split.
    + intros (t & Ht & [r Hr] & Hd). cbn in Ht. injection Ht as <-. cbn in Hr. discriminate.
    + intros _ s c1 c2 H1 H2 H3. do 3 eexists. repeat split; try reflexivity.
      cbn [t_data combine map fst snd]. f_equal.
      destruct s as [|[|[|s]]]; destruct c1 as [|[|[|c1]]]; destruct c2 as [|[|[|c2]]];
        try lia; try reflexivity.
Qed.
