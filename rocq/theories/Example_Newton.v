(** Concrete systems for the Newton properties. *)
From Verif Require Import Base Float Newton SpecNewton.

(** Sum from left to right. *)
Definition sum0 (l : list F) : F := fold_left fadd l fzero.
Lemma sum0_zeros : sums_zeros sum0.
Proof.
  intros l H. unfold sum0. assert (G : forall acc, acc = fzero -> fold_left fadd l acc = fzero); [|apply G; reflexivity].
  induction H as [|x l E H IH]; intros acc ->; [reflexivity|]. cbn [fold_left]. apply IH. rewrite <- E. reflexivity.
Qed.

Definition one_row (f : F -> F) (r : row) : row := match r with [[x]] => [[f x]] | _ => [[fone]] end.
Definition rs1 (res st : F -> F) : rowsys := mkRowsys (one_row res) (one_row st).
Lemma rs1_keeps res st : keeps_shape [1] (rs1 res st).
Proof.
  intros x H. destruct x as [|[|a [|? ?]] [|? ?]]; try discriminate. split; reflexivity.
Qed.

(** r(u) = u with an exact step (converges at once) and with half steps. *)
Definition exact_sys : rowsys := rs1 fopp fopp.
Definition slow_sys : rowsys := rs1 fopp (fun x => fopp (fmul fhalf x)).
(** r(u) = u with a step four times too long: needs cutting back twice. *)
Definition long_sys : rowsys := rs1 fopp (fun x => fopp (fmul (fnum 4 0) x)).
(** Residual large enough for its square to overflow on [0, 1/2), as given beyond. *)
Definition jump_sys (mid last : F) : rowsys :=
  rs1 (fun x => if flt x fhalf then fone else if flt x (fnum 3 (-1)) then mid else last) (fun _ => fone).
Definition huge_start (after : F) : rowsys :=
  rs1 (fun x => if flt x fhalf then fnum 1 600 else after) (fun _ => fone).
(** Residual tiny at zero, one elsewhere; step one. *)
Definition leave_sys : rowsys :=
  rs1 (fun x => if flt x fhalf then fnum 1 (-20) else fone) (fun _ => fone).

Definition cfg0 : config :=
  mkCfg (fnum 1 (-10)) (fnum 1 (-10)) 25 "BACKTRACKING" 1 ftwo (fnum 1 (-10)) (fnum 1 (-8)).
Definition cfg_ls : config :=
  mkCfg (fnum 1 (-10)) (fnum 1 (-10)) 25 "BACKTRACKING" 5 ftwo (fnum 1 (-10)) (fnum 1 (-8)).
Definition with_miters (n : nat) (c : config) : config :=
  mkCfg (cf_atol c) (cf_rtol c) n (cf_ls_type c) (cf_ls_max_iters c) (cf_ls_cutback c) (cf_ls_c c) (cf_del_tol c).
Definition with_atol (a : F) (c : config) : config :=
  mkCfg a (cf_rtol c) (cf_miters c) (cf_ls_type c) (cf_ls_max_iters c) (cf_ls_cutback c) (cf_ls_c c) (cf_del_tol c).

Lemma cfg0_cuts : finite_cuts cfg0.
Proof. intros k H. exfalso. cbn in H. lia. Qed.
Lemma cfg_ls_cuts : finite_cuts cfg_ls.
Proof.
  intros k H. cbn in H. destruct k as [|[|[|[|k]]]]; [| | | |exfalso; lia]; vm_compute; reflexivity.
Qed.
Definition at1 (x : F) : row := [[x]].
Ltac keeps := repeat (apply Forall_cons; [apply rs1_keeps|]); apply Forall_nil.
