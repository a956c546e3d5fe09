(** Concrete executions of ExtractTemp.v. *)
From Verif Require Import Base ExtractTemp SpecExtractTemp ExtractTempProofs ExtractTempMoreProofs.
Local Open Scope string_scope.
Local Open Scope list_scope.

Definition tx_fallback : path := ["C:"; "Windows"].
Definition tx_tmp : path := ["C:"; "Temp"].
(** TMP is set, TEMP is not; a directory of an earlier process has the first name. *)
Definition tx_dirs : list path := [["C:"; "Temp"; "neml2_aoti_0"]; ["C:"; "Temp"]; ["C:"; "Windows"]; ["C:"]; []].
Definition tx_state : xstate := mkX (mkEnv (Some tx_tmp) None) 0%N None tx_dirs [] (fun _ => POut).
Definition open_ (_ : path) : bool := false.
Definition steps (t n : nat) : list xlabel := repeat (LStep t true) n.
Lemma tx_fresh : fresh_process tx_state.
Proof.
  constructor; auto; [split; discriminate|].
  intros p x H. destruct (exists_last (l := p ++ [x])) as (q & y & E); [apply not_eq_sym, app_cons_not_nil|].
  assert (B : forall l, In l tx_dirs -> l = [] \/ In (removelast l) tx_dirs).
  { intros l Hl. cbn in Hl. destruct Hl as [<-|[<-|[<-|[<-|[<-|[]]]]]]; cbn; auto 10. }
  destruct (B _ H) as [N|N]; [now apply app_eq_nil in N as (_ & N)|]. now rewrite removelast_last in N.
Qed.

Lemma ours_steps t n : Forall ours (steps t n).
Proof. apply Forall_forall. intros l Hl. apply repeat_spec in Hl. subst. exact I. Qed.

(** Two threads load the same package, the second waiting for the first in the middle; one loader is destroyed. *)
Definition tx_two : list xlabel :=
  [LCall 0 "residual"; LCall 1 "residual"] ++ steps 0 5 ++ [LMkdir tx_tmp "x"] ++ steps 0 10 ++ steps 1 13.
Definition tx_run (ls : list xlabel) : option xstate := xrun tx_fallback open_ tx_state ls.
Definition tx_after (ls : list xlabel) : xstate := match tx_run ls with Some s => s | None => tx_state end.

Lemma tx_two_run : xrun tx_fallback open_ tx_state tx_two = Some (tx_after tx_two).
Proof. vm_compute. reflexivity. Qed.
