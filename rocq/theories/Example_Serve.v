(** Calls for C72: the bundle of Example_Bundle.v, three loads at once, the scale of each its own. *)
From Coq Require Import String.
From Verif Require Import Load SpecLoad LoadProofs Example_Load.
From Verif Require Import Base Tensor Spec SpecMap SpecRename Float Newton Example_Newton Params SpecParams ParamsProofs Example_Solved SpecRuntime Example_Krylov Example_Runtime Bundle Example_Bundle Serve.
Local Open Scope string_scope.
Local Open Scope list_scope.

Definition sx_in : smap (tensor F) :=
  [("f~1", mkT [] [fnum 2 0] cpu); ("u~1", mkT [3] [fone; fone; fone] cpu); ("x", mkT [3] [fnum 4 0; fnum 25 0; fnum 9 0] cpu)].
Definition sx_in' : smap (tensor F) :=
  [("f~1", mkT [] [fnum 2 0] cpu); ("load", mkT [3] [fnum 4 0; fnum 25 0; fnum 9 0] cpu); ("u~1", mkT [3] [fone; fone; fone] cpu)].
Lemma sx_inputs level miters : inputs_ok (rx_artifact level miters) sx_in.
Proof.
  split; [repeat constructor|]. split; [intros p q Ip Iq E; cbn in Ip, Iq; intuition (subst; first [reflexivity|discriminate E])|].
  intros i t [<-|[<-|[<-|[]]]] L; vm_compute in L; injection L as <-; (split; [reflexivity|cbn; lia]).
Qed.
Lemma sx_renamed : renamed (boundary [("x", "load")]) sx_in sx_in'.
Proof.
  split; [repeat constructor|]. split; [|split; [|reflexivity]].
  - intros k v L. unfold sx_in in L. cbn [lookup] in L.
    destruct (String.eqb k "f~1") eqn:E1; [apply String.eqb_eq in E1; subst; injection L as <-; reflexivity|].
    destruct (String.eqb k "u~1") eqn:E2; [apply String.eqb_eq in E2; subst; injection L as <-; reflexivity|].
    destruct (String.eqb k "x") eqn:E3; [apply String.eqb_eq in E3; subst; injection L as <-; reflexivity|discriminate].
  - intros k v L. unfold sx_in' in L. cbn [lookup] in L.
    destruct (String.eqb k "f~1") eqn:E1; [apply String.eqb_eq in E1; subst; injection L as <-; exists "f~1"; split; reflexivity|].
    destruct (String.eqb k "load") eqn:E2; [apply String.eqb_eq in E2; subst; injection L as <-; exists "x"; split; reflexivity|].
    destruct (String.eqb k "u~1") eqn:E3; [apply String.eqb_eq in E3; subst; injection L as <-; exists "u~1"; split; reflexivity|discriminate].
Qed.
Lemma sx_contract : contract 3 sx_in'.
Proof.
  split; [lia|]. split.
  - repeat (apply Forall_cons; [split; [reflexivity|]|]); [left; reflexivity|right; right; exists []; reflexivity|right; right; exists []; reflexivity|apply Forall_nil].
  - right. apply Exists_cons_tl, Exists_cons_hd. exists []. reflexivity.
Qed.
(** The scale 1 of the artifact becomes 2, 2 and 8. *)
Definition sx_hist : list (pop F) := [PEval; PSet "scale" (mkT [3] [ftwo; ftwo; fnum 8 0] cpu)].
Definition sx_params : smap (tensor F) := [("c", mkT [] [ftwo] cpu); ("scale", mkT [3] [ftwo; ftwo; fnum 8 0] cpu)].
Lemma sx_keeps : keeps_keys sx_hist.
Proof. intros f [E|[E|[]]]; discriminate. Qed.
Lemma sx_no_late : no_late sx_hist.
Proof. intros f [E|[E|[]]]; discriminate. Qed.
(** u^2 = a x / 2: 2, 5 and 6 *)
Definition sx_near (l : list F) (t : tensor F) : bool := forallb (fun p => (flt (fadd (fst p) (fnum (-1) (-10))) (snd p) && flt (snd p) (fadd (fst p) (fnum 1 (-10))))%bool) (combine l (t_data t)).
