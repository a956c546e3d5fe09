(** Specification vocabulary of the dispatcher theorems. *)
From Verif Require Import Base Tensor Spec Dispatch.

(** The dispatched call [x] ends, and agrees with the undivided call [y]: same
    value, and an exception exactly when [y] throws. *)
Definition agrees {R} (x : loop_result R) (y : result R) : Prop :=
  exists x', x = Done x' /\ agree_result x' y.

(** A call that obeys the documented contract, on a dispatcher whose primary
    device holds the parameters [P]. *)
Record call_ok {V} (n : Z) (D : disp V) (P I : smap (tensor V)) (b : nat) (in_dev : device)
  : Prop :=
  { co_n : (0 <= n < 2 ^ 63)%Z;               (* scheduler batch size *)
    co_contract : contract b I;               (* inputs obey the batch contract *)
    co_nonempty : I <> [];
    co_on : all_on in_dev I;                  (* inputs on one device *)
    co_store : store_of (dp_active D) (dp_stores D) = Some P;
    co_pdev : all_on (dp_active D) P;         (* parameters on the primary device *)
    co_params : params_ok P }.

Definition on_jac {V} (d : device) (p : smap (tensor V) * smap (smap (tensor V))) :=
  (on_dev d (fst p), on_nested d (snd p)).

(** A call that obeys the documented contract, on a dispatcher each of whose
    devices [devs] holds a copy of the parameters [P]. *)
Record pool_call_ok {V} (devs : list device) (D : disp V) (P I : smap (tensor V)) (b : nat)
       (in_dev : device) : Prop :=
  { pc_contract : contract b I;
    pc_nonempty : I <> [];
    pc_on : all_on in_dev I;
    pc_active : store_of (dp_active D) (dp_stores D) = Some P;
    pc_pdev : all_on (dp_active D) P;
    pc_params : params_ok P;
    pc_stores : forall d, In d devs -> store_of d (dp_stores D) = Some (on_dev d P) }.
