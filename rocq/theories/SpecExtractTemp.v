(** What is claimed of the extraction directories (ExtractTemp.v): vocabulary only. *)
From Verif Require Import Base ExtractTemp.

(** [q] is [d] or lies below it. *)
Definition under (d q : path) : Prop := exists r, q = d ++ r.

(** The parents of a directory exist. *)
Definition tree (D : list path) : Prop := forall p x, In (p ++ [x]) D -> In p D.
(** A variable that is set is not empty. *)
Definition env_ok (e : env) : Prop := e_tmp e <> Some [] /\ e_temp e <> Some [].

(** Before anything was loaded. *)
Record fresh_process (s : xstate) : Prop := mkFresh {
  fp_env : env_ok (x_env s);
  fp_mutex : x_mutex s = None;
  fp_tree : tree (x_dirs s);
  fp_live : x_live s = [];
  fp_out : forall t, x_pc s t = POut
}.

(** The directory that a thread has made for the package it is loading. *)
Definition in_hand (c : pc) : option path :=
  match c with
  | PPutTmp _ _ _ u | PPutTemp _ _ _ u | PEnter _ _ _ u | PExtract _ _ _ u => Some u
  | _ => None
  end.
(** The answer of a load, from where it is known. *)
Definition answer_of (c : pc) : option (result loader) :=
  match c with PRestTmp _ _ r | PRestTemp _ r | PUnlock r | PRet r => Some r | _ => None end.

Section Spec.
  Variable fallback : path.
  Variable refuses : path -> bool.

  (** What the rest of the world keeps to: it sets the variables only while nobody loads, and not to a place inside the
      directory of a live loader; it removes no directory that a loader uses. *)
  Definition polite (s : xstate) (l : xlabel) : Prop :=
    match l with
    | LSet v p => x_mutex s = None /\ forall l, In l (x_live s) -> ~ under (ld_dir l) (temp_path fallback (putenv (x_env s) v p))
    | LRmdir p => (forall l, In l (x_live s) -> ~ under p (ld_dir l)) /\ (forall t u, in_hand (x_pc s t) = Some u -> ~ under p u)
    | _ => True
    end.

  (** An execution in such a world. *)
  Inductive polite_run : xstate -> list xlabel -> xstate -> Prop :=
  | PRnil s : polite_run s [] s
  | PRsnoc s ls s1 l s2 : polite_run s ls s1 -> polite s1 l -> xstep fallback refuses s1 l = Some s2 -> polite_run s (ls ++ [l]) s2.

  (** The environment the host has asked for. *)
  Definition host_env (e : env) (ls : list xlabel) : env :=
    fold_left (fun e l => match l with LSet v p => putenv e v p | _ => e end) ls e.

  (** The directories of the loaders are there, each its own, none inside another. *)
  Definition apart (s : xstate) : Prop :=
    (forall l, In l (x_live s) -> In (ld_dir l) (x_dirs s)) /\
    (forall i j l1 l2, nth_error (x_live s) i = Some l1 -> nth_error (x_live s) j = Some l2 -> under (ld_dir l1) (ld_dir l2) -> i = j).
End Spec.

(** The package that thread [t] was last asked for. *)
Definition last_call (t : nat) (ls : list xlabel) : option string :=
  fold_left (fun o l => match l with LCall k p => if Nat.eqb k t then Some p else o | _ => o end) ls None.
(** What only this process and its loaders do. *)
Definition ours (l : xlabel) : Prop := match l with LSet _ _ | LRmdir _ => False | _ => True end.
(** Looking for a name below [base]. *)
Definition searching (base : path) (c : pc) : Prop :=
  match c with PNext _ _ _ b | PMake _ _ _ b _ => b = base | _ => False end.
