(** Boundary renames: aoti/Model.cpp:232-258 (rekey, rekey_nested), 354-376 (the
    tables) and 958-1041 (the public operations).  Definitions only. *)
From Verif Require Import Base Except.

(** tr.find(k), [k] itself when absent (Model.cpp:238-239, internal.h:168-172). *)
Definition translate (tr : smap string) (k : string) : string :=
  match lookup k tr with Some e => e | None => k end.

(** Model.cpp:232-242 [rekey]. *)
Definition rekey {T} (m : smap T) (tr : smap string) : smap T :=
  fold_left (fun out kv => emplace (translate tr (fst kv)) (snd kv) out) m [].

(** Model.cpp:246-258 [rekey_nested]. *)
Definition rekey_nested {T} (j : smap (smap T)) (outer inner : smap string) : smap (smap T) :=
  fold_left (fun out kr => emplace (translate outer (fst kr)) (rekey (snd kr) inner) out) j [].

(** metadata["boundary_aliases"]: {original: boundary} per namespace, in the
    key order of the JSON object. *)
Record aliases : Type := mkAliases
  { al_in : smap string; al_out : smap string; al_param : smap string }.

(** Model.cpp:357-369 [load_pair_maps]. *)
Definition load_pair_maps (ba : smap string) : smap string * smap string :=
  fold_left (fun t kv => (set_ (fst kv) (snd kv) (fst t), set_ (snd kv) (fst kv) (snd t)))
            ba ([], []).

Record tables : Type := mkTables
  { in_o2e : smap string; in_e2o : smap string;
    out_o2e : smap string; out_e2o : smap string; param_o2e : smap string }.

(** Model.cpp:354-375. *)
Definition load_tables (a : aliases) : tables :=
  mkTables (fst (load_pair_maps (al_in a))) (snd (load_pair_maps (al_in a)))
           (fst (load_pair_maps (al_out a))) (snd (load_pair_maps (al_out a)))
           (fold_left (fun t kv => set_ (fst kv) (snd kv) t) (al_param a) []).

(** Model.cpp:376 [_has_aliases]. *)
Definition has_aliases (t : tables) : bool :=
  negb (match in_o2e t, out_o2e t, param_o2e t with [], [], [] => true | _, _, _ => false end).

Section Facade.
  Context {T : Type}.
  Notation vmap := (smap T).
  Notation nmap := (smap (smap T)).
  Variable t : tables.

  (** Model.cpp:958-970.  The override map passes through unchanged, so it is
      part of [impl]. *)
  Definition facade_forward (impl : vmap -> result vmap) (I : vmap) : result vmap :=
    guarded (if has_aliases t
             then let* out := impl (rekey I (in_e2o t)) in Ok (rekey out (out_o2e t))
             else impl I).

  (** Model.cpp:972-988. *)
  Definition facade_jvp (impl : vmap -> vmap -> result (vmap * vmap)) (I V : vmap)
    : result (vmap * vmap) :=
    guarded (if has_aliases t
             then let* (out, jout) := impl (rekey I (in_e2o t)) (rekey V (in_e2o t)) in
                  Ok (rekey out (out_o2e t), rekey jout (out_o2e t))
             else impl I V).

  (** Model.cpp:990-1004. *)
  Definition facade_jacobian (impl : vmap -> result (vmap * nmap)) (I : vmap)
    : result (vmap * nmap) :=
    guarded (if has_aliases t
             then let* (out, jac) := impl (rekey I (in_e2o t)) in
                  Ok (rekey out (out_o2e t), rekey_nested jac (out_o2e t) (in_o2e t))
             else impl I).

  (** Model.cpp:1006-1022. *)
  Definition facade_param_jacobian (impl : vmap -> result (vmap * nmap)) (I : vmap)
    : result (vmap * nmap) :=
    guarded (if has_aliases t
             then let* (out, pjac) := impl (rekey I (in_e2o t)) in
                  Ok (rekey out (out_o2e t), rekey_nested pjac (out_o2e t) (param_o2e t))
             else impl I).

  (** Model.cpp:1024-1041. *)
  Definition facade_param_vjp (impl : vmap -> vmap -> result vmap) (I C : vmap) : result vmap :=
    guarded (if has_aliases t
             then let* grads := impl (rekey I (in_e2o t)) (rekey C (out_e2o t)) in
                  Ok (rekey grads (param_o2e t))
             else impl I C).

  (** Model.cpp:879-899 [_resolve_param]; the stored parameters and the
      per-call overrides are keyed by boundary name. *)
  Definition resolve_param (ov : option vmap) (store : vmap) (name : string) : result T :=
    let key := translate (param_o2e t) name in
    let stored := match lookup key store with
                  | Some v => Ok v
                  | None => Err (Fatal "segment references a missing promoted parameter")
                  end in
    match ov with
    | None => stored
    | Some o => match lookup key o with Some v => Ok v | None => stored end
    end.

  (** Model.cpp:476-521: [_named_parameters.emplace(boundary_name(name), t)]
      over metadata["parameters"]. *)
  Definition load_parameters (params : list (string * T)) : vmap :=
    fold_left (fun m p => emplace (translate (param_o2e t) (fst p)) (snd p) m) params [].
End Facade.
