(** Vocabulary of C70: a stub and an artifact on a file system. *)
From Verif Require Import Base Tensor SpecRename Krylov Load SpecLoad Bundle.
Local Open Scope string_scope.
Local Open Scope list_scope.

(** A name of a file: not empty, not [.] or [..], no separator. *)
Definition plain (s : string) : Prop := s <> "" /\ s <> "." /\ s <> ".." /\ forall b a, s <> (b ++ "/" ++ a)%string.
(** Whatever exists is in a directory. *)
Definition tree {C} (fs : location -> option (node C)) : Prop := forall l c n, fs (l ++ [c]) = Some n -> fs l = Some Dir.
(** The two directories have the same contents. *)
Definition same_below {C} (fs1 : location -> option (node C)) (l1 : location) (fs2 : location -> option (node C)) (l2 : location) : Prop :=
  forall x, fs1 (l1 ++ x) = fs2 (l2 ++ x).
(** The devices for which neml2-compile makes packages. *)
Definition compiled_for (d : device) : Prop := d_type d = "cpu" \/ d_type d = "cuda".
(** A scheduler a DispatchedModel can be built on. *)
Definition usable (s : scheduler) : Prop := sd_devices s <> [] /\ sd_async s || sd_sync s = true.
(** Those of the scheduler, without one the cpu. *)
Definition devices_of (s : option scheduler) : list device := match s with Some s => sd_devices s | None => [cpu] end.

Section Spec.
  Context {V C H N : Type}.
  Variable cast : string -> V -> V.
  Variable sdef : sconfig V.
  Variable kdef : kconfig V.
  Variable parse_json : C -> result (json V).
  Variable open_pkg : C -> device -> result unit.
  Variable parse_hit : C -> result H.
  Variable find_node : H -> string -> option N.
  Variable param : N -> string -> result (option string).

  (** The file names an artifact for the model. *)
  Definition stub_says (c : C) (name path : string) : Prop :=
    exists h n, parse_hit c = Ok h /\ find_node h ("Models/" ++ name) = Some n /\
                param n "type" = Ok (Some "AOTIModel") /\ param n "artifact_path" = Ok (Some path).

  Section Fs.
    Variable fs : location -> option (node C).
    (** A stub [file] in the directory [dir], opened by [p]; its path, followed from [dir], leads to [root]. *)
    Definition bundle (cwd : location) (p name : string) (root : location) : Prop :=
      tree fs /\ exists dir file c path, locate fs cwd p = Some (dir ++ [file]) /\ fs (dir ++ [file]) = Some (File c) /\ stub_says c name path /\
        path <> "" /\ walk fs (if is_absolute path then [] else dir) (components path) = Some root.
    (** At [root] is the artifact, with packages for the device. *)
    Definition artifact_at (root : location) (d : device) (s : string) : location := root ++ [d_type d; "float64"; s].
    Definition holds (root : location) (a : artifact V) (d : device) : Prop :=
      (exists j, fs (root ++ ["metadata.json"]) = Some (File j) /\ parse_json j = Ok (write a)) /\
      fs (root ++ [d_type d; "float64"]) = Some Dir /\
      artifact_ok kdef (fun s => plain s /\ exists c, fs (artifact_at root d s) = Some (File c) /\ open_pkg c d = Ok tt) a.
    (** The model of the device: what the artifact says, in double precision, and the packages of the device. *)
    Definition runs (D : dispatched (V:=V) (C:=C)) (root : location) (a : artifact V) (d : device) : Prop :=
      exists m, dm_model D d = Some m /\ md_device m = d /\ faithful cast sdef kdef "float64" d a (md_loaded m) /\
                forall s, plain s -> md_package m s = fs (artifact_at root d s).
  End Fs.
End Spec.
