(** dispatchers/factory.cpp, the constructors of DispatchedModel (DispatchedModel.cpp:47-72) and what the constructor of Model
    (Model.cpp:261-346) does with the file system: from the stub written by neml2-compile to the models that run.  Definitions only.

    The file system is a function from locations to nodes; how the operating system resolves a path is [locate].
    Simplifications: no symbolic links, no permissions, POSIX paths only (on Windows std::filesystem has other separators);
    nothing changes the file system during the call.  HIT parsing (nmhit), JSON parsing (nlohmann) and the opening of a
    package (AOTIModelPackageLoader) are given functions of the contents. *)
From Verif Require Import Base Tensor Krylov Load.
Local Open Scope string_scope.
Local Open Scope list_scope.

(** ** Paths: std::filesystem::path of libstdc++ *)
Definition is_sep (c : ascii) : bool := Ascii.eqb c "/".
(** [is_absolute()]; [is_relative()] is its negation *)
Definition is_absolute (p : string) : bool := match p with String c _ => is_sep c | EmptyString => false end.
(** Does not end in a file name: empty, or a separator at the end. *)
Fixpoint no_filename (p : string) : bool :=
  match p with EmptyString => true | String c EmptyString => is_sep c | String _ r => no_filename r end.
(** [operator/] *)
Definition join (p q : string) : string :=
  if is_absolute q then q else if no_filename p then (p ++ q)%string else (p ++ "/" ++ q)%string.
(** Before and after the last separator. *)
Fixpoint cut (p : string) : option (string * string) :=
  match p with
  | EmptyString => None
  | String c r =>
      match cut r with
      | Some (b, a) => Some (String c b, a)
      | None => if is_sep c then Some ("", r) else None
      end
  end.
Fixpoint strip (p : string) : string :=
  match p with
  | EmptyString => ""
  | String c r => match strip r with EmptyString => if is_sep c then "" else String c "" | t => String c t end
  end.
(** [parent_path()] *)
Definition parent_path (p : string) : string :=
  match cut p with None => "" | Some (b, _) => match strip b with EmptyString => "/" | t => t end end.

(** ** The operating system *)
Definition location := list string.
Inductive node (C : Type) := Dir | File (c : C).
Arguments Dir {C}. Arguments File {C} c.
(** The components of a path. *)
Fixpoint components (p : string) : list string :=
  match p with
  | EmptyString => [""]
  | String c r => if is_sep c then "" :: components r else match components r with x :: l => String c x :: l | [] => [String c ""] end
  end.
Definition enter (l : location) (c : string) : location :=
  if String.eqb c "" || String.eqb c "." then l else if String.eqb c ".." then removelast l else l ++ [c].
(** From a location along components; each is looked up in a directory. *)
Fixpoint walk {C} (fs : location -> option (node C)) (l : location) (cs : list string) : option location :=
  match cs with
  | [] => Some l
  | c :: r => match fs l with Some Dir => walk fs (enter l c) r | _ => None end
  end.
Definition locate {C} (fs : location -> option (node C)) (cwd : location) (p : string) : option location :=
  if String.eqb p "" then None else walk fs (if is_absolute p then [] else cwd) (components p).
Definition node_at {C} (fs : location -> option (node C)) (cwd : location) (p : string) : option (node C) :=
  match locate fs cwd p with Some l => fs l | None => None end.
(** [is_directory(p)] *)
Definition is_directory {C} (fs : location -> option (node C)) (cwd : location) (p : string) : bool :=
  match node_at fs cwd p with Some Dir => true | _ => false end.

(** ** Devices *)
(** Model.cpp:200-204 [device_type_str]: of every device that is not a cuda device, "cpu". *)
Definition device_type_str (d : device) : string := if String.eqb (d_type d) "cuda" then "cuda" else "cpu".

(** WorkScheduler, as far as the constructor looks at it: which of the two interfaces it has (DispatchedModel.cpp:380-386) and
    its devices. *)
Record scheduler := mkSched { sd_sync : bool; sd_async : bool; sd_devices : list device }.

Section Bundle.
  Context {V C H N : Type}.
  Variable of_int : Z -> V.
  Variable trunc : V -> result Z.
  Variable cast : string -> V -> V.
  Variable sdef : sconfig V.
  Variable kdef : kconfig V.
  Variable parse_json : C -> result (json V).
  (** AOTIModelPackageLoader(path, "model", false, 1, index) on a file with these contents, for this device *)
  Variable open_pkg : C -> device -> result unit.
  (** nmhit: [parse_file], [Node::find], [Node::param_optional<std::string>] without its default *)
  Variable parse_hit : C -> result H.
  Variable find_node : H -> string -> option N.
  Variable param : N -> string -> result (option string).

  (** A Model: its device, what its constructor read, and what is at the path of the package of a given name. *)
  Record model := mkModel { md_device : device; md_loaded : loaded V; md_package : string -> option (node C) }.

  Section Fs.
    Variable fs : location -> option (node C).
    Variable cwd : location.

    (** Model.cpp:261-346; [dtype]: the scalar type, by the name of its directory.  An ifstream opens a directory; reading it
        fails. *)
    Definition open_model (root : string) (dtype : string) (d : device) : result model :=
      let* meta := match node_at fs cwd (join root "metadata.json") with
                   | None => Err (Fatal "aoti::Model: failed to open metadata file")
                   | Some Dir => Err (StdExn "parse_error")
                   | Some (File c) => parse_json c
                   end in
      let leaf := join (join root (device_type_str d)) dtype in
      let pkg s := node_at fs cwd (join leaf s) in
      let* m := load of_int trunc cast
                  (fun s => match pkg s with Some (File c) => open_pkg c d | _ => Err (StdExn "failed to open package") end)
                  sdef kdef dtype d (is_directory fs cwd leaf) meta in
      Ok (mkModel d m pkg).

    (** DispatchedModel.cpp:47-72: a model for each device under its name, the first one active.  [emplace] leaves an entry that
        is there; the devices' names stand for the devices (Device::str is one to one). *)
    Record dispatched := mkDM { dm_active : model; dm_models : list (device * model) }.
    Definition dm_model (D : dispatched) (d : device) : option model :=
      option_map snd (find (fun e => device_eqb d (fst e)) (dm_models D)).
    Fixpoint open_models (root dtype : string) (devs : list device) (acc : list (device * model)) : result (list (device * model)) :=
      match devs with
      | [] => Ok acc
      | d :: r =>
          let* m := open_model root dtype d in
          open_models root dtype r (if existsb (fun e => device_eqb d (fst e)) acc then acc else acc ++ [(d, m)])
      end.
    Definition open_dispatched (root dtype : string) (s : option scheduler) : result dispatched :=
      match s with
      | None => Err (Fatal "DispatchedModel: scheduler must not be null.")
      | Some s =>
          let* _ := assert_ (sd_async s || sd_sync s) "DispatchedModel: scheduler is neither a SyncScheduler nor an AsyncScheduler." in
          let* _ := assert_ (negb (match sd_devices s with [] => true | _ => false end)) "DispatchedModel: scheduler reported no devices." in
          let* ms := open_models root dtype (sd_devices s) [] in
          match ms with
          | [] => Err (OtherExn 0)                      (* not reached: there is a device *)
          | (_, m) :: _ => Ok (mkDM m ms)
          end
      end.

    (** DispatchedModel.cpp:74-93: around a Model that is there.  A SyncScheduler has one device (WorkScheduler.h). *)
    Definition adopt (m : option model) (s : option scheduler) : result dispatched :=
      match s with
      | None => Err (Fatal "DispatchedModel: scheduler must not be null.")
      | Some s =>
          match m with
          | None => Err (Fatal "DispatchedModel: model must not be null.")
          | Some m =>
              let* _ := assert_ (sd_async s || sd_sync s) "DispatchedModel: scheduler is neither a SyncScheduler nor an AsyncScheduler." in
              let* _ := assert_ (sd_sync s) "DispatchedModel(Model, scheduler): only a synchronous, single-device scheduler is supported here" in
              let* _ := assert_ (match sd_devices s with d :: _ => String.eqb (d_type (md_device m)) (d_type d) | [] => false end)
                                "DispatchedModel: scheduler device does not match the provided model's device" in
              Ok (mkDM m [(md_device m, m)])
          end
      end.

    (** factory.cpp:37-92.  The scheduler without which the model runs on the cpu in one piece (SimpleScheduler{"cpu", 0}). *)
    Definition default_scheduler : scheduler := mkSched true false [cpu].
    Definition to_fatal {A} (x : result A) : result A :=        (* catch (const std::exception &) *)
      match x with Ok a => Ok a | Err (OtherExn t) => Err (OtherExn t) | Err _ => Err (Fatal "aoti::load_model: failed to parse stub") end.
    Definition load_model (stub_path model_name : string) (s : option scheduler) : result dispatched :=
      let* root := to_fatal (match node_at fs cwd stub_path with
                             | Some (File c) => parse_hit c
                             | _ => Err (StdExn "cannot open file")
                             end) in
      match find_node root ("Models/" ++ model_name) with
      | None => Err (Fatal "aoti::load_model: no such block")
      | Some n =>
          let* type := param n "type" in
          let* _ := assert_ (match type with Some t => String.eqb t "AOTIModel" | None => false end)
                            "aoti::load_model: block has another type, expected 'AOTIModel'" in
          let* path := param n "artifact_path" in
          let path := match path with Some p => p | None => "" end in
          let* _ := assert_ (negb (String.eqb path "")) "aoti::load_model: block is missing the required 'artifact_path' field." in
          let path := if is_absolute path then path else join (parent_path stub_path) path in
          open_dispatched path "float64" (Some (match s with Some s => s | None => default_scheduler end))
      end.
  End Fs.
End Bundle.
Arguments mkModel {V C}. Arguments md_device {V C}. Arguments md_loaded {V C}. Arguments md_package {V C}.
Arguments mkDM {V C}. Arguments dm_active {V C}. Arguments dm_models {V C}.
