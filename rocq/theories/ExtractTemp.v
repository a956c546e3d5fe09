(** aoti/Model.cpp:55-162 [ScopedExtractTempDir] and [make_loader] as compiled on Windows: threads that load packages, each
    into a directory of its own, as a transition system.  Definitions only.

    A step is one access to the mutex, to the environment of the process, to the counter or to the file system, or the
    extraction of one package; the rest of the world (other threads of the host, other processes) may set the two
    variables and make or remove directories in between.
    Simplifications: a path is the list of its components (so [p ++ [x]] is [p / x]); the file system is the list of its
    directories, [refuses p] says that nobody can make a directory in [p]; [_putenv_s] does not fail; of an extracted
    package only directory and name are kept; the loader raises if its directory is gone; torch's part of the code is what
    the comment in Model.cpp:58-78 says of it. *)
From Coq Require Import DecimalString.
From Verif Require Import Base.
Local Open Scope string_scope.
Local Open Scope list_scope.

Definition path : Type := list string.
Definition path_eq_dec : forall p q : path, {p = q} + {p <> q} := list_eq_dec string_dec.
(** [q] is [d] or lies below it. *)
Fixpoint underb (d q : path) : bool :=
  match d, q with
  | [], _ => true
  | x :: d', y :: q' => if string_dec x y then underb d' q' else false
  | _ :: _, [] => false
  end.

(** ** The environment *)
Inductive var : Type := TMP | TEMP.
Record env : Type := mkEnv { e_tmp : option path; e_temp : option path }.
(** [std::getenv] *)
Definition getenv (e : env) (v : var) : option path := match v with TMP => e_tmp e | TEMP => e_temp e end.
(** [_putenv_s]: an empty value deletes the variable (Model.cpp:126-127). *)
Definition putenv (e : env) (v : var) (p : path) : env :=
  let x := match p with [] => None | _ => Some p end in
  match v with TMP => mkEnv x (e_temp e) | TEMP => mkEnv (e_tmp e) x end.

(** ** The state *)
(** A live [AOTIModelPackageLoader]: its [temp_dir_] and the package extracted there, whose library is locked. *)
Record loader : Type := mkL { ld_dir : path; ld_pkg : string }.

(** Members [_old_*] and [_had_*] (Model.cpp:131-134). *)
Record saved : Type := mkSaved { sv_old : path; sv_had : bool }.

(** Where a thread is in [make_loader(pkg)]. *)
Inductive pc : Type :=
| POut
| PLock (pkg : string)                                  (* 155 lock_guard *)
| PSaveTmp (pkg : string)                               (* 85 *)
| PSaveTemp (pkg : string) (a : saved)                  (* 86 *)
| PBase (pkg : string) (a b : saved)                    (* 89 temp_directory_path() *)
| PNext (pkg : string) (a b : saved) (base : path)      (* 93 fetch_add *)
| PMake (pkg : string) (a b : saved) (base : path) (n : N)   (* 95 create_directory *)
| PPutTmp (pkg : string) (a b : saved) (u : path)       (* 101 *)
| PPutTemp (pkg : string) (a b : saved) (u : path)      (* 102 *)
| PEnter (pkg : string) (a b : saved) (u : path)        (* 158: the loader asks for the temp directory ([u] is not read) *)
| PExtract (pkg : string) (a b : saved) (d : path)      (* and extracts into it *)
| PRestTmp (a b : saved) (r : result loader)            (* 107 *)
| PRestTemp (b : saved) (r : result loader)             (* 108 *)
| PUnlock (r : result loader)
| PRet (r : result loader).

Record xstate : Type := mkX {
  x_env : env; x_counter : N; x_mutex : option nat; x_dirs : list path; x_live : list loader; x_pc : nat -> pc }.

Section ExtractTemp.
  (** What [GetTempPath] answers when neither variable is set. *)
  Variable fallback : path.
  Variable refuses : path -> bool.

  Definition has_dir (D : list path) (p : path) : bool := if in_dec path_eq_dec p D then true else false.
  (** [GetTempPath] *)
  Definition temp_path (e : env) : path :=
    match e_tmp e with
    | Some p => p
    | None => match e_temp e with Some p => p | None => fallback end
    end.
  (** [std::filesystem::create_directory(p / x, ec)]: whether it made one. *)
  Definition creates (D : list path) (p : path) (x : string) : bool :=
    has_dir D p && negb (has_dir D (p ++ [x])) && negb (refuses p).

  (** Model.cpp:93 *)
  Definition unique_name (n : N) : string := "neml2_aoti_" ++ NilZero.string_of_uint (N.to_uint n).
  (** [std::atomic<std::uint64_t>::fetch_add(1)] *)
  Definition next_counter (n : N) : N := ((n + 1) mod 2 ^ 64)%N.
  (** Model.cpp:114-121 [_save] *)
  Definition save (e : env) (v : var) : saved :=
    match getenv e v with Some p => mkSaved p true | None => mkSaved [] false end.
  (** Model.cpp:122-128 [_restore] *)
  Definition restore (e : env) (v : var) (a : saved) : env := putenv e v (if sv_had a then sv_old a else []).

  Definition upd (f : nat -> pc) (t : nat) (c : pc) : nat -> pc := fun k => if Nat.eqb k t then c else f k.
  Definition goto (s : xstate) (t : nat) (c : pc) : xstate :=
    mkX (x_env s) (x_counter s) (x_mutex s) (x_dirs s) (x_live s) (upd (x_pc s) t c).
  Definition set_env (s : xstate) (e : env) : xstate :=
    mkX e (x_counter s) (x_mutex s) (x_dirs s) (x_live s) (x_pc s).
  Definition set_mutex (s : xstate) (m : option nat) : xstate :=
    mkX (x_env s) (x_counter s) m (x_dirs s) (x_live s) (x_pc s).
  Definition set_dirs (s : xstate) (D : list path) : xstate :=
    mkX (x_env s) (x_counter s) (x_mutex s) D (x_live s) (x_pc s).
  Definition set_live (s : xstate) (L : list loader) : xstate :=
    mkX (x_env s) (x_counter s) (x_mutex s) (x_dirs s) L (x_pc s).

  (** Model.cpp:68-70 *)
  Definition sharing_violation : exn := StdExn "error code: 32 ... file open failed".
  (** One step of thread [t]; [None]: it waits for the mutex or has nothing to do.  [ok]: torch takes the package. *)
  Definition thread_step (s : xstate) (t : nat) (ok : bool) : option xstate :=
    match x_pc s t with
    | POut | PRet _ => None
    | PLock p =>
        match x_mutex s with
        | Some _ => None
        | None => Some (goto (set_mutex s (Some t)) t (PSaveTmp p))
        end
    | PSaveTmp p => Some (goto s t (PSaveTemp p (save (x_env s) TMP)))
    | PSaveTemp p a => Some (goto s t (PBase p a (save (x_env s) TEMP)))
    | PBase p a b =>
        (* temp_directory_path() throws if the path is no directory: the constructor leaves, nothing to restore *)
        if has_dir (x_dirs s) (temp_path (x_env s)) then Some (goto s t (PNext p a b (temp_path (x_env s))))
        else Some (goto s t (PUnlock (Err (StdExn "temp_directory_path"))))
    | PNext p a b base =>
        Some (goto (mkX (x_env s) (next_counter (x_counter s)) (x_mutex s) (x_dirs s) (x_live s) (x_pc s))
                   t (PMake p a b base (x_counter s)))
    | PMake p a b base n =>
        if creates (x_dirs s) base (unique_name n)
        then Some (goto (set_dirs s ((base ++ [unique_name n]) :: x_dirs s)) t (PPutTmp p a b (base ++ [unique_name n])))
        else Some (goto s t (PNext p a b base))
    | PPutTmp p a b u => Some (goto (set_env s (putenv (x_env s) TMP u)) t (PPutTemp p a b u))
    | PPutTemp p a b u => Some (goto (set_env s (putenv (x_env s) TEMP u)) t (PEnter p a b u))
    | PEnter p a b _ => Some (goto s t (PExtract p a b (temp_path (x_env s))))
    | PExtract p a b d =>
        if existsb (fun l => (if path_eq_dec (ld_dir l) d then true else false) && String.eqb (ld_pkg l) p) (x_live s)
        then Some (goto s t (PRestTmp a b (Err sharing_violation)))
        else if negb (has_dir (x_dirs s) d) then Some (goto s t (PRestTmp a b (Err (StdExn "extraction directory"))))
        else if ok then Some (goto (set_live s (x_live s ++ [mkL d p])) t (PRestTmp a b (Ok (mkL d p))))
        else Some (goto s t (PRestTmp a b (Err (StdExn "AOTIModelPackageLoader"))))
    | PRestTmp a b r => Some (goto (set_env s (restore (x_env s) TMP a)) t (PRestTemp b r))
    | PRestTemp b r => Some (goto (set_env s (restore (x_env s) TEMP b)) t (PUnlock r))
    | PUnlock r => Some (goto (set_mutex s None) t (PRet r))
    end.

  (** What can happen. *)
  Inductive xlabel : Type :=
  | LCall (t : nat) (pkg : string)     (* [t] calls make_loader *)
  | LStep (t : nat) (ok : bool)
  | LDestroy (k : nat)                 (* a live loader is destroyed: recursive_rmdir of its directory (Model.cpp:62-63) *)
  | LSet (v : var) (p : path)          (* the host sets a variable *)
  | LMkdir (p : path) (x : string)     (* somebody makes or removes a directory *)
  | LRmdir (p : path).

  Definition remove_under (D : list path) (d : path) : list path := filter (fun p => negb (underb d p)) D.
  Fixpoint remove_nth {A} (k : nat) (l : list A) : list A :=
    match l, k with
    | [], _ => []
    | _ :: r, 0 => r
    | x :: r, S k => x :: remove_nth k r
    end.

  Definition xstep (s : xstate) (l : xlabel) : option xstate :=
    match l with
    | LCall t p => match x_pc s t with POut | PRet _ => Some (goto s t (PLock p)) | _ => None end
    | LStep t ok => thread_step s t ok
    | LDestroy k =>
        match nth_error (x_live s) k with
        | None => None
        | Some l => Some (set_live (set_dirs s (remove_under (x_dirs s) (ld_dir l))) (remove_nth k (x_live s)))
        end
    | LSet v p => Some (set_env s (putenv (x_env s) v p))
    | LMkdir p x => if creates (x_dirs s) p x then Some (set_dirs s ((p ++ [x]) :: x_dirs s)) else None
    | LRmdir p => Some (set_dirs s (remove_under (x_dirs s) p))
    end.
  Fixpoint xrun (s : xstate) (ls : list xlabel) : option xstate :=
    match ls with
    | [] => Some s
    | l :: r => match xstep s l with Some s' => xrun s' r | None => None end
    end.
End ExtractTemp.
