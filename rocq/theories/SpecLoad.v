(** Vocabulary of the loader properties (C60, C61): what an artifact says, how cli/aoti_export.py writes it into
    metadata.json, and what a model loaded from it must hold. *)
From Coq Require Import String.
From Verif Require Import Base Tensor SpecRename Rename Krylov Load.
Local Open Scope string_scope.
Local Open Scope list_scope.
Local Open Scope Z_scope.

(** ** An artifact *)
Record aparam (V : Type) := mkAp {
  ap_name : string; ap_dtype : option string; ap_shape : list nat; ap_base : list Z; ap_values : list V }.
Arguments mkAp {V}. Arguments ap_name {V}. Arguments ap_dtype {V}. Arguments ap_shape {V}. Arguments ap_base {V}. Arguments ap_values {V}.
(** [ar_solver]: the Newton settings, and the Krylov settings of a matrix-free solver; absent without implicit segments. *)
Record artifact (V : Type) := mkAr {
  ar_in : smap string; ar_out : smap string; ar_par : smap string;
  ar_inputs : list minput; ar_outputs : list moutput;
  ar_derivs : list (string * string); ar_pderivs : list (string * string);
  ar_params : list (aparam V); ar_solver : option (sconfig V * option (kconfig V)); ar_segs : list (mseg V) }.
Arguments mkAr {V}. Arguments ar_in {V}. Arguments ar_out {V}. Arguments ar_par {V}. Arguments ar_inputs {V}. Arguments ar_outputs {V}.
Arguments ar_derivs {V}. Arguments ar_pderivs {V}. Arguments ar_params {V}. Arguments ar_solver {V}. Arguments ar_segs {V}.

(** ** How it is written *)
Section Write.
  Context {V : Type}.
  Notation js := (json V).
  (** An object; keys without a value are left out. *)
  Definition obj (l : list (string * option js)) : js :=
    JObj (flat_map (fun kv => match snd kv with Some v => [(fst kv, v)] | None => [] end) l).
  Definition w_ints (l : list Z) : js := JArr (map JInt l).
  Definition w_strs (l : list string) : js := JArr (map JStr l).
  Definition w_str (s : string) : option js := Some (JStr s).
  Definition w_pkg (o : option string) : option js := option_map JStr o.
  Definition when {A} (o : option A) (j : js) : option js := match o with Some _ => Some j | None => None end.

  (** aoti_export.py:126-138, 2395-2440 *)
  Definition w_var (v : mvar) : js :=
    obj [("name", w_str (mv_name v)); ("var_size", Some (JInt (mv_size v))); ("sub_batch_shape", Some (w_ints (mv_sub v)));
         ("base_shape", Some (w_ints (mv_base v)))].
  Definition w_given (v : mvar) : js :=
    obj [("name", w_str (mv_name v)); ("var_size", Some (JInt (mv_size v))); ("sub_batch_shape", Some (w_ints (mv_sub v)));
         ("base_shape", Some (w_ints (mv_base v))); ("role", w_str (mv_role v));
         ("pair", Some (if String.eqb (mv_pair v) "" then JNull else JStr (mv_pair v)))].
  (** aoti_export.py:140-153 *)
  Definition w_group (g : mgroup) : js :=
    obj [("structure", w_str (mg_structure g)); ("sub_batch_shape", Some (w_ints (mg_sub g)));
         ("var_names", Some (w_strs (map mv_name (mg_vars g)))); ("per_var_info", Some (JArr (map w_var (mg_vars g))))].
  (** aoti_export.py:1618-1627, and without offsets 2284-2297 *)
  Definition w_pair (offs : bool) (p : mpair) : js :=
    obj [("out_var", w_str (mp_out p)); ("in_var", w_str (mp_in p)); ("out_base_shape", Some (w_ints (mp_out_base p)));
         ("in_base_shape", Some (w_ints (mp_in_base p))); ("in_sub_batch_shape", Some (w_ints (mp_in_sub p)));
         ("batch_independent", Some (JBool (mp_indep p)));
         ("row_offset", if offs then Some (JInt (mp_row p)) else None); ("col_offset", if offs then Some (JInt (mp_col p)) else None)].
  (** aoti_export.py:1841-1849, 2344-2353 *)
  Definition w_ppair (offs : bool) (p : mppair) : js :=
    obj [("out_var", w_str (mq_out p)); ("param", w_str (mq_param p)); ("out_base_shape", Some (w_ints (mq_out_base p)));
         ("param_base_shape", Some (w_ints (mq_base p)));
         ("row_offset", if offs then Some (JInt (mq_row p)) else None); ("col_offset", if offs then Some (JInt (mq_col p)) else None)].
  (** aoti_export.py:296-311 *)
  Definition w_name (s : string) : js := obj [("name", w_str s)].
  Definition w_names (l : list string) : js := JArr (map w_name l).

  (** aoti_export.py:3272-3319 *)
  Definition w_forward (ps : list string) (f : mforward) : js :=
    obj [("kind", w_str "forward"); ("package", w_str (fw_package f)); ("inputs", Some (w_names (fw_inputs f)));
         ("outputs", Some (w_names (fw_outputs f))); ("param_inputs", Some (w_strs ps));
         ("jvp_package", w_pkg (fw_jvp f)); ("jacobian_pairs", when (fw_jvp f) (JArr (map (w_pair false) (fw_pairs f))));
         ("param_jacobian_package", w_pkg (fw_pjac f));
         ("param_jacobian_pairs", when (fw_pjac f) (JArr (map (w_ppair false) (fw_ppairs f))));
         ("param_vjp_package", w_pkg (fw_pvjp f)); ("param_vjp_params", when (fw_pvjp f) (w_strs (fw_pvjp_params f)));
         ("param_vjp_outputs", when (fw_pvjp f) (w_strs (fw_pvjp_outputs f)))].

  (** solvers/_krylov.py:98-123 *)
  Definition w_method (m : method) : string := match m with GMRES => "gmres" | BiCGStab => "bicgstab" end.
  Definition w_cache (c : cache_strategy) : string :=
    match c with CacheNone => "none" | Chord => "chord" | MaxLinearIters => "max_its" end.
  Definition w_krylov (cache : bool) (k : kconfig V) : js :=
    obj [("method", w_str (w_method (k_method k))); ("restart", Some (JInt (k_restart k))); ("max_its", Some (JInt (k_max_its k)));
         ("abs_tol", Some (JNum (k_abs_tol k))); ("rel_tol", Some (JNum (k_rel_tol k)));
         ("cache_strategy", if cache then w_str (w_cache (k_cache k)) else None);
         ("cache_max_its", if cache then Some (JInt (k_cache_max_its k)) else None)].
  (** aoti_export.py:2999-3009 *)
  Definition w_sensitivity (kind : string) (k : kconfig V) : js :=
    obj [("kind", w_str kind); ("krylov", if String.eqb kind "krylov" then Some (w_krylov false k) else None)].
  (** aoti_export.py:2546-2552 *)
  Definition w_feedback (f : mfeedback) : js :=
    obj [("input", w_str (mf_input f)); ("sub_batch_shape", Some (w_ints (mf_sub f))); ("base_shape", Some (w_ints (mf_base f)));
         ("output", w_str (mf_output f)); ("iterations", Some (JInt (mf_iterations f)))].
  (** aoti_export.py:2446-2552 *)
  Definition w_implicit (ps : list string) (i : mimplicit V) : js :=
    obj [("kind", w_str "implicit"); ("residual_package", w_str (im_residual i));
         ("unknowns", Some (JArr (map w_var (im_unknowns i)))); ("givens", Some (JArr (map w_given (im_givens i))));
         ("residuals", Some (JArr (map w_var (im_residuals i))));
         ("unknown_group_infos", Some (JArr (map w_group (im_ugroups i))));
         ("given_group_infos", Some (JArr (map w_group (im_ggroups i))));
         ("residual_group_infos", Some (JArr (map w_group (im_rgroups i))));
         ("param_inputs", Some (w_strs ps)); ("max_substepping_level", Some (JInt (im_level i)));
         ("jacobian_package", w_pkg (im_jacobian i)); ("matvec_package", w_pkg (im_matvec i));
         ("precond_setup_package", w_pkg (option_map fst (im_precond i)));
         ("precond_apply_package", w_pkg (option_map snd (im_precond i)));
         ("solve_package", w_pkg (im_solve i));
         ("jacobian_given_package", w_pkg (im_given i)); ("solve_ift_package", w_pkg (im_solve_ift i));
         ("input_sensitivity", when (im_given i) (w_sensitivity (im_in_kind i) (im_in_krylov i)));
         ("jacobian_pairs", when (im_given i) (JArr (map (w_pair true) (im_pairs i))));
         ("dr_dparam_package", w_pkg (im_drdp i)); ("solve_param_package", w_pkg (im_solve_param i));
         ("param_sensitivity", when (im_drdp i) (w_sensitivity (im_par_kind i) (im_par_krylov i)));
         ("param_jacobian_pairs", when (im_drdp i) (JArr (map (w_ppair true) (im_ppairs i))));
         ("predictor_package", option_map (fun p => JStr (md_package p)) (im_predictor i));
         ("predictor_inputs", option_map (fun p => w_names (md_inputs p)) (im_predictor i));
         ("predictor_outputs", option_map (fun p => w_names (md_outputs p)) (im_predictor i));
         ("predictor_feedback", match im_predictor i with Some p => option_map w_feedback (md_feedback p) | None => None end)].
  Definition w_segment (s : mseg V) : js :=
    match sg_kind s with MForward f => w_forward (sg_params s) f | MImplicit i => w_implicit (sg_params s) i end.

  (** aoti_export.py:276-292 *)
  Definition w_input (i : minput) : js :=
    obj [("name", w_str (ip_name i)); ("var_size", Some (JInt (ip_size i))); ("base_shape", Some (w_ints (ip_base i)));
         ("sub_batch_shape", match ip_sub i with [] => None | s => Some (w_ints s) end)].
  Definition w_output (o : moutput) : js :=
    obj [("name", w_str (op_name o)); ("var_size", Some (JInt (op_size o))); ("base_shape", Some (w_ints (op_base o)))].
  (** aoti_export.py:914-927 *)
  Definition w_param (p : aparam V) : js :=
    obj [("name", w_str (ap_name p)); ("shape", Some (w_ints (map Z.of_nat (ap_shape p)))); ("param_base_shape", Some (w_ints (ap_base p)));
         ("values", Some (JArr (map JNum (ap_values p)))); ("dtype", w_pkg (ap_dtype p))].
  Definition w_name_pair (p : string * string) : js := JArr [JStr (fst p); JStr (snd p)].
  (** aoti_export.py:3559-3571; solvers/newton.py:138-147 *)
  Definition w_solver (s : sconfig V * option (kconfig V)) : js :=
    obj [("atol", Some (JNum (sc_atol (fst s)))); ("rtol", Some (JNum (sc_rtol (fst s)))); ("miters", Some (JInt (sc_miters (fst s))));
         ("substep_del_tol", Some (JNum (sc_del_tol (fst s)))); ("ls_type", w_str (sc_ls_type (fst s)));
         ("ls_max_iters", Some (JInt (sc_ls_max_iters (fst s)))); ("ls_cutback", Some (JNum (sc_ls_cutback (fst s))));
         ("ls_c", Some (JNum (sc_ls_c (fst s))));
         ("solver_kind", w_str (match snd s with Some _ => "krylov" | None => "direct" end));
         ("krylov", option_map (w_krylov true) (snd s))].
  Definition w_renames (m : smap string) : option js :=
    match m with [] => None | _ => Some (JObj (map (fun kv => (fst kv, JStr (snd kv))) m)) end.
  Definition w_aliases (a : artifact V) : option js :=
    match ar_in a, ar_out a, ar_par a with
    | [], [], [] => None
    | i, o, p => Some (obj [("inputs", w_renames i); ("outputs", w_renames o); ("parameters", w_renames p)])
    end.
  (** aoti_export.py:3593-3626 *)
  Definition write (a : artifact V) : js :=
    obj [("schema_version", Some (JInt 14)); ("type", w_str "composed"); ("inputs", Some (JArr (map w_input (ar_inputs a))));
         ("outputs", Some (JArr (map w_output (ar_outputs a)))); ("segments", Some (JArr (map w_segment (ar_segs a))));
         ("parameters", Some (JArr (map w_param (ar_params a)))); ("derivatives", Some (JArr (map w_name_pair (ar_derivs a))));
         ("parameter_derivatives", Some (JArr (map w_name_pair (ar_pderivs a)))); ("boundary_aliases", w_aliases a);
         ("solver_config", option_map w_solver (ar_solver a))].
End Write.

(** ** Artifacts the exporter can produce *)
Definition i64_range (z : Z) : Prop := - 2 ^ 63 <= z < 2 ^ 63.
Definition i32_range (z : Z) : Prop := - 2 ^ 31 <= z < 2 ^ 31.
Definition u64_range (z : Z) : Prop := 0 <= z < 2 ^ 64.
Section Valid.
  Context {V : Type}.
  Variable kdef : kconfig V.
  (** The packages that can be opened. *)
  Variable opens : string -> Prop.
  Definition opens_all (l : list (option string)) : Prop := forall s, In (Some s) l -> opens s.

  Definition var_ok (v : mvar) : Prop := i32_range (mv_size v) /\ Forall i64_range (mv_sub v) /\ Forall i64_range (mv_base v).
  (** Variables that are no givens have no substep role. *)
  Definition plain_var (v : mvar) : Prop := var_ok v /\ mv_role v = "static" /\ mv_pair v = "".
  Definition group_ok (g : mgroup) : Prop := Forall i64_range (mg_sub g) /\ Forall plain_var (mg_vars g).
  Definition pair_ok (offs : bool) (p : mpair) : Prop :=
    Forall i64_range (mp_out_base p) /\ Forall i64_range (mp_in_base p) /\ Forall i64_range (mp_in_sub p) /\
    if offs then i64_range (mp_row p) /\ i64_range (mp_col p) else mp_row p = 0 /\ mp_col p = 0.
  Definition ppair_ok (offs : bool) (p : mppair) : Prop :=
    Forall i64_range (mq_out_base p) /\ Forall i64_range (mq_base p) /\
    if offs then i64_range (mq_row p) /\ i64_range (mq_col p) else mq_row p = 0 /\ mq_col p = 0.
  Definition krylov_ok (k : kconfig V) : Prop := i64_range (k_restart k) /\ i64_range (k_max_its k) /\ i64_range (k_cache_max_its k).
  (** A one-shot solve has no cache; a direct one no Krylov settings. *)
  Definition sensitivity_ok (kind : string) (k : kconfig V) : Prop :=
    (kind = "krylov" /\ krylov_ok k /\ k_cache k = CacheNone /\ k_cache_max_its k = k_cache_max_its kdef) \/ (kind = "direct" /\ k = kdef).
  Definition forward_ok (f : mforward) : Prop :=
    opens_all [Some (fw_package f); fw_jvp f; fw_pjac f; fw_pvjp f] /\
    Forall (pair_ok false) (fw_pairs f) /\ Forall (ppair_ok false) (fw_ppairs f) /\
    (fw_jvp f = None -> fw_pairs f = []) /\ (fw_pjac f = None -> fw_ppairs f = []) /\
    (fw_pvjp f = None -> fw_pvjp_params f = [] /\ fw_pvjp_outputs f = []).
  (** The feedback variable is a positive number of times taken from an output of the predictor to one of its inputs. *)
  Definition feedback_ok (p : mpredictor) (f : mfeedback) : Prop :=
    0 < mf_iterations f /\ In (mf_input f) (md_inputs p) /\ In (mf_output f) (md_outputs p).
  Definition predictor_ok (p : mpredictor) : Prop :=
    opens (md_package p) /\ md_params p = [] /\
    match md_feedback p with
    | None => True
    | Some f => feedback_ok p f /\ i64_range (mf_iterations f) /\ Forall i64_range (mf_sub f) /\ Forall i64_range (mf_base f)
    end.
  Definition implicit_ok (i : mimplicit V) : Prop :=
    i32_range (im_level i) /\
    opens_all [Some (im_residual i); im_jacobian i; im_solve i; im_matvec i; option_map fst (im_precond i); option_map snd (im_precond i);
               im_given i; im_solve_ift i; im_drdp i; im_solve_param i] /\
    im_unknowns i <> [] /\ Forall plain_var (im_unknowns i) /\ Forall var_ok (im_givens i) /\ Forall plain_var (im_residuals i) /\
    Forall group_ok (im_ugroups i) /\ Forall group_ok (im_ggroups i) /\ Forall group_ok (im_rgroups i) /\
    Forall (pair_ok true) (im_pairs i) /\ Forall (ppair_ok true) (im_ppairs i) /\
    sensitivity_ok (im_in_kind i) (im_in_krylov i) /\ sensitivity_ok (im_par_kind i) (im_par_krylov i) /\
    (im_given i = None -> im_pairs i = [] /\ im_in_kind i = "direct") /\
    (im_drdp i = None -> im_ppairs i = [] /\ im_par_kind i = "direct") /\
    match im_predictor i with Some p => predictor_ok p | None => True end.
  Definition segment_ok (s : mseg V) : Prop := match sg_kind s with MForward f => forward_ok f | MImplicit i => implicit_ok i end.
  Definition known_dtype (s : string) : Prop := In s ["float64"; "float32"; "int64"; "int32"; "bool"].
  Definition param_ok (p : aparam V) : Prop :=
    (forall s, ap_dtype p = Some s -> known_dtype s) /\ Forall (fun n => i64_range (Z.of_nat n)) (ap_shape p) /\
    Forall i64_range (ap_base p) /\ length (ap_values p) = numel (ap_shape p).
  Definition artifact_ok (a : artifact V) : Prop :=
    NoDup (keys (ar_in a)) /\ NoDup (keys (ar_out a)) /\ NoDup (keys (ar_par a)) /\
    Forall (fun i => i32_range (ip_size i) /\ Forall i64_range (ip_base i) /\ Forall i64_range (ip_sub i)) (ar_inputs a) /\
    Forall (fun o => i32_range (op_size o) /\ Forall i64_range (op_base o)) (ar_outputs a) /\
    (forall o i, In (o, i) (ar_derivs a) -> exists x, In x (ar_inputs a) /\ ip_name x = i) /\
    (forall o p, In (o, p) (ar_pderivs a) -> exists x, In x (ar_params a) /\ ap_name x = p) /\
    Forall param_ok (ar_params a) /\
    NoDup (map ap_name (ar_params a)) /\ NoDup (map (fun p => boundary (ar_par a) (ap_name p)) (ar_params a)) /\
    match ar_solver a with
    | None => True
    | Some (s, k) => u64_range (sc_miters s) /\ u64_range (sc_ls_max_iters s) /\
                     match k with Some k => krylov_ok k | None => True end
    end /\
    Forall segment_ok (ar_segs a).
End Valid.

(** ** What a model loaded from it holds *)
Definition sum_z (l : list Z) : Z := fold_right Z.add 0 l.
(** A table of renames: as written, nothing else. *)
Definition table_of (m t : smap string) : Prop := forall k, lookup k t = lookup k m.
Definition faithful {V} (cast : string -> V -> V) (sdef : sconfig V) (kdef : kconfig V) (leaf : string) (d : device)
           (a : artifact V) (m : loaded V) : Prop :=
  table_of (ar_in a) (in_o2e (ld_tables m)) /\ table_of (ar_out a) (out_o2e (ld_tables m)) /\ table_of (ar_par a) (param_o2e (ld_tables m)) /\
  ld_inputs m = ar_inputs a /\ ld_outputs m = ar_outputs a /\ ld_derivs m = ar_derivs a /\ ld_pderivs m = ar_pderivs a /\
  length (ld_offsets m) = length (ar_inputs a) /\
  (forall k o, nth_error (ld_offsets m) k = Some o -> o = sum_z (map ip_size (firstn k (ar_inputs a)))) /\
  ld_total m = sum_z (map ip_size (ar_inputs a)) /\
  (* the parameters under their boundary names, in the requested scalar type unless they have their own *)
  (forall p, In p (ar_params a) ->
    lookup (boundary (ar_par a) (ap_name p)) (ld_named m) =
      Some (let dt := match ap_dtype p with Some s => s | None => leaf end in (dt, mkT (ap_shape p) (map (cast dt) (ap_values p)) d)) /\
    lookup (ap_name p) (ld_bases m) = Some (ap_base p)) /\
  (forall n, lookup n (ld_named m) <> None -> exists p, In p (ar_params a) /\ n = boundary (ar_par a) (ap_name p)) /\
  ld_cfg m = match ar_solver a with Some (s, _) => s | None => sdef end /\
  ld_solver m = match ar_solver a with Some (_, Some _) => "krylov" | _ => "direct" end /\
  ld_krylov m = match ar_solver a with Some (_, Some k) => k | _ => kdef end /\
  ld_segs m = ar_segs a.

(** ** What is known of whatever has been loaded *)
Definition segment_sound {V} (opens : string -> Prop) (s : mseg V) : Prop :=
  match sg_kind s with
  | MForward f => opens_all opens [Some (fw_package f); fw_jvp f; fw_pjac f; fw_pvjp f]
  | MImplicit i =>
      opens_all opens [Some (im_residual i); im_jacobian i; im_solve i; im_matvec i; option_map fst (im_precond i); option_map snd (im_precond i);
                       im_given i; im_solve_ift i; im_drdp i; im_solve_param i; option_map md_package (im_predictor i)] /\
      im_unknowns i <> [] /\
      forall p f, im_predictor i = Some p -> md_feedback p = Some f -> feedback_ok p f
  end.
Definition loaded_sound {V} (opens : string -> Prop) (m : loaded V) : Prop :=
  Forall (segment_sound opens) (ld_segs m) /\
  length (ld_offsets m) = length (ld_inputs m) /\
  (forall k o, nth_error (ld_offsets m) k = Some o -> o = sum_z (map ip_size (firstn k (ld_inputs m)))) /\
  ld_total m = sum_z (map ip_size (ld_inputs m)) /\
  (forall o i, In (o, i) (ld_derivs m) -> exists x, In x (ld_inputs m) /\ ip_name x = i) /\
  (forall o p, In (o, p) (ld_pderivs m) ->
     lookup (match lookup p (param_o2e (ld_tables m)) with Some e => e | None => p end) (ld_named m) <> None /\ lookup p (ld_bases m) <> None) /\
  (forall n dt t, lookup n (ld_named m) = Some (dt, t) -> length (t_data t) = numel (t_shape t)).

(** The entries of metadata.json that the loader insists on.  An [int] wraps beyond 32 bits; see C61_accepts_refuted. *)
Definition metadata_sound {V} (meta : json V) (m : loaded V) : Prop :=
  exists o, meta = JObj o /\
    (exists v, lookup "schema_version" o = Some v /\ forall z, v = JInt z -> i32_range z -> z = 14) /\
    lookup "type" o = Some (JStr "composed") /\
    (* a segment for every description, of the kind the description names *)
    forall l, lookup "segments" o = Some (JArr l) ->
      Forall2 (fun j s => exists os, j = JObj os /\
        lookup "kind" os = Some (JStr (match sg_kind s with MForward _ => "forward" | MImplicit _ => "implicit" end))) l (ld_segs m).

(** ** Settings of the metadata arrive in their own field; the others keep their default *)
Section Settings.
  Context {V : Type}.
  Definition given {A} (o : smap (json V)) (k : string) (is : json V -> A -> Prop) (d x : A) : Prop :=
    match lookup k o with Some v => is v x | None => x = d end.
  (** A number written as such; the integers within the range of their type. *)
  Definition is_num (v : json V) (x : V) : Prop := forall y, v = JNum y -> x = y.
  Definition is_i64 (v : json V) (x : Z) : Prop := forall z, v = JInt z -> i64_range z -> x = z.
  Definition is_u64 (v : json V) (x : Z) : Prop := forall z, v = JInt z -> u64_range z -> x = z.
  Definition is_str (v : json V) (x : string) : Prop := v = JStr x.
  Definition is_method (v : json V) (x : method) : Prop := v = JStr (match x with GMRES => "gmres" | BiCGStab => "bicgstab" end).
  Definition is_cache (v : json V) (x : cache_strategy) : Prop :=
    v = JStr (match x with CacheNone => "none" | Chord => "chord" | MaxLinearIters => "max_its" end).
  Definition krylov_settings (o : smap (json V)) (d k : kconfig V) : Prop :=
    given o "method" is_method GMRES (k_method k) /\ given o "cache_strategy" is_cache CacheNone (k_cache k) /\
    given o "restart" is_i64 (k_restart d) (k_restart k) /\ given o "max_its" is_i64 (k_max_its d) (k_max_its k) /\
    given o "abs_tol" is_num (k_abs_tol d) (k_abs_tol k) /\ given o "rel_tol" is_num (k_rel_tol d) (k_rel_tol k) /\
    given o "cache_max_its" is_i64 (k_cache_max_its d) (k_cache_max_its k).
  Definition solver_settings (o : smap (json V)) (d : sconfig V) (kd : kconfig V) (s : sconfig V) (kind : string) (k : kconfig V) : Prop :=
    given o "atol" is_num (sc_atol d) (sc_atol s) /\ given o "rtol" is_num (sc_rtol d) (sc_rtol s) /\
    given o "miters" is_u64 (sc_miters d) (sc_miters s) /\ given o "ls_type" is_str (sc_ls_type d) (sc_ls_type s) /\
    given o "ls_max_iters" is_u64 (sc_ls_max_iters d) (sc_ls_max_iters s) /\
    given o "ls_cutback" is_num (sc_ls_cutback d) (sc_ls_cutback s) /\ given o "ls_c" is_num (sc_ls_c d) (sc_ls_c s) /\
    given o "substep_del_tol" is_num (sc_del_tol d) (sc_del_tol s) /\ given o "solver_kind" is_str "direct" kind /\
    given o "krylov" (fun v k => exists ok, v = JObj ok /\ krylov_settings ok kd k) kd k.
  (** The settings of the metadata. *)
  Definition settings (o : smap (json V)) (d : sconfig V) (kd : kconfig V) (m : loaded V) : Prop :=
    match lookup "solver_config" o with
    | Some v => exists os, v = JObj os /\ solver_settings os d kd (ld_cfg m) (ld_solver m) (ld_krylov m)
    | None => ld_cfg m = d /\ ld_solver m = "direct" /\ ld_krylov m = kd
    end.
End Settings.
