(** aoti/Model.cpp:278-876, the constructor of [Model::Impl]: from metadata.json to what the operations read.

    Simplifications: the file is given as parsed JSON; a compiled package is represented by its file name
    ([open_pkg] stands for [make_loader], Model.cpp:150-163); the arithmetic type is [V]; the values of absent
    settings (Model.h:50-76, krylov.h:76-88) are parameters.  Definitions only. *)
From Coq Require Import String.
From Verif Require Import Base Tensor Rename Krylov.
Local Open Scope string_scope.
Local Open Scope list_scope.
Local Open Scope Z_scope.

(** nlohmann::json.  An object has each key once. *)
Inductive json (V : Type) :=
  | JNull | JBool (b : bool) | JInt (z : Z) | JNum (v : V) | JStr (s : string)
  | JArr (l : list (json V)) | JObj (o : smap (json V)).
Arguments JNull {V}. Arguments JBool {V}. Arguments JInt {V}. Arguments JNum {V}. Arguments JStr {V}.
Arguments JArr {V}. Arguments JObj {V}.

(** static_cast to int64_t, int and uint64_t. *)
Definition to_i64 (z : Z) : Z := (z + 2 ^ 63) mod 2 ^ 64 - 2 ^ 63.
Definition to_i32 (z : Z) : Z := (z + 2 ^ 31) mod 2 ^ 32 - 2 ^ 31.
Definition to_u64 (z : Z) : Z := z mod 2 ^ 64.

Section Json.
  Context {V : Type}.
  (** The cast of an integer to double, and of a double to an integer (undefined out of range). *)
  Variable of_int : Z -> V.
  Variable trunc : V -> result Z.
  Notation js := (json V).

  Definition type_error {A} : result A := Err (StdExn "type_error").
  (** [contains(key)]: false for anything but an object. *)
  Definition contains (j : js) (k : string) : bool :=
    match j with JObj o => match lookup k o with Some _ => true | None => false end | _ => false end.
  (** The const [operator\[\]]: undefined for an absent key. *)
  Definition jat (j : js) (k : string) : result js :=
    match j with
    | JObj o => match lookup k o with Some v => Ok v | None => Err (OtherExn 0) end
    | _ => type_error
    end.
  (** [at(i)] of an array *)
  Definition jidx (j : js) (i : nat) : result js :=
    match j with
    | JArr l => match nth_error l i with Some v => Ok v | None => Err (StdExn "out_of_range") end
    | _ => type_error
    end.
  (** [value(key, default)] *)
  Definition value {A} (get : js -> result A) (j : js) (k : string) (d : A) : result A :=
    match j with
    | JObj o => match lookup k o with Some v => get v | None => Ok d end
    | _ => type_error
    end.
  (** [get<T>()].  [int] also takes a boolean; the 64-bit integers and double do not. *)
  Definition get_str (j : js) : result string := match j with JStr s => Ok s | _ => type_error end.
  Definition get_bool (j : js) : result bool := match j with JBool b => Ok b | _ => type_error end.
  Definition get_i64 (j : js) : result Z :=
    match j with JInt z => Ok (to_i64 z) | JNum v => let* z := trunc v in Ok (to_i64 z) | _ => type_error end.
  Definition get_u64 (j : js) : result Z :=
    match j with JInt z => Ok (to_u64 z) | JNum v => let* z := trunc v in Ok (to_u64 z) | _ => type_error end.
  Definition get_i32 (j : js) : result Z :=
    match j with
    | JInt z => Ok (to_i32 z) | JNum v => let* z := trunc v in Ok (to_i32 z)
    | JBool b => Ok (if b then 1 else 0) | _ => type_error
    end.
  Definition get_f64 (j : js) : result V := match j with JNum v => Ok v | JInt z => Ok (of_int z) | _ => type_error end.
  Definition get_vec {A} (get : js -> result A) (j : js) : result (list A) :=
    match j with JArr l => mapM get l | _ => type_error end.
  (** [for (const auto & v : j)]: the values of an object, nothing for null, a scalar once. *)
  Definition elems (j : js) : list js :=
    match j with JArr l => l | JObj o => map snd o | JNull => [] | _ => [j] end.
  (** [for (i = 0; i < j.size(); ++i) j\[i\]] *)
  Definition items (j : js) : result (list js) :=
    match j with JArr l => Ok l | JNull => Ok [] | JObj [] => Ok [] | _ => type_error end.
  (** [if (j.contains(k)) x = j\[k\].get<T>()], [x] being [d] before. *)
  Definition field {A} (get : js -> result A) (j : js) (k : string) (d : A) : result A :=
    if contains j k then let* v := jat j k in get v else Ok d.
  (** [j\[k\].get<T>()] *)
  Definition need {A} (get : js -> result A) (j : js) (k : string) : result A := let* v := jat j k in get v.
  (** [for (const auto & v : j\[k\]) out.push_back(get(v))] *)
  Definition each {A} (get : js -> result A) (j : js) (k : string) : result (list A) := let* v := jat j k in mapM get (elems v).
  (** ... where [contains(k)] is asked first. *)
  Definition each_opt {A} (get : js -> result A) (j : js) (k : string) : result (list A) :=
    if contains j k then each get j k else Ok [].
End Json.

(** Model.h:50-76 SolverConfig (without collect_log). *)
Record sconfig (V : Type) := mkScfg {
  sc_atol : V; sc_rtol : V; sc_miters : Z; sc_ls_type : string; sc_ls_max_iters : Z;
  sc_ls_cutback : V; sc_ls_c : V; sc_del_tol : V }.
Arguments mkScfg {V}. Arguments sc_atol {V}. Arguments sc_rtol {V}. Arguments sc_miters {V}. Arguments sc_ls_type {V}.
Arguments sc_ls_max_iters {V}. Arguments sc_ls_cutback {V}. Arguments sc_ls_c {V}. Arguments sc_del_tol {V}.

(** internal.h:271-450: VarInfo, GroupInfo, PairInfo, ParamPairInfo, the predictor. *)
Record mvar := mkMvar { mv_name : string; mv_size : Z; mv_sub : list Z; mv_base : list Z; mv_role : string; mv_pair : string }.
Record mgroup := mkMgroup { mg_structure : string; mg_sub : list Z; mg_vars : list mvar }.
Record mpair := mkMpair {
  mp_out : string; mp_in : string; mp_out_base : list Z; mp_in_base : list Z; mp_in_sub : list Z;
  mp_indep : bool; mp_row : Z; mp_col : Z }.
Record mppair := mkMppair {
  mq_out : string; mq_param : string; mq_out_base : list Z; mq_base : list Z; mq_row : Z; mq_col : Z }.
Record mfeedback := mkMfb { mf_input : string; mf_output : string; mf_iterations : Z; mf_sub : list Z; mf_base : list Z }.
Record mpredictor := mkMpred {
  md_package : string; md_inputs : list string; md_outputs : list string; md_params : list string;
  md_feedback : option mfeedback }.
Record mforward := mkMfwd {
  fw_package : string; fw_jvp : option string; fw_inputs : list string; fw_outputs : list string; fw_pairs : list mpair;
  fw_pjac : option string; fw_ppairs : list mppair;
  fw_pvjp : option string; fw_pvjp_params : list string; fw_pvjp_outputs : list string }.
Record mimplicit (V : Type) := mkMimp {
  im_level : Z; im_residual : string; im_jacobian : option string; im_solve : option string; im_matvec : option string;
  im_precond : option (string * string); im_given : option string; im_solve_ift : option string;
  im_in_kind : string; im_in_krylov : kconfig V;
  im_unknowns : list mvar; im_givens : list mvar; im_residuals : list mvar;
  im_ugroups : list mgroup; im_ggroups : list mgroup; im_rgroups : list mgroup;
  im_pairs : list mpair; im_drdp : option string; im_solve_param : option string; im_ppairs : list mppair;
  im_par_kind : string; im_par_krylov : kconfig V; im_predictor : option mpredictor }.
Arguments mkMimp {V}. Arguments im_level {V}. Arguments im_residual {V}. Arguments im_jacobian {V}. Arguments im_solve {V}.
Arguments im_matvec {V}. Arguments im_precond {V}. Arguments im_given {V}. Arguments im_solve_ift {V}. Arguments im_in_kind {V}.
Arguments im_in_krylov {V}. Arguments im_unknowns {V}. Arguments im_givens {V}. Arguments im_residuals {V}.
Arguments im_ugroups {V}. Arguments im_ggroups {V}. Arguments im_rgroups {V}. Arguments im_pairs {V}. Arguments im_drdp {V}.
Arguments im_solve_param {V}. Arguments im_ppairs {V}. Arguments im_par_kind {V}. Arguments im_par_krylov {V}. Arguments im_predictor {V}.
(** A segment: the promoted parameters its graphs take, and the rest by kind. *)
Inductive mkind (V : Type) := MForward (f : mforward) | MImplicit (i : mimplicit V).
Arguments MForward {V}. Arguments MImplicit {V}.
Record mseg (V : Type) := mkMseg { sg_params : list string; sg_kind : mkind V }.
Arguments mkMseg {V}. Arguments sg_params {V}. Arguments sg_kind {V}.

(** A master input or output; a stored parameter with its scalar type. *)
Record minput := mkMin { ip_name : string; ip_size : Z; ip_base : list Z; ip_sub : list Z }.
Record moutput := mkMout { op_name : string; op_base : list Z; op_size : Z }.
Definition stored (V : Type) : Type := string * tensor V.

(** What the constructor fills in. *)
Record loaded (V : Type) := mkLd {
  ld_tables : tables; ld_inputs : list minput; ld_offsets : list Z; ld_total : Z; ld_outputs : list moutput;
  ld_derivs : list (string * string); ld_pderivs : list (string * string);
  ld_named : smap (stored V); ld_bases : smap (list Z);
  ld_cfg : sconfig V; ld_solver : string; ld_krylov : kconfig V; ld_segs : list (mseg V) }.
Arguments mkLd {V}. Arguments ld_tables {V}. Arguments ld_inputs {V}. Arguments ld_offsets {V}. Arguments ld_total {V}.
Arguments ld_outputs {V}. Arguments ld_derivs {V}. Arguments ld_pderivs {V}. Arguments ld_named {V}. Arguments ld_bases {V}.
Arguments ld_cfg {V}. Arguments ld_solver {V}. Arguments ld_krylov {V}. Arguments ld_segs {V}.

Section Load.
  Context {V : Type}.
  Variable of_int : Z -> V.
  Variable trunc : V -> result Z.
  (** [to(opts)]: the conversion of a double to the scalar type of that name. *)
  Variable cast : string -> V -> V.
  Variable open_pkg : string -> result unit.
  Variable sdef : sconfig V.
  Variable kdef : kconfig V.
  Notation js := (json V).
  Notation i64 := (get_i64 trunc).
  Notation i32 := (get_i32 trunc).
  Notation u64 := (get_u64 trunc).
  Notation f64 := (get_f64 of_int).
  Notation str := (get_str (V:=V)).
  Notation shape := (get_vec i64).
  Notation strs := (get_vec str).

  (** Model.cpp:165-180 [parse_krylov_json] *)
  Definition read_krylov (kc : js) (out : kconfig V) : result (kconfig V) :=
    let* ms := value str kc "method" "gmres" in
    let* m := match parse_method ms with Some m => Ok m | None => Err (Fatal "aoti::Model: unknown krylov method in metadata") end in
    let* cs := value str kc "cache_strategy" "none" in
    let* c := match parse_cache cs with Some c => Ok c | None => Err (Fatal "aoti::Model: unknown krylov cache_strategy in metadata") end in
    let* restart := value i64 kc "restart" (k_restart out) in
    let* max_its := value i64 kc "max_its" (k_max_its out) in
    let* abs_tol := value f64 kc "abs_tol" (k_abs_tol out) in
    let* rel_tol := value f64 kc "rel_tol" (k_rel_tol out) in
    let* cache_max_its := value i64 kc "cache_max_its" (k_cache_max_its out) in
    Ok (mkKcfg m c restart max_its abs_tol rel_tol cache_max_its).

  (** Model.cpp:563-581 *)
  Definition read_solver (meta : js) : result (sconfig V * string * kconfig V) :=
    if contains meta "solver_config" then
      let* sc := jat meta "solver_config" in
      let* atol := value f64 sc "atol" (sc_atol sdef) in
      let* rtol := value f64 sc "rtol" (sc_rtol sdef) in
      let* miters := value u64 sc "miters" (sc_miters sdef) in
      let* ls_type := value str sc "ls_type" (sc_ls_type sdef) in
      let* ls_max_iters := value u64 sc "ls_max_iters" (sc_ls_max_iters sdef) in
      let* ls_cutback := value f64 sc "ls_cutback" (sc_ls_cutback sdef) in
      let* ls_c := value f64 sc "ls_c" (sc_ls_c sdef) in
      let* del_tol := value f64 sc "substep_del_tol" (sc_del_tol sdef) in
      let* kind := value str sc "solver_kind" "direct" in
      let* kr := (if contains sc "krylov" then let* kc := jat sc "krylov" in read_krylov kc kdef else Ok kdef) in
      Ok (mkScfg atol rtol miters ls_type ls_max_iters ls_cutback ls_c del_tol, kind, kr)
    else Ok (sdef, "direct", kdef).

  (** Model.cpp:596-611 [parse_var_info] *)
  Definition read_nonnull (j : js) (k : string) (d : string) : result string :=
    if contains j k then
      let* v := jat j k in match v with JNull => Ok d | _ => str v end
    else Ok d.
  Definition read_var (v : js) : result mvar :=
    let* name := need str v "name" in
    let* size := need i32 v "var_size" in
    let* sub := field shape v "sub_batch_shape" [] in
    let* base := field shape v "base_shape" [] in
    let* role := read_nonnull v "role" "static" in
    let* pr := read_nonnull v "pair" "" in
    Ok (mkMvar name size sub base role pr).
  (** Model.cpp:733-746 [parse_group_info] *)
  Definition read_group (g : js) : result mgroup :=
    let* st := value str g "structure" "dense" in
    let* sub := field shape g "sub_batch_shape" [] in
    let* vars := each_opt read_var g "per_var_info" in
    Ok (mkMgroup st sub vars).
  (** Model.cpp:630-645, 760-776 *)
  Definition read_pair (p : js) : result mpair :=
    let* o := need str p "out_var" in
    let* i := need str p "in_var" in
    let* ob := field shape p "out_base_shape" [] in
    let* ib := field shape p "in_base_shape" [] in
    let* is := field shape p "in_sub_batch_shape" [] in
    let* ind := value (get_bool (V:=V)) p "batch_independent" false in
    let* r := value i64 p "row_offset" 0 in
    let* c := value i64 p "col_offset" 0 in
    Ok (mkMpair o i ob ib is ind r c).
  (** Model.cpp:655-667, 794-806 *)
  Definition read_ppair (p : js) : result mppair :=
    let* o := need str p "out_var" in
    let* q := need str p "param" in
    let* ob := field shape p "out_base_shape" [] in
    let* pb := field shape p "param_base_shape" [] in
    let* r := value i64 p "row_offset" 0 in
    let* c := value i64 p "col_offset" 0 in
    Ok (mkMppair o q ob pb r c).
  Definition read_name (v : js) : result string := need str v "name".

  (** [make_loader(cache_dir / j\[k\])] *)
  Definition package (j : js) (k : string) : result string :=
    let* s := need str j k in let* _ := open_pkg s in Ok s.
  Definition package_opt (j : js) (k : string) : result (option string) :=
    if contains j k then let* s := package j k in Ok (Some s) else Ok None.

  (** Model.cpp:613-676 *)
  Definition read_forward (s : js) : result mforward :=
    let* pkg := package s "package" in
    let* jvp := package_opt s "jvp_package" in
    let* ins := each read_name s "inputs" in
    let* outs := each read_name s "outputs" in
    let* pairs := each_opt read_pair s "jacobian_pairs" in
    let* pjac := package_opt s "param_jacobian_package" in
    let* pps := match pjac with Some _ => each read_ppair s "param_jacobian_pairs" | None => Ok [] end in
    let* pvjp := package_opt s "param_vjp_package" in
    let* vps := match pvjp with Some _ => need strs s "param_vjp_params" | None => Ok [] end in
    let* vos := match pvjp with Some _ => need strs s "param_vjp_outputs" | None => Ok [] end in
    Ok (mkMfwd pkg jvp ins outs pairs pjac pps pvjp vps vos).

  (** Model.cpp:713-721, 807-813: the description of a sensitivity solve. *)
  Definition read_sensitivity (s : js) (k : string) : result (string * kconfig V) :=
    if contains s k then
      let* d := jat s k in
      let* kind := value str d "kind" "direct" in
      let* kr := (if contains d "krylov" then let* kc := jat d "krylov" in read_krylov kc kdef else Ok kdef) in
      Ok (kind, kr)
    else Ok ("direct", kdef).

  (** Model.cpp:839-862 *)
  Definition mem_name (x : string) (l : list string) : bool := existsb (String.eqb x) l.
  Definition read_feedback (fb : js) (ins outs : list string) : result mfeedback :=
    let* i := need str fb "input" in
    let* o := need str fb "output" in
    let* n := need i64 fb "iterations" in
    let* sub := need shape fb "sub_batch_shape" in
    let* base := need shape fb "base_shape" in
    let* _ := assert_ (0 <? n) "aoti::Model: predictor_feedback.iterations must be positive" in
    let* _ := assert_ (mem_name i ins) "aoti::Model: predictor_feedback input is not among the predictor's inputs." in
    let* _ := assert_ (mem_name o outs) "aoti::Model: predictor_feedback output is not among the predictor's outputs." in
    Ok (mkMfb i o n sub base).
  (** Model.cpp:824-863 *)
  Definition read_predictor (s : js) : result (option mpredictor) :=
    if contains s "predictor_package" then
      let* pkg := package s "predictor_package" in
      let* ins := each read_name s "predictor_inputs" in
      let* outs := each read_name s "predictor_outputs" in
      let* ps := field strs s "predictor_param_inputs" [] in
      let* fb := (if contains s "predictor_feedback"
                  then let* f := jat s "predictor_feedback" in let* x := read_feedback f ins outs in Ok (Some x)
                  else Ok None) in
      Ok (Some (mkMpred pkg ins outs ps fb))
    else Ok None.

  (** Model.cpp:677-863 *)
  Definition read_implicit (s : js) : result (mimplicit V) :=
    let* level := value i32 s "max_substepping_level" 0 in
    let* residual := package s "residual_package" in
    let* jacobian := package_opt s "jacobian_package" in
    let* solve := package_opt s "solve_package" in
    let* matvec := package_opt s "matvec_package" in
    let* precond := (if contains s "precond_setup_package"
                     then let* a := package s "precond_setup_package" in
                          let* b := package s "precond_apply_package" in Ok (Some (a, b))
                     else Ok None) in
    let* given := package_opt s "jacobian_given_package" in
    let* solve_ift := package_opt s "solve_ift_package" in
    let* (in_kind, in_kr) := read_sensitivity s "input_sensitivity" in
    let* us := each read_var s "unknowns" in
    let* gs := each read_var s "givens" in
    let* rs := each read_var s "residuals" in
    let* ug := each read_group s "unknown_group_infos" in
    let* gg := each read_group s "given_group_infos" in
    let* rg := each read_group s "residual_group_infos" in
    let* pairs := each_opt read_pair s "jacobian_pairs" in
    let* drdp := package_opt s "dr_dparam_package" in
    let* solve_param := package_opt s "solve_param_package" in
    let* pps := each_opt read_ppair s "param_jacobian_pairs" in
    let* (par_kind, par_kr) := read_sensitivity s "param_sensitivity" in
    let* _ := assert_ (negb (match us with [] => true | _ => false end)) "aoti::Model: implicit segment has zero unknowns" in
    let* pred := read_predictor s in
    Ok (mkMimp level residual jacobian solve matvec precond given solve_ift in_kind in_kr us gs rs ug gg rg pairs
               drdp solve_param pps par_kind par_kr pred).

  (** Model.cpp:585-875 *)
  Definition read_segment (s : js) : result (mseg V) :=
    let* kind := value str s "kind" "" in
    let* ps := field strs s "param_inputs" [] in
    if String.eqb kind "forward" then let* f := read_forward s in Ok (mkMseg ps (MForward f))
    else if String.eqb kind "implicit" then let* i := read_implicit s in Ok (mkMseg ps (MImplicit i))
    else Err (Fatal "aoti::Model: unknown segment kind").

  (** Model.cpp:354-375; iterating an object. *)
  Definition read_renames (ba : js) (k : string) : result (smap string) :=
    if contains ba k then
      let* o := jat ba k in
      match o with JObj l => vmapM str l | JNull | JArr [] => Ok [] | _ => type_error end
    else Ok [].
  Definition read_aliases (meta : js) : result tables :=
    if contains meta "boundary_aliases" then
      let* ba := jat meta "boundary_aliases" in
      let* i := read_renames ba "inputs" in
      let* o := read_renames ba "outputs" in
      let* p := read_renames ba "parameters" in
      Ok (load_tables (mkAliases i o p))
    else Ok (load_tables (mkAliases [] [] [])).

  (** Model.cpp:383-404 *)
  Definition read_input (v : js) : result minput :=
    let* name := need str v "name" in
    let* size := need i32 v "var_size" in
    let* base := need shape v "base_shape" in
    let* sub := field shape v "sub_batch_shape" [] in
    Ok (mkMin name size base sub).
  Definition read_output (v : js) : result moutput :=
    let* name := need str v "name" in
    let* base := need shape v "base_shape" in
    let* size := need i32 v "var_size" in
    Ok (mkMout name base size).
  Fixpoint offsets (o : Z) (l : list Z) : list Z * Z :=
    match l with [] => ([], o) | s :: r => let '(os, t) := offsets (o + s) r in (o :: os, t) end.
  (** Model.cpp:430-449 *)
  Definition read_name_pair (pr : js) : result (string * string) :=
    let* a := jidx pr 0%nat in let* o := str a in
    let* b := jidx pr 1%nat in let* i := str b in
    Ok (o, i).

  (** Model.cpp:182-200 [parse_dtype] *)
  Definition parse_dtype (s : string) : result string :=
    if mem_name s ["float64"; "float32"; "int64"; "int32"; "bool"] then Ok s
    else Err (Fatal "aoti::Model: unsupported dtype in metadata.").
  (** [reshape(shape)] of [n] entries: one size may be -1, it is inferred. *)
  Definition resolve_shape (n : nat) (sh : list Z) : result (list nat) :=
    if forallb (fun z => 0 <=? z) sh then
      let s := map Z.to_nat sh in if Nat.eqb (numel s) n then Ok s else Err (StdExn "shape is invalid for input")
    else
      let rest := numel (map Z.to_nat (filter (fun z => 0 <=? z) sh)) in
      if forallb (fun z => -1 <=? z) sh && Nat.eqb (length (filter (fun z => z <? 0) sh)) 1 && negb (Nat.eqb rest 0)
         && Nat.eqb (n mod rest) 0
      then Ok (map (fun z => if z <? 0 then (n / rest)%nat else Z.to_nat z) sh)
      else Err (StdExn "shape is invalid for input").
  (** Model.cpp:476-521: one parameter; its name, scalar type and value, and its base shape. *)
  Definition read_param (leaf : string) (d : device) (p : js) : result (string * stored V * list Z) :=
    let* name := need str p "name" in
    let* dt := (if contains p "dtype" then let* s := need str p "dtype" in parse_dtype s else Ok leaf) in
    let* sh := need shape p "shape" in
    let* base := value shape p "param_base_shape" sh in
    if contains p "values" then
      let* vs := need (get_vec f64) p "values" in
      let* s := resolve_shape (length vs) sh in
      Ok (name, (dt, mkT s (map (cast dt) vs) d), base)
    else Err (Fatal "aoti::Model: parameter uses the values_in spill format").
  (** Model.cpp:452-470, 535-555: the requested inputs and parameters exist. *)
  Definition known_input (ins : list minput) (p : string * string) : result unit :=
    if mem_name (snd p) (map ip_name ins) then Ok tt else Err (StdExn "map::at").
  Definition known_param (t : tables) (named : smap (stored V)) (bases : smap (list Z)) (p : string * string) : result unit :=
    let* _ := match lookup (translate (param_o2e t) (snd p)) named with
              | Some _ => Ok tt
              | None => Err (Fatal "aoti::Model: parameter-derivative references a missing promoted parameter")
              end in
    match lookup (snd p) bases with Some _ => Ok tt | None => Err (StdExn "map::at") end.

  (** Model.cpp:282-876.  [leaf_exists]: the directory of the requested device and scalar type. *)
  Definition load (leaf : string) (d : device) (leaf_exists : bool) (meta : js) : result (loaded V) :=
    let* version := value i32 meta "schema_version" 0 in
    let* _ := assert_ (version =? 14) "aoti::Model: metadata schema_version is not compatible" in
    let* kind := value str meta "type" "" in
    let* _ := assert_ (String.eqb kind "composed") "aoti::Model: unsupported metadata 'type'" in
    let* _ := assert_ leaf_exists "aoti::Model: no compiled artifact for device and dtype" in
    let* t := read_aliases meta in
    let* ins := each read_input meta "inputs" in
    let* outs := each read_output meta "outputs" in
    let* ders := each_opt read_name_pair meta "derivatives" in
    let* pders := each_opt read_name_pair meta "parameter_derivatives" in
    let* _ := mapM (known_input ins) ders in
    let* ps := each_opt (read_param leaf d) meta "parameters" in
    let named := load_parameters t (map fst ps) in
    let bases := fold_left (fun m p => set_ (fst (fst p)) (snd p) m) ps [] in
    let* _ := mapM (known_param t named bases) pders in
    let* (cs, kr) := read_solver meta in
    let* sj := jat meta "segments" in
    let* sl := items sj in
    let* segs := mapM read_segment sl in
    let '(offs, total) := offsets 0 (map ip_size ins) in
    Ok (mkLd t ins offs total outs ders pders named bases (fst cs) (snd cs) kr segs).
End Load.
