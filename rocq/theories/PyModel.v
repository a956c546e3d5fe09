(** The Python class of a compiled model (aoti/_aoti.cpp:140-231): its constructor and forward().  Definitions only. *)
From Coq Require Import String.
From Verif Require Import Load.
From Verif Require Import Base Tensor Float Rename Substep Mat Jac Runtime Bundle Serve ServeJac.
Local Open Scope string_scope.
Local Open Scope list_scope.

(** _aoti.cpp:148-180: None and the empty string stand for the canonical leaf; the scalar type is one of two.  The root is given
    to [open_model] (Bundle.v) together with what is returned here.  [parse]: at::Device of a string. *)
Definition py_leaf (parse : string -> result device) (device dtype : option string) : result (string * Tensor.device) :=
  let dev := match device with Some s => if String.eqb s "" then "cpu" else s | None => "cpu" end in
  let dt := match dtype with Some s => if String.eqb s "" then "float64" else s | None => "float64" end in
  if String.eqb dt "float64" || String.eqb dt "float32" then let* d := parse dev in Ok (dt, d)
  else Err (StdExn "AOTIModel: unsupported dtype (expected float64 or float32).").

(** Model.cpp:395-427, aoti/internal.h:137-140 [output_names] *)
Definition output_names (m : loaded F) : list string := map (fun o => ext_name m (out_o2e (ld_tables m)) (op_name o)) (ld_outputs m).

(** Model.cpp:380-427, aoti/internal.h:133-136 *)
Definition input_names (m : loaded F) : list string := map (fun i => ext_name m (in_o2e (ld_tables m)) (ip_name i)) (ld_inputs m).

(** [dict[k] = v]: a key that is there keeps its place. *)
Fixpoint dict_set {T} (k : string) (v : T) (d : list (string * T)) : list (string * T) :=
  match d with
  | [] => [(k, v)]
  | (k', v') :: r => if String.eqb k k' then (k', v) :: r else (k', v') :: dict_set k v r
  end.
(** _aoti.cpp:221-231 *)
Fixpoint repack {T} (names : list string) (out : smap T) (d : list (string * T)) : result (list (string * T)) :=
  match names with
  | [] => Ok d
  | n :: r => match lookup n out with Some t => repack r out (dict_set n t d) | None => Err (StdExn "map::at") end
  end.
Definition py_forward (m : loaded F) (forward : smap (tensor F) -> result (smap (tensor F))) (I : smap (tensor F)) : result (list (string * tensor F)) :=
  let* out := forward I in repack (output_names m) out [].
