(** Calls for C74: the artifact of Example_RuntimeParam.v in a bundle at the root of the file system. *)
From Coq Require Import String.
From Verif Require Import Load SpecLoad LoadProofs Example_Load.
From Verif Require Import Base Tensor TensorProofs Spec SpecMap SpecRename Float Newton Example_Newton Krylov Params SpecParams Example_Solved SpecRuntime SpecRuntimeParam Example_Krylov Example_Runtime Example_RuntimeParam
     Bundle SpecBundle BundleProofs Example_Bundle Serve Example_Serve SpecServeJac.
Local Open Scope string_scope.
Local Open Scope list_scope.

Notation jx_artifact := (rp_artifact 0 25).
Definition jx_pkgs : list string := ["fp.pt2"; "dp.pt2"; "sp.pt2"] ++ rx_pkgs.
Definition jx_json (c : bx) : result (json F) := match c with BMeta => Ok (write jx_artifact) | _ => Err (StdExn "parse_error") end.
Definition jx_fs (l : location) : option (node bx) :=
  match l with
  | [] => Some Dir
  | [x] => if String.eqb x "m_aoti.i" then Some (File BStub) else if String.eqb x "m" then Some Dir else None
  | [x; y] => if String.eqb x "m" then if String.eqb y "metadata.json" then Some (File BMeta)
                                       else if String.eqb y "cpu" || String.eqb y "cuda" then Some Dir else None
              else None
  | [x; y; z] => if String.eqb x "m" && bx_leaf y z then Some Dir else None
  | [x; y; z; s] => if String.eqb x "m" && bx_leaf y z && mem_name s jx_pkgs then Some (File (BPkg s)) else None
  | _ => None
  end.
Lemma jx_tree : tree jx_fs.
Proof.
  intros l c n. destruct l as [|x [|y [|z [|w [|v l]]]]]; cbn [app jx_fs]; intros E.
  - reflexivity.
  - destruct (String.eqb_spec x "m") as [->|]; [reflexivity|discriminate].
  - destruct (String.eqb x "m"); [|discriminate]. cbn [andb] in E. unfold bx_leaf in E.
    destruct (String.eqb_spec y "metadata.json") as [->|]; [discriminate|]. destruct (String.eqb y "cpu" || String.eqb y "cuda")%bool; [reflexivity|discriminate].
  - destruct (String.eqb x "m" && bx_leaf y z)%bool; [reflexivity|discriminate].
  - discriminate.
  - discriminate.
Qed.
Lemma jx_plain s : mem_name s jx_pkgs = true -> plain s.
Proof.
  intros M. unfold mem_name in M. apply existsb_exists in M as (y & I & E). apply String.eqb_eq in E. subst y.
  assert (P : forallb (fun s => negb (String.eqb s "" || String.eqb s "." || String.eqb s ".." || match cut s with Some _ => true | None => false end)) jx_pkgs = true) by reflexivity.
  rewrite forallb_forall in P. specialize (P s I). apply negb_true_iff, orb_false_iff in P as [P1 P4]. apply orb_false_iff in P1 as [P1 P3]. apply orb_false_iff in P1 as [P1 P2].
  apply String.eqb_neq in P1, P2, P3. repeat split; try assumption. intros b a ->. clear - P4. induction b as [|x b IH].
  - cbn in P4. destruct (cut a) as [[]|]; discriminate.
  - cbn [append cut] in P4. apply IH. cbn [append] in *. destruct (cut (b ++ String "/" a)) as [[]|]; [discriminate|reflexivity].
Qed.
Lemma jx_holds d : compiled_for d -> holds lx_kdef jx_json bx_open jx_fs ["m"] jx_artifact d.
Proof.
  intros Cd. assert (K : (String.eqb (d_type d) "cpu" || String.eqb (d_type d) "cuda")%bool = true) by (destruct Cd as [->| ->]; reflexivity).
  split; [|split].
  - exists BMeta. split; reflexivity.
  - cbn [app jx_fs]. unfold bx_leaf. rewrite K. reflexivity.
  - apply (artifact_mono lx_kdef (opens rp_open)); [|apply rp_ok; lia]. intros s Es.
    assert (M : mem_name s jx_pkgs = true).
    { unfold opens, rp_open, rx_open in Es. unfold jx_pkgs, mem_name in *. rewrite existsb_app. destruct (existsb (String.eqb s) ["fp.pt2"; "dp.pt2"; "sp.pt2"]); [reflexivity|]. destruct (existsb (String.eqb s) rx_pkgs); [reflexivity|discriminate]. }
    split; [apply jx_plain, M|]. exists (BPkg s). unfold artifact_at. cbn [app jx_fs]. unfold bx_leaf. rewrite K, M. split; reflexivity.
Qed.
Lemma jx_bundle : bundle bx_hit bx_find (bx_param "m") jx_fs [] "./m_aoti.i" "m" ["m"].
Proof. split; [apply jx_tree|]. exists [], "m_aoti.i", BStub, "m". repeat split; try discriminate. exists tt, tt. repeat split. Qed.

(** Names *)
Lemma jx_named : named_pairs jx_artifact /\ named_params jx_artifact.
Proof.
  split; [intros ps f E; discriminate E|]. split; [|intros ps k E; discriminate E]. intros p q Ip Iq E. cbn in Ip, Iq. intuition (subst; first [reflexivity|discriminate E]).
Qed.
Lemma jx_inputs : inputs_ok jx_artifact sx_in.
Proof. exact (sx_inputs 0 25). Qed.
(** The tangent of x and the cotangent of u. *)
Definition jx_tan : smap (tensor F) := [("f~1", mkT [] [fzero] cpu); ("u~1", mkT [3] [fzero; fzero; fzero] cpu); ("x", mkT [3] [fnum 4 0; fnum 20 0; fnum 24 0] cpu)].
Definition jx_tan' : smap (tensor F) := [("f~1", mkT [] [fzero] cpu); ("load", mkT [3] [fnum 4 0; fnum 20 0; fnum 24 0] cpu); ("u~1", mkT [3] [fzero; fzero; fzero] cpu)].
Definition jx_cot : smap (tensor F) := [("u", mkT [3] [fone; ftwo; fnum 4 0] cpu)].
Definition jx_cot' : smap (tensor F) := [("root", mkT [3] [fone; ftwo; fnum 4 0] cpu)].
Lemma jx_tangents : sorted jx_tan /\ clash_free (ar_in jx_artifact) (keys jx_tan) /\ renamed (boundary (ar_in jx_artifact)) jx_tan jx_tan' /\ conforming 3 jx_tan' /\ all_on cpu jx_tan'.
Proof.
  split; [repeat constructor|]. split; [intros p q Ip Iq E; cbn in Ip, Iq; intuition (subst; first [reflexivity|discriminate E])|]. split; [|split].
  - split; [repeat constructor|]. split; [|split; [|reflexivity]].
    + intros k v L. unfold jx_tan in L. cbn [lookup] in L.
      destruct (String.eqb k "f~1") eqn:E1; [apply String.eqb_eq in E1; subst; injection L as <-; reflexivity|].
      destruct (String.eqb k "u~1") eqn:E2; [apply String.eqb_eq in E2; subst; injection L as <-; reflexivity|].
      destruct (String.eqb k "x") eqn:E3; [apply String.eqb_eq in E3; subst; injection L as <-; reflexivity|discriminate].
    + intros k v L. unfold jx_tan' in L. cbn [lookup] in L.
      destruct (String.eqb k "f~1") eqn:E1; [apply String.eqb_eq in E1; subst; injection L as <-; exists "f~1"; split; reflexivity|].
      destruct (String.eqb k "load") eqn:E2; [apply String.eqb_eq in E2; subst; injection L as <-; exists "x"; split; reflexivity|].
      destruct (String.eqb k "u~1") eqn:E3; [apply String.eqb_eq in E3; subst; injection L as <-; exists "u~1"; split; reflexivity|discriminate].
  - repeat (apply Forall_cons; [split; [reflexivity|]|]); [left; reflexivity|right; right; exists []; reflexivity|right; right; exists []; reflexivity|apply Forall_nil].
  - repeat constructor.
Qed.
Lemma jx_cotangents : sorted jx_cot /\ clash_free (ar_out jx_artifact) (keys jx_cot) /\ renamed (boundary (ar_out jx_artifact)) jx_cot jx_cot' /\ conforming 3 jx_cot' /\ all_on cpu jx_cot'.
Proof.
  split; [repeat constructor|]. split; [intros p q Ip Iq E; cbn in Ip, Iq; intuition (subst; first [reflexivity|discriminate E])|]. split; [|split].
  - split; [repeat constructor|]. split; [|split; [|reflexivity]].
    + intros k v L. unfold jx_cot in L. cbn [lookup] in L. destruct (String.eqb k "u") eqn:E1; [apply String.eqb_eq in E1; subst; injection L as <-; reflexivity|discriminate].
    + intros k v L. unfold jx_cot' in L. cbn [lookup] in L. destruct (String.eqb k "root") eqn:E1; [apply String.eqb_eq in E1; subst; injection L as <-; exists "u"; split; reflexivity|discriminate].
  - repeat (apply Forall_cons; [split; [reflexivity|]|]); [right; right; exists []; reflexivity|apply Forall_nil].
  - repeat constructor.
Qed.

Notation jx_load s := (load_model lx_of_int lx_trunc lx_cast lx_sdef lx_kdef jx_json bx_open bx_hit bx_find (bx_param "m") jx_fs [] "./m_aoti.i" "m" (Some s)).
(** The hypotheses that the theorems share. *)
Definition jx_all (s : scheduler) : Prop :=
  bundle bx_hit bx_find (bx_param "m") jx_fs [] "./m_aoti.i" "m" ["m"] /\ usable s /\ Forall compiled_for (SpecBundle.devices_of (Some s)) /\
  (forall d, In d (SpecBundle.devices_of (Some s)) -> holds lx_kdef jx_json bx_open jx_fs ["m"] jx_artifact d) /\
  consistent sum0 kx_dot (fun _ b => b) rp_graph lx_sdef jx_artifact /\ derivatives_consistent jx_artifact /\ param_derivatives_consistent jx_artifact /\ graphs_agree rp_graph jx_artifact /\ plain_values jx_artifact /\
  named_pairs jx_artifact /\ named_params jx_artifact /\ NoDup (map op_name (ar_outputs jx_artifact)) /\
  keeps_keys sx_hist /\ no_late sx_hist /\ all_on cpu sx_params /\ Forall (fun kt => wf (snd kt)) sx_params /\
  inputs_ok jx_artifact sx_in /\ renamed (boundary (ar_in jx_artifact)) sx_in sx_in' /\ contract 3 sx_in' /\ all_on cpu sx_in'.
Lemma jx_all_ok s : usable s -> Forall compiled_for (sd_devices s) -> jx_all s.
Proof.
  intros Us Cd. split; [apply jx_bundle|]. split; [exact Us|]. split; [exact Cd|]. split; [intros d Hd; apply jx_holds; rewrite Forall_forall in Cd; apply Cd, Hd|].
  split; [apply rp_consistent; lia|]. split; [apply rp_derivatives|]. split; [apply rp_derivatives|]. split; [apply rp_agree|]. split; [apply rp_plain|]. split; [apply jx_named|]. split; [apply jx_named|].
  split; [repeat constructor; intros []|]. split; [apply sx_keeps|]. split; [apply sx_no_late|]. split; [repeat constructor|]. split; [repeat constructor|].
  split; [apply jx_inputs|]. split; [apply sx_renamed|]. split; [apply sx_contract|]. repeat constructor.
Qed.
