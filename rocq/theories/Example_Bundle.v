(** A bundle for C70: the artifact of Example_Runtime.v and its stub below some directory. *)
From Coq Require Import String.
From Verif Require Import Load SpecLoad LoadProofs Example_Load.
From Verif Require Import Base Tensor TensorProofs SpecRename Float Krylov Example_Runtime Bundle SpecBundle BundleProofs.
Local Open Scope string_scope.
Local Open Scope list_scope.

Inductive bx := BStub | BMeta | BPkg (s : string).
Definition bx_json (c : bx) : result (json F) := match c with BMeta => Ok (write (rx_artifact 0 25)) | _ => Err (StdExn "parse_error") end.
Definition bx_open (c : bx) (d : device) : result unit := match c with BPkg _ => Ok tt | _ => Err (StdExn "not a package") end.
Definition bx_hit (c : bx) : result unit := match c with BStub => Ok tt | _ => Err (StdExn "syntax error") end.
Definition bx_find (h : unit) (s : string) : option unit := if String.eqb s "Models/m" then Some tt else None.
Definition bx_param (path : string) (n : unit) (k : string) : result (option string) :=
  Ok (if String.eqb k "type" then Some "AOTIModel" else if String.eqb k "artifact_path" then Some path else None).

(** m_aoti.i, m/metadata.json, m/cpu/float64/..., m/cuda/float64/... *)
Definition bx_leaf (k t : string) : bool := ((String.eqb k "cpu" || String.eqb k "cuda") && String.eqb t "float64")%bool.
Definition bx_tree (l : location) : option (node bx) :=
  match l with
  | [] => Some Dir
  | [x] => if String.eqb x "m_aoti.i" then Some (File BStub) else if String.eqb x "m" then Some Dir else None
  | [x; y] => if String.eqb x "m" then if String.eqb y "metadata.json" then Some (File BMeta)
                                       else if String.eqb y "cpu" || String.eqb y "cuda" then Some Dir else None
              else None
  | [x; y; z] => if String.eqb x "m" && bx_leaf y z then Some Dir else None
  | [x; y; z; s] => if String.eqb x "m" && bx_leaf y z && mem_name s rx_pkgs then Some (File (BPkg s)) else None
  | _ => None
  end.
(** The same below a directory. *)
Fixpoint under (b l : location) : option (node bx) :=
  match b, l with
  | [], _ => bx_tree l
  | _ :: _, [] => Some Dir
  | x :: b', y :: l' => if String.eqb x y then under b' l' else None
  end.
Lemma under_is b x : under b (b ++ x) = bx_tree x.
Proof. induction b as [|c b IH]; [reflexivity|]. cbn [app under]. rewrite String.eqb_refl. exact IH. Qed.
Lemma bx_tree_tree : tree bx_tree.
Proof.
  intros l c n. destruct l as [|x [|y [|z [|w [|v l]]]]]; cbn [app bx_tree]; intros E.
  - reflexivity.
  - destruct (String.eqb_spec x "m") as [->|]; [reflexivity|discriminate].
  - destruct (String.eqb x "m"); [|discriminate]. cbn [andb] in E. unfold bx_leaf in E.
    destruct (String.eqb_spec y "metadata.json") as [->|]; [discriminate|]. destruct (String.eqb y "cpu" || String.eqb y "cuda")%bool; [reflexivity|discriminate].
  - destruct (String.eqb x "m" && bx_leaf y z)%bool; [reflexivity|discriminate].
  - discriminate.
  - discriminate.
Qed.
Lemma under_tree b : tree (under b).
Proof.
  induction b as [|x b IH]; [exact bx_tree_tree|]. intros l c n. destruct l as [|y l]; [reflexivity|]. cbn [app under].
  destruct (String.eqb x y); [apply IH|discriminate].
Qed.
Lemma bx_plain s : mem_name s rx_pkgs = true -> plain s.
Proof.
  intros M. unfold mem_name in M. apply existsb_exists in M as (y & I & E). apply String.eqb_eq in E. subst y.
  assert (P : forallb (fun s => negb (String.eqb s "" || String.eqb s "." || String.eqb s ".." || match cut s with Some _ => true | None => false end)) rx_pkgs = true) by reflexivity.
  rewrite forallb_forall in P. specialize (P s I). apply negb_true_iff, orb_false_iff in P as [P1 P4]. apply orb_false_iff in P1 as [P1 P3]. apply orb_false_iff in P1 as [P1 P2].
  apply String.eqb_neq in P1, P2, P3. repeat split; try assumption. intros b a ->. clear - P4. induction b as [|x b IH].
  - cbn in P4. destruct (cut a) as [[]|]; discriminate.
  - cbn [append cut] in P4. apply IH. cbn [append] in *. destruct (cut (b ++ String "/" a)) as [[]|]; [discriminate|reflexivity].
Qed.
Lemma bx_holds b d : compiled_for d -> holds lx_kdef bx_json bx_open (under b) (b ++ ["m"]) (rx_artifact 0 25) d.
Proof.
  intros Cd. assert (K : (String.eqb (d_type d) "cpu" || String.eqb (d_type d) "cuda")%bool = true) by (destruct Cd as [->| ->]; reflexivity).
  split; [|split].
  - exists BMeta. rewrite <- app_assoc, under_is. split; reflexivity.
  - rewrite <- app_assoc, under_is. cbn [app bx_tree]. unfold bx_leaf. rewrite K. reflexivity.
  - apply (artifact_mono lx_kdef (opens rx_open)); [|apply rx_ok; lia]. intros s Es. unfold opens, rx_open in Es. destruct (mem_name s rx_pkgs) eqn:M; [|discriminate].
    split; [apply bx_plain, M|]. exists (BPkg s). unfold artifact_at. rewrite <- app_assoc, under_is. cbn [app bx_tree]. unfold bx_leaf. rewrite K, M. split; reflexivity.
Qed.
(** Two installations; in the second the stub names the directory by an absolute path. *)
Definition bx_home : location := ["home"; "u"; "aoti"].
Definition bx_opt : location := ["opt"].
Lemma bx_bundle_home : bundle bx_hit bx_find (bx_param "m") (under bx_home) ["home"; "u"] "../u//aoti/./m_aoti.i" "m" (bx_home ++ ["m"]).
Proof. split; [apply under_tree|]. exists bx_home, "m_aoti.i", BStub, "m". repeat split; try discriminate. exists tt, tt. repeat split. Qed.
Lemma bx_bundle_opt : bundle bx_hit bx_find (bx_param "/opt/m") (under bx_opt) [] "opt/m_aoti.i" "m" (bx_opt ++ ["m"]).
Proof. split; [apply under_tree|]. exists bx_opt, "m_aoti.i", BStub, "/opt/m". repeat split; try discriminate. exists tt, tt. repeat split. Qed.
