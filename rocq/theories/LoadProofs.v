(** Proofs about the loader (C60, C61). *)
From Coq Require Import String.
From Verif Require Import Base BaseProofs SpecMap SmapProofs Tensor SpecRename Rename RenameProofs Krylov Load SpecLoad.
Local Open Scope string_scope.
Local Open Scope list_scope.
Local Open Scope Z_scope.

Lemma i64_id z : i64_range z -> to_i64 z = z.
Proof. unfold i64_range, to_i64. intros H. rewrite Z.mod_small; lia. Qed.
Lemma i32_id z : i32_range z -> to_i32 z = z.
Proof. unfold i32_range, to_i32. intros H. rewrite Z.mod_small; lia. Qed.
Lemma u64_id z : u64_range z -> to_u64 z = z.
Proof. unfold u64_range, to_u64. intros H. apply Z.mod_small. lia. Qed.

Section Fields.
  Context {V : Type}.
  Notation js := (json V).

  (** Lookup in a written object. *)
  Fixpoint olookup (k : string) (l : list (string * option js)) : option js :=
    match l with
    | [] => None
    | (k', o) :: r => if String.eqb k k' then match o with Some v => Some v | None => olookup k r end else olookup k r
    end.
  Lemma lookup_app {T} k (a b : smap T) : lookup k (a ++ b) = match lookup k a with Some v => Some v | None => lookup k b end.
  Proof. induction a as [|[k' v] a IH]; [reflexivity|]. cbn. destruct (String.eqb k k'); [reflexivity|exact IH]. Qed.
  Lemma obj_lookup k l : lookup k (flat_map (fun kv : string * option js => match snd kv with Some v => [(fst kv, v)] | None => [] end) l) = olookup k l.
  Proof.
    induction l as [|[k' [v|]] l IH]; cbn; [reflexivity| |].
    - destruct (String.eqb k k'); [reflexivity|exact IH].
    - destruct (String.eqb k k'); exact IH.
  Qed.
  Lemma contains_obj l k : contains (obj l) k = match olookup k l with Some _ => true | None => false end.
  Proof. unfold contains, obj. rewrite obj_lookup. reflexivity. Qed.
  Lemma jat_obj l k : jat (obj l) k = match olookup k l with Some v => Ok v | None => Err (OtherExn 0) end.
  Proof. unfold jat, obj. rewrite obj_lookup. reflexivity. Qed.
  Lemma value_obj {A} (get : js -> result A) l k d : value get (obj l) k d = match olookup k l with Some v => get v | None => Ok d end.
  Proof. unfold value, obj. rewrite obj_lookup. reflexivity. Qed.
  Lemma field_obj {A} (get : js -> result A) l k d : field get (obj l) k d = match olookup k l with Some v => get v | None => Ok d end.
  Proof. unfold field. rewrite contains_obj, jat_obj. destruct (olookup k l); reflexivity. Qed.
  Lemma need_obj {A} (get : js -> result A) l k : need get (obj l) k = match olookup k l with Some v => get v | None => Err (OtherExn 0) end.
  Proof. unfold need. rewrite jat_obj. destruct (olookup k l); reflexivity. Qed.
  Lemma each_obj {A} (get : js -> result A) l k :
    each get (obj l) k = match olookup k l with Some v => mapM get (elems v) | None => Err (OtherExn 0) end.
  Proof. unfold each. rewrite jat_obj. destruct (olookup k l); reflexivity. Qed.
  Lemma each_opt_obj {A} (get : js -> result A) l k :
    each_opt get (obj l) k = match olookup k l with Some v => mapM get (elems v) | None => Ok [] end.
  Proof. unfold each_opt. rewrite contains_obj, each_obj. destruct (olookup k l); reflexivity. Qed.
  Lemma nonnull_obj l k d :
    read_nonnull (V:=V) (obj l) k d = match olookup k l with Some JNull => Ok d | Some v => get_str v | None => Ok d end.
  Proof. unfold read_nonnull. rewrite contains_obj, jat_obj. destruct (olookup k l) as [[]|]; reflexivity. Qed.

  Lemma mapM_inv {A} (get : js -> result A) (w : A -> js) (ok : A -> Prop) l :
    (forall x, ok x -> get (w x) = Ok x) -> Forall ok l -> mapM get (map w l) = Ok l.
  Proof. intros H F. induction F as [|x l Hx _ IH]; [reflexivity|]. cbn [map mapM]. rewrite (H x Hx). cbn [bind]. rewrite IH. reflexivity. Qed.
End Fields.

Ltac fetch := repeat first
  [ rewrite contains_obj | rewrite jat_obj | rewrite value_obj | rewrite field_obj | rewrite need_obj | rewrite each_obj
  | rewrite each_opt_obj | rewrite nonnull_obj ]; cbn [olookup String.eqb Ascii.eqb Bool.eqb].

Section Load.
  Context {V : Type}.
  Variable of_int : Z -> V.
  Variable trunc : V -> result Z.
  Variable cast : string -> V -> V.
  Variable open_pkg : string -> result unit.
  Variable sdef : sconfig V.
  Variable kdef : kconfig V.
  Notation js := (json V).
  Definition opens (s : string) : Prop := open_pkg s = Ok tt.

  Lemma shape_inv l : Forall i64_range l -> get_vec (get_i64 trunc) (w_ints (V:=V) l) = Ok l.
  Proof. unfold w_ints, get_vec. intros F. apply (mapM_inv _ _ i64_range); [|exact F]. intros z Hz. cbn [get_i64]. rewrite i64_id by exact Hz. reflexivity. Qed.
  Lemma strs_inv l : get_vec (get_str (V:=V)) (w_strs l) = Ok l.
  Proof. unfold w_strs, get_vec. apply (mapM_inv _ _ (fun _ => True)); [reflexivity|]. apply Forall_forall. auto. Qed.
  Lemma names_inv l : mapM (read_name (V:=V)) (elems (w_names l)) = Ok l.
  Proof.
    unfold w_names. cbn [elems]. apply (mapM_inv _ _ (fun _ => True)); [|apply Forall_forall; auto].
    intros x _. unfold read_name, w_name. fetch. reflexivity.
  Qed.
  Lemma i64_inv z : i64_range z -> get_i64 trunc (JInt z) = Ok z.
  Proof. intros H. cbn [get_i64]. rewrite i64_id by exact H. reflexivity. Qed.
  Lemma i32_inv z : i32_range z -> get_i32 trunc (JInt z) = Ok z.
  Proof. intros H. cbn [get_i32]. rewrite i32_id by exact H. reflexivity. Qed.
  Lemma u64_inv z : u64_range z -> get_u64 trunc (JInt z) = Ok z.
  Proof. intros H. cbn [get_u64]. rewrite u64_id by exact H. reflexivity. Qed.

  Lemma var_inv v : plain_var v -> read_var trunc (w_var v) = Ok v.
  Proof.
    intros ((S & F1 & F2) & R & P). unfold read_var, w_var, w_str. fetch. cbn [get_str bind]. rewrite (i32_inv _ S). cbn [bind].
    rewrite (shape_inv _ F1). cbn [bind]. rewrite (shape_inv _ F2). cbn [bind]. destruct v; cbn in *. congruence.
  Qed.
  Lemma given_inv v : var_ok v -> read_var trunc (w_given v) = Ok v.
  Proof.
    intros (S & F1 & F2). unfold read_var, w_given, w_str. fetch. cbn [get_str bind]. rewrite (i32_inv _ S). cbn [bind].
    rewrite (shape_inv _ F1). cbn [bind]. rewrite (shape_inv _ F2). cbn [bind]. destruct v as [nm sz sub base role pr]; cbn in *.
    destruct (String.eqb_spec pr "") as [->|N]; reflexivity.
  Qed.
  Lemma group_inv g : group_ok g -> read_group trunc (w_group g) = Ok g.
  Proof.
    intros (F1 & F2). unfold read_group, w_group, w_str. fetch. cbn [get_str bind]. rewrite (shape_inv _ F1). cbn [bind elems].
    rewrite (mapM_inv _ _ plain_var _ var_inv F2). cbn [bind]. destruct g; reflexivity.
  Qed.
  Lemma pair_inv b p : pair_ok b p -> read_pair trunc (w_pair b p) = Ok p.
  Proof.
    intros (F1 & F2 & F3 & O). unfold read_pair, w_pair, w_str. fetch. cbn [get_str bind]. rewrite (shape_inv _ F1). cbn [bind].
    rewrite (shape_inv _ F2). cbn [bind]. rewrite (shape_inv _ F3). cbn [bind get_bool]. destruct b; destruct O as [O1 O2].
    - rewrite (i64_inv _ O1). cbn [bind]. rewrite (i64_inv _ O2). cbn [bind]. destruct p; reflexivity.
    - cbn [bind]. destruct p; cbn in *. congruence.
  Qed.
  Lemma ppair_inv b p : ppair_ok b p -> read_ppair trunc (w_ppair b p) = Ok p.
  Proof.
    intros (F1 & F2 & O). unfold read_ppair, w_ppair, w_str. fetch. cbn [get_str bind]. rewrite (shape_inv _ F1). cbn [bind].
    rewrite (shape_inv _ F2). cbn [bind]. destruct b; destruct O as [O1 O2].
    - rewrite (i64_inv _ O1). cbn [bind]. rewrite (i64_inv _ O2). cbn [bind]. destruct p; reflexivity.
    - cbn [bind]. destruct p; cbn in *. congruence.
  Qed.

  Lemma krylov_inv b k : krylov_ok k -> (b = false -> k_cache k = CacheNone /\ k_cache_max_its k = k_cache_max_its kdef) ->
    read_krylov of_int trunc (w_krylov b k) kdef = Ok k.
  Proof.
    intros (R1 & R2 & R3) Hb. unfold read_krylov, w_krylov, w_str. fetch. cbn [get_str bind].
    assert (M : parse_method (w_method (k_method k)) = Some (k_method k)) by (destruct (k_method k); reflexivity). rewrite M. cbn [bind].
    destruct b.
    - cbn [get_str bind]. assert (C : parse_cache (w_cache (k_cache k)) = Some (k_cache k)) by (destruct (k_cache k); reflexivity). rewrite C. cbn [bind].
      rewrite (i64_inv _ R1). cbn [bind]. rewrite (i64_inv _ R2). cbn [bind get_f64]. rewrite (i64_inv _ R3). cbn [bind]. destruct k; reflexivity.
    - destruct (Hb eq_refl) as [C1 C2]. cbn [bind parse_cache String.eqb Ascii.eqb Bool.eqb].
      rewrite (i64_inv _ R1). cbn [bind]. rewrite (i64_inv _ R2). cbn [bind get_f64]. destruct k; cbn in *. congruence.
  Qed.

  Lemma pkg_obj l k s : olookup k l = Some (JStr s) -> opens s -> package open_pkg (obj (V:=V) l) k = Ok s.
  Proof. intros E O. unfold package. rewrite need_obj, E. cbn [get_str bind]. unfold opens in O. rewrite O. reflexivity. Qed.
  Lemma pkg_opt_obj l k o : olookup k l = w_pkg o -> (forall s, o = Some s -> opens s) -> package_opt open_pkg (obj (V:=V) l) k = Ok o.
  Proof.
    intros E O. unfold package_opt. rewrite contains_obj, E. destruct o as [s|]; [|reflexivity]. cbn [w_pkg option_map].
    rewrite (pkg_obj l k s E (O s eq_refl)). reflexivity.
  Qed.

  Lemma sens_obj l k (g : option string) kind kr : olookup k l = when g (w_sensitivity kind kr) ->
    sensitivity_ok kdef kind kr -> (g = None -> kind = "direct") -> read_sensitivity of_int trunc kdef (obj (V:=V) l) k = Ok (kind, kr).
  Proof.
    intros E S N. unfold read_sensitivity. rewrite contains_obj, jat_obj, E. destruct g as [s|]; cbn [when bind].
    - unfold w_sensitivity, w_str. fetch. cbn [get_str bind]. destruct S as [(-> & K & C1 & C2)|[-> ->]].
      + cbn [String.eqb Ascii.eqb Bool.eqb bind]. rewrite krylov_inv by (try exact K; auto). reflexivity.
      + reflexivity.
    - specialize (N eq_refl). subst kind. destruct S as [(D & _)|[_ ->]]; [discriminate|reflexivity].
  Qed.

  Lemma forward_inv ps f : forward_ok opens f -> read_forward trunc open_pkg (w_forward ps f) = Ok f.
  Proof.
    intros (O & F1 & F2 & N1 & N2 & N3). unfold read_forward, w_forward, w_str.
    assert (O' : forall s, In (Some s) [Some (fw_package f); fw_jvp f; fw_pjac f; fw_pvjp f] -> opens s) by exact O.
    rewrite (pkg_obj _ _ (fw_package f)); [|reflexivity|apply O'; cbn; auto]. cbn [bind].
    rewrite (pkg_opt_obj _ _ (fw_jvp f)); [|cbn; destruct (fw_jvp f); reflexivity|intros s E; apply O'; cbn; auto]. cbn [bind].
    fetch. rewrite !names_inv. cbn [bind].
    assert (P : match match when (fw_jvp f) (JArr (map (w_pair (V:=V) false) (fw_pairs f))) with Some v => Some v | None => None end with
                | Some v => mapM (read_pair trunc) (elems v) | None => Ok [] end = Ok (fw_pairs f)).
    { destruct (fw_jvp f); cbn [when elems]; [apply (mapM_inv _ _ (pair_ok false)); [intros; apply pair_inv; assumption|exact F1]|].
      rewrite N1 by reflexivity. reflexivity. }
    rewrite P. cbn [bind].
    rewrite (pkg_opt_obj _ _ (fw_pjac f)); [|cbn; destruct (fw_pjac f); reflexivity|intros s E; apply O'; cbn; auto]. cbn [bind].
    rewrite (pkg_opt_obj _ _ (fw_pvjp f)); [|cbn; destruct (fw_pvjp f); reflexivity|intros s E; apply O'; cbn; auto].
    assert (Q : match fw_pjac f with
                | Some _ => match match when (fw_pjac f) (JArr (map (w_ppair (V:=V) false) (fw_ppairs f))) with Some v => Some v | None => None end with
                            | Some v => mapM (read_ppair trunc) (elems v) | None => Err (OtherExn 0) end
                | None => Ok [] end = Ok (fw_ppairs f)).
    { destruct (fw_pjac f); cbn [when elems]; [apply (mapM_inv _ _ (ppair_ok false)); [intros; apply ppair_inv; assumption|exact F2]|].
      rewrite N2 by reflexivity. reflexivity. }
    rewrite Q. cbn [bind]. destruct (fw_pvjp f) as [s|] eqn:Ev; cbn [when].
    - rewrite !strs_inv. cbn [bind]. destruct f; cbn in *. congruence.
    - destruct (N3 eq_refl) as [E1 E2]. cbn [bind]. destruct f; cbn in *. congruence.
  Qed.

  Lemma mem_name_in x l : mem_name x l = true <-> In x l.
  Proof.
    unfold mem_name. rewrite existsb_exists. split.
    - intros (y & I & E). apply String.eqb_eq in E. subst y. exact I.
    - intros I. exists x. split; [exact I|apply String.eqb_refl].
  Qed.

  Lemma feedback_inv p f : feedback_ok p f -> i64_range (mf_iterations f) -> Forall i64_range (mf_sub f) -> Forall i64_range (mf_base f) ->
    read_feedback trunc (w_feedback f) (md_inputs p) (md_outputs p) = Ok f.
  Proof.
    intros (F1 & F2 & F3) R1 R2 R3. unfold read_feedback, w_feedback, w_str. fetch. cbn [get_str bind]. rewrite (i64_inv _ R1). cbn [bind].
    rewrite (shape_inv _ R2). cbn [bind]. rewrite (shape_inv _ R3). cbn [bind].
    rewrite (proj2 (Z.ltb_lt _ _) F1), (proj2 (mem_name_in _ _) F2), (proj2 (mem_name_in _ _) F3). cbn [assert_ bind]. destruct f; reflexivity.
  Qed.

  Lemma implicit_inv ps i : implicit_ok kdef opens i -> read_implicit of_int trunc open_pkg kdef (w_implicit ps i) = Ok i.
  Proof.
    intros (L & O & Nu & Fu & Fg & Fr & Gu & Gg & Gr & Pp & Pq & S1 & S2 & N1 & N2 & Pr). unfold read_implicit, w_implicit, w_str.
    assert (O' := O). unfold opens_all in O'. cbn [In] in O'.
    fetch. rewrite (i32_inv _ L). cbn [bind].
    rewrite (pkg_obj _ _ (im_residual i)); [|reflexivity|apply O'; auto]. cbn [bind].
    rewrite (pkg_opt_obj _ _ (im_jacobian i)); [|cbn; destruct (im_jacobian i); reflexivity|intros s E; apply O'; auto]. cbn [bind].
    rewrite (pkg_opt_obj _ _ (im_solve i)); [|cbn; destruct (im_solve i); reflexivity|intros s E; apply O'; auto]. cbn [bind].
    rewrite (pkg_opt_obj _ _ (im_matvec i)); [|cbn; destruct (im_matvec i); reflexivity|intros s E; apply O'; auto]. cbn [bind].
    match goal with |- context [bind (if match ?o with Some _ => true | None => false end then ?x else ?y) _] => assert (PC : (if match o with Some _ => true | None => false end then x else y) = Ok (im_precond i)) end.
    { destruct (im_precond i) as [[a b]|] eqn:Ec; cbn [option_map w_pkg fst snd]; [|reflexivity].
      rewrite (pkg_obj _ _ a); [|reflexivity|apply O'; cbn; auto 12]. cbn [bind].
      rewrite (pkg_obj _ _ b); [|reflexivity|apply O'; cbn; auto 12]. reflexivity. }
    rewrite PC. cbn [bind].
    rewrite (pkg_opt_obj _ _ (im_given i)); [|cbn; destruct (im_given i); reflexivity|intros s E; apply O'; auto 12]. cbn [bind].
    rewrite (pkg_opt_obj _ _ (im_solve_ift i)); [|cbn; destruct (im_solve_ift i); reflexivity|intros s E; apply O'; auto 12]. cbn [bind].
    rewrite (sens_obj _ _ (im_given i) (im_in_kind i) (im_in_krylov i)); [|cbn; destruct (im_given i); reflexivity|exact S1|intros E; apply N1, E]. cbn [bind elems].
    rewrite (mapM_inv _ _ plain_var _ var_inv Fu). cbn [bind]. rewrite (mapM_inv _ _ var_ok _ given_inv Fg). cbn [bind].
    rewrite (mapM_inv _ _ plain_var _ var_inv Fr). cbn [bind]. rewrite (mapM_inv _ _ group_ok _ group_inv Gu). cbn [bind].
    rewrite (mapM_inv _ _ group_ok _ group_inv Gg). cbn [bind]. rewrite (mapM_inv _ _ group_ok _ group_inv Gr). cbn [bind].
    match goal with |- context [bind (match ?o with Some v => mapM (read_pair trunc) (elems v) | None => Ok [] end) _] =>
      assert (E1 : match o with Some v => mapM (read_pair trunc) (elems v) | None => Ok [] end = Ok (im_pairs i)) end.
    { destruct (im_given i); cbn [when elems]; [apply (mapM_inv _ _ (pair_ok true)); [intros; apply pair_inv; assumption|exact Pp]|].
      rewrite (proj1 (N1 eq_refl)). reflexivity. }
    rewrite E1. cbn [bind].
    rewrite (pkg_opt_obj _ _ (im_drdp i)); [|cbn; destruct (im_drdp i); reflexivity|intros s E; apply O'; auto 12]. cbn [bind].
    rewrite (pkg_opt_obj _ _ (im_solve_param i)); [|cbn; destruct (im_solve_param i); reflexivity|intros s E; apply O'; auto 12]. cbn [bind].
    match goal with |- context [bind (match ?o with Some v => mapM (read_ppair trunc) (elems v) | None => Ok [] end) _] =>
      assert (E2 : match o with Some v => mapM (read_ppair trunc) (elems v) | None => Ok [] end = Ok (im_ppairs i)) end.
    { destruct (im_drdp i); cbn [when elems]; [apply (mapM_inv _ _ (ppair_ok true)); [intros; apply ppair_inv; assumption|exact Pq]|].
      rewrite (proj1 (N2 eq_refl)). reflexivity. }
    rewrite E2. cbn [bind].
    rewrite (sens_obj _ _ (im_drdp i) (im_par_kind i) (im_par_krylov i)); [|cbn; destruct (im_drdp i); reflexivity|exact S2|intros E; apply N2, E]. cbn [bind].
    assert (Eu : (match im_unknowns i with [] => true | _ => false end) = false) by (destruct (im_unknowns i); [contradiction|reflexivity]).
    rewrite Eu. cbn [negb assert_ bind].
    match goal with |- context [read_predictor trunc open_pkg ?x] => assert (EP : read_predictor trunc open_pkg x = Ok (im_predictor i)) end.
    { unfold read_predictor. fetch. destruct (im_predictor i) as [p|] eqn:Ep; cbn [option_map]; [|reflexivity].
      destruct Pr as (Op & Ps & Fb). rewrite (pkg_obj _ _ (md_package p)); [|reflexivity|exact Op]. cbn [bind]. rewrite !names_inv. cbn [bind].
      destruct (md_feedback p) as [f|] eqn:Ef; cbn [option_map bind].
      - destruct Fb as (B1 & B2 & B3 & B4). rewrite (feedback_inv p f B1 B2 B3 B4). cbn [bind]. destruct p; cbn in *. congruence.
      - destruct p; cbn in *. congruence. }
    rewrite EP. cbn [bind]. destruct i; reflexivity.
  Qed.

  Lemma segment_inv s : segment_ok kdef opens s -> read_segment of_int trunc open_pkg kdef (w_segment s) = Ok s.
  Proof.
    destruct s as [ps [f|i]]; unfold segment_ok, w_segment, read_segment; cbn [sg_kind sg_params]; intros H.
    - rewrite (forward_inv ps f H). unfold w_forward, w_str. fetch. cbn [get_str bind]. rewrite strs_inv. reflexivity.
    - rewrite (implicit_inv ps i H). unfold w_implicit, w_str. fetch. cbn [get_str bind]. rewrite strs_inv. reflexivity.
  Qed.

  Lemma solver_inv s : match snd s with Some k => krylov_ok k | None => True end -> u64_range (sc_miters (fst s)) -> u64_range (sc_ls_max_iters (fst s)) ->
    forall l, olookup "solver_config" l = Some (w_solver s) ->
    read_solver of_int trunc sdef kdef (obj l) =
      Ok (fst s, match snd s with Some _ => "krylov" | None => "direct" end, match snd s with Some k => k | None => kdef end).
  Proof.
    intros K M1 M2 l E. unfold read_solver. rewrite contains_obj, jat_obj, E. cbn [bind]. unfold w_solver, w_str. fetch. cbn [get_f64 bind].
    rewrite (u64_inv _ M1). cbn [bind get_str]. rewrite (u64_inv _ M2). cbn [bind]. destruct s as [c [k|]]; cbn [fst snd option_map] in *.
    - cbn [bind]. rewrite (krylov_inv true k K) by discriminate. cbn [bind]. destruct c; reflexivity.
    - cbn [bind]. destruct c; reflexivity.
  Qed.

  Lemma input_inv i : i32_range (ip_size i) /\ Forall i64_range (ip_base i) /\ Forall i64_range (ip_sub i) -> read_input trunc (w_input (V:=V) i) = Ok i.
  Proof.
    intros (S & F1 & F2). unfold read_input, w_input, w_str. fetch. cbn [get_str bind]. rewrite (i32_inv _ S). cbn [bind]. rewrite (shape_inv _ F1). cbn [bind].
    destruct i as [n s b [|x l]]; cbn [ip_sub ip_name ip_size ip_base] in *; [reflexivity|]. rewrite (shape_inv _ F2). reflexivity.
  Qed.
  Lemma output_inv o : i32_range (op_size o) /\ Forall i64_range (op_base o) -> read_output trunc (w_output (V:=V) o) = Ok o.
  Proof.
    intros (S & F1). unfold read_output, w_output, w_str. fetch. cbn [get_str bind]. rewrite (shape_inv _ F1). cbn [bind]. rewrite (i32_inv _ S). cbn [bind].
    destruct o; reflexivity.
  Qed.
  Lemma name_pairs_inv l : mapM (read_name_pair (V:=V)) (map w_name_pair l) = Ok l.
  Proof. apply (mapM_inv _ _ (fun _ => True)); [intros [a b] _; reflexivity|apply Forall_forall; auto]. Qed.

  (** A parameter as stored. *)
  Definition entry leaf d (p : aparam V) : string * stored V * list Z :=
    let dt := match ap_dtype p with Some s => s | None => leaf end in
    (ap_name p, (dt, mkT (ap_shape p) (map (cast dt) (ap_values p)) d), ap_base p).
  Lemma param_inv leaf d p : param_ok p -> read_param of_int trunc cast leaf d (w_param p) = Ok (entry leaf d p).
  Proof.
    intros (D & F1 & F2 & L). unfold read_param, w_param, w_str. fetch. cbn [get_str bind].
    match goal with |- context [bind (if match ?o with Some _ => true | None => false end then ?x else ?y) _] =>
      assert (ED : (if match o with Some _ => true | None => false end then x else y) = Ok (match ap_dtype p with Some s => s | None => leaf end)) end.
    { destruct (ap_dtype p) as [s|]; [|reflexivity]. cbn [w_pkg option_map get_str bind]. unfold parse_dtype.
      rewrite (proj2 (mem_name_in _ _) (D s eq_refl)). reflexivity. }
    rewrite ED. cbn [bind]. rewrite (shape_inv (map Z.of_nat (ap_shape p))) by (rewrite Forall_map; exact F1). cbn [bind].
    fetch. rewrite (shape_inv _ F2). cbn [bind].
    assert (EV : get_vec (get_f64 of_int) (JArr (map JNum (ap_values p))) = Ok (ap_values p)).
    { unfold get_vec. apply (mapM_inv _ _ (fun _ => True)); [reflexivity|apply Forall_forall; auto]. }
    rewrite EV. cbn [bind].
    assert (ER : resolve_shape (length (ap_values p)) (map Z.of_nat (ap_shape p)) = Ok (ap_shape p)).
    { unfold resolve_shape. assert (A : forallb (fun z => 0 <=? z) (map Z.of_nat (ap_shape p)) = true)
        by (apply forallb_forall; intros z I; apply in_map_iff in I as (n & <- & _); apply Z.leb_le; lia).
      rewrite A. assert (B : map Z.to_nat (map Z.of_nat (ap_shape p)) = ap_shape p)
        by (rewrite map_map; rewrite (map_ext _ (fun x => x)) by (intros; lia); apply map_id).
      rewrite B, L, Nat.eqb_refl. reflexivity. }
    rewrite ER. cbn [bind]. unfold entry. destruct p as [nm [s|] sh b vs]; reflexivity.
  Qed.

  Lemma offsets_sum l : forall o, (forall k x, nth_error (fst (offsets o l)) k = Some x -> x = o + sum_z (firstn k l)) /\
    snd (offsets o l) = o + sum_z l /\ length (fst (offsets o l)) = length l.
  Proof.
    induction l as [|s l IH]; intros o; cbn [offsets fst snd].
    - split; [intros [|k] x H; discriminate|]. cbn. split; [lia|reflexivity].
    - destruct (offsets (o + s) l) as [os t] eqn:E. destruct (IH (o + s)) as (I1 & I2 & I3). rewrite E in I1, I2, I3. cbn [fst snd] in *.
      split; [|split; [cbn [sum_z fold_right]; unfold sum_z in I2; lia|cbn [length]; congruence]].
      intros [|k] x H; cbn [nth_error firstn] in *; [injection H as <-; cbn; lia|]. apply I1 in H. cbn [sum_z fold_right]. unfold sum_z in H. lia.
  Qed.

  Lemma vmapM_renames m : vmapM (get_str (V:=V)) (map (fun kv => (fst kv, JStr (snd kv))) m) = Ok m.
  Proof. induction m as [|[k v] m IH]; [reflexivity|]. cbn [map fst snd vmapM get_str bind]. rewrite IH. reflexivity. Qed.
  Lemma renames_inv l k m : olookup k l = w_renames (V:=V) m -> read_renames (obj l) k = Ok m.
  Proof.
    intros E. unfold read_renames. rewrite contains_obj, jat_obj, E. destruct m as [|kv m]; [reflexivity|]. cbn [w_renames bind].
    apply vmapM_renames.
  Qed.
  Lemma aliases_inv l a : olookup "boundary_aliases" l = w_aliases (V:=V) a -> read_aliases (obj l) = Ok (load_tables (mkAliases (ar_in a) (ar_out a) (ar_par a))).
  Proof.
    intros E. unfold read_aliases. rewrite contains_obj, jat_obj, E. unfold w_aliases.
    assert (X : forall i o p, (let* ba := Ok (obj (V:=V) [("inputs", w_renames i); ("outputs", w_renames o); ("parameters", w_renames p)]) in
      let* i' := read_renames ba "inputs" in let* o' := read_renames ba "outputs" in let* p' := read_renames ba "parameters" in
      Ok (load_tables (mkAliases i' o' p'))) = Ok (load_tables (mkAliases i o p))).
    { intros i o p. cbn [bind]. rewrite (renames_inv _ _ i) by (cbn; destruct (w_renames i); reflexivity).
      cbn [bind]. rewrite (renames_inv _ _ o) by (cbn; destruct (w_renames o); reflexivity).
      cbn [bind]. rewrite (renames_inv _ _ p) by (cbn; destruct (w_renames p); reflexivity). reflexivity. }
    destruct (ar_in a), (ar_out a), (ar_par a); try apply X. reflexivity.
  Qed.

  (** Stored parameters. *)
  Lemma fold_emplace {T} (f : T -> string) (g : T -> stored V) l : forall acc n,
    sorted acc -> NoDup (map f l) -> (forall x, In x l -> lookup (f x) acc = None) ->
    lookup n (fold_left (fun m x => emplace (f x) (g x) m) l acc) =
      match find (fun x => String.eqb n (f x)) l with Some x => Some (g x) | None => lookup n acc end.
  Proof.
    induction l as [|x l IH]; intros acc n So ND F; [reflexivity|]. inversion ND as [|? ? Nx ND']; subst. cbn [fold_left find].
    rewrite IH; [|apply sorted_emplace; exact So|exact ND'|].
    - destruct (String.eqb_spec n (f x)) as [->|Hn].
      + destruct (find _ l) as [y|] eqn:E; [|rewrite lookup_emplace_same by exact So; rewrite F by (left; reflexivity); reflexivity].
        apply find_some in E as [I E]. apply String.eqb_eq in E. exfalso. apply Nx. rewrite E. apply in_map. exact I.
      + destruct (find _ l); [reflexivity|]. apply lookup_emplace_other. exact Hn.
    - intros y I. rewrite lookup_emplace_other; [apply F; right; exact I|]. intros E. apply Nx. rewrite <- E. apply in_map. exact I.
  Qed.
  Lemma fold_set_last {T U} (f : T -> string) (g : T -> U) l : forall acc n,
    NoDup (map f l) ->
    lookup n (fold_left (fun m x => set_ (f x) (g x) m) l acc) =
      match find (fun x => String.eqb n (f x)) l with Some x => Some (g x) | None => lookup n acc end.
  Proof.
    induction l as [|x l IH]; intros acc n ND; [reflexivity|]. inversion ND as [|? ? Nx ND']; subst. cbn [fold_left find].
    rewrite IH by exact ND'. destruct (String.eqb_spec n (f x)) as [->|Hn].
    - destruct (find _ l) as [y|] eqn:E; [|apply lookup_set_same].
      apply find_some in E as [I E]. apply String.eqb_eq in E. exfalso. apply Nx. rewrite E. apply in_map. exact I.
    - destruct (find _ l); [reflexivity|]. apply lookup_set_other. exact Hn.
  Qed.
  Lemma find_nodup {T} (f : T -> string) l x : NoDup (map f l) -> In x l -> find (fun y => String.eqb (f x) (f y)) l = Some x.
  Proof.
    induction l as [|y l IH]; intros ND I; [destruct I|]. inversion ND as [|? ? Ny ND']; subst. cbn [find].
    destruct I as [->|I]; [rewrite String.eqb_refl; reflexivity|].
    destruct (String.eqb_spec (f x) (f y)) as [E|_]; [exfalso; apply Ny; rewrite <- E; apply in_map; exact I|]. apply IH; assumption.
  Qed.
  Lemma table_lookup (m : smap string) k : NoDup (keys m) -> lookup k (fold_left (fun t kv => set_ (fst kv) (snd kv) t) m []) = lookup k m.
  Proof.
    intros ND. rewrite (fold_set_last (@fst string string) snd m [] k ND), find_lookup. destruct (lookup k m); reflexivity.
  Qed.
  Lemma param_boundary i o m n : NoDup (keys m) -> translate (param_o2e (load_tables (mkAliases i o m))) n = boundary m n.
  Proof. intros ND. apply o2e_translate. exact ND. Qed.

  Lemma load_write leaf d a : artifact_ok kdef opens a ->
    exists m, load of_int trunc cast open_pkg sdef kdef leaf d true (write a) = Ok m /\ faithful cast sdef kdef leaf d a m /\
      ld_tables m = load_tables (mkAliases (ar_in a) (ar_out a) (ar_par a)) /\ sorted (ld_named m) /\ sorted (ld_bases m) /\
      (forall n, lookup n (ld_bases m) = match find (fun p => String.eqb n (ap_name p)) (ar_params a) with Some p => Some (ap_base p) | None => None end).
  Proof.
    intros (Di & Do & Dp & Fi & Fo & Kd & Kp & Fp & Np & Nb & So & Fs).
    set (t := load_tables (mkAliases (ar_in a) (ar_out a) (ar_par a))).
    set (ps := map (entry leaf d) (ar_params a)).
    set (named := load_parameters t (map fst ps)).
    set (bases := fold_left (fun m p => set_ (fst (fst p)) (snd p) m) ps []).
    assert (Ln : forall n, lookup n named = match find (fun p => String.eqb n (boundary (ar_par a) (ap_name p))) (ar_params a) with
                                            | Some p => Some (snd (fst (entry leaf d p))) | None => None end).
    { intros n. unfold named, ps, load_parameters. rewrite map_map.
      assert (Fm : forall (l : list (aparam V)) acc, fold_left (fun m p => emplace (translate (param_o2e t) (fst p)) (snd p) m) (map (fun x => fst (entry leaf d x)) l) acc =
        fold_left (fun m p => emplace (boundary (ar_par a) (ap_name p)) (snd (fst (entry leaf d p))) m) l acc).
      { induction l as [|x l IH]; intros acc; [reflexivity|]. cbn [map fold_left]. rewrite IH.
        f_equal. unfold t. rewrite param_boundary by exact Dp. reflexivity. }
      rewrite Fm. rewrite (fold_emplace (fun p => boundary (ar_par a) (ap_name p)) (fun p => snd (fst (entry leaf d p)))) by (try exact Nb; try apply sorted_nil; reflexivity). reflexivity. }
    assert (Lb : forall n, lookup n bases = match find (fun p => String.eqb n (ap_name p)) (ar_params a) with Some p => Some (ap_base p) | None => None end).
    { intros n. unfold bases, ps.
      assert (Fm : forall (l : list (aparam V)) acc, fold_left (fun m p => set_ (fst (fst p)) (snd p) m) (map (entry leaf d) l) acc =
        fold_left (fun m p => set_ (ap_name p) (ap_base p) m) l acc).
      { induction l as [|x l IH]; intros acc; [reflexivity|]. cbn [map fold_left]. rewrite IH. reflexivity. }
      rewrite Fm, fold_set_last by exact Np. reflexivity. }
    assert (ES : read_solver of_int trunc sdef kdef (write a) =
      Ok (match ar_solver a with Some (s, _) => s | None => sdef end, match ar_solver a with Some (_, Some _) => "krylov" | _ => "direct" end,
          match ar_solver a with Some (_, Some k) => k | _ => kdef end)).
    { unfold write. destruct (ar_solver a) as [[s k]|] eqn:Es.
      - destruct So as (M1 & M2 & K). rewrite (solver_inv (s, k)); [|exact K|exact M1|exact M2|reflexivity]. destruct k; reflexivity.
      - unfold read_solver. rewrite contains_obj. cbn. destruct (w_aliases a); reflexivity. }
    destruct (offsets 0 (map ip_size (ar_inputs a))) as [offs total] eqn:Eo.
    exists (mkLd t (ar_inputs a) offs total (ar_outputs a) (ar_derivs a) (ar_pderivs a) named bases
      (match ar_solver a with Some (s, _) => s | None => sdef end) (match ar_solver a with Some (_, Some _) => "krylov" | _ => "direct" end)
      (match ar_solver a with Some (_, Some k) => k | _ => kdef end) (ar_segs a)).
    split.
    - unfold load. rewrite ES. unfold write, w_str. rewrite (aliases_inv _ a) by (cbn; destruct (w_aliases a); reflexivity). fetch.
      cbn [get_i32 bind get_str]. rewrite (i32_id 14) by (unfold i32_range; lia). cbn [assert_ bind Z.eqb Pos.eqb String.eqb Ascii.eqb Bool.eqb elems].
      rewrite (mapM_inv _ _ _ _ input_inv Fi). cbn [bind]. rewrite (mapM_inv _ _ _ _ output_inv Fo). cbn [bind].
      rewrite !name_pairs_inv. cbn [bind].
      assert (E1 : mapM (known_input (ar_inputs a)) (ar_derivs a) = Ok (map (fun _ => tt) (ar_derivs a))).
      { apply mapM_ok_map. intros [o i] I. destruct (Kd o i I) as (x & Ix & Ex). unfold known_input. cbn [snd].
        rewrite (proj2 (mem_name_in _ _)); [reflexivity|]. rewrite <- Ex. apply in_map. exact Ix. }
      rewrite E1. cbn [bind].
      assert (E2 : mapM (read_param of_int trunc cast leaf d) (map w_param (ar_params a)) = Ok ps).
      { rewrite mapM_map. apply mapM_ok_map. intros p I. apply param_inv. rewrite Forall_forall in Fp. apply Fp. exact I. }
      rewrite E2. cbn [bind]. fold t. cbv zeta. fold named. fold bases.
      assert (E3 : mapM (known_param t named bases) (ar_pderivs a) = Ok (map (fun _ => tt) (ar_pderivs a))).
      { apply mapM_ok_map. intros [o n] I. destruct (Kp o n I) as (x & Ix & Ex). unfold known_param. cbn [snd]. unfold t. rewrite param_boundary by exact Dp. fold t.
        rewrite Ln, Lb. subst n. rewrite (find_nodup (fun p => boundary (ar_par a) (ap_name p)) _ x Nb Ix), (find_nodup ap_name _ x Np Ix). reflexivity. }
      rewrite E3. cbn [bind items]. rewrite (mapM_inv _ _ _ _ segment_inv Fs). cbn [bind]. rewrite Eo. reflexivity.
    - split; [|split; [reflexivity|]; split; [|split; [|exact Lb]]].
      2: { cbn [ld_named]. unfold named, load_parameters. generalize (map fst ps). intros l. assert (Sn := @sorted_nil (stored V)). revert Sn. generalize (@nil (string * stored V)).
           induction l as [|p l IH]; intros acc Sa; [exact Sa|]. cbn [fold_left]. apply IH, sorted_emplace, Sa. }
      2: { cbn [ld_bases]. unfold bases. assert (Sn := @sorted_nil (list Z)). revert Sn. generalize (@nil (string * list Z)). generalize ps.
           intros l. induction l as [|p l IH]; intros acc Sa; [exact Sa|]. cbn [fold_left]. apply IH, sorted_set, Sa. }
      destruct (offsets_sum (map ip_size (ar_inputs a)) 0) as (O1 & O2 & O3). rewrite Eo in O1, O2, O3. cbn [fst snd] in O1, O2, O3.
      unfold faithful. cbn [ld_tables ld_inputs ld_outputs ld_derivs ld_pderivs ld_offsets ld_total ld_named ld_bases ld_cfg ld_solver ld_krylov ld_segs].
      split; [intros k; unfold t, load_tables; cbn [in_o2e al_in]; rewrite fst_load; apply table_lookup, Di|].
      split; [intros k; unfold t, load_tables; cbn [out_o2e al_out]; rewrite fst_load; apply table_lookup, Do|].
      split; [intros k; unfold t, load_tables; cbn [param_o2e al_param]; apply table_lookup, Dp|].
      repeat (split; [reflexivity|]). split; [rewrite O3; apply map_length|].
      split; [intros k o H; rewrite (O1 k o H), firstn_map; lia|]. split; [rewrite O2; lia|].
      split; [|split; [|repeat split; reflexivity]].
      + intros p I. rewrite Ln, Lb, (find_nodup (fun p => boundary (ar_par a) (ap_name p)) _ p Nb I), (find_nodup ap_name _ p Np I). split; reflexivity.
      + intros n H. rewrite Ln in H. destruct (find _ (ar_params a)) as [p|] eqn:E; [|contradiction]. apply find_some in E as [I E].
        apply String.eqb_eq in E. exists p. auto.
  Qed.

  (** ** Whatever loads is sound *)
  Lemma bind_ok {A B} (x : result A) (f : A -> result B) y : bind x f = Ok y -> exists a, x = Ok a /\ f a = Ok y.
  Proof. destruct x as [a|e]; [|discriminate]. intros H. exists a. auto. Qed.
  Lemma assert_ok c m x : assert_ c m = Ok x -> c = true.
  Proof. unfold assert_. destruct c; [reflexivity|discriminate]. Qed.

  Ltac step H := let a := fresh "v" in let E := fresh "E" in apply bind_ok in H as (a & E & H).

  Lemma mapM_all {A B} (f : A -> result B) (P : B -> Prop) l r : (forall x y, f x = Ok y -> P y) -> mapM f l = Ok r -> Forall P r.
  Proof.
    intros H. revert r. induction l as [|x l IH]; intros r E; cbn [mapM] in E; [injection E as <-; constructor|].
    step E. step E. injection E as <-. constructor; [eapply H; eassumption|apply IH; assumption].
  Qed.
  Lemma mapM_rel {A B} (f : A -> result B) (P : A -> B -> Prop) l r : (forall x y, f x = Ok y -> P x y) -> mapM f l = Ok r -> Forall2 P l r.
  Proof.
    intros H. revert r. induction l as [|x l IH]; intros r E; cbn [mapM] in E; [injection E as <-; constructor|].
    step E. step E. injection E as <-. constructor; [apply H; assumption|apply IH; assumption].
  Qed.
  Lemma mapM_each {A B} (f : A -> result B) l r x : mapM f l = Ok r -> In x l -> exists y, f x = Ok y.
  Proof.
    revert r. induction l as [|a l IH]; intros r E I; [destruct I|]. cbn [mapM] in E. step E. step E.
    destruct I as [<-|I]; [exists v; assumption|]. eapply IH; eassumption.
  Qed.

  Lemma package_opens j k s : package open_pkg (V:=V) j k = Ok s -> opens s.
  Proof. unfold package. intros H. step H. step H. injection H as <-. unfold opens. destruct v0. exact E0. Qed.
  Lemma package_opt_opens j k o : package_opt open_pkg (V:=V) j k = Ok o -> forall s, o = Some s -> opens s.
  Proof.
    unfold package_opt. destruct (contains j k); intros H s E; [|congruence]. step H. injection H as <-. injection E as <-.
    eapply package_opens. eassumption.
  Qed.

  Lemma predictor_sound j o : read_predictor trunc open_pkg (V:=V) j = Ok o ->
    (forall s, option_map md_package o = Some s -> opens s) /\ forall p f, o = Some p -> md_feedback p = Some f -> feedback_ok p f.
  Proof.
    unfold read_predictor. destruct (contains j "predictor_package"); intros H; [|injection H as <-; split; discriminate].
    step H. step H. step H. step H. step H. injection H as <-. split.
    - cbn. intros s Es. injection Es as <-. eapply package_opens. eassumption.
    - intros p f Ep Ef. injection Ep as <-. cbn [md_feedback] in Ef. subst v3. destruct (contains j "predictor_feedback"); [|discriminate].
      step E3. step E3. injection E3 as <-. unfold read_feedback in E5. step E5. step E5. step E5. step E5. step E5. step E5. step E5. step E5.
      injection E5 as <-. apply assert_ok in E10, E11, E12. unfold feedback_ok. cbn [mf_iterations mf_input mf_output md_inputs md_outputs].
      apply Z.ltb_lt in E10. apply mem_name_in in E11, E12. auto.
  Qed.

  Lemma precond_opens j o : (if contains j "precond_setup_package"
      then let* a := package open_pkg (V:=V) j "precond_setup_package" in let* b := package open_pkg j "precond_apply_package" in Ok (Some (a, b))
      else Ok None) = Ok o ->
    (forall s, option_map fst o = Some s -> opens s) /\ (forall s, option_map snd o = Some s -> opens s).
  Proof.
    destruct (contains j "precond_setup_package"); intros H; [|injection H as <-; split; discriminate]. step H. step H. injection H as <-.
    split; cbn; intros s Es; injection Es as <-; eapply package_opens; eassumption.
  Qed.
  Lemma opens_cons {P : string -> Prop} o l : (forall s, o = Some s -> P s) -> opens_all P l -> opens_all P (o :: l).
  Proof. intros H1 H2 s [E|I]; [apply H1; exact E|apply H2; exact I]. Qed.
  Lemma opens_nil {P : string -> Prop} : opens_all P [].
  Proof. intros s []. Qed.

  Lemma segment_reads j s : read_segment of_int trunc open_pkg kdef j = Ok s ->
    segment_sound opens s /\ exists os, j = JObj os /\
      lookup "kind" os = Some (JStr (match sg_kind s with MForward _ => "forward" | MImplicit _ => "implicit" end)).
  Proof.
    unfold read_segment. intros H. step H. step H.
    assert (K : exists os, j = JObj os /\ (v <> "" -> lookup "kind" os = Some (JStr v))).
    { unfold value in E. destruct j as [| | | | | |os]; try discriminate. exists os. split; [reflexivity|]. intros N.
      destruct (lookup "kind" os) as [x|]; [|injection E as <-; contradiction]. destruct x; try discriminate. injection E as <-. reflexivity. }
    destruct K as (os & -> & K). destruct (String.eqb_spec v "forward") as [->|N1]; [|destruct (String.eqb_spec v "implicit") as [->|N2]; [|discriminate]].
    - step H. injection H as <-. split; [|exists os; split; [reflexivity|apply K; discriminate]]. unfold segment_sound. cbn [sg_kind].
      unfold read_forward in E1. do 10 step E1. injection E1 as <-. cbn [fw_package fw_jvp fw_pjac fw_pvjp].
      repeat apply opens_cons; try apply opens_nil; try (eapply package_opt_opens; eassumption).
      intros s Es. injection Es as <-. eapply package_opens. eassumption.
    - step H. injection H as <-. split; [|exists os; split; [reflexivity|apply K; discriminate]]. unfold segment_sound. cbn [sg_kind].
      unfold read_implicit in E1. do 8 step E1. step E1. destruct v9 as [ik ikr]. do 10 step E1. step E1. destruct v19 as [pk pkr]. step E1. step E1.
      injection E1 as <-. cbn [im_residual im_jacobian im_solve im_matvec im_precond im_given im_solve_ift im_drdp im_solve_param im_predictor im_unknowns].
      match goal with X : read_predictor _ _ _ = _ |- _ => apply predictor_sound in X as [P1 P2] end. split; [|split].
      + match goal with X : (if contains _ "precond_setup_package" then _ else _) = _ |- _ => rename X into PC end.
        repeat apply opens_cons; try apply opens_nil; try (eapply package_opt_opens; eassumption); try exact P1.
        * intros s Es. injection Es as <-. eapply package_opens. eassumption.
        * apply (precond_opens _ _ PC).
        * apply (precond_opens _ _ PC).
      + match goal with X : assert_ (negb _) _ = _ |- _ => apply assert_ok in X; intros N; rewrite N in X; discriminate end.
      + exact P2.
  Qed.

  (** Settings. *)
  Lemma given_num o k d x : value (get_f64 of_int) (JObj o) k d = Ok x -> given (V:=V) o k is_num d x.
  Proof.
    unfold value, given, is_num. destruct (lookup k o) as [v|]; [|intros H; injection H as <-; reflexivity].
    intros H y ->. cbn in H. injection H as <-. reflexivity.
  Qed.
  Lemma given_i64 o k d x : value (get_i64 trunc) (JObj o) k d = Ok x -> given (V:=V) o k is_i64 d x.
  Proof.
    unfold value, given, is_i64. destruct (lookup k o) as [v|]; [|intros H; injection H as <-; reflexivity].
    intros H z -> R. cbn [get_i64] in H. rewrite i64_id in H by exact R. injection H as <-. reflexivity.
  Qed.
  Lemma given_u64 o k d x : value (get_u64 trunc) (JObj o) k d = Ok x -> given (V:=V) o k is_u64 d x.
  Proof.
    unfold value, given, is_u64. destruct (lookup k o) as [v|]; [|intros H; injection H as <-; reflexivity].
    intros H z -> R. cbn [get_u64] in H. rewrite u64_id in H by exact R. injection H as <-. reflexivity.
  Qed.
  Lemma given_str o k d x : value get_str (JObj o) k d = Ok x -> given (V:=V) o k is_str d x.
  Proof.
    unfold value, given, is_str. destruct (lookup k o) as [v|]; [|intros H; injection H as <-; reflexivity].
    intros H. destruct v; try discriminate. cbn in H. injection H as <-. reflexivity.
  Qed.
  Lemma read_krylov_given j d k : read_krylov of_int trunc j d = Ok k -> exists o, j = JObj (V:=V) o /\ krylov_settings o d k.
  Proof.
    unfold read_krylov. intros H. step H. destruct j as [| | | | | |o]; try discriminate. exists o. split; [reflexivity|]. do 8 step H. injection H as <-.
    unfold krylov_settings. cbn [k_method k_cache k_restart k_max_its k_abs_tol k_rel_tol k_cache_max_its].
    apply given_str in E, E1. apply given_i64 in E3, E4, E7. apply given_num in E5, E6.
    split; [|split; [|auto]].
    - unfold given, is_str, is_method in *. destruct (lookup "method" o) as [x|]; subst.
      + unfold parse_method in E0. destruct (String.eqb_spec v "gmres") as [->|_]; [injection E0 as <-; reflexivity|].
        destruct (String.eqb_spec v "bicgstab") as [->|_]; [injection E0 as <-; reflexivity|discriminate].
      + injection E0 as <-. reflexivity.
    - unfold given, is_str, is_cache in *. destruct (lookup "cache_strategy" o) as [x|]; subst.
      + unfold parse_cache in E2. destruct (String.eqb_spec v1 "none") as [->|_]; [injection E2 as <-; reflexivity|].
        destruct (String.eqb_spec v1 "chord") as [->|_]; [injection E2 as <-; reflexivity|].
        destruct (String.eqb_spec v1 "max_its") as [->|_]; [injection E2 as <-; reflexivity|discriminate].
      + injection E2 as <-. reflexivity.
  Qed.
  Lemma read_block_given o key (d k : kconfig V) :
    (if contains (JObj o) key then let* kc := jat (JObj o) key in read_krylov of_int trunc kc d else Ok d) = Ok k ->
    given o key (fun v k => exists ok, v = JObj ok /\ krylov_settings ok d k) d k.
  Proof.
    unfold given, contains, jat. destruct (lookup key o) as [v|]; cbn [bind]; [apply read_krylov_given|]. intros H. injection H as <-. reflexivity.
  Qed.
  Lemma read_solver_given o s kind k : read_solver of_int trunc sdef kdef (JObj o) = Ok (s, kind, k) ->
    match lookup "solver_config" o with
    | Some v => exists os, v = JObj os /\ solver_settings os sdef kdef s kind k
    | None => s = sdef /\ kind = "direct" /\ k = kdef
    end.
  Proof.
    unfold read_solver, contains at 1, jat at 1. destruct (lookup "solver_config" o) as [v|]; cbn [bind]; intros H; [|injection H as <- <- <-; auto].
    step H. destruct v as [| | | | | |os]; try discriminate. exists os. split; [reflexivity|]. do 9 step H. injection H as <- <- <-.
    unfold solver_settings. cbn [sc_atol sc_rtol sc_miters sc_ls_type sc_ls_max_iters sc_ls_cutback sc_ls_c sc_del_tol].
    repeat match goal with
      | X : value (get_f64 _) _ _ _ = _ |- _ => apply given_num in X
      | X : value (get_u64 _) _ _ _ = _ |- _ => apply given_u64 in X
      | X : value get_str _ _ _ = _ |- _ => apply given_str in X
      end.
    match goal with X : (if contains _ _ then _ else _) = _ |- _ => apply read_block_given in X end.
    repeat split; assumption.
  Qed.
  Lemma read_sensitivity_given o key kind (k : kconfig V) : read_sensitivity of_int trunc kdef (JObj o) key = Ok (kind, k) ->
    given o key (fun v p => exists ov, v = JObj ov /\ given ov "kind" is_str "direct" (fst p) /\
      given ov "krylov" (fun w k => exists ok, w = JObj ok /\ krylov_settings ok kdef k) kdef (snd p)) ("direct", kdef) (kind, k).
  Proof.
    unfold read_sensitivity, given at 1, contains at 1, jat at 1. destruct (lookup key o) as [v|]; cbn [bind]; intros H; [|injection H as <- <-; auto].
    step H. destruct v as [| | | | | |ov]; try discriminate. exists ov. split; [reflexivity|]. step H. injection H as <- <-. cbn [fst snd].
    split; [apply given_str; assumption|apply read_block_given; assumption].
  Qed.

  Lemma resolve_numel n sh s : resolve_shape n sh = Ok s -> n = numel s.
  Proof.
    unfold resolve_shape. destruct (forallb _ sh) eqn:A.
    - destruct (Nat.eqb_spec (numel (map Z.to_nat sh)) n) as [<-|]; [|discriminate]. intros H. injection H as <-. reflexivity.
    - destruct (forallb (fun z => -1 <=? z) sh) eqn:B; [|discriminate]. cbn [andb].
      destruct (Nat.eqb_spec (length (filter (fun z => z <? 0) sh)) 1) as [L|]; [|discriminate]. cbn [andb].
      set (rest := numel (map Z.to_nat (filter (fun z => 0 <=? z) sh))).
      destruct (Nat.eqb_spec rest 0) as [|R]; [discriminate|]. cbn [negb andb].
      destruct (Nat.eqb_spec (n mod rest) 0) as [M|]; [|discriminate]. intros H. injection H as <-.
      assert (G0 : forall q l, length (filter (fun z => z <? 0) l) = 0%nat ->
        numel (map (fun z => if z <? 0 then q else Z.to_nat z) l) = numel (map Z.to_nat (filter (fun z => 0 <=? z) l))).
      { intros q l. induction l as [|z l IH]; intros E; [reflexivity|]. cbn [map filter] in *. destruct (Z.ltb_spec z 0); [discriminate|].
        destruct (Z.leb_spec 0 z); [|lia]. cbn [map numel fold_right]. unfold numel in IH |- *. cbn [fold_right]. rewrite IH by exact E. reflexivity. }
      assert (G1 : forall q l, length (filter (fun z => z <? 0) l) = 1%nat ->
        numel (map (fun z => if z <? 0 then q else Z.to_nat z) l) = (q * numel (map Z.to_nat (filter (fun z => 0%Z <=? z)%Z l)))%nat).
      { intros q l. induction l as [|z l IH]; intros E; [discriminate|]. cbn [map filter] in *. destruct (Z.ltb_spec z 0).
        - cbn [length] in E. injection E as E. destruct (Z.leb_spec 0 z); [lia|]. unfold numel in G0 |- *. cbn [fold_right]. rewrite G0 by exact E. reflexivity.
        - destruct (Z.leb_spec 0 z); [|lia]. unfold numel in IH |- *. cbn [map fold_right]. rewrite IH by exact E. lia. }
      rewrite (G1 (n / rest)%nat sh L). fold rest. pose proof (Nat.div_mod n rest R). lia.
  Qed.
  Lemma param_numel leaf d j nm dt t b : read_param of_int trunc cast leaf d j = Ok (nm, (dt, t), b) -> length (t_data t) = numel (t_shape t).
  Proof.
    unfold read_param. intros H. do 4 step H. destruct (contains j "values"); [|discriminate]. step H. step H. injection H as <- <- <- <-.
    cbn [t_data t_shape]. rewrite map_length. apply resolve_numel in E4. exact E4.
  Qed.
  Lemma fold_emplace_in (f : string * stored V -> string) l : forall acc n x,
    sorted acc ->
    lookup n (fold_left (fun m p => emplace (f p) (snd p) m) l acc) = Some x -> lookup n acc = Some x \/ exists p, In p l /\ snd p = x.
  Proof.
    induction l as [|p l IH]; intros acc n x Sa H; [left; exact H|]. cbn [fold_left] in H. apply IH in H as [H|(q & I & E)]; [|right; exists q; cbn; auto|apply sorted_emplace; exact Sa].
    destruct (String.eqb_spec n (f p)) as [->|N].
    - rewrite lookup_emplace_same in H by exact Sa. destruct (lookup (f p) acc); [left; exact H|]. right. exists p. cbn. split; [auto|congruence].
    - rewrite lookup_emplace_other in H by exact N. left. exact H.
  Qed.

  Lemma load_sound leaf d ex meta m : load of_int trunc cast open_pkg sdef kdef leaf d ex meta = Ok m ->
    loaded_sound opens m /\ metadata_sound meta m /\ ex = true /\ (exists o, meta = JObj o /\ settings o sdef kdef m).
  Proof.
    unfold load. intros H. step H. step H. step H. step H. step H.
    do 5 step H. step H. step H. cbv zeta in H. step H. step H. destruct v12 as [[sc kind] kr]. step H. step H. step H.
    destruct (offsets 0 (map ip_size v5)) as [offs total] eqn:Eo. injection H as <-.
    apply assert_ok in E0, E2, E3. apply Z.eqb_eq in E0. apply String.eqb_eq in E2. subst v v1 ex.
    destruct meta as [| | | | | |o]; try discriminate.
    destruct (offsets_sum (map ip_size v5) 0) as (O1 & O2 & O3). rewrite Eo in O1, O2, O3. cbn [fst snd] in O1, O2, O3.
    assert (FS : Forall2 (fun j s => segment_sound opens s /\ exists os, j = JObj os /\
        lookup "kind" os = Some (JStr (match sg_kind s with MForward _ => "forward" | MImplicit _ => "implicit" end))) v13 v14)
      by (eapply mapM_rel; [apply segment_reads|eassumption]).
    split; [|split; [|split; [reflexivity|]]].
    - unfold loaded_sound. cbn [ld_segs ld_offsets ld_inputs ld_total ld_derivs ld_pderivs ld_tables ld_named ld_bases].
      split; [clear - FS; induction FS as [|j s l l' [X _] _ IH]; constructor; assumption|].
      split; [rewrite O3; apply map_length|]. split; [intros k z Hk; rewrite (O1 k z Hk), firstn_map; lia|]. split; [rewrite O2; lia|].
      split; [|split].
      + intros a b I. match goal with X : mapM (known_input _) _ = _ |- _ => destruct (mapM_each _ _ _ _ X I) as (y & Ey) end.
        unfold known_input in Ey. cbn [snd] in Ey. destruct (mem_name b _) eqn:Em; [|discriminate]. apply mem_name_in in Em. apply in_map_iff in Em as (x & Ex & Ix). exists x. auto.
      + intros a b I. match goal with X : mapM (known_param _ _ _) _ = _ |- _ => destruct (mapM_each _ _ _ _ X I) as (y & Ey) end.
        unfold known_param, translate in Ey. cbn [snd] in Ey. step Ey. destruct (lookup _ (load_parameters _ _)); [|discriminate].
        destruct (lookup b _); [|discriminate]. split; discriminate.
      + intros n dt t Hn. unfold load_parameters in Hn. apply fold_emplace_in in Hn as [Hn|(p & I & Ep)]; [discriminate|apply in_map_iff in I as ([p' b'] & Ep' & I)|apply sorted_nil].
        cbn [fst] in Ep'. subst p'. match goal with X : each_opt (read_param _ _ _ _ _) _ _ = _ |- _ => rename X into EP end.
        unfold each_opt, each in EP. destruct (contains (JObj o) "parameters"); [|injection EP as <-; destruct I]. step EP.
        assert (FP : Forall (fun p => length (t_data (snd (snd (fst p)))) = numel (t_shape (snd (snd (fst p))))) v10)
          by (eapply mapM_all; [|exact EP]; intros x [[nm [dt' t']] b] Hx; apply param_numel in Hx; exact Hx).
        rewrite Forall_forall in FP. apply FP in I. destruct p as [nm s]. cbn in Ep. subst s. exact I.
    - exists o. split; [reflexivity|]. split; [|split].
      + unfold value in E. destruct (lookup "schema_version" o) as [x|]; [|discriminate]. exists x. split; [reflexivity|].
        intros z -> R. cbn [get_i32] in E. rewrite i32_id in E by exact R. congruence.
      + unfold value in E1. destruct (lookup "type" o) as [x|]; [|discriminate]. destruct x; try discriminate. injection E1 as ->. reflexivity.
      + intros l El. cbn [ld_segs].
        match goal with X : jat (JObj o) "segments" = _ |- _ => unfold jat in X; rewrite El in X; injection X as <- end.
        match goal with X : items (JArr l) = _ |- _ => cbn [items] in X; injection X as <- end.
        clear - FS. induction FS as [|j s l l' [_ X] _ IH]; constructor; assumption.
    - exists o. split; [reflexivity|]. unfold settings. cbn [ld_cfg ld_solver ld_krylov fst snd]. apply read_solver_given. assumption.
  Qed.

  Lemma implicit_sensitivities o i : read_implicit of_int trunc open_pkg kdef (JObj o) = Ok i ->
    let block k v := given o k (fun v p => exists ov, v = JObj ov /\ given ov "kind" is_str "direct" (fst p) /\
      given ov "krylov" (fun w k => exists ok, w = JObj ok /\ krylov_settings ok kdef k) kdef (snd p)) ("direct", kdef) v in
    block "input_sensitivity" (im_in_kind i, im_in_krylov i) /\ block "param_sensitivity" (im_par_kind i, im_par_krylov i).
  Proof.
    unfold read_implicit. intros E1. do 8 step E1. step E1. destruct v7 as [ik ikr]. do 10 step E1. step E1.
    repeat match goal with p : string * kconfig V |- _ => destruct p end. step E1. step E1. injection E1 as <-. cbn zeta.
    cbn [im_in_kind im_in_krylov im_par_kind im_par_krylov].
    split; apply read_sensitivity_given; assumption.
  Qed.

  Lemma load_params_reads leaf d ex o m ps : load of_int trunc cast open_pkg sdef kdef leaf d ex (JObj o) = Ok m ->
    lookup "parameters" o = Some (JArr ps) -> forall p, In p ps -> exists r, read_param of_int trunc cast leaf d p = Ok r.
  Proof.
    unfold load. intros H L p I. do 12 step H. clear H.
    match goal with X : each_opt (read_param _ _ _ _ _) _ _ = _ |- _ => rename X into EP end.
    unfold each_opt, each, contains, jat in EP. rewrite L in EP. cbn [bind elems] in EP. eapply mapM_each; eassumption.
  Qed.
  Lemma param_values leaf d p r : read_param of_int trunc cast leaf d p = Ok r -> exists op vs, p = JObj op /\ lookup "values" op = Some (JArr vs).
  Proof.
    unfold read_param. intros H. do 4 step H. destruct (contains p "values") eqn:C; [|discriminate]. step H. clear H.
    destruct p as [| | | | | |op]; try discriminate. exists op. unfold need, jat in E3. destruct (lookup "values" op) as [x|]; [|discriminate].
    cbn [bind] in E3. destruct x; try discriminate. eauto.
  Qed.
End Load.
