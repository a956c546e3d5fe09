(** The segment of Example_Substep in exact arithmetic, with its derivative graphs: the residual is
    s - s~1 - (f - f~1)^2, and a solve converges when the force changes by at most p. *)
From Coq Require Import QArith Qcanon.
From Verif Require Import Base BaseProofs SpecMap SmapProofs Tensor Spec TensorProofs Broadcast SpecBroadcast BroadcastProofs Pack SpecPack PackProofs Implicit ImplicitProofs Substep SpecSubstep
     RowTableProofs SpecDyadic Mat Jac SubstepJac JacModel SpecJac MatProofs SpecAlgebra SpecSubstepJac Example_Substep.
Local Close Scope Q_scope.
Local Open Scope string_scope.

Definition q0 : Qc := Q2Qc 0.
Definition qat (t : tensor Qc) (k : nat) : Qc := nth k (t_data t) q0.
Definition qcol (sh : list nat) (n : nat) (d : device) (f : nat -> Qc) : tensor Qc := mkT (n :: sh) (map f (seq 0 n)) d.
Definition rows_in (t : tensor Qc) : nat := length (t_data t).

Definition qx_next (f f1 s : Qc) : Qc := Qcplus s (Qcmult (Qcminus f f1) (Qcminus f f1)).
Definition qx_near (f f1 p : Qc) : bool := Qle_bool (this (Qcminus f f1)) (this p) && Qle_bool (this (Qcminus f1 f)) (this p).
Definition qx_row (rows : list (list Qc)) : list (list Qc) * bool :=
  match rows with
  | [[f]; [f1]; [s]; [p]] => ([[qx_next f f1 s]], qx_near f f1 p)
  | _ => ([], false)
  end.
Definition qx_solve (gs ps us : list (tensor Qc)) : result (list (tensor Qc) * list bool) :=
  match gs with
  | [f; f1; s; p] =>
      Ok ([qcol [1] (rows_in f) (t_dev f) (fun k => qx_next (qat f k) (qat f1 k) (qat s k))],
          map (fun k => qx_near (qat f k) (qat f1 k) (qat p k)) (seq 0 (rows_in f)))
  | _ => Err (StdExn "arguments")
  end.
(** ds/df = 2 (f - f~1), ds/df~1 = - 2 (f - f~1), ds/ds~1 = 1. *)
Definition qx_slope (gs us : list (list Qc)) (u : string) (r : nat) (g : string) (y : nat) : Qc :=
  match gs with
  | [[f]; [f1]; _; _] =>
      if String.eqb g "f" then Qcplus (Qcminus f f1) (Qcminus f f1)
      else if String.eqb g "f~1" then Qcopp (Qcplus (Qcminus f f1) (Qcminus f f1))
      else Q2Qc 1
  | _ => q0
  end.
Definition qx_var (n : string) : var_info := mkVar n [] [1].
Definition qx_single (n : string) : group_info := mkGroup "dense" [] [qx_var n].
Definition qx_pgroup : group_info := mkGroup "dense" [] [mkVar "p" [1] []].
Definition qx_iseg : iseg Qc :=
  mkIseg sx_givens sx_unknowns [qx_single "f"; qx_single "f~1"; qx_single "s~1"; qx_pgroup] [qx_single "s"] [] None
         (fun gs ps us => rmap fst (qx_solve gs ps us)) qx_solve.
(** dr/ds, the blocks of dr/dg, and the sensitivities from them. *)
Definition qx_jac (l : list (tensor Qc)) : result (list (tensor Qc)) :=
  match l with
  | [s; f; f1; s1; p] => Ok [qcol [1; 1] (rows_in s) (t_dev s) (fun _ => Q2Qc 1)]
  | _ => Err (StdExn "arguments")
  end.
Definition qx_given (l : list (tensor Qc)) : result (list (tensor Qc)) :=
  match l with
  | [s; f; f1; s1; p] =>
      let twice k := Qcplus (Qcminus (qat f k) (qat f1 k)) (Qcminus (qat f k) (qat f1 k)) in
      Ok [qcol [1; 1] (rows_in s) (t_dev s) (fun k => Qcopp (twice k)); qcol [1; 1] (rows_in s) (t_dev s) twice;
          qcol [1; 1] (rows_in s) (t_dev s) (fun _ => Qcopp (Q2Qc 1))]
  | _ => Err (StdExn "arguments")
  end.
Definition qx_sens (l : list (tensor Qc)) : result (list (tensor Qc)) :=
  match l with
  | a :: bs => Ok (map (fun b => mkT (t_shape b) (map Qcopp (t_data b)) (t_dev b)) bs)
  | _ => Err (StdExn "arguments")
  end.
Definition qx_imp : jimp Qc :=
  mkJI qx_iseg 1 qx_jac (Some qx_given) (Compiled qx_sens)
       [mkPair "s" "f" [1] [1] [] false 0 0; mkPair "s" "f~1" [1] [1] [] false 0 1; mkPair "s" "s~1" [1] [1] [] false 0 2] 2.
Definition qx_par (n : string) : result (tensor Qc) := Err (Fatal "no parameters").
Definition qx_size (n : string) : nat := 1.

Section Facts.
  Variable d : device.

  Lemma qx_row_of n t k : rowsof d n [1] t -> k < n -> row t k = [qat t k].
  Proof.
    intros R H. pose proof (rowsof_row_length d n [1] t k R H) as L. destruct R as [W [_ S]]. unfold row, qat in *. rewrite S in *.
    cbn [tl numel fold_right Nat.mul Nat.add] in *. rewrite Nat.mul_1_r in *.
    assert (Hk : k < length (t_data t)) by (unfold wf in W; rewrite W, S; cbn; lia).
    clear - Hk. revert k Hk. induction (t_data t) as [|x l IH]; intros k Hk; [cbn in Hk; lia|]. destruct k as [|k]; [reflexivity|]. cbn [skipn nth]. apply IH. cbn in Hk. lia.
  Qed.
  Lemma qx_rows_in n t : rowsof d n [1] t -> rows_in t = n.
  Proof. intros R. unfold rows_in. rewrite (rowsof_len d n [1] t R). cbn. lia. Qed.
  Lemma qcol_rows n sh f : numel sh = 1 -> rowsof d n sh (qcol sh n d f).
  Proof. intros H. split; [|split; reflexivity]. unfold wf, qcol. cbn [t_data t_shape numel fold_right]. fold (numel sh). rewrite map_length, seq_length, H. lia. Qed.
  Lemma qcol_at n sh f k : k < n -> qat (qcol sh n d f) k = f k.
  Proof.
    intros H. unfold qat, qcol. cbn [t_data]. rewrite (nth_indep _ _ (f 0)) by (rewrite map_length, seq_length; exact H). rewrite map_nth, seq_nth by exact H. reflexivity.
  Qed.

  (** A group of one variable with one component is that variable. *)
  Lemma pack_single n (st : smap (tensor Qc)) v t : trailing v = [1] -> lookup (v_name v) st = Some t -> rowsof d n [1] t ->
    pack_group st (mkGroup "dense" [] [v]) = Ok t.
  Proof.
    intros Tv L R. pose proof R as [W [D S]].
    assert (G : group_ok (mkGroup "dense" [] [v])) by (split; [discriminate|intros E; discriminate E]).
    assert (Dc : declared [n] d v t) by (split; [exact W|split; [exact D|]]; rewrite S; cbn [app]; unfold trailing in Tv; rewrite Tv; reflexivity).
    unfold pack_group. cbn [g_vars mapM]. rewrite (pack_var_ok (mkGroup "dense" [] [v]) st v [n] d t G (or_introl eq_refl) L Dc). cbn [bind length Nat.eqb negb assert_].
    destruct (flat_part (mkGroup "dense" [] [v]) [n] d t v G (or_introl eq_refl) Dc) as [P Wd].
    rewrite (cat_last_parts [n] d) by first [discriminate | constructor; [exact P|constructor]]. f_equal.
    assert (C : columns (mkGroup "dense" [] [v]) v = 1) by (unfold columns; cbn; unfold trailing in Tv; rewrite Tv; reflexivity).
    assert (Ft : flat (mkGroup "dense" [] [v]) [n] t v = t).
    { unfold flat. rewrite C. cbn [axes app]. rewrite <- (mkT_eta t) at 3. rewrite S. reflexivity. }
    rewrite Ft in *. replace [t] with (pieces [n] d t 0 [1]) at 1.
    - apply joined_pieces; [exact P|]. rewrite Wd, C. reflexivity.
    - cbn [pieces]. f_equal. unfold piece. rewrite Wd, C.
      replace (flat_map _ _) with (t_data t); [rewrite <- (mkT_eta t) at 2; rewrite S, D; reflexivity|]. symmetry.
      erewrite flat_map_ext_seq; [apply (row_all 1 (numel [n]))|].
      + unfold wf in W. rewrite W, S. cbn. lia.
      + intros k Hk. cbn [skipn]. apply firstn_all2. unfold row_data. rewrite firstn_length. lia.
  Qed.
  Lemma unpack_single n (st : smap (tensor Qc)) v t : trailing v = [1] -> rowsof d n [1] t ->
    unpack_group (mkGroup "dense" [] [v]) t st = Ok (set_ (v_name v) t st).
  Proof.
    intros Tv R. pose proof R as [W [D S]].
    assert (G : group_ok (mkGroup "dense" [] [v])) by (split; [discriminate|intros E; discriminate E]).
    assert (C : columns (mkGroup "dense" [] [v]) v = 1) by (unfold columns; cbn; unfold trailing in Tv; rewrite Tv; reflexivity).
    assert (P : part [n] d t) by (split; [exact W|split; [exact D|]]; unfold width; rewrite S; reflexivity).
    unfold unpack_group. cbn [is_block g_structure g_sub String.eqb Ascii.eqb Bool.eqb]. unfold dim. rewrite S. cbn [length Nat.leb assert_ bind Nat.sub firstn].
    unfold unpack_group, unpack_vars. cbn [g_vars]. rewrite segment_columns, C, (narrow_piece [n] d t 0 1 P) by (unfold width; rewrite S; cbn; lia). cbn [bind].
    replace (piece [n] d t 0 1) with t.
    - unfold reshape. unfold trailing in Tv. rewrite Tv, S, Nat.eqb_refl. cbn [app bind]. do 2 f_equal. rewrite <- (mkT_eta t) at 3. rewrite S. reflexivity.
    - unfold piece. rewrite <- (mkT_eta t) at 1. rewrite S, D. cbn [app]. f_equal. unfold width. rewrite S. cbn [last]. symmetry.
      erewrite flat_map_ext_seq; [apply (row_all 1 (numel [n]))|].
      + unfold wf in W. rewrite W, S. cbn. lia.
      + intros k Hk. cbn [skipn]. apply firstn_all2. unfold row_data. rewrite firstn_length. lia.
  Qed.

  Lemma qx_given_rows n ks (m : smap (tensor Qc)) : table d n ks m -> (forall g, In g sx_givens -> lookup (given_name g) ks = Some (trailing (gv_var g))) ->
    exists f f1 s p,
    lookup "f" m = Some f /\ lookup "f~1" m = Some f1 /\ lookup "s~1" m = Some s /\ lookup "p" m = Some p /\
    rowsof d n [1] f /\ rowsof d n [1] f1 /\ rowsof d n [1] s /\ rowsof d n [1] p /\
    forall k, k < n -> rows_of_names m (given_names sx_givens) k = [[qat f k]; [qat f1 k]; [qat s k]; [qat p k]].
  Proof.
    intros T K.
    destruct (table_get d n ks m "f" [1] T (K _ (or_introl eq_refl))) as [f [Lf Rf]].
    destruct (table_get d n ks m "f~1" [1] T (K _ (or_intror (or_introl eq_refl)))) as [f1 [Lf1 Rf1]].
    destruct (table_get d n ks m "s~1" [1] T (K _ (or_intror (or_intror (or_introl eq_refl))))) as [s [Ls Rs]].
    destruct (table_get d n ks m "p" [1] T (K _ (or_intror (or_intror (or_intror (or_introl eq_refl)))))) as [p [Lp Rp]].
    exists f, f1, s, p. split; [exact Lf|]. split; [exact Lf1|]. split; [exact Ls|]. split; [exact Lp|].
    split; [exact Rf|]. split; [exact Rf1|]. split; [exact Rs|]. split; [exact Rp|].
    intros k Hk. unfold rows_of_names, given_names. cbn [map sx_givens given_name gv_var v_name]. unfold val. rewrite Lf, Lf1, Ls, Lp.
    rewrite (qx_row_of n f k Rf Hk), (qx_row_of n f1 k Rf1 Hk), (qx_row_of n s k Rs Hk), (qx_row_of n p k Rp Hk). reflexivity.
  Qed.
  Lemma pack_givens n (m : smap (tensor Qc)) f f1 s p :
    lookup "f" m = Some f -> lookup "f~1" m = Some f1 -> lookup "s~1" m = Some s -> lookup "p" m = Some p ->
    rowsof d n [1] f -> rowsof d n [1] f1 -> rowsof d n [1] s -> rowsof d n [1] p ->
    pack_groups m (is_given_groups qx_iseg) = Ok [f; f1; s; p].
  Proof.
    intros Lf Lf1 Ls Lp Rf Rf1 Rs Rp. unfold pack_groups. cbn [is_given_groups qx_iseg mapM]. unfold qx_single, qx_pgroup.
    rewrite (pack_single n m (qx_var "f") f eq_refl Lf Rf). cbn [bind].
    rewrite (pack_single n m (qx_var "f~1") f1 eq_refl Lf1 Rf1). cbn [bind].
    rewrite (pack_single n m (qx_var "s~1") s eq_refl Ls Rs). cbn [bind].
    rewrite (pack_single n m (mkVar "p" [1] []) p eq_refl Lp Rp). reflexivity.
  Qed.

  (** What the masked solve does to a table of givens. *)
  Lemma qx_masked_eq n m : table d n (given_shapes sx_givens) m -> exists f f1 s p,
    (forall k, k < n -> rows_of_names m (given_names sx_givens) k = [[qat f k]; [qat f1 k]; [qat s k]; [qat p k]]) /\
    run_implicit_masked q0 qx_par qx_iseg m =
    Ok (set_ "s" (qcol [1] n d (fun k => qx_next (qat f k) (qat f1 k) (qat s k))) (set_ "s" (zeros q0 [n; 1] d) m),
        map (fun k => qx_near (qat f k) (qat f1 k) (qat p k)) (seq 0 n)).
  Proof.
    intros T. destruct (qx_given_rows n _ m T) as (f & f1 & s & p & Lf & Lf1 & Ls & Lp & Rf & Rf1 & Rs & Rp & Hr).
    { intros g I. cbn in I. intuition subst; reflexivity. }
    exists f, f1, s, p. split; [exact Hr|].
    assert (Lu : lookup "s" m = None) by (apply (proj2 (proj1 (proj2 T) "s")); reflexivity).
    unfold run_implicit_masked, prepare_solve. cbn [is_givens qx_iseg sx_givens gv_var v_name v_sub v_base length Nat.add]. rewrite Lf.
    pose proof Rf as [_ [Df Sf]]. unfold dim. rewrite Sf. cbn [length Nat.ltb Nat.leb Nat.sub firstn]. rewrite Df.
    change (is_unknowns qx_iseg) with sx_unknowns. cbn [sx_unknowns seed_unknowns v_name v_sub v_base app]. rewrite Lu.
    unfold run_predictor. change (is_predictor qx_iseg) with (@None (predictor Qc)). cbn [fst bind].
    rewrite (pack_givens n _ f f1 s p) by (try assumption; rewrite lookup_set_other by discriminate; assumption). cbn [bind].
    assert (Rz : rowsof d n [1] (zeros q0 [n; 1] d)) by (split; [|split; reflexivity]; unfold wf, zeros; cbn [t_data t_shape]; apply repeat_length).
    unfold pack_groups. change (is_unknown_groups qx_iseg) with [qx_single "s"]. cbn [mapM]. unfold qx_single.
    rewrite (pack_single n _ (qx_var "s") (zeros q0 [n; 1] d) eq_refl (lookup_set_same _ _ _) Rz). change (is_params qx_iseg) with (@nil string). change (is_solve_masked qx_iseg) with qx_solve. cbn [bind mapM].
    unfold qx_solve. rewrite (qx_rows_in n f Rf), Df. cbn [bind].
    unfold unpack_groups. cbn [length Nat.eqb assert_ bind unpack_list].
    rewrite (unpack_single n _ (qx_var "s") _ eq_refl (qcol_rows n [1] _ eq_refl)). reflexivity.
  Qed.

  Lemma qx_table n m t : table d n (given_shapes sx_givens) m -> rowsof d n [1] t ->
    table d n (("s", [1]) :: given_shapes sx_givens) (set_ "s" t (set_ "s" (zeros q0 [n; 1] d) m)).
  Proof.
    intros [So [No Sh]] R. split; [apply sorted_set, sorted_set; exact So|]. split.
    - intros k. cbn [lookup]. destruct (String.eqb_spec k "s") as [->|E].
      + rewrite lookup_set_same. split; discriminate.
      + rewrite !lookup_set_other by exact E. apply No.
    - intros k sh u. cbn [lookup]. destruct (String.eqb_spec k "s") as [->|E].
      + rewrite lookup_set_same. intros H1 H2. injection H1 as <-. injection H2 as <-. exact R.
      + rewrite !lookup_set_other by exact E. apply Sh.
  Qed.
  Lemma qx_answers : answers_all d sx_givens sx_unknowns (run_implicit_masked q0 qx_par qx_iseg).
  Proof.
    intros n m T. destruct (qx_masked_eq n m T) as (f & f1 & s & p & _ & E). eexists _, _, (("s", [1]) :: given_shapes sx_givens). split; [exact E|].
    split; [rewrite map_length, seq_length; reflexivity|]. split; [apply qx_table; [exact T|apply qcol_rows; reflexivity]|]. split.
    - intros u [<-|[]]. reflexivity.
    - intros g I. rewrite !lookup_set_other; [reflexivity| |]; intros X; cbn in I; intuition subst; discriminate.
  Qed.
  Lemma qx_rowwise : rowwise d sx_givens sx_unknowns (run_implicit_masked q0 qx_par qx_iseg) qx_row.
  Proof.
    intros n m m' mask T E k Hk. destruct (qx_masked_eq n m T) as (f & f1 & s & p & Hr & E'). rewrite E in E'. injection E' as -> ->.
    rewrite (Hr k Hk). cbn [qx_row fst snd]. split.
    - unfold rows_of_names, unknown_names. cbn [map sx_unknowns v_name]. unfold val. rewrite lookup_set_same.
      rewrite (qx_row_of n _ k (qcol_rows n [1] _ eq_refl) Hk), qcol_at by exact Hk. reflexivity.
    - rewrite nth_error_map, (nth_error_nth' _ 0), seq_nth by (rewrite ?seq_length; exact Hk). reflexivity.
  Qed.

  Lemma qx_block n f p : 0 < n -> p_in_sub p = [] ->
    ift_ok d [n] qx_size p (mkT [n; 1; 1] (map Qcopp (map f (seq 0 n))) d) /\
    forall k r, k < n -> r < 1 -> snd (SpecJac.ift_row [n] qx_size p (mkT [n; 1; 1] (map Qcopp (map f (seq 0 n))) d) [k] r) = [Qcopp (f k)].
  Proof.
    intros Hn H. split.
    - split; [unfold wf; cbn [t_data t_shape]; rewrite !map_length, seq_length; cbn; lia|].
      split; [reflexivity|]. split; [exact H|]. exists [n]. split; [reflexivity|]. split; [reflexivity|]. split; [lia|]. intros q x y Hx Hy. left. congruence.
    - intros k r Hk Hr. replace r with 0 by lia. unfold SpecJac.ift_row, picks, qx_size. cbn [snd seq map flat_map length firstn t_shape].
      unfold elem. cbn [t_shape t_data]. unfold pull. cbn [length Nat.sub skipn combine map fst snd app].
      replace (if Nat.eqb n 1 then 0 else k) with k by (destruct (Nat.eqb_spec n 1); lia).
      cbn [ravel numel fold_right Nat.mul Nat.add]. replace (k * (1 * 1) + (0 * 1 + (0 * 1 + 0))) with k by lia.
      rewrite !nth_error_map, (nth_error_nth' _ 0), seq_nth by (rewrite ?seq_length; lia). cbn [option_map app]. do 3 f_equal. lia.
  Qed.
  Lemma qc_opp_opp (x : Qc) : Qcopp (Qcopp x) = x.
  Proof. apply Qcopp_involutive. Qed.

  Lemma qx_slopes : slopes_by_row Qcopp qx_par d qx_imp qx_given qx_row qx_slope qx_size.
  Proof.
    split; [intros g I; cbn in I; intuition subst; reflexivity|]. split; [intros u [<-|[]]; reflexivity|]. split.
    { intros p I. cbn in I. cbn. intuition subst; cbn; tauto. }
    exists []. split; [reflexivity|]. intros n ks span Hn T Ku Kg Sv.
    destruct (qx_given_rows n ks span T Kg) as (f & f1 & s1 & p & Lf & Lf1 & Ls1 & Lp & Rf & Rf1 & Rs1 & Rp & Hr).
    destruct (table_get d n ks span "s" [1] T (Ku _ (or_introl eq_refl))) as [s [Ls Rs]].
    pose proof Rs as (_ & Ds & _). change (is_givens (ji_seg qx_imp)) with sx_givens. change (is_unknowns (ji_seg qx_imp)) with sx_unknowns.
    eexists [s], [f; f1; s1; p], [_], [], [_; _; _], [_; _; _].
    split. { unfold pack_groups. change (is_unknown_groups (ji_seg qx_imp)) with [qx_single "s"]. cbn [mapM]. unfold qx_single. rewrite (pack_single n span (qx_var "s") s eq_refl Ls Rs). reflexivity. }
    split. { apply (pack_givens n span f f1 s1 p); assumption. }
    split; [reflexivity|]. split; [reflexivity|]. split; [reflexivity|]. split; [eapply du_compiled; reflexivity|].
    unfold qcol. cbn [t_shape t_data t_dev]. rewrite (qx_rows_in n s Rs), Ds. cbn [ji_pairs qx_imp].
    apply Forall2_cons; [|apply Forall2_cons; [|apply Forall2_cons; [|apply Forall2_nil]]].
    - match goal with |- _ /\ forall k r, _ -> _ -> snd (SpecJac.ift_row _ _ ?pp _ _ _) = _ => destruct (qx_block n (fun k => Qcopp (Qcplus (Qcminus (qat f k) (qat f1 k)) (Qcminus (qat f k) (qat f1 k)))) pp Hn eq_refl) as [B1 B2] end.
      split; [exact B1|]. intros k r Hk Hr0. rewrite (B2 k r Hk Hr0), qc_opp_opp, (Hr k Hk). reflexivity.
    - match goal with |- _ /\ forall k r, _ -> _ -> snd (SpecJac.ift_row _ _ ?pp _ _ _) = _ => destruct (qx_block n (fun k => Qcplus (Qcminus (qat f k) (qat f1 k)) (Qcminus (qat f k) (qat f1 k))) pp Hn eq_refl) as [B1 B2] end.
      split; [exact B1|]. intros k r Hk Hr0. rewrite (B2 k r Hk Hr0), (Hr k Hk). reflexivity.
    - match goal with |- _ /\ forall k r, _ -> _ -> snd (SpecJac.ift_row _ _ ?pp _ _ _) = _ => destruct (qx_block n (fun _ => Qcopp (Q2Qc 1)) pp Hn eq_refl) as [B1 B2] end.
      split; [exact B1|]. intros k r Hk Hr0. rewrite (B2 k r Hk Hr0), qc_opp_opp, (Hr k Hk). reflexivity.
  Qed.
End Facts.

(** Three rows: the force goes from 0 to 1, with limits 1, 1/2 and 1/4; seed columns for the force and the old state. *)
Definition qn (z : Z) : Qc := Q2Qc (inject_Z z).
Definition qx_st : smap (tensor Qc) :=
  [("f", mkT [3; 1] [qn 1; qn 1; qn 1] cpu); ("f~1", mkT [3; 1] [qn 0; qn 0; qn 0] cpu); ("p", mkT [3; 1] [qn 1; Q2Qc (1 # 2); Q2Qc (1 # 4)] cpu);
   ("s~1", mkT [3; 1] [qn 5; qn 5; qn 5] cpu)].
Definition qx_ds : smap (tensor Qc) :=
  let col l := mkT [3; 1; 2] (map qn l) cpu in
  [("f", col [1; 0; 1; 0; 1; 0]%Z); ("f~1", col [0; 0; 0; 0; 0; 0]%Z); ("p", col [0; 0; 0; 0; 0; 0]%Z); ("s~1", col [0; 1; 0; 1; 0; 1]%Z)].
Lemma qx_over : over cpu [3] (map gv_var sx_givens) qx_st /\ solid [3] (map gv_var sx_givens) /\
  over cpu [3] (map (carrier 2) (map gv_var sx_givens)) qx_ds.
Proof.
  split; [|split; [left; reflexivity|]]; intros v I; cbn in I; intuition subst; eexists; repeat split; reflexivity.
Qed.
Lemma rationals_ring : ring_theory (a_zero rationals) (a_one rationals) (a_add rationals) (a_mul rationals) (a_sub rationals) Qcopp eq.
Proof. exact Qcrt. Qed.
Definition shown (t : option (tensor Qc)) : option (list nat * list (Z * positive)) :=
  option_map (fun t => (t_shape t, map (fun q => (Qnum (this q), Qden (this q))) (t_data t))) t.
Definition qx_run := jac_step rationals Qcopp (dotx (a_zero rationals) (a_add rationals) (a_mul rationals)) qx_par [] false [3] 2 cpu (JI qx_imp) qx_st qx_ds.
Lemma qx_result : exists st' ds', qx_run = Ok (st', ds') /\
  shown (lookup "s" st') = Some ([3; 1], [(6, 1%positive); (11, 2%positive); (21, 4%positive)]%Z) /\
  shown (lookup "s" ds') = Some ([3; 1; 2], [(2, 1%positive); (1, 1%positive); (1, 1%positive); (1, 1%positive); (1, 2%positive); (1, 1%positive)]%Z).
Proof.
  destruct qx_run as [[st' ds']|e] eqn:E.
  - exists st', ds'. split; [reflexivity|].
    assert (X : match qx_run with Ok (st', ds') => (shown (lookup "s" st'), shown (lookup "s" ds')) | Err _ => (None, None) end =
      (Some ([3; 1], [(6, 1%positive); (11, 2%positive); (21, 4%positive)]%Z),
       Some ([3; 1; 2], [(2, 1%positive); (1, 1%positive); (1, 1%positive); (1, 1%positive); (1, 2%positive); (1, 1%positive)]%Z))) by (vm_compute; reflexivity).
    rewrite E in X. injection X as X1 X2. split; assumption.
  - exfalso. assert (X : is_ok qx_run = true) by (vm_compute; reflexivity). rewrite E in X. discriminate X.
Qed.
