(** A segment used in the concrete cases of C35-C39: a force "f", a state "s", and a row's limit "p" on
    the change of force per step. *)
From Verif Require Import Base BaseProofs SpecMap SmapProofs Tensor Spec Pack Implicit Substep SpecSubstep RowTableProofs.

Local Open Scope string_scope.
(** Fixed-point numbers with eight parts. *)
Definition fx : arith Z := mkArith Z.add Z.sub (fun x y => (x * y / 8)%Z) 0%Z 8%Z 4%Z.

Definition sx_givens : list given_info :=
  [mkGiven (mkVar "f" [] [1]) "cur_force" "f~1"; mkGiven (mkVar "f~1" [] [1]) "old_force" "f";
   mkGiven (mkVar "s~1" [] [1]) "old_state" "s"; mkGiven (mkVar "p" [1] []) "" ""].
Definition sx_unknowns : list var_info := [mkVar "s" [] [1]].

(** One row: the state moves by the square of the change of force; it converges if that change is within the limit. *)
Definition sx_row (rows : list (list Z)) : list (list Z) * bool :=
  match rows with
  | [[f]; [f1]; [s]; [p]] => ([[(s + (f - f1) * (f - f1))%Z]], Z.leb (Z.abs (f - f1)) p)
  | _ => ([], false)
  end.
(** All rows. *)
Definition sx_masked (m : smap (tensor Z)) : result (smap (tensor Z) * list bool) :=
  match lookup "f" m, lookup "f~1" m, lookup "s~1" m, lookup "p" m with
  | Some f, Some f1, Some s, Some p =>
      let n := length (t_data f) in
      let outs := map (fun i => sx_row [row f i; row f1 i; row s i; row p i]) (seq 0 n) in
      Ok ([("s", mkT [n; 1] (flat_map (fun o => concat (fst o)) outs) (t_dev f))], map snd outs)
  | _, _, _, _ => Err (StdExn "missing")
  end.

Lemma sx_seg_ok : seg_ok sx_givens sx_unknowns.
Proof.
  split; [discriminate|]. split; [repeat constructor; cbn; intuition discriminate|]. split; [repeat constructor; cbn; intuition discriminate|]. split.
  - intros g I R. cbn in I. intuition subst; try discriminate. eexists. split; [left; reflexivity|]. split; reflexivity.
  - intros g I R. cbn in I. intuition subst; try (destruct R; discriminate).
    + eexists. split; [right; left; reflexivity|]. split; reflexivity.
    + eexists. split; [left; reflexivity|]. split; reflexivity.
Qed.

Lemma row_single d n t i : rowsof (V := Z) d n [1] t -> i < n -> exists z, row t i = [z].
Proof. intros R H. pose proof (rowsof_row_length d n [1] t i R H) as L. cbn in L. destruct (row t i) as [|z [|]]; try discriminate. exists z. reflexivity. Qed.

Definition the_row (rows : list (list Z)) : Z := match fst (sx_row rows) with [[z]] => z | _ => 0%Z end.

Section Rows.
  Variable d : device.
  Lemma sx_rows n m : table d n (given_shapes sx_givens) m -> exists f f1 s p,
    lookup "f" m = Some f /\ lookup "f~1" m = Some f1 /\ lookup "s~1" m = Some s /\ lookup "p" m = Some p /\
    rowsof d n [1] f /\ rowsof d n [1] f1 /\ rowsof d n [1] s /\ rowsof d n [1] p /\
    forall i, i < n -> exists z, fst (sx_row [row f i; row f1 i; row s i; row p i]) = [[z]].
  Proof.
    intros T.
    destruct (table_get d n _ m "f" [1] T eq_refl) as [f [Lf Rf]]. destruct (table_get d n _ m "f~1" [1] T eq_refl) as [f1 [Lf1 Rf1]].
    destruct (table_get d n _ m "s~1" [1] T eq_refl) as [s [Ls Rs]]. destruct (table_get d n _ m "p" [1] T eq_refl) as [p [Lp Rp]].
    exists f, f1, s, p. split; [exact Lf|]. split; [exact Lf1|]. split; [exact Ls|]. split; [exact Lp|].
    split; [exact Rf|]. split; [exact Rf1|]. split; [exact Rs|]. split; [exact Rp|].
    intros i H. destruct (row_single _ _ _ _ Rf H) as [a ->]. destruct (row_single _ _ _ _ Rf1 H) as [b ->].
    destruct (row_single _ _ _ _ Rs H) as [c ->]. destruct (row_single _ _ _ _ Rp H) as [e ->]. eexists. reflexivity.
  Qed.

  Lemma singles (g : nat -> list (list Z)) l : (forall i, In i l -> exists z, g i = [[z]]) ->
    length (flat_map (fun i => concat (g i)) l) = length l /\
    forall k i, nth_error l k = Some i -> firstn 1 (skipn k (flat_map (fun i => concat (g i)) l)) = concat (g i).
  Proof.
    induction l as [|i l IH]; intros H; [split; [reflexivity|intros [|k] i; discriminate]|].
    destruct (H i (or_introl eq_refl)) as [z E]. destruct IH as [L N]; [intros j J; apply H; right; exact J|].
    cbn [flat_map]. rewrite E. cbn [concat app length]. split; [f_equal; exact L|].
    intros [|k] j Hk; [injection Hk as <-; rewrite E; reflexivity|]. cbn [skipn]. apply N. exact Hk.
  Qed.

  Lemma flat_map_map {X Y W} (f : X -> Y) (g : Y -> list W) l : flat_map g (map f l) = flat_map (fun x => g (f x)) l.
  Proof. induction l as [|x l IH]; [reflexivity|]. cbn [flat_map map]. rewrite IH. reflexivity. Qed.

  Lemma sx_answers : answers d sx_givens sx_unknowns sx_masked.
  Proof.
    intros n m T. destruct (sx_rows n m T) as [f [f1 [s [p [Lf [Lf1 [Ls [Lp [Rf [_ [_ [_ Z]]]]]]]]]]]].
    unfold sx_masked. rewrite Lf, Lf1, Ls, Lp. eexists _, _. split; [reflexivity|].
    assert (Ln : length (t_data f) = n) by (rewrite (rowsof_len d n [1] f Rf); cbn; lia). rewrite Ln.
    split; [rewrite !map_length, seq_length; reflexivity|].
    intros u [<-|[]]. eexists. split; [reflexivity|]. split; [|split; [apply Rf|reflexivity]].
    unfold wf. cbn [t_data t_shape]. rewrite flat_map_map.
    destruct (singles (fun i => fst (sx_row [row f i; row f1 i; row s i; row p i])) (seq 0 n)) as [L _].
    { intros i I. apply in_seq in I. apply Z. lia. }
    rewrite L, seq_length. cbn. lia.
  Qed.

  Lemma sx_rowwise : rowwise d sx_givens sx_unknowns sx_masked sx_row.
  Proof.
    intros n m m' mask T H i Hi. destruct (sx_rows n m T) as [f [f1 [s [p [Lf [Lf1 [Ls [Lp [Rf [_ [_ [_ Z]]]]]]]]]]]].
    unfold sx_masked in H. rewrite Lf, Lf1, Ls, Lp in H. injection H as <- <-.
    assert (Ln : length (t_data f) = n) by (rewrite (rowsof_len d n [1] f Rf); cbn; lia). rewrite Ln.
    assert (Hn : nth_error (seq 0 n) i = Some i).
    { rewrite nth_error_nth' with (d := 0) by (rewrite seq_length; exact Hi). rewrite seq_nth by exact Hi. reflexivity. }
    assert (Er : rows_of_names m (given_names sx_givens) i = [row f i; row f1 i; row s i; row p i]).
    { unfold rows_of_names, given_names. cbn [map sx_givens given_name gv_var v_name]. unfold val. rewrite Lf, Lf1, Ls, Lp. reflexivity. }
    rewrite Er. cbv zeta. set (out := fun i => sx_row [row f i; row f1 i; row s i; row p i]) in *. fold (out i). split.
    - destruct (singles (fun i => fst (out i)) (seq 0 n)) as [_ N].
      { intros j I. apply in_seq in I. apply Z. lia. }
      specialize (N i i Hn). destruct (Z i Hi) as [z E]. fold (out i) in E. cbv beta in N. rewrite E in N |- *.
      change ([row (mkT [n; 1] (flat_map (fun o => concat (fst o)) (map out (seq 0 n))) (t_dev f)) i] = [[z]]).
      f_equal. rewrite flat_map_map. unfold row. cbn [t_shape t_data tl numel fold_right Nat.mul Nat.add]. rewrite Nat.mul_1_r. exact N.
    - rewrite map_map. apply (map_nth_error (fun i => snd (out i))). exact Hn.
  Qed.
End Rows.

(** Four rows in a two-by-two batch, with limits 8, 4, 2 and 8; the last has its force fall. *)
Definition sx_st : smap (tensor Z) :=
  [("f", mkT [2; 2; 1] [8; 8; 8; 1]%Z cpu); ("f~1", mkT [2; 2; 1] [0; 0; 0; 9]%Z cpu); ("p", mkT [2; 2; 1] [8; 4; 2; 8]%Z cpu);
   ("q", mkT [] [7]%Z cpu); ("s~1", mkT [2; 2; 1] [0; 10; 20; 30]%Z cpu)].
Lemma sx_over : over cpu [2; 2] (map gv_var sx_givens) sx_st /\ solid [2; 2] (map gv_var sx_givens).
Proof.
  split.
  - intros v I. cbn in I. intuition subst; eexists; repeat split; reflexivity.
  - right. intros v I. cbn in I. intuition subst; discriminate.
Qed.
