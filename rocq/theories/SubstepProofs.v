(** Lemmas about the substepping driver (Substep.v): one solve of the active rows, and the whole. *)
From Verif Require Import Base BaseProofs SpecMap SmapProofs Tensor Spec TensorProofs BatchChunk SelectProofs Pack Implicit ImplicitProofs
     Substep SpecSubstep DriveProofs RowTableProofs.

Lemma forall2_impl {X Y} (P Q : X -> Y -> Prop) l ys : (forall x y, P x y -> Q x y) -> Forall2 P l ys -> Forall2 Q l ys.
Proof. intros H F. induction F; constructor; auto. Qed.

Section Entries.
  Context {V : Type}.
  Variable A : arith V.
  Variable d : device.
  Notation vmap := (smap (tensor V)).

  (** ** Interpolation *)
  Lemma row_map (f : V -> V) (t : tensor V) i : row (mkT (t_shape t) (map f (t_data t)) (t_dev t)) i = map f (row t i).
  Proof. unfold row. cbn [t_shape t_data]. rewrite <- firstn_map, <- skipn_map. reflexivity. Qed.
  Lemma combine_firstn {X Y} n : forall (a : list X) (b : list Y), combine (firstn n a) (firstn n b) = firstn n (combine a b).
  Proof. induction n as [|n IH]; intros [|x a] [|y b]; try reflexivity. cbn. rewrite IH. reflexivity. Qed.
  Lemma combine_skipn {X Y} n : forall (a : list X) (b : list Y), length a = length b -> combine (skipn n a) (skipn n b) = skipn n (combine a b).
  Proof.
    induction n as [|n IH]; intros [|x a] [|y b] H; try reflexivity; try discriminate. cbn [skipn combine]. apply IH. injection H as H. exact H.
  Qed.
  Lemma shape_eqb_eq a : shape_eqb a a = true.
  Proof. apply shape_eqb_refl. Qed.
  Lemma device_eqb_eq x : device_eqb x x = true.
  Proof. apply device_eqb_refl. Qed.
  Lemma rowsof_zip (f : V -> V -> V) n sh t u : rowsof d n sh t -> rowsof d n sh u ->
    exists w, zip_same f t u = Ok w /\ rowsof d n sh w /\
      forall i, row w i = map (fun p => f (fst p) (snd p)) (combine (row t i) (row u i)).
  Proof.
    intros Rt Ru. pose proof Rt as [W1 [D1 S1]]. pose proof Ru as [W2 [D2 S2]].
    exists (mkT (t_shape t) (map (fun xy => f (fst xy) (snd xy)) (combine (t_data t) (t_data u))) (t_dev t)). split; [|split].
    - unfold zip_same. rewrite S1, S2, D1, D2, shape_eqb_eq, device_eqb_eq. reflexivity.
    - split; [|split; [exact D1|exact S1]]. unfold wf in *. cbn [t_data t_shape]. rewrite map_length, combine_length, W1, W2, S1, S2.
      apply Nat.min_id.
    - intros i. unfold row. cbn [t_shape t_data]. rewrite S1, S2. cbn [tl].
      rewrite combine_firstn, combine_skipn by (unfold wf in *; rewrite W1, W2, S1, S2; reflexivity).
      rewrite <- firstn_map, <- skipn_map. reflexivity.
  Qed.
  Lemma rowsof_lerp n sh o w x : rowsof d n sh o -> rowsof d n sh w ->
    exists u, lerp A o w x = Ok u /\ rowsof d n sh u /\ forall i, row u i = between A (row o i) (row w i) x.
  Proof.
    intros Ro Rw. unfold lerp. destruct (rowsof_zip (a_sub A) n sh w o Rw Ro) as [dd [-> [Rd Hd]]]. cbn [bind].
    assert (Rs : rowsof d n sh (scale A x dd)).
    { destruct Rd as [W [D S]]. split; [|split; assumption]. unfold wf, scale in *. cbn [t_data t_shape]. rewrite map_length. exact W. }
    destruct (rowsof_zip (a_add A) n sh o _ Ro Rs) as [u [-> [Ru Hu]]]. exists u. split; [reflexivity|]. split; [exact Ru|].
    intros i. rewrite Hu. unfold scale. rewrite row_map, Hd. unfold between. generalize (row o i), (row w i). clear.
    induction l as [|x0 l IH]; intros [|y l']; try reflexivity. cbn [combine map fst snd]. rewrite IH. reflexivity.
  Qed.

  (** ** The givens of a solve, for any shapes of the entries *)
  Variable givens : list given_info.
  Hypothesis names_distinct : NoDup (given_names givens).
  Variable sh : given_info -> list nat.
  Hypothesis pairs : forall g, In g givens -> forced g -> exists g', In g' givens /\ given_name g' = gv_pair g /\ sh g' = sh g.

  Definition shapes_of (l : list given_info) : smap (list nat) := map (fun g => (given_name g, sh g)) l.

  Lemma keys_shapes l : keys (shapes_of l) = given_names l.
  Proof. unfold keys, shapes_of, given_names. rewrite map_map. reflexivity. Qed.
  Lemma lookup_shapes l g : NoDup (given_names l) -> In g l -> lookup (given_name g) (shapes_of l) = Some (sh g).
  Proof. intros N I. apply lookup_nodup; [rewrite keys_shapes; exact N|]. apply (in_map (fun g => (given_name g, sh g))). exact I. Qed.
  Lemma olds_incl : incl (old_states givens) givens.
  Proof. intros g I. apply filter_In in I. apply I. Qed.
  Lemma nodup_filter_names (p : given_info -> bool) : NoDup (given_names (filter p givens)).
  Proof.
    unfold given_names in *. clear pairs. induction givens as [|g l IH]; [constructor|]. cbn [map] in names_distinct.
    inversion names_distinct as [|? ? I N]; subst. cbn [filter]. destruct (p g); [|apply IH; exact N]. cbn [map]. constructor; [|apply IH; exact N].
    intros J. apply I. apply in_map_iff in J as [x [E J]]. apply filter_In in J. rewrite <- E. apply in_map. apply J.
  Qed.
  Lemma getrow_val (m : vmap) (ns : list string) n i : In n ns -> getrow ns (rows_of_names m ns i) n = val m n i.
  Proof.
    intros I. unfold getrow, rows_of_names. destruct (lookup n (combine ns (map (fun k => val m k i) ns))) as [r|] eqn:E.
    - clear I. induction ns as [|k ns IH]; [discriminate|]. cbn [map combine lookup] in E. destruct (String.eqb_spec n k) as [->|_]; [injection E as <-; reflexivity|].
      apply IH. exact E.
    - exfalso. induction ns as [|k ns IH]; [contradiction|]. cbn [map combine lookup] in E. destruct (String.eqb_spec n k) as [->|N]; [discriminate|].
      destruct I as [->|I]; [contradiction|]. apply IH; assumption.
  Qed.

  Lemma entry_ok n orig ch a b g : table d n (shapes_of givens) orig -> table d n (shapes_of (old_states givens)) ch -> In g givens ->
    exists t, span_entry A g orig a b ch = Ok t /\ rowsof d n (sh g) t /\
      forall i, row t i = row_input A givens (rows_of_names orig (given_names givens) i)
                                    (rows_of_names ch (given_names (old_states givens)) i) a b g.
  Proof.
    intros To Tc Ig. assert (In_ : In (given_name g) (given_names givens)) by (apply in_map; exact Ig).
    assert (Get : forall g', In g' givens -> exists t, at_ (given_name g') orig = Ok t /\ rowsof d n (sh g') t /\
      forall i, row t i = getrow (given_names givens) (rows_of_names orig (given_names givens) i) (given_name g')).
    { intros g' I'. destruct (table_get d _ _ _ _ _ To (lookup_shapes givens g' names_distinct I')) as [t [L R]]. exists t.
      unfold at_. rewrite L. split; [reflexivity|]. split; [exact R|]. intros i. rewrite getrow_val by (apply in_map; exact I').
      unfold val. rewrite L. reflexivity. }
    unfold span_entry, row_input. fold (given_name g). destruct (String.eqb_spec (gv_role g) "old_state") as [E|_].
    - assert (Io : In g (old_states givens)) by (apply filter_In; split; [exact Ig|apply String.eqb_eq; exact E]).
      destruct (table_get d _ _ _ _ _ Tc (lookup_shapes (old_states givens) g (nodup_filter_names _) Io)) as [t [L R]].
      exists t. rewrite L. split; [reflexivity|]. split; [exact R|]. intros i. rewrite getrow_val by (apply in_map; exact Io).
      unfold val. rewrite L. reflexivity.
    - destruct (String.eqb_spec (gv_role g) "old_force") as [E|_].
      + destruct (pairs g Ig (or_introl E)) as [g' [I' [En Es]]]. destruct (Get g Ig) as [o [-> [Ro Ho]]].
        destruct (Get g' I') as [w [Lw [Rw Hw]]]. rewrite <- En, Lw. cbn [bind]. rewrite Es in Rw.
        destruct (rowsof_lerp n (sh g) o w a Ro Rw) as [u [-> [Ru Hu]]]. exists u. split; [reflexivity|]. split; [exact Ru|].
        intros i. rewrite Hu, Ho, Hw. reflexivity.
      + destruct (String.eqb_spec (gv_role g) "cur_force") as [E|_].
        * destruct (pairs g Ig (or_intror E)) as [g' [I' [En Es]]]. destruct (Get g Ig) as [w [Lw [Rw Hw]]].
          destruct (Get g' I') as [o [Lo [Ro Ho]]]. rewrite <- En, Lo. cbn [bind]. rewrite Lw. cbn [bind]. rewrite Es in Ro.
          destruct (rowsof_lerp n (sh g) o w b Ro Rw) as [u [-> [Ru Hu]]]. exists u. split; [reflexivity|]. split; [exact Ru|].
          intros i. rewrite Hu, Ho, Hw. reflexivity.
        * destruct (Get g Ig) as [o [-> [Ro Ho]]]. exists o. split; [reflexivity|]. split; [exact Ro|]. intros i. apply Ho.
  Qed.

  Lemma apply_span_put gs orig a b ch : forall ts acc, Forall2 (fun g t => span_entry A g orig a b ch = Ok t) gs ts ->
    apply_span A gs orig a b ch acc = Ok (put_all (combine (given_names gs) ts) acc).
  Proof.
    induction gs as [|g gs IH]; intros ts acc F; inversion F as [|? t ? ts' E F']; subst; [reflexivity|]. cbn [apply_span].
    rewrite E. cbn [bind]. rewrite (IH ts') by exact F'. reflexivity.
  Qed.

  Lemma forall2_build {X Y} (P Q : X -> Y -> Prop) l : (forall x, In x l -> exists y, P x y /\ Q x y) ->
    exists ys, Forall2 P l ys /\ Forall2 Q l ys.
  Proof.
    induction l as [|x l IH]; intros H; [exists []; split; constructor|]. destruct (H x (or_introl eq_refl)) as [y [Py Qy]].
    destruct IH as [ys [F1 F2]]; [intros z I; apply H; right; exact I|]. exists (y :: ys). split; constructor; assumption.
  Qed.
  Lemma forall2_in {X Y} (P : X -> Y -> Prop) l ys x y : Forall2 P l ys -> In (x, y) (combine l ys) -> P x y.
  Proof.
    intros F. induction F as [|a b l ys H F IH]; intros I; [contradiction|]. destruct I as [E|I]; [injection E as <- <-; exact H|apply IH; exact I].
  Qed.

  Lemma span_ok n orig ch a b : table d n (shapes_of givens) orig -> table d n (shapes_of (old_states givens)) ch ->
    exists span, apply_span A givens orig a b ch [] = Ok span /\ table d n (shapes_of givens) span /\
      forall i, rows_of_names span (given_names givens) i =
                map (row_input A givens (rows_of_names orig (given_names givens) i) (rows_of_names ch (given_names (old_states givens)) i) a b) givens.
  Proof.
    intros To Tc.
    destruct (forall2_build (fun g t => span_entry A g orig a b ch = Ok t)
      (fun g t => rowsof d n (sh g) t /\ forall i, row t i = row_input A givens (rows_of_names orig (given_names givens) i)
                                    (rows_of_names ch (given_names (old_states givens)) i) a b g) givens) as [ts [F1 F2]].
    { intros g I. apply entry_ok; assumption. }
    exists (put_all (combine (given_names givens) ts) []). split; [apply apply_span_put; exact F1|].
    assert (F3 : Forall2 (fun g t => rowsof d n (sh g) t) givens ts).
    { eapply forall2_impl; [|exact F2]. intros x y Q. apply Q. }
    destruct (table_build d n given_name sh givens ts names_distinct F3) as [T Vl]. split; [exact T|].
    intros i. transitivity (map (fun g => val (put_all (combine (given_names givens) ts) []) (given_name g) i) givens); [apply map_map|].
    apply map_ext_in. intros g I.
    destruct (Vl g i I) as [t [_ [J E]]]. fold (given_names givens) in E. rewrite E. apply (forall2_in _ _ _ _ _ F2) in J. apply J.
  Qed.
End Entries.

(** ** Storing what converged *)
Section Store.
  Context {V : Type}.
  Variable d : device.
  Notation vmap := (smap (tensor V)).

  Lemma conv_ok x n mask : length mask = n -> idx_ok n (positions x 0 mask).
  Proof. intros <-. apply Forall_forall. intros k I. apply positions_range in I. lia. Qed.
  Lemma conv_pair (active : list Z) mask x j p : length mask <= length active -> nth_error (positions x 0 mask) j = Some p ->
    exists i, nth_error (chosen x active mask) j = Some i /\ nth_error active (Z.to_nat p) = Some i.
  Proof.
    intros L H. pose proof (pick_chosen active mask x L) as P. unfold pick in P. destruct (mapM_nth _ _ _ _ _ P H) as [i [Hi E]].
    exists i. split; [exact Hi|]. destruct (nth_error active (Z.to_nat p)) as [y|]; [injection E as <-; reflexivity|discriminate].
  Qed.
  Lemma positions_at x mask : forall i k, nth_error mask k = Some x -> In (i + Z.of_nat k)%Z (positions x i mask).
  Proof.
    induction mask as [|y m IH]; intros i [|k] H; try discriminate; cbn [nth_error positions] in *.
    - injection H as ->. rewrite Bool.eqb_reflx. left. cbn. lia.
    - specialize (IH (i + 1)%Z k H). replace (i + Z.of_nat (S k))%Z with (i + 1 + Z.of_nat k)%Z by lia.
      destruct (Bool.eqb x y); [right|]; exact IH.
  Qed.

  Lemma rows_at_put l (span : vmap) idx : forall ts acc,
    Forall2 (fun ns t => exists u, lookup (snd ns) span = Some u /\ index_select0 u idx = Ok t) l ts ->
    rows_at l span idx acc = Ok (put_all (combine (map fst l) ts) acc).
  Proof.
    induction l as [|[name src] l IH]; intros ts acc F; inversion F as [|? t ? ts' [u [L E]] F']; subst; [reflexivity|]. cbn [rows_at].
    cbn [snd] in L. unfold at_. rewrite L. cbn [bind]. rewrite E. cbn [bind]. rewrite (IH ts') by exact F'. reflexivity.
  Qed.

  (** [l] are the names of a buffer with the names of the span they get their rows from and the shapes. *)
  Lemma store_rows B (l : list (string * string * list nat)) (span dst : vmap) (active : list Z) mask :
    NoDup (map (fun e => fst (fst e)) l) ->
    (forall e, In e l -> exists t, lookup (snd (fst e)) span = Some t /\ rowsof d (length active) (snd e) t) ->
    table d B (map (fun e => (fst (fst e), snd e)) l) dst -> idx_ok B active -> NoDup active -> length mask = length active ->
    exists sub dst', rows_at (map fst l) span (positions true 0 mask) [] = Ok sub /\
      scatter_batch dst (chosen true active mask) sub = Ok dst' /\
      table d B (map (fun e => (fst (fst e), snd e)) l) dst' /\
      (forall e k i, In e l -> nth_error active k = Some i -> nth_error mask k = Some true ->
         val dst' (fst (fst e)) (Z.to_nat i) = val span (snd (fst e)) k) /\
      (forall n i, i < B -> ~ In (Z.of_nat i) (chosen true active mask) -> val dst' n i = val dst n i).
  Proof.
    intros N H T Ia Na Lm. set (conv := positions true 0 mask).
    assert (Ic : idx_ok (length active) conv) by (apply conv_ok; exact Lm).
    destruct (forall2_build
      (fun e t => exists u, lookup (snd (fst e)) span = Some u /\ index_select0 u conv = Ok t)
      (fun e t => rowsof d (length conv) (snd e) t /\ forall j i, nth_error conv j = Some i -> row t j = val span (snd (fst e)) (Z.to_nat i)) l) as [ts [F1 F2]].
    { intros e I. destruct (H e I) as [t [L R]]. destruct (rowsof_select d _ _ _ conv R Ic) as [u [E [Ru Hu]]]. exists u. split; [exists t; split; assumption|].
      split; [exact Ru|]. intros j i Hj. unfold val. rewrite L. apply Hu. exact Hj. }
    assert (F3 : Forall2 (fun e t => rowsof d (length conv) (snd e) t) l ts).
    { eapply forall2_impl; [|exact F2]. intros x y Q. apply Q. }
    destruct (table_build d (length conv) (fun e : string * string * list nat => fst (fst e)) (fun e => snd e) l ts N F3) as [Ts Vs].
    set (sub := put_all (combine (map (fun e : string * string * list nat => fst (fst e)) l) ts) []) in *.
    exists sub. unfold conv in *. rewrite (positions_length true active mask) in Ts by lia.
    destruct (table_scatter d B _ dst sub (chosen true active mask) T Ts) as [dst' [E [T' [Q1 Q2]]]].
    { eapply idx_ok_incl; [apply chosen_incl|exact Ia]. }
    { apply chosen_nodup. exact Na. }
    exists dst'. split; [|split; [exact E|split; [exact T'|split; [|intros n i Hi J; apply Q2; assumption]]]].
    - rewrite (rows_at_put _ _ _ ts); [unfold sub; rewrite map_map; reflexivity|]. clear - F1. induction F1; cbn [map]; constructor; assumption.
    - intros e k i I Hk Hm. pose proof (positions_at true mask 0 k Hm) as P. cbn [Z.add] in P. apply In_nth_error in P as [j Hj].
      destruct (conv_pair active mask true j _ ltac:(lia) Hj) as [i' [Hc Ha]]. rewrite Nat2Z.id, Hk in Ha. injection Ha as <-.
      rewrite (Q1 _ j i Hc). destruct (Vs e j I) as [t [_ [J ->]]]. apply (forall2_in _ _ _ _ _ F2) in J. destruct J as [_ J].
      rewrite (J j _ Hj), Nat2Z.id. reflexivity.
  Qed.
End Store.

(** ** The driver *)
Definition mid_of {V} (A : arith V) (a b : V) : V := a_mul A (a_half A) (a_add A a b).

Section Driver.
  Context {V : Type}.
  Variable A : arith V.
  Variable d : device.
  Notation vmap := (smap (tensor V)).
  Variable masked : vmap -> result (vmap * list bool).
  Variable givens : list given_info.
  Variable unknowns : list var_info.
  Variable orig : vmap.

  Definition span_solve (a b : V) (active : list Z) (bufs : vmap * vmap) : result (list bool * result (vmap * vmap)) :=
    match solve_span A masked givens orig a b active (snd bufs) with
    | Err e => Err e
    | Ok (span, mask) => Ok (mask, store givens unknowns active (positions true 0 mask) span bufs)
    end.

  Lemma solve_to_drive left : forall a b active bufs,
    solve_to A masked givens unknowns orig left a b active bufs = drive (mid_of A) span_solve left a b active bufs.
  Proof.
    induction left as [|left IH]; intros a b active bufs; cbn [solve_to drive]; unfold span_solve at 1;
      destruct (solve_span A masked givens orig a b active (snd bufs)) as [[span mask]|e]; try reflexivity;
      destruct (store givens unknowns active (positions true 0 mask) span bufs) as [bufs'|e]; try reflexivity.
    destruct (positions false 0 mask); try reflexivity. destruct (pick active _) as [fg|e]; [|reflexivity].
    rewrite IH. fold (mid_of A a b). destruct (drive (mid_of A) span_solve left a (mid_of A a b) fg bufs') as [[b1|e] l1]; [|reflexivity].
    rewrite IH. reflexivity.
  Qed.

  Hypothesis seg : seg_ok givens unknowns.
  Variable B : nat.
  Hypothesis orig_ok : table d B (given_shapes givens) orig.

  Definition inv (bufs : vmap * vmap) : Prop :=
    table d B (unknown_shapes unknowns) (fst bufs) /\ table d B (given_shapes (old_states givens)) (snd bufs).

  Definition unknown_entries : list (string * string * list nat) := map (fun u => (v_name u, v_name u, trailing u)) unknowns.
  Definition old_entries : list (string * string * list nat) := map (fun g => (given_name g, gv_pair g, trailing (gv_var g))) (old_states givens).

  (** What is solved, and what is stored. *)
  Lemma span_parts a b active bufs : inv bufs -> idx_ok B active -> NoDup active ->
    exists span, table d (length active) (given_shapes givens) span /\
      solve_span A masked givens orig a b active (snd bufs) = masked span /\
      (forall k i, nth_error active k = Some i ->
         rows_of_names span (given_names givens) k =
         map (row_input A givens (rows_of_names orig (given_names givens) (Z.to_nat i))
                                 (rows_of_names (snd bufs) (given_names (old_states givens)) (Z.to_nat i)) a b) givens) /\
      forall (span' : vmap) mask, length mask = length active ->
        (forall u, In u unknowns -> exists t, lookup (v_name u) span' = Some t /\ rowsof d (length active) (trailing u) t) ->
        exists bufs', store givens unknowns active (positions true 0 mask) span' bufs = Ok bufs' /\ inv bufs' /\
      (forall k i, nth_error active k = Some i -> nth_error mask k = Some true ->
         rows_of_names (fst bufs') (unknown_names unknowns) (Z.to_nat i) = rows_of_names span' (unknown_names unknowns) k /\
         rows_of_names (snd bufs') (given_names (old_states givens)) (Z.to_nat i) =
           carried givens unknowns (rows_of_names span' (unknown_names unknowns) k)) /\
      (forall i, i < B -> ~ In (Z.of_nat i) (chosen true active mask) ->
         rows_of_names (fst bufs') (unknown_names unknowns) i = rows_of_names (fst bufs) (unknown_names unknowns) i /\
         rows_of_names (snd bufs') (given_names (old_states givens)) i = rows_of_names (snd bufs) (given_names (old_states givens)) i).
  Proof.
    intros [Iu Ic] Ia Na. destruct seg as [_ [Ng [Nu [Po Pf]]]].
    destruct (table_select d B _ orig active orig_ok Ia) as [orig_a [Eo [To Vo]]].
    destruct (table_select d B _ (snd bufs) active Ic Ia) as [ch_a [Ec [Tc Vc]]].
    destruct (span_ok A d givens Ng (fun g => trailing (gv_var g)) Pf (length active) orig_a ch_a a b To Tc) as [span [Es [Ts Rs]]].
    exists span. split; [exact Ts|]. split; [unfold solve_span; rewrite Eo; cbn [bind]; rewrite Ec; cbn [bind]; rewrite Es; reflexivity|].
    split; [intros k i Hk; rewrite Rs; f_equal; f_equal; apply map_ext; intros n; [apply Vo|apply Vc]; exact Hk|].
    intros span' mask Lm Hu.
    assert (Fu : map (fun e : string * string * list nat => (fst (fst e), snd e)) unknown_entries = unknown_shapes unknowns)
      by (unfold unknown_entries; rewrite map_map; reflexivity).
    assert (Fo : map (fun e : string * string * list nat => (fst (fst e), snd e)) old_entries = given_shapes (old_states givens))
      by (unfold old_entries; rewrite map_map; reflexivity).
    assert (No : NoDup (given_names (old_states givens))) by (apply (nodup_filter_names givens Ng)).
    destruct (store_rows d B unknown_entries span' (fst bufs) active mask) as [cs [res' [E1 [E2 [T1 [Q1 Q2]]]]]]; try assumption.
    { unfold unknown_entries. rewrite map_map. exact Nu. }
    { intros e I. apply in_map_iff in I as [u [<- I]]. cbn [fst snd]. apply Hu. exact I. }
    { rewrite Fu. exact Iu. }
    destruct (store_rows d B old_entries span' (snd bufs) active mask) as [cc [ch' [E3 [E4 [T2 [Q3 Q4]]]]]]; try assumption.
    { unfold old_entries. rewrite map_map. exact No. }
    { intros e I. apply in_map_iff in I as [g [<- I]]. cbn [fst snd]. apply filter_In in I as [I R]. apply String.eqb_eq in R.
      destruct (Po g I R) as [u [J [<- <-]]]. apply Hu. exact J. }
    { rewrite Fo. exact Ic. }
    rewrite Fu in T1. rewrite Fo in T2.
    set (bufs' := match positions true 0 mask with [] => bufs | _ => (res', ch') end).
    assert (St : store givens unknowns active (positions true 0 mask) span' bufs = Ok bufs').
    { unfold store, bufs'. destruct (positions true 0 mask) as [|p ps] eqn:Ep; [reflexivity|]. rewrite <- Ep in *. rewrite pick_chosen by lia. cbn [bind].
      replace (map (fun u => (v_name u, v_name u)) unknowns) with (map fst unknown_entries) by (unfold unknown_entries; rewrite map_map; reflexivity).
      rewrite E1. cbn [bind]. rewrite E2. cbn [bind].
      replace (map (fun g => (v_name (gv_var g), gv_pair g)) (filter is_old_state givens)) with (map fst old_entries)
        by (unfold old_entries; rewrite map_map; reflexivity).
      rewrite E3. cbn [bind]. rewrite E4. reflexivity. }
    exists bufs'. split; [exact St|]. split.
    { unfold bufs'. destruct (positions true 0 mask); [split; assumption|split; assumption]. }
    split.
    - intros k i Hk Hm. assert (Ne : positions true 0 mask <> []).
      { intros E. pose proof (positions_at true mask 0 k Hm) as P. rewrite E in P. contradiction. }
      unfold bufs'. destruct (positions true 0 mask) as [|p ps]; [contradiction Ne; reflexivity|]. cbn [fst snd]. split.
      + unfold rows_of_names, unknown_names. rewrite !map_map. apply map_ext_in. intros u I.
        apply (Q1 (v_name u, v_name u, trailing u) k i); [|exact Hk|exact Hm]. unfold unknown_entries.
        apply (in_map (fun u => (v_name u, v_name u, trailing u))). exact I.
      + unfold carried, rows_of_names at 1, given_names. rewrite map_map. apply map_ext_in. intros g I.
        rewrite getrow_val.
        * apply (Q3 (given_name g, gv_pair g, trailing (gv_var g)) k i); [|exact Hk|exact Hm]. unfold old_entries.
          apply (in_map (fun g => (given_name g, gv_pair g, trailing (gv_var g)))). exact I.
        * apply filter_In in I as [I R]. apply String.eqb_eq in R. destruct (Po g I R) as [u [J [<- _]]]. apply in_map. exact J.
    - intros i Hi J. unfold bufs'. destruct (positions true 0 mask) as [|p ps]; [split; reflexivity|]. cbn [fst snd]. split.
      + apply map_ext. intros n. apply Q2; assumption.
      + apply map_ext. intros n. apply Q4; assumption.
  Qed.

  Hypothesis ans : answers d givens unknowns masked.

  Lemma span_of a b active bufs : inv bufs -> idx_ok B active -> NoDup active ->
    exists span span' mask bufs', table d (length active) (given_shapes givens) span /\
      masked span = Ok (span', mask) /\ length mask = length active /\
      span_solve a b active bufs = Ok (mask, Ok bufs') /\ inv bufs' /\
      (forall k i, nth_error active k = Some i ->
         rows_of_names span (given_names givens) k =
         map (row_input A givens (rows_of_names orig (given_names givens) (Z.to_nat i))
                                 (rows_of_names (snd bufs) (given_names (old_states givens)) (Z.to_nat i)) a b) givens) /\
      (forall k i, nth_error active k = Some i -> nth_error mask k = Some true ->
         rows_of_names (fst bufs') (unknown_names unknowns) (Z.to_nat i) = rows_of_names span' (unknown_names unknowns) k /\
         rows_of_names (snd bufs') (given_names (old_states givens)) (Z.to_nat i) =
           carried givens unknowns (rows_of_names span' (unknown_names unknowns) k)) /\
      (forall i, i < B -> ~ In (Z.of_nat i) (chosen true active mask) ->
         rows_of_names (fst bufs') (unknown_names unknowns) i = rows_of_names (fst bufs) (unknown_names unknowns) i /\
         rows_of_names (snd bufs') (given_names (old_states givens)) i = rows_of_names (snd bufs) (given_names (old_states givens)) i).
  Proof.
    intros I Ia Na. destruct (span_parts a b active bufs I Ia Na) as [span [Ts [Es [R1 St]]]].
    destruct (ans (length active) span Ts) as [span' [mask [Em [Lm Hu]]]].
    destruct (St span' mask Lm Hu) as [bufs' [Eb [I' [R2 R3]]]]. exists span, span', mask, bufs'.
    split; [exact Ts|]. split; [exact Em|]. split; [exact Lm|]. split; [unfold span_solve; rewrite Es, Em, Eb; reflexivity|]. auto.
  Qed.

  Lemma span_solve_total : forall a b active buf, inv buf -> idx_ok B active -> NoDup active ->
    exists mask buf', span_solve a b active buf = Ok (mask, Ok buf') /\ length mask = length active /\ inv buf'.
  Proof.
    intros a b active bufs I Ia Na. destruct (span_of a b active bufs I Ia Na) as [span [span' [mask [bufs' [_ [_ [L [E [I' _]]]]]]]]].
    exists mask, bufs'. split; [exact E|]. split; [exact L|exact I'].
  Qed.

  (** Per row. *)
  Variable solve_row : list (list V) -> list (list V) * bool.
  Hypothesis row_by_row : rowwise d givens unknowns masked solve_row.

  Definition view (bufs : vmap * vmap) (i : nat) : list (list V) * list (list V) :=
    (rows_of_names (fst bufs) (unknown_names unknowns) i, rows_of_names (snd bufs) (given_names (old_states givens)) i).
  Definition row_step (a b : V) (i : nat) (x : list (list V) * list (list V)) : (list (list V) * list (list V)) * bool :=
    let (us, ok) := solve_row (map (row_input A givens (rows_of_names orig (given_names givens) i) (snd x) a b) givens) in
    ((us, carried givens unknowns us), ok).

  Lemma row_step_advance left : forall a b i r c,
    radvance (mid_of A) row_step left a b i (r, c) = advance A givens unknowns solve_row left a b (rows_of_names orig (given_names givens) i) c.
  Proof.
    induction left as [|left IH]; intros a b i r c; cbn [radvance advance]; unfold row_step at 1; cbn [snd];
      destruct (solve_row _) as [us ok]; destruct ok; try reflexivity.
    fold (mid_of A a b). rewrite IH. destruct (advance A givens unknowns solve_row left a (mid_of A a b) _ c) as [[us1 c1]|]; [|reflexivity]. apply IH.
  Qed.

  Lemma span_solve_rows : forall a b active buf mask buf', inv buf -> idx_ok B active -> NoDup active ->
    span_solve a b active buf = Ok (mask, Ok buf') ->
    (forall k i, nth_error active k = Some i ->
       nth_error mask k = Some (snd (row_step a b (Z.to_nat i) (view buf (Z.to_nat i)))) /\
       view buf' (Z.to_nat i) =
         (if snd (row_step a b (Z.to_nat i) (view buf (Z.to_nat i))) then fst (row_step a b (Z.to_nat i) (view buf (Z.to_nat i)))
          else view buf (Z.to_nat i))) /\
    (forall i, i < B -> ~ In (Z.of_nat i) active -> view buf' i = view buf i).
  Proof.
    intros a b active bufs mask bufs' I Ia Na E.
    destruct (span_of a b active bufs I Ia Na) as [span [span' [mask0 [bufs0 [Ts [Em [Lm [E0 [_ [R1 [R2 R3]]]]]]]]]]].
    rewrite E in E0. injection E0 as <- <-. split.
    - intros k i Hk. assert (Kn : k < length active) by (apply nth_error_Some; congruence).
      destruct (row_by_row _ _ _ _ Ts Em k Kn) as [U M]. rewrite (R1 k i Hk) in U, M.
      unfold row_step, view at 1 3. cbn [snd].
      destruct (solve_row _) as [us ok] eqn:Es. cbn [fst snd] in *. split; [exact M|]. destruct ok.
      + destruct (R2 k i Hk M) as [A1 A2]. unfold view. rewrite A1, A2, U. reflexivity.
      + assert (J : ~ In i (chosen true active mask)).
        { intros J. apply chosen_in in J as [k' [K1 K2]]. assert (k = k') by (eapply NoDup_nth_error; [exact Na|exact Kn|congruence]). congruence. }
        assert (Bi : Z.of_nat (Z.to_nat i) = i /\ Z.to_nat i < B).
        { unfold idx_ok in Ia. rewrite Forall_forall in Ia. specialize (Ia i (nth_error_In _ _ Hk)). lia. }
        destruct (R3 (Z.to_nat i)) as [A1 A2]; [apply Bi|rewrite (proj1 Bi); exact J|]. unfold view. rewrite A1, A2. reflexivity.
    - intros i Hi J. destruct (R3 i Hi) as [A1 A2]; [intros K; apply J; eapply chosen_incl; exact K|]. unfold view. rewrite A1, A2. reflexivity.
  Qed.
End Driver.
