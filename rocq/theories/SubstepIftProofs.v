(** The tangent step of the substepped path (JacModel.v [ift_of]) row by row, and the product it amounts to. *)
From Coq Require Import Ring_theory Ring.
From Verif Require Import Base BaseProofs SpecMap SmapProofs Tensor Spec TensorProofs Broadcast SpecBroadcast BroadcastProofs Pack PackProofs
     Implicit ImplicitProofs BatchChunk Substep SpecSubstep DriveProofs RowTableProofs SubstepProofs SubstepRunProofs Mat Jac SubstepJac JacModel SpecJac MatProofs
     JacProofs JacRunProofs SpecAlgebra AlgebraProofs JacExactProofs SpecSubstepJac SubstepJacProofs SubstepJacRunProofs SubstepProductProofs.

(** A row-major block written out by rows. *)
Lemma block_rows {X} (l : list X) M f : forall n, length l = n * M ->
  (forall r m, r < n -> m < M -> nth_error l (r * M + m) = Some (f r m)) ->
  l = flat_map (fun r => map (f r) (seq 0 M)) (seq 0 n).
Proof.
  intros n L H.
  assert (Q : forall k, k <= n -> firstn (k * M) l = flat_map (fun r => map (f r) (seq 0 M)) (seq 0 k)).
  { induction k as [|k IH]; intros Hk; [reflexivity|]. rewrite seq_S, flat_map_app, <- IH by lia. cbn [flat_map Nat.add]. rewrite app_nil_r.
    replace (S k * M) with (k * M + M) by lia. rewrite <- (firstn_skipn (k * M) l) at 1.
    rewrite firstn_app, firstn_length, L. replace (Nat.min (k * M) (n * M)) with (k * M) by nia.
    replace (k * M + M - k * M) with M by lia. rewrite firstn_firstn. replace (Nat.min (k * M + M) (k * M)) with (k * M) by lia. f_equal.
    apply nth_error_ext. intros m. destruct (Nat.lt_ge_cases m M) as [Hm|Hm].
    - rewrite nth_error_map, (nth_error_nth' _ 0), seq_nth by (rewrite ?seq_length; lia). cbn [option_map Nat.add]. rewrite nth_error_firstn by lia.
      rewrite nth_error_skipn. apply H; lia.
    - rewrite (proj2 (nth_error_None _ m)) by (rewrite firstn_length; lia). symmetry. apply nth_error_None. rewrite map_length, seq_length. exact Hm. }
  rewrite <- Q by lia. rewrite <- L. symmetry. apply firstn_all.
Qed.

Section Ift.
  Context {V : Type}.
  Notation vmap := (smap (tensor V)).
  Variable A : arith V.
  Variable neg : V -> V.
  Variable dot : list V -> list V -> V.
  Variable par : string -> result (tensor V).
  Variable d : device.
  Variable i : jimp V.
  Variable given : list (tensor V) -> result (list (tensor V)).
  Variable M : nat.
  Variable solve_row : list (list V) -> list (list V) * bool.
  Variable slope : list (list V) -> list (list V) -> string -> nat -> string -> nat -> V.
  Variable size : string -> nat.
  Notation givens := (is_givens (ji_seg i)).
  Notation unknowns := (is_unknowns (ji_seg i)).

  Lemma elem_row (t : tensor V) n s k r m : rowsof d n [s; M] t -> k < n -> r < s -> m < M ->
    elem t [k; r; m] = nth_error (row t k) (r * M + m).
  Proof.
    intros Rw Hk Hr Hm. pose proof Rw as (W & _ & Sh). unfold elem, row. rewrite Sh. cbn [tl ravel numel fold_right].
    rewrite nth_error_firstn by nia. rewrite nth_error_skipn. f_equal. nia.
  Qed.

  Lemma ift_of_rows : seg_ok givens unknowns -> slopes_by_row neg par d i given solve_row slope size ->
    tangents_by_row d givens unknowns M solve_row (ift_of A neg dot par i given) (tangent_row A dot i M slope size).
  Proof.
    intros Sg (Szg & Szu & Pr & ps & Ep & Hb) n ks span span_d Hn T Ku Kg Td Sv.
    destruct (Hb n ks span Hn T Ku Kg Sv) as (us & gs & As & rest & Bs & blks & Eu & Eg & Ej & La & Ev & Du & Fb). clear Hb.
    set (F := fun (b : list nat) (v : string) (r : nat) (_ : string) (c : nat) =>
                component A M (given_names givens) (rows_of_names span_d (given_names givens) (hd 0 b)) v r c).
    set (col := fun (m : nat) (_ : string) (c : nat) => m < M /\ c = m).
    assert (Hh : holds d [n] size M col (given_names givens) span_d F).
    { intros v Iv. apply in_map_iff in Iv as [g [<- Ig]]. 
      assert (Lc : lookup (given_name g) (given_carriers M givens) = Some [var_size (gv_var g); M]).
      { apply lookup_nodup; [|apply (in_map (fun g => (given_name g, [var_size (gv_var g); M]))); exact Ig].
        unfold keys, given_carriers. rewrite map_map. apply Sg. }
      destruct (table_get d n _ span_d _ _ Td Lc) as [t [Lt Rt]]. exists t. split; [exact Lt|]. pose proof Rt as (W & Dv & Sh).
      split; [exact W|]. split; [exact Dv|]. rewrite Szg by exact Ig. split; [exact Sh|].
      intros b r m i0 c Ib Hr [Hm ->]. assert (Eb : exists k, b = [k] /\ k < n) by (clear - Ib; inversion Ib as [|k n' b' l' Hk Ib']; subst; inversion Ib'; subst; exists k; split; [reflexivity|exact Hk]).
      destruct Eb as [k [-> Hk]]. cbn [app].
      rewrite (elem_row t n (var_size (gv_var g)) k r m Rt Hk Hr Hm). unfold F, component. cbn [hd].
      rewrite getrow_val by (apply in_map; exact Ig). unfold val. rewrite Lt. apply nth_error_nth'.
      rewrite (rowsof_row_length d n _ t k Rt Hk). cbn. nia. }
    destruct (implicit_jac_ok A neg dot par d [n] size M col) with (known := given_names givens) (i := i) (given := given) (us := us) (gs := gs)
      (ps := ps) (As := As) (rest := rest) (Bs := Bs) (blks := blks) (F := F) (ds := span_d) as [ds' [Ed Hd]].
    - intros m i0 c [Hm _]. exact Hm.
    - exact Ep.
    - apply Sg.
    - exact Ej.
    - exact La.
    - exact Ev.
    - exact Du.
    - intros g Ig. apply (in_map given_name). exact Ig.
    - exact Szu.
    - clear - Fb Pr. revert Pr. induction Fb as [|p t l l' [H _] Fb IH]; intros Pr; constructor.
      + destruct (Pr p (or_introl eq_refl)) as [P1 P2]. split; [exact P1|]. split; [exact P2|exact H].
      + apply IH. intros q Iq. apply Pr. right. exact Iq.
    - exact Hh.
    - exists ds'. split; [unfold ift_of; rewrite Eu; cbn [bind]; rewrite Eg; cbn [bind]; exact Ed|].
      assert (Hu : forall u, In u unknowns -> exists t, lookup (v_name u) ds' = Some t /\ rowsof d n [var_size u; M] t /\
        forall k r m, k < n -> r < var_size u -> m < M ->
          nth_error (row t k) (r * M + m) = Some (lin_field (a_zero A) (a_add A) dot (implicit_lin [n] size i blks) F [k] (v_name u) r ""%string m)).
      { intros u Iu. destruct (Hd (v_name u)) as [t [Lt (W & Dv & Sh & He)]]; [apply in_or_app; left; apply in_map; exact Iu|].
        rewrite Szu in Sh, He by exact Iu. exists t. assert (Rt : rowsof d n [var_size u; M] t) by (split; [exact W|split; [exact Dv|exact Sh]]).
        split; [exact Lt|]. split; [exact Rt|]. intros k r m Hk Hr Hm. rewrite <- (elem_row t n (var_size u) k r m Rt Hk Hr Hm).
        apply (He [k] r m ""%string m); [constructor; [exact Hk|constructor]|exact Hr|split; [exact Hm|reflexivity]]. }
      split; [intros u Iu; destruct (Hu u Iu) as [t [Lt [Rt _]]]; exists t; split; [exact Lt|exact Rt]|].
      intros k Hk. unfold rows_of_names at 1, tangent_row, unknown_names at 1. rewrite map_map. apply map_ext_in. intros u Iu.
      destruct (Hu u Iu) as [t [Lt [Rt He]]]. unfold val. rewrite Lt.
      apply (block_rows (row t k) M (fun r m => _)); [rewrite (rowsof_row_length d n _ t k Rt Hk); cbn; lia|].
      intros r m Hr Hm. rewrite (He k r m Hk Hr Hm). f_equal. unfold lin_field, implicit_lin. cbn [l_outs l_pairs].
      replace (existsb (String.eqb (v_name u)) (map v_name unknowns)) with true by (symmetry; apply existsb_in; apply in_map; exact Iu).
      assert (Hs : r < size (v_name u)) by (rewrite Szu; assumption).
      generalize (a_zero A). clear - Fb Hk Hs. induction Fb as [|p t l l' [_ Hp] Fb IH]; intros z; [reflexivity|]. cbn [combine map fold_left fst snd].
      rewrite IH. f_equal. destruct (String.eqb_spec (p_out p) (v_name u)) as [E|_]; [|reflexivity].
      rewrite (Hp k r Hk) by (rewrite E; exact Hs). reflexivity.
  Qed.
End Ift.

Lemma getrow_named {V X} (name : X -> string) (f : X -> list V) xs x : NoDup (map name xs) -> In x xs ->
  getrow (map name xs) (map f xs) (name x) = f x.
Proof.
  intros N I. unfold getrow. replace (lookup (name x) (combine (map name xs) (map f xs))) with (Some (f x)); [reflexivity|]. symmetry.
  induction xs as [|y xs IH]; [destruct I|]. cbn [map combine lookup] in *. apply NoDup_cons_iff in N as [Ny N]. destruct I as [->|I]; [rewrite String.eqb_refl; reflexivity|].
  destruct (String.eqb_spec (name x) (name y)) as [E|_]; [|apply IH; assumption]. exfalso. apply Ny. rewrite <- E. apply in_map. exact I.
Qed.

Section Linear.
  Context {V : Type}.
  Notation vmap := (smap (tensor V)).
  Variable A : arith V.
  Variable opp : V -> V.
  Hypothesis R : ring_theory (a_zero A) (a_one A) (a_add A) (a_mul A) (a_sub A) opp eq.
  Add Ring Vring : R.
  Variable i : jimp V.
  Variable M : nat.
  Variable solve_row : list (list V) -> list (list V) * bool.
  Variable slope : list (list V) -> list (list V) -> string -> nat -> string -> nat -> V.
  Variable size : string -> nat.
  Notation givens := (is_givens (ji_seg i)).
  Notation unknowns := (is_unknowns (ji_seg i)).
  Notation dotr := (dotx (a_zero A) (a_add A) (a_mul A)).
  Notation sumr := (sum (a_zero A) (a_add A)).
  Hypothesis seg : seg_ok givens unknowns.
  Hypothesis size_g : forall g, In g givens -> size (given_name g) = var_size (gv_var g).
  Hypothesis pairs_in : forall p, In p (ji_pairs i) -> In (p_in p) (given_names givens) /\ In (p_out p) (unknown_names unknowns).
  Hypothesis nodup : NoDup (map (fun p => (p_out p, p_in p)) (ji_pairs i)).

  (** Summing over the declared pairs of [u] is summing over the givens. *)
  Lemma pairs_sum u (F : string -> V) : forall l, NoDup (map (fun p => (p_out p, p_in p)) l) -> (forall p, In p l -> In (p_in p) (given_names givens)) ->
    sumr (map (fun p => if String.eqb (p_out p) u then F (p_in p) else a_zero A) l) =
    sumr (map (fun n => if existsb (fun p => String.eqb (p_out p) u && String.eqb (p_in p) n) l then F n else a_zero A) (given_names givens)).
  Proof using R seg.
    destruct seg as [_ [Ng _]]. clear seg size_g pairs_in nodup. induction l as [|p l IH]; intros N I; cbn [map].
    - symmetry. apply (sum_zero _ _ _ _ _ opp R). reflexivity.
    - apply NoDup_cons_iff in N as [Np N]. change (a_add A (if String.eqb (p_out p) u then F (p_in p) else a_zero A)
        (sumr (map (fun p => if String.eqb (p_out p) u then F (p_in p) else a_zero A) l)) =
        sumr (map (fun n => if existsb (fun p => String.eqb (p_out p) u && String.eqb (p_in p) n) (p :: l) then F n else a_zero A) (given_names givens))).
      rewrite IH by (try exact N; intros q Iq; apply I; right; exact Iq).
      assert (E1 : (if String.eqb (p_out p) u then F (p_in p) else a_zero A) =
        sumr (map (fun n => if String.eqb (p_out p) u && String.eqb (p_in p) n then F n else a_zero A) (given_names givens))).
      { symmetry. rewrite (sum_one (a_zero A) (a_one A) (a_add A) (a_mul A) (a_sub A) opp R String.string_dec _ _ (p_in p)).
        - rewrite String.eqb_refl, andb_true_r. reflexivity.
        - exact Ng.
        - apply I. left. reflexivity.
        - intros y _ Ne. destruct (String.eqb_spec (p_in p) y) as [E|_]; [congruence|]. rewrite andb_false_r. reflexivity. }
      rewrite E1, <- (sum_add (a_zero A) (a_one A) (a_add A) (a_mul A) (a_sub A) opp R). f_equal. apply map_ext. intros n. cbn [existsb].
      destruct (String.eqb_spec (p_out p) u) as [Eo|_]; cbn [andb orb]; [|ring]. destruct (String.eqb_spec (p_in p) n) as [Ei|_]; cbn [orb]; [|ring].
      replace (existsb (fun p0 => String.eqb (p_out p0) u && String.eqb (p_in p0) n) l) with false; [ring|]. symmetry.
      destruct (existsb _ l) eqn:X; [|reflexivity]. apply existsb_exists in X as [q [Iq X]]. apply andb_true_iff in X as [X1 X2].
      apply String.eqb_eq in X1, X2. exfalso. apply Np. rewrite Eo, Ei, <- X1, <- X2. apply (in_map (fun p => (p_out p, p_in p)) l q Iq).
  Qed.

  Lemma fold_pairs u (F : pair_info -> V) l : forall z,
    fold_left (fun acc p => if String.eqb (p_out p) u then a_add A acc (F p) else acc) l z =
    a_add A z (sumr (map (fun p => if String.eqb (p_out p) u then F p else a_zero A) l)).
  Proof using R.
    clear size_g pairs_in nodup. induction l as [|p l IH]; intros z; [cbn; ring|]. cbn [fold_left map]. rewrite IH. cbn [sum fold_right].
    destruct (String.eqb (p_out p) u); change (fold_right (a_add A) (a_zero A)) with sumr; ring.
  Qed.

  Lemma tangent_linear :
    linear_ift A givens unknowns M solve_row (declared_slope A i slope) (tangent_row A dotr i M slope size).
  Proof using R seg size_g pairs_in nodup.
    intros gs us td _ Ft. pose proof seg as [_ [_ [Nu _]]].
    set (entry := fun (u : var_info) (r m : nat) =>
      fold_left (fun acc p =>
        if String.eqb (p_out p) (v_name u)
        then a_add A acc (dotr (map (slope gs us (p_out p) r (p_in p)) (seq 0 (size (p_in p))))
                              (map (fun y => component A M (given_names givens) td (p_in p) y m) (seq 0 (size (p_in p)))))
        else acc) (ji_pairs i) (a_zero A)).
    assert (Gr : forall u, In u unknowns -> getrow (unknown_names unknowns) (tangent_row A dotr i M slope size gs us td) (v_name u) =
      flat_map (fun r => map (entry u r) (seq 0 M)) (seq 0 (var_size u))).
    { intros u Iu. unfold unknown_names, tangent_row. apply (getrow_named v_name (fun u => flat_map (fun r => map (entry u r) (seq 0 M)) (seq 0 (var_size u)))); [exact Nu|exact Iu]. }
    assert (Ln : forall u n a, length (flat_map (fun r => map (entry u r) (seq 0 M)) (seq a n)) = n * M).
    { intros u. induction n as [|n IH]; intros a; [reflexivity|]. cbn [seq flat_map]. rewrite app_length, map_length, seq_length, IH. reflexivity. }
    split; [intros u Iu; rewrite Gr by exact Iu; apply Ln|]. intros u r m Iu Hr Hm. unfold component at 1. rewrite Gr by exact Iu.
    rewrite (nth_error_nth _ _ _ (x := entry u r m)).
    2: { rewrite (flat_map_nth (fun r => map (entry u r) (seq 0 M)) M (var_size u) 0 r m); [|intros; rewrite map_length, seq_length; reflexivity|exact Hr|exact Hm].
         cbn [Nat.add]. rewrite nth_error_map, (nth_error_nth' _ 0), seq_nth by (rewrite ?seq_length; lia). reflexivity. }
    unfold entry. rewrite fold_pairs.
    set (F := fun n => sumr (map (fun y => a_mul A (slope gs us (v_name u) r n y) (component A M (given_names givens) td n y m)) (seq 0 (size n)))).
    transitivity (sumr (map (fun p => if String.eqb (p_out p) (v_name u) then F (p_in p) else a_zero A) (ji_pairs i))).
    { match goal with |- a_add A _ ?x = ?y => replace x with y; [ring|] end. f_equal. apply map_ext. intros p.
      destruct (String.eqb_spec (p_out p) (v_name u)) as [Eo|_]; [|reflexivity]. rewrite Eo.
      rewrite (dotx_nth A) by (rewrite !map_length; reflexivity). rewrite map_length, seq_length. unfold F. f_equal. apply map_ext_in. intros y Iy. apply in_seq in Iy.
      f_equal; symmetry.
      - rewrite (nth_indep _ _ (slope gs us (v_name u) r (p_in p) 0)) by (rewrite map_length, seq_length; lia). rewrite map_nth, seq_nth by lia. reflexivity.
      - rewrite (nth_indep _ _ (component A M (given_names givens) td (p_in p) 0 m)) by (rewrite map_length, seq_length; lia).
        rewrite (map_nth (fun y => component A M (given_names givens) td (p_in p) y m)), seq_nth by lia. reflexivity. }
    rewrite pairs_sum; [|exact nodup|intros p Ip; apply pairs_in; exact Ip].
    unfold over_cells, cells. rewrite map_flat, (sum_flat A opp R). unfold given_names at 1. rewrite map_map. f_equal. apply map_ext_in. intros g Ig. rewrite map_map. cbn [fst snd].
    unfold declared_slope. destruct (existsb _ (ji_pairs i)).
    - unfold F. rewrite size_g by exact Ig. reflexivity.
    - symmetry. apply (sum_zero _ (a_one A) _ (a_mul A) (a_sub A) opp R). intros y _. ring.
  Qed.
End Linear.

(** ** A whole call *)
Section Whole.
  Context {V : Type}.
  Notation vmap := (smap (tensor V)).
  Variable A : arith V.
  Variable opp : V -> V.
  Hypothesis R : ring_theory (a_zero A) (a_one A) (a_add A) (a_mul A) (a_sub A) opp eq.
  Variable d : device.
  Variable masked : vmap -> result (vmap * list bool).
  Variable ift : vmap -> vmap -> result vmap.
  Variable givens : list given_info.
  Variable unknowns : list var_info.
  Variable M : nat.
  Variable solve_row : list (list V) -> list (list V) * bool.
  Variable slope : list (list V) -> list (list V) -> string -> nat -> string -> nat -> V.
  Variable ift_row : list (list V) -> list (list V) -> list (list V) -> list (list V).
  Hypothesis seg : seg_ok givens unknowns.
  Hypothesis ans : answers_all d givens unknowns masked.
  Hypothesis row_by_row : rowwise d givens unknowns masked solve_row.
  Hypothesis tangent_rows : tangents_by_row d givens unknowns M solve_row ift ift_row.
  Hypothesis lin : linear_ift A givens unknowns M solve_row slope ift_row.

  Lemma entry_carrier dyn (ds : vmap) g k : over d dyn (map (carrier M) (map gv_var givens)) ds -> In g givens -> k < numel dyn ->
    length (match lookup (given_name g) ds with Some t => entry (carrier M (gv_var g)) t k | None => [] end) = var_size (gv_var g) * M.
  Proof using Type.
    intros O I Hk. destruct (O (carrier M (gv_var g))) as [t [L (W & _ & S)]]; [apply in_map, in_map; exact I|]. change (v_name (carrier M (gv_var g))) with (given_name g) in L.
    rewrite L. unfold entry. change (trailing (carrier M (gv_var g))) with [var_size (gv_var g); M] in *. unfold wf in W. rewrite S, numel_app in W.
    replace (numel [var_size (gv_var g); M]) with (var_size (gv_var g) * M) in * by (cbn; lia). rewrite firstn_length, skipn_length, W. nia.
  Qed.

  Lemma run_product level (st ds : vmap) dyn : over d dyn (map gv_var givens) st -> solid dyn (map gv_var givens) ->
    over d dyn (map (carrier M) (map gv_var givens)) ds -> length dyn = 1 \/ M <> 0 ->
    forall st' ds' l, run_substepped_d A masked ift givens unknowns level st ds = (Ok (st', ds'), l) ->
    forall k, k < numel dyn -> exists J,
      product A givens unknowns solve_row slope (entries (map gv_var givens) st k) (accepted (Z.of_nat k) l)
        (entries (map gv_var (old_states givens)) st k) (unit_entry A) J /\
      forall u r m, In u unknowns -> r < var_size u -> m < M ->
        component A M (unknown_names unknowns) (entries (map (carrier M) unknowns) ds' k) (v_name u) r m =
        over_cells A givens (fun g y => a_mul A (J (v_name u) r (given_name g) y)
          (component A M (given_names givens) (entries (map (carrier M) (map gv_var givens)) ds k) (given_name g) y m)).
  Proof using R seg ans row_by_row tangent_rows lin.
    intros O Sd Od Md st' ds' l E k Hk.
    pose proof (run_outcome_d A d masked ift givens unknowns M seg ans solve_row row_by_row ift_row tangent_rows level st ds dyn O Sd Od Md) as Q.
    rewrite E in Q. destruct Q as [_ [_ [_ Q]]]. specialize (Q k Hk).
    pose proof seg as [_ [Ng _]].
    assert (G1 : forall gs g, NoDup (given_names gs) -> In g gs ->
      getrow (given_names gs) (entries (map (carrier M) (map gv_var gs)) ds k) (given_name g) =
      match lookup (given_name g) ds with Some t => entry (carrier M (gv_var g)) t k | None => [] end).
    { intros gs g N I. unfold entries. rewrite !map_map. unfold given_names.
      apply (getrow_named given_name (fun g => match lookup (given_name g) ds with Some t => entry (carrier M (gv_var g)) t k | None => [] end)); [exact N|exact I]. }
    assert (Ft : fits M (given_names givens) (map gv_var givens) (entries (map (carrier M) (map gv_var givens)) ds k)).
    { intros v Iv. apply in_map_iff in Iv as [g [<- Ig]]. change (v_name (gv_var g)) with (given_name g). rewrite G1 by assumption. apply (entry_carrier dyn ds g k Od Ig Hk). }
    apply (marched_product A opp R givens unknowns M solve_row slope ift_row seg lin _ Ft _ _ _ _ _ _ Q).
    apply (start_tracked A opp R givens unknowns M seg _ Ft). intros h Ih.
    rewrite (G1 givens h Ng) by (apply filter_In in Ih as [Ih _]; exact Ih). apply G1; [|exact Ih].
    apply (nodup_filter_names givens Ng (fun g => String.eqb (gv_role g) "old_state"%string)).
  Qed.
End Whole.
