(** Proofs about group tensors as rows, and about Newton solves of implicit segments. *)
From Verif Require Import Base BaseProofs Tensor TensorProofs Spec Float Newton SpecNewton NewtonProofs MaskedProofs Broadcast SpecBroadcast BroadcastProofs
     SpecMap SmapProofs Pack SpecPack PackProofs Implicit ImplicitProofs Substep Jac JacModel FwdModel Krylov KrylovSystem SystemAoti SpecSolved.

Notation gsize g := (numel (trail_shape g)).

Lemma trail_axes g dyn : dyn ++ trail_shape g = axes g dyn ++ [width_of g (g_vars g)].
Proof.
  unfold trail_shape, axes, width_of, is_block. rewrite <- app_assoc. do 4 f_equal.
  apply map_ext. intros v. apply segment_columns.
Qed.
Lemma gsize_entries g : gsize g = numel (axes g []) * width_of g (g_vars g).
Proof. rewrite <- (app_nil_l (trail_shape g)), trail_axes, numel_app, numel_one. reflexivity. Qed.

Lemma fits_group_iff dyn g t : fits_group dyn g t = true <-> exists d, group_tensor g dyn d t.
Proof.
  unfold fits_group, group_tensor. rewrite andb_true_iff, Nat.eqb_eq, shape_eqb_eq, <- trail_axes. unfold wf. split.
  - intros [A B]. exists (t_dev t). auto.
  - intros [d [A [_ B]]]. auto.
Qed.

Lemma forall2_combine {A B} (P : A -> B -> Prop) a b : length b = length a ->
  (forall p, In p (combine a b) -> P (fst p) (snd p)) -> Forall2 P a b.
Proof.
  revert b. induction a as [|x a IH]; intros [|y b] L H; try discriminate; constructor.
  - apply (H (x, y)). left. reflexivity.
  - apply IH; [injection L as L; exact L|]. intros p I. apply H. right. exact I.
Qed.
Lemma combine_forall2 {A B} (P : A -> B -> Prop) a b : Forall2 P a b -> forall p, In p (combine a b) -> P (fst p) (snd p).
Proof. intros H. induction H as [|x y a b Hx H IH]; intros p I; [destruct I|]. destruct I as [<-|I]; [exact Hx|apply IH, I]. Qed.

Lemma f2_len {A B} (P : A -> B -> Prop) a b : Forall2 P a b -> length a = length b.
Proof. intros H. induction H; cbn; congruence. Qed.
Lemma f2_impl {A B} (P Q : A -> B -> Prop) a b : (forall x y, P x y -> Q x y) -> Forall2 P a b -> Forall2 Q a b.
Proof. intros I H. induction H; constructor; auto. Qed.
Lemma to_rows_ok G dyn ts u : to_rows G dyn ts = Ok u ->
  Forall2 (fun g t => exists d, group_tensor g dyn d t) G ts /\
  u = map (fun i => batch_row G i ts) (seq 0 (numel dyn)).
Proof.
  unfold to_rows. destruct (_ && _) eqn:C; [|discriminate]. intros H. injection H as <-.
  apply andb_prop in C. destruct C as [L C]. apply Nat.eqb_eq in L. rewrite forallb_forall in C. split.
  - apply forall2_combine; [exact L|]. intros p I. apply fits_group_iff, C, I.
  - apply map_ext. intros i. unfold batch_row. apply map_ext. intros p. unfold group_row, row_data. rewrite <- gsize_entries. reflexivity.
Qed.
Lemma to_rows_of G dyn ts : Forall2 (fun g t => exists d, group_tensor g dyn d t) G ts ->
  to_rows G dyn ts = Ok (map (fun i => batch_row G i ts) (seq 0 (numel dyn))).
Proof.
  intros H. unfold to_rows.
  rewrite (proj2 (Nat.eqb_eq (length ts) (length G)) (eq_sym (f2_len _ _ _ H))).
  replace (forallb _ _) with true; cbn [andb].
  - f_equal. apply map_ext. intros i. unfold batch_row. apply map_ext. intros p. unfold group_row, row_data. rewrite <- gsize_entries. reflexivity.
  - symmetry. apply forallb_forall. intros p I. apply fits_group_iff. exact (combine_forall2 _ _ _ H p I).
Qed.

(** One group at a time. *)
Definition col (k : nat) (u : batch) : list F := flat_map (fun r => match nth_error r k with Some x => x | None => [] end) u.
Lemma col_row_length sz r k w : map (@length F) r = sz -> nth_error sz k = Some w -> exists x, nth_error r k = Some x /\ length x = w.
Proof.
  intros <- H. rewrite nth_error_map in H. destruct (nth_error r k) as [x|]; [|discriminate]. injection H as <-. eauto.
Qed.
Lemma col_length sz u k w : shaped sz u -> nth_error sz k = Some w -> length (col k u) = length u * w.
Proof.
  intros S H. induction S as [|r u Hr S IH]; [reflexivity|]. cbn [col flat_map length]. fold (col k u). rewrite app_length, IH.
  destruct (col_row_length _ _ _ _ Hr H) as [x [-> <-]]. reflexivity.
Qed.
Lemma col_row sz u k w i r : shaped sz u -> nth_error sz k = Some w -> nth_error u i = Some r ->
  nth_error r k = Some (row_data w i (col k u)).
Proof.
  intros S H. revert i. induction S as [|r' u Hr S IH]; intros i N; [destruct i; discriminate|].
  destruct (col_row_length _ _ _ _ Hr H) as [x [Ex <-]]. cbn [col flat_map]. fold (col k u). rewrite Ex.
  destruct i as [|i]; cbn [nth_error] in N.
  - injection N as ->. rewrite Ex. f_equal. unfold row_data. cbn [Nat.mul skipn]. rewrite firstn_app, Nat.sub_diag, firstn_all. cbn. rewrite app_nil_r. reflexivity.
  - rewrite (IH i N). f_equal. unfold row_data. cbn [Nat.mul]. rewrite skipn_app.
    rewrite (skipn_all2 x) by lia. cbn [app]. do 2 f_equal. lia.
Qed.
Lemma to_groups_nth G dyn devs u k :
  nth_error (to_groups G dyn devs u) k =
  match nth_error G k, nth_error devs k with
  | Some g, Some d => Some (mkT (dyn ++ trail_shape g) (col k u) d)
  | _, _ => None
  end.
Proof.
  unfold to_groups. rewrite nth_error_map, !nth_combine.
  destruct (nth_error G k) as [g|] eqn:E.
  - assert (L : k < length G) by (apply nth_error_Some; rewrite E; discriminate).
    rewrite (nth_error_nth' (seq 0 (length G)) 0) by (rewrite seq_length; exact L). rewrite seq_nth by exact L.
    destruct (nth_error devs k); reflexivity.
  - destruct (nth_error (seq 0 (length G)) k); reflexivity.
Qed.
Lemma to_groups_length G dyn devs u : length devs = length G -> length (to_groups G dyn devs u) = length G.
Proof. intros L. unfold to_groups. rewrite map_length, !combine_length, seq_length. lia. Qed.
Lemma nth_ext {A} (a b : list A) : (forall k, nth_error a k = nth_error b k) -> a = b.
Proof.
  revert b. induction a as [|x a IH]; intros [|y b] H; [reflexivity|specialize (H 0); discriminate|specialize (H 0); discriminate|].
  pose proof (H 0) as E. injection E as ->. f_equal. apply IH. intros k. apply (H (S k)).
Qed.
Lemma forall2_nth {A B} (P : A -> B -> Prop) a b : length b = length a ->
  (forall k x y, nth_error a k = Some x -> nth_error b k = Some y -> P x y) -> Forall2 P a b.
Proof.
  revert b. induction a as [|x a IH]; intros [|y b] L H; try discriminate; constructor; [apply (H 0); reflexivity|].
  apply IH; [injection L as L; exact L|]. intros k. apply (H (S k)).
Qed.
Lemma nth_forall2 {A B} (P : A -> B -> Prop) a b k x y : Forall2 P a b -> nth_error a k = Some x -> nth_error b k = Some y -> P x y.
Proof.
  intros H. revert k. induction H as [|? ? ? ? Hx H IH]; intros [|k] A1 B1; try discriminate; cbn in A1, B1.
  - injection A1 as <-. injection B1 as <-. exact Hx.
  - eapply IH; eassumption.
Qed.

Lemma batch_row_nth G i ts k :
  nth_error (batch_row G i ts) k =
  match nth_error G k, nth_error ts k with Some g, Some t => Some (group_row g i t) | _, _ => None end.
Proof. unfold batch_row. rewrite nth_error_map, nth_combine. destruct (nth_error G k), (nth_error ts k); reflexivity. Qed.
Lemma batch_row_shape G dyn ts i : Forall2 (fun g t => exists d, group_tensor g dyn d t) G ts -> i < numel dyn ->
  map (@length F) (batch_row G i ts) = map (fun g => gsize g) G.
Proof.
  intros H L. apply nth_ext. intros k. rewrite !nth_error_map, batch_row_nth.
  destruct (nth_error G k) as [g|] eqn:A; [|reflexivity].
  destruct (nth_error ts k) as [t|] eqn:B.
  - destruct (nth_forall2 _ _ _ _ _ _ H A B) as [d [W [_ S]]]. cbn [option_map]. f_equal.
    unfold group_row. rewrite <- gsize_entries. apply (row_data_len (gsize g) i (numel dyn)); [|exact L].
    unfold wf in W. rewrite W, S, <- trail_axes, numel_app. reflexivity.
  - exfalso. apply nth_error_None in B. rewrite <- (f2_len _ _ _ H) in B. apply nth_error_None in B. congruence.
Qed.

Lemma rows_shaped G dyn ts u : to_rows G dyn ts = Ok u -> shaped (map (fun g => gsize g) G) u /\ length u = numel dyn.
Proof.
  intros H. destruct (to_rows_ok _ _ _ _ H) as [P ->]. split; [|rewrite map_length, seq_length; reflexivity].
  unfold shaped. apply Forall_forall. intros r I. apply in_map_iff in I. destruct I as [i [<- I]]. apply in_seq in I.
  apply (batch_row_shape G dyn); [exact P|lia].
Qed.

Lemma groups_of_rows G dyn ts u : to_rows G dyn ts = Ok u -> to_groups G dyn (map t_dev ts) u = ts.
Proof.
  intros H. destruct (to_rows_ok _ _ _ _ H) as [P E]. apply nth_ext. intros k. rewrite to_groups_nth, nth_error_map.
  destruct (nth_error G k) as [g|] eqn:A.
  - destruct (nth_error ts k) as [t|] eqn:B; [|reflexivity]. cbn [option_map]. f_equal.
    destruct (nth_forall2 _ _ _ _ _ _ P A B) as [d [W [_ S]]].
    assert (C : col k u = t_data t).
    { rewrite E. unfold col. rewrite flat_map_concat_map, map_map, <- flat_map_concat_map.
      transitivity (flat_map (fun i => row_data (gsize g) i (t_data t)) (seq 0 (numel dyn))).
      - apply flat_map_ext. intros i. rewrite batch_row_nth, A, B. unfold group_row, row_data. rewrite <- gsize_entries. reflexivity.
      - apply row_all. unfold wf in W. rewrite W, S, <- trail_axes, numel_app. reflexivity. }
    rewrite C, trail_axes, <- S. apply mkT_eta.
  - symmetry. apply nth_error_None. rewrite <- (f2_len _ _ _ P). apply nth_error_None. exact A.
Qed.

Lemma groups_tensors G dyn devs u : length devs = length G -> shaped (map (fun g => gsize g) G) u -> length u = numel dyn ->
  Forall2 (fun g t => exists d, group_tensor g dyn d t) G (to_groups G dyn devs u).
Proof.
  intros L S N. apply forall2_nth; [apply to_groups_length; exact L|]. intros k g t A B. rewrite to_groups_nth, A in B.
  destruct (nth_error devs k) as [d|]; [|discriminate]. injection B as <-. exists d. unfold group_tensor. cbn [t_dev t_shape].
  rewrite <- trail_axes. split; [|split; reflexivity]. unfold wf. cbn [t_data t_shape]. rewrite numel_app, <- N.
  apply (col_length (map (fun g => gsize g) G)); [exact S|]. rewrite nth_error_map, A. reflexivity.
Qed.
Lemma rows_of_groups G dyn devs u : length devs = length G -> shaped (map (fun g => gsize g) G) u -> length u = numel dyn ->
  to_rows G dyn (to_groups G dyn devs u) = Ok u.
Proof.
  intros L S N. rewrite (to_rows_of _ _ _ (groups_tensors _ _ _ _ L S N)). f_equal. apply nth_ext. intros i.
  rewrite nth_error_map. destruct (nth_error u i) as [r|] eqn:E.
  - assert (I : i < length u) by (apply nth_error_Some; rewrite E; discriminate). rewrite N in I.
    rewrite (nth_error_nth' (seq 0 (numel dyn)) 0) by (rewrite seq_length; exact I). rewrite seq_nth by exact I. cbn [option_map]. f_equal.
    assert (Sr : map (@length F) r = map (fun g => gsize g) G) by (exact (shaped_nth _ _ _ _ S E)).
    apply nth_ext. intros k. rewrite batch_row_nth, to_groups_nth.
    destruct (nth_error G k) as [g|] eqn:A.
    + destruct (nth_error devs k) as [d|] eqn:D.
      * unfold group_row. rewrite <- gsize_entries. cbn [t_data]. symmetry.
        apply (col_row (map (fun g => gsize g) G)); [exact S|rewrite nth_error_map, A; reflexivity|exact E].
      * exfalso. apply nth_error_None in D. rewrite L in D. apply nth_error_None in D. congruence.
    + symmetry. apply nth_error_None. apply nth_error_None in A. rewrite <- (map_length (@length F)), Sr, map_length. exact A.
  - apply nth_error_None in E. rewrite N in E.
    replace (nth_error (seq 0 (numel dyn)) i) with (@None nat); [reflexivity|]. symmetry. apply nth_error_None. rewrite seq_length. exact E.
Qed.

(** ** Newton solves *)
Lemma solve_loop_shapes fsum cfg s b0n : forall left i hist u b u' k t, shaped (sy_usizes s) u -> length b = length u ->
  solve_loop fsum cfg s b0n left i hist u b = (Ok (u', k), t) -> shaped (sy_usizes s) u' /\ length u' = length u.
Proof.
  induction left as [|left IH]; intros i hist u b u' k t S L H; cbn [solve_loop] in H; [discriminate|].
  apply io_ok in H. destruct H as [[u1 b1] [t1 [t2 [It [H _]]]]].
  apply iterate_shapes in It; [|exact S|exact L|discriminate]. destruct It as [_ [L1 [L2 S1]]].
  destruct (check_stop _ _ _).
  - apply IH in H; [|exact S1|lia]. destruct H as [A B]. split; [exact A|lia].
  - injection H as <- <- <-. auto.
  - discriminate.
Qed.
Lemma solve_shapes fsum cfg s u0 u k t : solve fsum cfg s u0 = (Ok (u, k), t) -> shaped (sy_usizes s) u /\ length u = length u0.
Proof.
  unfold solve. intros H. apply io_ok in H. destruct H as [b0 [t1 [t2 [En [H _]]]]].
  apply entry_ok in En. destruct En as [S0 [R0 [L0 _]]].
  destruct (check_converged _ _ _); [injection H as <- <- <-; auto|]. eapply solve_loop_shapes; eassumption.
Qed.
Lemma masked_loop_shapes fsum cfg s b0n : forall left i fz cv hist u b u' m k t, shaped (sy_usizes s) u -> length b = length u -> length b0n = length u ->
  (forall f, fz = Some f -> length f = length u) ->
  masked_loop fsum cfg s b0n left i fz cv hist u b = (Ok (u', m, k), t) -> shaped (sy_usizes s) u' /\ length u' = length u.
Proof.
  induction left as [|left IH]; intros i fz cv hist u b u' m k t S L L0 Lf H; cbn [masked_loop] in H; [injection H as <- <- <- <-; auto|].
  apply io_ok in H. destruct H as [[u1 b1] [t1 [t2 [It [H _]]]]].
  apply iterate_shapes in It; [|exact S|exact L|exact Lf]. destruct It as [_ [L1 [L2 S1]]].
  match type of H with (if ?c then _ else _) = _ => destruct c end; [injection H as <- <- <- <-; auto|].
  apply IH in H; [destruct H as [A B]; split; [exact A|lia]|exact S1|lia|lia|].
  intros f E. injection E as <-. apply or_mask_length; [rewrite L2; exact Lf|].
  unfold masked_converged. rewrite map2_length, !combine_length, !norms_length, map2_length. lia.
Qed.
Lemma masked_shapes fsum cfg s u0 u m k t : solve_masked fsum cfg s u0 = (Ok (u, m, k), t) -> shaped (sy_usizes s) u /\ length u = length u0.
Proof.
  unfold solve_masked. intros H. apply io_ok in H. destruct H as [b0 [t1 [t2 [En [H _]]]]].
  apply entry_ok in En. destruct En as [S0 [R0 [L0 _]]].
  match type of H with (if ?c then _ else _) = _ => destruct c end; [injection H as <- <- <- <-; auto|].
  eapply masked_loop_shapes in H; [exact H|exact S0|exact L0|rewrite norms_length; exact L0|discriminate].
Qed.

Lemma row_residual s dyn devs u ts b : to_groups (gs_unknown s) dyn devs u = ts ->
  sy_residual (row_system s dyn devs) u = Ok b ->
  exists r, gs_res s ts = Ok r /\ Forall2 (fun g t => exists d, group_tensor g dyn d t) (gs_residual s) r /\
    b = map (fun i => batch_row (gs_residual s) i r) (seq 0 (numel dyn)).
Proof.
  intros <- H. cbn [row_system sy_residual] in H. destruct (gs_res s _) as [r|] eqn:E; [|discriminate]. cbn [bind] in H.
  destruct (to_rows_ok _ _ _ _ H) as [A B]. eauto.
Qed.
Lemma nth_rows {A} (f : nat -> A) n i : i < n -> nth_error (map f (seq 0 n)) i = Some (f i).
Proof.
  intros H. rewrite nth_error_map, (nth_error_nth' (seq 0 n) 0) by (rewrite seq_length; exact H). rewrite seq_nth by exact H. reflexivity.
Qed.

Lemma groups_devs G dyn (us0 : groups) u : length us0 = length G -> map t_dev (to_groups G dyn (map t_dev us0) u) = map t_dev us0.
Proof.
  intros L. apply nth_ext. intros j. rewrite nth_error_map, to_groups_nth, nth_error_map.
  destruct (nth_error us0 j) as [t0|] eqn:Ej; cbn [option_map].
  - destruct (nth_error G j) eqn:E; [reflexivity|]. exfalso. apply nth_error_None in E. rewrite <- L in E. apply nth_error_None in E. congruence.
  - destruct (nth_error G j); reflexivity.
Qed.
Lemma newton_solved fsum cfg s us0 us : newton_solve fsum cfg s us0 = Ok us ->
  exists dyn r0 r,
    Forall2 (fun g t => exists d, group_tensor g dyn d t) (gs_unknown s) us0 /\
    Forall2 (fun g t => exists d, group_tensor g dyn d t) (gs_unknown s) us /\ map t_dev us = map t_dev us0 /\
    gs_res s us0 = Ok r0 /\ gs_res s us = Ok r /\
    Forall2 (fun g t => exists d, group_tensor g dyn d t) (gs_residual s) r0 /\
    Forall2 (fun g t => exists d, group_tensor g dyn d t) (gs_residual s) r /\
    balanced fsum cfg (gs_residual s) dyn r0 r.
Proof.
  unfold newton_solve. destruct (leading _ _) as [dyn|]; [|discriminate]. cbn [bind].
  destruct (to_rows _ _ _) as [u0|] eqn:E0; [|discriminate]. cbn [bind].
  destruct (solve _ _ _ _) as [[[u k]|e] t] eqn:E; cbn [fst bind]; [|discriminate]. intros H. injection H as <-.
  pose proof (solve_returned fsum cfg _ u0 u k t E) as [[b0 [b [R0 [R [L0 [L [Lu Q]]]]]]] _].
  destruct (solve_shapes _ _ _ _ _ _ _ E) as [Su Lu']. cbn [row_system sy_usizes] in Su.
  pose proof (to_rows_ok _ _ _ _ E0) as [F0 _].
  pose proof (rows_shaped _ _ _ _ E0) as [S0 N0].
  assert (Ld : length (map t_dev us0) = length (gs_unknown s)) by (rewrite map_length; symmetry; exact (f2_len _ _ _ F0)).
  destruct (row_residual _ _ _ _ us0 _ (groups_of_rows _ _ _ _ E0) R0) as [r0 [A0 [B0 C0]]].
  destruct (row_residual _ _ _ _ _ _ eq_refl R) as [r [A [B C]]].
  exists dyn, r0, r. split; [exact F0|]. split; [apply groups_tensors; [exact Ld|exact Su|lia]|].
  split; [apply groups_devs; symmetry; exact (f2_len _ _ _ F0)|].
  split; [exact A0|]. split; [exact A|]. split; [exact B0|]. split; [exact B|].
  intros i I. apply (Q i); [rewrite C|rewrite C0]; apply (nth_rows (fun i => batch_row (gs_residual s) i _)); exact I.
Qed.

Lemma newton_masked_solved fsum cfg s us0 us m : newton_solve_masked fsum cfg s us0 = Ok (us, m) ->
  exists dyn r0 r,
    Forall2 (fun g t => exists d, group_tensor g dyn d t) (gs_unknown s) us0 /\
    Forall2 (fun g t => exists d, group_tensor g dyn d t) (gs_unknown s) us /\ map t_dev us = map t_dev us0 /\ gs_unknown s <> [] /\
    gs_res s us0 = Ok r0 /\ gs_res s us = Ok r /\
    Forall2 (fun g t => exists d, group_tensor g dyn d t) (gs_residual s) r0 /\
    Forall2 (fun g t => exists d, group_tensor g dyn d t) (gs_residual s) r /\
    length m = numel dyn /\ marked_balanced fsum cfg (gs_residual s) m r0 r.
Proof.
  unfold newton_solve_masked. destruct (leading _ _) as [dyn|] eqn:El; [|discriminate]. cbn [bind].
  destruct (to_rows _ _ _) as [u0|] eqn:E0; [|discriminate]. cbn [bind].
  destruct (solve_masked _ _ _ _) as [[[[u m'] k]|e] t] eqn:E; cbn [fst bind]; [|discriminate]. intros H. injection H as <- <-.
  pose proof (masked_mask fsum cfg _ u0 u m' k t E) as [b0 [b [R0 [R [L0 [L [Lu [Lm M]]]]]]]].
  destruct (masked_shapes _ _ _ _ _ _ _ _ E) as [Su Lu']. cbn [row_system sy_usizes] in Su.
  pose proof (to_rows_ok _ _ _ _ E0) as [F0 _].
  pose proof (rows_shaped _ _ _ _ E0) as [S0 N0].
  assert (Ld : length (map t_dev us0) = length (gs_unknown s)) by (rewrite map_length; symmetry; exact (f2_len _ _ _ F0)).
  destruct (row_residual _ _ _ _ us0 _ (groups_of_rows _ _ _ _ E0) R0) as [r0 [A0 [B0 C0]]].
  destruct (row_residual _ _ _ _ _ _ eq_refl R) as [r [A [B C]]].
  exists dyn, r0, r. split; [exact F0|]. split; [apply groups_tensors; [exact Ld|exact Su|lia]|].
  split; [apply groups_devs; symmetry; exact (f2_len _ _ _ F0)|]. split; [intros C'; rewrite C' in El; discriminate El|].
  split; [exact A0|]. split; [exact A|]. split; [exact B0|]. split; [exact B|]. split; [lia|].
  intros i Nm. assert (I : i < length m') by (apply nth_error_Some; congruence).
  assert (In_ : i < numel dyn) by lia.
  assert (Nb : nth_error b i = Some (batch_row (gs_residual s) i r)) by (rewrite C; apply (nth_rows (fun i => batch_row (gs_residual s) i _)); exact In_).
  assert (Nb0 : nth_error b0 i = Some (batch_row (gs_residual s) i r0)) by (rewrite C0; apply (nth_rows (fun i => batch_row (gs_residual s) i _)); exact In_).
  destruct (nth_error u i) as [x|] eqn:Nx; [|apply nth_error_None in Nx; lia].
  pose proof (proj1 (M i true _ _ x Nm Nb Nb0 Nx) eq_refl) as T. clear M.
  destruct (last_iterate t) as [v|]; [destruct T as [x' [_ [T|[T _]]]]|].
  - split; [left; exact T|eapply flt_finite_or; exact T].
  - split; [right; exact T|]. destruct (rnorm fsum (batch_row _ i r)); [reflexivity|reflexivity|discriminate T|reflexivity].
  - split; [left; exact T|eapply flt_finite_or; exact T].
Qed.

Lemma pack_groups_ext {V} (st st' : smap (tensor V)) G : (forall n, In n (names G) -> lookup n st' = lookup n st) -> pack_groups st' G = pack_groups st G.
Proof.
  intros H. unfold pack_groups. apply mapM_ext. intros g I. unfold pack_group.
  rewrite (mapM_ext (pack_var g st') (pack_var g st) (g_vars g)); [reflexivity|].
  intros v J. unfold pack_var. rewrite H; [reflexivity|]. unfold names. apply in_map. apply in_flat_map. eauto.
Qed.

Lemma make_unknown s gs ps : gs_unknown (make_system s gs ps) = ss_unknown_groups s.
Proof. unfold make_system. destruct (ss_kind s); reflexivity. Qed.
Lemma make_residual s gs ps : gs_residual (make_system s gs ps) = ss_residual_groups s.
Proof. unfold make_system. destruct (ss_kind s); reflexivity. Qed.
Lemma make_res s gs ps u : gs_res (make_system s gs ps) u = ss_residual_graph s (u ++ gs ++ ps).
Proof. unfold make_system. destruct (ss_kind s); reflexivity. Qed.

Lemma prepared_packs {V} zero par sg (st st1 : smap (tensor V)) gs ps us l : prepare_solve zero par sg st = (Ok (st1, gs, ps, us), l) ->
  pack_groups st1 (is_given_groups sg) = Ok gs /\ mapM par (is_params sg) = Ok ps.
Proof.
  intros P. unfold prepare_solve in P. destruct (is_givens _) as [|g0 g']; [discriminate|]. destruct (lookup _ _) as [t0|]; [|discriminate].
  destruct (Nat.ltb _ _); [discriminate|]. destruct (run_predictor _ _ _ _ _ _) as [[x|e] l0]; [|discriminate]. cbn [bind] in P.
  destruct (pack_groups x (is_given_groups _)) eqn:E1; [|discriminate]. cbn [bind] in P.
  destruct (pack_groups x (is_unknown_groups _)) eqn:E2; [|discriminate]. cbn [bind] in P.
  destruct (mapM par _) eqn:E3; [|discriminate]. cbn [bind] in P. injection P as <- <- <- <- <-. auto.
Qed.
Lemma segment_solved fsum cfg zero par capture s st st' : segment_ok s ->
  run_implicit zero par capture (seg_of fsum cfg s) st = Ok st' ->
  exists st1 gs ps us0 calls, prepare_solve zero par (seg_of fsum cfg s) st = (Ok (st1, gs, ps, us0), calls) /\
    solves fsum cfg par s us0 st' /\ pack_groups st' (ss_given_groups s) = Ok gs /\
    forall n, ~ In n (names (ss_unknown_groups s)) -> lookup n st' = lookup n st1.
Proof.
  intros [Gok [ND Dj]] H. apply run_implicit_ok in H. destruct H as [st1 [gs [ps [us0 [calls [us [P [So Un]]]]]]]].
  exists st1, gs, ps, us0, calls. split; [exact P|]. cbn [seg_of is_solve is_unknown_groups] in So, Un.
  apply newton_solved in So. rewrite make_unknown, make_residual, !make_res in So.
  destruct So as [dyn [r0 [r [F0 [F1 [_ [A0 [A [B0 [B Q]]]]]]]]]].
  destruct (unpack_pack_groups (ss_unknown_groups s) us st1 Gok ND) as [st2 [U2 [P2 K]]].
  { eapply f2_impl; [|exact F1]. intros g t [d Hd]. eauto. }
  rewrite Un in U2. injection U2 as <-.
  destruct (prepared_packs _ _ _ _ _ _ _ _ _ P) as [PG PP]. cbn [seg_of is_given_groups is_params] in PG, PP.
  assert (PG' : pack_groups st' (ss_given_groups s) = Ok gs) by (rewrite (pack_groups_ext st1 st'); [exact PG|intros n I; apply K, Dj, I]).
  split; [|split; [exact PG'|exact K]].
  exists dyn, us, gs, ps, r0, r. repeat (split; [assumption|]). exact Q.
Qed.

Lemma masked_segment_solved fsum cfg zero par s st st' m : segment_ok s ->
  run_implicit_masked zero par (seg_of fsum cfg s) st = Ok (st', m) ->
  exists st1 gs ps us0 calls, prepare_solve zero par (seg_of fsum cfg s) st = (Ok (st1, gs, ps, us0), calls) /\
    solves_marked fsum cfg par s us0 m st' /\ pack_groups st' (ss_given_groups s) = Ok gs /\
    forall n, ~ In n (names (ss_unknown_groups s)) -> lookup n st' = lookup n st1.
Proof.
  intros [Gok [ND Dj]] H. unfold run_implicit_masked in H.
  destruct (prepare_solve _ _ _ _) as [[[[[st1 gs] ps] us0]|] calls] eqn:P; [|discriminate]. cbn [fst bind] in H.
  destruct (is_solve_masked _ _ _ _) as [[us m']|] eqn:So; [|discriminate]. cbn [bind] in H.
  destruct (unpack_groups _ _ _) as [st2'|] eqn:Un; [|discriminate]. cbn [bind] in H. injection H as -> ->.
  exists st1, gs, ps, us0, calls. split; [reflexivity|]. cbn [seg_of is_solve_masked is_unknown_groups] in So, Un.
  apply newton_masked_solved in So. rewrite make_unknown, make_residual, !make_res in So.
  destruct So as [dyn [r0 [r [F0 [F1 [_ [_ [A0 [A [B0 [B Q]]]]]]]]]]].
  destruct (unpack_pack_groups (ss_unknown_groups s) us st1 Gok ND) as [st2 [U2 [P2 K]]].
  { eapply f2_impl; [|exact F1]. intros g t [d Hd]. eauto. }
  rewrite Un in U2. injection U2 as <-.
  destruct (prepared_packs _ _ _ _ _ _ _ _ _ P) as [PG PP]. cbn [seg_of is_given_groups is_params] in PG, PP.
  assert (PG' : pack_groups st' (ss_given_groups s) = Ok gs) by (rewrite (pack_groups_ext st1 st'); [exact PG|intros n I; apply K, Dj, I]).
  split; [|split; [exact PG'|exact K]].
  exists dyn, us, gs, ps, r0, r. repeat (split; [assumption|]). exact Q.
Qed.

(** ** What a segment leaves alone *)
Lemma unpack_frame {V} gts groups (st st' : smap (tensor V)) n : unpack_groups gts groups st = Ok st' -> ~ In n (names groups) ->
  lookup n st' = lookup n st.
Proof.
  unfold unpack_groups. destruct (assert_ _ _); [|discriminate]. cbn [bind]. revert gts st.
  induction groups as [|g groups IH]; intros gts st H N; [destruct gts; injection H as <-; reflexivity|].
  destruct gts as [|gt gts]; [injection H as <-; reflexivity|]. cbn [unpack_list] in H.
  destruct (unpack_group g gt st) as [st1|] eqn:E; [|discriminate]. cbn [bind] in H.
  unfold names in N. cbn [flat_map] in N. rewrite map_app in N.
  rewrite (IH gts st1 H) by (intros I; apply N, in_or_app; right; exact I).
  assert (Nv : ~ In n (map v_name (g_vars g))) by (intros I; apply N, in_or_app; left; exact I). clear - E Nv.
  unfold unpack_group in E. destruct (assert_ _ _); [|discriminate]. cbn [bind] in E. revert E. generalize (firstn (dim gt - if is_block g then length (g_sub g) + 1 else 1) (t_shape gt)). intros bt. generalize 0 as off. revert st.
  induction (g_vars g) as [|v vs IH]; intros st off E; cbn [unpack_vars] in E; [injection E as <-; reflexivity|].
  destruct (narrow_last _ _ _); [|discriminate]. cbn [bind] in E. destruct (reshape _ _); [|discriminate]. cbn [bind] in E.
  cbn [map In] in Nv. rewrite (IH ltac:(tauto) _ _ E). apply lookup_set_other. intros C. apply Nv. left. congruence.
Qed.
Lemma predictor_frame {V} zero par sg dev batch (st st' : smap (tensor V)) l n : run_predictor zero par sg dev batch st = (Ok st', l) ->
  (forall p, is_predictor sg = Some p -> ~ In n (pr_outputs p) /\ ((0 < fb_iterations (pr_feedback p))%Z -> n <> fb_input (pr_feedback p))) -> lookup n st' = lookup n st.
Proof.
  unfold run_predictor. destruct (is_predictor sg) as [p|]; [|intros H _; injection H as <- _; reflexivity].
  intros H N. destruct (N p eq_refl) as [No Ni].
  assert (Ni' : (0 <? fb_iterations (pr_feedback p))%Z = true -> n <> fb_input (pr_feedback p)) by (intros E; apply Ni, Z.ltb_lt, E). clear Ni. revert H Ni'.
  generalize (0 <? fb_iterations (pr_feedback p))%Z as it. intros it H Ni. revert H. set (k := if it then _ else _).
  assert (G : forall k (st st' : smap (tensor V)) l, predictor_loop par p dev it k st = (Ok st', l) -> lookup n st' = lookup n st).
  { clear - No Ni. induction k as [|k IH]; intros st st' l H; cbn [predictor_loop] in H; [injection H as <- _; reflexivity|].
    unfold predictor_pass in H. destruct (mapM _ (pr_inputs p)) as [ins|]; [|discriminate].
    destruct (mapM par (pr_params p)) as [ps|]; [|discriminate]. destruct (pr_run p (ins ++ ps)) as [outs|]; [|discriminate]. cbn [bind] in H.
    destruct (assert_ _ _); [|discriminate]. cbn [bind] in H.
    assert (S : lookup n (set_all (pr_outputs p) (map (to_dev dev) outs) st) = lookup n st) by (apply set_all_other; exact No).
    destruct it.
    - specialize (Ni eq_refl). unfold feed in H. destruct (lookup (fb_output _) _) as [t|]; [|discriminate].
      destruct (predictor_loop par p dev true k _) as [r' l'] eqn:E. injection H as -> _. rewrite (IH _ _ _ E), lookup_set_other by congruence. exact S.
    - destruct (predictor_loop par p dev false k _) as [r' l'] eqn:E. injection H as -> _. rewrite (IH _ _ _ E). exact S. }
  intros H. rewrite (G k _ _ _ H). destruct it; [apply lookup_set_other; specialize (Ni eq_refl); congruence|reflexivity].
Qed.
Lemma prepare_frame {V} zero par sg (st st1 : smap (tensor V)) gs ps us l n : prepare_solve zero par sg st = (Ok (st1, gs, ps, us), l) ->
  ~ In n (map v_name (is_unknowns sg)) ->
  (forall p, is_predictor sg = Some p -> ~ In n (pr_outputs p) /\ ((0 < fb_iterations (pr_feedback p))%Z -> n <> fb_input (pr_feedback p))) -> lookup n st1 = lookup n st.
Proof.
  unfold prepare_solve. intros P Nu Np. destruct (is_givens _) as [|g0 g']; [discriminate|]. destruct (lookup (v_name _) _) as [t0|]; [|discriminate].
  destruct (Nat.ltb _ _); [discriminate|]. destruct (run_predictor _ _ _ _ _ _) as [[x|e] l0] eqn:E; [|discriminate]. cbn [bind] in P.
  destruct (pack_groups x (is_given_groups _)); [|discriminate]. cbn [bind] in P.
  destruct (pack_groups x (is_unknown_groups _)); [|discriminate]. cbn [bind] in P.
  destruct (mapM par _); [|discriminate]. cbn [bind] in P. injection P as <- _ _ _ _.
  rewrite (predictor_frame _ _ _ _ _ _ _ _ n E Np). apply seed_not_unknown. exact Nu.
Qed.

Section Frame.
  Context {V : Type}.
  Notation vmap := (smap (tensor V)).
  Lemma put_results_frame us res dyn n : forall (st st' : vmap), put_results us res dyn st = Ok st' -> ~ In n (map v_name us) -> lookup n st' = lookup n st.
  Proof.
    induction us as [|u us IH]; intros st st' H N; cbn [put_results] in H; [injection H as <-; reflexivity|].
    destruct (at_ _ _); [|discriminate]. cbn [bind] in H. destruct (match dyn with None => _ | Some d => _ end); [|discriminate]. cbn [bind] in H.
    cbn [map In] in N. rewrite (IH _ _ H) by tauto. apply lookup_set_other. intros C. apply N. left. congruence.
  Qed.
  Lemma substepped_frame A masked givens unknowns level (st st' : vmap) n :
    fst (run_substepped A masked givens unknowns level st) = Ok st' -> ~ In n (map v_name unknowns) -> lookup n st' = lookup n st.
  Proof.
    unfold run_substepped. intros H N. destruct givens as [|g0 gs]; [discriminate|]. destruct (at_ _ _) as [t0|]; [|discriminate].
    destruct (Nat.ltb _ _); [discriminate|].
    match type of H with context [match ?x with Ok _ => _ | Err _ => _ end] => destruct x as [[[[orig B] res] ch]|]; [|discriminate] end.
    destruct (solve_to _ _ _ _ _ _ _ _ _ _) as [[bufs|] l]; [|discriminate]. cbn [fst bind] in H. eapply put_results_frame; eassumption.
  Qed.
  Lemma implicit_frame zero par capture sg (st st' : vmap) n : run_implicit zero par capture sg st = Ok st' ->
    ~ In n (map v_name (is_unknowns sg)) -> ~ In n (names (is_unknown_groups sg)) ->
    (forall p, is_predictor sg = Some p -> ~ In n (pr_outputs p) /\ ((0 < fb_iterations (pr_feedback p))%Z -> n <> fb_input (pr_feedback p))) -> lookup n st' = lookup n st.
  Proof.
    intros H Nu Ng Np. apply run_implicit_ok in H. destruct H as [st1 [gs [ps [us0 [calls [us [P [_ Un]]]]]]]].
    rewrite (unpack_frame _ _ _ _ _ Un Ng). exact (prepare_frame _ _ _ _ _ _ _ _ _ n P Nu Np).
  Qed.
  Lemma value_step_frame A par base_ndim capture batch sg (st st' : vmap) n :
    value_step A par base_ndim capture batch sg st = Ok st' -> ~ written sg n -> lookup n st' = lookup n st.
  Proof.
    destruct sg as [f|i]; cbn [value_step written]; intros H N.
    - unfold run_forward_segment in H. repeat (match type of H with bind ?x _ = _ => destruct x; [|discriminate]; cbn [bind] in H end).
      injection H as <-. apply set_all_other. exact N.
    - assert (Np : forall p, is_predictor (ji_seg i) = Some p -> ~ In n (pr_outputs p) /\ ((0 < fb_iterations (pr_feedback p))%Z -> n <> fb_input (pr_feedback p))).
      { intros p Ep. split; [intros C|intros Ps C]; apply N; right; right; exists p; auto. }
      destruct (Nat.ltb _ _).
      + eapply substepped_frame; [exact H|tauto].
      + eapply implicit_frame; [exact H|tauto|tauto|exact Np].
  Qed.
  Lemma value_steps_frame A par base_ndim capture batch n : forall sgs (st st' : vmap),
    value_steps A par base_ndim capture batch sgs st = Ok st' -> (forall sg, In sg sgs -> ~ written sg n) -> lookup n st' = lookup n st.
  Proof.
    induction sgs as [|sg sgs IH]; intros st st' H N; cbn [value_steps] in H; [injection H as <-; reflexivity|].
    destruct (value_step _ _ _ _ _ sg st) as [st1|] eqn:E; [|discriminate]. cbn [bind] in H.
    rewrite (IH st1 st' H) by (intros sg' I; apply N; right; exact I). eapply value_step_frame; [exact E|apply N; left; reflexivity].
  Qed.
  Lemma value_steps_app A par base_ndim capture batch pre post (st st' : vmap) :
    value_steps A par base_ndim capture batch (pre ++ post) st = Ok st' ->
    exists st1, value_steps A par base_ndim capture batch pre st = Ok st1 /\ value_steps A par base_ndim capture batch post st1 = Ok st'.
  Proof.
    revert st. induction pre as [|sg pre IH]; intros st H; [exists st; auto|]. cbn [app value_steps] in H |- *.
    destruct (value_step _ _ _ _ _ sg st) as [st1|]; [|discriminate]. cbn [bind] in *. apply IH, H.
  Qed.
  Lemma collect_at outs (st : vmap) : forall acc r, collect outs st acc = Ok r -> forall n,
    lookup n r = if existsb (String.eqb n) outs then lookup n st else lookup n acc.
  Proof.
    induction outs as [|o outs IH]; intros acc r H n; cbn [collect existsb] in *; [injection H as <-; reflexivity|].
    destruct (lookup o st) as [t|] eqn:E; [|discriminate]. rewrite (IH _ _ H n). destruct (String.eqb_spec n o) as [->|No]; cbn [orb].
    - rewrite lookup_set_same, E. destruct (existsb _ _); reflexivity.
    - rewrite lookup_set_other by exact No. reflexivity.
  Qed.
End Frame.

(** ** The whole model *)
Lemma forward_solved fsum cfg A par base_ndim capture infos outs s i sgs pre post inputs res :
  sgs = pre ++ JI i :: post -> ji_seg i = seg_of fsum cfg s -> ji_level i = 0 -> segment_ok s ->
  forward A par base_ndim capture infos sgs outs inputs = Ok res ->
  exists st0 batch st us0 gs ps st1 calls st',
    prepare_inputs infos inputs = Ok st0 /\ value_steps A par base_ndim capture batch pre st0 = Ok st /\
    prepare_solve (a_zero A) par (seg_of fsum cfg s) st = (Ok (st1, gs, ps, us0), calls) /\
    solves fsum cfg par s us0 st' /\ pack_groups st' (ss_given_groups s) = Ok gs /\
    (forall n, ~ written (JI i) n -> lookup n st' = lookup n st) /\
    forall n, In n outs -> (forall sg, In sg post -> ~ written sg n) -> lookup n res = lookup n st'.
Proof.
  intros -> Es El Ok_ H. unfold forward in H. destruct (prepare_inputs infos inputs) as [st0|]; [|discriminate]. cbn [bind] in H.
  destruct (match infos with [] => _ | _ => _ end) as [batch|]; [|discriminate]. cbn [bind] in H.
  destruct (value_steps _ _ _ _ _ _ _) as [stf|] eqn:E; [|discriminate]. cbn [bind] in H.
  apply value_steps_app in E. destruct E as [st [E1 E2]]. cbn [value_steps] in E2.
  destruct (value_step _ _ _ _ _ (JI i) st) as [st'|] eqn:E3; [|discriminate]. cbn [bind] in E2.
  assert (Fr : forall n, ~ written (JI i) n -> lookup n st' = lookup n st) by (intros n; exact (value_step_frame _ _ _ _ _ _ _ _ n E3)).
  cbn [value_step] in E3. rewrite El, Es in E3. cbn [Nat.ltb Nat.leb] in E3.
  destruct (segment_solved _ _ _ _ _ _ _ _ Ok_ E3) as [st1 [gs [ps [us0 [calls [P [So [PG _]]]]]]]].
  exists st0, batch, st, us0, gs, ps, st1, calls, st'. split; [reflexivity|]. split; [exact E1|]. split; [exact P|]. split; [exact So|].
  split; [exact PG|]. split; [exact Fr|]. intros n I N. rewrite (collect_at _ _ _ _ H n).
  replace (existsb (String.eqb n) outs) with true by (symmetry; apply existsb_exists; exists n; split; [exact I|apply String.eqb_refl]).
  exact (value_steps_frame _ _ _ _ _ n _ _ _ E2 N).
Qed.
