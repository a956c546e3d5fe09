(** Property C39: the derivative carried through adaptive substeps. *)
From Coq Require Import Ring_theory.
From Verif Require Import Base BaseProofs SpecMap SmapProofs Tensor Spec Broadcast SpecBroadcast Pack Implicit Substep SpecSubstep DriveProofs RowTableProofs
     SubstepProofs SubstepRunProofs SpecDyadic Mat Jac SubstepJac JacModel SpecJac SpecAlgebra SpecSubstepJac SubstepJacProofs SubstepJacRunProofs
     SubstepProductProofs SubstepIftProofs Example_Substep Example_SubstepJac.

(** The values, the log of solves and the failures are those of the path without derivatives. *)
Theorem C39_values : forall V (A : arith V) d masked ift givens unknowns M solve_row ift_row level (st ds : smap (tensor V)) dyn,
  seg_ok givens unknowns -> answers_all d givens unknowns masked -> rowwise d givens unknowns masked solve_row ->
  tangents_by_row d givens unknowns M solve_row ift ift_row ->
  over d dyn (map gv_var givens) st -> solid dyn (map gv_var givens) ->
  over d dyn (map (carrier M) (map gv_var givens)) ds -> length dyn = 1 \/ M <> 0 ->
  let (r, log) := run_substepped_d A masked ift givens unknowns level st ds in
  run_substepped A masked givens unknowns level st = (rmap fst r, log).
Proof.
  intros V A d masked ift givens unknowns M solve_row ift_row level st ds dyn S An Rw Tr O Sd Od Md.
  pose proof (run_outcome_d A d masked ift givens unknowns M S An solve_row Rw ift_row Tr level st ds dyn O Sd Od Md) as Q.
  destruct (run_substepped_d A masked ift givens unknowns level st ds) as [[[st' ds']|e] l]; [apply Q|exact Q].
Qed.
Print Assumptions C39_values.

(** In a successful call every row's accepted intervals follow each other from 0 to 1, and its derivatives are got by
    solving over them in turn, each solve's derivatives by the implicit function theorem from those of its givens. *)
Theorem C39_chain : forall V (A : arith V) d masked ift givens unknowns M solve_row ift_row level (st ds st' ds' : smap (tensor V)) dyn log,
  seg_ok givens unknowns -> answers_all d givens unknowns masked -> rowwise d givens unknowns masked solve_row ->
  tangents_by_row d givens unknowns M solve_row ift ift_row ->
  over d dyn (map gv_var givens) st -> solid dyn (map gv_var givens) ->
  over d dyn (map (carrier M) (map gv_var givens)) ds -> length dyn = 1 \/ M <> 0 ->
  run_substepped_d A masked ift givens unknowns level st ds = (Ok (st', ds'), log) ->
  over d dyn (map (carrier M) unknowns) ds' /\ (forall n, ~ In n (unknown_names unknowns) -> lookup n ds' = lookup n ds) /\
  forall k, k < numel dyn ->
    chain (a_zero A) (a_one A) (accepted (Z.of_nat k) log) /\
    marched A givens unknowns solve_row ift_row (entries (map gv_var givens) st k) (entries (map (carrier M) (map gv_var givens)) ds k)
      (accepted (Z.of_nat k) log)
      (entries (map gv_var (old_states givens)) st k) (entries (map (carrier M) (map gv_var (old_states givens))) ds k)
      (entries unknowns st' k) (entries (map (carrier M) unknowns) ds' k).
Proof.
  intros V A d masked ift givens unknowns M solve_row ift_row level st ds st' ds' dyn log S An Rw Tr O Sd Od Md E.
  pose proof (run_outcome_d A d masked ift givens unknowns M S An solve_row Rw ift_row Tr level st ds dyn O Sd Od Md) as Q. rewrite E in Q.
  destruct Q as [Ev [Q1 [Q2 Q3]]]. split; [exact Q1|]. split; [exact Q2|]. intros k Hk. split; [|apply Q3; exact Hk].
  destruct (run_outcome A d masked givens unknowns S (answers_some d masked givens unknowns An) level st dyn O Sd) as [r [l [E' [_ R]]]].
  rewrite Ev in E'. injection E' as <- <-. apply R. exact Hk.
Qed.
Print Assumptions C39_chain.

(** In exact arithmetic, with the tangents of a solve linear in those of its givens: the derivatives are those of the
    givens times the product, over the row's accepted intervals, of the derivatives of the solves. *)
Theorem C39_product : forall V (A : arith V) opp d masked ift givens unknowns M solve_row slope ift_row level (st ds st' ds' : smap (tensor V)) dyn log,
  ring_theory (a_zero A) (a_one A) (a_add A) (a_mul A) (a_sub A) opp eq ->
  seg_ok givens unknowns -> answers_all d givens unknowns masked -> rowwise d givens unknowns masked solve_row ->
  tangents_by_row d givens unknowns M solve_row ift ift_row -> linear_ift A givens unknowns M solve_row slope ift_row ->
  over d dyn (map gv_var givens) st -> solid dyn (map gv_var givens) ->
  over d dyn (map (carrier M) (map gv_var givens)) ds -> length dyn = 1 \/ M <> 0 ->
  run_substepped_d A masked ift givens unknowns level st ds = (Ok (st', ds'), log) ->
  forall k, k < numel dyn -> exists J,
    product A givens unknowns solve_row slope (entries (map gv_var givens) st k) (accepted (Z.of_nat k) log)
      (entries (map gv_var (old_states givens)) st k) (unit_entry A) J /\
    forall u r m, In u unknowns -> r < var_size u -> m < M ->
      component A M (unknown_names unknowns) (entries (map (carrier M) unknowns) ds' k) (v_name u) r m =
      over_cells A givens (fun g y => a_mul A (J (v_name u) r (given_name g) y)
        (component A M (given_names givens) (entries (map (carrier M) (map gv_var givens)) ds k) (given_name g) y m)).
Proof.
  intros V A opp d masked ift givens unknowns M solve_row slope ift_row level st ds st' ds' dyn log R S An Rw Tr Li O Sd Od Md E.
  exact (run_product A opp R d masked ift givens unknowns M solve_row slope ift_row S An Rw Tr Li level st ds dyn O Sd Od Md st' ds' log E).
Qed.
Print Assumptions C39_product.

(** The tangent step the model takes is of this kind when the segment's derivative graphs act row by row. *)
Theorem C39_tangent_rows : forall V (A : arith V) neg dot par d i given M solve_row slope size,
  seg_ok (is_givens (ji_seg i)) (is_unknowns (ji_seg i)) -> slopes_by_row neg par d i given solve_row slope size ->
  tangents_by_row d (is_givens (ji_seg i)) (is_unknowns (ji_seg i)) M solve_row (ift_of A neg dot par i given)
    (tangent_row A dot i M slope size).
Proof. intros V. exact ift_of_rows. Qed.
Print Assumptions C39_tangent_rows.

(** A substepped implicit segment in the Jacobian evaluation. *)
Theorem C39_segment : forall V (A : arith V) opp neg par base_ndim capture batch d i given M cols solve_row slope size (st ds st' ds' : smap (tensor V)) dyn,
  ring_theory (a_zero A) (a_one A) (a_add A) (a_mul A) (a_sub A) opp eq ->
  let givens := is_givens (ji_seg i) in
  let unknowns := is_unknowns (ji_seg i) in
  let masked := run_implicit_masked (a_zero A) par (ji_seg i) in
  ji_given i = Some given -> 0 < ji_level i ->
  seg_ok givens unknowns -> answers_all d givens unknowns masked -> rowwise d givens unknowns masked solve_row ->
  slopes_by_row neg par d i given solve_row slope size -> NoDup (map (fun p => (p_out p, p_in p)) (ji_pairs i)) ->
  over d dyn (map gv_var givens) st -> solid dyn (map gv_var givens) ->
  over d dyn (map (carrier M) (map gv_var givens)) ds -> length dyn = 1 \/ M <> 0 ->
  jac_step A neg (dotx (a_zero A) (a_add A) (a_mul A)) par base_ndim capture batch cols d (JI i) st ds = Ok (st', ds') ->
  exists log, run_substepped A masked givens unknowns (ji_level i) st = (Ok st', log) /\
  over d dyn (map (carrier M) unknowns) ds' /\
  forall k, k < numel dyn ->
    chain (a_zero A) (a_one A) (accepted (Z.of_nat k) log) /\
    exists J,
    product A givens unknowns solve_row (declared_slope A i slope) (entries (map gv_var givens) st k) (accepted (Z.of_nat k) log)
      (entries (map gv_var (old_states givens)) st k) (unit_entry A) J /\
    forall u r m, In u unknowns -> r < var_size u -> m < M ->
      component A M (unknown_names unknowns) (entries (map (carrier M) unknowns) ds' k) (v_name u) r m =
      over_cells A givens (fun g y => a_mul A (J (v_name u) r (given_name g) y)
        (component A M (given_names givens) (entries (map (carrier M) (map gv_var givens)) ds k) (given_name g) y m)).
Proof.
  intros V A opp neg par base_ndim capture batch d i given M cols solve_row slope size st ds st' ds' dyn R givens unknowns masked Eg El S An Rw Sl Nd O Sd Od Md E.
  cbn [jac_step] in E. rewrite Eg in E. replace (Nat.ltb 0 (ji_level i)) with true in E by (symmetry; apply Nat.ltb_lt; exact El).
  fold masked givens unknowns in E.
  destruct (run_substepped_d A masked (ift_of A neg (dotx (a_zero A) (a_add A) (a_mul A)) par i given) givens unknowns (ji_level i) st ds) as [r log] eqn:Er.
  cbn [fst] in E. subst r.
  pose proof (ift_of_rows A neg (dotx (a_zero A) (a_add A) (a_mul A)) par d i given M solve_row slope size S Sl) as Tr.
  pose proof Sl as (Sg & _ & Pr & _).
  pose proof (tangent_linear A opp R i M solve_row slope size S Sg Pr Nd) as Li.
  pose proof (C39_values V A d masked _ givens unknowns M solve_row _ (ji_level i) st ds dyn S An Rw Tr O Sd Od Md) as Ev. rewrite Er in Ev.
  destruct (C39_chain V A d masked _ givens unknowns M solve_row _ (ji_level i) st ds st' ds' dyn log S An Rw Tr O Sd Od Md Er) as [Q1 [_ Q3]].
  exists log. split; [exact Ev|]. split; [exact Q1|]. intros k Hk. split; [apply Q3; exact Hk|].
  exact (C39_product V A opp d masked _ givens unknowns M solve_row _ _ (ji_level i) st ds st' ds' dyn log R S An Rw Tr Li O Sd Od Md Er k Hk).
Qed.
Print Assumptions C39_segment.

(** The segment s = s~1 + (f - f~1)^2 over three rows that take one, two and four substeps: s is 6, 5 + 1/2 and 5 + 1/4,
    ds/df is 2, 1 and 1/2, ds/ds~1 is 1. *)
Example C39_case :
  ji_given qx_imp = Some qx_given /\ 0 < ji_level qx_imp /\
  seg_ok sx_givens sx_unknowns /\ answers_all cpu sx_givens sx_unknowns (run_implicit_masked (a_zero rationals) qx_par qx_iseg) /\
  rowwise cpu sx_givens sx_unknowns (run_implicit_masked (a_zero rationals) qx_par qx_iseg) qx_row /\
  slopes_by_row Qcanon.Qcopp qx_par cpu qx_imp qx_given qx_row qx_slope qx_size /\
  NoDup (map (fun p => (p_out p, p_in p)) (ji_pairs qx_imp)) /\
  over cpu [3] (map gv_var sx_givens) qx_st /\ solid [3] (map gv_var sx_givens) /\
  over cpu [3] (map (carrier 2) (map gv_var sx_givens)) qx_ds /\
  exists st' ds', qx_run = Ok (st', ds') /\
  shown (lookup "s"%string st') = Some ([3; 1], [(6, 1%positive); (11, 2%positive); (21, 4%positive)]%Z) /\
  shown (lookup "s"%string ds') = Some ([3; 1; 2], [(2, 1%positive); (1, 1%positive); (1, 1%positive); (1, 1%positive); (1, 2%positive); (1, 1%positive)]%Z).
Proof.
  split; [reflexivity|]. split; [cbn; lia|]. split; [exact sx_seg_ok|]. split; [exact (qx_answers cpu)|]. split; [exact (qx_rowwise cpu)|].
  split; [exact (qx_slopes cpu)|]. split; [repeat constructor; cbn; intuition discriminate|].
  split; [apply qx_over|]. split; [apply qx_over|]. split; [apply qx_over|]. exact qx_result.
Qed.
(** The number of solves accepted per row. *)
Example C39_substeps :
  map (fun k => length (accepted (Z.of_nat k)
         (snd (run_substepped rationals (run_implicit_masked (a_zero rationals) qx_par qx_iseg) sx_givens sx_unknowns 2 qx_st)))) (seq 0 3) = [1; 2; 4].
Proof. vm_compute. reflexivity. Qed.
