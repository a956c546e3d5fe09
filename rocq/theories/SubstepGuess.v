(** The substepping driver reads nothing but the givens. *)
From Verif Require Import Base BaseProofs SmapProofs Tensor Spec BatchChunk Pack Implicit ImplicitProofs Substep.

Section Ignores.
  Context {V : Type}.
  Variable A : arith V.
  Notation vmap := (smap (tensor V)).

  Definition same_on (ns : list string) (m m' : vmap) : Prop := forall n, In n ns -> lookup n m = lookup n m'.

  Lemma same_on_set ns m m' k t : same_on ns m m' -> same_on ns (set_ k t m) (set_ k t m').
  Proof.
    intros H n I. destruct (String.eqb_spec n k) as [->|N]; [rewrite !lookup_set_same; reflexivity|].
    rewrite !lookup_set_other by exact N. apply H. exact I.
  Qed.
  Lemma at_same ns (m m' : vmap) n : same_on ns m m' -> In n ns -> at_ n m = at_ n m'.
  Proof. intros H I. unfold at_. rewrite (H n I). reflexivity. Qed.

  Lemma flatten_same ns gs : incl (map (fun g => v_name (gv_var g)) gs) ns -> forall m m' : vmap, same_on ns m m' ->
    match flatten_givens gs m, flatten_givens gs m' with
    | Ok f, Ok f' => same_on ns f f'
    | Err e, Err e' => e = e'
    | _, _ => False
    end.
  Proof.
    induction gs as [|g gs IH]; intros I m m' H; cbn [flatten_givens]; [exact H|].
    rewrite (at_same ns m m' _ H) by (apply I; left; reflexivity). destruct (at_ _ m') as [t|e]; [|reflexivity]. cbn [bind].
    destruct (flatten_dyn t _) as [f|e]; [|reflexivity]. cbn [bind]. apply IH; [intros n J; apply I; right; exact J|apply same_on_set; exact H].
  Qed.
  Lemma collect_same ns gs : incl (map (fun g => v_name (gv_var g)) gs) ns -> forall m m' acc : vmap, same_on ns m m' ->
    collect_givens gs m acc = collect_givens gs m' acc.
  Proof.
    induction gs as [|g gs IH]; intros I m m' acc H; cbn [collect_givens]; [reflexivity|].
    rewrite (at_same ns m m' _ H) by (apply I; left; reflexivity). destruct (at_ _ m') as [t|e]; [|reflexivity]. cbn [bind].
    apply IH; [intros n J; apply I; right; exact J|exact H].
  Qed.
  Lemma put_same us res dyn : forall (m m' : vmap) r, put_results us res dyn m = Ok r ->
    exists r', put_results us res dyn m' = Ok r' /\
      forall n, lookup n r = (if in_dec string_dec n (map v_name us) then lookup n r' else lookup n m).
  Proof.
    induction us as [|u us IH]; intros m m' r H; cbn [put_results] in *.
    - injection H as <-. exists m'. split; reflexivity.
    - destruct (at_ (v_name u) res) as [t|]; [|discriminate]. cbn [bind] in *.
      destruct (match dyn with None => _ | Some _ => _ end) as [t'|]; [|discriminate]. cbn [bind] in *.
      destruct (IH _ (set_ (v_name u) t' m') _ H) as [r' [E L]]. exists r'. split; [exact E|]. intros n. rewrite L. cbn [map].
      destruct (in_dec string_dec n (map v_name us)) as [J|J].
      + destruct (in_dec string_dec n (v_name u :: map v_name us)) as [|K]; [reflexivity|]. exfalso. apply K. right. exact J.
      + destruct (in_dec string_dec n (v_name u :: map v_name us)) as [[<-|K]|K].
        * rewrite lookup_set_same. destruct (IH _ m _ E) as [r2 [_ L2]]. rewrite L2.
          destruct (in_dec string_dec (v_name u) (map v_name us)); [contradiction|]. rewrite lookup_set_same. reflexivity.
        * contradiction.
        * apply lookup_set_other. intros ->. apply K. left. reflexivity.
  Qed.
  Lemma put_error us res dyn : forall (m m' : vmap) e, put_results us res dyn m = Err e -> put_results us res dyn m' = Err e.
  Proof.
    induction us as [|u us IH]; intros m m' e H; cbn [put_results] in *; [discriminate|].
    destruct (at_ (v_name u) res) as [t|]; [|exact H]. cbn [bind] in *.
    destruct (match dyn with None => _ | Some _ => _ end) as [t'|]; [|exact H]. cbn [bind] in *. eapply IH. exact H.
  Qed.

  Lemma substepped_ignores masked givens unknowns level (st st' : vmap) :
    same_on (map (fun g => v_name (gv_var g)) givens) st st' ->
    snd (run_substepped A masked givens unknowns level st) = snd (run_substepped A masked givens unknowns level st') /\
    match fst (run_substepped A masked givens unknowns level st), fst (run_substepped A masked givens unknowns level st') with
    | Ok r, Ok r' => same_on (map v_name unknowns) r r'
    | Err e, Err e' => e = e'
    | _, _ => False
    end.
  Proof.
    intros H. set (ns := map (fun g => v_name (gv_var g)) givens) in *. unfold run_substepped.
    destruct givens as [|g0 gs]; [split; reflexivity|]. set (givens := g0 :: gs) in *.
    assert (I : incl (map (fun g => v_name (gv_var g)) givens) ns) by (intros n J; exact J).
    rewrite (at_same ns st st' _ H) by (left; reflexivity). destruct (at_ (v_name (gv_var g0)) st') as [t0|e]; [|split; reflexivity].
    destruct (Nat.ltb (dim t0) _); [split; reflexivity|].
    set (dyn := firstn _ (t_shape t0)). set (needed := negb (Nat.eqb (length dyn) 1)).
    assert (F : (let* flat := if needed then flatten_givens givens st else Ok st in collect_givens givens flat []) =
                (let* flat := if needed then flatten_givens givens st' else Ok st' in collect_givens givens flat [])).
    { assert (Q : match (if needed then flatten_givens givens st else Ok st), (if needed then flatten_givens givens st' else Ok st') with
      | Ok f, Ok f' => same_on ns f f' | Err e, Err e' => e = e' | _, _ => False end) by (destruct needed; [apply flatten_same; assumption|exact H]).
      destruct (if needed then flatten_givens givens st else Ok st) as [f|e], (if needed then flatten_givens givens st' else Ok st') as [f'|e'];
        try contradiction; cbn [bind]; [apply (collect_same ns); assumption|congruence]. }
    assert (P : forall (k : vmap -> result (vmap * nat * vmap * vmap)),
      (let* flat := if needed then flatten_givens givens st else Ok st in let* orig := collect_givens givens flat [] in k orig) =
      (let* flat := if needed then flatten_givens givens st' else Ok st' in let* orig := collect_givens givens flat [] in k orig)).
    { intros k. destruct (if needed then flatten_givens givens st else Ok st) as [f|e], (if needed then flatten_givens givens st' else Ok st') as [f'|e'];
        cbn [bind] in *; try rewrite F; try reflexivity; try congruence; rewrite <- F; reflexivity. }
    rewrite P. clear P F.
    destruct (let* flat := _ in _) as [[[[orig B] res] ch]|e]; [|split; reflexivity].
    destruct (solve_to A masked givens unknowns orig level _ _ _ _) as [r l]. split; [reflexivity|]. cbn [fst].
    destruct r as [bufs|e]; [|reflexivity]. cbn [bind].
    destruct (put_results unknowns (fst bufs) _ st) as [r|e] eqn:E.
    - destruct (put_same _ _ _ _ st' _ E) as [r' [-> L]]. intros n J. rewrite L.
      destruct (in_dec string_dec n (map v_name unknowns)); [reflexivity|contradiction].
    - rewrite (put_error _ _ _ _ st' _ E). reflexivity.
  Qed.
End Ignores.
