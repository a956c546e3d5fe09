(** Logged linear solves: in binary64, over the rationals and over the real numbers. *)
From Coq Require Import QArith Qcanon Reals Lra SpecFloat.
From Verif Require Import Base Tensor Float Newton Krylov SpecKrylov SpecGmres KrylovSystem SpecKrylovSystem SchedProofs
     KrylovDenseProofs Example_Krylov Example_Gmres Log KrylovLog SpecKrylovLog.
Local Close Scope Q_scope.
Local Close Scope R_scope.
Local Open Scope list_scope.

(** The largest of some doubles; a NaN is the largest. *)
Definition is_nan64 (x : F) : bool := match x with S754_nan => true | _ => false end.
Definition lx_max2 (m x : F) : F := if is_nan64 m then m else if is_nan64 x then x else if SFltb m x then x else m.
Definition lx_max (l : list F) : F := match l with [] => fzero | x :: l => fold_left lx_max2 l x end.
Lemma lx_max2_below m x t : SFltb (lx_max2 m x) t = true -> SFltb m t = true /\ SFltb x t = true.
Proof.
  unfold lx_max2. destruct (is_nan64 m) eqn:Nm; [destruct m; try discriminate; unfold SFltb; cbn; discriminate|].
  destruct (is_nan64 x) eqn:Nx; [destruct x; try discriminate; unfold SFltb; cbn; discriminate|].
  destruct (SFltb m x) eqn:L; intros H.
  - split; [exact (SFltb_trans _ _ _ L H)|exact H].
  - split; [exact H|]. revert L H Nm Nx. unfold SFltb.
    destruct m as [[]|[]| |[] ma ea], x as [[]|[]| |[] mx ex], t as [[]|[]| |[] mt et];
      try solve [cbn; intros; first [discriminate|reflexivity]]; fcmp.
Qed.
Lemma lx_max_bounds : bounds_all binary64 lx_max.
Proof.
  intros l t x H I. cbn [n_lt binary64] in *. destruct l as [|y l]; [destruct I|]. cbn [lx_max] in H.
  assert (Q : forall l m, SFltb (fold_left lx_max2 l m) t = true -> SFltb m t = true /\ forall x, In x l -> SFltb x t = true).
  { clear. induction l as [|y l IH]; intros m H; [split; [exact H|intros x []]|]. cbn [fold_left] in H.
    destruct (IH _ H) as [H1 H2]. destruct (lx_max2_below _ _ _ H1) as [H3 H4]. split; [exact H3|].
    intros x [<-|I]; [exact H4|exact (H2 x I)]. }
  destruct (Q l y H) as [H1 H2]. destruct I as [<-|I]; [exact H1|exact (H2 x I)].
Qed.

(** Every line is accepted; and a sink that raises on the second line. *)
Definition lx_say {V} (before : list (level * klog_note V)) (l : level) (m : klog_note V) : result unit := Ok tt.
Definition lx_raise {V} (before : list (level * klog_note V)) (l : level) (m : klog_note V) : result unit :=
  if Nat.eqb (length before) 1 then Err (StdExn "sink") else Ok tt.
Definition lx_solve say hook (b : list (list F)) (As : list (list F -> list F)) (cfg : kconfig F) :=
  log_solve binary64 kx_sum kx_dot kx_tri lx_max say (per_row As) (per_row [fun v => v; fun v => v]) hook b cfg [].
(** Two rows, diag(1, 2) and the identity. *)
Definition lx_rows : list (list F -> list F) := [kx_diag 1 2; kx_id].
Definition lx_b : list (list F) := [kx_ones; kx_ones].

(** Two lines, for either method; the second is below the tolerance. *)
Definition lx_shown (r : result (kresult F) * list (kevent F)) : list nat * list bool :=
  (iterations (lines_in (snd r)), match fst r with Ok res => kr_converged res | Err _ => [] end).
Definition lx_last_below (r : result (kresult F) * list (kevent F)) : list bool :=
  map (fun p => match snd p with NIter _ _ q => SFltb q kx_rel | _ => false end) (lines_in (snd r)).
Lemma lx_runs m : In m [BiCGStab; GMRES] ->
  lx_shown (lx_solve lx_say true lx_b lx_rows (kx_cfg m 40 1000)) = ([1; 2], [true; true]) /\
  lx_last_below (lx_solve lx_say true lx_b lx_rows (kx_cfg m 40 1000)) = [false; true] /\
  lines_in (snd (lx_solve lx_say false lx_b lx_rows (kx_cfg m 40 1000))) = [] /\
  fst (lx_solve lx_raise true lx_b lx_rows (kx_cfg m 40 1000)) = Err (StdExn "sink") /\
  iterations (lines_in (snd (lx_solve lx_raise true lx_b lx_rows (kx_cfg m 40 1000)))) = [1; 2].
Proof. intros [<-|[<-|[]]]; vm_compute; auto 10. Qed.

(** A step of the system with diag(1, 2), with room for one iteration and for as many as it takes. *)
Definition lx_system (its : Z) : ksystem F :=
  mkKsys kx_layout kx_layout (mkKcfg BiCGStab CacheNone 40 its fzero kx_rel 10) (ks_res (kx_system CacheNone 10))
    (ks_mat (kx_system CacheNone 10)) None.
Definition lx_step (lv : level -> result bool) (its : Z) :=
  log_kstep binary64 kx_sum kx_dot kx_tri lx_max lx_say lv (lx_system its) (kx_point 2) fresh_state.
Definition lx_all (l : level) : result bool := Ok true.
Definition lx_notes (l : list (level * klog_note F)) : list (level * (nat * option nat)) :=
  map (fun p => (fst p, match snd p with NIter i _ _ => (i, None) | NNotConverged i k => (i, Some k) | NConverged i => (i, Some 0) end)) l.
Lemma lx_step_runs :
  lx_notes (lines_in (snd (lx_step lx_all 1))) = [(Debug, (1, None)); (Warning, (1, Some 1))] /\
  lx_notes (lines_in (snd (lx_step lx_all 9))) = [(Debug, (1, None)); (Debug, (2, None)); (Info, (2, Some 0))] /\
  is_ok (fst (fst (fst (lx_step lx_all 1)))) = true /\ is_ok (fst (fst (fst (lx_step lx_all 9)))) = true.
Proof. vm_compute. auto. Qed.

(** Over the rationals, [[2,1],[1,3]] x = (1,2): two lines. *)
Definition lx_qmax (l : list Qc) : Qc := match l with [] => Q2Qc 0 | x :: l => fold_left (fun m x => if qk_lt m x then x else m) l x end.
Definition lx_qrun := log_bicgstab qk_num qk_sum qk_dot lx_qmax lx_say (per_row [qk_mat]) (per_row [fun v => v]) true [[qk 1; qk 2]] (qk_cfg 5) [].
Lemma lx_q : iterations (lines_in (snd lx_qrun)) = [1; 2] /\
  forall i, In i [1; 2] ->
    existsb (fun p => match snd p with NIter j e _ => Nat.eqb j i &&
       match bicgstab qk_num qk_sum qk_dot (per_row [qk_mat]) (per_row [fun v => v]) [[qk 1; qk 2]] (with_budget (qk_cfg 5) i) with
       | (Ok res, _) => if Qc_eq_dec e (lx_qmax (residual_norms qk_num qk_sum [qk_mat] [[qk 1; qk 2]] (kr_du res))) then true else false
       | _ => false
       end | _ => false end) (lines_in (snd lx_qrun)) = true.
Proof. split; [vm_compute; reflexivity|]. intros i [<-|[<-|[]]]; vm_compute; reflexivity. Qed.

(** Over the real numbers: the operator swaps two entries; the lines say 1 and 0. *)
Local Open Scope R_scope.
Definition lx_rmax (l : list R) : R := fold_right Rmax 0 l.
Definition lx_gx := log_gmres gx_N real_sum real_dot back_solve lx_rmax lx_say gx_mat gx_pre true gx_b gx_cfg [].
Lemma lx_rmax1 x : 0 <= x -> lx_rmax [x] = x.
Proof. intros H. cbn. apply Rmax_left. exact H. Qed.
Lemma lx_gx_lines : lines_in (snd lx_gx) = [(Debug, NIter 1 1 1); (Debug, NIter 2 0 0)].
Proof.
  unfold lx_gx, log_gmres. replace (cycles_of gx_cfg) with (Ok 1%Z : result Z) by reflexivity.
  change (k_restart gx_cfg) with 2%Z. unfold lbind, quiet at 1.
  cbn [fst snd Z.ltb Z.compare andb map app]. change (Z.to_nat 2) with 2%nat. change (Z.to_nat 1) with 1%nat. unfold gx_b.
  cbn [map log_loop gmres_residual]. unfold lbind, quiet. rewrite gx_m. cbn [fst snd combine map2 map]. rewrite gx_begin. cbn [forallb gr_done andb].
  cbn [log_cycle map]. change (last_v (gr_arn (mkG [0; 0] 0 false true gx_a0))) with [1; 0].
  unfold lbind, quiet. rewrite gx_a. cbn [fst snd]. rewrite gx_m. cbn [fst snd combine map2 map].
  rewrite gx_col0. cbn [on_iter emit_line lx_say forallb gr_done andb map].
  change (last_v (gr_arn (mkG [0; 0] 1 false true gx_a1))) with [0; 1].
  rewrite gx_a. cbn [fst snd]. rewrite gx_m. cbn [fst snd combine map2 map].
  rewrite gx_col1, gx_bnorm. cbn [on_iter emit_line lx_say forallb gr_done andb map lret].
  cbn [lines_in flat_map app snd map gr_arn ar_last gx_a1 gx_a2 n_abs n_div reals Nat.add combine fst map2].
  replace (Rabs (- 1)) with 1 by (rewrite Rabs_left; lra). rewrite Rabs_R0.
  replace (1 / 1) with 1 by lra. replace (0 / 1) with 0 by lra. rewrite !lx_rmax1 by lra. reflexivity.
Qed.
Local Close Scope R_scope.

(** GMRES on diag(1, 2) with a preconditioner that divides by 1024. *)
Definition lx_small : list F -> list F := map (fmul (fnum 1 (-10))).
Definition lx_pre := log_gmres binary64 kx_sum kx_dot kx_tri lx_max lx_say (per_row [kx_diag 1 2]) (per_row [lx_small]) true [kx_ones] (kx_cfg GMRES 40 1000) [].
Definition lx_pre_answer := gmres binary64 kx_sum kx_dot kx_tri (per_row [kx_diag 1 2]) (per_row [lx_small]) [kx_ones] (with_cycle (kx_cfg GMRES 40 1000) 1).
Definition lx_gap (ls : list (level * klog_note F)) (answer : kio F (kresult F)) : bool :=
  match ls, fst answer with
  | (Debug, NIter 1 w _) :: _, Ok res =>
      match residual_norms binary64 kx_sum [kx_diag 1 2] [kx_ones] (kr_du res) with
      | [e] => SFltb (fmul (fnum 1000 0) w) e
      | _ => false
      end
  | _, _ => false
  end.
Lemma lx_gap_true : lx_gap (lines_in (snd lx_pre)) lx_pre_answer = true.
Proof. vm_compute. reflexivity. Qed.
Lemma lx_gap_means ls answer : lx_gap ls answer = true ->
  exists w q rest res l e, ls = (Debug, NIter 1 w q) :: rest /\ answer = (Ok res, l) /\
    residual_norms binary64 kx_sum [kx_diag 1 2] [kx_ones] (kr_du res) = [e] /\ SFltb (fmul (fnum 1000 0) w) e = true.
Proof.
  unfold lx_gap. destruct answer as [[res|x] l], ls as [|[[] [[|[|i]] w q|?|?]] rest]; cbn [fst]; intros G; try discriminate G.
  destruct (residual_norms _ _ _ _ _) as [|e [|? ?]] eqn:Er; try discriminate G. exists w, q, rest, res, l, e. auto.
Qed.
Lemma lx_gap_shown : exists w q rest res l e,
    lines_in (snd lx_pre) = (Debug, NIter 1 w q) :: rest /\ lx_pre_answer = (Ok res, l) /\
    residual_norms binary64 kx_sum [kx_diag 1 2] [kx_ones] (kr_du res) = [e] /\ SFltb (fmul (fnum 1000 0) w) e = true.
Proof. exact (lx_gap_means _ _ lx_gap_true). Qed.
