(** C68: watching a solve does not change it, and what is written about it is true. *)
From Verif Require Import Base Float Newton SpecNewton Log NewtonLog SpecNewtonLog NewtonLogProofs NewtonTellProofs Example_Newton Example_NewtonLog.

(** With sinks that do not throw and a batch that is not empty, a solve gives the same result by the same calls of the
    system, whatever the levels and [collect_log]. *)
Theorem C68_transparent fsum tmax tmin say is_on cfg log s u0 d i :
  u0 <> [] -> never_throws say -> is_on Debug = Ok d -> is_on Info = Ok i ->
  (let (r, st) := solve_l fsum tmax tmin say is_on cfg log s u0 [] in
   (rmap fst r, calls st) = solve fsum cfg s u0) /\
  (let (r, st) := solve_masked_l fsum tmax tmin say is_on cfg log s u0 [] in
   (rmap fst r, calls st) = solve_masked fsum cfg s u0).
Proof.
  intros Hu Q Hd Hi. destruct u0 as [|x u0]; [congruence|]. split.
  - destruct (solve_agrees fsum tmax tmin say is_on cfg log s (x :: u0) d i (length u0) eq_refl Hd Hi [])
      as [[es [E C]]|[es [l [y [e [more [_ [T _]]]]]]]]; [|rewrite Q in T; discriminate].
    rewrite E. cbn [app]. rewrite C. destruct (solve fsum cfg s (x :: u0)) as [[a|e] t]; reflexivity.
  - destruct (solve_masked_agrees fsum tmax tmin say is_on cfg log s (x :: u0) d (length u0) eq_refl Hd [])
      as [[es [E C]]|[es [l [y [e [more [_ [T _]]]]]]]]; [|rewrite Q in T; discriminate].
    rewrite E. cbn [app]. rewrite C. destruct (solve_masked fsum cfg s (x :: u0)) as [[a|e] t]; reflexivity.
Qed.
Print Assumptions C68_transparent.
(** Two rows, the first of them cut back twice; everything on. *)
Example C68_case :
  let (r, st) := solve_l sum0 big small hush loud cfg_ls true two_rows start2 [] in
  r = Ok ([at1 fzero; at1 fzero], 1, kept st) /\ length (kept st) = 5 /\ length (calls st) = 5 /\
  solve sum0 cfg_ls two_rows start2 = (Ok ([at1 fzero; at1 fzero], 1), calls st).
Proof. vm_compute. repeat split; reflexivity. Qed.
Example C68_hypotheses : start2 <> [] /\ never_throws hush /\ loud Debug = Ok true /\ loud Info = Ok true.
Proof. repeat split; try reflexivity. discriminate. Qed.

(** If a sink does throw, that is what the solve throws, at once; until then it went as it would have. *)
Theorem C68_throwing_sink fsum tmax tmin say is_on cfg log s u0 d i :
  u0 <> [] -> is_on Debug = Ok d -> is_on Info = Ok i ->
  let (r, st) := solve_l fsum tmax tmin say is_on cfg log s u0 [] in
  (rmap fst r, calls st) = solve fsum cfg s u0 \/
  exists es l x e more, r = Err e /\ st = es ++ [EEmit l x] /\ say (emitted es) l x = Err e /\
    snd (solve fsum cfg s u0) = calls st ++ more.
Proof.
  intros Hu Hd Hi. destruct u0 as [|x u0]; [congruence|].
  destruct (solve_agrees fsum tmax tmin say is_on cfg log s (x :: u0) d i (length u0) eq_refl Hd Hi [])
    as [[es [E C]]|[es [l [y [e [more [E [T M]]]]]]]]; rewrite E; cbn [app].
  - left. rewrite C. destruct (solve fsum cfg s (x :: u0)) as [[a|e] t]; reflexivity.
  - right. exists es, l, y, e, more. rewrite calls_app. cbn [calls flat_map]. rewrite app_nil_r. auto.
Qed.
Print Assumptions C68_throwing_sink.
(** A converging solve lost to a full disk. *)
Example C68_throwing_sink_case :
  fst (solve_l sum0 big small full loud cfg_ls false two_rows start2 []) = Err (StdExn "disk full") /\
  fst (solve sum0 cfg_ls two_rows start2) = Ok ([at1 fzero; at1 fzero], 1).
Proof. vm_compute. split; reflexivity. Qed.

(** The lines returned with a solution, and those on the console at debug whatever the outcome, are the history of the
    solve: the start, every trial and every iteration, each with the largest residual at its point; for a solution of
    [k] iterations lines 0 to [k], nothing missing.  If both are asked for they are the same lines. *)
Theorem C68_history fsum tmax tmin say is_on cfg log s u0 d i r st :
  u0 <> [] -> never_throws say -> is_on Debug = Ok d -> is_on Info = Ok i ->
  solve_l fsum tmax tmin say is_on cfg log s u0 [] = (r, st) ->
  (d = true -> exists w n, tells fsum tmax cfg s (calls st) (notes_at Debug st) w n /\ (w = false -> st = [] \/ ends_in_call st) /\
     match r with Ok (_, k, _) => w = true /\ n = k | Err _ => True end) /\
  (d = false -> notes_at Debug st = []) /\
  forall u k l, r = Ok (u, k, l) ->
    (log = true -> tells fsum tmax cfg s (calls st) l true k) /\ (log = false -> l = []) /\ (log = true -> d = true -> notes_at Debug st = l).
Proof.
  intros Hu Q Hd Hi E. destruct u0 as [|x u0]; [congruence|]. split; [|split].
  - intros ->. destruct (solve_tells fsum tmax tmin say is_on Q cfg s true log (fun e => match e with EEmit Debug m => [m] | _ => [] end)
      (fun _ => eq_refl) (fun _ => eq_refl) ltac:(intros y; destruct log; reflexivity) (x :: u0) i (length u0) [] eq_refl Hd Hi)
      as [es [w [t [E1 [E2 [E3 E4]]]]]].
    rewrite E in E1, E4. cbn [fst snd app] in E1, E4. subst es. exists w, t. split; [|split; assumption].
    replace (notes_at Debug st) with (flat_map (fun e => match e with EEmit Debug m => [m] | _ => [] end) st); [exact E2|].
    apply flat_map_ext. intros [c|[] m|m]; reflexivity.
  - intros ->. destruct (solve_adds fsum tmax tmin say is_on Q false log (fun es => notes_at Debug es = [])) with (cfg := cfg) (s := s) (u0 := x :: u0) (st := @nil event)
      as [es [E1 E2]]; auto.
    + intros a b Ha Hb. unfold notes_at in *. rewrite flat_map_app, Ha, Hb. reflexivity.
    + intros y. destruct log; reflexivity.
    + rewrite E in E1. cbn [snd app] in E1. subst es. exact E2.
  - intros u k l ->.
    assert (K : l = kept st).
    { unfold solve_l, with_log in E. match type of E with (let (_, _) := ?m in _) = _ => destruct m as [[a|e] st'] end; inversion E; reflexivity. }
    split; [|split].
    + intros ->. destruct (solve_tells fsum tmax tmin say is_on Q cfg s d true (fun e => match e with EKeep m => [m] | _ => [] end)
        (fun _ => eq_refl) (fun _ => eq_refl) ltac:(intros y; destruct d; reflexivity) (x :: u0) i (length u0) [] eq_refl Hd Hi)
        as [es [w [t [E1 [E2 [E3 E4]]]]]].
      rewrite E in E1, E4. cbn [fst snd app] in E1, E4. subst es. destruct E4 as [-> ->]. rewrite K. exact E2.
    + intros ->. rewrite K. destruct (solve_adds fsum tmax tmin say is_on Q d false (fun es => kept es = [])) with (cfg := cfg) (s := s) (u0 := x :: u0) (st := @nil event)
        as [es [E1 E2]]; auto.
      * intros a b Ha Hb. unfold kept in *. rewrite flat_map_app, Ha, Hb. reflexivity.
      * intros y. destruct d; reflexivity.
      * rewrite E in E1. cbn [snd app] in E1. subst es. exact E2.
    + intros -> ->. rewrite K. destruct (solve_adds fsum tmax tmin say is_on Q true true (fun es => notes_at Debug es = kept es)) with (cfg := cfg) (s := s) (u0 := x :: u0) (st := @nil event)
        as [es [E1 E2]]; auto.
      * intros a b Ha Hb. unfold kept, notes_at in *. rewrite !flat_map_app, Ha, Hb. reflexivity.
      * rewrite E in E1. cbn [snd app] in E1. subst es. exact E2.
Qed.
Print Assumptions C68_history.
(** The lines of [C68_case], and those of a solve that gave up after two iterations and says three. *)
Example C68_history_case :
  (exists a1 a2 a3 c1 c2 c3, kept (snd (solve_l sum0 big small hush loud cfg_ls true two_rows start2 [])) =
     [NIter 0 (fnum 3 0) (fnum 3 0); NTrial 1 a1 (fnum 3 0) c1; NTrial 2 a2 fone c2; NTrial 3 a3 fzero c3; NIter 1 fzero (fnum 3 0)]) /\
  (let (r, st) := solve_l sum0 big small hush loud (with_miters 3 cfg0) false slow1 start1 [] in
   r = Err (Convergence "AOTI Newton failed to converge") /\
   notes_at Debug st = [NIter 0 fone fone; NIter 1 fhalf fone; NIter 2 (fnum 1 (-2)) fone] /\
   notes_at Info st = [NBegin; NGaveUp 3 (fnum 1 (-2)) fone; NEnd]).
Proof. split; [do 6 eexists; vm_compute; reflexivity|vm_compute; repeat split; reflexivity]. Qed.

(** The masked solve has the same lines but for that of the start, and no others. *)
Theorem C68_masked_history fsum tmax tmin say is_on cfg log s u0 d u m k l st :
  u0 <> [] -> never_throws say -> is_on Debug = Ok d ->
  solve_masked_l fsum tmax tmin say is_on cfg log s u0 [] = (Ok (u, m, k, l), st) ->
  notes_at Info st = [] /\
  (log = true -> exists b0 cs, sy_residual s u0 = Ok b0 /\ calls st = CResidual u0 :: cs /\ rest fsum tmax cfg s b0 0 cs l true k) /\
  (d = true -> exists b0 cs, sy_residual s u0 = Ok b0 /\ calls st = CResidual u0 :: cs /\ rest fsum tmax cfg s b0 0 cs (notes_at Debug st) true k).
Proof.
  intros Hu Q Hd E. destruct u0 as [|x u0]; [congruence|].
  assert (K : l = kept st).
  { unfold solve_masked_l, with_log in E. match type of E with (let (_, _) := ?m in _) = _ => destruct m as [[a|e] st'] end; inversion E; reflexivity. }
  split; [|split].
  - destruct (masked_adds fsum tmax tmin say is_on Q d log (fun es => notes_at Info es = [])) with (cfg := cfg) (s := s) (u0 := x :: u0) (st := @nil event)
      as [es [E1 E2]]; auto.
    + intros a b Ha Hb. unfold notes_at in *. rewrite flat_map_app, Ha, Hb. reflexivity.
    + intros y. destruct d, log; reflexivity.
    + rewrite E in E1. cbn [snd app] in E1. subst es. exact E2.
  - intros ->. destruct (solve_masked_tells fsum tmax tmin say is_on Q cfg s d true (fun e => match e with EKeep m => [m] | _ => [] end)
      (fun _ => eq_refl) ltac:(intros y; destruct d; reflexivity) (x :: u0) (length u0) [] eq_refl Hd (u, m) k l)
      as [es [b0 [E1 [E2 [cs [E3 E4]]]]]]; rewrite E in *; [reflexivity|].
    cbn [snd app] in E1. subst es. exists b0, cs. rewrite K. auto.
  - intros ->. destruct (solve_masked_tells fsum tmax tmin say is_on Q cfg s true log (fun e => match e with EEmit Debug m => [m] | _ => [] end)
      (fun _ => eq_refl) ltac:(intros y; destruct log; reflexivity) (x :: u0) (length u0) [] eq_refl Hd (u, m) k l)
      as [es [b0 [E1 [E2 [cs [E3 E4]]]]]]; rewrite E in *; [reflexivity|].
    cbn [snd app] in E1. subst es. exists b0, cs. split; [exact E2|]. split; [exact E3|].
    replace (notes_at Debug st) with (flat_map (fun e => match e with EEmit Debug m => [m] | _ => [] end) st); [exact E4|].
    apply flat_map_ext. intros [c|[] n|n]; reflexivity.
Qed.
Print Assumptions C68_masked_history.
Example C68_masked_history_case :
  let (r, st) := solve_masked_l sum0 big small hush loud (with_miters 3 cfg0) true slow1 start1 [] in
  r = Ok ([at1 (fnum 1 (-2))], [false], 2, [NIter 1 fhalf fone; NIter 2 (fnum 1 (-2)) fone]) /\ notes_at Debug st = kept st.
Proof. vm_compute. split; reflexivity. Qed.

(** At info: one opening line, and unless the system threw one summary, true of the outcome, and one closing line. *)
Theorem C68_summary fsum tmax tmin say is_on cfg log s u0 d r st :
  u0 <> [] -> never_throws say -> is_on Debug = Ok d -> is_on Info = Ok true ->
  solve_l fsum tmax tmin say is_on cfg log s u0 [] = (r, st) ->
  (notes_at Info st = [] \/ notes_at Info st = [NBegin] /\ ends_in_call st) /\ (exists e, r = Err e) \/
  exists x, notes_at Info st = [NBegin; x; NEnd] /\ summary fsum tmax cfg s u0 r x.
Proof.
  intros Hu Q Hd Hi E. destruct u0 as [|y u0]; [congruence|].
  destruct (solve_infos fsum tmax tmin say is_on Q cfg log s (y :: u0) d (length u0) [] eq_refl Hd Hi) as [es [E1 E2]].
  rewrite E in E1, E2. cbn [fst snd app] in E1, E2. subst es. exact E2.
Qed.
Print Assumptions C68_summary.
Example C68_summary_case :
  notes_at Info (snd (solve_l sum0 big small hush loud cfg_ls true two_rows start2 [])) = [NBegin; NConverged 1 Both; NEnd] /\
  notes_at Info (snd (solve_l sum0 big small hush at_info (with_atol (fnum 1 3) cfg0) true slow1 start1 [])) = [NBegin; NPredictor AbsTol; NEnd].
Proof. vm_compute. split; reflexivity. Qed.

(** "Watching does not change it" fails for an empty batch: it is solved unwatched and an error when watched. *)
Theorem C68_empty_batch_refuted fsum tmax tmin say is_on cfg log s d i :
  sy_residual s [] = Ok [] -> sy_rsizes s <> [] -> never_throws say -> is_on Debug = Ok d -> is_on Info = Ok i ->
  fst (solve fsum cfg s []) = Ok ([], 0) /\
  fst (solve_l fsum tmax tmin say is_on cfg log s [] []) = if d || log then Err (StdExn "max(): numel() == 0") else Ok ([], 0, []).
Proof.
  intros R S Q Hd Hi. unfold solve, solve_l, with_log.
  assert (E : entry s [] = (Ok [], [CResidual []])).
  { unfold entry, conforms, residual, checked. cbn. rewrite R. cbn. destruct (sy_rsizes s); [congruence|reflexivity]. }
  rewrite E. split; [reflexivity|]. unfold lbind, lift, lres. cbn [fst snd]. rewrite Hd, Hi. destruct i, d, log; unfold when, trace, put; rewrite ?Q; cbn; rewrite ?Q; cbn; rewrite ?Q; reflexivity.
Qed.
Print Assumptions C68_empty_batch_refuted.
Example C68_empty_batch_case : sy_residual (rows_system [1] []) [] = Ok [] /\ sy_rsizes (rows_system [1] []) <> [].
Proof. split; [reflexivity|discriminate]. Qed.
