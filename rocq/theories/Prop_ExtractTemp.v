(** C77: each package loaded on Windows gets a directory of its own, and the environment is as before. *)
From Verif Require Import Base ExtractTemp SpecExtractTemp ExtractTempProofs ExtractTempMoreProofs Example_ExtractTemp.
Local Open Scope string_scope.
Local Open Scope list_scope.

Section C77.
  Variable fallback : path.
  Variable refuses : path -> bool.

  (** The directories of the live loaders exist, are pairwise different and not inside one another. *)
  Theorem C77_own_directory s ls s' : fresh_process s -> polite_run fallback refuses s ls s' -> apart s'.
  Proof. intros F R. exact (iv_apart _ _ _ (run_inv _ _ _ _ _ R F)). Qed.

  (** No load fails because a file is locked by another loader. *)
  Theorem C77_no_collision s ls s' t :
    fresh_process s -> polite_run fallback refuses s ls s' -> answer_of (x_pc s' t) <> Some (Err sharing_violation).
  Proof.
    intros F R. pose proof (run_inv _ _ _ _ _ R F) as I.
    destruct (x_mutex s') as [k|] eqn:M.
    - destruct (iv_held _ _ _ I k M) as (A & O). destruct (Nat.eq_dec t k) as [->|D].
      + destruct (x_pc s' k); cbn in *; try discriminate; try contradiction; intros Q; injection Q as ->; tauto.
      + specialize (O t D). pose proof (iv_ret _ _ _ I t) as Rt. destruct (x_pc s' t); cbn in *; try discriminate; try contradiction.
        intros Q. injection Q as ->. exact (Rt _ eq_refl eq_refl).
    - pose proof (proj2 (iv_free _ _ _ I M) t) as O. pose proof (iv_ret _ _ _ I t) as Rt. destruct (x_pc s' t); cbn in *; try discriminate; try contradiction.
      intros Q. injection Q as ->. exact (Rt _ eq_refl eq_refl).
  Qed.

  (** A load that begins its extraction with a package torch takes returns a loader for the package asked for, in a
      directory of the temp directory that the host has set. *)
  Theorem C77_loads s ls s' t p a b d :
    fresh_process s -> polite_run fallback refuses s ls s' -> x_pc s' t = PExtract p a b d ->
    exists s2 x, xstep fallback refuses s' (LStep t true) = Some s2 /\ x_live s2 = x_live s' ++ [mkL d p] /\
                 answer_of (x_pc s2 t) = Some (Ok (mkL d p)) /\ d = temp_path fallback (host_env (x_env s) ls) ++ [x] /\
                 last_call t ls = Some p.
  Proof.
    intros F R P. pose proof (run_inv _ _ _ _ _ R F) as I.
    pose proof (holder _ _ _ _ _ I P (fun x => x)) as M. pose proof (proj1 (iv_held _ _ _ I t M)) as A. rewrite P in A; cbn in A.
    destruct A as (_ & _ & _ & (O1 & (x & X) & O3)).
    exists (goto (set_live s' (x_live s' ++ [mkL d p])) t (PRestTmp a b (Ok (mkL d p)))), x. repeat split; auto.
    - cbn [xstep]. unfold thread_step. rewrite P. rewrite (proj2 (has_dir_spec _ _) O1).
      destruct (existsb _ _) eqn:Q; [|reflexivity]. exfalso. apply existsb_exists in Q as (l & Hl & Q). apply andb_prop in Q as (Q & _).
      destruct (path_eq_dec (ld_dir l) d) as [e|]; [|discriminate]. apply (proj1 (O3 l Hl)). rewrite e. apply under_refl.
    - cbn. now rewrite upd_same.
    - pose proof (asked_run _ _ _ _ _ t R (fp_out _ F)) as Q. destruct (last_call t ls) as [q|]; [|congruence]. rewrite P in Q. cbn in Q. now subst.
  Qed.

  (** No other step makes a loader. *)
  Theorem C77_rooted s ls s1 l s2 :
    fresh_process s -> polite_run fallback refuses s ls s1 -> polite fallback s1 l -> xstep fallback refuses s1 l = Some s2 ->
    forall n, In n (x_live s2) -> In n (x_live s1) \/ exists x, ld_dir n = temp_path fallback (host_env (x_env s) ls) ++ [x].
  Proof.
    intros F R P E n Hn. pose proof (run_inv _ _ _ _ _ R F) as I. destruct l as [t p|t ok|k|v p|p x|p]; cbn [xstep] in E.
    - assert (x_live s2 = x_live s1) as Q by (destruct (x_pc s1 t); try discriminate; injection E as <-; reflexivity). rewrite Q in Hn. auto.
    - destruct (new_loader _ _ _ _ _ _ _ I E) as [Q|(l & x & Q & Q2 & _)]; rewrite Q in Hn; [auto|].
      apply in_app_or in Hn as [Hn|[<-|[]]]; [auto|right; exists x; exact Q2].
    - destruct (nth_error (x_live s1) k); [|discriminate]. injection E as <-. left. cbn in Hn.
      apply In_nth_error in Hn as (j & Hn). exact (nth_error_In _ _ (nth_remove _ _ _ _ Hn)).
    - injection E as <-. auto.
    - destruct (creates _ _ _ _); [|discriminate]. injection E as <-. auto.
    - injection E as <-. auto.
  Qed.

  (** While nobody loads, the variables are as the host has set them. *)
  Theorem C77_restored s ls s' : fresh_process s -> polite_run fallback refuses s ls s' -> x_mutex s' = None ->
    x_env s' = host_env (x_env s) ls.
  Proof. intros F R M. exact (proj1 (iv_free _ _ _ (run_inv _ _ _ _ _ R F) M)). Qed.

  (** Destroying a loader removes nothing outside its directory, so nothing of another loader. *)
  Theorem C77_destroy s ls s1 k l s2 :
    fresh_process s -> polite_run fallback refuses s ls s1 -> nth_error (x_live s1) k = Some l ->
    xstep fallback refuses s1 (LDestroy k) = Some s2 ->
    (forall p, In p (x_dirs s2) <-> In p (x_dirs s1) /\ ~ under (ld_dir l) p) /\
    (forall j n p, nth_error (x_live s1) j = Some n -> j <> k -> under (ld_dir n) p -> In p (x_dirs s1) -> In p (x_dirs s2)) /\
    (forall t u, in_hand (x_pc s1 t) = Some u -> In u (x_dirs s2)).
  Proof.
    intros F R K E. pose proof (run_inv _ _ _ _ _ R F) as I. cbn [xstep] in E. rewrite K in E. injection E as <-. cbn.
    destruct (iv_apart _ _ _ I) as (D & S). split; [|split].
    - intros p. apply in_remove_under.
    - intros j n p Hj N (r & ->) Hp. apply in_remove_under. split; auto. intros (q & Q).
      destruct (comparable _ _ _ _ Q) as [U|U]; apply N; [exact (S _ _ _ _ Hj K U)|symmetry; exact (S _ _ _ _ K Hj U)].
    - intros t u Hu. apply in_remove_under.
      assert (M : x_mutex s1 = Some t) by (apply (holder _ _ _ _ (x_pc s1 t) I eq_refl); destruct (x_pc s1 t); cbn in *; auto; discriminate).
      pose proof (proj1 (iv_held _ _ _ I t M)) as A.
      assert (O : own fallback (host_env (x_env s) ls) s1 u) by (destruct (x_pc s1 t); cbn in *; try discriminate; injection Hu as <-; tauto).
      destruct O as (O1 & _ & O3). split; auto. exact (proj1 (O3 l (nth_error_In _ _ K))).
  Qed.

  (** Nobody waits for a thread that cannot go on. *)
  Theorem C77_no_deadlock s ls s' t p :
    fresh_process s -> polite_run fallback refuses s ls s' -> x_pc s' t = PLock p ->
    exists k s2, xstep fallback refuses s' (LStep k true) = Some s2 /\ (x_mutex s' = Some k \/ x_mutex s' = None /\ k = t).
  Proof.
    intros F R P. pose proof (run_inv _ _ _ _ _ R F) as I. destruct (x_mutex s') as [k|] eqn:M.
    - pose proof (proj1 (iv_held _ _ _ I k M)) as A. apply (at_pc_inside fallback refuses) in A.
      destruct (inside_steps fallback refuses s' k true A) as (s2 & E). exists k, s2. split; [exact E|left; reflexivity].
    - exists t. cbn [xstep]. unfold thread_step. rewrite P, M. eexists. split; [reflexivity|auto].
  Qed.

  (** The search for a name ends if directories can be made there: after at most one name for each directory there is. *)
  Theorem C77_search_ends s t pkg a b base :
    x_pc s t = PNext pkg a b base -> In base (x_dirs s) -> refuses base = false ->
    (x_counter s < 2 ^ 64)%N -> (N.of_nat (length (x_dirs s)) < 2 ^ 64)%N ->
    exists n s' u, n <= 2 * (length (x_dirs s) + 1) /\ xrun fallback refuses s (repeat (LStep t true) n) = Some s' /\
                   in_hand (x_pc s' t) = Some u /\ ~ In u (x_dirs s) /\ x_dirs s' = u :: x_dirs s.
  Proof.
    intros P B R C L. apply (search_ends fallback refuses t true pkg a b base (length (x_dirs s)) s); auto.
    apply free_name; assumption.
  Qed.

  (** If they cannot, it never ends, whatever anybody does, and nobody else can load anything: the mutex stays taken. *)
  Theorem C77_refused_directory_refuted s t pkg :
    fresh_process s -> In (temp_path fallback (x_env s)) (x_dirs s) -> refuses (temp_path fallback (x_env s)) = true ->
    exists s1, xrun fallback refuses s [LCall t pkg; LStep t true; LStep t true; LStep t true; LStep t true] = Some s1 /\
      forall ls s2, xrun fallback refuses s1 ls = Some s2 ->
        searching (temp_path fallback (x_env s)) (x_pc s2 t) /\ x_mutex s2 = Some t /\ forall k r, x_pc s2 k <> PRet r.
  Proof.
    intros F B R. eexists. split.
    - cbn [xrun xstep]. rewrite (fp_out _ F t). unfold thread_step; cbn. rewrite (upd_same), (fp_mutex _ F); cbn. rewrite !upd_same; cbn. rewrite !upd_same; cbn. rewrite !upd_same; cbn. rewrite ?upd_same; cbn.
      rewrite (proj2 (has_dir_spec _ _) B). reflexivity.
    - intros ls s2 E.
      assert (S0 : stuck t (temp_path fallback (x_env s)) s2).
      { refine (stuck_run _ _ _ _ R _ _ _ _ E). repeat split; cbn; auto.
        - rewrite upd_same. reflexivity.
        - intros k D. rewrite !upd_other by exact D. rewrite (fp_out _ F k). exact I.
        - exact (fp_live _ F). }
      destruct S0 as (S1 & S2 & S3 & _). repeat split; auto. intros k r Q. destruct (Nat.eq_dec k t) as [->|D].
      + rewrite Q in S2. exact S2.
      + specialize (S3 k D). rewrite Q in S3. exact S3.
  Qed.
End C77.
Print Assumptions C77_own_directory.
Print Assumptions C77_no_collision.
Print Assumptions C77_loads.
Print Assumptions C77_rooted.
Print Assumptions C77_restored.
Print Assumptions C77_destroy.
Print Assumptions C77_no_deadlock.
Print Assumptions C77_search_ends.
Print Assumptions C77_refused_directory_refuted.

(** While a package is loaded, the rest of the process sees the directory of that package as its temp directory; it is
    removed with the loader. *)
Theorem C77_visible_refuted :
  exists s ls1 s1 ls2 s2 p,
    fresh_process s /\ polite_run tx_fallback open_ s ls1 s1 /\ polite_run tx_fallback open_ s (ls1 ++ ls2) s2 /\
    getenv (x_env s1) TMP = Some p /\ getenv (host_env (x_env s) ls1) TMP <> Some p /\ In p (x_dirs s1) /\
    x_live s2 = [] /\ ~ In p (x_dirs s2).
Proof.
  set (ls1 := LCall 0 "residual" :: steps 0 10). set (ls2 := steps 0 5 ++ [LDestroy 0]).
  exists tx_state, ls1, (tx_after ls1), ls2, (tx_after (ls1 ++ ls2)), (tx_tmp ++ ["neml2_aoti_1"]).
  split; [exact tx_fresh|]. split; [|split].
  - apply (ours_run _ _ _ [] _ tx_state); [|constructor|vm_compute; reflexivity]. constructor; [exact I|apply ours_steps].
  - apply (ours_run _ _ _ [] _ tx_state); [|constructor|vm_compute; reflexivity].
    constructor; [exact I|]. apply Forall_app. split; [apply ours_steps|]. apply Forall_app. split; [apply ours_steps|repeat constructor].
  - split; [vm_compute; reflexivity|]. split; [vm_compute; discriminate|]. split; [vm_compute; auto 10|]. split; [vm_compute; reflexivity|].
    intros H. apply has_dir_spec in H. vm_compute in H. discriminate.
Qed.
Print Assumptions C77_visible_refuted.

(** What the host sets in the middle of a load is lost, and if it is set before the loader reads it, two loaders share a
    directory and the second load fails. *)
Theorem C77_host_sets_refuted :
  exists s ls s', fresh_process s /\ xrun tx_fallback open_ s ls = Some s' /\ x_mutex s' = None /\
    x_env s' <> host_env (x_env s) ls /\ x_pc s' 1 = PRet (Err sharing_violation).
Proof.
  set (ls := (LCall 0 "residual" :: steps 0 10 ++ [LSet TMP ["C:"]] ++ steps 0 5) ++ (LCall 1 "residual" :: steps 1 8 ++ [LSet TMP ["C:"]] ++ steps 1 5)).
  exists tx_state, ls, (tx_after ls). split; [exact tx_fresh|].
  vm_compute. repeat split; discriminate.
Qed.
Print Assumptions C77_host_sets_refuted.

(** A load that fails leaves its directory behind. *)
Theorem C77_failed_load_refuted :
  exists s ls s' p e, fresh_process s /\ polite_run tx_fallback open_ s ls s' /\ x_pc s' 0 = PRet (Err e) /\
    x_live s' = [] /\ In p (x_dirs s') /\ ~ In p (x_dirs s).
Proof.
  set (ls := LCall 0 "residual" :: steps 0 11 ++ LStep 0 false :: steps 0 3).
  exists tx_state, ls, (tx_after ls), (tx_tmp ++ ["neml2_aoti_1"]), (StdExn "AOTIModelPackageLoader").
  split; [exact tx_fresh|]. split; [|split; [vm_compute; reflexivity|split; [vm_compute; reflexivity|split; [vm_compute; auto 10|]]]].
  - apply (ours_run _ _ _ [] _ tx_state); [|constructor|vm_compute; reflexivity].
    constructor; [exact I|]. apply Forall_app. split; [apply ours_steps|]. constructor; [exact I|apply ours_steps].
  - intros H. apply has_dir_spec in H. vm_compute in H. discriminate.
Qed.
Print Assumptions C77_failed_load_refuted.

(** Two threads and a name already taken: both load, each in its directory, and the environment is as before. *)
Example C77_two_case :
  fresh_process tx_state /\ polite_run tx_fallback open_ tx_state tx_two (tx_after tx_two) /\
  map ld_dir (x_live (tx_after tx_two)) = [tx_tmp ++ ["neml2_aoti_1"]; tx_tmp ++ ["neml2_aoti_2"]] /\
  x_pc (tx_after tx_two) 1 = PRet (Ok (mkL (tx_tmp ++ ["neml2_aoti_2"]) "residual")) /\
  x_mutex (tx_after tx_two) = None /\ x_env (tx_after tx_two) = mkEnv (Some tx_tmp) None.
Proof.
  split; [exact tx_fresh|]. split; [|vm_compute; auto].
  assert (O : Forall ours tx_two).
  { unfold tx_two. apply Forall_app. split; [repeat constructor|]. apply Forall_app. split; [apply ours_steps|].
    apply Forall_app. split; [repeat constructor|]. apply Forall_app. split; apply ours_steps. }
  exact (ours_run tx_fallback open_ tx_state [] tx_two tx_state _ O (PRnil _ _ _) tx_two_run).
Qed.
(** In the middle of the first load the second thread waits, and the search goes on from a name that is taken. *)
Example C77_middle_case :
  let ls := LCall 0 "residual" :: LCall 1 "residual" :: steps 0 6 in
  x_pc (tx_after ls) 0 = PNext "residual" (mkSaved tx_tmp true) (mkSaved [] false) tx_tmp /\
  x_pc (tx_after ls) 1 = PLock "residual" /\ In tx_tmp (x_dirs (tx_after ls)) /\ (x_counter (tx_after ls) < 2 ^ 64)%N.
Proof. vm_compute. auto 10. Qed.
(** A temp directory that exists and takes no directories. *)
Example C77_refused_case :
  fresh_process tx_state /\ In (temp_path tx_fallback (x_env tx_state)) (x_dirs tx_state) /\
  (fun p => underb tx_tmp p) (temp_path tx_fallback (x_env tx_state)) = true.
Proof. split; [exact tx_fresh|]. vm_compute. auto 10. Qed.
