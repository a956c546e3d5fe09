(** Proofs about the MPI scheduler. *)
From Verif Require Import Base BaseProofs Tensor TensorProofs Mpi SpecMpi.

(** ** Round robin *)
Lemma filter_length_app {A} (f : A -> bool) l1 l2 :
  length (filter f (l1 ++ l2)) = length (filter f l1) + length (filter f l2).
Proof. rewrite filter_app, app_length. reflexivity. Qed.

Lemma round_robin n m j :
  j < n ->
  length (filter (fun r => Nat.eqb (r mod n) j) (seq 0 m))
  = m / n + (if Nat.ltb j (m mod n) then 1 else 0).
Proof.
  intros J. induction m as [|m IH].
  - rewrite Nat.div_0_l, Nat.mod_0_l by lia. reflexivity.
  - rewrite seq_S, filter_length_app, IH. cbn [filter length Nat.add].
    pose proof (Nat.div_mod_eq m n) as E1. pose proof (Nat.mod_upper_bound m n ltac:(lia)) as B1.
    destruct (Nat.eq_dec (m mod n) (n - 1)) as [L|L].
    + assert (E2 : S m / n = S (m / n) /\ S m mod n = 0).
      { split.
        - symmetry. apply (Nat.div_unique (S m) n (S (m / n)) 0); lia.
        - symmetry. apply (Nat.mod_unique (S m) n (S (m / n)) 0); lia. }
      destruct E2 as [-> ->].
      destruct (Nat.eqb_spec (m mod n) j); destruct (Nat.ltb_spec j (m mod n)); cbn; lia.
    + assert (E2 : S m / n = m / n /\ S m mod n = S (m mod n)).
      { split.
        - symmetry. apply (Nat.div_unique (S m) n (m / n) (S (m mod n))); lia.
        - symmetry. apply (Nat.mod_unique (S m) n (m / n) (S (m mod n))); lia. }
      destruct E2 as [-> ->].
      destruct (Nat.eqb_spec (m mod n) j); destruct (Nat.ltb_spec j (m mod n));
        destruct (Nat.ltb_spec j (S (m mod n))); cbn; lia.
Qed.

Definition assigned (m n r : nat) : option nat :=
  match mpi_device_index r m n with Ok i => Some i | Err _ => None end.

Lemma index_ok r m n i : mpi_device_index r m n = Ok i <-> 1 <= n <= m /\ i = r mod n.
Proof.
  unfold mpi_device_index, assert_. destruct (Nat.leb_spec n m); cbn.
  - destruct n as [|n]; split; intros H0; [discriminate|lia| |].
    + injection H0 as <-. split; [lia|reflexivity].
    + destruct H0 as [_ ->]. reflexivity.
  - split; [discriminate|lia].
Qed.

Lemma ranks_on_mod m n j :
  1 <= n <= m -> ranks_on (assigned m n) m j = length (filter (fun r => Nat.eqb (r mod n) j) (seq 0 m)).
Proof.
  intros B. unfold ranks_on. f_equal. apply filter_ext. intros r. unfold assigned.
  assert (mpi_device_index r m n = Ok (r mod n)) as -> by (apply index_ok; auto). reflexivity.
Qed.

Lemma round_robin_even m n :
  1 <= n <= m ->
  (forall r, r < m -> exists i, assigned m n r = Some i /\ i < n) /\
  (forall j, j < n -> 1 <= ranks_on (assigned m n) m j) /\
  (forall i j, i < n -> j < n -> ranks_on (assigned m n) m i <= ranks_on (assigned m n) m j + 1).
Proof.
  intros B. split; [|split].
  - intros r _. exists (r mod n). unfold assigned.
    assert (mpi_device_index r m n = Ok (r mod n)) as -> by (apply index_ok; auto).
    split; [reflexivity|]. apply Nat.mod_upper_bound. lia.
  - intros j J. rewrite ranks_on_mod, round_robin by assumption.
    assert (1 <= m / n) by (apply Nat.div_le_lower_bound; lia). lia.
  - intros i j Hi Hj. rewrite !ranks_on_mod, !round_robin by assumption.
    destruct (Nat.ltb i (m mod n)), (Nat.ltb j (m mod n)); lia.
Qed.

Lemma too_few_ranks r m n : m < n -> exists e, mpi_device_index r m n = Err (Fatal e).
Proof.
  intros H. unfold mpi_device_index, assert_. destruct (Nat.leb_spec n m); [lia|]. cbn. eauto.
Qed.

(** ** Nodes *)
Section World.
  Variable hash : string -> Z.

  Definition world_assign (hosts : list string) (n r : nat) : option nat :=
    match determine_device_index hash hosts r n with Ok i => Some i | Err _ => None end.

  (** Among a filtered list, counting positions reduces to round robin. *)
  Lemma count_positions n c (hosts : list string) (f : string -> bool) j k :
    length (filter (fun r => match nth_error hosts r with
                             | Some h => f h && Nat.eqb (length (filter f (firstn r hosts)) mod n) j
                             | None => false end) (seq 0 k)) = c ->
    c = length (filter (fun q => Nat.eqb (q mod n) j) (seq 0 (length (filter f (firstn k hosts))))).
  Proof.
    revert c. induction k as [|k IH]; intros c H.
    - cbn in *. subst. reflexivity.
    - rewrite seq_S, filter_length_app in H. cbn [filter Nat.add] in H.
      specialize (IH _ eq_refl). rewrite IH in H. clear IH.
      destruct (nth_error hosts k) as [h|] eqn:E.
      + assert (F : firstn (S k) hosts = firstn k hosts ++ [h]).
        { clear - E. revert k E. induction hosts as [|x l IH]; intros [|k] E; cbn in *; try discriminate.
          - injection E as ->. reflexivity.
          - f_equal. apply IH. exact E. }
        rewrite F, filter_app, app_length. cbn [filter].
        destruct (f h); cbn [andb length Nat.add] in *.
        * rewrite Nat.add_1_r, seq_S, filter_length_app. cbn [filter Nat.add].
          destruct (Nat.eqb _ j); cbn [length] in *; lia.
        * rewrite Nat.add_0_r. lia.
      + rewrite firstn_all2 by (apply nth_error_None in E; lia).
        rewrite firstn_all2 in H by (apply nth_error_None; exact E). cbn in H. lia.
  Qed.

  (** When hosts with different names get different colours, every node spreads its
      ranks evenly. *)
  Lemma node_even hosts n host :
    (forall h, In h hosts -> color hash h = color hash host -> h = host) ->
    1 <= n <= length (node_of hosts host) ->
    (forall r, In r (node_of hosts host) -> exists i, world_assign hosts n r = Some i /\ i < n) /\
    (forall j, j < n -> 1 <= node_load (world_assign hosts n) hosts host j) /\
    (forall i j, i < n -> j < n ->
       node_load (world_assign hosts n) hosts host i <= node_load (world_assign hosts n) hosts host j + 1).
  Proof.
    intros C B.
    set (f := fun h => String.eqb h host).
    assert (Fc : forall l, (forall h, In h l -> In h hosts) ->
              filter (fun h => (color hash h =? color hash host)%Z) l = filter f l).
    { intros l Sub. induction l as [|h l IH]; [reflexivity|]. cbn.
      rewrite IH by (intros x I; apply Sub; right; exact I).
      unfold f. destruct (String.eqb_spec h host) as [->|N].
      - rewrite Z.eqb_refl. reflexivity.
      - destruct (Z.eqb_spec (color hash h) (color hash host)) as [E|E]; [|reflexivity].
        exfalso. apply N. apply C; [apply Sub; left; reflexivity|exact E]. }
    assert (Sz : length (filter f hosts) = length (node_of hosts host)).
    { unfold node_of, f. clear. symmetry.
      assert (G : forall pre l, length (filter (fun r => match nth_error (pre ++ l) r with Some h => String.eqb h host | None => false end) (seq (length pre) (length l))) = length (filter (fun h => String.eqb h host) l)).
      { intros pre l. revert pre. induction l as [|x l IH]; intros pre; [reflexivity|]. cbn [length seq filter].
        rewrite nth_error_app2, Nat.sub_diag by lia. cbn [nth_error].
        specialize (IH (pre ++ [x])). rewrite app_length in IH. cbn [length] in IH.
        rewrite Nat.add_1_r in IH. rewrite <- app_assoc in IH. cbn [app] in IH.
        destruct (String.eqb x host); cbn [length]; rewrite IH; reflexivity. }
      apply (G [] hosts). }
    assert (Wa : forall r, nth_error hosts r = Some host ->
              world_assign hosts n r = Some (length (filter f (firstn r hosts)) mod n)).
    { intros r E. unfold world_assign, determine_device_index. rewrite E.
      unfold local_rank, local_size.
      rewrite (Fc (firstn r hosts)), (Fc hosts), Sz;
        [|auto|intros h I; rewrite <- (firstn_skipn r hosts); apply in_or_app; left; exact I].
      assert (mpi_device_index (length (filter f (firstn r hosts))) (length (node_of hosts host)) n
              = Ok (length (filter f (firstn r hosts)) mod n)) as ->
        by (apply index_ok; auto).
      reflexivity. }
    assert (Cnt : forall j, node_load (world_assign hosts n) hosts host j
              = length (filter (fun q => Nat.eqb (q mod n) j) (seq 0 (length (node_of hosts host))))).
    { intros j. unfold node_load, node_of at 1.
      assert (FF : forall (p q : nat -> bool) l, filter p (filter q l) = filter (fun x => q x && p x) l).
      { intros p q l. induction l as [|x l IH]; [reflexivity|]. cbn. destruct (q x) eqn:Q; cbn; rewrite IH; reflexivity. }
      rewrite FF.
      rewrite <- Sz. replace (filter f hosts) with (filter f (firstn (length hosts) hosts)) by (rewrite firstn_all; reflexivity).
      apply count_positions. f_equal. apply filter_ext. intros r.
      destruct (nth_error hosts r) as [h|] eqn:E; [|reflexivity].
      unfold f. destruct (String.eqb_spec h host) as [->|N]; [|reflexivity].
      rewrite (Wa r E). reflexivity. }
    split; [|split].
    - intros r I. unfold node_of in I. apply filter_In in I as [_ I].
      destruct (nth_error hosts r) as [h|] eqn:E; [|discriminate].
      apply String.eqb_eq in I. subst h. rewrite (Wa r E). eexists. split; [reflexivity|].
      apply Nat.mod_upper_bound. lia.
    - intros j J. rewrite Cnt, round_robin by exact J.
      assert (1 <= length (node_of hosts host) / n) by (apply Nat.div_le_lower_bound; lia). lia.
    - intros i j Hi Hj. rewrite !Cnt, !round_robin by assumption.
      destruct (Nat.ltb i _), (Nat.ltb j _); lia.
  Qed.
End World.

(** ** Device lists *)
Section Parse.
  Variable parse : string -> result device.

  Definition cpus (l : list device) : nat := length (filter is_cpu_ l).
  Definition bares (l : list device) : nat :=
    length (filter (fun d => is_cuda_ d && negb (has_index d)) l).
  Definition pinned (l : list device) : list Z :=
    map d_index (filter (fun d => is_cuda_ d && has_index d) l).

  Lemma cpu_not_cuda d : is_cpu_ d = true -> is_cuda_ d = false.
  Proof. unfold is_cpu_, is_cuda_. intros H. apply String.eqb_eq in H. rewrite H. reflexivity. Qed.

  Lemma mpi_loop_ok names : forall nc nb idx r,
    mpi_loop parse nc nb idx names = Ok r <->
    exists ds, mapM parse names = Ok ds /\ Forall (fun d => is_cpu_ d || is_cuda_ d = true) ds /\
      NoDup (pinned ds) /\ (forall x, In x (pinned ds) -> ~ In x idx) /\
      r = (nc + cpus ds, nb + bares ds, rev (pinned ds) ++ idx, ds).
  Proof.
    induction names as [|nm names IH]; intros nc nb idx r.
    - cbn. split.
      + intros H. injection H as <-. exists []. cbn. rewrite !Nat.add_0_r.
        split; [reflexivity|]. split; [constructor|]. split; [constructor|]. split; [intros x []|reflexivity].
      + intros (ds & E & _ & _ & _ & ->). injection E as <-. cbn. rewrite !Nat.add_0_r. reflexivity.
    - cbn [mpi_loop mapM]. destruct (parse nm) as [d|e]; cbn [bind].
      2:{ split; [discriminate|]. intros (ds & E & _). discriminate. }
      unfold assert_. destruct (is_cpu_ d || is_cuda_ d) eqn:Sup; cbn [bind].
      2:{ split; [discriminate|]. intros (ds & E & F & _).
          destruct (mapM parse names) as [ds'|]; cbn in E; [|discriminate]. injection E as <-.
          inversion F; congruence. }
      destruct (is_cpu_ d) eqn:Cp.
      { pose proof (cpu_not_cuda d Cp) as Cu.
        split.
        - intros H. destruct (mpi_loop parse (S nc) nb idx names) as [[acc ds]|] eqn:L; cbn in H; [|discriminate].
          injection H as <-. apply IH in L as (ds' & E & F & N & Dj & R).
          injection R as -> ->. exists (d :: ds'). rewrite E. cbn [bind].
          unfold cpus, bares, pinned. cbn [filter]. rewrite Cp, Cu. cbn [andb].
          split; [reflexivity|]. split; [constructor; [rewrite Cp; reflexivity|exact F]|].
          split; [exact N|]. split; [exact Dj|].
          cbn [length]. f_equal. f_equal. f_equal. unfold cpus. lia.
        - intros (ds & E & F & N & Dj & ->). destruct (mapM parse names) as [ds'|] eqn:M; cbn in E; [|discriminate].
          injection E as <-. inversion F as [|? ? _ F']; subst.
          assert (L : mpi_loop parse (S nc) nb idx names = Ok (S nc + cpus ds', nb + bares ds', rev (pinned ds') ++ idx, ds')).
          { apply IH. exists ds'. unfold pinned in N, Dj |- *. cbn [filter] in N, Dj. rewrite Cu in N, Dj. cbn [andb] in N, Dj.
            auto. }
          rewrite L. cbn [bind]. unfold cpus, bares, pinned. cbn [filter]. rewrite Cp, Cu. cbn [andb length].
          f_equal. f_equal. f_equal. f_equal. lia. }
      destruct (is_cuda_ d) eqn:Cu; [|discriminate].
      destruct (has_index d) eqn:Hi; cbn [negb].
      { unfold assert_. destruct (existsb (Z.eqb (d_index d)) idx) eqn:Ex; cbn [negb bind].
        - split; [discriminate|]. intros (ds & E & F & N & Dj & ->). exfalso.
          destruct (mapM parse names) as [ds'|]; cbn in E; [|discriminate]. injection E as <-.
          apply existsb_exists in Ex as (x & Ix & Ex). apply Z.eqb_eq in Ex.
          apply (Dj x); [|exact Ix]. unfold pinned. cbn [filter]. rewrite Cu, Hi. cbn. left. congruence.
        - assert (Nx : ~ In (d_index d) idx).
          { intros I. assert (existsb (Z.eqb (d_index d)) idx = true); [|congruence].
            apply existsb_exists. exists (d_index d). split; [exact I|apply Z.eqb_refl]. }
          split.
          + intros H. destruct (mpi_loop parse nc nb (d_index d :: idx) names) as [[acc ds]|] eqn:L; cbn in H; [|discriminate].
            injection H as <-. apply IH in L as (ds' & E & F & N & Dj & R).
            injection R as -> ->. exists (d :: ds'). rewrite E. cbn [bind].
            unfold cpus, bares, pinned. cbn [filter]. rewrite Cp, Cu, Hi. cbn [andb negb map rev].
            split; [reflexivity|]. split; [constructor; [rewrite Cp, Cu; reflexivity|exact F]|].
            split; [constructor; [intros I; apply (Dj _ I); left; reflexivity|exact N]|].
            split; [intros x [<-|I]; [exact Nx|intros J; apply (Dj x I); right; exact J]|].
            rewrite <- app_assoc. reflexivity.
          + intros (ds & E & F & N & Dj & ->). destruct (mapM parse names) as [ds'|] eqn:M; cbn in E; [|discriminate].
            injection E as <-. inversion F as [|? ? _ F']; subst.
            unfold pinned in N, Dj. cbn [filter] in N, Dj. rewrite Cu, Hi in N, Dj. cbn [andb map] in N, Dj.
            inversion N as [|? ? N1 N2]; subst.
            assert (L : mpi_loop parse nc nb (d_index d :: idx) names
                        = Ok (nc + cpus ds', nb + bares ds', rev (pinned ds') ++ d_index d :: idx, ds')).
            { apply IH. exists ds'. split; [reflexivity|]. split; [exact F'|]. split; [exact N2|].
              split; [|reflexivity]. intros x I [<-|J]; [exact (N1 I)|exact (Dj x (or_intror I) J)]. }
            rewrite L. cbn [bind]. unfold cpus, bares, pinned. cbn [filter]. rewrite Cp, Cu, Hi.
            cbn [andb negb map rev]. rewrite <- app_assoc. reflexivity. }
      { split.
        - intros H. destruct (mpi_loop parse nc (S nb) idx names) as [[acc ds]|] eqn:L; cbn in H; [|discriminate].
          injection H as <-. apply IH in L as (ds' & E & F & N & Dj & R).
          injection R as -> ->. exists (d :: ds'). rewrite E. cbn [bind].
          unfold cpus, bares, pinned. cbn [filter]. rewrite Cp, Cu, Hi. cbn [andb negb].
          split; [reflexivity|]. split; [constructor; [rewrite Cp, Cu; reflexivity|exact F]|].
          split; [exact N|]. split; [exact Dj|].
          cbn [length]. f_equal. f_equal. f_equal. unfold bares. lia.
        - intros (ds & E & F & N & Dj & ->). destruct (mapM parse names) as [ds'|] eqn:M; cbn in E; [|discriminate].
          injection E as <-. inversion F as [|? ? _ F']; subst.
          unfold pinned in N, Dj. cbn [filter] in N, Dj. rewrite Cu, Hi in N, Dj. cbn [andb] in N, Dj.
          assert (L : mpi_loop parse nc (S nb) idx names = Ok (nc + cpus ds', S nb + bares ds', rev (pinned ds') ++ idx, ds')).
          { apply IH. exists ds'. auto. }
          rewrite L. cbn [bind]. unfold cpus, bares, pinned. cbn [filter]. rewrite Cp, Cu, Hi. cbn [andb negb length].
          f_equal. f_equal. f_equal. f_equal. lia. }
  Qed.

  Lemma is_cpu_iff d : is_cpu_ d = true <-> d_type d = "cpu"%string.
  Proof. apply String.eqb_eq. Qed.
  Lemma is_cuda_iff d : is_cuda_ d = true <-> d_type d = "cuda"%string.
  Proof. apply String.eqb_eq. Qed.
  Lemma has_index_iff d : has_index d = false <-> d_index d = (-1)%Z.
  Proof. unfold has_index. rewrite negb_false_iff. apply Z.eqb_eq. Qed.

  Lemma filter_empty {A} (f : A -> bool) l : length (filter f l) = 0 <-> (forall x, In x l -> f x = false).
  Proof.
    induction l as [|x l IH]; cbn; [split; [intros _ x []|reflexivity]|].
    destruct (f x) eqn:E; cbn.
    - split; [discriminate|]. intros H. specialize (H x (or_introl eq_refl)). congruence.
    - rewrite IH. split; [intros H y [<-|I]; auto|intros H y I; apply H; right; exact I].
  Qed.

  (** The counters say "pairwise distinct". *)
  Lemma counters_distinct ds :
    Forall (fun d => is_cpu_ d || is_cuda_ d = true) ds ->
    (pairwise_distinct ds <->
     NoDup (pinned ds) /\ cpus ds <= 1 /\ bares ds <= 1 /\ (bares ds = 0 \/ pinned ds = [])).
  Proof.
    induction ds as [|d ds IH]; intros F.
    - split; [intros _; unfold cpus, bares; cbn; split; [constructor|]; split; [lia|]; split; [lia|]; left; reflexivity|
              intros _; constructor].
    - inversion F as [|? ? Fd Fs]; subst. specialize (IH Fs).
      assert (D : pairwise_distinct (d :: ds) <-> (forall e, In e ds -> ~ may_alias d e) /\ pairwise_distinct ds).
      { split; [intros H; inversion H; auto|intros [H1 H2]; constructor; assumption]. }
      rewrite D, IH. clear D IH. unfold cpus, bares, pinned. cbn [filter].
      destruct (is_cpu_ d) eqn:Cp.
      + pose proof (cpu_not_cuda d Cp) as Cu. rewrite Cu. cbn [andb length map].
        assert (A : (forall e, In e ds -> ~ may_alias d e) <-> length (filter is_cpu_ ds) = 0).
        { rewrite filter_empty. apply is_cpu_iff in Cp. split.
          - intros H e I. apply not_true_is_false. intros G. apply is_cpu_iff in G.
            apply (H e I). left. auto.
          - intros H e I [[_ G]|[G _]].
            + apply is_cpu_iff in G. rewrite (H e I) in G. discriminate.
            + rewrite Cp in G. discriminate. }
        rewrite A. intuition lia.
      + cbn [orb] in Fd. rewrite Fd. cbn [andb].
        pose proof Fd as Ty. apply is_cuda_iff in Ty.
        destruct (has_index d) eqn:Hi; cbn [negb].
        * cbn [map length].
          assert (A : (forall e, In e ds -> ~ may_alias d e) <->
                      length (filter (fun d0 => is_cuda_ d0 && negb (has_index d0)) ds) = 0 /\
                      ~ In (d_index d) (map d_index (filter (fun d0 => is_cuda_ d0 && has_index d0) ds))).
          { rewrite filter_empty. split.
            - intros H. split.
              + intros e I. apply not_true_is_false. intros G. apply andb_true_iff in G as [G1 G2].
                apply negb_true_iff in G2. apply has_index_iff in G2. apply is_cuda_iff in G1.
                apply (H e I). right. auto.
              + intros I. apply in_map_iff in I as (e & Ee & Ie). apply filter_In in Ie as [Ie G].
                apply andb_true_iff in G as [G1 _]. apply is_cuda_iff in G1.
                apply (H e Ie). right. auto.
            - intros [H1 H2] e I [[G _]|(_ & G & [K|[K|K]])].
              + rewrite Ty in G. discriminate.
              + apply has_index_iff in K. congruence.
              + specialize (H1 e I). apply is_cuda_iff in G. apply has_index_iff in K.
                rewrite G, K in H1. discriminate.
              + apply H2. rewrite K. apply in_map. apply filter_In. split; [exact I|].
                apply is_cuda_iff in G. rewrite G. cbn.
                destruct (has_index e) eqn:HE; [reflexivity|]. apply has_index_iff in HE. rewrite HE in K.
                apply has_index_iff in K. congruence. }
          rewrite A. split.
          -- intros [[B1 B2] (N & C & _ & _)]. split; [constructor; assumption|]. split; [exact C|].
             split; [lia|]. left. exact B1.
          -- intros (N & C & B & Or). inversion N as [|? ? N1 N2]; subst.
             destruct Or as [Or|Or]; [|discriminate].
             split; [split; [exact Or|exact N1]|]. split; [exact N2|]. split; [exact C|].
             split; [lia|]. left. exact Or.
        * cbn [length].
          assert (A : (forall e, In e ds -> ~ may_alias d e) <-> length (filter is_cuda_ ds) = 0).
          { rewrite filter_empty. apply has_index_iff in Hi. split.
            - intros H e I. apply not_true_is_false. intros G. apply is_cuda_iff in G.
              apply (H e I). right. auto.
            - intros H e I [[G _]|(_ & G & _)].
              + rewrite Ty in G. discriminate.
              + apply is_cuda_iff in G. rewrite (H e I) in G. discriminate. }
          rewrite A.
          assert (Z0 : length (filter is_cuda_ ds)
                       = length (filter (fun d0 => is_cuda_ d0 && negb (has_index d0)) ds)
                         + length (filter (fun d0 => is_cuda_ d0 && has_index d0) ds)).
          { clear. induction ds as [|x l IH]; [reflexivity|]. cbn.
            destruct (is_cuda_ x), (has_index x); cbn; lia. }
          split.
          -- intros [B (N & C & _ & _)].
             assert (P0 : filter (fun d0 => is_cuda_ d0 && has_index d0) ds = [])
               by (apply length_zero_iff_nil; lia).
             rewrite P0. split; [constructor|]. split; [exact C|]. split; [lia|]. right. reflexivity.
          -- intros (N & C & B & Or). destruct Or as [Or|Or]; [discriminate|].
             apply map_eq_nil in Or. rewrite Or in *. cbn [length] in Z0.
             split; [lia|]. split; [constructor|]. split; [exact C|]. split; [lia|]. left. lia.
  Qed.

  Lemma supported_iff ds :
    Forall (fun d => is_cpu_ d || is_cuda_ d = true) ds <-> Forall supported ds.
  Proof.
    split; apply Forall_impl; intros d; rewrite orb_true_iff, is_cpu_iff, is_cuda_iff; exact (fun H => H).
  Qed.

  (** parse_mpi_devices accepts exactly the documented lists. *)
  Lemma parse_iff names ds :
    parse_mpi_devices parse names = Ok ds <->
    names <> [] /\ mapM parse names = Ok ds /\ Forall supported ds /\ pairwise_distinct ds.
  Proof.
    unfold parse_mpi_devices, assert_. destruct names as [|nm names]; cbn [length Nat.eqb negb bind].
    { split; [discriminate|]. intros [N _]. congruence. }
    set (l := nm :: names). assert (L : l <> []) by discriminate. clearbody l.
    destruct (mpi_loop parse 0 0 [] l) as [r|e] eqn:E; cbn [bind].
    - apply mpi_loop_ok in E as (ds' & M & F & N & _ & ->). cbn [Nat.add]. rewrite app_nil_r.
      pose proof (counters_distinct ds' F) as C.
      destruct (Nat.leb_spec (cpus ds') 1); cbn [bind].
      2:{ split; [discriminate|]. intros (_ & M' & _ & P). rewrite M in M'. injection M' as <-.
          apply C in P. lia. }
      destruct (Nat.leb_spec (bares ds') 1); cbn [bind].
      2:{ split; [discriminate|]. intros (_ & M' & _ & P). rewrite M in M'. injection M' as <-.
          apply C in P. lia. }
      destruct (Nat.eqb (bares ds') 0 || Nat.eqb (length (rev (pinned ds'))) 0) eqn:B; cbn [bind].
      + split.
        * intros H1. injection H1 as <-. split; [exact L|]. split; [exact M|].
          split; [apply supported_iff; exact F|]. apply C. split; [exact N|]. split; [assumption|].
          split; [assumption|]. apply orb_true_iff in B as [B|B]; apply Nat.eqb_eq in B; [left; exact B|].
          right. rewrite rev_length in B. apply length_zero_iff_nil. exact B.
        * intros (_ & M' & _ & _). rewrite M in M'. injection M' as <-. reflexivity.
      + split; [discriminate|]. intros (_ & M' & _ & P). rewrite M in M'. injection M' as <-. exfalso.
        apply C in P as (_ & _ & _ & P). apply orb_false_iff in B as [B1 B2].
        apply Nat.eqb_neq in B1, B2. rewrite rev_length in B2.
        destruct P as [P|P]; [lia|]. rewrite P in B2. cbn in B2. lia.
    - split; [discriminate|]. intros (_ & M & S & P). exfalso. apply supported_iff in S.
      pose proof (counters_distinct ds S) as C. apply C in P as (N & _).
      assert (G : mpi_loop parse 0 0 [] l = Ok (0 + cpus ds, 0 + bares ds, rev (pinned ds) ++ [], ds)).
      { apply mpi_loop_ok. exists ds. split; [exact M|]. split; [exact S|]. split; [exact N|].
        split; [intros x _ []|reflexivity]. }
      congruence.
  Qed.
End Parse.

(** ** The constructed scheduler *)
Lemma make_mpi_spec parse hash devices bs inited hosts r s :
  make_mpi parse hash devices bs inited hosts r = Ok s ->
  exists d n, mpi_device s = Ok d /\ mpi_batch_size s = Ok n /\ In d (fst (fst s)) /\ In n bs /\
    (length bs <> 1 -> exists i, nth_error (fst (fst s)) i = Some d /\ nth_error bs i = Some n).
Proof.
  unfold make_mpi, assert_. intros H.
  destruct (parse_mpi_devices parse devices) as [ds|] eqn:P; cbn in H; [|discriminate].
  destruct (negb (Nat.eqb (length bs) 0)) eqn:B0; cbn in H; [|discriminate].
  destruct (Nat.eqb (length bs) 1 || Nat.eqb (length bs) (length ds)) eqn:B1; cbn in H; [|discriminate].
  destruct inited; cbn in H; [|discriminate].
  destruct (determine_device_index hash hosts r (length ds)) as [i|] eqn:D; cbn in H; [|discriminate].
  injection H as <-. unfold mpi_device, mpi_batch_size. cbn [fst snd].
  unfold determine_device_index in D. destruct (nth_error hosts r); [|discriminate].
  apply index_ok in D as [Bn ->].
  set (i := _ mod _). assert (Hi : i < length ds) by (apply Nat.mod_upper_bound; lia). clearbody i.
  destruct (nth_error ds i) as [d|] eqn:Ed; [|apply nth_error_None in Ed; lia].
  exists d.
  apply negb_true_iff, Nat.eqb_neq in B0. apply orb_true_iff in B1.
  destruct bs as [|n0 [|n1 bs]].
  - cbn in B0. lia.
  - exists n0. cbn. split; [reflexivity|]. split; [reflexivity|].
    split; [eapply nth_error_In; exact Ed|]. split; [left; reflexivity|lia].
  - destruct B1 as [B1|B1]; [discriminate|]. apply Nat.eqb_eq in B1.
    destruct (nth_error (n0 :: n1 :: bs) i) as [n|] eqn:En; [|apply nth_error_None in En; lia].
    exists n. split; [reflexivity|]. split; [reflexivity|].
    split; [eapply nth_error_In; exact Ed|]. split; [eapply nth_error_In; exact En|].
    intros _. exists i. auto.
Qed.

Lemma make_mpi_few parse hash devices ds bs hosts r host :
  parse_mpi_devices parse devices = Ok ds -> length bs = 1 \/ length bs = length ds ->
  nth_error hosts r = Some host ->
  (forall h, In h hosts -> color hash h = color hash host -> h = host) ->
  length (node_of hosts host) < length ds ->
  exists e, make_mpi parse hash devices bs true hosts r = Err (Fatal e).
Proof.
  intros P B E C L. unfold make_mpi, assert_. rewrite P. cbn [bind].
  assert (D0 : ds <> []) by (intros ->; cbn in L; lia).
  assert (negb (Nat.eqb (length bs) 0) = true) as ->.
  { apply negb_true_iff, Nat.eqb_neq. destruct ds; [congruence|]. cbn in B. lia. }
  cbn [bind].
  assert (Nat.eqb (length bs) 1 || Nat.eqb (length bs) (length ds) = true) as ->.
  { apply orb_true_iff. destruct B as [->| ->]; [left; reflexivity|right; apply Nat.eqb_refl]. }
  cbn [bind]. unfold determine_device_index. rewrite E.
  assert (Sz : local_size hash hosts host = length (node_of hosts host)).
  { unfold local_size, node_of.
    assert (G : forall pre l, (forall h, In h l -> In h hosts) ->
      length (filter (fun h => (color hash h =? color hash host)%Z) l) =
      length (filter (fun r => match nth_error (pre ++ l) r with Some h => String.eqb h host | None => false end) (seq (length pre) (length l)))).
    { intros pre l. revert pre. induction l as [|x l IH]; intros pre Sub; [reflexivity|]. cbn [length seq filter].
      rewrite nth_error_app2, Nat.sub_diag by lia. cbn [nth_error].
      specialize (IH (pre ++ [x]) (fun h I => Sub h (or_intror I))).
      rewrite app_length in IH. cbn [length] in IH.
      rewrite Nat.add_1_r in IH. rewrite <- app_assoc in IH. cbn [app] in IH.
      destruct (String.eqb_spec x host) as [->|N].
      - rewrite Z.eqb_refl. cbn [length]. rewrite IH. reflexivity.
      - destruct (Z.eqb_spec (color hash x) (color hash host)) as [Q|Q]; [|exact IH].
        exfalso. apply N. apply C; [apply Sub; left; reflexivity|exact Q]. }
    apply (G [] hosts). auto. }
  rewrite Sz. destruct (too_few_ranks (local_rank hash hosts r host) _ _ L) as [e ->].
  exists e. reflexivity.
Qed.
