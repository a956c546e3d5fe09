(** The hybrid scheduler: greedy choice and configuration acceptance. *)
From Coq Require Import SpecFloat.
From Verif Require Import Base Tensor Sched SpecSched BaseProofs TensorProofs.

(** ** The double comparison is a strict partial order compatible with ==. *)
Ltac fcmp :=
  cbn; change (Pos.compare_cont Eq) with Pos.compare; intros;
  repeat match goal with
         | H : context [Z.compare ?x ?y] |- _ => destruct (Z.compare_spec x y)
         | |- context [Z.compare ?x ?y] => destruct (Z.compare_spec x y)
         | H : context [Pos.compare ?x ?y] |- _ => destruct (Pos.compare_spec x y)
         | |- context [Pos.compare ?x ?y] => destruct (Pos.compare_spec x y)
         end; cbn in *; subst; try discriminate; try reflexivity; try lia.

Lemma SFltb_trans a b c : SFltb a b = true -> SFltb b c = true -> SFltb a c = true.
Proof.
  unfold SFltb.
  destruct a as [[]|[]| |[] ma ea], b as [[]|[]| |[] mb eb], c as [[]|[]| |[] mc ec];
    try solve [cbn; intros; first [discriminate|reflexivity]]; fcmp.
Qed.

Lemma SFltb_irrefl a : SFltb a a = false.
Proof. unfold SFltb. destruct a as [[]|[]| |[] ma ea]; fcmp. Qed.

Lemma SFltb_eq_l a b c : SFeqb a b = true -> SFltb c b = true -> SFltb c a = true.
Proof.
  unfold SFltb, SFeqb.
  destruct a as [[]|[]| |[] ma ea], b as [[]|[]| |[] mb eb], c as [[]|[]| |[] mc ec];
    try solve [cbn; intros; first [discriminate|reflexivity]]; fcmp.
Qed.

Lemma gt_trans a b c : gt a b -> gt b c -> gt a c.
Proof. unfold gt. intros. eapply SFltb_trans; eauto. Qed.

(** ** Selection *)
(** What [best] means after the entries [seen] have been looked at. *)
Definition best_of (seen : list dstatus) (best : option dstatus) : Prop :=
  match best with
  | None => Forall (fun s => has_room s = false) seen
  | Some t =>
      exists l1 l2, seen = l1 ++ t :: l2 /\ has_room t = true /\
        Forall (fun s => has_room s = true -> ~ gt (ds_prio s) (ds_prio t)) seen /\
        Forall (fun s => has_room s = true -> ~ feq (ds_prio s) (ds_prio t)) l1
  end.

Lemma select_spec tbl : forall seen best, best_of seen best -> best_of (seen ++ tbl) (select best tbl).
Proof.
  induction tbl as [|s tbl IH]; intros seen best H; cbn [select].
  - rewrite app_nil_r. exact H.
  - replace (seen ++ s :: tbl) with ((seen ++ [s]) ++ tbl) by (rewrite <- app_assoc; reflexivity).
    apply IH. destruct (has_room s) eqn:Er.
    + destruct best as [t|]; cbn [best_of] in *.
      * destruct H as (l1 & l2 & -> & Hr & Hg & Hf).
        destruct (SFltb (ds_prio t) (ds_prio s)) eqn:Ec; cbn [best_of].
        -- exists (l1 ++ t :: l2), []. split; [reflexivity|]. split; [exact Er|].
           assert (Forall (fun s0 => has_room s0 = true -> ~ gt (ds_prio s0) (ds_prio s))
                          (l1 ++ t :: l2)) as Hg'.
           { eapply Forall_impl; [|exact Hg]. intros x Hx Hxr Hgt. apply (Hx Hxr).
             eapply gt_trans; [exact Hgt|exact Ec]. }
           split.
           ++ apply Forall_app. split; [exact Hg'|]. constructor; [|constructor].
              intros _. unfold gt. rewrite SFltb_irrefl. discriminate.
           ++ eapply Forall_impl; [|exact Hg]. intros x Hx Hxr Heq. apply (Hx Hxr).
              unfold gt. eapply SFltb_eq_l; [exact Heq|exact Ec].
        -- exists l1, (l2 ++ [s]). rewrite <- app_assoc. split; [reflexivity|].
           split; [exact Hr|]. split; [|exact Hf].
           apply Forall_app. split; [apply Forall_app in Hg as [Ha Hb]; exact Ha|].
           cbn. apply Forall_app in Hg as [Ha Hb]. inversion Hb; subst.
           constructor; [assumption|]. apply Forall_app. split; [assumption|].
           constructor; [|constructor]. intros _. unfold gt. rewrite Ec. discriminate.
      * exists seen, []. split; [reflexivity|]. split; [exact Er|]. split.
        -- apply Forall_app. split.
           ++ eapply Forall_impl; [|exact H]. cbn. intros x Hx Hx'. congruence.
           ++ constructor; [|constructor]. intros _. unfold gt. rewrite SFltb_irrefl. discriminate.
        -- eapply Forall_impl; [|exact H]. cbn. intros x Hx Hx'. congruence.
    + destruct best as [t|]; cbn [best_of] in *.
      * destruct H as (l1 & l2 & -> & Hr & Hg & Hf).
        exists l1, (l2 ++ [s]). rewrite <- app_assoc. split; [reflexivity|].
        split; [exact Hr|]. split; [|exact Hf].
        apply Forall_app in Hg as [Ha Hb]. apply Forall_app. split; [exact Ha|].
        inversion Hb; subst. cbn. constructor; [assumption|]. apply Forall_app.
        split; [assumption|]. constructor; [|constructor]. intros Hc. congruence.
      * apply Forall_app. split; [exact H|]. constructor; [exact Er|constructor].
Qed.

Lemma select_best tbl : best_of tbl (select None tbl).
Proof. apply (select_spec tbl [] None). constructor. Qed.

Lemma has_room_iff s : (0 <= ds_load s)%Z -> (0 < ds_batch s)%Z -> (ds_load s + ds_batch s < 2 ^ 64)%Z ->
  has_room s = true <-> room s.
Proof.
  intros. unfold has_room, room, add64. rewrite Z.mod_small by lia. lia.
Qed.

Lemma schedule_greedy tbl : table_ok tbl ->
  match schedule_work_impl tbl with
  | None => forall s, In s tbl -> ~ room s
  | Some (d, n) =>
      exists l1 t l2, tbl = l1 ++ t :: l2 /\ d = ds_dev t /\ n = ds_batch t /\ room t /\
        (forall s, In s tbl -> room s -> ~ gt (ds_prio s) (ds_prio t)) /\
        (forall s, In s l1 -> room s -> ~ feq (ds_prio s) (ds_prio t))
  end.
Proof.
  intros Hok. unfold schedule_work_impl. pose proof (select_best tbl) as H.
  unfold table_ok in Hok. rewrite Forall_forall in Hok.
  assert (forall s, In s tbl -> (has_room s = true <-> room s)) as Hiff.
  { intros s Hs. destruct (Hok s Hs) as (?&?&?&?). apply has_room_iff; auto. }
  destruct (select None tbl) as [t|]; cbn [best_of] in H.
  - destruct H as (l1 & l2 & -> & Hr & Hg & Hf). exists l1, t, l2.
    assert (In t (l1 ++ t :: l2)) as Hin by (apply in_or_app; right; left; reflexivity).
    repeat split; auto.
    + apply Hiff; auto.
    + rewrite Forall_forall in Hg. intros s Hs Hrs. apply Hg; auto. apply Hiff; auto.
    + rewrite Forall_forall in Hf. intros s Hs Hrs. apply Hf; auto. apply Hiff; auto.
      apply in_or_app. left. exact Hs.
  - rewrite Forall_forall in H. intros s Hs Hr. apply Hiff in Hr; auto. rewrite (H s Hs) in Hr. discriminate.
Qed.

(** ** Configuration *)
Lemma broadcast_ok {T} (v : list T) n what :
  0 < n ->
  match broadcast v n what with
  | Ok r => (length v = 1 \/ length v = n) /\ length r = n /\
            forall i, i < n -> nth_error r i = per_device v i
  | Err _ => ~ (length v = 1 \/ length v = n)
  end.
Proof.
  intros Hn. unfold broadcast, assert_.
  destruct (Nat.eqb_spec (length v) 1) as [E1|E1]; destruct (Nat.eqb_spec (length v) n) as [E2|E2];
    cbn [orb bind].
  - repeat split; auto. intros i Hi. unfold per_device.
    destruct v as [|x [|y v]]; try discriminate. cbn in E2. assert (i = 0) by lia. subst. reflexivity.
  - destruct v as [|x [|y v]]; try discriminate. repeat split; auto.
    + apply repeat_length.
    + intros i Hi. cbn. rewrite nth_error_repeat by assumption. reflexivity.
  - repeat split; auto. intros i Hi. unfold per_device. destruct v as [|x [|y v]]; auto.
    cbn in E1. lia.
  - intros [H|H]; contradiction.
Qed.

Section Build.
  Variable parse : string -> result device.

  (** Acceptance of the loop, entry by entry. *)
  Lemma build_spec devs : forall seen cpus bs caps prios,
    length bs = length devs -> length caps = length devs -> length prios = length devs ->
    match build parse seen cpus devs bs caps prios with
    | Ok tbl =>
        (NoDup devs /\ (forall s, In s devs -> ~ In s seen) /\
         (forall s, In s devs -> exists d, parse s = Ok d) /\
         (1 <= cpus -> forall s d, In s devs -> parse s = Ok d -> d_type d <> "cpu"%string) /\
         (forall i j si sj di dj,
            nth_error devs i = Some si -> nth_error devs j = Some sj ->
            parse si = Ok di -> parse sj = Ok dj ->
            d_type di = "cpu"%string -> d_type dj = "cpu"%string -> i = j) /\
         (forall i b c, nth_error bs i = Some b -> nth_error caps i = Some c -> (0 < b <= c)%Z)) /\
        length tbl = length devs /\
        (forall i s, nth_error tbl i = Some s ->
           (exists name, nth_error devs i = Some name /\ parse name = Ok (ds_dev s)) /\
           nth_error bs i = Some (ds_batch s) /\ nth_error caps i = Some (ds_cap s) /\
           nth_error prios i = Some (ds_prio s) /\ ds_load s = 0%Z)
    | Err _ =>
        ~ (NoDup devs /\ (forall s, In s devs -> ~ In s seen) /\
           (forall s, In s devs -> exists d, parse s = Ok d) /\
           (1 <= cpus -> forall s d, In s devs -> parse s = Ok d -> d_type d <> "cpu"%string) /\
           (forall i j si sj di dj,
              nth_error devs i = Some si -> nth_error devs j = Some sj ->
              parse si = Ok di -> parse sj = Ok dj ->
              d_type di = "cpu"%string -> d_type dj = "cpu"%string -> i = j) /\
           (forall i b c, nth_error bs i = Some b -> nth_error caps i = Some c -> (0 < b <= c)%Z))
    end.
  Proof.
    induction devs as [|name devs IH]; intros seen cpus bs caps prios Hb Hc Hp.
    - destruct bs, caps; try discriminate. cbn [build].
      split; [|split; [reflexivity|intros [|] s H; discriminate]].
      split; [constructor|]. split; [intros s []|]. split; [intros s []|].
      split; [intros _ s d []|].
      split; [intros [|i] j si sj di dj Hi; discriminate|intros [|i] b c Hb'; discriminate].
    - destruct bs as [|b bs], caps as [|c caps], prios as [|p prios]; try discriminate.
      cbn in Hb, Hc, Hp. injection Hb as Hb. injection Hc as Hc. injection Hp as Hp.
      cbn [build]. unfold assert_ at 1.
      destruct (existsb (String.eqb name) seen) eqn:Eseen; cbn [negb bind].
      { intros (_ & Hs & _). apply existsb_exists in Eseen as (x & Hx & Hxe).
        apply String.eqb_eq in Hxe. subst x. apply (Hs name); [left; reflexivity|exact Hx]. }
      assert (~ In name seen) as Hns.
      { intros Hin. assert (existsb (String.eqb name) seen = true); [|congruence].
        apply existsb_exists. exists name. split; [exact Hin|apply String.eqb_refl]. }
      destruct (parse name) as [d|e] eqn:Ep; cbn [bind].
      2: { intros (_ & _ & Hps & _). destruct (Hps name (or_introl eq_refl)) as [d Hd]. congruence. }
      unfold assert_ at 1.
      destruct (negb (is_cpu d) || Nat.eqb (if is_cpu d then S cpus else cpus) 1) eqn:Ecpu; cbn [bind].
      2: { intros (_ & _ & _ & Hcp & _).
           unfold is_cpu in Ecpu. destruct (String.eqb_spec (d_type d) "cpu") as [Et|Et]; [|discriminate].
           cbn [negb orb] in Ecpu. apply Nat.eqb_neq in Ecpu.
           apply (Hcp ltac:(lia) name d (or_introl eq_refl) Ep Et). }
      unfold assert_ at 1. destruct (Z.ltb_spec 0 b) as [Hb0|Hb0]; cbn [bind].
      2: { intros (_&_&_&_&_& Hsz). specialize (Hsz 0 b c eq_refl eq_refl). lia. }
      unfold assert_ at 1. destruct (Z.leb_spec b c) as [Hbc|Hbc]; cbn [bind].
      2: { intros (_&_&_&_&_& Hsz). specialize (Hsz 0 b c eq_refl eq_refl). lia. }
      specialize (IH (name :: seen) (if is_cpu d then S cpus else cpus) bs caps prios Hb Hc Hp).
      destruct (build parse (name :: seen) (if is_cpu d then S cpus else cpus) devs bs caps prios)
        as [tbl|e]; cbn [bind].
      + destruct IH as ((Hnd & Hs & Hps & Hcp & Hone & Hsz) & Hl & Ht).
        split; [|split].
        * split; [constructor; [|exact Hnd]|].
          { intros Hin. apply (Hs name Hin). left; reflexivity. }
          split.
          { intros s [<-|Hin]; [exact Hns|]. intros Hc'. apply (Hs s Hin). right; exact Hc'. }
          split; [intros s [<-|Hin]; [eauto|auto]|].
          split.
          { intros H1 s d' [<-|Hin] Hd' Ht'.
            - assert (d' = d) by congruence. subst d'. unfold is_cpu in Ecpu. rewrite Ht' in Ecpu.
              cbn in Ecpu. apply Nat.eqb_eq in Ecpu. lia.
            - refine (Hcp _ s d' Hin Hd' Ht'). destruct (is_cpu d); lia. }
          split.
          { intros i j si sj di dj Hi Hj Hdi Hdj Hti Htj.
            destruct i as [|i], j as [|j]; cbn in Hi, Hj; auto.
            - injection Hi as <-. exfalso. assert (di = d) by congruence. subst.
              refine (Hcp _ sj dj (nth_error_In _ _ Hj) Hdj Htj).
              unfold is_cpu. rewrite Hti. cbn. lia.
            - injection Hj as <-. exfalso. assert (dj = d) by congruence. subst.
              refine (Hcp _ si di (nth_error_In _ _ Hi) Hdi Hti).
              unfold is_cpu. rewrite Htj. cbn. lia.
            - f_equal. eapply Hone; eauto. }
          { intros [|i] b' c' Hb' Hc'; cbn in Hb', Hc'.
            - injection Hb' as <-. injection Hc' as <-. lia.
            - eapply Hsz; eauto. }
        * cbn. congruence.
        * intros [|i] s Hi; cbn in Hi.
          { injection Hi as <-. cbn. repeat split; auto. exists name. auto. }
          { exact (Ht i s Hi). }
      + intros (Hnd & Hs & Hps & Hcp & Hone & Hsz). apply IH.
        inversion Hnd as [|? ? Hnin Hnd']; subst.
        split; [exact Hnd'|]. split.
        { intros s Hin [<-|Hc']; [contradiction|]. apply (Hs s (or_intror Hin) Hc'). }
        split; [intros s Hin; apply Hps; right; exact Hin|].
        split.
        { intros H1 s d' Hin Hd' Ht'. destruct (is_cpu d) eqn:Ei.
          - apply In_nth_error in Hin as [j Hj].
            assert (0 = S j); [|lia].
            eapply Hone with (si := name) (sj := s) (di := d) (dj := d'); eauto.
            unfold is_cpu in Ei. apply String.eqb_eq in Ei. exact Ei.
          - exact (Hcp H1 s d' (or_intror Hin) Hd' Ht'). }
        split.
        { intros i j si sj di dj Hi Hj Hdi Hdj Hti Htj.
          assert (S i = S j) by (eapply Hone; eauto). lia. }
        { intros i b' c' Hb' Hc'. apply (Hsz (S i)); assumption. }
  Qed.

  Lemma nth_error_some_lt {A} (l : list A) i : i < length l -> exists x, nth_error l i = Some x.
  Proof.
    intros H. destruct (nth_error l i) eqn:E; [eauto|]. apply nth_error_None in E. lia.
  Qed.

  Lemma make_hybrid_spec cfg :
    match make_hybrid parse cfg with
    | Ok tbl => config_ok parse cfg /\ table_of parse cfg tbl
    | Err _ => ~ config_ok parse cfg
    end.
  Proof.
    unfold make_hybrid. unfold assert_ at 1.
    destruct (Nat.ltb_spec 0 (length (cf_devices cfg))) as [Hn|Hn]; cbn [bind].
    2: { intros [H _ _ _ _ _ _ _]. destruct (cf_devices cfg); [congruence|cbn in Hn; lia]. }
    unfold assert_ at 1. destruct (Nat.eqb_spec (length (cf_batch_sizes cfg)) 0) as [E0|E0];
      cbn [negb bind].
    { intros [_ [H|H] _ _ _ _ _ _]; lia. }
    pose proof (broadcast_ok (cf_batch_sizes cfg) (length (cf_devices cfg)) "batch_sizes" Hn) as Hbs.
    destruct (broadcast (cf_batch_sizes cfg) _ _) as [bs|e]; cbn [bind].
    2: { intros H. apply Hbs, (ok_batch_len _ _ H). }
    destruct Hbs as (Hbl & Hbn & Hbi).
    set (n := length (cf_devices cfg)) in *.
    assert (match (if length (cf_capacities cfg) =? 0 then Ok bs
                   else broadcast (cf_capacities cfg) n "capacities") with
            | Ok caps => (cf_capacities cfg = [] \/ length (cf_capacities cfg) = 1 \/
                          length (cf_capacities cfg) = n) /\ length caps = n /\
                         forall i, i < n -> nth_error caps i =
                           if length (cf_capacities cfg) =? 0 then nth_error bs i
                           else per_device (cf_capacities cfg) i
            | Err _ => ~ (cf_capacities cfg = [] \/ length (cf_capacities cfg) = 1 \/
                          length (cf_capacities cfg) = n)
            end) as Hcaps.
    { destruct (Nat.eqb_spec (length (cf_capacities cfg)) 0) as [E|E].
      - split; [|split; auto]. left. destruct (cf_capacities cfg); [reflexivity|discriminate].
      - pose proof (broadcast_ok (cf_capacities cfg) n "capacities" Hn) as H.
        destruct (broadcast (cf_capacities cfg) n "capacities").
        + destruct H as (H1 & H2 & H3). auto.
        + intros [H'|H']; [rewrite H' in E; cbn in E; lia|]. apply H, H'. }
    destruct (if length (cf_capacities cfg) =? 0 then _ else _) as [caps|e]; cbn [bind].
    2: { intros H. apply Hcaps, (ok_cap_len _ _ H). }
    destruct Hcaps as (Hcl & Hcn & Hci).
    assert (match (if length (cf_priorities cfg) =? 0 then Ok (repeat f64_one n)
                   else broadcast (cf_priorities cfg) n "priorities") with
            | Ok ps => (cf_priorities cfg = [] \/ length (cf_priorities cfg) = 1 \/
                        length (cf_priorities cfg) = n) /\ length ps = n /\
                         forall i, i < n -> nth_error ps i =
                           if length (cf_priorities cfg) =? 0 then Some f64_one
                           else per_device (cf_priorities cfg) i
            | Err _ => ~ (cf_priorities cfg = [] \/ length (cf_priorities cfg) = 1 \/
                          length (cf_priorities cfg) = n)
            end) as Hprios.
    { destruct (Nat.eqb_spec (length (cf_priorities cfg)) 0) as [E|E].
      - split; [|split].
        + left. destruct (cf_priorities cfg); [reflexivity|discriminate].
        + apply repeat_length.
        + intros i Hi. apply nth_error_repeat, Hi.
      - pose proof (broadcast_ok (cf_priorities cfg) n "priorities" Hn) as H.
        destruct (broadcast (cf_priorities cfg) n "priorities").
        + destruct H as (H1 & H2 & H3). auto.
        + intros [H'|H']; [rewrite H' in E; cbn in E; lia|]. apply H, H'. }
    destruct (if length (cf_priorities cfg) =? 0 then _ else _) as [ps|e]; cbn [bind].
    2: { intros H. apply Hprios, (ok_prio_len _ _ H). }
    destruct Hprios as (Hpl & Hpn & Hpi).
    pose proof (build_spec (cf_devices cfg) [] 0 bs caps ps Hbn Hcn Hpn) as H.
    destruct (build parse [] 0 (cf_devices cfg) bs caps ps) as [tbl|e].
    - destruct H as ((Hnd & _ & Hps & _ & Hone & Hsz) & Hlt & Htbl). split.
      + constructor; auto.
        * intros H0. unfold n in Hn. rewrite H0 in Hn. cbn in Hn. lia.
        * intros i Hi. destruct (nth_error_some_lt bs i) as [b Eb]; [lia|].
          destruct (nth_error_some_lt caps i) as [c Ec]; [lia|].
          pose proof (Hsz i b c Eb Ec) as Hbc.
          exists b. rewrite <- Hbi by assumption. split; [exact Eb|]. split; [lia|].
          specialize (Hci i Hi). rewrite Ec in Hci.
          destruct (Nat.eqb_spec (length (cf_capacities cfg)) 0) as [E|E].
          -- left. destruct (cf_capacities cfg); [reflexivity|discriminate].
          -- right. exists c. split; [congruence|lia].
      + split; [exact Hlt|]. intros i s Hi.
        assert (i < n) as Hin. { unfold n. rewrite <- Hlt. apply nth_error_Some. congruence. }
        destruct (Htbl i s Hi) as (H1 & H2 & H3 & H4 & H5).
        rewrite Hbi in H2 by exact Hin. rewrite Hci in H3 by exact Hin. rewrite Hpi in H4 by exact Hin.
        split; [exact H1|]. split; [exact H2|]. split; [|split; [|exact H5]].
        * destruct (length (cf_capacities cfg) =? 0); [|exact H3].
          rewrite Hbi in H3 by exact Hin. congruence.
        * destruct (length (cf_priorities cfg) =? 0); congruence.
    - intros Hok. apply H. destruct Hok as [H1 H2 H3 H4 H5 H6 H7 H8].
      split; [exact H5|]. split; [intros s _ []|]. split; [exact H6|].
      split; [lia|]. split; [exact H7|].
      intros i b c Hb Hc.
      assert (i < n) as Hin. { rewrite <- Hbn. apply nth_error_Some. congruence. }
      destruct (H8 i Hin) as (b' & Hb' & Hpos & Hcap).
      rewrite Hbi in Hb by exact Hin. assert (b' = b) by congruence. subst b'.
      rewrite Hci in Hc by exact Hin.
      destruct (Nat.eqb_spec (length (cf_capacities cfg)) 0) as [E|E].
      + rewrite Hbi in Hc by exact Hin. assert (c = b) by congruence. lia.
      + destruct Hcap as [Hcap|(k & Hk & Hle)]; [rewrite Hcap in E; cbn in E; lia|].
        assert (k = c) by congruence. lia.
  Qed.

  (** An accepted configuration can place a chunk on the idle pool. *)
  Lemma idle_pool_has_room cfg tbl :
    make_hybrid parse cfg = Ok tbl ->
    (forall b, In b (cf_batch_sizes cfg) -> (b < 2 ^ 64)%Z) ->
    schedule_work_impl tbl <> None.
  Proof.
    intros Hm Hb. pose proof (make_hybrid_spec cfg) as H. rewrite Hm in H.
    destruct H as [Hok [Hlen Htbl]].
    assert (forall s, In s tbl -> (0 < ds_batch s)%Z /\ (ds_batch s <= ds_cap s)%Z /\
                                  ds_load s = 0%Z /\ (ds_batch s < 2 ^ 64)%Z) as Hs.
    { intros s Hin. apply In_nth_error in Hin as [i Hi].
      destruct (Htbl i s Hi) as (_ & H2 & H3 & _ & H5).
      assert (i < length (cf_devices cfg)) as Hlt.
      { rewrite <- Hlen. apply nth_error_Some. congruence. }
      destruct (ok_sizes _ _ Hok i Hlt) as (b & Hb' & Hpos & Hcap).
      rewrite H2 in Hb'. injection Hb' as <-. repeat split; auto.
      - destruct (Nat.eqb_spec (length (cf_capacities cfg)) 0) as [E|E]; [lia|].
        destruct Hcap as [Hcap|(k & Hk & Hle)]; [rewrite Hcap in E; cbn in E; lia|].
        assert (k = ds_cap s) by congruence. lia.
      - apply Hb. unfold per_device in H2. destruct (cf_batch_sizes cfg) as [|x [|y l]].
        + destruct i; discriminate.
        + injection H2 as ->. left. reflexivity.
        + apply nth_error_In with i. exact H2. }
    assert (table_ok tbl) as Hto.
    { apply Forall_forall. intros s Hin. destruct (Hs s Hin) as (?&?&?&?). lia. }
    pose proof (schedule_greedy tbl Hto) as Hg.
    destruct (schedule_work_impl tbl) as [[d n]|]; [discriminate|].
    exfalso. destruct tbl as [|s tbl].
    - cbn in Hlen. destruct (cf_devices cfg) eqn:E; [|discriminate].
      apply (ok_devices _ _ Hok). exact E.
    - destruct (Hs s (or_introl eq_refl)) as (?&?&?&?).
      apply (Hg s (or_introl eq_refl)). unfold room. lia.
  Qed.

  (** An accepted configuration whose names denote distinct devices and whose sizes
      fit the 64-bit counters describes a pool the asynchronous theorems cover. *)
  Lemma accepted_pool cfg tbl :
    make_hybrid parse cfg = Ok tbl ->
    (forall x y d, In x (cf_devices cfg) -> In y (cf_devices cfg) -> parse x = Ok d -> parse y = Ok d -> x = y) ->
    (forall t, In t tbl -> (ds_batch t < 2 ^ 63)%Z /\ (ds_cap t + ds_batch t < 2 ^ 64)%Z) ->
    pool_ok tbl /\ tbl <> [].
  Proof.
    intros Hm Hinj Hsz. pose proof (make_hybrid_spec cfg) as H. rewrite Hm in H.
    destruct H as [Hok [Hlen Ht]]. split; [split; [split|]|].
    - apply NoDup_nth_error. intros i j Hi E.
      rewrite map_length in Hi. rewrite !nth_error_map in E.
      destruct (nth_error tbl i) as [ti|] eqn:Ei; [|apply nth_error_Some in Hi; congruence].
      destruct (nth_error tbl j) as [tj|] eqn:Ej; [|discriminate]. cbn in E. injection E as E.
      destruct (Ht i ti Ei) as ((ni & Hni & Hpi) & _). destruct (Ht j tj Ej) as ((nj & Hnj & Hpj) & _).
      assert (ni = nj) as ->.
      { apply (Hinj ni nj (ds_dev ti)); [eapply nth_error_In; eauto|eapply nth_error_In; eauto|exact Hpi|congruence]. }
      apply (proj1 (NoDup_nth_error (cf_devices cfg)) (ok_distinct _ _ Hok));
        [apply nth_error_Some; congruence|congruence].
    - apply Forall_forall. intros t Hin. destruct (Hsz t Hin) as [_ Hs].
      apply In_nth_error in Hin as [i Hi]. destruct (Ht i t Hi) as (_ & Hb & Hc & _ & Hl).
      assert (i < length (cf_devices cfg)) as Hlt by (rewrite <- Hlen; apply nth_error_Some; congruence).
      destruct (ok_sizes _ _ Hok i Hlt) as (b & Hb' & Hpos & Hcap). rewrite Hb in Hb'. injection Hb' as <-.
      split; [exact Hl|]. split; [|lia]. split; [exact Hpos|].
      destruct (Nat.eqb_spec (length (cf_capacities cfg)) 0) as [E0|E0]; [lia|].
      destruct Hcap as [Hn|(k & Hk & Hle)]; [rewrite Hn in E0; cbn in E0; lia|].
      rewrite Hc in Hk. injection Hk as <-. exact Hle.
    - apply Forall_forall. intros t Hin. apply (Hsz t Hin).
    - intros ->. cbn in Hlen. pose proof (ok_devices _ _ Hok). destruct (cf_devices cfg); [congruence|discriminate].
  Qed.
End Build.
