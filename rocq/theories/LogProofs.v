(** Proofs about the log configuration. *)
From Verif Require Import Base Log SpecLog.
Local Open Scope string_scope.

(** ** Characters *)
Lemma white_iff c : is_space c = true <-> white c.
Proof.
  unfold is_space, white. cbn [In]. set (n := nat_of_ascii c). clearbody n.
  rewrite orb_true_iff, andb_true_iff, Nat.eqb_eq, !Nat.leb_le. lia.
Qed.
Lemma white_false c : is_space c = false <-> ~ white c.
Proof. rewrite <- white_iff. destruct (is_space c); split; congruence. Qed.

Lemma lower_as_iff c d : lower_as c d <-> d = to_lower c.
Proof.
  unfold lower_as, to_lower. pose proof (nat_ascii_bounded c) as Bc.
  destruct (Nat.leb 65 (nat_of_ascii c) && Nat.leb (nat_of_ascii c) 90) eqn:E.
  - apply andb_true_iff in E as [E1 E2]. apply Nat.leb_le in E1, E2. split.
    + intros [[_ H]|[H _]]; [|lia]. rewrite <- H. symmetry. apply ascii_nat_embedding.
    + intros ->. left. split; [lia|]. apply nat_ascii_embedding. lia.
  - apply andb_false_iff in E. rewrite !Nat.leb_gt in E. split.
    + intros [[H _]|[_ H]]; [lia|exact H].
    + intros ->. right. split; [lia|reflexivity].
Qed.

Lemma app_nil_r_s (s : string) : s ++ "" = s.
Proof. induction s as [|c s IH]; cbn; [reflexivity|now rewrite IH]. Qed.
Lemma app_assoc_s (a b c : string) : (a ++ b) ++ c = a ++ b ++ c.
Proof. induction a as [|x a IH]; cbn; [reflexivity|now rewrite IH]. Qed.
Lemma app_eq_nil_s (a b : string) : a ++ b = "" -> a = "" /\ b = "".
Proof. destruct a; cbn; [auto|discriminate]. Qed.
Lemma chars_app a b : chars (a ++ b) = (chars a ++ chars b)%list.
Proof. induction a as [|c a IH]; cbn; [reflexivity|]. f_equal. exact IH. Qed.

Lemma lowered_iff m t : Forall2 lower_as (chars m) (chars t) <-> t = lower m.
Proof.
  revert t. induction m as [|c m IH]; intros t; cbn.
  - split; [|intros ->; constructor]. destruct t; cbn; [reflexivity|]. intros H. inversion H.
  - split.
    + destruct t as [|d t]; cbn; intros H; inversion H; subst.
      f_equal; [apply lower_as_iff; assumption|apply IH; assumption].
    + intros ->. cbn. constructor; [apply lower_as_iff; reflexivity|apply IH; reflexivity].
Qed.

(** ** Trimming *)
Lemma ltrim_blank pre x : blank pre -> ltrim (pre ++ x) = ltrim x.
Proof.
  induction pre as [|c pre IH]; intros B; [reflexivity|]. inversion B; subst. cbn.
  assert (is_space c = true) as -> by (apply white_iff; assumption). apply IH. assumption.
Qed.
Lemma ltrim_head c r : ~ white c -> ltrim (String c r) = String c r.
Proof. intros H. cbn. apply white_false in H. rewrite H. reflexivity. Qed.
Lemma ltrim_spec s : exists pre, s = pre ++ ltrim s /\ blank pre /\ (forall c r, ltrim s = String c r -> ~ white c).
Proof.
  induction s as [|c s (pre & E & B & H)].
  - exists "". repeat split; [constructor|discriminate].
  - cbn. destruct (is_space c) eqn:W.
    + exists (String c pre). split; [cbn; f_equal; exact E|]. split; [|exact H].
      constructor; [apply white_iff; exact W|exact B].
    + exists "". split; [reflexivity|]. split; [constructor|].
      intros d r Q. injection Q as <- <-. apply white_false. exact W.
Qed.
Lemma rtrim_blank post : blank post -> rtrim post = "".
Proof.
  induction post as [|c p IH]; intros B; [reflexivity|]. inversion B; subst. cbn.
  rewrite IH by assumption. assert (is_space c = true) as -> by (apply white_iff; assumption). reflexivity.
Qed.
Lemma rtrim_app x post : blank post -> rtrim (x ++ post) = rtrim x.
Proof.
  intros B. induction x as [|c x IH]; [apply rtrim_blank; exact B|]. cbn. rewrite IH. reflexivity.
Qed.
Lemma rtrim_keep x : (forall r c, x = r ++ String c "" -> ~ white c) -> rtrim x = x.
Proof.
  induction x as [|c x IH]; intros H; [reflexivity|]. cbn.
  rewrite IH by (intros r d E; apply (H (String c r) d); rewrite E; reflexivity).
  destruct x as [|d x]; [|reflexivity].
  assert (is_space c = false) as ->; [|reflexivity]. apply white_false. apply (H "" c). reflexivity.
Qed.
Lemma rtrim_spec s : exists post, s = rtrim s ++ post /\ blank post /\ (forall r c, rtrim s = r ++ String c "" -> ~ white c).
Proof.
  induction s as [|c s (post & E & B & H)].
  - exists "". repeat split; [constructor|]. intros r c. destruct r; discriminate.
  - cbn. destruct (rtrim s) as [|d t] eqn:R.
    + cbn in E. subst post. destruct (is_space c) eqn:W.
      * exists (String c s). split; [reflexivity|]. split; [constructor; [apply white_iff; exact W|exact B]|].
        intros r d. destruct r; discriminate.
      * exists s. split; [reflexivity|]. split; [exact B|].
        intros r d Q. destruct r as [|e r]; cbn in Q; [|destruct r; discriminate].
        injection Q as <-. apply white_false. exact W.
    + exists post. split; [cbn in *; f_equal; exact E|]. split; [exact B|].
      intros r e Q. destruct r as [|f r]; cbn in Q; [discriminate|]. injection Q as <- Q.
      apply (H r e). exact Q.
Qed.
Lemma rtrim_head c r x t : rtrim x = String c r -> x = String c t \/ exists d t', x = String d t' /\ d = c.
Proof.
  destruct x as [|d x]; cbn; [discriminate|].
  destruct (rtrim x); [destruct (is_space d); [discriminate|]|]; intros H; injection H as <- _; right; eauto.
Qed.

Lemma normal_iff s t : normal s t <-> t = trim_lower s.
Proof.
  unfold normal, trim_lower. split.
  - intros (pre & mid & post & -> & Bp & Bq & Hh & Hl & L).
    apply lowered_iff in L. rewrite L. f_equal. rewrite ltrim_blank by exact Bp.
    destruct mid as [|c mid].
    + cbn. assert (G : ltrim post = "").
      { rewrite <- (app_nil_r_s post). rewrite ltrim_blank by exact Bq. reflexivity. }
      rewrite G. reflexivity.
    + cbn [append]. rewrite ltrim_head by (eapply Hh; reflexivity).
      change (String c (mid ++ post)) with (String c mid ++ post).
      rewrite rtrim_app by exact Bq. symmetry. apply rtrim_keep. exact Hl.
  - intros ->. destruct (ltrim_spec s) as (pre & E & Bp & Hh).
    destruct (rtrim_spec (ltrim s)) as (post & E2 & Bq & Hl).
    exists pre, (rtrim (ltrim s)), post.
    split; [rewrite <- E2; exact E|]. split; [exact Bp|]. split; [exact Bq|].
    split; [|split; [exact Hl|apply lowered_iff; reflexivity]].
    intros c r Q. rewrite Q in E2. cbn in E2. eapply Hh. exact E2.
Qed.

(** ** Splitting *)
Lemma entries_nonempty s : entries_of s <> [].
Proof.
  destruct s as [|c s]; cbn; [discriminate|]. destruct (Ascii.eqb c ","); [discriminate|].
  destruct (entries_of s); discriminate.
Qed.

Lemma concat_cons_char c h t : String.concat "," (String c h :: t)%list = String c (String.concat "," (h :: t)%list).
Proof. destruct t; reflexivity. Qed.
Lemma concat_nil_head t : t <> [] -> String.concat "," ("" :: t)%list = String "," (String.concat "," t).
Proof. destruct t; [congruence|reflexivity]. Qed.

Lemma entries_pieces s : pieces s (entries_of s).
Proof.
  induction s as [|c s (N & F & E)].
  - split; [discriminate|]. split; [constructor; [intros []|constructor]|reflexivity].
  - cbn. destruct (Ascii.eqb_spec c ",") as [->|Nc].
    + split; [discriminate|]. split; [constructor; [intros []|exact F]|].
      rewrite concat_nil_head by exact N. rewrite <- E. reflexivity.
    + destruct (entries_of s) as [|h t]; [congruence|]. inversion F as [|? ? F1 F2]; subst.
      split; [discriminate|]. split.
      * constructor; [|exact F2]. intros [Q|I]; [congruence|exact (F1 I)].
      * rewrite concat_cons_char. reflexivity.
Qed.

Lemma pieces_unique : forall l s, pieces s l -> l = entries_of s.
Proof.
  intros l. induction l as [|h t IH]; intros s (N & F & E); [congruence|]. subst s. clear N.
  inversion F as [|? ? F1 F2]; subst. induction h as [|c h IHh].
  - destruct t as [|x t]; [reflexivity|].
    rewrite concat_nil_head by discriminate. cbn [entries_of]. rewrite Ascii.eqb_refl.
    f_equal. apply IH. split; [discriminate|]. split; [exact F2|reflexivity].
  - rewrite concat_cons_char. cbn [entries_of].
    destruct (Ascii.eqb_spec c ",") as [->|Nc]; [exfalso; apply F1; left; reflexivity|].
    assert (F1' : free_of "," h) by (intros I; apply F1; right; exact I).
    rewrite <- IHh; [reflexivity| |exact F1']. constructor; assumption.
Qed.

Lemma pieces_iff s l : pieces s l <-> l = entries_of s.
Proof. split; [apply pieces_unique|intros ->; apply entries_pieces]. Qed.

Lemma split_at_iff c e a b : split_at c e = Some (a, b) <-> e = a ++ String c b /\ free_of c a.
Proof.
  revert a b. induction e as [|d e IH]; intros a b; cbn.
  - split; [discriminate|]. intros [H _]. destruct a; discriminate.
  - destruct (Ascii.eqb_spec d c) as [->|N].
    + split.
      * intros H. injection H as <- <-. split; [reflexivity|intros []].
      * intros [H F]. destruct a as [|x a]; cbn in H.
        -- injection H as ->. reflexivity.
        -- injection H as -> _. exfalso. apply F. left. reflexivity.
    + destruct (split_at c e) as [[a' b']|] eqn:S.
      * split.
        -- intros H. injection H as <- <-. destruct (proj1 (IH a' b') eq_refl) as [E F]. subst e.
           split; [reflexivity|]. intros [Q|I]; [congruence|exact (F I)].
        -- intros [H F]. destruct a as [|x a]; cbn in H; [congruence|]. injection H as -> H.
           assert (Some (a', b') = Some (a, b)) as Q.
           { apply IH. split; [exact H|]. intros I. apply F. right. exact I. }
           injection Q as -> ->. reflexivity.
      * split; [discriminate|]. intros [H F]. destruct a as [|x a]; cbn in H; [congruence|]. injection H as -> H.
        assert (None = Some (a, b)) as Q.
        { apply IH. split; [exact H|]. intros I. apply F. right. exact I. }
        discriminate.
Qed.

Lemma says_iff e k v :
  says e k v <-> exists a b, split_at "=" e = Some (a, b) /\ k = trim_lower a /\ v = trim_lower b.
Proof.
  unfold says. split; intros (a & b & H); exists a, b.
  - destruct H as (E & F & K & V). rewrite split_at_iff. rewrite <- !normal_iff. auto.
  - destruct H as (H & -> & ->). apply split_at_iff in H as [E F]. rewrite !normal_iff. auto.
Qed.

(** ** Words *)
Ltac word_in := apply orb_true_iff || idtac.

Lemma level_word_iff L w : level_word L w <-> parse_level w = Some L.
Proof.
  split.
  - intros H. destruct H as [w I|w I|w I|w I]; cbn [In] in I;
      repeat (destruct I as [<-|I]; [reflexivity|]); destruct I.
  - unfold parse_level.
    destruct (String.eqb w "silent" || String.eqb w "off" || String.eqb w "none" || String.eqb w "0") eqn:E1.
    { intros H. injection H as <-. constructor. rewrite !orb_true_iff, !String.eqb_eq in E1. cbn. intuition. }
    destruct (String.eqb w "warning" || String.eqb w "warn" || String.eqb w "1") eqn:E2.
    { intros H. injection H as <-. constructor. rewrite !orb_true_iff, !String.eqb_eq in E2. cbn. intuition. }
    destruct (String.eqb w "info" || String.eqb w "2") eqn:E3.
    { intros H. injection H as <-. constructor. rewrite !orb_true_iff, !String.eqb_eq in E3. cbn. intuition. }
    destruct (String.eqb w "debug" || String.eqb w "3") eqn:E4; [|discriminate].
    intros H. injection H as <-. constructor. rewrite !orb_true_iff, !String.eqb_eq in E4. cbn. intuition.
Qed.

Lemma parse_channel_iff k c : parse_channel k = Some c <-> k = channel_name c.
Proof.
  split.
  - unfold parse_channel. intros H.
    repeat match type of H with
           | context [String.eqb k ?w] => destruct (String.eqb_spec k w) as [->|]; [injection H as <-; reflexivity|]
           end.
    discriminate.
  - intros ->. destruct c; reflexivity.
Qed.

Lemma channel_eqb_iff a b : channel_eqb a b = true <-> a = b.
Proof. destruct a, b; cbn; split; congruence. Qed.
Lemma channel_name_inj a b : channel_name a = channel_name b -> a = b.
Proof. intros H. apply parse_channel_iff in H. rewrite (proj2 (parse_channel_iff _ _) eq_refl) in H. congruence. Qed.
Lemma channel_not_all c : channel_name c <> "all".
Proof. destruct c; discriminate. Qed.

(** ** Entries *)
Definition asg (e k : string) : option level :=
  match split_at "=" e with
  | Some (a, b) => if String.eqb (trim_lower a) k then parse_level (trim_lower b) else None
  | None => None
  end.

Lemma assigns_iff e k L : assigns e k L <-> asg e k = Some L.
Proof.
  unfold assigns, asg. split.
  - intros (v & S & W). apply says_iff in S as (a & b & -> & -> & ->). rewrite String.eqb_refl.
    apply level_word_iff. exact W.
  - destruct (split_at "=" e) as [[a b]|] eqn:S; [|discriminate].
    destruct (String.eqb_spec (trim_lower a) k) as [<-|]; [|discriminate]. intros P.
    exists (trim_lower b). split; [|apply level_word_iff; exact P].
    apply says_iff. exists a, b. auto.
Qed.

Definition good (e : string) : bool :=
  match split_at "=" e with
  | Some (a, b) =>
      match parse_level (trim_lower b) with
      | None => false
      | Some _ => String.eqb (trim_lower a) "all" ||
                  match parse_channel (trim_lower a) with Some _ => true | None => false end
      end
  | None => true
  end.

Lemma valid_iff e : valid_entry e <-> good e = true.
Proof.
  unfold valid_entry, good. split.
  - intros H. destruct (split_at "=" e) as [[a b]|] eqn:S; [|reflexivity].
    destruct (H (trim_lower a) (trim_lower b)) as [[L W] K].
    { apply says_iff. exists a, b. auto. }
    apply level_word_iff in W. rewrite W. destruct K as [-> |[c K]]; [reflexivity|].
    apply parse_channel_iff in K. rewrite K. apply orb_true_r.
  - intros G k v H. apply says_iff in H as (a & b & S & -> & ->). rewrite S in G.
    destruct (parse_level (trim_lower b)) as [L|] eqn:P; [|discriminate].
    split; [exists L; apply level_word_iff; exact P|].
    apply orb_true_iff in G as [G|G]; [left; apply String.eqb_eq; exact G|].
    destruct (parse_channel (trim_lower a)) as [c|] eqn:K; [|discriminate].
    right. exists c. apply parse_channel_iff. exact K.
Qed.

(** The last assignment in a list. *)
Fixpoint last_asg (l : list string) (k : string) : option level :=
  match l with
  | [] => None
  | e :: r => match last_asg r k with Some L => Some L | None => asg e k end
  end.

Definition or_else {A} (x y : option A) : option A := match x with Some _ => x | None => y end.

Definition layer_is (y y0 : layer) (l : list string) : Prop :=
  (forall c, ly_chan y c = or_else (last_asg l (channel_name c)) (ly_chan y0 c)) /\
  ly_all y = or_else (last_asg l "all") (ly_all y0).

Lemma apply_good l : forall y0 y e,
  apply_entries l y0 = (y, e) ->
  (Forall (fun x => good x = true) l /\ e = None /\ layer_is y y0 l) \/
  (exists l1 b l2, l = (l1 ++ b :: l2)%list /\ Forall (fun x => good x = true) l1 /\ good b = false /\
     layer_is y y0 l1 /\ exists w, e = Some (Fatal w)).
Proof.
  induction l as [|x l IH]; intros y0 y e H.
  - cbn in H. injection H as <- <-. left. split; [constructor|]. split; [reflexivity|].
    split; [intros c|]; reflexivity.
  - assert (Go : forall y1, good x = true -> apply_entries l y1 = (y, e) ->
             (forall c, ly_chan y1 c = or_else (asg x (channel_name c)) (ly_chan y0 c)) ->
             ly_all y1 = or_else (asg x "all") (ly_all y0) ->
             (Forall (fun x => good x = true) (x :: l)%list /\ e = None /\ layer_is y y0 (x :: l)%list) \/
             (exists l1 b l2, (x :: l)%list = (l1 ++ b :: l2)%list /\ Forall (fun x => good x = true) l1 /\ good b = false /\
                layer_is y y0 l1 /\ exists w, e = Some (Fatal w))).
    { intros y1 G R A1 A2. destruct (IH _ _ _ R) as [(F & E & L1 & L2)|(l1 & b & l2 & -> & F & B & [L1 L2] & W)].
      - left. split; [constructor; assumption|]. split; [exact E|].
        split; [intros c; rewrite L1, A1|rewrite L2, A2]; cbn;
          [destruct (last_asg l (channel_name c))|destruct (last_asg l "all")]; reflexivity.
      - right. exists (x :: l1)%list, b, l2. split; [reflexivity|]. split; [constructor; assumption|].
        split; [exact B|]. split; [|exact W].
        split; [intros c; rewrite L1, A1|rewrite L2, A2]; cbn;
          [destruct (last_asg l1 (channel_name c))|destruct (last_asg l1 "all")]; reflexivity. }
    cbn in H. destruct (split_at "=" x) as [[a b]|] eqn:S.
    + destruct (parse_level (trim_lower b)) as [L|] eqn:P.
      * destruct (String.eqb_spec (trim_lower a) "all") as [Q|Q].
        -- apply (Go (put_all y0 L)); [unfold good; rewrite S, P, Q; reflexivity|exact H| |].
           ++ intros c. unfold asg. rewrite S, Q. cbn [ly_chan put_all].
              destruct (String.eqb_spec "all" (channel_name c)) as [Z|Z]; [|reflexivity].
              exfalso. apply (channel_not_all c). symmetry. exact Z.
           ++ unfold asg. rewrite S, Q, P. reflexivity.
        -- destruct (parse_channel (trim_lower a)) as [C|] eqn:K.
           ++ apply (Go (put_chan y0 C L)); [unfold good; rewrite S, P, K; apply orb_true_r|exact H| |].
              ** intros c. unfold asg. rewrite S, P. cbn [ly_chan put_chan].
                 apply parse_channel_iff in K. rewrite K.
                 destruct (channel_eqb c C) eqn:EQ.
                 --- apply channel_eqb_iff in EQ. subst c. rewrite String.eqb_refl. reflexivity.
                 --- destruct (String.eqb_spec (channel_name C) (channel_name c)) as [Z|Z]; [|reflexivity].
                     apply channel_name_inj in Z. subst c. rewrite (proj2 (channel_eqb_iff C C) eq_refl) in EQ. discriminate.
              ** unfold asg. rewrite S. destruct (String.eqb_spec (trim_lower a) "all"); [congruence|]. reflexivity.
           ++ right. injection H as <- <-. exists [], x, l. split; [reflexivity|]. split; [constructor|].
              split; [unfold good; rewrite S, P, K; destruct (String.eqb_spec (trim_lower a) "all"); [congruence|reflexivity]|].
              split; [split; [intros c|]; reflexivity|]. eauto.
      * right. injection H as <- <-. exists [], x, l. split; [reflexivity|]. split; [constructor|].
        split; [unfold good; rewrite S, P; reflexivity|]. split; [split; [intros c|]; reflexivity|]. eauto.
    + apply (Go y0); [unfold good; rewrite S; reflexivity|exact H| |].
      * intros c. unfold asg. rewrite S. reflexivity.
      * unfold asg. rewrite S. reflexivity.
Qed.

Lemma last_asg_some l k L :
  last_asg l k = Some L <->
  exists l1 e l2, l = (l1 ++ e :: l2)%list /\ asg e k = Some L /\ forall e', In e' l2 -> asg e' k = None.
Proof.
  induction l as [|x l IH]; cbn.
  - split; [discriminate|]. intros (l1 & e & l2 & H & _). destruct l1; discriminate.
  - assert (Nn : last_asg l k = None <-> forall e, In e l -> asg e k = None).
    { clear. induction l as [|x l IH]; cbn; [split; [intros _ e []|reflexivity]|].
      destruct (last_asg l k) as [M|].
      - split; [discriminate|]. intros H. apply IH. intros e I. apply H. right. exact I.
      - split; [intros H e [<-|I]; [exact H|apply IH; [reflexivity|exact I]]|intros H; apply H; left; reflexivity]. }
    destruct (last_asg l k) as [M|] eqn:E.
    + split.
      * intros H. injection H as ->. destruct (proj1 IH eq_refl) as (l1 & e & l2 & -> & A & B).
        exists (x :: l1)%list, e, l2. auto.
      * intros (l1 & e & l2 & H & A & B). destruct l1 as [|y l1]; cbn in H; injection H as -> ->.
        -- destruct (proj1 IH) as [].
           ++ exfalso. assert (Some M = None) by (apply Nn; exact B). discriminate.
           ++ exfalso. assert (Some M = None) by (apply Nn; exact B). discriminate.
        -- apply IH. exists l1, e, l2. auto.
    + split.
      * intros H. exists [], x, l. split; [reflexivity|]. split; [exact H|]. apply Nn. reflexivity.
      * intros (l1 & e & l2 & H & A & B). destruct l1 as [|y l1]; cbn in H; injection H as -> ->; [exact A|].
        assert (G : asg e k = None) by (apply Nn; [reflexivity|]; apply in_or_app; right; left; reflexivity).
        congruence.
Qed.

Lemma last_asg_none l k : last_asg l k = None <-> forall e, In e l -> asg e k = None.
Proof.
  induction l as [|x l IH]; cbn; [split; [intros _ e []|reflexivity]|].
  destruct (last_asg l k) as [M|].
  - split; [discriminate|]. intros H. apply IH. intros e I. apply H. right. exact I.
  - split; [intros H e [<-|I]; [exact H|apply IH; [reflexivity|exact I]]|intros H; apply H; left; reflexivity].
Qed.

(** Environment lookups in terms of the entries. *)
Definition env_list (env : option string) : list string :=
  match env with Some s => entries_of s | None => [] end.

Lemma env_entry_iff env k L : env_entry env k L <-> last_asg (env_list env) k = Some L.
Proof.
  unfold env_entry. split.
  - intros (s & l1 & e & l2 & -> & P & A & B). cbn. apply pieces_iff in P. rewrite <- P.
    apply last_asg_some. exists l1, e, l2. split; [reflexivity|]. split; [apply assigns_iff; exact A|].
    intros e' I. destruct (asg e' k) as [M|] eqn:Q; [|reflexivity]. apply assigns_iff in Q.
    exfalso. exact (B e' M I Q).
  - destruct env as [s|]; cbn; [|discriminate]. intros H. apply last_asg_some in H as (l1 & e & l2 & E & A & B).
    exists s, l1, e, l2. split; [reflexivity|]. split; [apply pieces_iff; symmetry; exact E|].
    split; [apply assigns_iff; exact A|]. intros e' L' I Q. apply assigns_iff in Q. rewrite (B e' I) in Q. discriminate.
Qed.

Lemma env_none_iff env k : env_none env k <-> last_asg (env_list env) k = None.
Proof.
  unfold env_none. rewrite last_asg_none. split.
  - intros H e I. destruct (asg e k) as [M|] eqn:Q; [|reflexivity]. apply assigns_iff in Q. exfalso.
    destruct env as [s|]; [|destruct I]. exact (H s _ e M eq_refl (entries_pieces s) I Q).
  - intros H s l e L -> P I Q. apply pieces_iff in P. subst l. apply assigns_iff in Q.
    rewrite (H e I) in Q. discriminate.
Qed.

Lemma well_formed_iff env : well_formed env <-> Forall (fun e => good e = true) (env_list env).
Proof.
  unfold well_formed. split.
  - intros H. destruct env as [s|]; [|constructor]. specialize (H s _ eq_refl (entries_pieces s)).
    cbn. eapply Forall_impl; [|exact H]. intros e. apply valid_iff.
  - intros H s l -> P. apply pieces_iff in P. subst l. eapply Forall_impl; [|exact H].
    intros e. apply valid_iff.
Qed.

Lemma apply_env_locked_spec s s' e :
  apply_env_locked s = (s', e) ->
  lg_applied s' = true /\ lg_prog s' = lg_prog s /\ lg_var s' = lg_var s /\
  ((well_formed (lg_var s) /\ e = None /\ layer_is (lg_env s') no_layer (env_list (lg_var s))) \/
   (exists l1 b l2, env_list (lg_var s) = (l1 ++ b :: l2)%list /\ Forall (fun x => good x = true) l1 /\ good b = false /\
      layer_is (lg_env s') no_layer l1 /\ exists w, e = Some (Fatal w))).
Proof.
  unfold apply_env_locked. destruct (lg_var s) as [spec|] eqn:V.
  - destruct (apply_entries (entries_of spec) no_layer) as [y x] eqn:A. intros H. injection H as <- <-.
    cbn [lg_applied lg_prog lg_var lg_env]. split; [reflexivity|]. split; [reflexivity|]. split; [reflexivity|].
    destruct (apply_good _ _ _ _ A) as [(F & E & L)|H]; [left|right; exact H].
    split; [apply well_formed_iff; exact F|]. auto.
  - intros H. injection H as <- <-. cbn. split; [reflexivity|]. split; [reflexivity|]. split; [reflexivity|].
    left. split; [intros s0 l Q; discriminate|]. split; [reflexivity|]. split; [intros c|]; reflexivity.
Qed.

(** ** The programmatic layer over a history *)
Local Open Scope list_scope.
Fixpoint prog_of (rh : list levent) (c : channel) : option level :=
  match rh with
  | [] => None
  | LSet c' l :: r => if channel_eqb c c' then Some l else prog_of r c
  | LReset :: _ => None
  | _ :: r => prog_of r c
  end.
Fixpoint prog_all_of (rh : list levent) : option level :=
  match rh with
  | [] => None
  | LSetAll l :: r => Some l
  | LReset :: _ => None
  | _ :: r => prog_all_of r
  end.

Lemma snoc_split {A} (h : list A) x h1 y h2 :
  h ++ [x] = h1 ++ y :: h2 -> (h1 = h /\ y = x /\ h2 = []) \/ exists h2', h2 = h2' ++ [x] /\ h = h1 ++ y :: h2'.
Proof.
  destruct (rev h2) as [|z r] eqn:R.
  - apply (f_equal (@rev A)) in R. rewrite rev_involutive in R. cbn in R. subst h2.
    intros E. apply app_inj_tail in E as [-> ->]. left. auto.
  - apply (f_equal (@rev A)) in R. rewrite rev_involutive in R. cbn in R. subst h2.
    intros E. right. exists (rev r). change (h1 ++ y :: rev r ++ [z]) with (h1 ++ (y :: rev r) ++ [z]) in E.
    rewrite app_assoc in E. apply app_inj_tail in E as [-> ->]. auto.
Qed.

Lemma prog_entry_iff h c L : prog_entry h c L <-> prog_of (rev h) c = Some L.
Proof.
  induction h as [|x h IH] using rev_ind.
  - split; [|discriminate]. intros (h1 & h2 & H & _). destruct h1; discriminate.
  - rewrite rev_app_distr. cbn [rev app].
    assert (Skip : x <> LReset -> (forall L', x <> LSet c L') -> (prog_entry (h ++ [x]) c L <-> prog_entry h c L)).
    { intros N1 N2. split.
      - intros (h1 & h2 & E & R & F). apply snoc_split in E as [(_ & E & _)|(h2' & -> & ->)].
        + exfalso. exact (N2 L (eq_sym E)).
        + exists h1, h2'. split; [reflexivity|]. split; [intros I; apply R; apply in_or_app; auto|].
          intros L' I. apply (F L'). apply in_or_app; auto.
      - intros (h1 & h2 & -> & R & F). exists h1, (h2 ++ [x]). split; [rewrite <- app_assoc; reflexivity|].
        split; [intros I; apply in_app_or in I as [I|[I|[]]]; [exact (R I)|exact (N1 I)]|].
        intros L' I. apply in_app_or in I as [I|[I|[]]]; [exact (F L' I)|exact (N2 L' I)]. }
    destruct x; cbn [prog_of]; try (rewrite Skip by (intros; discriminate); exact IH).
    + destruct (channel_eqb c c0) eqn:Q.
      * apply channel_eqb_iff in Q. subst c0. split.
        -- intros (h1 & h2 & E & R & F). apply snoc_split in E as [(_ & E & _)|(h2' & -> & ->)]; [congruence|].
           exfalso. apply (F l). apply in_or_app. right. left. reflexivity.
        -- intros H. injection H as ->. exists h, []. split; [reflexivity|]. split; [intros []|intros L' []].
      * rewrite Skip; [exact IH|discriminate|]. intros L' E. injection E as -> _.
        rewrite (proj2 (channel_eqb_iff c c) eq_refl) in Q. discriminate.
    + split; [|discriminate]. intros (h1 & h2 & E & R & F).
      apply snoc_split in E as [(_ & E & _)|(h2' & -> & ->)]; [discriminate|].
      exfalso. apply R. apply in_or_app. right. left. reflexivity.
Qed.

Lemma prog_none_iff h c : prog_none h c <-> prog_of (rev h) c = None.
Proof.
  induction h as [|x h IH] using rev_ind.
  - split; [reflexivity|]. intros _ h1 L h2 E. destruct h1; discriminate.
  - rewrite rev_app_distr. cbn [rev app].
    assert (Skip : x <> LReset -> (forall L', x <> LSet c L') -> (prog_none (h ++ [x]) c <-> prog_none h c)).
    { intros N1 N2. split.
      - intros H h1 L h2 ->. specialize (H h1 L (h2 ++ [x])). rewrite <- app_assoc in H. specialize (H eq_refl).
        apply in_app_or in H as [I|[I|[]]]; [exact I|congruence].
      - intros H h1 L h2 E. apply snoc_split in E as [(_ & E & _)|(h2' & -> & ->)]; [exfalso; exact (N2 L (eq_sym E))|].
        apply in_or_app. left. eapply H. reflexivity. }
    destruct x; cbn [prog_of]; try (rewrite Skip by (intros; discriminate); exact IH).
    + destruct (channel_eqb c c0) eqn:Q.
      * apply channel_eqb_iff in Q. subst c0. split; [|discriminate].
        intros H. specialize (H h l [] eq_refl). destruct H.
      * rewrite Skip; [exact IH|discriminate|]. intros L' E. injection E as -> _.
        rewrite (proj2 (channel_eqb_iff c c) eq_refl) in Q. discriminate.
    + split; [reflexivity|]. intros _ h1 L h2 E.
      apply snoc_split in E as [(_ & E & _)|(h2' & -> & ->)]; [discriminate|].
      apply in_or_app. right. left. reflexivity.
Qed.

Lemma prog_all_entry_iff h L : prog_all_entry h L <-> prog_all_of (rev h) = Some L.
Proof.
  induction h as [|x h IH] using rev_ind.
  - split; [|discriminate]. intros (h1 & h2 & H & _). destruct h1; discriminate.
  - rewrite rev_app_distr. cbn [rev app].
    assert (Skip : x <> LReset -> (forall L', x <> LSetAll L') -> (prog_all_entry (h ++ [x]) L <-> prog_all_entry h L)).
    { intros N1 N2. split.
      - intros (h1 & h2 & E & R & F). apply snoc_split in E as [(_ & E & _)|(h2' & -> & ->)].
        + exfalso. exact (N2 L (eq_sym E)).
        + exists h1, h2'. split; [reflexivity|]. split; [intros I; apply R; apply in_or_app; auto|].
          intros L' I. apply (F L'). apply in_or_app; auto.
      - intros (h1 & h2 & -> & R & F). exists h1, (h2 ++ [x]). split; [rewrite <- app_assoc; reflexivity|].
        split; [intros I; apply in_app_or in I as [I|[I|[]]]; [exact (R I)|exact (N1 I)]|].
        intros L' I. apply in_app_or in I as [I|[I|[]]]; [exact (F L' I)|exact (N2 L' I)]. }
    destruct x; cbn [prog_all_of]; try (rewrite Skip by (intros; discriminate); exact IH).
    + split.
      * intros (h1 & h2 & E & R & F). apply snoc_split in E as [(_ & E & _)|(h2' & -> & ->)]; [congruence|].
        exfalso. apply (F l). apply in_or_app. right. left. reflexivity.
      * intros H. injection H as ->. exists h, []. split; [reflexivity|]. split; [intros []|intros L' []].
    + split; [|discriminate]. intros (h1 & h2 & E & R & F).
      apply snoc_split in E as [(_ & E & _)|(h2' & -> & ->)]; [discriminate|].
      exfalso. apply R. apply in_or_app. right. left. reflexivity.
Qed.

Lemma prog_all_none_iff h : prog_all_none h <-> prog_all_of (rev h) = None.
Proof.
  induction h as [|x h IH] using rev_ind.
  - split; [reflexivity|]. intros _ h1 L h2 E. destruct h1; discriminate.
  - rewrite rev_app_distr. cbn [rev app].
    assert (Skip : x <> LReset -> (forall L', x <> LSetAll L') -> (prog_all_none (h ++ [x]) <-> prog_all_none h)).
    { intros N1 N2. split.
      - intros H h1 L h2 ->. specialize (H h1 L (h2 ++ [x])). rewrite <- app_assoc in H. specialize (H eq_refl).
        apply in_app_or in H as [I|[I|[]]]; [exact I|congruence].
      - intros H h1 L h2 E. apply snoc_split in E as [(_ & E & _)|(h2' & -> & ->)]; [exfalso; exact (N2 L (eq_sym E))|].
        apply in_or_app. left. eapply H. reflexivity. }
    destruct x; cbn [prog_all_of]; try (rewrite Skip by (intros; discriminate); exact IH).
    + split; [|discriminate]. intros H. specialize (H h l [] eq_refl). destruct H.
    + split; [reflexivity|]. intros _ h1 L h2 E.
      apply snoc_split in E as [(_ & E & _)|(h2' & -> & ->)]; [discriminate|].
      apply in_or_app. right. left. reflexivity.
Qed.

(** ** The store after a history *)
Lemma lrun_snoc s h ev : lrun s (h ++ [ev]) = fst (lstep (lrun s h) ev).
Proof. revert s. induction h as [|x h IH]; intros s; cbn; [reflexivity|apply IH]. Qed.
Lemma env_at_snoc v h ev :
  env_at v (h ++ [ev]) = match ev with LSetenv w => w | _ => env_at v h end.
Proof. revert v. induction h as [|x h IH]; intros v; cbn; [destruct ev; reflexivity|]. destruct x; apply IH. Qed.

(** The environment layer after reading [env]: all of it, or what precedes the first
    invalid entry. *)
Definition good_prefix (l : list string) : list string :=
  (fix go l := match l with
               | [] => []
               | e :: r => if good e then e :: go r else []
               end) l.
Definition after_read (y : layer) (env : option string) : Prop :=
  layer_is y no_layer (good_prefix (env_list env)).

Lemma good_prefix_all l : Forall (fun e => good e = true) l -> good_prefix l = l.
Proof. induction 1 as [|e l G _ IH]; [reflexivity|]. cbn. rewrite G. f_equal. exact IH. Qed.
Lemma good_prefix_app l1 b l2 : Forall (fun e => good e = true) l1 -> good b = false -> good_prefix (l1 ++ b :: l2) = l1.
Proof.
  intros F B. induction F as [|e l G _ IH]; cbn; [rewrite B; reflexivity|]. rewrite G. f_equal. exact IH.
Qed.

Lemma apply_after s s' e :
  apply_env_locked s = (s', e) ->
  lg_applied s' = true /\ lg_prog s' = lg_prog s /\ lg_var s' = lg_var s /\ after_read (lg_env s') (lg_var s) /\
  (well_formed (lg_var s) <-> e = None) /\ (~ well_formed (lg_var s) -> exists w, e = Some (Fatal w)).
Proof.
  intros H. apply apply_env_locked_spec in H as (H1 & H2 & H3 & H4).
  split; [exact H1|]. split; [exact H2|]. split; [exact H3|].
  destruct H4 as [(W & -> & L)|(l1 & b & l2 & E & F & B & L & w & ->)].
  - split; [|split; [tauto|tauto]]. unfold after_read. rewrite good_prefix_all; [exact L|]. apply well_formed_iff. exact W.
  - split; [unfold after_read; rewrite E, good_prefix_app by assumption; exact L|].
    split; [|intros _; eauto]. split; [|discriminate]. intros W. apply well_formed_iff in W. rewrite E in W.
    rewrite Forall_forall in W. specialize (W b). rewrite W in B; [discriminate|]. apply in_or_app. right. left. reflexivity.
Qed.

Record log_inv (v : option string) (h : list levent) (s : lstate) : Prop := mkLI {
  li_var : lg_var s = env_at v h;
  li_prog : forall c, ly_chan (lg_prog s) c = prog_of (rev h) c;
  li_all : ly_all (lg_prog s) = prog_all_of (rev h);
  li_fresh : lg_applied s = false <-> (forall e, In e h -> ~ uses e);
  li_env : lg_applied s = true -> exists env, env_read v h env /\ after_read (lg_env s) env
}.

Lemma in_uses_snoc h ev :
  (forall e, In e (h ++ [ev]) -> ~ uses e) <-> (forall e, In e h -> ~ uses e) /\ ~ uses ev.
Proof.
  split.
  - intros H. split; [intros e I|]; apply H; apply in_or_app; [left; exact I|right; left; reflexivity].
  - intros [H1 H2] e I. apply in_app_or in I as [I|[<-|[]]]; auto.
Qed.

Lemma env_read_snoc v h ev env : ev <> LApply -> env_read v h env -> env_read v (h ++ [ev]) env.
Proof.
  intros N (h1 & r & h2 & -> & R & A & ->). exists h1, r, (h2 ++ [ev]).
  split; [rewrite <- app_assoc; reflexivity|]. split; [exact R|]. split; [|reflexivity].
  intros I. apply in_app_or in I as [I|[I|[]]]; [exact (A I)|congruence].
Qed.
Lemma env_read_now v h ev : reads h ev -> env_read v (h ++ [ev]) (env_at v h).
Proof. intros R. exists h, ev, []. split; [reflexivity|]. split; [exact R|]. split; [intros []|reflexivity]. Qed.

(** Effect of a use of a level: reads the variable unless already read. *)
Lemma use_inv v h s ev c :
  log_inv v h s -> uses ev -> ev <> LApply ->
  (forall r, prog_of (ev :: r) = prog_of r) -> (forall r, prog_all_of (ev :: r) = prog_all_of r) ->
  env_at v (h ++ [ev]) = env_at v h ->
  log_inv v (h ++ [ev]) (fst (effective_locked s c)) /\
  (exists env, env_read v (h ++ [ev]) env /\
     (well_formed env -> exists s', effective_locked s c = (s', Ok (resolve s' c))) /\
     ((forall e, In e h -> ~ uses e) -> ~ well_formed env -> exists s' w, effective_locked s c = (s', Err (Fatal w))) /\
     (~ (forall e, In e h -> ~ uses e) -> exists s', effective_locked s c = (s', Ok (resolve s' c)))).
Proof.
  intros [V P A F E] U N PP PA EV. unfold effective_locked. destruct (lg_applied s) eqn:Ap.
  - cbn [fst]. split.
    + constructor; [rewrite EV; exact V| | | |].
      * intros c'. rewrite rev_app_distr. cbn [rev app]. rewrite PP. apply P.
      * rewrite rev_app_distr. cbn [rev app]. rewrite PA. exact A.
      * rewrite in_uses_snoc, Ap. split; [discriminate|tauto].
      * intros _. destruct (E eq_refl) as (env & R & L). exists env. split; [apply env_read_snoc; assumption|exact L].
    + destruct (E eq_refl) as (env & R & L). exists env. split; [apply env_read_snoc; assumption|].
      split; [intros _; eauto|]. split; [|eauto]. intros Q. apply F in Q. discriminate.
  - pose proof (proj1 F eq_refl) as Fr.
    destruct (apply_env_locked s) as [s' x] eqn:Q. apply apply_after in Q as (Q1 & Q2 & Q3 & Q4 & Q5 & Q6).
    rewrite V in *.
    assert (R : env_read v (h ++ [ev]) (env_at v h)) by (apply env_read_now; right; auto).
    split.
    + assert (I' : log_inv v (h ++ [ev]) s').
      { constructor; [rewrite EV, Q3; reflexivity| | | |].
        * intros c'. rewrite rev_app_distr. cbn [rev app]. rewrite PP, Q2. apply P.
        * rewrite rev_app_distr. cbn [rev app]. rewrite PA, Q2. exact A.
        * rewrite in_uses_snoc, Q1. split; [discriminate|tauto].
        * intros _. exists (env_at v h). auto. }
      destruct x; exact I'.
    + exists (env_at v h). split; [exact R|]. split; [|split].
      * intros W. apply Q5 in W. subst x. eauto.
      * intros _ W. destruct (Q6 W) as [w ->]. eauto.
      * intros Z. exfalso. exact (Z Fr).
Qed.

Lemma log_inv_run v h : log_inv v h (lrun (linit v) h).
Proof.
  induction h as [|ev h IH] using rev_ind.
  - constructor; cbn; try reflexivity; [|discriminate]. split; [intros _ e []|reflexivity].
  - rewrite lrun_snoc. set (s := lrun (linit v) h) in *. clearbody s.
    assert (Use : forall c, uses ev -> ev <> LApply ->
       (forall r, prog_of (ev :: r) = prog_of r) -> (forall r, prog_all_of (ev :: r) = prog_all_of r) ->
       env_at v (h ++ [ev]) = env_at v h -> log_inv v (h ++ [ev]) (fst (effective_locked s c))).
    { intros c U N PP PA EV. apply (use_inv v h s ev c); assumption. }
    pose proof IH as [V P A F E].
    assert (Other : forall s', ~ uses ev -> lg_var s' = env_at v (h ++ [ev]) ->
       (forall c, ly_chan (lg_prog s') c = prog_of (ev :: rev h) c) ->
       ly_all (lg_prog s') = prog_all_of (ev :: rev h) ->
       lg_applied s' = lg_applied s -> lg_env s' = lg_env s -> log_inv v (h ++ [ev]) s').
    { intros s' U HV HP HA Hap Hen. constructor.
      - exact HV.
      - intros c. rewrite rev_app_distr. apply HP.
      - rewrite rev_app_distr. exact HA.
      - rewrite in_uses_snoc, Hap, F. tauto.
      - rewrite Hap, Hen. intros Q. destruct (E Q) as (env & R & L). exists env.
        split; [apply env_read_snoc; [intros ->; apply U; exact I|exact R]|exact L]. }
    destruct ev; cbn [lstep].
    + destruct (effective_locked s c) as [s' r] eqn:Q. cbn [fst].
      specialize (Use c). rewrite Q in Use. apply Use; try reflexivity; try discriminate; try exact I.
      rewrite env_at_snoc. reflexivity.
    + destruct (effective_locked s c) as [s' r] eqn:Q. cbn [fst].
      specialize (Use c). rewrite Q in Use. apply Use; try reflexivity; try discriminate; try exact I.
      rewrite env_at_snoc. reflexivity.
    + destruct (effective_locked s c) as [s' r] eqn:Q. cbn [fst].
      specialize (Use c). rewrite Q in Use. apply Use; try reflexivity; try discriminate; try exact I.
      rewrite env_at_snoc. reflexivity.
    + apply Other; [intros []|rewrite env_at_snoc; exact V| |exact A|reflexivity|reflexivity].
      intros c'. cbn [fst lg_prog put_chan ly_chan prog_of]. rewrite <- P. reflexivity.
    + apply Other; [intros []|rewrite env_at_snoc; exact V|exact P|reflexivity|reflexivity|reflexivity].
    + apply Other; [intros []|rewrite env_at_snoc; exact V|reflexivity|reflexivity|reflexivity|reflexivity].
    + destruct (apply_env_locked s) as [s' x] eqn:Q. cbn [fst].
      apply apply_after in Q as (Q1 & Q2 & Q3 & Q4 & Q5 & Q6). rewrite V in *.
      constructor.
      * rewrite env_at_snoc. exact Q3.
      * intros c. rewrite rev_app_distr. cbn [rev app prog_of]. rewrite Q2. apply P.
      * rewrite rev_app_distr. cbn [rev app prog_all_of]. rewrite Q2. exact A.
      * rewrite in_uses_snoc, Q1. split; [discriminate|]. intros [_ U]. exfalso. apply U. exact I.
      * intros _. exists (env_at v h). split; [apply env_read_now; left; reflexivity|exact Q4].
    + apply Other; [intros []|rewrite env_at_snoc; reflexivity|exact P|exact A|reflexivity|reflexivity].
Qed.

(** Which value has been read is determined. *)
Lemma env_read_unique v h e1 e2 : env_read v h e1 -> env_read v h e2 -> e1 = e2.
Proof.
  intros (a1 & r1 & b1 & E1 & R1 & A1 & ->) (a2 & r2 & b2 & E2 & R2 & A2 & ->).
  assert (W : forall (a1 : list levent) r1 b1 a2 r2 b2, a1 ++ r1 :: b1 = a2 ++ r2 :: b2 -> reads a1 r1 -> reads a2 r2 ->
            ~ In LApply b1 -> ~ In LApply b2 -> length a1 < length a2 -> False).
  { clear. intros a1 r1 b1 a2 r2 b2 E R1 R2 N1 N2 L.
    (* r1 lies in a2, r2 lies in b1 *)
    assert (X : exists m, a2 = a1 ++ r1 :: m /\ b1 = m ++ r2 :: b2).
    { revert a2 E L R1 R2. induction a1 as [|x a1 IH]; intros [|y a2] E L R1 R2; cbn in *; try lia.
      - injection E as -> ->. exists a2. auto.
      - injection E as -> E. destruct (IH a2 E ltac:(lia)) as (m & -> & ->); [| |eauto].
        + destruct R1 as [R1|[U R1]]; [left; exact R1|right; split; [exact U|intros z I; apply R1; right; exact I]].
        + destruct R2 as [R2|[U R2]]; [left; exact R2|right; split; [exact U|intros z I; apply R2; right; exact I]]. }
    destruct X as (m & -> & ->).
    destruct R2 as [->|[U2 R2]].
    - apply N1. apply in_or_app. right. left. reflexivity.
    - assert (U1 : uses r1) by (destruct R1 as [->|[U1 _]]; [exact I|exact U1]).
      apply (R2 r1); [|exact U1]. apply in_or_app. right. left. reflexivity. }
  rewrite E1 in E2. destruct (Nat.lt_trichotomy (length a1) (length a2)) as [L|[L|L]].
  - exfalso. eapply (W a1 r1 b1 a2 r2 b2); eauto.
  - assert (a1 = a2) as ->; [|reflexivity].
    clear - E2 L. revert a2 E2 L. induction a1 as [|x a1 IH]; intros [|y a2] E L; cbn in *; try lia; [reflexivity|].
    injection E as -> E. f_equal. apply IH; [exact E|lia].
  - exfalso. eapply (W a2 r2 b2 a1 r1 b1); eauto.
Qed.

Lemma resolves_iff env h c L :
  resolves env h c L <->
  L = match last_asg (env_list env) (channel_name c) with
      | Some l => l
      | None =>
      match last_asg (env_list env) "all" with
      | Some l => l
      | None =>
      match prog_of (rev h) c with
      | Some l => l
      | None =>
      match prog_all_of (rev h) with
      | Some l => l
      | None => Warning
      end end end end.
Proof.
  split.
  - intros H. destruct H;
      repeat match goal with
        | H : env_entry _ _ _ |- _ => apply env_entry_iff in H; rewrite H; clear H
        | H : env_none _ _ |- _ => apply env_none_iff in H; rewrite H; clear H
        | H : prog_entry _ _ _ |- _ => apply prog_entry_iff in H; rewrite H; clear H
        | H : prog_none _ _ |- _ => apply prog_none_iff in H; rewrite H; clear H
        | H : prog_all_entry _ _ |- _ => apply prog_all_entry_iff in H; rewrite H; clear H
        | H : prog_all_none _ |- _ => apply prog_all_none_iff in H; rewrite H; clear H
        end; reflexivity.
  - intros ->. destruct (last_asg (env_list env) (channel_name c)) eqn:E1.
    { apply by_env. apply env_entry_iff. exact E1. }
    apply env_none_iff in E1. destruct (last_asg (env_list env) "all") eqn:E2.
    { apply by_env_all; [exact E1|]. apply env_entry_iff. exact E2. }
    apply env_none_iff in E2. destruct (prog_of (rev h) c) eqn:E3.
    { apply by_prog; [exact E1|exact E2|]. apply prog_entry_iff. exact E3. }
    apply prog_none_iff in E3. destruct (prog_all_of (rev h)) eqn:E4.
    { apply by_prog_all; [exact E1|exact E2|exact E3|]. apply prog_all_entry_iff. exact E4. }
    apply by_default; auto. apply prog_all_none_iff. exact E4.
Qed.

Lemma in_effect_list env eff : in_effect env eff -> env_list eff = good_prefix (env_list env).
Proof.
  intros [[W ->]|(s & l1 & b & l2 & -> & P & F & B & ->)].
  - apply well_formed_iff in W. symmetry. apply good_prefix_all. exact W.
  - cbn [env_list]. pose proof P as P'. apply pieces_iff in P. rewrite <- P.
    rewrite good_prefix_app.
    + destruct l1 as [|x l1]; [reflexivity|]. cbn [env_list]. symmetry. apply pieces_iff.
      destruct P' as (_ & Fr & _). apply Forall_app in Fr as [Fr _].
      split; [discriminate|]. split; [exact Fr|reflexivity].
    + eapply Forall_impl; [|exact F]. intros e. apply valid_iff.
    + destruct (good b) eqn:G; [|reflexivity]. exfalso. apply B. apply valid_iff. exact G.
Qed.

Lemma in_effect_exists env : exists eff, in_effect env eff.
Proof.
  destruct env as [s|]; [|exists None; left; split; [intros s l Q; discriminate|reflexivity]].
  assert (G : Forall (fun e => good e = true) (entries_of s) \/
              exists l1 b l2, entries_of s = l1 ++ b :: l2 /\ Forall (fun e => good e = true) l1 /\ good b = false).
  { generalize (entries_of s). intros l. induction l as [|e l [H|(l1 & b & l2 & -> & H & B)]].
    - left. constructor.
    - destruct (good e) eqn:G; [left; constructor; assumption|]. right. exists [], e, l. auto.
    - destruct (good e) eqn:G.
      + right. exists (e :: l1), b, l2. split; [reflexivity|]. split; [constructor; assumption|exact B].
      + right. exists [], e, (l1 ++ b :: l2). auto. }
  destruct G as [G|(l1 & b & l2 & E & F & B)].
  - exists (Some s). left. split; [apply well_formed_iff; exact G|reflexivity].
  - eexists. right. exists s, l1, b, l2. split; [reflexivity|]. split; [apply pieces_iff; auto|].
    split; [eapply Forall_impl; [|exact F]; intros e; apply valid_iff|].
    split; [intros V; apply valid_iff in V; congruence|reflexivity].
Qed.

Lemma resolve_correct v h s c env eff :
  log_inv v h s -> lg_applied s = true -> env_read v h env -> in_effect env eff ->
  resolves eff h c (resolve s c).
Proof.
  intros [V P A F E] Ap R IE. destruct (E Ap) as (env' & R' & L1 & L2).
  pose proof (env_read_unique _ _ _ _ R R') as Q. subst env'.
  apply resolves_iff. unfold resolve. rewrite L1, L2, P, A. rewrite (in_effect_list _ _ IE).
  destruct (last_asg _ (channel_name c)); [reflexivity|].
  destruct (last_asg _ "all"); [reflexivity|]. reflexivity.
Qed.

Lemma effective_state s c : lg_applied (fst (effective_locked s c)) = true.
Proof.
  unfold effective_locked. destruct (lg_applied s) eqn:A; [exact A|].
  destruct (apply_env_locked s) as [s' e] eqn:Q. apply apply_env_locked_spec in Q as (Q & _).
  destruct e; exact Q.
Qed.


Lemma prog_silent env h ev c L :
  (forall r, prog_of (ev :: r) = prog_of r) -> (forall r, prog_all_of (ev :: r) = prog_all_of r) ->
  resolves env (h ++ [ev]) c L <-> resolves env h c L.
Proof.
  intros P A. rewrite !resolves_iff, rev_app_distr. cbn [rev app]. rewrite P, A. reflexivity.
Qed.

Lemma lookup_general v h ev c env :
  looks_up ev c -> env_read v (h ++ [ev]) env ->
  (well_formed env \/ ~ no_uses h ->
     exists L, (forall eff, in_effect env eff -> resolves eff h c L) /\
       snd (effective_locked (lrun (linit v) h) c) = Ok L) /\
  (~ well_formed env -> no_uses h ->
     exists w, snd (effective_locked (lrun (linit v) h) c) = Err (Fatal w)).
Proof.
  intros K R. pose proof (log_inv_run v h) as Inv. set (s := lrun (linit v) h) in *. clearbody s.
  assert (U : uses ev /\ ev <> LApply /\ (forall r, prog_of (ev :: r) = prog_of r) /\
              (forall r, prog_all_of (ev :: r) = prog_all_of r) /\ env_at v (h ++ [ev]) = env_at v h).
  { destruct K as [->|[[l ->]|[l [m ->]]]]; rewrite env_at_snoc; repeat split; try exact I; discriminate. }
  destruct U as (U & N & PP & PA & EV).
  destruct (use_inv v h s ev c Inv U N PP PA EV) as (Inv' & env' & R' & H1 & H2 & H3).
  pose proof (env_read_unique _ _ _ _ R R') as Q. subst env'.
  assert (Fin : forall s', effective_locked s c = (s', Ok (resolve s' c)) ->
     exists L, (forall eff, in_effect env eff -> resolves eff h c L) /\ snd (effective_locked s c) = Ok L).
  { intros s' E. pose proof (effective_state s c) as Ap. rewrite E in Inv', Ap |- *. cbn [fst snd] in *.
    exists (resolve s' c). split; [|reflexivity]. intros eff IE.
    apply (prog_silent eff h ev c _ PP PA). eapply resolve_correct; eauto. }
  split.
  - intros [W|Z].
    + destruct (H1 W) as [s' E]. exact (Fin s' E).
    + destruct (H3 Z) as [s' E]. exact (Fin s' E).
  - intros W Fr. destruct (H2 Fr W) as (s' & w & E). rewrite E. exists w. reflexivity.
Qed.

(** ** Capture flag *)
Lemma capture_iff v :
  capture_enabled v = true <->
  exists s t, v = Some s /\ normal s t /\ ~ In t [""; "0"; "false"; "no"; "off"]%string.
Proof.
  destruct v as [s|]; cbn [capture_enabled].
  - rewrite negb_true_iff. split.
    + intros H. exists s, (trim_lower s). split; [reflexivity|]. split; [apply normal_iff; reflexivity|].
      intros I. cbn [In] in I.
      repeat (destruct I as [I|I]; [rewrite <- I in H; discriminate H|]). destruct I.
    + intros (s' & t & Q & T & NI). injection Q as <-. apply normal_iff in T. subst t.
      rewrite !orb_false_iff, !String.eqb_neq. repeat split; intros Q; apply NI; rewrite Q; cbn; tauto.
  - split; [discriminate|]. intros (s & t & Q & _). discriminate.
Qed.

(** ** The three lookups *)
Lemma outcome_effective v h c : outcome v h (LEffective c) = rmap OutLevel (snd (effective_locked (lrun (linit v) h) c)).
Proof. unfold outcome. cbn [lstep]. destruct (effective_locked (lrun (linit v) h) c). reflexivity. Qed.
Lemma outcome_enabled v h c l :
  outcome v h (LEnabled c l)
  = rmap (fun e => OutBool (Nat.leb (level_int l) (level_int e))) (snd (effective_locked (lrun (linit v) h) c)).
Proof. unfold outcome. cbn [lstep]. destruct (effective_locked (lrun (linit v) h) c). reflexivity. Qed.
Lemma outcome_emit v h c l m :
  outcome v h (LEmit c l m)
  = rmap (fun e => OutLine (if Nat.leb (level_int l) (level_int e) then Some (format c l m) else None))
         (snd (effective_locked (lrun (linit v) h) c)).
Proof. unfold outcome. cbn [lstep]. destruct (effective_locked (lrun (linit v) h) c). reflexivity. Qed.

Lemma at_least_leb l L : Nat.leb (level_int l) (level_int L) = true <-> at_least L l.
Proof. destruct l, L; cbn; split; intros H; try discriminate; try constructor; inversion H. Qed.

Lemma shown_general v h ev c L :
  looks_up ev c -> snd (effective_locked (lrun (linit v) h) c) = Ok L -> shows ev c L (outcome v h ev).
Proof.
  intros [->|[[l ->]|[l [m ->]]]] E; unfold shows.
  - rewrite outcome_effective, E. reflexivity.
  - rewrite outcome_enabled, E. cbn. eexists. split; [reflexivity|]. apply at_least_leb.
  - rewrite outcome_emit, E. cbn. eexists. split; [reflexivity|].
    destruct (Nat.leb (level_int l) (level_int L)) eqn:Q.
    + apply at_least_leb in Q. split; [reflexivity|congruence].
    + split; [|reflexivity]. intros A. apply at_least_leb in A. congruence.
Qed.

Lemma lookup_resolves v h ev c env :
  looks_up ev c -> env_read v (h ++ [ev]) env -> well_formed env ->
  exists L, resolves env h c L /\ shows ev c L (outcome v h ev).
Proof.
  intros K R W. destruct (lookup_general v h ev c env K R) as [H _].
  destruct (H (or_introl W)) as (L & HL & E). exists L. split; [apply HL; left; auto|].
  apply shown_general; assumption.
Qed.

Lemma lookup_after_error v h ev c env eff :
  looks_up ev c -> env_read v (h ++ [ev]) env -> ~ no_uses h -> in_effect env eff ->
  exists L, resolves eff h c L /\ shows ev c L (outcome v h ev).
Proof.
  intros K R W IE. destruct (lookup_general v h ev c env K R) as [H _].
  destruct (H (or_intror W)) as (L & HL & E). exists L. split; [apply HL; exact IE|].
  apply shown_general; assumption.
Qed.

Lemma first_use_raises v h ev c env :
  looks_up ev c -> env_read v (h ++ [ev]) env -> no_uses h -> ~ well_formed env ->
  exists w, outcome v h ev = Err (Fatal w).
Proof.
  intros K R U W. destruct (lookup_general v h ev c env K R) as [_ H].
  destruct (H W U) as [w E]. exists w.
  destruct K as [->|[[l ->]|[l [m ->]]]]; rewrite ?outcome_effective, ?outcome_enabled, ?outcome_emit, E; reflexivity.
Qed.

Lemma apply_raises v h :
  (well_formed (env_at v h) -> outcome v h LApply = Ok OutUnit) /\
  (~ well_formed (env_at v h) -> exists w, outcome v h LApply = Err (Fatal w)).
Proof.
  unfold outcome. cbn [lstep]. pose proof (log_inv_run v h) as [V _ _ _ _].
  destruct (apply_env_locked (lrun (linit v) h)) as [s' e] eqn:Q. cbn [snd].
  apply apply_after in Q as (_ & _ & _ & _ & Q1 & Q2). rewrite V in *. split.
  - intros W. apply Q1 in W. subst e. reflexivity.
  - intros W. destruct (Q2 W) as [w ->]. eauto.
Qed.

Lemma resolves_unique env h c : exists L, resolves env h c L /\ forall L', resolves env h c L' -> L' = L.
Proof.
  eexists. split; [apply resolves_iff; reflexivity|]. intros L' H. apply resolves_iff in H. exact H.
Qed.

Lemma environment_wins v h c env L :
  env_read v (h ++ [LEffective c]) env -> well_formed env ->
  env_entry env (channel_name c) L \/ (env_none env (channel_name c) /\ env_entry env "all" L) ->
  outcome v h (LEffective c) = Ok (OutLevel L).
Proof.
  intros R W E. destruct (lookup_resolves v h (LEffective c) c env (or_introl eq_refl) R W) as (M & HM & S).
  cbn in S. rewrite S. do 2 f_equal.
  destruct (resolves_unique env h c) as (U & _ & HU). rewrite (HU M HM). symmetry. apply HU.
  destruct E as [E|[E1 E2]]; [apply by_env; exact E|apply by_env_all; assumption].
Qed.

Lemma reset_restores v h1 h2 c env :
  (forall c' l, ~ In (LSet c' l) h2) -> (forall l, ~ In (LSetAll l) h2) ->
  env_read v ((h1 ++ LReset :: h2) ++ [LEffective c]) env -> well_formed env ->
  exists L, resolves env [] c L /\ outcome v (h1 ++ LReset :: h2) (LEffective c) = Ok (OutLevel L).
Proof.
  intros N1 N2 R W.
  destruct (lookup_resolves v _ (LEffective c) c env (or_introl eq_refl) R W) as (L & HL & S).
  exists L. split; [|exact S]. apply resolves_iff. apply resolves_iff in HL.
  assert (P : prog_of (rev (h1 ++ LReset :: h2)) c = None /\ prog_all_of (rev (h1 ++ LReset :: h2)) = None).
  { rewrite rev_app_distr. cbn [rev]. rewrite <- app_assoc. cbn [app].
    assert (N1' : forall c' l, ~ In (LSet c' l) (rev h2)) by (intros c' l I; apply in_rev in I; exact (N1 c' l I)).
    assert (N2' : forall l, ~ In (LSetAll l) (rev h2)) by (intros l I; apply in_rev in I; exact (N2 l I)).
    clear - N1' N2'. induction (rev h2) as [|x r IH]; [split; reflexivity|].
    assert (prog_of (r ++ LReset :: rev h1) c = None /\ prog_all_of (r ++ LReset :: rev h1) = None) as [P A].
    { apply IH; [intros c' l I; apply (N1' c' l)|intros l I; apply (N2' l)]; right; exact I. }
    destruct x; cbn [app prog_of prog_all_of]; try (split; assumption).
    - exfalso. apply (N1' c0 l). left. reflexivity.
    - exfalso. apply (N2' l). left. reflexivity.
    - split; reflexivity. }
  destruct P as [P A]. rewrite P, A in HL. exact HL.
Qed.
