(** The recursion of the substepping driver, for any solver of the active rows. *)
From Verif Require Import Base BaseProofs Tensor Spec TensorProofs Pack Implicit Substep SpecSubstep.

(** ** Positions of a mask *)
Definition chosen (x : bool) (active : list Z) (mask : list bool) : list Z :=
  map fst (filter (fun p => Bool.eqb x (snd p)) (combine active mask)).

Lemma positions_range x m : forall i k, In k (positions x i m) -> (i <= k < i + Z.of_nat (length m))%Z.
Proof.
  induction m as [|y m IH]; intros i k H; [contradiction|]. cbn [positions] in H.
  assert (R : In k (positions x (i + 1) m) -> (i <= k < i + Z.of_nat (length (y :: m)))%Z).
  { intros I. specialize (IH _ _ I). cbn [length]. lia. }
  destruct (Bool.eqb x y); [destruct H as [<-|H]; [cbn [length]; lia|apply R; exact H]|apply R; exact H].
Qed.
Lemma pick_at (pre l : list Z) x m : length m <= length l ->
  pick (pre ++ l) (positions x (Z.of_nat (length pre)) m) = Ok (chosen x l m).
Proof.
  revert pre l. induction m as [|y m IH]; intros pre l H; [unfold chosen; rewrite combine_nil; reflexivity|].
  destruct l as [|z l]; [cbn in H; lia|]. cbn [length] in H. cbn [positions]. unfold chosen. cbn [combine filter snd].
  specialize (IH (pre ++ [z]) l ltac:(lia)). rewrite <- app_assoc in IH. cbn [app] in IH.
  rewrite app_length in IH. cbn [length] in IH. rewrite Nat2Z.inj_add in IH. change (Z.of_nat 1) with 1%Z in IH.
  destruct (Bool.eqb x y); [|exact IH]. unfold pick in *. cbn [mapM].
  rewrite Nat2Z.id, nth_error_app2, Nat.sub_diag by lia. cbn [nth_error bind]. rewrite IH. reflexivity.
Qed.
Lemma pick_chosen active mask x : length mask <= length active -> pick active (positions x 0 mask) = Ok (chosen x active mask).
Proof. intros H. exact (pick_at [] active x mask H). Qed.
Lemma positions_length x active mask : length mask <= length active -> forall i, length (positions x i mask) = length (chosen x active mask).
Proof.
  revert active. induction mask as [|y m IH]; intros active H i; [unfold chosen; rewrite combine_nil; reflexivity|].
  destruct active as [|z l]; [cbn in H; lia|]. cbn [length] in H. cbn [positions]. unfold chosen. cbn [combine filter snd].
  specialize (IH l ltac:(lia) (i + 1)%Z). destruct (Bool.eqb x y); cbn [length map]; [f_equal|]; exact IH.
Qed.
Lemma chosen_in x active mask i : In i (chosen x active mask) <-> exists k, nth_error active k = Some i /\ nth_error mask k = Some x.
Proof.
  unfold chosen. rewrite in_map_iff. split.
  - intros [[j y] [<- H]]. apply filter_In in H as [H E]. cbn [snd fst] in *. apply Bool.eqb_prop in E. subst y.
    apply In_nth_error in H as [k H]. exists k. revert mask k H. induction active as [|z l IH]; intros [|y m] [|k] H; cbn in H; try discriminate.
    + injection H as -> ->. split; reflexivity.
    + cbn [nth_error]. apply IH. exact H.
  - intros [k [A B]]. exists (i, x). split; [reflexivity|]. apply filter_In. split; [|apply Bool.eqb_reflx].
    revert mask k A B. induction active as [|z l IH]; intros [|y m] [|k] A B; cbn in A, B; try discriminate.
    + injection A as ->. injection B as ->. left. reflexivity.
    + right. apply (IH m k); assumption.
Qed.
Lemma chosen_incl x active mask : incl (chosen x active mask) active.
Proof. intros i H. apply chosen_in in H as [k [A _]]. eapply nth_error_In. exact A. Qed.
Lemma chosen_nodup x active mask : NoDup active -> NoDup (chosen x active mask).
Proof.
  intros N. revert mask. induction N as [|z l I N IH]; intros [|y m]; try constructor. unfold chosen. cbn [combine filter snd].
  destruct (Bool.eqb x y); [|apply IH]. cbn [map fst]. constructor; [|apply IH]. intros J. apply I. eapply chosen_incl. exact J.
Qed.
Lemma chosen_cases active mask i : length mask = length active -> In i active -> In i (chosen true active mask) \/ In i (chosen false active mask).
Proof.
  intros L I. apply In_nth_error in I as [k Hk]. destruct (nth_error mask k) as [[|]|] eqn:E.
  - left. apply chosen_in. eauto.
  - right. apply chosen_in. eauto.
  - exfalso. apply nth_error_None in E. assert (k < length active) by (apply nth_error_Some; congruence). lia.
Qed.
Lemma chosen_not_both active mask i : NoDup active -> In i (chosen true active mask) -> In i (chosen false active mask) -> False.
Proof.
  intros N A B. apply chosen_in in A as [k [A1 A2]]. apply chosen_in in B as [j [B1 B2]].
  assert (k = j) by (eapply NoDup_nth_error; [exact N|apply nth_error_Some; congruence|congruence]). congruence.
Qed.
Lemma positions_nil x active mask : length mask <= length active -> positions x 0 mask = [] <-> chosen x active mask = [].
Proof.
  intros H. pose proof (positions_length x active mask H 0%Z) as L. split; intros E; rewrite E in L; cbn in L.
  - destruct (chosen x active mask); [reflexivity|discriminate].
  - destruct (positions x 0 mask); [reflexivity|discriminate].
Qed.
Lemma idx_ok_incl b l l' : incl l' l -> idx_ok b l -> idx_ok b l'.
Proof. unfold idx_ok. rewrite !Forall_forall. intros I H x Hx. apply H, I, Hx. Qed.

Section Drive.
  Context {V Buf : Type}.
  Variable half_way : V -> V -> V.
  Variable solve : V -> V -> list Z -> Buf -> result (list bool * result Buf).
  Notation log := (list (solve_log (V := V))).

  Fixpoint drive (left : nat) (a b : V) (active : list Z) (buf : Buf) : result Buf * log :=
    match solve a b active buf with
    | Err e => (Err e, [])
    | Ok (mask, Err e) => (Err e, [(a, b, active, mask)])
    | Ok (mask, Ok buf) =>
        match positions false 0 mask with
        | [] => (Ok buf, [(a, b, active, mask)])
        | _ =>
            match left with
            | 0 => (Err (Convergence "aoti::Model substepping: element(s) failed to converge at max_substepping_level"), [(a, b, active, mask)])
            | S left' =>
                match pick active (positions false 0 mask) with
                | Err e => (Err e, [(a, b, active, mask)])
                | Ok fail_g =>
                    let (r1, l1) := drive left' a (half_way a b) fail_g buf in
                    match r1 with
                    | Err e => (Err e, (a, b, active, mask) :: l1)
                    | Ok buf => let (r2, l2) := drive left' (half_way a b) b fail_g buf in (r2, (a, b, active, mask) :: l1 ++ l2)
                    end
                end
            end
        end
    end.

  Definition masks_fit (l : log) : Prop := Forall (fun e => let '(_, _, active, mask) := e in length mask = length active) l.

  (** ** Cost *)
  Lemma drive_cost left : forall a b active buf r l, drive left a b active buf = (r, l) -> length l < 2 ^ (S left).
  Proof.
    induction left as [|left IH]; intros a b active buf r l H; cbn [drive] in H.
    - destruct (solve a b active buf) as [[mask [buf'|e]]|e]; [destruct (positions false 0 mask)| |]; injection H as <- <-; cbn; lia.
    - assert (P : 2 ^ S (S left) = 2 * 2 ^ S left) by reflexivity. assert (Q : 1 <= 2 ^ left) by (clear; induction left; cbn; lia).
      assert (Q' : 2 ^ S left = 2 * 2 ^ left) by reflexivity.
      destruct (solve a b active buf) as [[mask [buf'|e]]|e]; [destruct (positions false 0 mask) as [|p ps] eqn:Ep| |];
        try (injection H as <- <-; cbn [length]; lia).
      destruct (pick active (p :: ps)) as [fg|e]; [|injection H as <- <-; cbn [length]; lia].
      destruct (drive left a (half_way a b) fg buf') as [[b1|e1] l1] eqn:E1.
      + destruct (drive left (half_way a b) b fg b1) as [r2 l2] eqn:E2. injection H as <- <-. apply IH in E1. apply IH in E2.
        cbn [length]. rewrite app_length. lia.
      + injection H as <- <-. apply IH in E1. cbn [length]. lia.
  Qed.

  (** ** Tiling *)
  Lemma accepts_iff i (a b : V) active mask : accepts i (a, b, active, mask) = true <-> In i (chosen true active mask).
  Proof.
    unfold accepts. rewrite existsb_exists, chosen_in. split.
    - intros [[j x] [I E]]. cbn [fst snd] in E. apply andb_true_iff in E as [E ->]. apply Z.eqb_eq in E. subst j.
      apply In_nth_error in I as [k H]. exists k. revert mask k H. induction active as [|z l IH]; intros [|y m] [|k] H; cbn in H; try discriminate.
      + injection H as -> ->. split; reflexivity.
      + cbn [nth_error]. apply IH. exact H.
    - intros [k [A B]]. exists (i, true). cbn [fst snd]. rewrite Z.eqb_refl. split; [|reflexivity].
      revert mask k A B. induction active as [|z l IH]; intros [|y m] [|k] A B; cbn in A, B; try discriminate.
      + injection A as ->. injection B as ->. left. reflexivity.
      + right. apply (IH m k); assumption.
  Qed.
  Lemma accepted_cons_yes i a b active mask (l : log) : In i (chosen true active mask) ->
    accepted i ((a, b, active, mask) :: l) = (a, b) :: accepted i l.
  Proof. intros H. unfold accepted. cbn [filter]. apply (accepts_iff i a b) in H. rewrite H. reflexivity. Qed.
  Lemma accepted_cons_no i a b active mask (l : log) : ~ In i (chosen true active mask) ->
    accepted i ((a, b, active, mask) :: l) = accepted i l.
  Proof.
    intros H. unfold accepted. cbn [filter]. destruct (accepts i (a, b, active, mask)) eqn:E; [|reflexivity].
    apply accepts_iff in E. contradiction.
  Qed.
  Lemma accepted_app i (l1 l2 : log) : accepted i (l1 ++ l2) = accepted i l1 ++ accepted i l2.
  Proof. unfold accepted. rewrite filter_app, map_app. reflexivity. Qed.
  Lemma chain_app (a m b : V) l1 l2 : chain a m l1 -> chain m b l2 -> chain a b (l1 ++ l2).
  Proof. intros H. induction H as [a m|a x m l H IH]; intros H2; cbn [app]; constructor; auto. Qed.

  Lemma drive_outside left i : forall a b active buf r l, drive left a b active buf = (r, l) -> masks_fit l -> ~ In i active -> accepted i l = [].
  Proof.
    induction left as [|left IH]; intros a b active buf r l H M I; cbn [drive] in H.
    - destruct (solve a b active buf) as [[mask [buf'|e]]|e]; [destruct (positions false 0 mask)| |]; injection H as <- <-; try reflexivity;
        apply accepted_cons_no; intros J; apply I; eapply chosen_incl; exact J.
    - assert (No : forall mask, ~ In i (chosen true active mask)) by (intros mask J; apply I; eapply chosen_incl; exact J).
      destruct (solve a b active buf) as [[mask [buf'|e]]|e]; [destruct (positions false 0 mask) as [|p ps] eqn:Ep| |];
        try (injection H as <- <-; try reflexivity; apply accepted_cons_no; apply No).
      destruct (pick active (p :: ps)) as [fg|e] eqn:Ef; [|injection H as <- <-; apply accepted_cons_no; apply No].
      assert (Nf : length mask = length active -> ~ In i fg).
      { intros L J. rewrite <- Ep, pick_chosen in Ef by lia. injection Ef as <-. apply I. eapply chosen_incl. exact J. }
      destruct (drive left a (half_way a b) fg buf') as [[b1|e1] l1] eqn:E1.
      + destruct (drive left (half_way a b) b fg b1) as [r2 l2] eqn:E2. injection H as <- <-. inversion M as [|? ? M0 M1]; subst.
        apply Forall_app in M1 as [M1 M2]. rewrite accepted_cons_no by apply No. rewrite accepted_app.
        rewrite (IH _ _ _ _ _ _ E1 M1 (Nf M0)), (IH _ _ _ _ _ _ E2 M2 (Nf M0)). reflexivity.
      + injection H as <- <-. inversion M as [|? ? M0 M1]; subst. rewrite accepted_cons_no by apply No. apply (IH _ _ _ _ _ _ E1 M1 (Nf M0)).
  Qed.

  Lemma drive_tiles left i : forall a b active buf buf' l, drive left a b active buf = (Ok buf', l) -> masks_fit l -> NoDup active -> In i active ->
    chain a b (accepted i l) /\
    forall x y, In (x, y) (accepted i l) -> exists n, n <= left /\ halved half_way n a b x y.
  Proof.
    induction left as [|left IH]; intros a b active buf buf' l H M N I; cbn [drive] in H.
    - destruct (solve a b active buf) as [[mask [buf1|e]]|e]; [destruct (positions false 0 mask) as [|p ps] eqn:Ep| |]; try discriminate.
      injection H as <- <-. inversion M as [|? ? M0 _]; subst. destruct (chosen_cases active mask i M0 I) as [C|C].
      + rewrite accepted_cons_yes by exact C. split; [constructor|]. intros x y [E|[]]. injection E as <- <-. exists 0. split; [lia|constructor].
      + apply (positions_nil false active mask) in Ep; [|apply Nat.eq_le_incl; exact M0]. rewrite Ep in C. contradiction.
    - destruct (solve a b active buf) as [[mask [buf1|e]]|e]; [destruct (positions false 0 mask) as [|p ps] eqn:Ep| |]; try discriminate.
      + injection H as <- <-. inversion M as [|? ? M0 _]; subst. destruct (chosen_cases active mask i M0 I) as [C|C].
        * rewrite accepted_cons_yes by exact C. split; [constructor|]. intros x y [E|[]]. injection E as <- <-. exists 0. split; [lia|constructor].
        * apply (positions_nil false active mask) in Ep; [|apply Nat.eq_le_incl; exact M0]. rewrite Ep in C. contradiction.
      + destruct (pick active (p :: ps)) as [fg|e] eqn:Ef; [|discriminate].
        destruct (drive left a (half_way a b) fg buf1) as [[b1|e1] l1] eqn:E1; [|discriminate].
        destruct (drive left (half_way a b) b fg b1) as [r2 l2] eqn:E2. injection H as -> <-. inversion M as [|? ? M0 M1]; subst.
        apply Forall_app in M1 as [M1 M2]. rewrite <- Ep, pick_chosen in Ef by lia. injection Ef as <-.
        pose proof (chosen_nodup false active mask N) as Nf.
        destruct (chosen_cases active mask i M0 I) as [C|C].
        * assert (D : ~ In i (chosen false active mask)) by (intros D; exact (chosen_not_both active mask i N C D)).
          rewrite accepted_cons_yes by exact C. rewrite accepted_app, (drive_outside _ _ _ _ _ _ _ _ E1 M1 D), (drive_outside _ _ _ _ _ _ _ _ E2 M2 D).
          split; [constructor|]. intros x y [E|[]]. injection E as <- <-. exists 0. split; [lia|constructor].
        * assert (D : ~ In i (chosen true active mask)) by (intros D; exact (chosen_not_both active mask i N D C)).
          rewrite accepted_cons_no by exact D. rewrite accepted_app.
          destruct (IH _ _ _ _ _ _ E1 M1 Nf C) as [C1 H1]. destruct (IH _ _ _ _ _ _ E2 M2 Nf C) as [C2 H2].
          split; [eapply chain_app; eassumption|]. intros x y J. apply in_app_iff in J as [J|J].
          -- destruct (H1 x y J) as [n [Ln Hn]]. exists (S n). split; [lia|apply halved_left; exact Hn].
          -- destruct (H2 x y J) as [n [Ln Hn]]. exists (S n). split; [lia|apply halved_right; exact Hn].
  Qed.

  (** ** Errors *)
  Variable inv : Buf -> Prop.
  Variable B : nat.
  Hypothesis solve_total : forall a b active buf, inv buf -> idx_ok B active -> NoDup active ->
    exists mask buf', solve a b active buf = Ok (mask, Ok buf') /\ length mask = length active /\ inv buf'.

  Lemma rejects_iff (a b : V) active mask : rejects (a, b, active, mask) = true <-> In false mask.
  Proof.
    unfold rejects. rewrite existsb_exists. split; [intros [[|] [I E]]; [discriminate|exact I]|]. intros I. exists false. split; [exact I|reflexivity].
  Qed.
  Lemma positions_in x m : forall i, positions x i m <> [] -> In x m.
  Proof.
    induction m as [|y m IH]; intros i H; [contradiction H; reflexivity|]. cbn [positions] in H. destruct (Bool.eqb x y) eqn:E.
    - apply Bool.eqb_prop in E. left. symmetry. exact E.
    - right. eapply IH. exact H.
  Qed.

  Lemma drive_total left : forall a b active buf, inv buf -> idx_ok B active -> NoDup active ->
    exists r l, drive left a b active buf = (r, l) /\ masks_fit l /\
      match r with
      | Ok buf' => inv buf'
      | Err e => exists w, e = Convergence w /\ exists x y act mask, In (x, y, act, mask) l /\ halved half_way left a b x y /\ In false mask
      end.
  Proof.
    induction left as [|left IH]; intros a b active buf Hi Ha N; cbn [drive];
      destruct (solve_total a b active buf Hi Ha N) as [mask [buf1 [-> [L I1]]]].
    - destruct (positions false 0 mask) as [|p ps] eqn:Ep.
      + eexists _, _. split; [reflexivity|]. split; [repeat constructor; exact L|exact I1].
      + eexists _, _. split; [reflexivity|]. split; [repeat constructor; exact L|]. eexists. split; [reflexivity|].
        exists a, b, active, mask. split; [left; reflexivity|]. split; [constructor|]. apply (positions_in false mask 0). rewrite Ep. discriminate.
    - destruct (positions false 0 mask) as [|p ps] eqn:Ep.
      + eexists _, _. split; [reflexivity|]. split; [repeat constructor; exact L|exact I1].
      + rewrite <- Ep, pick_chosen by lia.
        assert (Hf : idx_ok B (chosen false active mask)) by (eapply idx_ok_incl; [apply chosen_incl|exact Ha]).
        pose proof (chosen_nodup false active mask N) as Nf.
        destruct (IH a (half_way a b) (chosen false active mask) buf1 I1 Hf Nf) as [r1 [l1 [-> [M1 R1]]]]. destruct r1 as [b1|e1].
        * destruct (IH (half_way a b) b (chosen false active mask) b1 R1 Hf Nf) as [r2 [l2 [-> [M2 R2]]]].
          eexists _, _. split; [reflexivity|]. split; [constructor; [exact L|apply Forall_app; split; assumption]|].
          destruct r2 as [b2|e2]; [exact R2|]. destruct R2 as [w [-> [x [y [act [mk [J [Hh F]]]]]]]]. exists w. split; [reflexivity|].
          exists x, y, act, mk. split; [right; apply in_app_iff; right; exact J|]. split; [apply halved_right; exact Hh|exact F].
        * eexists _, _. split; [reflexivity|]. split; [constructor; assumption|].
          destruct R1 as [w [-> [x [y [act [mk [J [Hh F]]]]]]]]. exists w. split; [reflexivity|].
          exists x, y, act, mk. split; [right; exact J|]. split; [apply halved_left; exact Hh|exact F].
  Qed.

  (** ** Rows *)
  Context {R : Type}.
  Variable view : Buf -> nat -> R.
  Variable rstep : V -> V -> nat -> R -> R * bool.
  Hypothesis solve_rows : forall a b active buf mask buf', inv buf -> idx_ok B active -> NoDup active ->
    solve a b active buf = Ok (mask, Ok buf') ->
    (forall k i, nth_error active k = Some i ->
       nth_error mask k = Some (snd (rstep a b (Z.to_nat i) (view buf (Z.to_nat i)))) /\
       view buf' (Z.to_nat i) =
         (if snd (rstep a b (Z.to_nat i) (view buf (Z.to_nat i))) then fst (rstep a b (Z.to_nat i) (view buf (Z.to_nat i)))
          else view buf (Z.to_nat i))) /\
    (forall i, i < B -> ~ In (Z.of_nat i) active -> view buf' i = view buf i).

  Fixpoint radvance (left : nat) (a b : V) (i : nat) (x : R) : option R :=
    let (y, ok) := rstep a b i x in
    if ok then Some y
    else match left with
         | 0 => None
         | S left' =>
             match radvance left' a (half_way a b) i x with
             | None => None
             | Some z => radvance left' (half_way a b) b i z
             end
         end.

  Lemma drive_rows left : forall a b active buf, inv buf -> idx_ok B active -> NoDup active ->
    match fst (drive left a b active buf) with
    | Ok buf' =>
        (forall i, In (Z.of_nat i) active -> radvance left a b i (view buf i) = Some (view buf' i)) /\
        (forall i, i < B -> ~ In (Z.of_nat i) active -> view buf' i = view buf i)
    | Err _ => exists i, In (Z.of_nat i) active /\ radvance left a b i (view buf i) = None
    end.
  Proof.
    assert (Nat_of : forall active i, idx_ok B active -> In i active -> Z.of_nat (Z.to_nat i) = i /\ Z.to_nat i < B).
    { intros active i H I. unfold idx_ok in H. rewrite Forall_forall in H. specialize (H i I). lia. }
    induction left as [|left IH]; intros a b active buf Hi Ha N; cbn [drive];
      destruct (solve_total a b active buf Hi Ha N) as [mask [buf1 [Es [L I1]]]]; rewrite Es;
      destruct (solve_rows a b active buf mask buf1 Hi Ha N Es) as [Rw Ro];
      assert (At : forall i x, In (Z.of_nat i) (chosen x active mask) -> snd (rstep a b i (view buf i)) = x /\
                   view buf1 i = if x then fst (rstep a b i (view buf i)) else view buf i)
        by (intros i x J; apply chosen_in in J as [k [J1 J2]]; destruct (Rw k _ J1) as [R1 R2]; rewrite Nat2Z.id in R1, R2;
            rewrite R1 in J2; injection J2 as J2; rewrite J2 in R2; split; assumption).
    - destruct (positions false 0 mask) as [|p ps] eqn:Ep; cbn [fst].
      + split; [|exact Ro]. intros i J. cbn [radvance]. destruct (chosen_cases active mask _ L J) as [C|C].
        * destruct (At i true C) as [A1 A2]. destruct (rstep a b i (view buf i)) as [y ok]. cbn [fst snd] in *. subst ok y. reflexivity.
        * apply (positions_nil false active mask) in Ep; [|apply Nat.eq_le_incl; exact L]. rewrite Ep in C. contradiction.
      + assert (Ne : chosen false active mask <> []) by (intros E; apply (positions_nil false active mask) in E; [congruence|lia]).
        destruct (chosen false active mask) as [|z zs] eqn:Ec; [contradiction Ne; reflexivity|].
        assert (Iz : In z (chosen false active mask)) by (rewrite Ec; left; reflexivity).
        destruct (Nat_of active z Ha (chosen_incl _ _ _ _ Iz)) as [Ez _]. exists (Z.to_nat z). rewrite Ez. split; [eapply chosen_incl; exact Iz|].
        rewrite <- Ez in Iz. destruct (At _ false Iz) as [A1 _]. cbn [radvance]. destruct (rstep a b (Z.to_nat z) _) as [y ok]. cbn [snd] in A1. subst ok. reflexivity.
    - destruct (positions false 0 mask) as [|p ps] eqn:Ep; cbn [fst].
      + split; [|exact Ro]. intros i J. cbn [radvance]. destruct (chosen_cases active mask _ L J) as [C|C].
        * destruct (At i true C) as [A1 A2]. destruct (rstep a b i (view buf i)) as [y ok]. cbn [fst snd] in *. subst ok y. reflexivity.
        * apply (positions_nil false active mask) in Ep; [|apply Nat.eq_le_incl; exact L]. rewrite Ep in C. contradiction.
      + rewrite <- Ep, pick_chosen by lia.
        assert (Hf : idx_ok B (chosen false active mask)) by (eapply idx_ok_incl; [apply chosen_incl|exact Ha]).
        pose proof (chosen_nodup false active mask N) as Nf.
        assert (Unf : forall i, In (Z.of_nat i) (chosen false active mask) -> forall z,
          radvance left a (half_way a b) i (view buf1 i) = z ->
          radvance (S left) a b i (view buf i) = match z with None => None | Some w => radvance left (half_way a b) b i w end).
        { intros i J z Hz. destruct (At i false J) as [A1 A2]. cbn [radvance]. rewrite A2 in Hz. destruct (rstep a b i (view buf i)) as [y ok] eqn:Er.
          cbn [snd] in A1. subst ok. rewrite Hz. reflexivity. }
        pose proof (IH a (half_way a b) _ buf1 I1 Hf Nf) as P1.
        destruct (drive_total left a (half_way a b) _ buf1 I1 Hf Nf) as [r1 [l1 [E1 [_ V1]]]]. rewrite E1 in *. cbn [fst] in P1.
        destruct r1 as [b1|e1].
        * destruct P1 as [P1 Q1]. pose proof (IH (half_way a b) b _ b1 V1 Hf Nf) as P2.
          destruct (drive left (half_way a b) b (chosen false active mask) b1) as [r2 l2]. cbn [fst] in *. destruct r2 as [b2|e2].
          -- destruct P2 as [P2 Q2]. split.
             ++ intros i J. destruct (chosen_cases active mask _ L J) as [C|C].
                ** assert (Ci : i < B) by (destruct (Nat_of active _ Ha J) as [_ Q]; rewrite Nat2Z.id in Q; exact Q).
                   assert (D : ~ In (Z.of_nat i) (chosen false active mask)) by (intros D; exact (chosen_not_both active mask _ N C D)).
                   rewrite Q2, Q1 by assumption. destruct (At i true C) as [A1 A2]. cbn [radvance].
                   destruct (rstep a b i (view buf i)) as [y ok]. cbn [fst snd] in *. subst ok y. reflexivity.
                ** rewrite (Unf i C _ (P1 i C)). apply P2. exact C.
             ++ intros i Bi J. rewrite Q2, Q1, Ro; try assumption; try reflexivity; intros D; apply J; eapply chosen_incl; exact D.
          -- destruct P2 as [i [C P2]]. exists i. split; [eapply chosen_incl; exact C|]. rewrite (Unf i C _ (P1 i C)). exact P2.
        * destruct P1 as [i [C P1]]. exists i. split; [eapply chosen_incl; exact C|]. rewrite (Unf i C _ P1). reflexivity.
  Qed.
End Drive.
