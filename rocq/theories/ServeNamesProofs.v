(** Proofs about the names in the derivatives of a loaded model. *)
From Coq Require Import String.
From Verif Require Import Load SpecLoad LoadProofs.
From Verif Require Import Base Tensor Spec SpecMap SpecRename Float Broadcast Rename Substep Mat Jac SubstepJac JacModel ParamJac SpecRuntime SpecRuntimeParam SpecServe SpecServeJac.
From Verif Require Import BaseProofs SmapProofs RenameProofs.
Local Open Scope list_scope.

(** ** Maps with known names *)
Section Names.
  Context {T : Type}.
  Definition named (ns : list string) (m : smap T) : Prop := sorted m /\ forall n, lookup n m <> None <-> In n ns.

  Lemma named_keys ns m : named ns m -> keys_in ns m.
  Proof. intros [_ H] k Hk. apply H. destruct (lookup_some_key k m Hk) as [t ->]. discriminate. Qed.
  Lemma named_nil : named [] [].
  Proof. split; [apply sorted_nil|]. intros n. split; [intros H; destruct (H eq_refl)|intros []]. Qed.
  Lemma named_set ns m k t : named ns m -> named (k :: ns) (set_ k t m).
  Proof.
    intros [S H]. split; [apply sorted_set, S|]. intros n. cbn [In]. destruct (String.string_dec k n) as [<-|N].
    - rewrite lookup_set_same. split; [auto|discriminate].
    - rewrite lookup_set_other by congruence. rewrite H. split; [auto|intros [E|I]; [contradiction|exact I]].
  Qed.
  Lemma named_ext ns ns' m : (forall n, In n ns <-> In n ns') -> named ns m -> named ns' m.
  Proof. intros E [S H]. split; [exact S|]. intros n. rewrite H. apply E. Qed.

  (** Through a renaming. *)
  Lemma renamed_names f ns (m m' : smap T) : named ns m -> renamed f m m' -> forall e, lookup e m' <> None <-> exists k, f k = e /\ In k ns.
  Proof.
    intros [_ H] (_ & R1 & R2 & _) e. split.
    - destruct (lookup e m') as [v|] eqn:E; [|intros X; destruct (X eq_refl)]. intros _. destruct (R2 e v E) as (k & Ek & L). exists k. split; [exact Ek|]. apply H. rewrite L. discriminate.
    - intros (k & <- & I). apply H in I. destruct (lookup k m) as [v|] eqn:L; [|destruct (I eq_refl)]. rewrite (R1 k v L). discriminate.
  Qed.
  Lemma same_names f ns (m1 m2 m1' m2' : smap T) n : named ns m1 -> named ns m2 -> renamed f m1 m1' -> renamed f m2 m2' -> lookup n m1' = None -> lookup n m2' = None.
  Proof.
    intros N1 N2 R1 R2 L. destruct (lookup n m2') as [v|] eqn:E; [|reflexivity]. exfalso.
    apply (proj2 (renamed_names f ns m1 m1' N1 R1 n)); [|exact L]. apply (renamed_names f ns m2 m2' N2 R2 n). rewrite E. discriminate.
  Qed.
End Names.

Section Pairs.
  Context {V : Type}.
  Notation vmap := (smap (tensor V)).
  Notation nmap := (smap (smap (tensor V))).
  Definition named2 (ps : list (string * string)) (j : nmap) : Prop :=
    sorted j /\ (forall k r, lookup k j = Some r -> sorted r /\ r <> []) /\ forall o i, pair_at o i j <> None <-> In (o, i) ps.

  Lemma named2_nil : named2 [] [].
  Proof. split; [apply sorted_nil|]. split; [discriminate|]. intros o i. split; [intros H; destruct (H eq_refl)|intros []]. Qed.
  Lemma set_nonempty {T} k (t : T) m : set_ k t m <> [].
  Proof. destruct m as [|[q v] m]; cbn [set_]; [discriminate|]. destruct (String.eqb k q); [discriminate|]. destruct (key_lt k q); discriminate. Qed.
  Lemma named2_set ps j o i t : named2 ps j -> named2 ((o, i) :: ps) (set2 o i t j).
  Proof.
    intros (S & R & H). unfold set2. set (row := match lookup o j with Some r => r | None => [] end).
    assert (Sr : sorted row) by (unfold row; destruct (lookup o j) as [r|] eqn:E; [apply (R o r E)|apply sorted_nil]).
    assert (Pr : forall i', lookup i' row = pair_at o i' j) by (intros i'; unfold row, pair_at; destruct (lookup o j); reflexivity).
    split; [apply sorted_set, S|]. split.
    - intros k r E. destruct (String.string_dec k o) as [->|N].
      + rewrite lookup_set_same in E. injection E as <-. split; [apply sorted_set, Sr|apply set_nonempty].
      + rewrite lookup_set_other in E by congruence. apply (R k r E).
    - intros o' i'. assert (Q : pair_at o' i' (set_ o (set_ i t row) j) = if String.eqb o' o then lookup i' (set_ i t row) else pair_at o' i' j).
      { unfold pair_at. destruct (String.eqb_spec o' o) as [->|N]; [rewrite lookup_set_same; reflexivity|]. rewrite lookup_set_other by congruence. reflexivity. }
      rewrite Q. cbn [In]. destruct (String.eqb_spec o' o) as [->|N].
      + destruct (String.string_dec i' i) as [->|Ni].
        * rewrite lookup_set_same. split; [auto|discriminate].
        * rewrite lookup_set_other by congruence. rewrite Pr, H. split; [auto|intros [E|I]; [congruence|exact I]].
      + rewrite H. split; [auto|intros [E|I]; [congruence|exact I]].
  Qed.
  Lemma named2_ext ps ps' j : (forall x, In x ps <-> In x ps') -> named2 ps j -> named2 ps' j.
  Proof. intros E (S & R & H). split; [exact S|]. split; [exact R|]. intros o i. rewrite H. apply E. Qed.
  Lemma named2_keys ps j ns ms : named2 ps j -> (forall o i, In (o, i) ps -> In o ns /\ In i ms) ->
    keys_in ns j /\ forall k r, In (k, r) j -> sorted r /\ keys_in ms r.
  Proof.
    intros (S & R & H) Hp. split.
    - intros k Hk. destruct (lookup_some_key k j Hk) as [r L]. destruct (R k r L) as [_ Ne]. destruct r as [|[i t] r]; [destruct (Ne eq_refl)|].
      apply (Hp k i), H. unfold pair_at. rewrite L. cbn [lookup]. rewrite String.eqb_refl. discriminate.
    - intros k r I. apply (lookup_nodup _ _ _ (sorted_nodup _ S)) in I. split; [apply (R k r I)|]. intros i Hi. apply (Hp k i), H. unfold pair_at. rewrite I.
      destruct (lookup_some_key i r Hi) as [t ->]. discriminate.
  Qed.
  Lemma renamed2_names f g ps (j j' : nmap) : named2 ps j -> renamed2 f g j j' -> forall e e', pair_at e e' j' <> None <-> exists o i, f o = e /\ g i = e' /\ In (o, i) ps.
  Proof.
    intros (_ & _ & H) (_ & R1 & R2 & _) e e'. split.
    - unfold pair_at. destruct (lookup e j') as [r'|] eqn:E; [|intros X; destruct (X eq_refl)]. destruct (lookup e' r') as [v|] eqn:E'; [|intros X; destruct (X eq_refl)]. intros _.
      destruct (R2 e r' E) as (o & r & <- & Lo & (_ & _ & R3 & _)). destruct (R3 e' v E') as (i & <- & Li). exists o, i. split; [reflexivity|]. split; [reflexivity|]. apply H. unfold pair_at. rewrite Lo.
      assert (X : lookup i r = Some v) by exact Li. rewrite X. discriminate.
    - intros (o & i & <- & <- & I). apply H in I. unfold pair_at in *. destruct (lookup o j) as [r|] eqn:Lo; [|destruct (I eq_refl)]. destruct (R1 o r Lo) as (r' & Lr & (_ & R3 & _)). rewrite Lr.
      destruct (lookup i r) as [v|] eqn:Li; [|destruct (I eq_refl)]. rewrite (R3 i v Li). discriminate.
  Qed.
  Lemma same_pairs f g ps (j1 j2 j1' j2' : nmap) o i : named2 ps j1 -> named2 ps j2 -> renamed2 f g j1 j1' -> renamed2 f g j2 j2' -> pair_at o i j1' = None -> pair_at o i j2' = None.
  Proof.
    intros N1 N2 R1 R2 L. destruct (pair_at o i j2') as [v|] eqn:E; [|reflexivity]. exfalso.
    apply (proj2 (renamed2_names f g ps j1 j1' N1 R1 o i)); [|exact L]. apply (renamed2_names f g ps j2 j2' N2 R2 o i). rewrite E. discriminate.
  Qed.
End Pairs.

(** ** What the operations name *)
Section Ops.
  Context {V : Type}.
  Notation vmap := (smap (tensor V)).
  Notation nmap := (smap (smap (tensor V))).
  Variable A : arith V.
  Variable neg : V -> V.
  Variable dot : list V -> list V -> V.
  Variable psum : list V -> V.
  Variable par : string -> result (tensor V).
  Variable nb : smap nat.
  Variable pb : smap (list nat).
  Variable capture : bool.

  Lemma take_named : forall names (st acc r : vmap) ns, named ns acc -> take_outputs names st acc = Ok r -> named (rev names ++ ns) r.
  Proof.
    induction names as [|n names IH]; intros st acc r ns N E; cbn [take_outputs] in E; [injection E as <-; exact N|]. apply bind_ok in E as (t & _ & E).
    cbn [rev]. rewrite <- app_assoc. cbn [app]. eapply IH; [|exact E]. apply named_set, N.
  Qed.
  Lemma take_names names (st r : vmap) : take_outputs names st [] = Ok r -> named names r.
  Proof. intros E. eapply named_ext; [|exact (take_named names st [] r [] named_nil E)]. intros n. rewrite app_nil_r, <- in_rev. reflexivity. Qed.
  Lemma set_all_named : forall names ts (acc : vmap) ns, length names <= length ts -> named ns acc -> named (rev names ++ ns) (set_all names ts acc).
  Proof.
    induction names as [|n names IH]; intros ts acc ns L N; [destruct ts; exact N|]. destruct ts as [|t ts]; [cbn in L; lia|]. cbn [set_all rev]. rewrite <- app_assoc. cbn [app]. apply IH; [cbn in L; lia|]. apply named_set, N.
  Qed.
  Lemma find_rev_in {X} (f : X -> string) o (l : list X) x : find (fun x => String.eqb (f x) o) (rev l) = Some x -> In o (map f l).
  Proof. intros E. apply find_some in E as [I E]. apply String.eqb_eq in E. subst o. apply in_map. rewrite <- in_rev in I. exact I. Qed.

  Section Jac.
    Variable m : jmodel V.
    Lemma jvp_outputs_named b tan ds : forall l acc r ns, named ns acc -> jvp_outputs A dot m b tan ds l acc = Ok r ->
      named (rev (keys l) ++ ns) r /\ incl (keys l) (map fst (jm_outs m)).
    Proof.
      induction l as [|[o ins] l IH]; intros acc r ns N E; cbn [jvp_outputs] in E; [injection E as <-; split; [exact N|intros ? []]|].
      apply bind_ok in E as (blk & _ & E). apply bind_ok in E as (s & _ & E). destruct s as [t|]; [|discriminate]. apply bind_ok in E as (ob & Eb & E). apply bind_ok in E as (t' & _ & E).
      unfold out_base in Eb. destruct (find _ _) as [x|] eqn:Ef; [|discriminate]. apply (find_rev_in fst) in Ef. unfold keys. cbn [map fst rev]. rewrite <- app_assoc. cbn [app].
      destruct (IH _ _ (o :: ns) (named_set _ _ _ _ N) E) as [N' I']. split; [exact N'|]. intros y [<-|Hy]; [exact Ef|apply I', Hy].
    Qed.
    Lemma by_out_keys : forall (l : list (string * string)) acc n, In n (keys (by_out l acc)) <-> In n (map fst l) \/ In n (keys acc).
    Proof.
      induction l as [|[o i] l IH]; intros acc n; cbn [by_out map fst In]; [tauto|]. rewrite IH, keys_set_in. split; intros; intuition auto.
    Qed.
    Lemma dstate_named b M I outs ds : jacobian_dstate A neg dot par nb capture m b M I = Ok (outs, ds) -> named (map fst (jm_outs m)) outs.
    Proof.
      unfold jacobian_dstate. intros E. apply bind_ok in E as (st & _ & E). destruct (jm_inputs m); [discriminate|]. apply bind_ok in E as (rf & _ & E). apply bind_ok in E as (ds0 & _ & E).
      apply bind_ok in E as ([st' ds'] & _ & E). apply bind_ok in E as (o & Et & E). injection E as <- _. apply take_names in Et. exact Et.
    Qed.
    Lemma jvp_named I T out w : jvp A neg dot par nb capture m I T = Ok (out, w) ->
      named (map fst (jm_outs m)) out /\ named (map fst (jm_derivs m)) w /\ incl (map fst (jm_derivs m)) (map fst (jm_outs m)).
    Proof.
      unfold jvp. intros E. apply bind_ok in E as ([b M] & _ & E). apply bind_ok in E as (u & _ & E). apply bind_ok in E as ([o ds] & Ed & E). apply bind_ok in E as (r & Er & E). injection E as <- <-.
      split; [eapply dstate_named; exact Ed|]. destruct (jvp_outputs_named _ _ _ _ _ _ [] named_nil Er) as [N I0].
      assert (K : forall n, In n (keys (by_out (jm_derivs m) [])) <-> In n (map fst (jm_derivs m))) by (intros n; rewrite by_out_keys; cbn; tauto).
      split; [eapply named_ext; [|exact N]; intros n; rewrite app_nil_r, <- in_rev; apply K|]. intros n Hn. apply I0, K, Hn.
    Qed.
    Lemma pair_blocks_named b ds : forall l j r ps, named2 ps j -> pair_blocks m b ds l j = Ok r -> named2 (rev l ++ ps) r /\ incl (map fst l) (map fst (jm_outs m)).
    Proof.
      induction l as [|[o i] l IH]; intros j r ps N E; cbn [pair_blocks] in E; [injection E as <-; split; [exact N|intros ? []]|]. apply bind_ok in E as (t & Et & E).
      unfold pair_block in Et. apply bind_ok in Et as (blk & _ & Et). apply bind_ok in Et as (ii & _ & Et). apply bind_ok in Et as (band & _ & Et). apply bind_ok in Et as (col & _ & Et). apply bind_ok in Et as (ob & Eb & _).
      unfold out_base in Eb. destruct (find _ _) as [x|] eqn:Ef; [|discriminate]. apply (find_rev_in fst) in Ef. cbn [fst snd] in *. cbn [rev map fst]. rewrite <- app_assoc. cbn [app].
      destruct (IH _ _ ((o, i) :: ps) (named2_set _ _ _ _ _ N) E) as [N' I']. split; [exact N'|]. intros y [<-|Hy]; [exact Ef|apply I', Hy].
    Qed.
    Lemma direct_named : forall ps ts (j : nmap) qs, length ps <= length ts -> named2 qs j -> named2 (rev (map (fun p => (p_out p, p_in p)) ps) ++ qs) (direct_blocks ps ts j).
    Proof.
      induction ps as [|p ps IH]; intros ts j qs L N; [destruct ts; exact N|]. destruct ts as [|t ts]; [cbn in L; lia|]. cbn [direct_blocks map rev]. rewrite <- app_assoc. cbn [app].
      apply IH; [cbn in L; lia|]. apply named2_set, N.
    Qed.
    Lemma jacobian_named I out jac : jacobian A neg dot par nb capture m I = Ok (out, jac) ->
      match jm_segs m with
      | [JF f] => match jf_jvp f with
                  | Some _ => named (sg_out (jf_seg f)) out /\ named2 (map (fun p => (p_out p, p_in p)) (jf_pairs f)) jac
                  | None => named (map fst (jm_outs m)) out /\ named2 (jm_derivs m) jac /\ incl (map fst (jm_derivs m)) (map fst (jm_outs m))
                  end
      | _ => named (map fst (jm_outs m)) out /\ named2 (jm_derivs m) jac /\ incl (map fst (jm_derivs m)) (map fst (jm_outs m))
      end.
    Proof.
      unfold jacobian. intros E. apply bind_ok in E as ([b M] & _ & E). apply bind_ok in E as (u & _ & E).
      assert (Cp : (let* (outs, ds) := jacobian_dstate A neg dot par nb capture m b M I in let* jac := pair_blocks m b ds (jm_derivs m) [] in Ok (outs, jac)) = Ok (out, jac) ->
        named (map fst (jm_outs m)) out /\ named2 (jm_derivs m) jac /\ incl (map fst (jm_derivs m)) (map fst (jm_outs m))).
      { clear E. intros E. apply bind_ok in E as ([o ds] & Ed & E). apply bind_ok in E as (r & Er & E). injection E as <- <-. split; [eapply dstate_named; exact Ed|].
        destruct (pair_blocks_named _ _ _ _ _ [] named2_nil Er) as [N I0]. split; [|exact I0]. eapply named2_ext; [|exact N]. intros x. rewrite app_nil_r, <- in_rev. reflexivity. }
      destruct (jm_segs m) as [|[f|i] [|]]; try (apply Cp; exact E). destruct (jf_jvp f) as [g|]; [|apply Cp; exact E]. clear Cp.
      unfold forward_pair_blocks in E. apply bind_ok in E as (st & _ & E). apply bind_ok in E as (ins & _ & E). apply bind_ok in E as (batch & _ & E). apply bind_ok in E as (qs & _ & E).
      apply bind_ok in E as (l & _ & E). apply bind_ok in E as (u' & Eu & E). injection E as <- <-. unfold assert_ in Eu. destruct (Nat.eqb_spec (length l) (length (sg_out (jf_seg f)) + length (jf_pairs f))) as [Ll|]; [|discriminate].
      split.
      - eapply named_ext; [|apply (set_all_named _ _ [] []); [rewrite firstn_length; lia|apply named_nil]]. intros n. rewrite app_nil_r, <- in_rev. reflexivity.
      - eapply named2_ext; [|apply (direct_named _ _ [] []); [rewrite skipn_length; lia|apply named2_nil]]. intros x. rewrite app_nil_r, <- in_rev. reflexivity.
    Qed.
  End Jac.

  Section Param.
    Variable m : pmodel V.
    Lemma ppair_blocks_named b dp : forall l j r ps, named2 ps j -> ppair_blocks pb m b dp l j = Ok r -> named2 (rev l ++ ps) r /\ incl (map fst l) (map fst (pm_outs m)).
    Proof.
      induction l as [|[o i] l IH]; intros j r ps N E; cbn [ppair_blocks] in E; [injection E as <-; split; [exact N|intros ? []]|]. apply bind_ok in E as (t & Et & E).
      unfold ppair_block in Et. apply bind_ok in Et as (blk & _ & Et). apply bind_ok in Et as (band & _ & Et). apply bind_ok in Et as (col & _ & Et). apply bind_ok in Et as (ob & Eb & _).
      unfold pout_base in Eb. destruct (find _ _) as [x|] eqn:Ef; [|discriminate]. apply (find_rev_in fst) in Ef. cbn [fst snd] in *. cbn [rev map fst]. rewrite <- app_assoc. cbn [app].
      destruct (IH _ _ ((o, i) :: ps) (named2_set _ _ _ _ _ N) E) as [N' I']. split; [exact N'|]. intros y [<-|Hy]; [exact Ef|apply I', Hy].
    Qed.
    Lemma name_blocks_named : forall ps ts (j : nmap) qs, length ps <= length ts -> named2 qs j -> named2 (rev (map (fun p => (q_out p, q_param p)) ps) ++ qs) (name_blocks ps ts j).
    Proof.
      induction ps as [|p ps IH]; intros ts j qs L N; [destruct ts; exact N|]. destruct ts as [|t ts]; [cbn in L; lia|]. cbn [name_blocks map rev]. rewrite <- app_assoc. cbn [app].
      apply IH; [cbn in L; lia|]. apply named2_set, N.
    Qed.
    Lemma name_blocks_all ps (ts : list (tensor V)) : length ts = length ps -> named2 (map (fun p => (q_out p, q_param p)) ps) (name_blocks ps ts []).
    Proof. intros L. eapply named2_ext; [|apply (name_blocks_named _ _ [] []); [lia|apply named2_nil]]. intros x. rewrite app_nil_r, <- in_rev. reflexivity. Qed.
    (** The pairs that the single-segment paths return. *)
    Definition single_ppairs (segs : list (pseg V)) : option (list ppair) :=
      match segs with
      | [PF _ (Some _) ps _] => Some ps
      | [PI _ _ (Some _) _ ps] => Some ps
      | _ => None
      end.
    Lemma param_jacobian_named I out jac : param_jacobian A neg dot par pb capture m I = Ok (out, jac) ->
      named (map fst (pm_outs m)) out /\
      match single_ppairs (pm_segs m) with
      | Some ps => named2 (map (fun p => (q_out p, q_param p)) ps) jac
      | None => named2 (pm_derivs m) jac /\ incl (map fst (pm_derivs m)) (map fst (pm_outs m))
      end.
    Proof.
      unfold param_jacobian. intros E. apply bind_ok in E as ([b M] & _ & E). apply bind_ok in E as (u & _ & E).
      assert (Cp : (let* (outs, dp) := param_dstate A neg dot par pb capture m b M I in let* jac := ppair_blocks pb m b dp (pm_derivs m) [] in Ok (outs, jac)) = Ok (out, jac) ->
        named (map fst (pm_outs m)) out /\ named2 (pm_derivs m) jac /\ incl (map fst (pm_derivs m)) (map fst (pm_outs m))).
      { clear E. intros E. apply bind_ok in E as ([o ds] & Ed & E). apply bind_ok in E as (r & Er & E). injection E as <- <-. split.
        - unfold param_dstate in Ed. apply bind_ok in Ed as (st & _ & Ed). destruct (pm_inputs m); [discriminate|]. apply bind_ok in Ed as (rf & _ & Ed). destruct (Nat.ltb _ _); [discriminate|].
          apply bind_ok in Ed as ([st' ds'] & _ & Ed). apply bind_ok in Ed as (o' & Et & Ed). injection Ed as <- _. apply take_names in Et. exact Et.
        - destruct (ppair_blocks_named _ _ _ _ _ [] named2_nil Er) as [N I0]. split; [|exact I0]. eapply named2_ext; [|exact N]. intros x. rewrite app_nil_r, <- in_rev. reflexivity. }
      destruct (pm_segs m) as [|[f [g|] ps v|i dr [s|] kr ps] [|]]; cbn [single_ppairs]; try (apply Cp; exact E); clear Cp.
      - unfold forward_param_blocks in E. apply bind_ok in E as (st & _ & E). destruct (pm_inputs m); [discriminate|]. apply bind_ok in E as (rf & _ & E). apply bind_ok in E as (ins & _ & E). apply bind_ok in E as (qs & _ & E).
        apply bind_ok in E as (blks & _ & E). apply bind_ok in E as (u' & Eu & E). apply bind_ok in E as (st' & _ & E). apply bind_ok in E as (o & Eo & E). injection E as <- <-.
        unfold assert_ in Eu. destruct (Nat.eqb_spec (length blks) (length ps)) as [Ll|]; [|discriminate]. split; [apply take_names in Eo; exact Eo|apply name_blocks_all, Ll].
      - destruct dr as [g|]; [|discriminate]. unfold implicit_param_blocks in E. apply bind_ok in E as (st & _ & E). apply bind_ok in E as ([st' ug] & _ & E). destruct (fst ug) as [|u0 us]; [discriminate|].
        apply bind_ok in E as (blks0 & _ & E). apply bind_ok in E as (blks & _ & E). apply bind_ok in E as (u' & Eu & E). apply bind_ok in E as (o & Eo & E). injection E as <- <-.
        unfold assert_ in Eu. destruct (Nat.eqb_spec (length blks) (length ps)) as [Ll|]; [|discriminate]. split; [apply take_names in Eo; exact Eo|apply name_blocks_all, Ll].
    Qed.
    Lemma vjp_pairs_named cot jac : forall l g r ns, named ns g -> vjp_pairs A psum par pb m cot jac l g = Ok r -> named (rev (map snd l) ++ ns) r.
    Proof.
      induction l as [|op l IH]; intros g r ns N E; cbn [vjp_pairs] in E; [injection E as <-; exact N|]. apply bind_ok in E as (g' & Eg & E). cbn [map rev]. rewrite <- app_assoc. cbn [app]. eapply IH; [|exact E].
      unfold vjp_pair in Eg. repeat (apply bind_ok in Eg as (? & _ & Eg)). injection Eg as <-. apply named_set, N.
    Qed.
    Lemma name_grads_named : forall ps gs acc r ns, length ps <= length gs -> named ns acc -> name_grads psum par pb ps gs acc = Ok r -> named (rev ps ++ ns) r.
    Proof.
      induction ps as [|p ps IH]; intros gs acc r ns L N E; [destruct gs; cbn [name_grads] in E; injection E as <-; exact N|]. destruct gs as [|g gs]; [cbn in L; lia|]. cbn [name_grads] in E. apply bind_ok in E as (c & _ & E).
      cbn [rev]. rewrite <- app_assoc. cbn [app]. eapply IH; [|apply named_set, N|exact E]. cbn in L. lia.
    Qed.
    Definition single_grads (segs : list (pseg V)) : option (list string) := match segs with [PF _ _ _ (Some (_, _, ps))] => Some ps | _ => None end.
    Lemma param_vjp_named I W g : param_vjp A neg dot psum par pb capture m I W = Ok g ->
      named (match single_grads (pm_segs m) with Some ps => ps | None => map snd (pm_derivs m) end) g.
    Proof.
      unfold param_vjp. intros E. apply bind_ok in E as (u & _ & E).
      assert (Cp : (let* (_, jac) := param_jacobian A neg dot par pb capture m I in vjp_pairs A psum par pb m W jac (pm_derivs m) []) = Ok g -> named (map snd (pm_derivs m)) g).
      { clear E. intros E. apply bind_ok in E as ([o jac] & _ & E). eapply named_ext; [|exact (vjp_pairs_named _ _ _ _ _ [] named_nil E)]. intros n. rewrite app_nil_r, <- in_rev. reflexivity. }
      destruct (pm_segs m) as [|[f pj ps [[[adj os] qs]|]|i dr s kr ps] [|]]; cbn [single_grads]; try discriminate; try (apply Cp; exact E). clear Cp.
      unfold vjp_direct in E. apply bind_ok in E as (st & _ & E). apply bind_ok in E as (batch & _ & E). apply bind_ok in E as (ins & _ & E). apply bind_ok in E as (q & _ & E). apply bind_ok in E as (ws & _ & E).
      apply bind_ok in E as (gs & _ & E). apply bind_ok in E as (u' & Eu & E). unfold assert_ in Eu. destruct (Nat.eqb_spec (length gs) (length qs)) as [Ll|]; [|discriminate].
      eapply named_ext; [|eapply (name_grads_named _ _ _ _ []); [|apply named_nil|exact E]; lia]. intros n. rewrite app_nil_r, <- in_rev. reflexivity.
    Qed.
  End Param.
End Ops.
