(** Proofs about putting derivatives of chunks together. *)
From Coq Require Import String Permutation.
From Verif Require Import Load SpecLoad LoadProofs.
From Verif Require Import Base Tensor Spec SpecMap SpecRename Float BatchChunk Dispatch SpecDispatch Params SpecParams Sched SpecSched Async SpecAsync AsyncOp SpecServe SpecServeJac.
From Verif Require Import BaseProofs SmapProofs TensorProofs DispatchProofs SyncProofs AsyncOpProofs ServeProofs.
Local Open Scope list_scope.

Section Stitch.
  Context {V : Type}.
  Notation tens := (tensor V).
  Notation vmap := (smap (tensor V)).
  Notation nmap := (smap (smap (tensor V))).

  Lemma mapM_keyed2 {X Y} (f : string -> X -> result Y) : forall (c : smap X) out, mapM (fun kt => let* t := f (fst kt) (snd kt) in Ok (fst kt, t)) c = Ok out ->
    keys out = keys c /\ forall n, (lookup n out = None <-> lookup n c = None) /\ forall t, lookup n out = Some t -> exists x, lookup n c = Some x /\ f n x = Ok t.
  Proof.
    induction c as [|[k v] c IH]; intros out E.
    - injection E as <-. split; [reflexivity|]. intros n. split; [split; auto|discriminate].
    - cbn [mapM fst snd] in E. destruct (f k v) as [t|] eqn:Ef; cbn [bind] in E; [|discriminate]. destruct (mapM _ c) as [r|] eqn:Er; cbn [bind] in E; [|discriminate]. injection E as <-.
      destruct (IH r eq_refl) as [Kr Q]. split; [unfold keys in *; cbn [map fst]; rewrite Kr; reflexivity|]. intros n.
      cbn [lookup]. destruct (String.eqb_spec n k) as [->|Nk]; [|apply Q]. split; [split; discriminate|]. intros u [= <-]. exists v. split; [reflexivity|exact Ef].
  Qed.

  Lemma lookup_filter (j : nmap) o : NoDup (keys j) ->
    lookup o (filter (fun r => match snd r with [] => false | _ => true end) j) = match lookup o j with Some [] => None | x => x end.
  Proof.
    induction j as [|[k r] j IH]; intros Nd; [reflexivity|]. unfold keys in Nd. cbn [map fst] in Nd. inversion Nd as [|? ? Nk Nd']; subst. cbn [filter snd lookup].
    destruct r as [|x r]; cbn [lookup]; (destruct (String.eqb_spec o k) as [->|Ne]; [|apply IH, Nd']); [|reflexivity].
    rewrite IH by exact Nd'. apply lookup_none in Nk. rewrite Nk. reflexivity.
  Qed.
  Lemma pair_filter (j : nmap) o i : NoDup (keys j) -> pair_at o i (filter (fun r => match snd r with [] => false | _ => true end) j) = pair_at o i j.
  Proof. intros Nd. unfold pair_at. rewrite lookup_filter by exact Nd. destruct (lookup o j) as [[|]|]; reflexivity. Qed.
  Lemma pair_move d (j : nmap) o i : NoDup (keys j) -> pair_at o i (to_device_nested j d) = option_map (to_dev d) (pair_at o i j).
  Proof.
    intros Nd. unfold pair_at. assert (L : lookup o (to_device_nested j d) = match lookup o j with Some [] => None | Some r => Some (to_device r d) | None => None end).
    { induction j as [|[k r] j IH]; [reflexivity|]. unfold keys in Nd. cbn [map fst] in Nd. inversion Nd as [|? ? Nk Nd']; subst. unfold to_device_nested. cbn [flat_map fst snd lookup]. fold (to_device_nested j d).
      destruct r as [|x r]; cbn [app lookup]; (destruct (String.eqb_spec o k) as [->|Ne]; [|apply IH, Nd']); [|reflexivity].
      rewrite IH by exact Nd'. apply lookup_none in Nk. rewrite Nk. reflexivity. }
    rewrite L. destruct (lookup o j) as [[|]|]; try reflexivity. apply lookup_move.
  Qed.

  Lemma row_move d (j : nmap) o i row : NoDup (keys j) -> lookup o (to_device_nested j d) = Some row -> lookup i row = option_map (to_dev d) (pair_at o i j).
  Proof. intros Nd L. rewrite <- (pair_move d j o i Nd). unfold pair_at. exact (f_equal (fun x => match x with Some r => lookup i r | None => None end) (eq_sym L)). Qed.
  Lemma row_move_none d (j : nmap) o i : NoDup (keys j) -> lookup o (to_device_nested j d) = None -> pair_at o i j = None.
  Proof.
    intros Nd L. pose proof (pair_move d j o i Nd) as E. assert (E' : pair_at o i (to_device_nested j d) = None) by (unfold pair_at; exact (f_equal (fun x => match x with Some r => lookup i r | None => None end) L)).
    rewrite E' in E. destruct (pair_at o i j); [discriminate|reflexivity].
  Qed.

  Lemma whole_rows in_dev b (u : tens) : wf u -> batched b u ->
    wf (to_dev in_dev u) /\ batched b (to_dev in_dev u) /\ is_rows 0 b (to_dev in_dev u) (to_dev in_dev u).
  Proof.
    intros W B. split; [apply to_dev_wf, W|]. split; [exact B|]. rewrite <- (rows_of_all b (to_dev in_dev u)) at 2 by (try apply to_dev_wf; assumption).
    apply (rows_of_is_rows b); [apply to_dev_wf, W|exact B|cbn; lia].
  Qed.
  Lemma whole_tiles b (l : list (Z * Z)) {X} (r : X) : tiles 0 (Z.of_nat b) l -> length l = length [r] -> l = [(0, Z.of_nat b)%Z].
  Proof. intros T L. destruct l as [|x [|]]; try discriminate. inversion T as [|s c b' l' Hc T']; subst. assert (c = Z.of_nat b) as -> by (inversion T'; lia). reflexivity. Qed.
  Lemma whole_part in_dev b (t u : tens) : to_dev in_dev t = to_dev in_dev u -> Forall2 (fun (x : Z * Z) u => wf u /\ batched (Z.to_nat (snd x)) u) [(0, Z.of_nat b)%Z] [u] ->
    wf t /\ batched b t /\ Forall2 (fun x u => is_rows (Z.to_nat (fst x)) (Z.to_nat (snd x)) (to_dev in_dev t) (to_dev in_dev u)) [(0, Z.of_nat b)%Z] [u].
  Proof.
    intros E Hf. inversion Hf as [|? ? ? ? (W & B) _]; subst. cbn [snd] in B. rewrite Nat2Z.id in B. destruct (whole_rows in_dev b u W B) as (W' & B' & R). rewrite <- E in W', B'.
    split; [exact W'|]. split; [exact B'|]. constructor; [|constructor]. cbn [fst snd Z.to_nat]. rewrite Nat2Z.id, E. exact R.
  Qed.

  Lemma whole_blocks in_dev b onds inds (jac : nmap) : blocks_in_place in_dev b onds inds [(0, Z.of_nat b)%Z] [jac] jac.
  Proof.
    split; [intros j o i [<-|[]]; reflexivity|]. intros o i t L. exists [t]. split; [repeat constructor; exact L|]. split; [intros u us' no ni E; injection E as <- _; reflexivity|].
    split; [|right; reflexivity]. intros _. apply whole_part. reflexivity.
  Qed.
  Lemma cat_nested_in_place in_dev b onds inds l (js : list nmap) jac : tiles 0 (Z.of_nat b) l -> length l = length js -> (forall j, In j js -> NoDup (keys j)) ->
    (forall j j' o i, In j js -> In j' js -> pair_at o i j = None -> pair_at o i j' = None) ->
    cat_batch_nested (map (fun j => to_device_nested j in_dev) js) onds inds = Ok jac -> blocks_in_place in_dev b onds inds l js jac.
  Proof.
    intros T L Nd K E. destruct js as [|j0 [|j1 js]]; [discriminate| |].
    - cbn [map cat_batch_nested] in E. injection E as <-. pose proof (whole_tiles b l j0 T L) as ->. specialize (Nd j0 (or_introl eq_refl)). split.
      + intros j o i [<-|[]]. rewrite pair_move by exact Nd. destruct (pair_at o i j0); cbn; split; congruence.
      + intros o i t Lt. rewrite pair_move in Lt by exact Nd. destruct (pair_at o i j0) as [u|] eqn:Lu; [|discriminate]. cbn [option_map] in Lt. injection Lt as <-.
        exists [u]. split; [repeat constructor; exact Lu|]. split; [intros u' us' no ni E; injection E as <- _; reflexivity|]. split; [|left; reflexivity]. intros _. apply whole_part. reflexivity.
    - set (js0 := j0 :: j1 :: js) in *. set (cs := map (fun j => to_device_nested j in_dev) js0) in *.
      change (cat_batch_nested cs onds inds) with (let* rows := mapM (fun orow => let* row := mapM (fun it => let* t := cat_block cs onds inds (fst orow) (fst it) (snd it) in Ok (fst it, t)) (snd orow) in Ok (fst orow, row)) (to_device_nested j0 in_dev) in
        Ok (filter (fun orow => match snd orow with [] => false | _ => true end) rows)) in E.
      apply bind_ok in E as (rows & Er & E). injection E as <-.
      destruct (mapM_keyed2 (fun o row => mapM (fun it => let* t := cat_block cs onds inds o (fst it) (snd it) in Ok (fst it, t)) row) _ _ Er) as [Kr Qr].
      assert (Nd0 : NoDup (keys j0)) by (apply Nd; left; reflexivity).
      assert (Ndm : NoDup (keys rows)).
      { rewrite Kr. unfold keys, to_device_nested. clear - Nd0. induction j0 as [|[k r] j0 IH]; [constructor|]. unfold keys in Nd0. cbn [map fst] in Nd0. inversion Nd0 as [|? ? Nk Nd']; subst. cbn [flat_map fst snd].
        destruct r; cbn [app map fst]; [apply IH, Nd'|]. constructor; [|apply IH, Nd']. intros I. apply in_map_iff in I as (x & Ex & Ix). apply in_flat_map in Ix as (y & Iy & Ix). apply Nk.
        destruct (snd y); [destruct Ix|]. destruct Ix as [<-|[]]. cbn [fst] in Ex. rewrite <- Ex. apply in_map, Iy. }
      assert (Q : forall o i, (pair_at o i rows = None <-> pair_at o i j0 = None) /\ forall t, pair_at o i rows = Some t -> exists v, pair_at o i j0 = Some v /\ cat_block cs onds inds o i (to_dev in_dev v) = Ok t).
      { intros o i. destruct (Qr o) as [Q1 Q2]. destruct (lookup o rows) as [row|] eqn:Lr.
        - assert (Pr : pair_at o i rows = lookup i row) by (unfold pair_at; exact (f_equal (fun x => match x with Some r => lookup i r | None => None end) Lr)). rewrite Pr. destruct (Q2 row eq_refl) as (row0 & L0 & E0). pose proof (row_move in_dev j0 o i row0 Nd0 L0) as Pm. destruct (mapM_keyed2 (fun i t => cat_block cs onds inds o i t) _ _ E0) as [_ Q3]. destruct (Q3 i) as [Q4 Q5]. split.
          + apply (iff_trans Q4). assert (X : lookup i row0 = None <-> pair_at o i j0 = None) by (rewrite Pm; destruct (pair_at o i j0); cbn; split; congruence). exact X.
          + intros t Lt. destruct (Q5 t Lt) as (x & Lx & Ex). pose proof (eq_trans (eq_sym Lx) Pm) as Pm'. clear Pm. rename Pm' into Pm. destruct (pair_at o i j0) as [v|]; [|discriminate]. cbn [option_map] in Pm. injection Pm as ->. exists v. auto.
        - assert (Pr : pair_at o i rows = None) by (unfold pair_at; exact (f_equal (fun x => match x with Some r => lookup i r | None => None end) Lr)). rewrite Pr.
          rewrite (row_move_none in_dev j0 o i Nd0 (proj1 Q1 eq_refl)). split; [|discriminate]. split; reflexivity. }
      split.
      + intros j o i Hj. rewrite pair_filter by exact Ndm. rewrite (proj1 (Q o i)). split; intros H; [apply (K j0 j o i); [left; reflexivity|exact Hj|exact H]|apply (K j j0 o i); [exact Hj|left; reflexivity|exact H]].
      + intros o i t Lt. rewrite pair_filter in Lt by exact Ndm. destruct (proj2 (Q o i) t Lt) as (v & L0 & Ec).
        assert (Us : exists us, Forall2 (fun j u => pair_at o i j = Some u) js0 us).
        { assert (forall j, In j js0 -> pair_at o i j <> None) as Hn by (intros j Hj Ej; rewrite (K j j0 o i Hj (or_introl eq_refl) Ej) in L0; discriminate). clear - Hn.
          induction js0 as [|j js0 IH]; [exists []; constructor|]. destruct IH as (us & F); [intros j' Hj'; apply Hn; right; exact Hj'|]. destruct (pair_at o i j) as [u|] eqn:E; [|destruct (Hn j (or_introl eq_refl) E)].
          exists (u :: us). constructor; assumption. }
        destruct Us as (us & F). exists us. split; [exact F|]. assert (Eu : exists us', us = v :: us') by (inversion F as [|? u ? us' E0]; subst; exists us'; congruence). destruct Eu as (us' & ->).
        unfold cat_block in Ec. unfold at_ in Ec. destruct (lookup o onds) as [no|]; cbn [bind] in Ec; [|discriminate]. destruct (lookup i inds) as [ni|]; cbn [bind] in Ec; [|discriminate].
        change (dim (to_dev in_dev v)) with (dim v) in Ec. destruct (Nat.eqb_spec (dim v) (no + ni)) as [Ed|Ed].
        * injection Ec as <-. split; [intros ? ? ? ? E; injection E as <- _; reflexivity|]. split; [|left; reflexivity]. intros Hd. destruct (Hd v us' no ni eq_refl eq_refl eq_refl Ed).
        * split; [intros ? ? ? ? E [= <-] [= <-]; injection E as <- _; congruence|].
          assert (Ep : nparts_of o i cs = Ok (map (to_dev in_dev) (v :: us'))).
          { unfold nparts_of, cs. rewrite mapM_map. assert (Nd' : forall j, In j js0 -> NoDup (keys j)) by exact Nd. clear - F Nd'. induction F as [|j u js0 us E F IH]; [reflexivity|]. cbn [mapM map].
            destruct (lookup o (to_device_nested j in_dev)) as [r|] eqn:Lr; [|rewrite (row_move_none in_dev j o i (Nd' j (or_introl eq_refl)) Lr) in E; discriminate].
            rewrite (row_move in_dev j o i r (Nd' j (or_introl eq_refl)) Lr), E. cbn [option_map]. cbn [bind]. rewrite IH by (intros; apply Nd'; right; assumption). reflexivity. }
          rewrite Ep in Ec. cbn [bind] in Ec. destruct (cat0_in_place in_dev b l (v :: us') t T Ec) as [Dv Ro]. split; [intros _; exact Ro|left; exact Dv].
  Qed.

  (** *** Gradients *)
  Variable add : V -> V -> V.
  Lemma zip_data (x y z : tens) : wf x -> wf y -> zip_same add x y = Ok z -> wf z /\ t_shape z = t_shape x /\ t_shape y = t_shape x /\
    forall k p, nth_error (t_data x) k = Some p -> exists q, nth_error (t_data y) k = Some q /\ nth_error (t_data z) k = Some (add p q).
  Proof.
    intros Wx Wy E. unfold zip_same in E. destruct (shape_eqb (t_shape x) (t_shape y) && device_eqb (t_dev x) (t_dev y))%bool eqn:B; [|discriminate]. apply andb_true_iff in B as [B _]. apply shape_eqb_eq in B. injection E as <-.
    assert (Ln : length (t_data x) = length (t_data y)) by (rewrite Wx, Wy, B; reflexivity).
    split; [unfold wf; cbn [t_data t_shape]; rewrite map_length, combine_length, Ln, Nat.min_id, <- Ln; exact Wx|]. split; [reflexivity|]. split; [auto|]. cbn [t_data].
    clear - Ln. generalize dependent (t_data y). induction (t_data x) as [|a xs IH]; intros [|c ys] Ln k p; try discriminate; [destruct k; discriminate|]. destruct k as [|k]; cbn [nth_error combine map fst snd].
    - intros [= ->]. exists c. auto.
    - intros E. apply IH; [cbn in Ln; congruence|exact E].
  Qed.
  Lemma sum_data : forall ps (x t : tens), wf x -> Forall wf ps -> sum_parts add x ps = Ok t -> Forall (fun v => t_shape v = t_shape x) ps /\ t_shape t = t_shape x /\
    forall k p, nth_error (t_data x) k = Some p -> exists xs, Forall2 (fun v y => nth_error (t_data v) k = Some y) ps xs /\ nth_error (t_data t) k = Some (fold_left add xs p).
  Proof.
    induction ps as [|y ps IH]; intros x t Wx Wp E; cbn [sum_parts] in E.
    - injection E as <-. split; [constructor|]. split; [reflexivity|]. intros k p Hp. exists []. split; [constructor|exact Hp].
    - inversion Wp as [|? ? Wy Wp']; subst. apply bind_ok in E as (z & Ez & E). destruct (zip_data x y z Wx Wy Ez) as (Wz & Sz & Sy & Dz). destruct (IH z t Wz Wp' E) as (S1 & S2 & S3).
      rewrite Sz in S1, S2. split; [constructor; assumption|]. split; [exact S2|]. intros k p Hp. destruct (Dz k p Hp) as (q & Hq & Hz). destruct (S3 k _ Hz) as (xs & Fx & Ex). exists (q :: xs). split; [constructor; assumption|exact Ex].
  Qed.
  Lemma summed_move d (us : list tens) t : summed add (map (to_dev d) us) t -> summed add us t.
  Proof.
    intros (u & us' & E & S1 & S2 & S3). destruct us as [|v us]; [discriminate|]. cbn [map] in E. injection E as <- <-. exists v, us. split; [reflexivity|]. rewrite Forall_map in S1. split; [exact S1|]. split; [exact S2|].
    intros k x Hx. destruct (S3 k x Hx) as (xs & Fx & Ex). exists xs. split; [|exact Ex]. clear - Fx. remember (map (to_dev d) us) as l eqn:El. revert us El.
    induction Fx as [|w y l xs Hw Fx IH]; intros us El; destruct us as [|u us]; try discriminate; [constructor|]. cbn [map] in El. injection El as -> ->. constructor; [exact Hw|apply IH; reflexivity].
  Qed.
  Lemma summed_one d (u t : tens) : to_dev d t = to_dev d u -> summed add [u] t.
  Proof.
    intros E. exists u, []. split; [reflexivity|]. split; [constructor|]. unfold to_dev in E. injection E as E1 E2. split; [exact E1|]. intros k x Hx. exists []. split; [constructor|]. rewrite E2. exact Hx.
  Qed.

  Section Grads.
    Variables (D : disp V) (P : vmap) (b : nat) (in_dev : device).
    Hypothesis Hb : 1 <= b.
    Hypothesis Hm : master D = Ok P.
    Notation nds := (l_param (dp_layout D)).
    Lemma whole_gradients (g : vmap) : gradients_together add in_dev b nds P [(0, Z.of_nat b)%Z] [g] g.
    Proof.
      split; [intros r q [<-|[]]; reflexivity|]. intros q t L. exists [t]. split; [repeat constructor; exact L|]. intros v nd _ _. split; [|intros _ _; apply (summed_one in_dev); reflexivity].
      intros _. apply whole_part. reflexivity.
    Qed.
    Lemma gather_together l (gs : list vmap) g : tiles 0 (Z.of_nat b) l -> length l = length gs -> (forall r r' n, In r gs -> In r' gs -> lookup n r = None -> lookup n r' = None) ->
      gather_param_vjp add D (Z.of_nat b) (map (fun r => to_device r in_dev) gs) = Ok g -> gradients_together add in_dev b nds P l gs g.
    Proof.
      intros T L K E. destruct gs as [|g0 [|g1 gs]]; [discriminate| |].
      - cbn [map gather_param_vjp] in E. injection E as <-. pose proof (whole_tiles b l g0 T L) as ->. split.
        + intros r q [<-|[]]. rewrite lookup_move. destruct (lookup q g0); cbn; split; congruence.
        + intros q t Lt. rewrite lookup_move in Lt. destruct (lookup q g0) as [u|] eqn:Lu; [|discriminate]. cbn [option_map] in Lt. injection Lt as <-. exists [u]. split; [repeat constructor; exact Lu|].
          intros v nd _ _. split; [|intros _ _; apply (summed_one in_dev); reflexivity]. intros _. apply whole_part. reflexivity.
      - set (gs0 := g0 :: g1 :: gs) in *. set (cs := map (fun r => to_device r in_dev) gs0) in *.
        change (gather_param_vjp add D (Z.of_nat b) cs) with (let* params := master D in mapM (fun kt => let* t := stitch_one add D (Z.of_nat b) params cs (fst kt) in Ok (fst kt, t)) (to_device g0 in_dev)) in E.
        rewrite Hm in E. cbn [bind] in E. pose proof (mapM_keyed (fun n => stitch_one add D (Z.of_nat b) P cs n) _ _ E) as Q. clear E.
        assert (N0 : forall n, lookup n g = None <-> lookup n g0 = None).
        { intros n. destruct (Q n) as [Q1 _]. rewrite Q1, lookup_move. destruct (lookup n g0); cbn; split; congruence. }
        split.
        + intros r n Hr. rewrite N0. split; intros H; [apply (K g0 r n); [left; reflexivity|exact Hr|exact H]|apply (K r g0 n); [exact Hr|left; reflexivity|exact H]].
        + intros n t Lt. destruct (Q n) as [_ Q2]. specialize (Q2 t Lt). unfold stitch_one in Q2. destruct (mapM _ cs) as [ps|] eqn:Ep; cbn [bind] in Q2; [|discriminate].
          assert (Us : exists us, Forall2 (fun r u => lookup n r = Some u) gs0 us /\ ps = map (to_dev in_dev) us).
          { unfold cs in Ep. rewrite mapM_map in Ep. apply mapM_Forall2 in Ep. clear - Ep. induction Ep as [|r p gs0 ps E Ep (us & F & ->)]; [exists []; split; [constructor|reflexivity]|].
            rewrite lookup_move in E. destruct (lookup n r) as [u|] eqn:Lr; [|discriminate]. cbn [option_map] in E. injection E as <-. exists (u :: us). split; [constructor; assumption|reflexivity]. }
          destruct Us as (us & F & ->). exists us. split; [exact F|]. intros v nd Lv Ln. rewrite Lv in Q2. rewrite param_batched_spec in Q2 by exact Hb. unfold base_nd in Q2. rewrite Ln in Q2.
          destruct (Nat.leb (nd + 1) (dim v) && has_lead b v)%bool eqn:Eb.
          * apply andb_true_iff in Eb as [E1 E2]. apply Nat.leb_le in E1. apply has_lead_true in E2. split; [|intros X; destruct X; split; [exact E2|lia]]. intros _. apply (cat0_in_place in_dev b l us t T Q2).
          * split; [intros [B1 B2]; exfalso; apply andb_false_iff in Eb as [Eb|Eb]; [apply Nat.leb_gt in Eb; lia|]; unfold has_lead in Eb; destruct B1 as [rr Er]; rewrite Er, Nat.eqb_refl in Eb; discriminate|].
            intros _ Wu. apply (summed_move in_dev). destruct us as [|u us]; [discriminate|]. cbn [map] in *. inversion Wu as [|? ? W1 W2]; subst.
            destruct (sum_data (map (to_dev in_dev) us) (to_dev in_dev u) t) as (S1 & S2 & S3); [apply to_dev_wf, W1|rewrite Forall_map; revert W2; apply Forall_impl; intros; apply to_dev_wf; assumption|exact Q2|].
            do 2 eexists. split; [reflexivity|]. split; [exact S1|]. split; [exact S2|exact S3].
    Qed.
  End Grads.
End Stitch.

(** ** One call of the dispatcher *)
Section Ops.
  Context {V : Type}.
  Notation vmap := (smap (tensor V)).
  Variables (D : disp V) (P I : vmap) (b : nat) (in_dev : device).
  Notation nds := (l_param (dp_layout D)).
  Context {R : Type}.
  (** What a device computes of a range, and how the result is moved. *)
  Variable piece : device -> Z * Z -> result R.
  Variable mv : R -> R.
  Variable chunk_fn : device -> Z -> device -> Z -> Z -> result R.
  Hypothesis Hchunk : forall d s c, SyncProofs.holds D P d -> (0 <= s)%Z -> (0 < c)%Z -> (s + c <= Z.of_nat b)%Z ->
    chunk_fn in_dev (Z.of_nat b) d s c = rmap mv (piece d (s, c)).

  Lemma sync_op_inv n direct gather out : call_ok n D P I b in_dev -> (dp_active D = in_dev -> direct P = piece (dp_active D) (0, Z.of_nat b)%Z) ->
    sync_op n D I direct chunk_fn gather = Done (Ok out) ->
    exists l rs, tiles 0 (Z.of_nat b) l /\ (forall x, In x l -> (snd x <= (if (n =? 0)%Z then Z.of_nat b else n))%Z) /\
      Forall2 (fun x r => piece (dp_active D) x = Ok r) l rs /\ ((l = [(0, Z.of_nat b)]%Z /\ rs = [out]) \/ gather (Z.of_nat b) (map mv rs) = Ok out).
  Proof.
    intros H Hd E. unfold sync_op in E. rewrite (call_input_device n D P I b in_dev H) in E. cbn zeta in E.
    rewrite (infer_batch_size_contract b I) in E by apply (co_contract _ _ _ _ _ _ H).
    assert (Hb : 1 <= b) by (eapply call_b; eassumption).
    destruct (sync_chunks_tile n (Z.of_nat b) (co_n _ _ _ _ _ _ H) ltac:(lia)) as (l & Tl & Bd & _ & Run).
    destruct ((Z.of_nat b <=? chunk_extent n (Z.of_nat b))%Z && device_eqb (dp_active D) in_dev)%bool eqn:Ef.
    - apply andb_true_iff in Ef as [Eb Ed]. apply device_eqb_eq in Ed. rewrite (call_model_at n D P I b in_dev H) in E. cbn [bind] in E.
      assert (E' : piece (dp_active D) (0, Z.of_nat b)%Z = Ok out) by (rewrite <- Hd by exact Ed; congruence). clear E Run Tl Bd l.
      exists [(0, Z.of_nat b)%Z], [out]. split; [|split; [|split]].
      + apply tiles_cons; [lia|]. rewrite Z.add_0_l. apply tiles_nil.
      + intros x [<-|[]]. cbn [snd]. destruct (chunk_extent_pos n (Z.of_nat b) (co_n _ _ _ _ _ _ H) ltac:(lia)) as [_ Ex]. apply Z.leb_le in Eb. destruct (n =? 0)%Z; lia.
      + constructor; [exact E'|constructor].
      + left. split; reflexivity.
    - clear Ef. rewrite Run in E. clear Run. exists l.
      assert (Hc : mapM (fun x => chunk_fn in_dev (Z.of_nat b) (dp_active D) (fst x) (snd x)) l = mapM (fun x => rmap mv (piece (dp_active D) x)) l).
      { apply mapM_ext. intros [s c] Hx. pose proof (tiles_bounds _ _ _ _ Tl Hx) as (H1 & H2 & H3). cbn [fst snd] in *.
        apply Hchunk; first [assumption | eapply holds_active; eassumption | lia]. }
      rewrite Hc in E. clear Hc. destruct (mapM _ l) as [cs|] eqn:Em; [|discriminate]. cbn [lbind] in E. assert (E' : gather (Z.of_nat b) cs = Ok out) by congruence. clear E.
      apply mapM_Forall2 in Em. assert (Rs : exists rs, Forall2 (fun x r => piece (dp_active D) x = Ok r) l rs /\ cs = map mv rs).
      { clear - Em. induction Em as [|x c l cs E Em (rs & F & ->)]; [exists []; split; [constructor|reflexivity]|]. destruct (piece (dp_active D) x) as [r|] eqn:Ep; [|discriminate].
        exists (r :: rs). split; [constructor; assumption|]. cbn [rmap] in E. injection E as <-. reflexivity. }
      destruct Rs as (rs & F & ->). exists rs. split; [exact Tl|]. split; [exact Bd|]. split; [exact F|right; exact E'].
  Qed.

  Lemma pool_op_inv tbl run k ls rs0 dflt gather out : pool_ok tbl -> pool_call_ok (map ds_dev tbl) D P I b in_dev ->
    finished_call run tbl k (Z.of_nat b) ls (Ok rs0) -> returns_only run k (chunk_fn in_dev (Z.of_nat b)) -> async_op dflt gather (Ok rs0) = Ok out ->
    exists (l : list (device * (Z * Z))) rs, tiles 0 (Z.of_nat b) (map snd l) /\
      (forall x, In x l -> exists t, In t tbl /\ ds_dev t = fst x /\ (snd (snd x) <= ds_batch t)%Z) /\
      Forall2 (fun x r => piece (fst x) (snd x) = Ok r) l rs /\ gather (map mv rs) = Ok out.
  Proof.
    intros Hp H (s & o & s' & Hr & Em & -> & Hb & He & Hn & Em') Ro E.
    destruct (AsyncEnd.call_success run tbl Hp s o (Z.of_nat b) ls s' rs0 Hr Em Hb He Hn Em') as (l & Tl & -> & _ & Fl).
    exists (map (fun x => (tk_dev (fst x), (tk_start (fst x), tk_count (fst x)))) l).
    unfold async_op in E. cbn [bind] in E. rewrite map_map in E.
    assert (Rs : exists rs, Forall2 (fun x r => piece (tk_dev (fst x)) (tk_start (fst x), tk_count (fst x)) = Ok r) l rs /\ map snd l = map mv rs).
    { clear - Fl Ro H Hchunk. induction Fl as [|x l ((t & It & Dt & Ct & St & Et) & Rx) Fl (rs & F & Em)]; [exists []; split; [constructor|reflexivity]|]. apply Ro in Rx.
      rewrite Hchunk in Rx; try lia; [|rewrite <- Dt; eapply pool_holds; eassumption].
      destruct (piece _ _) as [r|] eqn:Ep; [|discriminate]. exists (r :: rs). split; [constructor; assumption|]. cbn [map]. rewrite <- Em. cbn [rmap] in Rx. congruence. }
    destruct Rs as (rs & F & Ec). exists rs. rewrite map_map. cbn [snd]. split; [exact Tl|]. split; [|split].
    - intros x Hx. apply in_map_iff in Hx as (y & <- & Hy). rewrite Forall_forall in Fl. destruct (Fl y Hy) as [(t & It & Dt & Ct & _) _]. exists t. cbn [fst snd]. split; [exact It|]. split; [exact Dt|lia].
    - clear - F. induction F; cbn [map]; constructor; assumption.
    - rewrite <- Ec. exact E.
  Qed.
End Ops.

(** ** The operations on a range *)
Section Pieces.
  Context {V : Type}.
  Notation vmap := (smap (tensor V)).
  Notation nmap := (smap (smap (tensor V))).
  Variables (D : disp V) (P I T : vmap) (b : nat) (in_dev : device).
  Notation nds := (l_param (dp_layout D)).
  Definition par_on (d : device) (x : Z * Z) : vmap := on_dev d (chunk_params b (Z.to_nat (fst x)) (Z.to_nat (snd x)) nds P).
  Definition row_on (m : vmap) (d : device) (x : Z * Z) : vmap := on_dev d (chunk_map b (Z.to_nat (fst x)) (Z.to_nat (snd x)) m).
  Definition two {R} (f : device -> vmap -> vmap -> vmap -> result R) (d : device) (x : Z * Z) : result R := f d (par_on d x) (row_on I d x) (row_on T d x).
  Definition one {R} (f : device -> vmap -> vmap -> result R) (d : device) (x : Z * Z) : result R := f d (par_on d x) (row_on I d x).

  Section Call.
    Variable n : Z.
    Hypothesis H : call_ok n D P I b in_dev.
    Hypothesis Ct : conforming b T.
    Hypothesis On : all_on in_dev T.

    Lemma range_whole (m : vmap) : conforming b m -> all_on in_dev m -> row_on m in_dev (0, Z.of_nat b)%Z = m.
    Proof. intros Cf Om. unfold row_on. cbn [fst snd Z.to_nat]. rewrite Nat2Z.id, chunk_map_all by exact Cf. apply on_dev_all_on, Om. Qed.
    Lemma params_whole : par_on (dp_active D) (0, Z.of_nat b)%Z = P.
    Proof. unfold par_on. cbn [fst snd Z.to_nat]. rewrite Nat2Z.id, chunk_params_all by apply (co_params _ _ _ _ _ _ H). apply on_dev_all_on, (co_pdev _ _ _ _ _ _ H). Qed.
    Lemma one_whole {R} (f : device -> vmap -> vmap -> result R) : dp_active D = in_dev -> f (dp_active D) (effective P []) I = one f (dp_active D) (0, Z.of_nat b)%Z.
    Proof. intros Ed. unfold one. rewrite params_whole, effective_nil, Ed, range_whole; [reflexivity|eapply call_conf; eassumption|apply (co_on _ _ _ _ _ _ H)]. Qed.
    Lemma two_whole {R} (f : device -> vmap -> vmap -> vmap -> result R) : dp_active D = in_dev -> f (dp_active D) (effective P []) I T = two f (dp_active D) (0, Z.of_nat b)%Z.
    Proof.
      intros Ed. unfold two. rewrite params_whole, effective_nil, Ed, !range_whole; [reflexivity|exact Ct|exact On|eapply call_conf; eassumption|apply (co_on _ _ _ _ _ _ H)].
    Qed.

    Lemma chunk_jacobian_is j d s c : SyncProofs.holds D P d -> (0 <= s)%Z -> (0 < c)%Z -> (s + c <= Z.of_nat b)%Z ->
      chunk_jacobian D in_dev (Z.of_nat b) j I d s c = rmap (fun r => (to_device (fst r) in_dev, to_device_nested (snd r) in_dev)) (one j d (s, c)).
    Proof.
      intros Hd Hs Hc Hsc. unfold chunk_jacobian.
      rewrite (slice_batch_chunk b) by first [assumption | eapply call_b; eassumption | eapply call_conf; eassumption].
      cbn [bind]. rewrite (call_overrides n D P I b in_dev H) by assumption. cbn [bind]. rewrite (holds_model_at D P d Hd). cbn [bind].
      rewrite (call_effective n D P I b in_dev H), to_device_on_dev. unfold one, par_on, row_on. cbn [fst snd]. destruct (j d _ _) as [[o jb]|]; reflexivity.
    Qed.
    Lemma chunk_jvp_is f d s c : SyncProofs.holds D P d -> (0 <= s)%Z -> (0 < c)%Z -> (s + c <= Z.of_nat b)%Z ->
      chunk_jvp f D in_dev (Z.of_nat b) I T d s c = rmap (fun r => (to_device (fst r) in_dev, to_device (snd r) in_dev)) (two f d (s, c)).
    Proof.
      intros Hd Hs Hc Hsc. unfold chunk_jvp.
      rewrite (slice_batch_chunk b) by first [assumption | eapply call_b; eassumption | eapply call_conf; eassumption]. cbn [bind].
      rewrite (slice_batch_chunk b) by first [assumption | eapply call_b; eassumption]. cbn [bind].
      rewrite (call_overrides n D P I b in_dev H) by assumption. cbn [bind]. rewrite (holds_model_at D P d Hd). cbn [bind].
      rewrite (call_effective n D P I b in_dev H), !to_device_on_dev. unfold two, par_on, row_on. cbn [fst snd]. destruct (f d _ _ _) as [[o jb]|]; reflexivity.
    Qed.
    Lemma chunk_param_vjp_is f d s c : SyncProofs.holds D P d -> (0 <= s)%Z -> (0 < c)%Z -> (s + c <= Z.of_nat b)%Z ->
      chunk_param_vjp f D in_dev (Z.of_nat b) I T d s c = rmap (fun r => to_device r in_dev) (two f d (s, c)).
    Proof.
      intros Hd Hs Hc Hsc. unfold chunk_param_vjp.
      rewrite (slice_batch_chunk b) by first [assumption | eapply call_b; eassumption | eapply call_conf; eassumption]. cbn [bind].
      rewrite (slice_batch_chunk b) by first [assumption | eapply call_b; eassumption]. cbn [bind].
      rewrite (call_overrides n D P I b in_dev H) by assumption. cbn [bind]. rewrite (holds_model_at D P d Hd). cbn [bind].
      rewrite (call_effective n D P I b in_dev H), !to_device_on_dev. unfold two, par_on, row_on. cbn [fst snd]. destruct (f d _ _ _) as [g|]; reflexivity.
    Qed.
  End Call.
End Pieces.
