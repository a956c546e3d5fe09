(** Proofs about the eager model (EagerModel.v): the calls. *)
From Verif Require Import Base BaseProofs Tensor TensorProofs Spec SpecMap SmapProofs Broadcast SpecBroadcast BroadcastProofs Pack PackProofs Implicit Mat Jac JacModel SpecJac SpecAlgebra MatProofs AlgebraProofs JacExactProofs EagerModel SpecEagerModel EagerModelProofs EagerSeedProofs.
From Coq Require Import Ring.
Local Open Scope list_scope.

Lemma guarded_ok {X} op (x : X) : guarded op (Ok x) = Ok x. Proof. reflexivity. Qed.
Lemma guarded_std {X} op w : fatal (guarded (X:=X) op (Err (StdExn w))). Proof. eexists. reflexivity. Qed.
Lemma guarded_err {X} op e : (forall w, e <> Convergence w) -> fatal (guarded (X:=X) op (Err e)).
Proof. intros H. destruct e; try (eexists; reflexivity). exfalso. eapply H. reflexivity. Qed.

Lemma in_broadcast_eq ds ds' C : (forall s, In s ds <-> In s ds') -> broadcast_of ds C -> broadcast_of ds' C.
Proof.
  intros H [A B]. split.
  - intros p. rewrite A. split; intros (s & Is & L); exists s; (split; [apply H; exact Is|exact L]).
  - intros p n E. destruct (B p n E) as [B1 B2]. split; [intros s k Is; apply B1, H; exact Is|]. destruct B2 as [B2|(s & Is & L)]; [left; exact B2|right; exists s; split; [apply H; exact Is|exact L]].
Qed.
Lemma broadcast_nil ds C : broadcast_of ([] :: ds) C -> broadcast_of ds C.
Proof.
  intros [A B]. split.
  - intros p. rewrite A. split; [intros (s & [<-|Is] & L); [cbn in L; lia|eauto]|intros (s & Is & L); exists s; split; [right; exact Is|exact L]].
  - intros p n E. destruct (B p n E) as [B1 B2]. split; [intros s k Is; apply B1; right; exact Is|]. destruct B2 as [B2|(s & [<-|Is] & L)]; [left; exact B2| |right; eauto].
    exfalso. unfold rsize in L. destruct p; discriminate.
Qed.
Lemma broadcast_none D : broadcast_of [] D -> D = [].
Proof. intros [A _]. destruct D as [|n D]; [reflexivity|]. destruct (proj1 (A 0)) as (s & [] & _). cbn. lia. Qed.

Lemma combine_fst {A B} (l : list A) (r : list B) : length l = length r -> map fst (combine l r) = l.
Proof. revert r. induction l as [|x l IH]; intros [|y r] L; try discriminate; [reflexivity|]. cbn. f_equal. apply IH. cbn in L. lia. Qed.
Lemma combine_f2 {A B} (P : A -> B -> Prop) l r : Forall2 P l r -> forall x y, In (x, y) (combine l r) -> P x y.
Proof. induction 1 as [|a b l r H F IH]; intros x y I; [destruct I|]. destruct I as [E|I]; [injection E as <- <-; exact H|exact (IH x y I)]. Qed.
Lemma f2_len {A B} (P : A -> B -> Prop) l r : Forall2 P l r -> length l = length r.
Proof. induction 1; cbn; congruence. Qed.
Lemma f2_in {A B} (P : A -> B -> Prop) l r x : Forall2 P l r -> In x l -> exists y, P x y.
Proof. induction 1 as [|a b l r H F IH]; intros I; [destruct I|]. destruct I as [<-|I]; eauto. Qed.

Lemma block_row {V} (J : smap (smap (tensor V))) o i row : lookup o J = Some row -> block J o i = lookup i row.
Proof. unfold block. intros ->. reflexivity. Qed.
Lemma block_inv {V} (J : smap (smap (tensor V))) o i : block J o i <> None -> exists row, lookup o J = Some row /\ lookup i row <> None.
Proof. unfold block. destruct (lookup o J) as [row|]; [eauto|congruence]. Qed.

Section Calls.
  Context {V : Type}.
  Notation vmap := (smap (tensor V)).
  Variable m : emodel V.
  Hypothesis in_names : NoDup (map fst (em_ins m)).
  Hypothesis out_names : NoDup (map fst (em_outs m)).

  Lemma lifted_unique I D a b : lifted m I D a -> lifted m I D b -> a = b.
  Proof using Type.
    clear in_names. unfold lifted. intros Ha. revert b. induction Ha as [|i x ins a (S1 & K1 & Sh1 & t & L & W1 & D1 & E1) F IH]; intros b Hb; inversion Hb as [|? y ? b' (S2 & K2 & Sh2 & t' & L' & W2 & D2 & E2) F']; subst; [reflexivity|].
    f_equal; [|exact (IH b' F')]. assert (t' = t) by congruence. subst t'. destruct x as [xd xs xk], y as [yd ys yk]. cbn in *. subst. f_equal.
    apply tensor_ext; [exact W1|exact W2|congruence|congruence|]. intros idx Hi. rewrite E1 by exact Hi. symmetry. apply E2. rewrite Sh2, <- Sh1. exact Hi.
  Qed.
  Lemma typed_lifted I D args : given_wf m I -> welcome m I D -> lifted m I D args -> typed_args m I = Ok args.
  Proof using Type.
    intros Wf Hw Hl. destruct (typed_args_ok m I D Wf Hw) as (a & E & La & _). rewrite E. f_equal. exact (lifted_unique I D _ _ La Hl).
  Qed.
  Lemma eval_ok (P : eparams V) args v ws v' vals : em_native m (values P) args v = Ok (ws, v') -> returned m ws vals -> eval m P args v = Ok (ws, v').
  Proof using Type.
    intros E (L & Sb & _). unfold eval. rewrite E. cbn [bind]. rewrite L, Nat.eqb_refl. cbn [negb].
    assert (X : existsb (fun o : wrapper V => Nat.ltb 0 (w_sub o)) ws = false). { clear - Sb. induction Sb as [|w ws H F IH]; [reflexivity|]. cbn [existsb]. rewrite H, IH. reflexivity. }
    rewrite X. reflexivity.
  Qed.
  Lemma unwrap_are ws vals : returned m ws vals -> outputs_are m (cast_map (unwrap m ws)) vals.
  Proof using out_names.
    intros (L & _ & <-). unfold unwrap. assert (Le : length (map fst (em_outs m)) = length (map w_data ws)) by (rewrite !map_length; congruence).
    destruct (cast_map_ok (combine (map fst (em_outs m)) (map w_data ws))) as (S & K & E). rewrite (combine_fst _ _ Le) in K, E. split; [exact S|]. split; [exact K|].
    specialize (E out_names). assert (G : forall (outs : list (string * list nat)) ws', length outs = length ws' -> incl (combine (map fst outs) (map w_data ws')) (combine (map fst (em_outs m)) (map w_data ws)) -> Forall2 (fun o t => lookup (fst o) (cast_map (combine (map fst (em_outs m)) (map w_data ws))) = Some t) outs (map w_data ws')).
    { induction outs as [|o outs IH]; intros [|w ws'] L' Hi; try discriminate; [constructor|]. cbn in Hi. cbn [map]. constructor; [apply E, Hi; left; reflexivity|]. apply IH; [cbn in L'; lia|]. intros x Hx. apply Hi. right. exact Hx. }
    apply G; [congruence|apply incl_refl].
  Qed.

  Lemma forward_ok (P : eparams V) I D args ws v vals : given_wf m I -> welcome m I D -> lifted m I D args -> em_native m (values P) args None = Ok (ws, v) -> returned m ws vals ->
    exists r, eager_forward m P I = Ok r /\ outputs_are m r vals.
  Proof using out_names.
    intros Wf Hw Hl En Hr. unfold eager_forward, adapter_forward. rewrite (typed_lifted I D args Wf Hw Hl). cbn [bind]. rewrite (eval_ok P args None ws v vals En Hr). cbn [bind guarded].
    eexists. split; [reflexivity|]. exact (unwrap_are ws vals Hr).
  Qed.
  Lemma forward_err (P : eparams V) I D args e : given_wf m I -> welcome m I D -> lifted m I D args -> em_native m (values P) args None = Err e ->
    eager_forward m P I = guarded "forward" (Err e).
  Proof using Type.
    intros Wf Hw Hl En. unfold eager_forward, adapter_forward. rewrite (typed_lifted I D args Wf Hw Hl). cbn [bind]. unfold eval. rewrite En. reflexivity.
  Qed.
  Lemma refused_all zero one add (P : eparams V) I T : given_wf m I -> (forall D, ~ welcome m I D) ->
    fatal (eager_forward m P I) /\ fatal (eager_jvp zero add m P I T) /\ fatal (eager_jacobian zero one m P I).
  Proof using Type.
    intros Wf Nw. destruct (typed_args_refuse m I Wf Nw) as [w E]. unfold eager_forward, adapter_forward, eager_jvp, adapter_jvp, eager_jacobian, adapter_jacobian. rewrite E. cbn [bind].
    split; [|split]; apply guarded_std.
  Qed.

  (** ** Derivatives *)
  Variables zero one : V.
  Variables add mul sub : V -> V -> V.
  Variable opp : V -> V.
  Hypothesis R : ring_theory zero one add mul sub opp eq.
  Add Ring eager_ring : R.
  Notation push := (SpecAlgebra.push zero add mul).
  Notation sum := (SpecAlgebra.sum zero add).
  Notation sens := (sensitivity zero one add (SpecAlgebra.dotx zero add mul)).

  Lemma push_zero t0 ls v r : (forall v r, t0 v r = zero) -> push ls t0 v r = zero.
  Proof using R. intros H. rewrite (push_is_sens zero one add mul sub opp R [] t0 (NoDup_nil _)) by (intros; apply H). reflexivity. Qed.
  Lemma push_unit t0 i c ls v r : t0 i c = one -> (forall v r, (v, r) <> (i, c) -> t0 v r = zero) -> push ls t0 v r = sens ls v i r c.
  Proof using R.
    intros H1 H0. rewrite (push_is_sens zero one add mul sub opp R [(i, c)] t0).
    - cbn [map fst snd SpecAlgebra.sum fold_right]. rewrite H1. ring.
    - constructor; [intros []|constructor].
    - intros v' r' N. apply H0. intros E. apply N. left. symmetry. exact E.
  Qed.
  Lemma sum_cons x l : sum (x :: l) = add x (sum l). Proof using Type. reflexivity. Qed.
  Lemma sums_app l1 l2 : sum (l1 ++ l2) = add (sum l1) (sum l2).
  Proof using R. induction l1 as [|x l1 IH]; [change (sum l2 = add zero (sum l2)); ring|]. cbn [app]. rewrite !sum_cons, IH. ring. Qed.
  Lemma sums_fold l : forall x, fold_left add l x = add x (sum l).
  Proof using R. induction l as [|y l IH]; intros x; [change (x = add x zero); ring|]. cbn [fold_left]. rewrite IH, sum_cons. ring. Qed.
  Lemma push_sum {X} (f : X -> string -> nat -> V) ls v r (l : list X) : forall t0, (forall v r, t0 v r = sum (map (fun x => f x v r) l)) -> push ls t0 v r = sum (map (fun x => push ls (f x) v r) l).
  Proof using R.
    induction l as [|x l IH]; intros t0 H; [apply push_zero, H|]. rewrite (push_linear zero one add mul sub opp R one (f x) (fun v r => sum (map (fun y => f y v r) l)) t0).
    - rewrite (IH (fun v r => sum (map (fun y => f y v r) l)) (fun _ _ => eq_refl)). cbn [map]. rewrite sum_cons. ring.
    - intros v' r'. rewrite H. cbn [map]. rewrite sum_cons. ring.
  Qed.
  Lemma sum_subset (f : string -> V) l : forall s, NoDup l -> NoDup s -> incl l s -> (forall x, In x s -> ~ In x l -> f x = zero) -> sum (map f l) = sum (map f s).
  Proof using R.
    induction l as [|x l IH]; intros s Nl Ns Hi Hz.
    - symmetry. apply (sum_zero zero one add mul sub opp R). intros x Ix. apply Hz; [exact Ix|intros []].
    - apply NoDup_cons_iff in Nl as [Nx Nl]. destruct (in_split x s (Hi x (or_introl eq_refl))) as (s1 & s2 & ->).
      rewrite map_app, sums_app. cbn [map]. rewrite sum_cons, (IH (s1 ++ s2)).
      + rewrite map_app. rewrite !sum_cons, sums_app. ring.
      + exact Nl.
      + apply NoDup_remove_1 in Ns. exact Ns.
      + intros y Iy. apply NoDup_remove_2 in Ns. specialize (Hi y (or_intror Iy)). apply in_app_iff in Hi. apply in_app_iff. destruct Hi as [Hi|[->|Hi]]; [left; exact Hi|contradiction|right; exact Hi].
      + intros y Iy Ny. apply Hz; [apply in_app_iff in Iy; apply in_app_iff; cbn; tauto|]. intros [->|Iy']; [|contradiction]. apply NoDup_remove_2 in Ns. contradiction.
  Qed.

  Variable P : eparams V.
  Variable I : vmap.
  Variables D C : list nat.
  Variable d : device.
  Hypothesis wf_in : given_wf m I.
  Hypothesis takes : welcome m I D.
  Hypothesis on_d : forall i t, In i (em_ins m) -> lookup (fst i) I = Some t -> t_dev t = d.

  Variable args : list (wrapper V).
  Hypothesis args_are : lifted m I D args.
  Lemma args_on : Forall2 (fun i a => t_dev (w_data a) = d /\ t_shape (w_data a) = D ++ snd i) (em_ins m) args.
  Proof using on_d args_are.
    revert args args_are on_d. unfold lifted. generalize (em_ins m). intros ins as_ F Hd. induction F as [|i a ins as_ (_ & _ & S & t & L & _ & Dv & _) F IH]; [constructor|].
    constructor; [split; [rewrite Dv; apply (Hd i t (or_introl eq_refl) L)|exact S]|]. apply IH. intros j u Ij. apply Hd. right. exact Ij.
  Qed.

  (** *** jacobian *)
  Lemma call_batch_ok : calls_at P D C -> call_batch P (em_ins m) args = Ok C.
  Proof using takes args_are on_d in_names.
    intros Hc. unfold call_batch. rewrite bshapes_all. apply infer_all_iff. unfold calls_at in Hc.
    change (map (fun p : string * eparam V => firstn _ (t_shape (ep_val (snd p)))) P) with (map (fun p : string * eparam V => param_batch (snd p)) P) in Hc. pose proof args_on as F.
    destruct (em_ins m) as [|i0 ins] eqn:Ei.
    - inversion F; subst. cbn [combine map app]. destruct takes as [(ds & Fd & B) _]. rewrite Ei in Fd. inversion Fd; subst. apply broadcast_none in B. subst D. exact (broadcast_nil _ _ Hc).
    - eapply in_broadcast_eq; [|exact Hc]. intros s. inversion F as [|? a0 ? as_ [_ S0] F']; subst. cbn [combine map app fst snd]. rewrite (batch_of_app _ _ D S0). cbn [In].
      rewrite in_app_iff. split; [intros [->|H]; [left; reflexivity|right; right; exact H]|]. intros [H|[H|H]]; [left; exact H| |right; exact H].
      left. apply in_map_iff in H as ([i a] & <- & H). destruct (combine_f2 _ _ _ F' i a H) as [_ Sa]. cbn [fst snd]. symmetry. exact (batch_of_app _ _ D Sa).
  Qed.
  Lemma identity_seeds_ok : exists S, identity_seeds zero one m C args = Ok S /\ seeds_of m d C 1 S /\
    forall i ib, In (i, ib) (em_ins m) -> exists w, seed_for m d C 1 i ib (numel ib) w S /\
      forall j e x, j < numel ib -> index_of C e -> index_of ib x -> elem (w_data w) (j :: e ++ x) = Some (if Nat.eqb j (ravel ib x) then one else zero).
  Proof using on_d args_are in_names.
    unfold identity_seeds.
    assert (G : forall (ins : list (string * list nat)) (as_ : list (wrapper V)), Forall2 (fun i a => t_dev (w_data a) = d /\ t_shape (w_data a) = D ++ snd i) ins as_ ->
      exists S, mapM (fun x => let* w := identity_seed zero one (snd (fst x)) C (t_dev (w_data (snd x))) in Ok (fst (fst x), [(fst (fst x), w)])) (combine ins as_) = Ok S /\ keys S = map fst ins /\
        (forall s, In s S -> exists ib w, s = (fst s, [(fst s, w)]) /\ In (fst s, ib) ins /\ w_k w = 1 /\ w_sub w = 0 /\ wf (w_data w) /\ t_dev (w_data w) = d /\ t_shape (w_data w) = numel ib :: C ++ ib) /\
        (forall i ib, In (i, ib) ins -> exists w, In (i, [(i, w)]) S /\ w_k w = 1 /\ w_sub w = 0 /\ wf (w_data w) /\ t_dev (w_data w) = d /\ t_shape (w_data w) = numel ib :: C ++ ib /\
           forall j e x, j < numel ib -> index_of C e -> index_of ib x -> elem (w_data w) (j :: e ++ x) = Some (if Nat.eqb j (ravel ib x) then one else zero))).
    { induction 1 as [|[i ib] a ins as_ [Dv _] F IH].
      - exists []. split; [reflexivity|]. split; [reflexivity|]. split; [intros s []|intros i ib []].
      - destruct IH as (S & E & K & A & B). cbn [combine mapM fst snd]. rewrite Dv. destruct (identity_seed_ok zero one ib C d) as (w & -> & Kw & Sw & Ww & Dw & Hw & Ew). cbn [bind]. rewrite E. cbn [bind].
        exists ((i, [(i, w)]) :: S). split; [reflexivity|]. split; [cbn; f_equal; exact K|]. split.
        + intros s [<-|Is]; [exists ib, w; cbn; repeat split; auto|]. destruct (A s Is) as (ib' & w' & Q & Q' & Q2). exists ib', w'. split; [exact Q|]. split; [right; exact Q'|exact Q2].
        + intros i' ib' [X|X]; [injection X as <- <-; exists w; split; [left; reflexivity|]; repeat split; assumption|]. destruct (B i' ib' X) as (w' & Q & Q2). exists w'. split; [right; exact Q|exact Q2]. }
    destruct (G _ _ args_on) as (S & E & K & A & B). exists S. split; [exact E|]. split.
    - split; [exact (eq_ind_r (fun x => NoDup x) in_names K)|]. intros s Is. destruct (A s Is) as (ib & w & Q & Q' & Q2). exists ib, (numel ib), w. split; [exact Q|]. split; [exact (eq_ind _ (fun x => In x S) Is _ Q)|]. split; [exact Q'|exact Q2].
    - intros i ib Ii. destruct (B i ib Ii) as (w & Q & Q1 & Q2 & Q3 & Q4 & Q5 & Q6). exists w. split; [|exact Q6]. repeat split; assumption.
  Qed.

  Lemma identity_direction i ib w c e : index_of C e -> c < numel ib ->
    (forall j e x, j < numel ib -> index_of C e -> index_of ib x -> elem (w_data w) (j :: e ++ x) = Some (if Nat.eqb j (ravel ib x) then one else zero)) ->
    direction zero i ib w c e i c = one /\ forall v r, (v, r) <> (i, c) -> direction zero i ib w c e v r = zero.
  Proof using Type.
    intros Ie Hc E. unfold direction. split.
    - rewrite String.eqb_refl, (proj2 (Nat.ltb_lt _ _) Hc). cbn [andb]. destruct (index_at_ok ib c Hc) as [Ix Rx]. rewrite (E c e _ Hc Ie Ix), Rx, Nat.eqb_refl. reflexivity.
    - intros v r Ne. destruct (String.eqb_spec v i) as [->|]; [|reflexivity]. cbn [andb]. destruct (Nat.ltb_spec r (numel ib)) as [Hr|]; [|reflexivity].
      destruct (index_at_ok ib r Hr) as [Ix Rx]. rewrite (E c e _ Hc Ie Ix), Rx. destruct (Nat.eqb_spec c r) as [->|]; [congruence|reflexivity].
  Qed.

  Variable vals : list (tensor V).
  Variable L : list nat -> list (lin V).

  Lemma mapM_key {X Y} (f : string * X -> result Y) (Q : string * X -> Y -> Prop) l : (forall x, In x l -> exists y, f x = Ok y /\ Q x y) ->
    exists r, mapM (fun x => let* t := f x in Ok (fst x, t)) l = Ok r /\ map fst r = map fst l /\ forall x, In x l -> exists y, In (fst x, y) r /\ Q x y.
  Proof using Type.
    induction l as [|x l IH]; intros H; [exists []; split; [reflexivity|]; split; [reflexivity|]; intros y []|].
    destruct (H x (or_introl eq_refl)) as (y & E & Qy). destruct IH as (r & Er & K & B); [intros z Iz; apply H; right; exact Iz|]. cbn [mapM]. rewrite E. cbn [bind]. rewrite Er. cbn [bind].
    exists ((fst x, y) :: r). split; [reflexivity|]. split; [cbn; f_equal; exact K|]. intros z [<-|Iz]; [exists y; split; [left; reflexivity|exact Qy]|]. destruct (B z Iz) as (y' & I' & Q'). exists y'. split; [right; exact I'|exact Q'].
  Qed.

  Lemma jacobian_ok : em_outs m <> [] -> calls_at P D C -> carries m zero add mul d C 1 (values P) args vals L -> values_over m d C vals ->
    exists r J, eager_jacobian zero one m P I = Ok (r, J) /\ outputs_are m r vals /\
      (forall o ob i ib, In (o, ob) (em_outs m) -> In (i, ib) (em_ins m) -> exists t, block J o i = Some t /\ wf t /\ t_dev t = d /\ t_shape t = C ++ ob ++ ib /\
         forall e x y, index_of C e -> index_of ob x -> index_of ib y -> elem t (e ++ x ++ y) = Some (sens (L e) o i (ravel ob x) (ravel ib y))) /\
      (forall o i, block J o i <> None -> In o (map fst (em_outs m)) /\ In i (map fst (em_ins m))).
  Proof using in_names out_names R wf_in takes on_d args_are.
    intros No Hc Hn Hv. destruct identity_seeds_ok as (S & Es & Sds & Hs). destruct (Hn S Sds) as (ws & v & En & Hr & Hb).
    unfold eager_jacobian, adapter_jacobian. rewrite (typed_lifted I D args wf_in takes args_are). cbn [bind]. rewrite (call_batch_ok Hc). cbn [bind]. rewrite Es. cbn [bind]. rewrite (eval_ok P args (Some S) ws v vals En Hr). cbn [bind].
    assert (Rows : exists j, assemble_jacobian zero m v ws = Ok j /\ map fst j = map fst (em_outs m) /\
      forall o, In o (em_outs m) -> exists row, In (fst o, row) j /\ map fst row = map fst (em_ins m) /\
        forall i, In i (em_ins m) -> exists t, In (fst i, t) row /\ wf t /\ t_dev t = d /\ t_shape t = C ++ snd o ++ snd i /\
          forall e x y, index_of C e -> index_of (snd o) x -> index_of (snd i) y -> elem t (e ++ x ++ y) = Some (sens (L e) (fst o) (fst i) (ravel (snd o) x) (ravel (snd i) y))).
    { unfold assemble_jacobian. destruct Hr as (Lw & _ & Ev). 
      assert (H0 : exists o0 outs w0 ws', em_outs m = o0 :: outs /\ ws = w0 :: ws' /\ t_shape (w_data w0) = C ++ snd o0 /\ t_dev (w_data w0) = d).
      { rewrite <- Ev in Hv. unfold values_over in Hv. destruct (em_outs m) as [|o0 outs]; [contradiction|]. destruct ws as [|w0 ws']; [discriminate|]. cbn [map] in Hv. inversion Hv as [|? ? ? ? (_ & Dv & Sh)]; subst. exists o0, outs, w0, ws'. auto. }
      destruct H0 as (o0 & outs & w0 & ws' & Eo & Ew & Sh0 & Dv0). rewrite Eo, Ew, <- Eo. rewrite (batch_of_app _ _ C Sh0), Dv0.
      apply (mapM_key (fun o => mapM (fun i => let* t := pair_of zero v C d o i in Ok (fst i, t)) (em_ins m)) (fun o row => map fst row = map fst (em_ins m) /\
        forall i, In i (em_ins m) -> exists t, In (fst i, t) row /\ wf t /\ t_dev t = d /\ t_shape t = C ++ snd o ++ snd i /\
          forall e x y, index_of C e -> index_of (snd o) x -> index_of (snd i) y -> elem t (e ++ x ++ y) = Some (sens (L e) (fst o) (fst i) (ravel (snd o) x) (ravel (snd i) y)))).
      intros [o ob] Io. apply (mapM_key (fun i => pair_of zero v C d (o, ob) i) (fun i t => wf t /\ t_dev t = d /\ t_shape t = C ++ ob ++ snd i /\
          forall e x y, index_of C e -> index_of ob x -> index_of (snd i) y -> elem t (e ++ x ++ y) = Some (sens (L e) o (fst i) (ravel ob x) (ravel (snd i) y)))).
      intros [i ib] Ii. destruct (Hs i ib Ii) as (w & Sf & Ew'). destruct (Hb o ob Io) as (_ & _ & Hbi). specialize (Hbi i ib (numel ib) w Sf). unfold pair_of. cbn [fst snd].
      destruct (lookup i (contributions v o)) as [b|].
      - destruct Hbi as (Wb & Db & Sb & Eb). destruct (per_pair_ok ib b (C ++ ob) Wb Sb) as (t & Et & Wt & Dt & St & Ee). exists t. split; [exact Et|]. split; [exact Wt|]. split; [congruence|]. split; [rewrite St, <- app_assoc; reflexivity|].
        intros e x y Ie Ix Iy. rewrite app_assoc, Ee by (try apply index_app; assumption). pose proof (ravel_lt _ _ Iy) as Hy. rewrite (Eb _ e x Hy Ie Ix). f_equal.
        destruct (identity_direction i ib w (ravel ib y) e Ie Hy Ew') as [U1 U0]. exact (push_unit _ _ _ _ _ _ U1 U0).
      - eexists. split; [reflexivity|]. split; [apply zeros_wf|]. split; [reflexivity|]. split; [reflexivity|]. intros e x y Ie Ix Iy. rewrite zeros_elem by (repeat apply index_app; assumption). f_equal.
        pose proof (ravel_lt _ _ Iy) as Hy. destruct (identity_direction i ib w (ravel ib y) e Ie Hy Ew') as [U1 U0].
        exact (eq_trans (eq_sym (Hbi _ e x Hy Ie Ix)) (push_unit _ _ _ _ _ _ U1 U0)). }
    destruct Rows as (j & Ej & Kj & Rj). rewrite Ej. cbn [bind guarded]. eexists. eexists. split; [reflexivity|]. split; [exact (unwrap_are ws vals Hr)|].
    set (jj := map (fun x : string * smap (tensor V) => (fst x, cast_map (snd x))) j).
    assert (Kjj : map fst jj = map fst (em_outs m)) by (unfold jj; rewrite map_map; exact Kj).
    destruct (cast_map_ok jj) as (_ & Kc & Ec). rewrite Kjj in Kc, Ec. specialize (Ec out_names).
    assert (Row : forall o row, In (o, row) j -> lookup o (cast_map jj) = Some (cast_map row)) by (intros o row Ir; apply Ec; unfold jj; apply in_map_iff; exists (o, row); auto).
    split.
    - intros o ob i ib Io Ii. destruct (Rj (o, ob) Io) as (row & Ir & Kr & Hrow). destruct (Hrow (i, ib) Ii) as (t & It & Ht). cbn [fst snd] in *. exists t. split; [|exact Ht].
      destruct (cast_map_ok row) as (_ & _ & E). rewrite Kr in E. exact (eq_trans (block_row _ _ i _ (Row o row Ir)) (E in_names i t It)).
    - intros o i Hbk. destruct (block_inv _ _ _ Hbk) as (row' & Lo & Hi).
      assert (Io : In o (map fst (em_outs m))) by (apply Kc; intros X; pose proof (eq_trans (eq_sym X) Lo); discriminate). split; [exact Io|]. apply in_map_iff in Io as ([o' ob] & <- & Io). cbn [fst] in *.
      destruct (Rj (o', ob) Io) as (row & Ir & Kr & _). cbn [fst] in Ir. pose proof (eq_trans (eq_sym (Row o' row Ir)) Lo) as Q. injection Q as <-. rewrite <- Kr. apply cast_map_keys. exact Hi.
  Qed.

  (** *** jvp *)
  Lemma push_ext t1 t2 ls v r : (forall v r, t1 v r = t2 v r) -> push ls t1 v r = push ls t2 v r.
  Proof using R.
    intros H. rewrite (push_linear zero one add mul sub opp R one t2 (fun _ _ => zero) t1) by (intros; rewrite H; ring). rewrite (push_zero (fun _ _ => zero)) by reflexivity. ring.
  Qed.

  Variable T : vmap.
  Hypothesis tangents : forall i t, In i (em_ins m) -> lookup (fst i) T = Some t -> tangent_ok d D (plain i) t.
  Hypothesis some_input : em_ins m <> [].

  Lemma model_on_d : on_device (em_dev m) d.
  Proof using takes on_d some_input args_are.
    clear tangents in_names. destruct (em_ins m) as [|i0 ins] eqn:Ei; [contradiction|]. destruct takes as [_ H]. unfold lifted in args_are. rewrite Ei in args_are. inversion args_are as [|? ? ? ? (_ & _ & _ & t & L0 & _)]; subst.
    assert (I0 : In i0 (em_ins m)) by (rewrite Ei; left; reflexivity). rewrite <- (on_d i0 t (or_introl eq_refl) L0). exact (H i0 t I0 L0).
  Qed.

  Lemma tangent_seeds_ok : exists S, tangent_seeds m D (em_ins m) T = Ok S /\ NoDup (keys S) /\
    (forall s, In s S -> exists ib w t lead, s = (fst s, [(fst s, w)]) /\ seed_for m d D 0 (fst s) ib 1 w S /\ lookup (fst s) T = Some t /\ t_shape t = lead ++ ib /\ broadcastable lead D /\ wf t /\
       forall e x, index_of D e -> index_of ib x -> elem (w_data w) (0 :: e ++ x) = elem t (pull lead e ++ x)) /\
    (forall i ib t, In (i, ib) (em_ins m) -> lookup i T = Some t -> In i (keys S)).
  Proof using in_names takes on_d tangents some_input args_are L.
    pose proof model_on_d as Hd.
    assert (G : forall ins, incl ins (em_ins m) -> NoDup (map fst ins) -> exists S, tangent_seeds m D ins T = Ok S /\ NoDup (keys S) /\ incl (keys S) (map fst ins) /\
      (forall s, In s S -> exists ib w t lead, s = (fst s, [(fst s, w)]) /\ (In (fst s, [(fst s, w)]) S /\ In (fst s, ib) ins /\ w_k w = 0 /\ w_sub w = 0 /\ wf (w_data w) /\ t_dev (w_data w) = d /\ t_shape (w_data w) = 1 :: D ++ ib) /\ lookup (fst s) T = Some t /\ t_shape t = lead ++ ib /\ broadcastable lead D /\ wf t /\
         forall e x, index_of D e -> index_of ib x -> elem (w_data w) (0 :: e ++ x) = elem t (pull lead e ++ x)) /\
      (forall i ib t, In (i, ib) ins -> lookup i T = Some t -> In i (keys S))).
    { induction ins as [|[i ib] ins IH]; intros Hi Nd.
      - exists []. split; [reflexivity|]. split; [constructor|]. split; [intros x []|]. split; [intros s []|intros i ib t []].
      - cbn [map fst] in Nd. apply NoDup_cons_iff in Nd as [Ni Nd]. destruct IH as (S & E & N & K & A & B); [intros x Hx; apply Hi; right; exact Hx|exact Nd|].
        cbn [tangent_seeds fst snd]. destruct (lookup i T) as [t|] eqn:Lt.
        + destruct (tangents (i, ib) t (Hi _ (or_introl eq_refl)) Lt) as (Wt & Dt & lead & Sh & Bc). cbn [plain in_base] in Sh. cbn [snd] in Sh.
          unfold check_tensor. rewrite Dt, (proj2 (same_device_iff d (em_dev m)) Hd). cbn [bind]. rewrite (proj2 (canonical_iff ib t)) by eauto. cbn [bind].
          destruct (expand_lead t lead ib D Wt Sh Bc) as (u & -> & Wu & Du & Su & Eu). cbn [bind]. rewrite E. cbn [bind].
          set (w := mkW (mkT (1 :: t_shape u) (t_data u) (t_dev u)) 0 0). exists ((i, [(i, w)]) :: S). split; [reflexivity|].
          split; [cbn [keys map fst]; constructor; [intros X; apply Ni, K, X|exact N]|]. split; [intros x [<-|X]; [left; reflexivity|right; apply K; exact X]|]. split.
          * intros s [<-|Is].
            { exists ib, w, t, lead. cbn [fst]. split; [reflexivity|]. split.
              - split; [left; reflexivity|]. split; [left; reflexivity|]. split; [reflexivity|]. split; [reflexivity|]. split; [unfold wf, w; cbn [w_data t_data t_shape]; rewrite numel_cons; unfold wf in Wu; lia|]. split; [cbn; congruence|]. cbn. rewrite Su. reflexivity.
              - split; [exact Lt|]. split; [exact Sh|]. split; [exact Bc|]. split; [exact Wt|]. intros e x Ie Ix. rewrite <- (Eu e x Ie Ix). unfold elem, w. cbn [w_data t_data t_shape ravel]. reflexivity. }
            { destruct (A s Is) as (ib' & w' & t' & lead' & Q1 & (Q2 & Q3 & Q4) & Q5). exists ib', w', t', lead'. split; [exact Q1|]. split; [split; [right; exact Q2|]; split; [right; exact Q3|exact Q4]|exact Q5]. }
          * intros i' ib' t' [X|X] L'; [injection X as <- <-; left; reflexivity|right; exact (B i' ib' t' X L')].
        + exists S. split; [exact E|]. split; [exact N|]. split; [intros x X; right; apply K; exact X|]. split.
          * intros s Is. destruct (A s Is) as (ib' & w' & t' & lead' & Q1 & (Q2 & Q3 & Q4) & Q5). exists ib', w', t', lead'. split; [exact Q1|]. split; [split; [exact Q2|]; split; [right; exact Q3|exact Q4]|exact Q5].
          * intros i' ib' t' [X|X] L'; [injection X as <- <-; congruence|exact (B i' ib' t' X L')]. }
    destruct (G (em_ins m) (incl_refl _) in_names) as (S & E & N & _ & A & B). exists S. split; [exact E|]. split; [exact N|]. split; [|exact B]. exact A.
  Qed.

  Lemma find_in i ib : In (i, ib) (em_ins m) -> find (fun x => String.eqb (fst x) i) (em_ins m) = Some (i, ib).
  Proof using in_names.
    revert in_names. generalize (em_ins m). induction l as [|[j jb] l IH]; intros N H; [destruct H|]. cbn [map fst] in N. apply NoDup_cons_iff in N as [Nj N]. cbn [find fst].
    destruct H as [E|H]; [injection E as -> ->; rewrite String.eqb_refl; reflexivity|]. destruct (String.eqb_spec j i) as [->|_]; [|exact (IH N H)]. exfalso. apply Nj. exact (in_map fst _ _ H).
  Qed.
  Lemma tangent_given i ib t lead e r : In (i, ib) (em_ins m) -> lookup i T = Some t -> wf t -> t_shape t = lead ++ ib -> broadcastable lead D -> index_of D e ->
    tangent m zero T e i r = if Nat.ltb r (numel ib) then match elem t (pull lead e ++ index_at ib r) with Some x => x | None => zero end else zero.
  Proof using in_names.
    intros Ii L' W Sh B Ie. unfold tangent. rewrite (find_in i ib Ii). unfold tangent_at. cbn [plain in_name in_base fst snd]. rewrite L'.
    change (firstn (dim t - length ib) (t_shape t)) with (batch_of ib t). rewrite (batch_of_app _ _ lead Sh).
    assert (El : forall x, x < numel ib -> elem t (pull lead e ++ index_at ib x) <> None).
    { intros x Hx. destruct (index_at_ok ib x Hx) as [Ix _]. destruct (elem_some t (pull lead e ++ index_at ib x) W) as [y ->]; [|discriminate]. rewrite Sh. apply index_app; [exact (pull_index lead D e B Ie)|exact Ix]. }
    destruct (Nat.ltb_spec r (numel ib)) as [Hr|Hr].
    - pose proof (picks_nth t (fun c => pull lead e ++ index_at ib c) (numel ib) r El Hr) as Q. rewrite <- Q. destruct (nth_error (picks t (map (fun c => pull lead e ++ index_at ib c) (seq 0 (numel ib)))) r) as [y|] eqn:E.
      + exact (nth_error_nth _ _ _ E).
      + exfalso. exact (El r Hr (eq_sym Q)).
    - apply nth_overflow. rewrite (picks_length t (fun c => pull lead e ++ index_at ib c) (numel ib) El). exact Hr.
  Qed.
  Lemma tangent_none v e r : (forall ib, In (v, ib) (em_ins m) -> lookup v T = None) -> tangent m zero T e v r = zero.
  Proof using Type.
    intros H. unfold tangent. destruct (find (fun i => String.eqb (fst i) v) (em_ins m)) as [[i ib]|] eqn:F; [|reflexivity]. apply find_some in F as [Ii E]. apply String.eqb_eq in E. cbn [fst] in E. subst v.
    unfold tangent_at. cbn [plain in_name in_base fst snd]. rewrite (H ib Ii). clear. revert r. induction (numel ib) as [|n IH]; intros [|r]; cbn; auto.
  Qed.

  Definition one_of (e : list nat) (i v : string) (r : nat) : V := if String.eqb v i then tangent m zero T e v r else zero.

  Lemma jvp_ok_ : carries m zero add mul d D 0 (values P) args vals L -> values_over m d D vals ->
    exists r t, eager_jvp zero add m P I T = Ok (r, t) /\ outputs_are m r vals /\
      (forall n, lookup n t <> None <-> In n (map fst (em_outs m))) /\
      forall o ob, In (o, ob) (em_outs m) -> exists u, lookup o t = Some u /\ wf u /\ t_dev u = d /\ t_shape u = D ++ ob /\
        forall e x, index_of D e -> index_of ob x -> elem u (e ++ x) = Some (push (L e) (tangent m zero T e) o (ravel ob x)).
  Proof using in_names out_names R wf_in takes on_d args_are tangents some_input.
    intros Hn Hv. destruct tangent_seeds_ok as (S & Es & Ns & Hs & Hk).
    assert (Sds : seeds_of m d D 0 S). { split; [exact Ns|]. intros s Is. destruct (Hs s Is) as (ib & w & t & lead & Q1 & Q2 & _). exists ib, 1, w. split; [exact Q1|exact Q2]. }
    destruct (Hn S Sds) as (ws & v & En & Hr & Hb).
    assert (Sum : forall e, index_of D e -> forall v r, tangent m zero T e v r = sum (map (fun i => one_of e i v r) (keys S))).
    { intros e Ie v0 r0. destruct (in_dec String.string_dec v0 (keys S)) as [Iv|Nv].
      - rewrite (sum_one zero one add mul sub opp R String.string_dec (fun i => one_of e i v0 r0) (keys S) v0 Ns Iv); [unfold one_of; rewrite String.eqb_refl; reflexivity|].
        intros y _ Ny. unfold one_of. destruct (String.eqb_spec v0 y); [congruence|reflexivity].
      - rewrite (sum_zero zero one add mul sub opp R); [|intros y Iy; unfold one_of; destruct (String.eqb_spec v0 y) as [->|]; [contradiction|reflexivity]].
        apply tangent_none. intros ib Ii. destruct (lookup v0 T) eqn:Lt; [|reflexivity]. exfalso. exact (Nv (Hk v0 ib t Ii Lt)). }
    assert (Tot : forall e o r, index_of D e -> push (L e) (tangent m zero T e) o r = sum (map (fun i => push (L e) (one_of e i) o r) (keys S))).
    { intros e o r Ie. apply push_sum. exact (Sum e Ie). }
    assert (Dir : forall i, In i (keys S) -> exists ib w, seed_for m d D 0 i ib 1 w S /\ forall e, index_of D e -> forall v r, direction zero i ib w 0 e v r = one_of e i v r).
    { intros i Ii. apply in_map_iff in Ii as (s & <- & Is). destruct (Hs s Is) as (ib & w & t & lead & Q1 & Q2 & Lt & Sh & Bc & Wt & Ew). exists ib, w. split; [exact Q2|]. intros e Ie v0 r0. unfold direction, one_of.
      destruct (String.eqb_spec v0 (fst s)) as [->|]; [|reflexivity]. cbn [andb]. assert (Ii : In (fst s, ib) (em_ins m)) by apply Q2. rewrite (tangent_given (fst s) ib t lead e r0 Ii Lt Wt Sh Bc Ie).
      destruct (Nat.ltb_spec r0 (numel ib)) as [Hr0|]; [|reflexivity]. rewrite (Ew e (index_at ib r0) Ie (proj1 (index_at_ok ib r0 Hr0))). reflexivity. }
    unfold eager_jvp, adapter_jvp. rewrite (typed_lifted I D args wf_in takes args_are). cbn [bind].
    assert (H0 : exists i0 ins a0 as_, em_ins m = i0 :: ins /\ args = a0 :: as_ /\ batch_of (snd i0) (w_data a0) = D).
    { pose proof args_on as F. destruct (em_ins m) as [|i0 ins]; [contradiction|]. inversion F as [|? a0 ? as_ [_ Sh] F']; subst. exists i0, ins, a0, as_. split; [reflexivity|]. split; [reflexivity|]. exact (batch_of_app _ _ D Sh). }
    destruct H0 as (i0 & ins & a0 & as_ & Ei & Ea & Eb). rewrite Ei, Ea. rewrite Eb, <- Ei, <- Ea, Es. cbn [bind]. rewrite (eval_ok P args (Some S) ws v vals En Hr). cbn [bind].
    pose proof Hr as (Lw & _ & Evals). set (Q := fun (o : string * list nat) u => wf u /\ t_dev u = d /\ t_shape u = D ++ snd o /\
        forall e x, index_of D e -> index_of (snd o) x -> elem u (e ++ x) = Some (push (L e) (tangent m zero T e) (fst o) (ravel (snd o) x))).
    assert (One : forall o ob w, In (o, ob) (em_outs m) -> t_dev (w_data w) = d -> t_shape (w_data w) = D ++ ob -> exists u, assemble_jvp1 zero add v o w = Ok u /\ Q (o, ob) u).
    { intros o ob w Io Dw Sw. destruct (Hb o ob Io) as (Nc & Ic & Hc). unfold assemble_jvp1.
      assert (Bl : forall ib, In ib (contributions v o) -> wf (squeeze0 (w_data (snd ib))) /\ t_dev (squeeze0 (w_data (snd ib))) = d /\ t_shape (squeeze0 (w_data (snd ib))) = D ++ ob /\
        forall e x, index_of D e -> index_of ob x -> elem (squeeze0 (w_data (snd ib))) (e ++ x) = Some (push (L e) (one_of e (fst ib)) o (ravel ob x))).
      { intros [i b] Ib. cbn [fst snd]. destruct (Dir i) as (ib & w' & Sf & Hd); [apply Ic; exact (in_map fst _ _ Ib)|]. specialize (Hc i ib 1 w' Sf). rewrite (lookup_nodup _ _ _ Nc Ib) in Hc. destruct Hc as (Wb & Db & Sb & Eb').
        destruct (squeeze0_ok (w_data b) (D ++ ob) Wb Sb) as (W1 & D1 & S1 & E1). split; [exact W1|]. split; [congruence|]. split; [exact S1|]. intros e x Ie Ix. rewrite E1, (Eb' 0 e x ltac:(lia) Ie Ix). f_equal. apply push_ext. exact (Hd e Ie). }
      assert (Fin : forall e x, index_of D e -> index_of ob x -> push (L e) (tangent m zero T e) o (ravel ob x) = sum (map (fun i => push (L e) (one_of e i) o (ravel ob x)) (keys (contributions v o)))).
      { intros e x Ie Ix. rewrite (Tot e o _ Ie). symmetry. apply (sum_subset _ (keys (contributions v o)) (keys S) Nc Ns Ic). intros i Ii Ni. destruct (Dir i Ii) as (ib & w' & Sf & Hd). specialize (Hc i ib 1 w' Sf).
        destruct (lookup i (contributions v o)) eqn:Li; [exfalso; apply Ni; exact (in_map fst _ _ (lookup_in _ _ _ Li))|]. refine (eq_trans _ (Hc 0 e x ltac:(lia) Ie Ix)). apply push_ext. intros v0 r0. symmetry. exact (Hd e Ie v0 r0). }
      destruct (contributions v o) as [|[i b] rest] eqn:Ec.
      - eexists. split; [reflexivity|]. unfold Q. cbn [fst snd]. split; [apply zeros_wf|]. split; [exact Dw|]. split; [exact Sw|]. intros e x Ie Ix. rewrite Sw, zeros_elem by (apply index_app; assumption). f_equal. symmetry. exact (Fin e x Ie Ix).
      - cbn [map snd]. destruct (Bl (i, b) (or_introl eq_refl)) as (W1 & D1 & S1 & E1). cbn [fst snd] in *.
        destruct (sum_blocks_ok add (D ++ ob) d (map (fun b => squeeze0 (w_data (snd b))) rest) (squeeze0 (w_data b)) W1 D1 S1) as (u & Eu & Wu & Du & Su & Eu').
        { apply Forall_forall. intros t It. apply in_map_iff in It as (ib & <- & Iib). destruct (Bl ib (or_intror Iib)) as (A1 & A2 & A3 & _). auto. }
        exists u. split; [exact Eu|]. split; [exact Wu|]. split; [exact Du|]. split; [exact Su|]. cbn [fst snd]. intros e x Ie Ix. rewrite (Fin e x Ie Ix).
        rewrite (Eu' (e ++ x) (push (L e) (one_of e i) o (ravel ob x)) (map (fun k => push (L e) (one_of e k) o (ravel ob x)) (keys rest))).
        + rewrite sums_fold. reflexivity.
        + exact (E1 e x Ie Ix).
        + clear - Bl Ie Ix. assert (G : forall l, incl l rest -> Forall2 (fun (t : tensor V) y => elem t (e ++ x) = Some y) (map (fun b => squeeze0 (w_data (snd b))) l) (map (fun k => push (L e) (one_of e k) o (ravel ob x)) (keys l))).
          { induction l as [|ib l IH]; intros Hl; [constructor|]. cbn [map keys]. constructor; [|apply IH; intros y Hy; apply Hl; right; exact Hy]. exact (proj2 (proj2 (proj2 (Bl ib (or_intror (Hl ib (or_introl eq_refl)))))) e x Ie Ix). }
          exact (G rest (incl_refl _)). }
    assert (Asm : exists j, assemble_jvp zero add m v ws = Ok j /\ map fst j = map fst (em_outs m) /\ forall o, In o (em_outs m) -> exists u, In (fst o, u) j /\ Q o u).
    { unfold assemble_jvp. assert (Hv' : Forall2 (fun o w => t_dev (w_data w) = d /\ t_shape (w_data w) = D ++ snd o) (em_outs m) ws).
      { unfold values_over in Hv. rewrite <- Evals in Hv. clear - Hv. revert ws Hv. generalize (em_outs m). induction l as [|o l IH]; intros ws H; destruct ws as [|w ws]; inversion H as [|? ? ? ? (_ & Dw & Sw) F]; subst; [constructor|]. constructor; [auto|]. exact (IH ws F). }
      clear - One Hv'. assert (G : forall outs ws, incl outs (em_outs m) -> Forall2 (fun o (w : wrapper V) => t_dev (w_data w) = d /\ t_shape (w_data w) = D ++ snd o) outs ws ->
        exists j, mapM (fun x => let* t := assemble_jvp1 zero add v (fst x) (snd x) in Ok (fst x, t)) (combine (map fst outs) ws) = Ok j /\ map fst j = map fst outs /\ forall o, In o outs -> exists u, In (fst o, u) j /\ Q o u).
      { induction outs as [|[o ob] outs IH]; intros ws0 Hi F; inversion F as [|? w ? ws1 [Dw Sw] F']; subst; [exists []; split; [reflexivity|]; split; [reflexivity|]; intros o []|].
        destruct (IH ws1) as (j & Ej & Kj & Hj); [intros x Hx; apply Hi; right; exact Hx|exact F'|]. destruct (One o ob w (Hi _ (or_introl eq_refl)) eq_refl Sw) as (u & Eu & Qu).
        cbn [map combine mapM fst snd]. rewrite Eu. cbn [bind]. rewrite Ej. cbn [bind]. exists ((o, u) :: j). split; [reflexivity|]. split; [cbn; f_equal; exact Kj|].
        intros x [<-|Ix]; [exists u; split; [left; reflexivity|exact Qu]|]. destruct (Hj x Ix) as (u' & Iu & Qu'). exists u'. split; [right; exact Iu|exact Qu']. }
      exact (G (em_outs m) ws (incl_refl _) Hv'). }
    destruct Asm as (j & Ej & Kj & Hj). rewrite Ej. cbn [bind guarded]. eexists. eexists. split; [reflexivity|]. split; [exact (unwrap_are ws vals Hr)|].
    destruct (cast_map_ok j) as (_ & Kc & Ec). rewrite Kj in Kc, Ec. split; [exact Kc|]. intros o ob Io. destruct (Hj (o, ob) Io) as (u & Iu & Qu). exists u. split; [exact (Ec out_names o u Iu)|exact Qu].
  Qed.
End Calls.
