(** Proofs about the life of a dispatcher. *)
From Verif Require Import Base Tensor TensorProofs Shared Pool SpecPool PoolProofs PoolLife SpecPoolLife.

Section Lemmas.
  Context {T : Type}.
  Variable before : device -> device -> bool.

  Lemma in_place d l : forall x, In x (place before d l) <-> x = d \/ In x l.
  Proof.
    induction l as [|y l IH]; intros x; cbn.
    - split; [intros [<-|[]]; auto|intros [->|[]]; auto].
    - destruct (before d y); cbn; [|rewrite IH]; split; intros H; repeat destruct H as [H|H]; subst; auto.
  Qed.
  Lemma nodup_place d l : NoDup l -> ~ In d l -> NoDup (place before d l).
  Proof.
    induction l as [|y l IH]; intros N H; cbn; [repeat constructor; intros []|].
    destruct (before d y); [constructor; assumption|]. apply NoDup_cons_iff in N. destruct N as [N1 N2].
    constructor; [|apply IH; [assumption|intros G; apply H; right; exact G]]. rewrite in_place. intros [->|G]; [apply H; left; reflexivity|exact (N1 G)].
  Qed.
  Lemma existsb_dev d l : existsb (device_eqb d) l = true <-> In d l.
  Proof. rewrite existsb_exists. split; [intros (x & I & E); apply device_eqb_eq in E; subst; exact I|intros I; exists d; split; [exact I|apply device_eqb_refl]]. Qed.
  Lemma in_emplace d l x : In x (emplace before d l) <-> x = d \/ In x l.
  Proof.
    unfold emplace. destruct (existsb (device_eqb d) l) eqn:E; [|apply in_place]. apply existsb_dev in E. split; [auto|intros [->|H]; assumption].
  Qed.
  Lemma nodup_emplace d l : NoDup l -> NoDup (emplace before d l).
  Proof.
    intros N. unfold emplace. destruct (existsb (device_eqb d) l) eqn:E; [exact N|]. apply nodup_place; [exact N|]. intros I. apply existsb_dev in I. congruence.
  Qed.

  Lemma keys_set_queue d (q : list T) Q : map fst (set_queue d q Q) = map fst Q.
  Proof. induction Q as [|[x p] Q IH]; cbn; [reflexivity|]. destruct (device_eqb x d); cbn; [reflexivity|]. rewrite IH. reflexivity. Qed.
  Lemma queue_at_nth (Q : list (device * list T)) : forall i d q, NoDup (map fst Q) -> nth_error Q i = Some (d, q) -> queue_at d Q = Some q.
  Proof.
    induction Q as [|[x p] Q IH]; intros [|i] d q N H; cbn in *; try discriminate.
    - injection H as -> ->. rewrite device_eqb_refl. reflexivity.
    - apply NoDup_cons_iff in N. destruct N as [N1 N2]. destruct (device_eqb x d) eqn:E; [|exact (IH i d q N2 H)].
      apply device_eqb_eq in E. subst x. destruct N1. apply nth_error_In in H. apply (in_map fst) in H. exact H.
  Qed.
  Lemma set_queue_nth (Q : list (device * list T)) : forall i d q q', NoDup (map fst Q) -> nth_error Q i = Some (d, q) -> set_queue d q' Q = set_nth i (d, q') Q.
  Proof.
    induction Q as [|[x p] Q IH]; intros [|i] d q q' N H; cbn in *; try discriminate.
    - injection H as -> ->. rewrite device_eqb_refl. reflexivity.
    - apply NoDup_cons_iff in N. destruct N as [N1 N2]. destruct (device_eqb x d) eqn:E; [|rewrite (IH i d q q' N2 H); reflexivity].
      apply device_eqb_eq in E. subst x. destruct N1. apply nth_error_In in H. apply (in_map fst) in H. exact H.
  Qed.
  Lemma queue_at_none (Q : list (device * list T)) d : queue_at d Q = None -> ~ In d (map fst Q).
  Proof. induction Q as [|[x p] Q IH]; cbn; intros H; [intros []|]. destruct (device_eqb x d) eqn:E; [discriminate|]. intros [->|G]; [rewrite device_eqb_refl in E; discriminate|exact (IH H G)]. Qed.

  (** The workers [Pool] sees: a thread not made yet is one that has not moved. *)
  Fixpoint seen (Q : list (device * list T)) (th : list (device * pool_pc T)) : list (pworker T) :=
    match Q, th with
    | (d, q) :: Q', (_, pc) :: th' => mkPW d pc q :: seen Q' th'
    | (d, q) :: Q', [] => mkPW d PIdle q :: seen Q' []
    | [], _ => []
    end.
  Definition owner_of (p : life_pc) : owner_pc := match p with Own o => o | _ => OFree end.
  Definition pool_of (s : life T) : pstate T := mkPS (l_stop s) (seen (l_queues s) (l_threads s)) (owner_of (l_pc s)).

  Lemma seen_nth Q : forall th rest i d pc, map fst th ++ rest = map fst Q -> nth_error th i = Some (d, pc) ->
    exists q, nth_error Q i = Some (d, q) /\ nth_error (seen Q th) i = Some (mkPW d pc q).
  Proof.
    induction Q as [|[x q] Q IH]; intros [|[y pc'] th] rest [|i] d pc E H; cbn in *; try discriminate.
    - injection H as -> ->. injection E as -> _. exists q. split; reflexivity.
    - injection E as _ E. exact (IH th rest i d pc E H).
  Qed.
  Lemma seen_set Q : forall th rest i d pc pc' q, map fst th ++ rest = map fst Q -> nth_error th i = Some (d, pc) -> nth_error Q i = Some (d, q) ->
    seen Q (set_nth i (d, pc') th) = set_nth i (mkPW d pc' q) (seen Q th).
  Proof.
    induction Q as [|[x p] Q IH]; intros [|[y pc0] th] rest [|i] d pc pc' q E H G; cbn in *; try discriminate.
    - injection G as -> ->. reflexivity.
    - injection E as _ E. rewrite (IH th rest i d pc pc' q E H G). reflexivity.
  Qed.
  Lemma seen_set2 Q : forall th rest i d pc pc' q q', map fst th ++ rest = map fst Q -> nth_error th i = Some (d, pc) -> nth_error Q i = Some (d, q) ->
    seen (set_nth i (d, q') Q) (set_nth i (d, pc') th) = set_nth i (mkPW d pc' q') (seen Q th).
  Proof.
    induction Q as [|[x p] Q IH]; intros [|[y pc0] th] rest [|i] d pc pc' q q' E H G; cbn in *; try discriminate.
    - reflexivity.
    - injection E as _ E. rewrite (IH th rest i d pc pc' q q' E H G). reflexivity.
  Qed.
  Lemma seen_wake Q : forall th, map pwake (seen Q th) = seen Q (map wake th).
  Proof.
    induction Q as [|[x p] Q IH]; intros [|[y pc] th]; cbn; try reflexivity.
    - f_equal. exact (IH []).
    - rewrite IH. destruct pc; reflexivity.
  Qed.
  Lemma seen_push Q : forall th d t q, queue_at d Q = Some q -> ppush d t (seen Q th) = Some (seen (set_queue d (q ++ [t]) Q) th).
  Proof.
    induction Q as [|[x p] Q IH]; intros th d t q H; cbn in *; [discriminate|].
    destruct th as [|[y pc] th]; cbn; destruct (device_eqb x d); try (injection H as ->; reflexivity); rewrite (IH _ d t q H); reflexivity.
  Qed.
  Lemma seen_push_none Q : forall th d t, queue_at d Q = None -> ppush d t (seen Q th) = None.
  Proof.
    induction Q as [|[x p] Q IH]; intros th d t H; cbn in *; [reflexivity|].
    destruct th as [|[y pc] th]; cbn; destruct (device_eqb x d); try discriminate; rewrite (IH _ d t H); reflexivity.
  Qed.
  Lemma seen_init Q : Forall (fun x => snd x = []) Q -> seen Q [] = map (fun d => mkPW d PIdle []) (map fst Q).
  Proof. induction 1 as [|[x p] Q E F IH]; cbn in *; [reflexivity|]. rewrite IH, E. reflexivity. Qed.
  Lemma seen_spawn Q : forall th d rest, map fst th ++ d :: rest = map fst Q -> seen Q (th ++ [(d, PIdle)]) = seen Q th.
  Proof.
    induction Q as [|[x p] Q IH]; intros [|[y pc] th] d rest E; cbn in *; try discriminate; [reflexivity|].
    injection E as _ E. rewrite (IH th d rest E). reflexivity.
  Qed.
  Lemma seen_length Q : forall th, length (seen Q th) = length Q.
  Proof. induction Q as [|[x p] Q IH]; intros [|[y pc] th]; cbn; try reflexivity; rewrite IH; reflexivity. Qed.
  Lemma map_fst_set_nth (th : list (device * pool_pc T)) : forall i d pc pc', nth_error th i = Some (d, pc) -> map fst (set_nth i (d, pc') th) = map fst th.
  Proof. induction th as [|[x p] th IH]; intros [|i] d pc pc' H; cbn in *; try discriminate; [injection H as -> _; reflexivity|]. rewrite (IH i d pc pc' H). reflexivity. Qed.
  Lemma map_fst_wake (th : list (device * pool_pc T)) : map fst (map wake th) = map fst th.
  Proof. rewrite map_map. apply map_ext. intros [x []]; reflexivity. Qed.
End Lemmas.

Section Run.
  Context {T : Type}.
  Variable before : device -> device -> bool.
  Variable async : bool.
  Variable devs : list device.

  (** Threads whose creation has been asked for, in order, and those to come. *)
  Definition aligned (s : life T) (rest : list device) : Prop := map fst (l_threads s) ++ rest = map fst (l_queues s).
  Definition every (l : list device) : Prop := NoDup l /\ forall x, In x l <-> In x devs.

  Definition inv (s : life T) (ls : list (llabel T)) : Prop :=
    match l_pc s with
    | BModels todo => l_queues s = [] /\ l_threads s = [] /\ l_stop s = false /\ NoDup (l_models s) /\ (forall x, In x (l_models s) \/ In x todo <-> In x devs) /\ in_pool ls = []
    | BQueues todo => every (l_models s) /\ l_threads s = [] /\ l_stop s = false /\ map fst (l_queues s) ++ todo = l_models s /\ Forall (fun x => snd x = []) (l_queues s) /\ in_pool ls = [] /\ async = true
    | BQueue d todo => every (l_models s) /\ l_threads s = [] /\ l_stop s = false /\ map fst (l_queues s) ++ d :: todo = l_models s /\ Forall (fun x => snd x = []) (l_queues s) /\ in_pool ls = [] /\ async = true
    | BLinalg => every (l_models s) /\ l_threads s = [] /\ l_stop s = false /\ map fst (l_queues s) = l_models s /\ Forall (fun x => snd x = []) (l_queues s) /\ in_pool ls = [] /\ async = true
    | BSpawn todo => every (l_models s) /\ map fst (l_queues s) = l_models s /\ aligned s todo /\ async = true /\ pexec (pinit (map fst (l_queues s))) (in_pool ls) (pool_of s)
    | Own o => every (l_models s) /\ map fst (l_queues s) = (if async then l_models s else []) /\ aligned s [] /\ pexec (pinit (map fst (l_queues s))) (in_pool ls) (pool_of s)
    | Gone => l_models s = [] /\ l_queues s = [] /\ Forall (fun x => snd x = PExit) (l_threads s) /\ exists l, every l /\ map fst (l_threads s) = (if async then l else []) /\
              forall i d, nth_error (if async then l else []) i = Some d -> ran i (in_pool ls) = accepted d (in_pool ls)
    | Thrown e => l_models s = [] /\ l_queues s = [] /\ l_threads s = [] /\ raised e ls
    | Terminated => async = true /\ failing ls /\ exists a b, In a devs /\ In b devs /\ a <> b
    | Undefined => False
    end.

  Lemma in_pool_app (a b : list (llabel T)) : in_pool (a ++ b) = in_pool a ++ in_pool b.
  Proof. apply flat_map_app. Qed.
  Lemma in_pool_snoc (a : list (llabel T)) p : in_pool (a ++ [LPool p]) = in_pool a ++ [p].
  Proof. rewrite in_pool_app. reflexivity. Qed.
  Lemma in_pool_make (a : list (llabel T)) : in_pool (a ++ [LMake]) = in_pool a.
  Proof. rewrite in_pool_app. apply app_nil_r. Qed.

  Lemma inv_init : inv (linit devs) [].
  Proof. cbn. do 3 (split; [reflexivity|]). split; [constructor|]. split; [|reflexivity]. intros x. split; [intros [[]|H]; exact H|auto]. Qed.

  Lemma inv_make s ls s' : inv s ls -> make before async s = Some s' -> inv s' (ls ++ [LMake]).
  Proof.
    intros H E. unfold make in E. unfold inv in H. unfold inv. destruct (l_pc s) as [[|d r]|[|d r]|d r| |[|d r]|o| | | |] eqn:Ep; try discriminate; injection E as <-; cbn [l_pc goto l_models l_queues l_threads l_stop]; rewrite ?in_pool_make.
    - destruct H as (Q & Th & St & N & M & P).
      assert (Ev : every (l_models s)) by (split; [exact N|]; intros x; rewrite <- (M x); split; [auto|intros [G|[]]; exact G]).
      destruct async eqn:Ea; cbn [l_pc goto].
      + split; [exact Ev|]. split; [exact Th|]. split; [exact St|]. cbn [l_queues goto l_models]. rewrite Q. repeat split; [constructor|exact P].
      + unfold aligned. cbn [l_queues l_threads goto l_models]. split; [exact Ev|]. rewrite Q, Th. split; [reflexivity|]. split; [reflexivity|].
        rewrite P. unfold pool_of. cbn. rewrite Q, St. constructor.
    - destruct H as (Q & Th & St & N & M & P). split; [exact Q|]. split; [exact Th|]. split; [exact St|]. split; [apply nodup_emplace; exact N|]. split; [|exact P].
      intros x. rewrite in_emplace, <- (M x). cbn. intuition (subst; auto).
    - destruct H as (Ev & Th & St & Q & F & P & Ea). rewrite app_nil_r in Q. repeat split; try assumption; apply Ev.
    - destruct H as (Ev & Th & St & Q & F & P & Ea). repeat split; try assumption; apply Ev.
    - destruct H as (Ev & Th & St & Q & F & P & Ea). split; [exact Ev|]. split; [exact Th|]. split; [exact St|]. split; [rewrite map_app, <- app_assoc; exact Q|].
      split; [apply Forall_app; split; [exact F|repeat constructor]|]. split; [exact P|exact Ea].
    - destruct H as (Ev & Th & St & Q & F & P & Ea). unfold aligned. cbn [l_queues l_threads goto]. split; [exact Ev|]. split; [exact Q|]. rewrite Th. split; [symmetry; exact Q|]. split; [exact Ea|].
      rewrite P. unfold pool_of. cbn [l_stop l_queues l_threads l_pc goto owner_of]. rewrite Th, St, (seen_init _ F). constructor.
    - destruct H as (Ev & Q & Al & Ea & X). rewrite Ea. split; [exact Ev|]. split; [exact Q|]. split; [exact Al|].
      unfold pool_of in *. cbn [l_stop l_queues l_threads l_pc goto owner_of] in *. rewrite Ep in X. exact X.
    - destruct H as (Ev & Q & Al & Ea & X). split; [exact Ev|]. split; [exact Q|]. unfold aligned in *. cbn [l_queues l_threads] in *.
      split; [rewrite map_app, <- app_assoc; exact Al|]. split; [exact Ea|].
      unfold pool_of in *. cbn [l_stop l_queues l_threads l_pc owner_of] in *. rewrite Ep in X. rewrite (seen_spawn _ _ _ _ Al). exact X.
  Qed.

  Lemma inv_fail s ls e : inv s ls -> may_fail (l_pc s) = true -> inv (unwind s e) (ls ++ [LFail e]).
  Proof.
    intros H E. assert (R : raised e (ls ++ [LFail e])) by (apply in_or_app; right; left; reflexivity).
    unfold unwind. destruct (l_threads s) as [|[a pa] th] eqn:Th; [cbn; repeat split; exact R|].
    unfold inv in H. destruct (l_pc s) as [[|d r]|l|d r| |[|d r]|o| | | |] eqn:Ep; try discriminate E.
    - destruct H as (_ & C & _). rewrite Th in C. discriminate.
    - destruct H as (_ & C & _). rewrite Th in C. discriminate.
    - destruct H as (_ & C & _). rewrite Th in C. discriminate.
    - destruct H as ([N M] & Q & Al & Ea & _). cbn. split; [exact Ea|]. split; [exists e; exact R|].
      unfold aligned in Al. rewrite Q, Th in Al. cbn in Al. exists a, d. rewrite <- !M, <- Al. split; [left; reflexivity|].
      split; [right; apply in_or_app; right; left; reflexivity|]. rewrite <- Al in N. apply NoDup_cons_iff in N. destruct N as [N _]. intros ->. apply N, in_or_app. right. left. reflexivity.
  Qed.

  (** What the pool does, seen by [Pool]. *)
  Lemma work_pool s rest i d : aligned s rest -> NoDup (map fst (l_queues s)) -> (forall d r, l_pc s <> BQueue d r) -> nth_error (l_threads s) i = Some (d, PIdle) ->
    exists th Q, work s i d = mkL (l_models s) Q th (l_stop s) (l_pc s) /\ map fst th = map fst (l_threads s) /\ map fst Q = map fst (l_queues s) /\
      pstep (pool_of s) (PWorker i) (mkPS (l_stop s) (seen Q th) (owner_of (l_pc s))).
  Proof.
    intros Al N Nb H. destruct (seen_nth _ _ _ _ _ _ Al H) as (q & Hq & Hw). pose proof (queue_at_nth _ _ _ _ N Hq) as A.
    assert (Ew : work s i d = match q with t :: q => mkL (l_models s) (set_queue d q (l_queues s)) (set_nth i (d, PRun t) (l_threads s)) (l_stop s) (l_pc s)
                              | [] => with_threads s (set_nth i (d, if l_stop s then PExit else PSleep) (l_threads s)) end).
    { unfold work. destruct (l_pc s) eqn:Ep; try (rewrite A; destruct q; reflexivity). exfalso. exact (Nb _ _ eq_refl). }
    rewrite Ew. pose proof (ps_worker (pool_of s) i (mkPW d PIdle q) Hw eq_refl) as St. unfold pwork in St. cbn [pw_queue pw_dev pool_of p_stop p_workers p_owner] in St.
    destruct q as [|t q].
    - eexists. exists (l_queues s). split; [reflexivity|]. split; [exact (map_fst_set_nth _ _ _ _ _ H)|]. split; [reflexivity|].
      rewrite (seen_set _ _ _ _ _ _ _ _ Al H Hq). exact St.
    - eexists. eexists. split; [reflexivity|]. split; [exact (map_fst_set_nth _ _ _ _ _ H)|]. split; [apply keys_set_queue|].
      rewrite (set_queue_nth _ _ _ _ _ N Hq), (seen_set2 _ _ _ _ _ _ _ _ _ Al H Hq). exact St.
  Qed.
  Lemma thread_pool s rest i d pc l : aligned s rest -> nth_error (l_threads s) i = Some (d, pc) ->
    (l = PSpur i /\ pc = PSleep) \/ (exists t, l = PTask i t /\ pc = PRun t) ->
    map fst (set_nth i (d, PIdle) (l_threads s)) = map fst (l_threads s) /\
    pstep (pool_of s) l (mkPS (l_stop s) (seen (l_queues s) (set_nth i (d, PIdle) (l_threads s))) (owner_of (l_pc s))).
  Proof.
    intros Al H C. destruct (seen_nth _ _ _ _ _ _ Al H) as (q & Hq & Hw). split; [exact (map_fst_set_nth _ _ _ _ _ H)|].
    rewrite (seen_set _ _ _ _ _ _ PIdle _ Al H Hq). destruct C as [[-> ->]|(t & -> & ->)].
    - exact (ps_spur (pool_of s) i (mkPW d PSleep q) Hw eq_refl).
    - exact (ps_task (pool_of s) i (mkPW d (PRun t) q) t Hw eq_refl).
  Qed.

  (** A change of threads and queues that is a step of [Pool] keeps the invariant. *)
  Lemma inv_moved s ls th Q p : inv s ls -> (exists o, l_pc s = Own o) \/ (exists r, l_pc s = BSpawn r) ->
    map fst th = map fst (l_threads s) -> map fst Q = map fst (l_queues s) -> pstep (pool_of s) p (mkPS (l_stop s) (seen Q th) (owner_of (l_pc s))) ->
    inv (mkL (l_models s) Q th (l_stop s) (l_pc s)) (ls ++ [LPool p]).
  Proof.
    intros H C Et Eq St. unfold inv in *. cbn [l_pc l_models l_queues l_threads l_stop]. unfold aligned, pool_of in *. cbn [l_pc l_models l_queues l_threads l_stop].
    destruct C as [[o Ep]|[r Ep]]; rewrite Ep in *; rewrite ?Et, ?Eq, in_pool_snoc.
    - destruct H as (Ev & K & Al & X). split; [exact Ev|]. split; [exact K|]. split; [exact Al|]. exact (px_snoc _ _ _ _ _ X St).
    - destruct H as (Ev & K & Al & Ea & X). split; [exact Ev|]. split; [exact K|]. split; [exact Al|]. split; [exact Ea|]. exact (px_snoc _ _ _ _ _ X St).
  Qed.
  Lemma moving s ls i d pc : inv s ls -> alive (l_pc s) = true -> nth_error (l_threads s) i = Some (d, pc) -> pc <> PExit ->
    ((exists o, l_pc s = Own o) \/ (exists r, l_pc s = BSpawn r)) /\ (exists rest, aligned s rest) /\ NoDup (map fst (l_queues s)) /\ In d (l_models s).
  Proof.
    intros H A E Np. unfold inv in H.
    assert (K : forall l, l_threads s = [] -> l) by (intros l C; rewrite C in E; destruct i; discriminate).
    destruct (l_pc s) eqn:Ep; try discriminate A.
    - apply K, H.
    - apply K, H.
    - apply K, H.
    - apply K, H.
    - destruct H as ([N M] & Q & Al & Ea & _). split; [right; exists todo; reflexivity|]. split; [exists todo; exact Al|]. split; [rewrite Q; exact N|].
      rewrite <- Q. unfold aligned in Al. rewrite <- Al. apply in_or_app. left. apply nth_error_In in E. apply (in_map fst) in E. exact E.
    - destruct H as ([N M] & Q & Al & _). split; [left; exists o; reflexivity|]. split; [exists []; exact Al|].
      unfold aligned in Al. rewrite app_nil_r in Al. assert (I : In d (map fst (l_queues s))) by (rewrite <- Al; apply nth_error_In in E; apply (in_map fst) in E; exact E).
      rewrite Q in *. destruct async; [split; assumption|destruct I].
    - destruct H as (_ & _ & F & _). rewrite Forall_forall in F. apply nth_error_In in E. destruct (Np (F _ E)).
  Qed.

  Lemma inv_own s ls o : inv s ls -> l_pc s = Own o -> every (l_models s) /\ map fst (l_queues s) = (if async then l_models s else []) /\ aligned s [] /\ pexec (pinit (map fst (l_queues s))) (in_pool ls) (pool_of s).
  Proof. intros H E. unfold inv in H. rewrite E in H. exact H. Qed.

  Lemma inv_step s ls l s' : inv s ls -> lstep before async s l s' -> inv s' (ls ++ [l]).
  Proof.
    intros H St. destruct St as [s s' E|s e E|s d t q Ep A|s d t Ep A|s Ep|s Ep Th|s Ep Th|s Ep|s n d Ep En|s n Ep En|s Ep|s i d Al E|s i d t Al E|s i d Al E].
    - exact (inv_make s ls s' H E).
    - apply inv_fail; assumption.
    - destruct (inv_own s ls _ H Ep) as (Ev & K & Ag & X). unfold inv, aligned, pool_of in *. cbn [l_pc l_models l_queues l_threads l_stop owner_of] in *. rewrite keys_set_queue, in_pool_snoc.
      split; [exact Ev|]. split; [exact K|]. split; [exact Ag|]. rewrite Ep in X. refine (px_snoc _ _ _ _ _ X _). exact (ps_enq (mkPS _ _ OFree) d t _ eq_refl (seen_push _ _ d t q A)).
    - destruct (inv_own s ls _ H Ep) as (Ev & K & Ag & X). unfold inv. rewrite Ep, in_pool_snoc. split; [exact Ev|]. split; [exact K|]. split; [exact Ag|].
      refine (px_snoc _ _ _ _ _ X _). apply ps_enq_bad; [unfold pool_of; cbn; rewrite Ep; reflexivity|apply seen_push_none; exact A].
    - destruct (inv_own s ls _ H Ep) as (Ev & K & Ag & X). unfold inv, aligned, pool_of in *. cbn [goto with_threads l_pc l_models l_queues l_threads l_stop owner_of] in *. rewrite map_fst_wake, in_pool_snoc.
      split; [exact Ev|]. split; [exact K|]. split; [exact Ag|]. rewrite Ep in X. refine (px_snoc _ _ _ _ _ X _). rewrite <- seen_wake. exact (ps_notify (mkPS _ _ ONotify) eq_refl).
    - destruct (inv_own s ls _ H Ep) as (Ev & K & Ag & X). unfold inv, aligned, pool_of in *. cbn [goto with_threads l_pc l_models l_queues l_threads l_stop owner_of] in *. rewrite in_pool_snoc.
      split; [exact Ev|]. split; [exact K|]. split; [exact Ag|]. rewrite Ep in X. refine (px_snoc _ _ _ _ _ X _). apply (ps_stop (mkPS _ _ OFree)); [reflexivity|]. cbn.
      intros C. apply Th. apply (f_equal (@length _)) in C. rewrite seen_length in C. cbn in C. apply (f_equal (@length _)) in Ag. rewrite app_nil_r, !map_length, C in Ag.
      destruct (l_threads s); [reflexivity|discriminate Ag].
    - destruct (inv_own s ls _ H Ep) as (Ev & K & Ag & X). unfold inv, aligned, pool_of in *. cbn [goto with_threads l_pc l_models l_queues l_threads l_stop owner_of] in *. rewrite in_pool_snoc.
      split; [exact Ev|]. split; [exact K|]. split; [exact Ag|]. rewrite Ep in X. refine (px_snoc _ _ _ _ _ X _). rewrite Th in *. cbn in Ag. destruct (l_queues s); [|discriminate Ag].
      exact (ps_stop_empty (mkPS _ _ OFree) eq_refl eq_refl).
    - destruct (inv_own s ls _ H Ep) as (Ev & K & Ag & X). unfold inv, aligned, pool_of in *. cbn [goto with_threads l_pc l_models l_queues l_threads l_stop owner_of] in *. rewrite map_fst_wake, in_pool_snoc.
      split; [exact Ev|]. split; [exact K|]. split; [exact Ag|]. rewrite Ep in X. refine (px_snoc _ _ _ _ _ X _). rewrite <- seen_wake. exact (ps_stop_notify (mkPS _ _ OStopNotify) eq_refl).
    - destruct (inv_own s ls _ H Ep) as (Ev & K & Ag & X). destruct (seen_nth _ _ _ _ _ _ Ag En) as (q & _ & Hw). unfold inv, aligned, pool_of in *. cbn [goto with_threads l_pc l_models l_queues l_threads l_stop owner_of] in *. rewrite in_pool_snoc.
      split; [exact Ev|]. split; [exact K|]. split; [exact Ag|]. rewrite Ep in X. refine (px_snoc _ _ _ _ _ X _). exact (ps_join (mkPS _ _ (OJoin n)) n _ eq_refl Hw eq_refl).
    - destruct (inv_own s ls _ H Ep) as (Ev & K & Ag & X). unfold inv, aligned, pool_of in *. cbn [goto with_threads l_pc l_models l_queues l_threads l_stop owner_of] in *. rewrite in_pool_snoc.
      split; [exact Ev|]. split; [exact K|]. split; [exact Ag|]. rewrite Ep in X. refine (px_snoc _ _ _ _ _ X _). apply (ps_join_end (mkPS _ _ (OJoin n)) n eq_refl). cbn.
      apply nth_error_None in En. apply nth_error_None. rewrite seen_length. rewrite <- (map_length fst (l_queues s)), <- Ag, app_nil_r, map_length. exact En.
    - destruct (inv_own s ls _ H Ep) as (Ev & K & Ag & X). cbn. split; [reflexivity|]. split; [reflexivity|].
      assert (N : NoDup (map fst (l_queues s))) by (rewrite K; destruct async; [apply Ev|constructor]).
      assert (Dn : p_owner (pool_of s) = ODone) by (unfold pool_of; cbn; rewrite Ep; reflexivity).
      split.
      + apply Forall_forall. intros [d pc] I. apply In_nth_error in I. destruct I as [i Hi]. destruct (seen_nth _ _ _ _ _ _ Ag Hi) as (q & _ & Hw).
        exact (proj1 (pool_exited _ N _ _ _ X Dn (nth_error_In _ _ Hw))).
      + exists (l_models s). split; [exact Ev|]. unfold aligned in Ag. rewrite app_nil_r in Ag. split; [rewrite Ag; exact K|].
        intros i d Hi. rewrite in_pool_app. cbn [in_pool flat_map app]. rewrite app_nil_r. rewrite <- K in Hi. exact (pool_drained _ N _ _ _ _ X Dn Hi).
    - destruct (moving s ls i d PIdle H Al E) as (Cs & [rest Ag] & N & _); [discriminate|].
      destruct (work_pool s rest i d Ag N) as (th & Q & Ew & Et & Eq & Sp); [intros d' r' C; destruct Cs as [[o C']|[r C']]; rewrite C' in C; discriminate|exact E|].
      rewrite Ew. apply inv_moved; assumption.
    - destruct (moving s ls i d _ H Al E) as (Cs & [rest Ag] & N & I); [discriminate|]. unfold run_task. apply existsb_dev in I. rewrite I.
      destruct (thread_pool s rest i d _ (PTask i t) Ag E (or_intror (ex_intro _ t (conj eq_refl eq_refl)))) as [Et Sp]. apply inv_moved; [exact H|exact Cs|exact Et|reflexivity|exact Sp].
    - destruct (moving s ls i d _ H Al E) as (Cs & [rest Ag] & N & I); [discriminate|].
      destruct (thread_pool s rest i d _ (PSpur i) Ag E (or_introl (conj eq_refl eq_refl))) as [Et Sp]. apply inv_moved; [exact H|exact Cs|exact Et|reflexivity|exact Sp].
  Qed.

  Lemma inv_exec ls s : lexec before async (linit devs) ls s -> inv s ls.
  Proof.
    intros X. remember (linit devs) as s0 eqn:E0. induction X as [s|s ls s1 l s2 X IH St]; [subst; apply inv_init|]. exact (inv_step _ _ _ _ (IH E0) St).
  Qed.
End Run.

Section Ends.
  Context {T : Type}.
  Variable before : device -> device -> bool.
  Variable async : bool.

  Lemma dead s l (s' : life T) : lstep before async s l s' -> alive (l_pc s) = true.
  Proof.
    intros St. destruct St as [s s' E|s e E|s d t q Ep A|s d t Ep A|s Ep|s Ep Th|s Ep Th|s Ep|s n d Ep En|s n Ep En|s Ep|s i d Al E|s i d t Al E|s i d Al E]; try (rewrite Ep; reflexivity); try exact Al.
    - unfold make in E. destruct (l_pc s); try discriminate E; reflexivity.
    - destruct (l_pc s); try discriminate E; reflexivity.
  Qed.
  Lemma raised_end devs ls (s : life T) e : lexec before async (linit devs) ls s -> raised e ls -> l_pc s = Thrown e \/ l_pc s = Terminated.
  Proof.
    intros X. remember (linit devs) as s0 eqn:E0. induction X as [s|s ls s1 l s2 X IH St]; [intros []|]. intros R. apply in_app_or in R. destruct R as [R|[->|[]]].
    - pose proof (dead _ _ _ St) as A. destruct (IH E0 R) as [E|E]; rewrite E in A; discriminate A.
    - inversion St as [|? ? M| | | | | | | | | | | |]; subst. unfold unwind. destruct (l_threads s1); cbn; auto.
  Qed.

  Definition left_of (s : life T) : nat :=
    match l_pc s with
    | BModels todo => 4 * length todo + 3 * length (l_models s) + 4
    | BQueues todo => 2 * length todo + length (l_models s) + 3
    | BQueue _ todo => 2 * length todo + 1 + length (l_models s) + 3
    | BLinalg => length (l_models s) + 2
    | BSpawn todo => length todo + 1
    | _ => 0
    end.
  Lemma length_place d l : length (place before d l) = S (length l).
  Proof. induction l as [|x l IH]; cbn; [reflexivity|]. destruct (before d x); cbn; [reflexivity|]. rewrite IH. reflexivity. Qed.
  Lemma length_emplace d l : length (emplace before d l) <= S (length l).
  Proof. unfold emplace. destruct (existsb _ _); [lia|]. rewrite length_place. lia. Qed.
  Lemma left_make (s s' : life T) : make before async s = Some s' -> S (left_of s') <= left_of s.
  Proof.
    intros E. unfold make in E. unfold left_of. destruct (l_pc s) as [[|d r]|[|d r]|d r| |[|d r]|o| | | |] eqn:Ep; try discriminate; injection E as <-; cbn [l_pc goto l_models length]; try lia.
    - destruct async; cbn [l_pc goto l_models]; lia.
    - pose proof (length_emplace d (l_models s)). lia.
  Qed.
  Lemma left_other (s : life T) l s' : lstep before async s l s' -> l <> LMake -> left_of s' <= left_of s.
  Proof.
    intros St. destruct St as [s s' E|s e E|s d t q Ep A|s d t Ep A|s Ep|s Ep Th|s Ep Th|s Ep|s n d Ep En|s n Ep En|s Ep|s i d Al E|s i d t Al E|s i d Al E]; intros N;
      try (cbn; lia); try (unfold left_of; cbn; lia).
    - congruence.
    - unfold unwind. destruct (l_threads s); unfold left_of; cbn; lia.
    - unfold work. assert (D : forall p, (match p with Terminated | Undefined => True | _ => False end) -> left_of (goto s p) <= left_of s) by (intros []; try intros []; intros; unfold left_of; cbn; lia).
      assert (K : forall Q th, left_of (mkL (l_models s) Q th (l_stop s) (l_pc s)) <= left_of s) by (intros; unfold left_of; cbn; lia).
      destruct (l_pc s) eqn:Ep; try (apply D; exact I); destruct (queue_at d (l_queues s)) as [[|t q]|]; try (apply D; exact I); unfold with_threads; rewrite ?Ep; apply K.
    - unfold run_task. destruct (existsb _ _); unfold left_of; cbn; lia.
  Qed.
  Lemma makes_bound devs ls (s : life T) : lexec before async (linit devs) ls s -> makes ls + left_of s <= 4 * length devs + 4.
  Proof.
    intros X. remember (linit devs) as s0 eqn:E0. induction X as [s|s ls s1 l s2 X IH St]; [subst; unfold left_of; cbn; lia|].
    specialize (IH E0). unfold makes in *. rewrite filter_app, app_length. destruct (match l with LMake => true | _ => false end) eqn:El.
    - destruct l; try discriminate El. cbn. inversion St as [? ? E| | | | | | | | | | | | |]; subst. apply left_make in E. lia.
    - cbn. rewrite El. cbn. assert (Nl : l <> LMake) by (intros ->; discriminate El). pose proof (left_other _ _ _ St Nl). lia.
  Qed.
  Lemma lx_cons (s : life T) l s1 : lstep before async s l s1 -> forall ls s2, lexec before async s1 ls s2 -> lexec before async s (l :: ls) s2.
  Proof.
    intros St ls s2 X. revert s l St. induction X as [s1|s1 ls s2 l' s3 X IH St']; intros s l St.
    - exact (lx_snoc _ _ s [] s l s1 (lx_nil _ _ s) St).
    - exact (lx_snoc _ _ s (l :: ls) s2 l' s3 (IH _ _ St) St').
  Qed.
End Ends.
