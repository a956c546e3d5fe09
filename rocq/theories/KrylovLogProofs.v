(** The logged solves: what they have in common with the silent ones, and what their lines say. *)
From Verif Require Import Base BaseProofs Tensor Newton Krylov SpecKrylov KrylovProofs KrylovCostProofs KrylovRowProofs
     KrylovSystem Log KrylovLog SpecKrylovLog.

Lemma calls_app {V} (a b : list (kevent V)) : calls_in (a ++ b) = calls_in a ++ calls_in b.
Proof. apply flat_map_app. Qed.
Lemma lines_app {V} (a b : list (kevent V)) : lines_in (a ++ b) = lines_in a ++ lines_in b.
Proof. apply flat_map_app. Qed.
Lemma calls_calls {V} (l : list (kcall V)) : calls_in (map KCall l) = l.
Proof. induction l as [|c l IH]; [reflexivity|]. cbn. f_equal. exact IH. Qed.
Lemma lines_calls {V} (l : list (kcall V)) : lines_in (map KCall l) = [].
Proof. induction l as [|c l IH]; [reflexivity|]. exact IH. Qed.
Lemma begins_refl {X} (l : list X) : begins l l.
Proof. exists []. rewrite app_nil_r. reflexivity. Qed.
Lemma begins_app {X} (a b l : list X) : begins b l -> begins (a ++ b) (a ++ l).
Proof. intros (r & ->). exists r. apply app_assoc. Qed.
Lemma begins_more {X} (a l l' : list X) : begins a l -> begins a (l ++ l').
Proof. intros (r & ->). exists (r ++ l'). symmetry. apply app_assoc. Qed.

Section Watched.
  Context {V : Type}.
  Variable say : list (level * klog_note V) -> level -> klog_note V -> result unit.
  Notation cut := (cut_short say).

  Definition over {X Y} (f : Y -> X) (r : result Y) : result X := match r with Ok y => Ok (f y) | Err e => Err e end.
  (** The logged [m] does what the silent [k] does, unless the sink stops it. *)
  Definition tracks {X Y} (k : kio V X) (m : lio V Y) (f : Y -> X) : Prop :=
    forall w r w', m w = (r, w') -> exists ev, w' = w ++ ev /\
      ((over f r = fst k /\ calls_in ev = snd k) \/
       (exists e, r = Err e /\ cut w ev e /\ begins (calls_in ev) (snd k))).

  Lemma cut_app w a ev e : cut (w ++ a) ev e -> cut w (a ++ ev) e.
  Proof.
    intros (bf & l & m & -> & H). exists (a ++ bf), l, m. split; [apply app_assoc|]. rewrite app_assoc. exact H.
  Qed.

  Lemma tracks_quiet {X} (k : kio V X) : tracks k (quiet k) (fun x => x).
  Proof.
    intros w r w' H. unfold quiet in H. injection H as <- <-. exists (map KCall (snd k)). split; [reflexivity|]. left.
    split; [destruct (fst k); reflexivity|apply calls_calls].
  Qed.
  Lemma tracks_ret {X Y} (y : Y) (f : Y -> X) : tracks (kret (f y)) (lret y) f.
  Proof. intros w r w' H. injection H as <- <-. exists []. rewrite app_nil_r. split; [reflexivity|]. left. auto. Qed.
  Lemma tracks_bind {X Y X' Y'} (k : kio V X) (m : lio V Y) f (g : X -> kio V X') (h : Y -> lio V Y') f' :
    tracks k m f -> (forall y, tracks (g (f y)) (h y) f') -> tracks (kbind k g) (lbind m h) f'.
  Proof.
    intros H1 H2 w r w' H. unfold lbind in H. destruct (m w) as [r1 w1] eqn:E1.
    destruct (H1 _ _ _ E1) as (ev1 & -> & C1).
    destruct r1 as [y|e1].
    - destruct C1 as [[C1 C2]|(e & Q & _)]; [|discriminate]. cbn [over] in C1.
      destruct (H2 y _ _ _ H) as (ev2 & -> & D). exists (ev1 ++ ev2). split; [symmetry; apply app_assoc|].
      destruct k as [rk lk]. cbn [fst snd] in C1, C2. subst rk. cbn [kbind]. destruct (g (f y)) as [rg lg]. cbn [fst snd] in *.
      rewrite calls_app, C2. destruct D as [[D1 D2]|(e & D1 & D2 & D3)].
      + left. rewrite D2. auto.
      + right. exists e. split; [exact D1|]. split; [apply cut_app; exact D2|apply begins_app; exact D3].
    - injection H as <- <-. exists ev1. split; [reflexivity|].
      destruct k as [rk lk]. cbn [fst snd] in *.
      destruct C1 as [[C1 C2]|(e & Q & C2 & C3)].
      + left. cbn [over] in C1. rewrite <- C1. cbn [kbind fst snd]. auto.
      + right. exists e. split; [congruence|]. split; [exact C2|].
        destruct rk as [a|e']; cbn [kbind snd]; [|exact C3]. destruct (g a). cbn [snd]. apply begins_more. exact C3.
  Qed.

  Variable N : num V.
  Variable rsum : list V -> V.
  Variable edot : list V -> list V -> V.
  Variable tri : list (list V) -> list V -> list V.
  Variable vmax : list V -> V.

  Lemma tracks_on_iter {X Y} hook it es bs (k : kio V X) (m : lio V Y) f :
    tracks k m f -> tracks k (lbind (on_iter N vmax say hook it es bs) (fun _ => m)) f.
  Proof.
    intros H w r w' E. unfold lbind, on_iter in E. destruct hook.
    - unfold emit_line in E. set (ln := NIter _ _ _) in E. destruct (say (lines_in w) Debug ln) as [u|e] eqn:Q.
      + destruct (H _ _ _ E) as (ev & -> & C). exists ([KLine Debug ln] ++ ev). split; [symmetry; apply app_assoc|].
        rewrite calls_app. cbn [calls_in flat_map app].
        destruct C as [C|(e & C1 & C2 & C3)]; [left; exact C|right]. exists e. split; [exact C1|]. split; [|exact C3].
        apply (cut_app w [KLine Debug ln]). exact C2.
      + injection E as <- <-. exists [KLine Debug ln]. split; [reflexivity|]. right. exists e. split; [reflexivity|]. split.
        * exists [], Debug, ln. split; [reflexivity|]. rewrite app_nil_r. exact Q.
        * exists (snd k). reflexivity.
    - unfold lret in E. exact (H _ _ _ E).
  Qed.

  Variable matvec minv : list (list V) -> result (list (list V)).
  Variable hook : bool.

  Lemma tracks_bicg cfg b it more st :
    tracks (bicg_loop N rsum edot matvec minv cfg b more st)
           (log_bicg_loop N rsum edot vmax say matvec minv hook cfg b it more st) (fun x => x).
  Proof.
    revert it st. induction more as [|more IH]; intros it st; [apply (tracks_ret st (fun x => x))|].
    cbn [bicg_loop log_bicg_loop]. destruct (all_done st); [apply (tracks_ret st (fun x => x))|]. cbv zeta.
    apply tracks_bind with (f := fun x => x); [apply tracks_quiet|]. intros phat.
    apply tracks_bind with (f := fun x => x); [apply tracks_quiet|]. intros v.
    apply tracks_bind with (f := fun x => x); [apply tracks_quiet|]. intros shat.
    apply tracks_bind with (f := fun x => x); [apply tracks_quiet|]. intros t.
    apply tracks_on_iter, IH.
  Qed.
  Lemma tracks_cycle cfg b it more st :
    tracks (gmres_cycle N rsum edot matvec minv cfg b more st)
           (log_cycle N rsum edot vmax say matvec minv hook cfg b it more st) snd.
  Proof.
    revert it st. induction more as [|more IH]; intros it st; [apply (tracks_ret (it, st) snd)|].
    cbn [gmres_cycle log_cycle].
    apply tracks_bind with (f := fun x => x); [apply tracks_quiet|]. intros av.
    apply tracks_bind with (f := fun x => x); [apply tracks_quiet|]. intros w. cbv zeta.
    apply tracks_on_iter. set (st1 := map2 _ _ st). destruct (forallb gr_done st1); [apply (tracks_ret (it + 1, st1) snd)|apply IH].
  Qed.
  Lemma tracks_loop cfg b m first it cycles st :
    tracks (gmres_loop N rsum edot tri matvec minv cfg b m first cycles st)
           (log_loop N rsum edot tri vmax say matvec minv hook cfg b m first it cycles st) (fun x => x).
  Proof.
    revert first it st. induction cycles as [|cycles IH]; intros first it st; [apply (tracks_ret st (fun x => x))|].
    cbn [gmres_loop log_loop].
    apply tracks_bind with (f := fun x => x); [apply tracks_quiet|]. intros r. cbv zeta.
    set (st1 := map2 _ _ st). destruct (forallb gr_done st1); [apply (tracks_ret st1 (fun x => x))|].
    apply tracks_bind with (f := snd); [apply tracks_cycle|]. intros [it' st2]. apply IH.
  Qed.
  Lemma tracks_solve b cfg :
    tracks (krylov_solve N rsum edot tri matvec minv b cfg) (log_solve N rsum edot tri vmax say matvec minv hook b cfg) (fun x => x).
  Proof.
    unfold krylov_solve, log_solve. destruct (k_method cfg).
    - unfold gmres, log_gmres. apply tracks_bind with (f := fun x => x); [apply tracks_quiet|]. intros cycles. cbv zeta.
      apply tracks_bind with (f := fun x => x); [|intros st; apply tracks_quiet].
      destruct ((k_restart cfg <? 0)%Z && (0 <? cycles)%Z); [|apply tracks_loop].
      apply tracks_bind with (f := fun x => x); [apply tracks_quiet|]. intros r.
      set (st1 := map2 _ _ _). destruct (forallb gr_done st1); [apply (tracks_ret st1 (fun x => x))|apply tracks_quiet].
    - unfold bicgstab, log_bicgstab. apply tracks_bind with (f := fun x => x); [apply tracks_bicg|]. intros st. apply tracks_quiet.
  Qed.

  Lemma accepts_not_cut w ev e : accepts say -> ~ cut w ev e.
  Proof. intros H (bf & l & m & _ & Q). rewrite H in Q. discriminate. Qed.

  (** ** The lines *)
  Lemma quiet_bind {X Y} (k : kio V X) (h : X -> lio V Y) w r w' :
    lbind (quiet k) h w = (r, w') ->
    (exists x, fst k = Ok x /\ h x (w ++ map KCall (snd k)) = (r, w')) \/
    (exists e, fst k = Err e /\ r = Err e /\ w' = w ++ map KCall (snd k)).
  Proof. unfold lbind, quiet. destruct (fst k) as [x|e]; intros H; [left; eauto|right]. injection H as <- <-. eauto. Qed.
  Lemma on_iter_bind {Y} it es bs (h : lio V Y) w r w' :
    lbind (on_iter N vmax say hook it es bs) (fun _ => h) w = (r, w') ->
    exists ev, (hook = false /\ ev = [] \/ hook = true /\ ev = [KLine Debug (NIter it (vmax es) (vmax (map2 (n_div N) es bs)))]) /\
      (h (w ++ ev) = (r, w') \/ exists e, r = Err e /\ w' = w ++ ev).
  Proof.
    unfold lbind, on_iter. destruct hook.
    - unfold emit_line. destruct (say _ _ _) as [u|e]; intros H; eexists; (split; [right; split; reflexivity|]).
      + left. exact H.
      + right. injection H as <- <-. eauto.
    - unfold lret. intros H. exists []. rewrite app_nil_r. auto.
  Qed.
  Lemma call_ok {X} (k : kio V X) x : fst k = Ok x -> k = (Ok x, snd k).
  Proof. destruct k. cbn. congruence. Qed.
End Watched.
