(** An asynchronous call returns what the direct call returns. *)
From Coq Require Import Permutation.
From Verif Require Import Base Tensor Spec BatchChunk Sched SpecSched Dispatch SpecDispatch Async SpecAsync AsyncOp
     BaseProofs TensorProofs DispatchProofs SyncProofs AsyncEnd.

Section O.
  Context {V : Type}.
  Notation tens := (tensor V).
  Notation vmap := (smap tens).
  Notation nmap := (smap vmap).
  Variable tbl : list dstatus.
  Hypothesis Hpool : pool_ok tbl.

  Section G.
    Context {A R : Type}.
    Variables (run : nat -> device -> Z -> Z -> result R -> Prop) (k b : nat).
    Variables (ls : list (alabel R)) (out : result (list (option R))) (dflt : R).
    Variables (devs : device -> Prop) (chunk_fn : device -> Z -> Z -> result R).
    Variables (gather : list R -> result R) (ref : A -> result R) (a : A)
              (ch : nat -> nat -> A -> A) (post : R -> R).
    Hypothesis Hb : 1 <= b.
    Hypothesis Hcall : finished_call run tbl k (Z.of_nat b) ls out.
    Hypothesis Hdevs : forall t, In t tbl -> devs (ds_dev t).
    Hypothesis Hck : chunked b devs chunk_fn gather ref a ch post.

    Lemma async_returns rs : out = Ok rs -> returns_only run k chunk_fn ->
      exists r, ref a = Ok r /\ async_op dflt gather out = Ok (post r).
    Proof.
      intros -> Hrun. destruct Hcall as (s & o & s' & Hr & Em & -> & Hb0 & He & Hn & Em').
      destruct (call_success run tbl Hpool s o _ ls s' rs Hr Em Hb0 He Hn Em')
        as (l & Ht & -> & _ & Hl).
      set (rg := map (fun x : task * R => (tk_start (fst x), tk_count (fst x))) l) in *.
      assert (forall x, In x l ->
                rmap post (ref (ch (Z.to_nat (tk_start (fst x))) (Z.to_nat (tk_count (fst x))) a))
                = Ok (snd x)) as Hx.
      { intros x Hx. rewrite Forall_forall in Hl. destruct (Hl x Hx) as [(t & Ht0 & Hd & Hc & Hs & He') Hrx].
        rewrite <- (ck_chunk _ _ _ _ _ _ _ _ Hck (tk_dev (fst x))); try lia;
          [apply Hrun, Hrx | rewrite <- Hd; apply Hdevs, Ht0]. }
      assert (is_ok (ref a) = true) as Hok.
      { apply (ck_new _ _ _ _ _ _ _ _ Hck rg Ht). apply Forall_forall. intros z Hz.
        apply in_map_iff in Hz as (x & <- & Hin). specialize (Hx x Hin). cbn [fst snd].
        destruct (ref _); [reflexivity|discriminate]. }
      destruct (ref a) as [r|e] eqn:Er; [|discriminate]. exists r. split; [reflexivity|].
      destruct (ck_gather _ _ _ _ _ _ _ _ Hck r Er) as (g & Hg & Hcat).
      unfold async_op. cbn [bind]. rewrite map_map.
      rewrite <- (Hcat rg Ht) by (eapply tiles_nonempty; [exact Ht|lia]).
      f_equal. unfold rg. rewrite map_map. apply map_ext_in. intros x Hin. cbn [fst snd].
      specialize (Hx x Hin). rewrite Forall_forall in Hl.
      destruct (Hl x Hin) as [(t & Ht0 & Hd & Hc & Hs & He') _].
      rewrite Hg in Hx by (unfold valid_range; lia). cbn in Hx. congruence.
    Qed.

    Lemma async_agrees : behaves_as run k chunk_fn -> dfails ls = [] ->
      agree_result (async_op dflt gather out) (rmap post (ref a)).
    Proof.
      intros Hrun Hd.
      assert (forall rs, out = Ok rs -> agree_result (async_op dflt gather out) (rmap post (ref a))) as Hok.
      { intros rs Eo. destruct (async_returns rs Eo) as (r & Er & Ex).
        { intros d s c v Hv. symmetry. apply Hrun, Hv. }
        rewrite Er, Ex. reflexivity. }
      destruct out as [rs|e].
      - apply (Hok rs eq_refl).
      - clear Hok. destruct Hcall as (s & o & s' & Hr & Em & -> & Hb0 & He & Hn & Em').
        destruct (call_failures run tbl Hpool s o _ ls s' (Err e) Hr Em Hb0 He Hn Em')
          as (l & _ & _ & Hl & Hrep).
        rewrite Hd in Hrep. cbn [app] in Hrep.
        assert (exists x e', In x l /\ snd x = Err e') as (x & e' & Hin & Hx).
        { assert (failures l <> []) as Hne
              by (destruct Hrep as [->|(e1 & e2 & es & -> & _)]; discriminate).
          clear - Hne. induction l as [|[tk [v|e0]] l IH]; [exfalso; apply Hne; reflexivity| |].
          - destruct IH as (x & e' & Hin & Hx); [exact Hne|]. exists x, e'. split; [right; exact Hin|exact Hx].
          - exists (tk, Err e0), e0. split; [left; reflexivity|reflexivity]. }
        rewrite Forall_forall in Hl. destruct (Hl x Hin) as [(t & Ht0 & Hdv & Hc & Hs & He') Hrx].
        apply Hrun in Hrx. rewrite Hx in Hrx.
        rewrite (ck_chunk _ _ _ _ _ _ _ _ Hck (tk_dev (fst x))) in Hrx; try lia;
          [|rewrite <- Hdv; apply Hdevs, Ht0].
        destruct (ref a) as [r|e0] eqn:Er; cbn; [|eauto]. exfalso.
        destruct (ck_gather _ _ _ _ _ _ _ _ Hck r Er) as (g & Hg & _).
        rewrite Hg in Hrx by (unfold valid_range; lia). discriminate.
    Qed.
  End G.

  Section Call.
    Variables (D : disp V) (P I : vmap) (b : nat) (in_dev : device).
    Hypothesis H : pool_call_ok (map ds_dev tbl) D P I b in_dev.
    Let nds := l_param (dp_layout D).

    Lemma pool_call_call : call_ok 0 D P I b in_dev.
    Proof. destruct H. constructor; auto. lia. Qed.

    Lemma pool_start {R} (chunk_fn : device -> Z -> device -> Z -> Z -> result R) :
      async_start chunk_fn I = Ok (Z.of_nat b, chunk_fn in_dev (Z.of_nat b)).
    Proof.
      unfold async_start. rewrite (call_input_device 0 D P I b in_dev pool_call_call).
      rewrite (infer_batch_size_contract b I) by apply (pc_contract _ _ _ _ _ _ H). reflexivity.
    Qed.

    Lemma pool_holds : forall t, In t tbl -> holds D P (ds_dev t).
    Proof. intros t Ht. apply (pc_stores _ _ _ _ _ _ H). apply in_map, Ht. Qed.

    Lemma pool_b : 1 <= b.
    Proof. apply (pc_contract _ _ _ _ _ _ H). Qed.

    (** [dir] is the direct call. *)
    Lemma async_call {A R} run k ls out (dflt : R) chunk_fn gather (ref : A -> result R) a ch post dir :
      finished_call run tbl k (Z.of_nat b) ls out ->
      chunked b (holds D P) chunk_fn gather ref a ch post ->
      dir = rmap post (ref a) ->
      (returns_only run k chunk_fn -> is_ok out = true ->
       is_ok dir = true /\ async_op dflt gather out = dir) /\
      (behaves_as run k chunk_fn -> dfails ls = [] -> agree_result (async_op dflt gather out) dir).
    Proof.
      intros Hc Hck ->. split.
      - intros Hrun Hok. destruct out as [rs|e]; [|discriminate].
        destruct (async_returns run k b ls (Ok rs) dflt _ chunk_fn gather ref a ch post pool_b Hc pool_holds Hck rs eq_refl Hrun)
          as (r & -> & ->). split; reflexivity.
      - apply (async_agrees run k b ls out dflt _ chunk_fn gather ref a ch post pool_b Hc pool_holds Hck).
    Qed.

    Lemma async_forward_agrees fwd ref run k ls out :
      (forall d, computes1 fwd on_dev ref d) -> forward_rows nds b ref (P, I) ->
      finished_call run tbl k (Z.of_nat b) ls out ->
      let f := chunk_forward fwd D in_dev (Z.of_nat b) I in
      let direct := fwd in_dev (on_dev in_dev P) I in
      (returns_only run k f -> is_ok out = true -> is_ok direct = true /\ async_forward out = direct) /\
      (behaves_as run k f -> dfails ls = [] -> agree_result (async_forward out) direct).
    Proof.
      intros Hcomp Hrows Hc f direct.
      eapply async_call; [exact Hc|apply (forward_chunked 0 D P I b in_dev pool_call_call fwd ref Hcomp Hrows)|].
      unfold direct. rewrite <- (on_dev_all_on I in_dev) at 1 by apply (pc_on _ _ _ _ _ _ H). apply Hcomp.
    Qed.

    Lemma async_jvp_agrees jvp ref T run k ls out :
      conforming b T -> all_on in_dev T ->
      (forall d, computes2 jvp on_pair ref d) -> jvp_rows nds b ref (P, I, T) ->
      finished_call run tbl k (Z.of_nat b) ls out ->
      let f := chunk_jvp jvp D in_dev (Z.of_nat b) I T in
      let direct := jvp in_dev (on_dev in_dev P) I T in
      (returns_only run k f -> is_ok out = true -> is_ok direct = true /\ async_jvp out = direct) /\
      (behaves_as run k f -> dfails ls = [] -> agree_result (async_jvp out) direct).
    Proof.
      intros HcT HdT Hcomp Hrows Hc f direct.
      eapply async_call; [exact Hc|apply (jvp_chunked 0 D P I b in_dev pool_call_call jvp ref T HcT Hcomp Hrows)|].
      unfold direct. rewrite <- (on_dev_all_on I in_dev) at 1 by apply (pc_on _ _ _ _ _ _ H).
      rewrite <- (on_dev_all_on T in_dev) at 1 by exact HdT. apply Hcomp.
    Qed.

    Lemma async_jac_agrees jac ref inds run k ls out :
      (forall d, computes1 jac on_jac ref d) ->
      jacobian_rows nds b (l_out (dp_layout D)) inds ref (P, I) ->
      finished_call run tbl k (Z.of_nat b) ls out ->
      let f := chunk_jacobian D in_dev (Z.of_nat b) jac I in
      let direct := jac in_dev (on_dev in_dev P) I in
      (returns_only run k f -> is_ok out = true ->
       is_ok direct = true /\ async_op ([], []) (gather_jacobian D inds) out = direct) /\
      (behaves_as run k f -> dfails ls = [] ->
       agree_result (async_op ([], []) (gather_jacobian D inds) out) direct).
    Proof.
      intros Hcomp Hrows Hc f direct.
      eapply async_call; [exact Hc|apply (jac_chunked 0 D P I b in_dev pool_call_call jac ref inds Hcomp Hrows)|].
      unfold direct. rewrite <- (on_dev_all_on I in_dev) at 1 by apply (pc_on _ _ _ _ _ _ H).
      rewrite Hcomp. destruct Hrows as [Hrows _].
      destruct (ref (P, I)) as [[o j]|e]; [|reflexivity].
      destruct (Hrows o j eq_refl) as (_ & Hfj & _). cbn [rmap]. unfold on_jac. cbn [fst snd].
      rewrite (to_device_nested_full b (l_out (dp_layout D)) inds) by exact Hfj. reflexivity.
    Qed.

    Lemma async_param_vjp_agrees add pvjp ref C run k ls out :
      conforming b C -> all_on in_dev C ->
      (forall d, computes2 pvjp on_dev ref d) -> vjp_rows nds b add ref (P, I, C) ->
      finished_call run tbl k (Z.of_nat b) ls out ->
      let f := chunk_param_vjp pvjp D in_dev (Z.of_nat b) I C in
      let direct := pvjp in_dev (on_dev in_dev P) I C in
      (returns_only run k f -> is_ok out = true ->
       is_ok direct = true /\ async_param_vjp add D (Z.of_nat b) out = direct) /\
      (behaves_as run k f -> dfails ls = [] ->
       agree_result (async_param_vjp add D (Z.of_nat b) out) direct).
    Proof.
      intros HcC HdC Hcomp Hrows Hc f direct.
      eapply async_call; [exact Hc|apply (param_vjp_chunked 0 D P I b in_dev pool_call_call add pvjp ref C HcC Hcomp Hrows)|].
      unfold direct. rewrite <- (on_dev_all_on I in_dev) at 1 by apply (pc_on _ _ _ _ _ _ H).
      rewrite <- (on_dev_all_on C in_dev) at 1 by exact HdC. apply Hcomp.
    Qed.
  End Call.
End O.
