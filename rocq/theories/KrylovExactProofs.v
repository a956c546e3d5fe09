(** The number of restart cycles; the residual of BiCGStab in exact arithmetic. *)
From Verif Require Import Base BaseProofs Newton Krylov SpecKrylov KrylovProofs KrylovCostProofs KrylovRowProofs.
From Coq Require Import Ring_theory Ring.

Lemma cycles_least {V} (cfg : kconfig V) c :
  (0 < k_restart cfg)%Z -> (0 <= k_max_its cfg)%Z -> cycles_of cfg = Ok c -> least_cycles (k_max_its cfg) (k_restart cfg) c.
Proof.
  intros Hm Hk H. unfold cycles_of in H. cbv zeta in H. destruct (_ || _); [discriminate|].
  assert (E : c = Z.quot (k_max_its cfg + k_restart cfg - 1) (k_restart cfg)) by congruence. clear H.
  rewrite Z.quot_div_nonneg in E by lia. subst c. unfold least_cycles.
  pose proof (Z.div_mod (k_max_its cfg + k_restart cfg - 1) (k_restart cfg) ltac:(lia)) as D.
  pose proof (Z.mod_pos_bound (k_max_its cfg + k_restart cfg - 1) (k_restart cfg) Hm) as B.
  set (q := ((k_max_its cfg + k_restart cfg - 1) / k_restart cfg)%Z) in *.
  set (r := ((k_max_its cfg + k_restart cfg - 1) mod k_restart cfg)%Z) in *.
  split; [nia|]. split; [nia|]. subst q. apply Z.div_pos; lia.
Qed.

Lemma cycles_ok {V} (cfg : kconfig V) :
  (0 < k_restart cfg)%Z -> (0 <= k_max_its cfg)%Z -> (k_max_its cfg + k_restart cfg < 2 ^ 63)%Z ->
  exists c, cycles_of cfg = Ok c.
Proof.
  intros Hm Hk Hb. unfold cycles_of. cbv zeta.
  assert (I : forall z, (0 <= z < 2 ^ 63)%Z -> int64_ok z = true).
  { intros z [H1 H2]. unfold int64_ok. apply Bool.andb_true_iff. split; [apply Z.leb_le; lia|apply Z.ltb_lt; lia]. }
  destruct (Z.eqb_spec (k_restart cfg) 0); [lia|].
  rewrite (I (k_max_its cfg + k_restart cfg)%Z) by lia. rewrite (I (k_max_its cfg + k_restart cfg - 1)%Z) by lia.
  rewrite I; [cbn; eauto|]. rewrite Z.quot_div_nonneg by lia. split; [apply Z.div_pos; lia|].
  eapply Z.le_lt_trans; [apply Z.div_le_upper_bound with (q := (k_max_its cfg + k_restart cfg)%Z); nia|lia].
Qed.

Lemma cycles_none {V} (cfg : kconfig V) : k_restart cfg = 0%Z -> cycles_of cfg = Err (OtherExn 0).
Proof. intros H. unfold cycles_of. rewrite H. reflexivity. Qed.

Section Residual.
  Context {V : Type}.
  Variable N : num V.
  Variable rsum : list V -> V.
  Variable edot : list V -> list V -> V.
  Notation vec := (list V).
  Hypothesis R : ring_of N.
  Lemma ring_num : ring_theory (n_zero N) (n_one N) (n_add N) (n_mul N) (n_sub N) (n_neg N) (@eq V).
  Proof. exact R. Qed.
  Add Ring RingN : ring_num.

  Lemma residual_update n (b y v t : vec) a w : length b = n -> length y = n -> length v = n -> length t = n ->
    vsub N (vsub N (vsub N b y) (vscale N a v)) (vscale N w t) =
    vsub N b (vadd N (vadd N y (vscale N a v)) (vscale N w t)).
  Proof.
    revert b y v t. induction n as [|n IH]; intros [|b0 b] [|y0 y] [|v0 v] [|t0 t]; try discriminate; [reflexivity|].
    cbn [length]. intros L1 L2 L3 L4. unfold vsub, vadd, vscale, map2 in *. cbn [combine map fst snd]. f_equal; [ring|].
    apply IH; lia.
  Qed.
  Lemma residual_zero n (b y : vec) : length b = n -> length y = n -> vsub N b (map (n_mul N (n_zero N)) y) = b.
  Proof.
    revert b y. induction n as [|n IH]; intros [|b0 b] [|y0 y]; try discriminate; [reflexivity|].
    cbn [length]. intros L1 L2. unfold vsub, map2 in *. cbn [combine map fst snd]. f_equal; [ring|]. apply IH; lia.
  Qed.
  Lemma zeros_scale (b : vec) : zeros N b = map (n_mul N (n_zero N)) b.
  Proof. unfold zeros. apply map_ext. intros a. ring. Qed.

  (** What BiCGStab keeps about a row. *)
  Definition honest (A : vec -> vec) (n : nat) (cfg : kconfig V) (b : vec) (s : brow V) : Prop :=
    length (br_x s) = n /\ length (br_r s) = n /\ length (br_p s) = n /\ length (br_v s) = n /\
    br_r s = vsub N b (A (br_x s)) /\ br_done s = meets N cfg (bnorm N rsum b) (row_norm N rsum (br_r s)).

  Lemma honest_start A n cfg b : length b = n -> linear_op N n A -> honest A n cfg b (bicg_start N rsum cfg b).
  Proof.
    intros L (K & _ & S). unfold honest, bicg_start. cbn [br_x br_r br_p br_v br_done].
    unfold zeros at 1 2 3. rewrite !map_length. repeat split; auto.
    rewrite zeros_scale, S by exact L. symmetry. apply (residual_zero n); [exact L|]. apply K. exact L.
  Qed.

  Lemma honest_row A M n cfg b more s : length b = n -> linear_op N n A -> keeps_width n M ->
    honest A n cfg b s -> honest A n cfg b (bicg_row N rsum edot A M cfg b more s).
  Proof.
    intros L LA KM. pose proof LA as (KA & AddA & ScA).
    revert s. induction more as [|more IH]; intros s H; [exact H|]. cbn [bicg_row].
    destruct (br_done s) eqn:D; [exact H|]. cbv zeta. apply IH. clear IH.
    destruct H as (Lx & Lr & Lp & Lv & Er & _). unfold bicg_update. rewrite D. cbv zeta.
    set (p := bicg_p N edot b s). assert (Hp : length p = n).
    { subst p. unfold bicg_p. cbv zeta. apply vadd_len; [exact Lr|]. apply vscale_len, vsub_len; [exact Lp|]. apply vscale_len. exact Lv. }
    set (ph := M p). assert (Hph : length ph = n) by (apply KM; exact Hp).
    set (v := A ph). assert (Hv : length v = n) by (apply KA; exact Hph).
    set (a := bicg_alpha N edot b v s).
    set (sv := bicg_s N edot b v s). assert (Hsv : length sv = n).
    { subst sv. unfold bicg_s. apply vsub_len; [exact Lr|]. apply vscale_len. exact Hv. }
    set (sh := M sv). assert (Hsh : length sh = n) by (apply KM; exact Hsv).
    set (t := A sh). assert (Ht : length t = n) by (apply KA; exact Hsh).
    set (w := bicg_omega N edot t sv).
    unfold honest. cbn [br_x br_r br_p br_v br_done].
    assert (L1 : length (vadd N (br_x s) (vscale N a ph)) = n) by (apply vadd_len; [exact Lx|]; apply vscale_len; exact Hph).
    split; [apply vadd_len; [exact L1|]; apply vscale_len; exact Hsh|].
    split; [apply vsub_len; [exact Hsv|]; apply vscale_len; exact Ht|].
    split; [exact Hp|]. split; [exact Hv|]. split; [|reflexivity].
    unfold vadd at 1, vadd at 1, vscale at 2 3.
    rewrite AddA; [|exact L1|rewrite map_length; exact Hsh].
    rewrite ScA by exact Hsh. rewrite AddA; [|exact Lx|rewrite map_length; exact Hph]. rewrite ScA by exact Hph.
    fold v t. subst sv. unfold bicg_s. fold a. rewrite Er.
    apply (residual_update n); auto.
  Qed.

  Lemma meets_within cfg b r : meets N cfg (bnorm N rsum b) (row_norm N rsum r) = true -> within N rsum cfg b r.
  Proof. unfold meets. intros [H|H]%Bool.orb_true_iff; [left|right]; exact H. Qed.

  Lemma bicgstab_residual n matvec minv b cfg res l i A M bi x :
    acts_on i A matvec -> acts_on i M minv -> linear_op N n A -> keeps_width n M ->
    bicgstab N rsum edot matvec minv b cfg = (Ok res, l) ->
    nth_error b i = Some bi -> length bi = n ->
    nth_error (kr_du res) i = Some x ->
    length x = n /\
    (nth_error (kr_converged res) i = Some true -> within N rsum cfg bi (residual_of N A bi x)) /\
    (nth_error (kr_converged res) i = Some false -> ~ within N rsum cfg bi (residual_of N A bi x)).
  Proof.
    intros EA EM LA KM H Eb Lb Ex.
    destruct (bicgstab_exact N rsum edot matvec minv b cfg res l H) as (st' & E1 & E2 & L & Hl & _).
    pose proof (bicg_rows N rsum edot matvec minv cfg b (Z.to_nat (k_max_its cfg)) (map (bicg_start N rsum cfg) b) st' l i A M bi (bicg_start N rsum cfg bi)
      (map_length _ _) Hl EA EM Eb) as Er. specialize (Er ltac:(rewrite nth_error_map, Eb; reflexivity)).
    pose proof (honest_row A M n cfg bi (Z.to_nat (k_max_its cfg)) _ Lb LA KM (honest_start A n cfg bi Lb LA)) as Hh.
    set (s := bicg_row N rsum edot A M cfg bi (Z.to_nat (k_max_its cfg)) (bicg_start N rsum cfg bi)) in *.
    rewrite E1, nth_error_map, Er in Ex. cbn in Ex. assert (Ex' : br_x s = x) by congruence. clear Ex.
    rewrite E2, nth_error_map, Er. cbn [option_map].
    destruct Hh as (Lx & _ & _ & _ & Hr & Hd). rewrite Ex' in *. split; [exact Lx|].
    assert (Q : br_done s = true <-> within N rsum cfg bi (residual_of N A bi x)).
    { rewrite Hd, Hr. split; [apply meets_within|]. intros W. unfold meets. apply Bool.orb_true_iff. exact W. }
    split; intros D; [apply Q; congruence|]. intros W. apply Q in W. congruence.
  Qed.
End Residual.
