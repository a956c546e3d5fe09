(** Property C78: the parameter derivatives of an eager model. *)
From Verif Require Import Base Tensor SpecMap Broadcast SpecBroadcast Pack Implicit Jac SpecJac SpecAlgebra EagerModel SpecEagerModel EagerParam SpecEagerParam EagerModelProofs EagerCallProofs EagerParamProofs EagerParamMoreProofs EagerParamCallProofs Example_EagerParam.
From Coq Require Import Ring_theory ZArithRing.
Local Open Scope string_scope.
Local Open Scope list_scope.

(** * The blocks *)

(** param_jacobian() returns the outputs of forward() and for every output and parameter the block of derivatives, each entry of
    the batch with respect to that entry's copy of the parameter; nothing else; the parameters stay as they were. *)
Theorem C78_param_jacobian : forall V (zero one : V) add mul sub opp (m : emodel V) ad (P : eparams V) I D C d args ws v vals leaf trs J,
  ring_theory zero one add mul sub opp eq -> named m -> NoDup (keys P) -> given_wf m I -> welcome m I D -> all_on m I d -> lifted m I D args ->
  em_native m (values P) args None = Ok (ws, v) -> returned m ws vals -> calls_at P D C -> plain_params d P -> copies d C P leaf -> ad leaf args = Ok trs ->
  differentiates zero add mul m d C leaf trs J -> Forall (fun tr => tr_grad tr <> None) trs -> own_copy zero m d C P J ->
  (forall o ob, In (o, ob) (em_outs m) -> 0 < numel ob) ->
  exists r B, eager_param_jacobian zero one m ad P I = (P, Ok (r, B)) /\ outputs_are m r vals /\
    (forall o ob q p, In (o, ob) (em_outs m) -> In (q, p) P -> exists t batch base, block B o q = Some t /\ plain_param d q p batch base /\
       wf t /\ t_dev t = d /\ t_shape t = C ++ ob ++ base /\
       forall e x y, index_of C e -> index_of ob x -> index_of base y -> elem t (e ++ x ++ y) = Some (J o q (ravel (C ++ ob) (e ++ x)) (ravel (C ++ base) (e ++ y)))) /\
    (forall o q, block B o q <> None -> In o (map fst (em_outs m)) /\ In q (keys P)).
Proof.
  intros V zero one add mul sub opp m ad P I D C d args ws v vals leaf trs J R [Ni No] Np Wi Hw Ho Hl Hr Hv Hc Hp Hcp Ha Hd Ht Hown Hs.
  destruct (param_jacobian_ok m Ni No zero one add mul sub opp R ad P I D C d Np Wi Hw Ho args Hl ws v vals Hr Hv leaf trs J Hc Hp Hcp Ha Hd Ht Hown Hs) as (r & B & E & O & Bl & On).
  exists r, B. split; [exact E|]. split; [exact O|]. split; [|exact On]. intros o ob q p Io Ip. destruct (Bl o ob q p Io Ip) as (t & Et & batch & base & H). exists t, batch, base. split; [exact Et|exact H].
Qed.
Print Assumptions C78_param_jacobian.

(** * The adjoint *)

(** param_vjp() returns for every parameter, at its stored shape, the gradient of the sum over the outputs of their inner products
    with the cotangents. *)
Theorem C78_param_vjp : forall V (zero one : V) add mul sub opp (m : emodel V) ad (P : eparams V) I W D C d args ws v vals trs J,
  ring_theory zero one add mul sub opp eq -> named m -> NoDup (keys P) -> given_wf m I -> welcome m I D -> lifted m I D args ->
  em_native m (values P) args None = Ok (ws, v) -> returned m ws vals -> cotangents_ok m d C W -> ad (values P) args = Ok trs ->
  (forall q p, In (q, p) P -> wf (ep_val p)) ->
  differentiates zero add mul m d C (values P) trs J -> (P <> [] -> Exists (fun tr => tr_grad tr <> None) trs) ->
  exists r, eager_param_vjp zero add m ad P I W = (P, Ok r) /\ sorted r /\ (forall q, lookup q r <> None <-> In q (keys P)) /\
    forall q p, In (q, p) P -> exists t, lookup q r = Some t /\ wf t /\ t_dev t = t_dev (ep_val p) /\ t_shape t = t_shape (ep_val p) /\
      forall c, c < numel (t_shape (ep_val p)) -> nth_error (t_data t) c = Some (loss_slope zero add mul m C J W q c).
Proof.
  intros V zero one add mul sub opp m ad P I W D C d args ws v vals trs J R [Ni No] Np Wi Hw Hl Hr Hv Hcot.
  exact (param_vjp_ok m Ni No zero one add mul sub opp R ad P I D C d Np Wi Hw args Hl ws v vals Hr Hv W Hcot trs J).
Qed.
Print Assumptions C78_param_vjp.

(** For a parameter shared by the batch the two calls agree: its gradient is what contracting its blocks with the cotangents
    gives.  (That the model run with a parameter is the model run with equal copies of it is asked of the model: [shares].) *)
Theorem C78_adjoint : forall V (zero one : V) add mul sub opp (m : emodel V) ad (P : eparams V) I W D C d args ws v vals leaf trs trs0 J J0 q p base,
  ring_theory zero one add mul sub opp eq -> named m -> NoDup (keys P) -> given_wf m I -> welcome m I D -> all_on m I d -> lifted m I D args ->
  em_native m (values P) args None = Ok (ws, v) -> returned m ws vals -> calls_at P D C -> plain_params d P -> copies d C P leaf -> cotangents_ok m d C W ->
  ad leaf args = Ok trs -> differentiates zero add mul m d C leaf trs J -> Forall (fun tr => tr_grad tr <> None) trs -> own_copy zero m d C P J ->
  ad (values P) args = Ok trs0 -> differentiates zero add mul m d C (values P) trs0 J0 -> Exists (fun tr => tr_grad tr <> None) trs0 ->
  (forall o ob, In (o, ob) (em_outs m) -> 0 < numel ob) ->
  In (q, p) P -> plain_param d q p [] base -> shares zero add m C J0 J q (numel base) ->
  exists r B g, snd (eager_param_jacobian zero one m ad P I) = Ok (r, B) /\ (exists G, snd (eager_param_vjp zero add m ad P I W) = Ok G /\ lookup q G = Some g) /\ t_shape g = base /\
    forall c, c < numel base -> nth_error (t_data g) c =
      Some (sum zero add (map (fun o => sum_to zero add (numel (C ++ snd o)) (fun k => mul (cotangent zero W (fst o) k)
              match block B (fst o) q with Some t => nth (k * numel base + c) (t_data t) zero | None => zero end)) (em_outs m))).
Proof.
  intros V zero one add mul sub opp m ad P I W D C d args ws v vals leaf trs trs0 J J0 q p base R [Ni No] Np Wi Hw Ho Hl Hr Hv Hc Hp Hcp Hcot Ha Hd Ht Hown Ha0 Hd0 Ht0 Hs Ip Pl Sh.
  destruct (param_jacobian_ok m Ni No zero one add mul sub opp R ad P I D C d Np Wi Hw Ho args Hl ws v vals Hr Hv leaf trs J Hc Hp Hcp Ha Hd Ht Hown Hs) as (r & B & E & _ & Bl & _).
  assert (Wp : forall q p, In (q, p) P -> wf (ep_val p)) by (intros q' p' I'; destruct (Hp q' p' I') as (b' & s' & H'); apply H').
  destruct (param_vjp_ok m Ni No zero one add mul sub opp R ad P I D C d Np Wi Hw args Hl ws v vals Hr Hv W Hcot trs0 J0 Ha0 Wp Hd0 (fun _ => Ht0)) as (G & EG & _ & _ & HG).
  destruct (HG q p Ip) as (g & Lg & _ & _ & Sg & Ng). pose proof Pl as (_ & _ & _ & _ & Sp). cbn [app] in Sp. exists r, B, g. split; [rewrite E; reflexivity|]. split; [exists G; split; [rewrite EG; reflexivity|exact Lg]|]. split; [congruence|].
  intros c Hcl. rewrite Ng by (rewrite Sp; exact Hcl). f_equal. exact (contracted zero one add mul sub opp R m d C P J0 J B W q p base c Ip Pl Hown Sh (fun o ob Io => Bl o ob q p Io Ip) Hcl).
Qed.
Print Assumptions C78_adjoint.

Example C78_case : named pm_model /\ NoDup (keys pm_params) /\ given_wf pm_model pm_in /\ welcome pm_model pm_in [2] /\ all_on pm_model pm_in cpu /\ lifted pm_model pm_in [2] pm_args /\
  (exists ws v, em_native pm_model (values pm_params) pm_args None = Ok (ws, v) /\ returned pm_model ws pm_vals) /\ calls_at pm_params [2] [2] /\ plain_params cpu pm_params /\ copies cpu [2] pm_params pm_leaf /\
  (exists trs, pm_ad pm_leaf pm_args = Ok trs /\ differentiates 0%Z Z.add Z.mul pm_model cpu [2] pm_leaf trs pm_J /\ Forall (fun tr => tr_grad tr <> None) trs) /\ own_copy 0%Z pm_model cpu [2] pm_params pm_J /\
  (exists trs, pm_ad (values pm_params) pm_args = Ok trs /\ differentiates 0%Z Z.add Z.mul pm_model cpu [2] (values pm_params) trs pm_J0 /\ Exists (fun tr => tr_grad tr <> None) trs) /\
  (forall o ob, In (o, ob) (em_outs pm_model) -> 0 < numel ob) /\ cotangents_ok pm_model cpu [2] pm_cots /\ shares 0%Z Z.add pm_model [2] pm_J0 pm_J "a" 1 /\ shares 0%Z Z.add pm_model [2] pm_J0 pm_J "k" 2.
Proof.
  exact (conj pm_named (conj pm_keys (conj pm_wf (conj pm_welcome (conj pm_on (conj pm_lifted (conj pm_returned (conj pm_calls (conj pm_plain (conj pm_copies (conj pm_differentiates (conj pm_own (conj pm_differentiates0 (conj pm_sized (conj pm_cotangents (conj pm_shares_a pm_shares_k)))))))))))))))).
Qed.
Example C78_run :
  eager_param_jacobian 0%Z 1%Z pm_model pm_ad pm_params pm_in =
    (pm_params, Ok ([("y", mkT [2] [13; 21]%Z cpu); ("z", mkT [2; 2] [3; 12; 5; 20]%Z cpu)],
      [("y", [("a", mkT [2] [3; 5]%Z cpu); ("b", mkT [2] [1; 1]%Z cpu); ("k", mkT [2; 2] [0; 0; 0; 0]%Z cpu)]);
       ("z", [("a", mkT [2; 2] [0; 0; 0; 0]%Z cpu); ("b", mkT [2; 2] [0; 0; 0; 0]%Z cpu); ("k", mkT [2; 2; 2] [3; 0; 0; 3; 5; 0; 0; 5]%Z cpu)])])) /\
  eager_param_vjp 0%Z Z.add pm_model pm_ad pm_params pm_in pm_cots =
    (pm_params, Ok [("a", mkT [] [53]%Z cpu); ("b", mkT [2] [1; 10]%Z cpu); ("k", mkT [2] [18; 26]%Z cpu)]).
Proof. split; vm_compute; reflexivity. Qed.

(** * The parameters *)

(** Whatever the call is given, whatever the model does or raises on the way: afterwards the parameters are what they were. *)
Theorem C78_restored : forall V (zero one : V) add (m : emodel V) ad (P : eparams V) I W, NoDup (keys P) ->
  fst (eager_param_jacobian zero one m ad P I) = P /\ fst (eager_param_vjp zero add m ad P I W) = P.
Proof. intros V zero one add m ad P I W. apply restored_all. Qed.
Print Assumptions C78_restored.
(** While the model runs they are the copies: it sees exactly the leaves that are differentiated. *)
Theorem C78_swapped : forall V (P : eparams V) leaf, NoDup (keys P) -> map fst leaf = keys P -> values (install P leaf) = leaf.
Proof. intros V P leaf. apply installed. Qed.
Print Assumptions C78_swapped.

Example C78_restored_case : fst (eager_param_jacobian 0%Z 1%Z pm_model (fun _ _ => Err (Convergence "no")) pm_params pm_in) = pm_params /\
  (exists w, snd (eager_param_jacobian 0%Z 1%Z pm_model (fun _ _ => Err (Convergence "no")) pm_params pm_in) = Err (Convergence w)) /\
  install pm_params pm_leaf <> pm_params.
Proof. split; [vm_compute; reflexivity|]. split; [eexists; vm_compute; reflexivity|]. intros E. apply (f_equal (fun P => match P with (_, p) :: _ => dim (ep_val p) | [] => 0 end)) in E. vm_compute in E. discriminate. Qed.

(** * Refusals *)

(** Inputs the model does not take end both calls in an error not to be retried after. *)
Theorem C78_refused : forall V (zero one : V) add (m : emodel V) ad (P : eparams V) I W, given_wf m I -> (forall D, ~ welcome m I D) ->
  fatal (snd (eager_param_jacobian zero one m ad P I)) /\ fatal (snd (eager_param_vjp zero add m ad P I W)).
Proof.
  intros V zero one add m ad P I W Wf Nw. destruct (typed_args_refuse m I Wf Nw) as [w E]. unfold eager_param_jacobian, adapter_param_jacobian, eager_param_vjp, adapter_param_vjp. rewrite E. cbn [bind snd]. split; apply guarded_std.
Qed.
Print Assumptions C78_refused.

Example C78_refused_case : (exists w, eager_param_jacobian 0%Z 1%Z pm_model pm_ad pm_params [] = (pm_params, Err (Fatal w))) /\
  exists w, eager_param_vjp 0%Z Z.add pm_model pm_ad pm_params pm_in [("y", mkT [2] [1; 10]%Z cpu)] = (pm_params, Err (Fatal w)).
Proof. split; eexists; vm_compute; reflexivity. Qed.

(** param_vjp() of a model with parameters does not return unless every output has a cotangent, on the device of the outputs. *)
Theorem C78_cotangents : forall V (zero : V) add (m : emodel V) ad (P : eparams V) I W d o, P <> [] -> NoDup (keys P) ->
  (forall args trs, ad (values P) args = Ok trs -> Forall (fun tr => t_dev (w_data (tr_out tr)) = d) trs) ->
  In o (map fst (em_outs m)) -> lookup o W = None \/ (exists w, lookup o W = Some w /\ t_dev w <> d) ->
  fst (eager_param_vjp zero add m ad P I W) = P /\ exists e, snd (eager_param_vjp zero add m ad P I W) = Err e.
Proof. intros V zero add m ad P I W d o. apply cotangents_needed. Qed.
Print Assumptions C78_cotangents.

Example C78_cotangents_case : (forall args trs, pm_ad (values pm_params) args = Ok trs -> Forall (fun tr => t_dev (w_data (tr_out tr)) = cpu) trs) /\
  (exists e, snd (eager_param_vjp 0%Z Z.add pm_model pm_ad pm_params pm_in [("y", mkT [2] [1; 10]%Z cpu)]) = Err e) /\
  exists e, snd (eager_param_vjp 0%Z Z.add pm_model pm_ad pm_params pm_in (map (fun o => (fst o, mkT [2] [1; 10]%Z (cuda 0))) (em_outs pm_model))) = Err e.
Proof. split; [intros args trs E; vm_compute in E; injection E as <-; repeat constructor|]. split; eexists; vm_compute; reflexivity. Qed.

(** * What does not hold *)

(** The documentation promises an explicit zero block for a pair (output, parameter) that does not depend on each other.  When an
    output depends on no parameter at all, the call raises instead; param_vjp() of the same model does not. *)
Theorem C78_constant_output_refuted :
  copies cpu [2] cm_params cm_leaf /\ cm_ad cm_leaf pm_args = Ok (cm_trs cm_leaf) /\ differentiates 0%Z Z.add Z.mul cm_model cpu [2] cm_leaf (cm_trs cm_leaf) cm_J /\ own_copy 0%Z cm_model cpu [2] cm_params cm_J /\
  (exists r, eager_forward cm_model cm_params pm_in = Ok r) /\ fatal (snd (eager_param_jacobian 0%Z 1%Z cm_model cm_ad cm_params pm_in)) /\
  exists g, snd (eager_param_vjp 0%Z Z.add cm_model (fun l _ => Ok (tracks [("y", [])] [2] [mkT [2] [6; 10]%Z cpu] (fun _ _ r _ => pm_x r) l ++ [mkTr (mkW (mkT [2] [6; 10]%Z cpu) 0 0) None])) cm_params pm_in
     [("y", mkT [2] [1; 10]%Z cpu); ("u", mkT [2] [1; 1]%Z cpu)]) = Ok [("a", g)] /\ t_data g = [53]%Z.
Proof.
  split; [exact cm_copies|]. split; [reflexivity|]. split; [exact cm_differentiates|]. split; [exact cm_own|]. split; [eexists; vm_compute; reflexivity|]. split; [eexists; vm_compute; reflexivity|]. eexists. split; vm_compute; reflexivity.
Qed.
Print Assumptions C78_constant_output_refuted.

(** A parameter with sub-batch axes (the knots of an interpolation): param_jacobian() raises, whatever the model would do ... *)
Theorem C78_knots_refuted : forall ad, (exists r, eager_forward (gm_model 2) gm_params (gm_in [5; 6]%Z) = Ok r) /\ fatal (snd (eager_param_jacobian 0%Z 1%Z (gm_model 2) ad gm_params (gm_in [5; 6]%Z))).
Proof. intros ad. split; eexists; vm_compute; reflexivity. Qed.
Print Assumptions C78_knots_refuted.
(** ... unless the batch has as many entries as there are knots: then the block of an entry is added up over the whole batch, so
    that it changes with the inputs of other entries. *)
Theorem C78_knots_mixed_refuted : exists x x' t t', nth_error x 0 = nth_error x' 0 /\ length x = length x' /\
  (exists r B, snd (eager_param_jacobian 0%Z 1%Z (gm_model 3) gm_ad gm_params (gm_in x)) = Ok (r, B) /\ block B "y" "k" = Some t) /\
  (exists r B, snd (eager_param_jacobian 0%Z 1%Z (gm_model 3) gm_ad gm_params (gm_in x')) = Ok (r, B) /\ block B "y" "k" = Some t') /\
  elem t [0] = Some 3%Z /\ elem t' [0] = Some 6%Z.
Proof.
  exists [1; 1; 1]%Z, [1; 2; 3]%Z. eexists. eexists. split; [reflexivity|]. split; [reflexivity|].
  split; [eexists; eexists; split; [vm_compute; reflexivity|reflexivity]|]. split; [eexists; eexists; split; [vm_compute; reflexivity|reflexivity]|]. split; reflexivity.
Qed.
Print Assumptions C78_knots_mixed_refuted.
