(** Vocabulary of C74: what a dispatched derivative is, in terms of the artifact. *)
From Coq Require Import String.
From Verif Require Import Load SpecLoad.
From Verif Require Import Base Tensor Spec SpecMap SpecRename Float Substep Mat Jac JacModel ParamJac SpecRuntime SpecRuntimeParam.
Local Open Scope list_scope.

(** A block of a Jacobian. *)
Definition pair_at {V} (o i : string) (j : smap (smap (tensor V))) : option (tensor V) := match lookup o j with Some r => lookup i r | None => None end.

Section Says.
  Variable fsum rsum : list F -> F.
  Variable edot : list F -> list F -> F.
  Variable tri : list (list F) -> list F -> list F.
  Variable A : arith F.
  Variable neg : F -> F.
  Variable dot : list F -> list F -> F.
  Variable psum : list F -> F.
  Variable cast : string -> F -> F.
  Variable graph : device -> string -> list (tensor F) -> result (list (tensor F)).
  Variable sdef : sconfig F.
  Variable a : artifact F.
  Variable capture : bool.
  Notation vmap := (smap (tensor F)).

  (** The rows [s .. s+c-1] of a map on a device, and of those parameters that are given per batch element. *)
  Definition rows_on (b : nat) (d : device) (s c : Z) (I : vmap) : vmap := on_dev d (chunk_map b (Z.to_nat s) (Z.to_nat c) I).
  Definition params_on (nds : smap nat) (P : vmap) (b : nat) (d : device) (s c : Z) : option vmap := Some (on_dev d (chunk_params b (Z.to_nat s) (Z.to_nat c) nds P)).

  (** The values beside the blocks: under the names of the declared outputs what the artifact says. *)
  Definition values_say (nds : smap nat) (P I : vmap) (b : nat) (d : device) (s c : Z) (r : vmap) : Prop :=
    exists out, artifact_says fsum rsum edot tri A cast (graph d) sdef "float64" d a (params_on nds P b d s c) (rows_on b d s c I) out /\
                forall n, In n (map op_name (ar_outputs a)) -> lookup (boundary (ar_out a) n) r = lookup n out.

  (** [r] is what the operation of the model that the artifact describes (C26, C28, C29) returns on the rows, at these rows of the parameters, under the
      names of the boundary. *)
  Definition describes (d : device) (jm : jmodel F) (nb : smap nat) : Prop :=
    model_says fsum rsum edot tri (graph d) sdef a jm /\ forall p, In p (ar_params a) -> lookup (ap_name p) nb = Some (length (ap_base p)).
  Definition jvp_says (nds : smap nat) (P I T : vmap) (b : nat) (d : device) (s c : Z) (r : vmap * vmap) : Prop :=
    exists jm nb par out w, describes d jm nb /\ params_say cast "float64" d a (params_on nds P b d s c) par /\
      jvp A neg dot par nb capture jm (rows_on b d s c I) (rows_on b d s c T) = Ok (out, w) /\
      renamed (boundary (ar_out a)) out (fst r) /\ renamed (boundary (ar_out a)) w (snd r).
  Definition jacobian_says (nds : smap nat) (P I : vmap) (b : nat) (d : device) (s c : Z) (r : vmap * smap vmap) : Prop :=
    exists jm nb par out jac, describes d jm nb /\ params_say cast "float64" d a (params_on nds P b d s c) par /\
      jacobian A neg dot par nb capture jm (rows_on b d s c I) = Ok (out, jac) /\
      renamed (boundary (ar_out a)) out (fst r) /\ renamed2 (boundary (ar_out a)) (boundary (ar_in a)) jac (snd r).
  Definition pdescribes (d : device) (pm : pmodel F) (pb : smap (list nat)) : Prop := pmodel_says fsum rsum edot tri (graph d) sdef a pm /\ bases_say a pb.
  Definition param_jacobian_says (nds : smap nat) (P I : vmap) (b : nat) (d : device) (s c : Z) (r : vmap * smap vmap) : Prop :=
    exists pm pb par out jac, pdescribes d pm pb /\ params_say cast "float64" d a (params_on nds P b d s c) par /\
      param_jacobian A neg dot par pb capture pm (rows_on b d s c I) = Ok (out, jac) /\
      renamed (boundary (ar_out a)) out (fst r) /\ renamed2 (boundary (ar_out a)) (boundary (ar_par a)) jac (snd r).
  Definition param_vjp_says (nds : smap nat) (P I W : vmap) (b : nat) (d : device) (s c : Z) (r : vmap) : Prop :=
    exists pm pb par g, pdescribes d pm pb /\ params_say cast "float64" d a (params_on nds P b d s c) par /\
      param_vjp A neg dot psum par pb capture pm (rows_on b d s c I) (rows_on b d s c W) = Ok g /\ renamed (boundary (ar_par a)) g r.

  (** ** Names *)
  (** A single segment bypasses the declared pairs: its own name outputs of the segment, or of the artifact, and inputs or
      parameters of the artifact.  The names stay distinct. *)
  Definition named_pairs : Prop :=
    forall ps f, ar_segs a = [mkMseg ps (MForward f)] -> incl (map op_name (ar_outputs a)) (fw_outputs f) /\ clash_free (ar_out a) (fw_outputs f) /\
      forall p, In p (fw_pairs f) -> In (mp_out p) (fw_outputs f) /\ In (mp_in p) (map ip_name (ar_inputs a)).
  Definition named_params : Prop :=
    clash_free (ar_par a) (map ap_name (ar_params a)) /\
    forall ps k, ar_segs a = [mkMseg ps k] ->
      (forall p, In p (match k with MForward f => fw_ppairs f | MImplicit i => im_ppairs i end) -> In (mq_out p) (map op_name (ar_outputs a)) /\ In (mq_param p) (map ap_name (ar_params a))) /\
      match k with MForward f => incl (fw_pvjp_params f) (map ap_name (ar_params a)) | MImplicit _ => True end.
  (** The ranks of the base shapes of the outputs and the inputs. *)
  Definition out_ranks_of (nds : smap nat) : Prop := forall o, In o (ar_outputs a) -> lookup (boundary (ar_out a) (op_name o)) nds = Some (length (op_base o)).
  Definition in_ranks_of (nds : smap nat) : Prop := forall i, In i (ar_inputs a) -> lookup (boundary (ar_in a) (ip_name i)) nds = Some (length (ip_base i)).
End Says.

(** [jac] has the blocks of the ranges [l] in place: the same names, and under each pair of names either, where the block of the
    first range has the base axes only, that block, or, where the parts have a row per batch element, these rows at the positions
    of their range. *)
Definition blocks_in_place {V} (in_dev : device) (b : nat) (onds inds : smap nat) (l : list (Z * Z)) (js : list (smap (smap (tensor V)))) (jac : smap (smap (tensor V))) : Prop :=
  (forall j o i, In j js -> (pair_at o i jac = None <-> pair_at o i j = None)) /\
  forall o i t, pair_at o i jac = Some t ->
    exists us, Forall2 (fun j u => pair_at o i j = Some u) js us /\
      (forall u us' no ni, us = u :: us' -> lookup o onds = Some no -> lookup i inds = Some ni -> dim u = no + ni -> to_dev in_dev t = to_dev in_dev u) /\
      ((forall u us' no ni, us = u :: us' -> lookup o onds = Some no -> lookup i inds = Some ni -> dim u <> no + ni) ->
       Forall2 (fun x u => wf u /\ batched (Z.to_nat (snd x)) u) l us ->
       wf t /\ batched b t /\ Forall2 (fun x u => is_rows (Z.to_nat (fst x)) (Z.to_nat (snd x)) (to_dev in_dev t) (to_dev in_dev u)) l us) /\
      (t_dev t = in_dev \/ us = [t]).

(** [t] is the sum of [us], from the first to the last, element by element. *)
Definition summed {V} (add : V -> V -> V) (us : list (tensor V)) (t : tensor V) : Prop :=
  exists u us', us = u :: us' /\ Forall (fun v => t_shape v = t_shape u) us' /\ t_shape t = t_shape u /\
    forall k x, nth_error (t_data u) k = Some x ->
      exists xs, Forall2 (fun v y => nth_error (t_data v) k = Some y) us' xs /\ nth_error (t_data t) k = Some (fold_left add xs x).
(** [g] has the gradients of the ranges [l] together: the same names; that of a parameter given per batch element has the rows of
    the parts in place, any other is their sum. *)
Definition gradients_together {V} (add : V -> V -> V) (in_dev : device) (b : nat) (nds : smap nat) (P : smap (tensor V)) (l : list (Z * Z)) (gs : list (smap (tensor V))) (g : smap (tensor V)) : Prop :=
  (forall r q, In r gs -> (lookup q g = None <-> lookup q r = None)) /\
  forall q t, lookup q g = Some t ->
    exists us, Forall2 (fun r u => lookup q r = Some u) gs us /\
      forall v nd, lookup q P = Some v -> lookup q nds = Some nd ->
        ((batched b v /\ nd < dim v) -> Forall2 (fun x u => wf u /\ batched (Z.to_nat (snd x)) u) l us ->
         wf t /\ batched b t /\ Forall2 (fun x u => is_rows (Z.to_nat (fst x)) (Z.to_nat (snd x)) (to_dev in_dev t) (to_dev in_dev u)) l us) /\
        (~ (batched b v /\ nd < dim v) -> Forall wf us -> summed add us t).
