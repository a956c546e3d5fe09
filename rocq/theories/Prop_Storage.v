(** C81: in-place writes to parameters and the tensors that share their storage. *)
From Verif Require Import Base Tensor BatchChunk Spec Dispatch Params SpecParams Storage SpecStorage StorageProofs.

(** A dispatcher just loaded holds the artifact's values on every device, in
    storages that no other parameter, device or tensor of the program shares. *)
Theorem C81_loaded : forall V (dflt : V) H d ds P,
  NoDup (d :: ds) -> NoDup (keys P) -> all_on d P ->
  fresh_disp (valued dflt (load_disp H d ds P)) P /\
  NoDup (cells (load_disp H d ds P)) /\
  (forall c, In c (cells (load_disp H d ds P)) -> length H <= c < length (sd_heap (load_disp H d ds P))).
Proof.
  intros V dflt H d ds P N K On. split; [apply load_fresh; assumption|]. rewrite (load_cells dflt).
  split; [apply seq_NoDup|]. intros c I. apply in_seq in I. split; [lia|].
  unfold load_disp. destruct (load_models_spec dflt P (d :: ds) H) as (_ & L & _).
  destruct (load_models (d :: ds) H P) as [H' l]. cbn [fst sd_heap] in *. cbn [length] in L. lia.
Qed.
Print Assumptions C81_loaded.

(** The tensor found in named_parameters() is the parameter: whatever the program
    does next, as long as it puts no other tensor in the slot, the parameter is
    that tensor after all in-place operations on its storage, through whatever
    tensor they were made; evaluations, other parameters and other tensors do not
    matter. *)
Theorem C81_in_place : forall V (dflt : V) H d ds P h1 h2 n x m,
  NoDup (d :: ds) ->
  slot (srun dflt (load_disp H d ds P) h1) n = Some x -> keeps_slot n h2 ->
  visible (valued dflt (srun dflt (load_disp H d ds P) (h1 ++ h2))) = Some m ->
  lookup n m = Some (mkT (h_shape x)
    (map (fun i => nth i (written (h_cell x) h2
            (nth (h_cell x) (sd_heap (srun dflt (load_disp H d ds P) h1)) [])) dflt) (h_idx x)) (h_dev x)).
Proof. intros V dflt. exact (loaded_value dflt). Qed.
Print Assumptions C81_in_place.

(** In-place writes to one loaded parameter leave the others alone. *)
Theorem C81_isolated : forall V (dflt : V) H d ds P n k x y h m,
  NoDup (d :: ds) ->
  slot (load_disp H d ds P) n = Some x -> slot (load_disp H d ds P) k = Some y -> n <> k ->
  keeps_slot k h -> (forall c w, In (SWrite c w) h -> c = h_cell x) ->
  visible (valued dflt (srun dflt (load_disp H d ds P) h)) = Some m ->
  lookup k m = lookup k (on_dev d P).
Proof. intros V dflt. exact (loaded_isolated dflt). Qed.
Print Assumptions C81_isolated.

(** No tensor of the program, and no parameter, is ever written except by the
    program's own in-place operations. *)
Theorem C81_storage : forall V (dflt : V) H d ds P h1 h2 c,
  NoDup (d :: ds) ->
  let s := srun dflt (load_disp H d ds P) h1 in
  c < length (sd_heap s) ->
  nth c (sd_heap (srun dflt s h2)) [] = written c h2 (nth c (sd_heap s) []).
Proof. intros V dflt. exact (loaded_storage dflt). Qed.
Print Assumptions C81_storage.

(** set_parameter with a contiguous tensor shares it: the parameter follows the
    caller's later in-place operations. *)
Theorem C81_set_shares : forall V (dflt : V) H d ds P h1 h2 n x y m,
  NoDup (d :: ds) ->
  let s := srun dflt (load_disp H d ds P) h1 in
  h_cell x < length (sd_heap s) -> slot s n = Some y -> is_contig x = true -> keeps_slot n h2 ->
  visible (valued dflt (srun dflt s (SSet n x :: h2))) = Some m ->
  lookup n m = Some (mkT (h_shape x)
    (map (fun i => nth i (written (h_cell x) h2 (nth (h_cell x) (sd_heap s) [])) dflt) (h_idx x)) (h_dev x)).
Proof. intros V dflt. exact (set_shares dflt). Qed.
Print Assumptions C81_set_shares.

(** set_parameter with any other tensor copies it, into a storage that nobody
    had: the parameter keeps the value it was given. *)
Theorem C81_set_copies : forall V (dflt : V) H d ds P h1 h2 n x y m,
  NoDup (d :: ds) ->
  let s := srun dflt (load_disp H d ds P) h1 in
  h_cell x < length (sd_heap s) -> slot s n = Some y -> is_contig x = false -> keeps_slot n h2 ->
  (forall c w, In (SWrite c w) h2 -> c <> length (sd_heap s)) ->
  visible (valued dflt (srun dflt s (SSet n x :: h2))) = Some m ->
  lookup n m = Some (mkT (h_shape x) (read dflt (sd_heap s) x) (h_dev x)).
Proof. intros V dflt. exact (set_copies dflt). Qed.
Print Assumptions C81_set_copies.

(** When the program goes through the mutable named_parameters() between an
    in-place write and the next evaluation, every device evaluates with the
    master's current values. *)
Theorem C81_up_to_date : forall V (dflt : V) H d ds P h,
  NoDup (d :: ds) -> NoDup (keys P) -> all_on d P -> announced false h = true ->
  let s := srun dflt (load_disp H d ds P) h in
  snd (hsync dflt s) = Ok tt ->
  forall e, up_to_date (valued dflt (fst (hsync dflt s))) e.
Proof.
  intros V dflt H d ds P h N K On An s R.
  exact (announced_up_to_date dflt _ P h (load_sound dflt H d ds P) (load_fresh dflt H d ds P N K On) An R).
Qed.
Print Assumptions C81_up_to_date.

(** The same, exactly and without condition on the synchronisation, which then
    never fails: every device holds the master's map, moved there. *)
Theorem C81_copies_exact : forall V (dflt : V) H d ds P h,
  NoDup (d :: ds) -> NoDup (keys P) -> all_on d P -> announced false h = true ->
  let s := srun dflt (load_disp H d ds P) h in
  snd (hsync dflt s) = Ok tt /\
  exists m, visible (valued dflt s) = Some m /\ keys m = keys P /\
    forall e, In e (d :: ds) ->
      store_of e (pd_models (valued dflt (fst (hsync dflt s)))) = Some (if device_eqb e d then m else on_dev e m).
Proof. intros V dflt. exact (announced_exact dflt). Qed.
Print Assumptions C81_copies_exact.

(** Without in-place writes the values are those of the value model of C21, so
    that C21 and everything built on it speaks of shared storages as well. *)
Theorem C81_by_value : forall V (dflt : V) H d ds P h,
  NoDup (d :: ds) -> no_write h ->
  let s := load_disp H d ds P in
  valued dflt (srun dflt s h) = prun (valued dflt s) (by_value dflt s h) /\
  sync_params (valued dflt (srun dflt s h)) =
    (valued dflt (fst (hsync dflt (srun dflt s h))), snd (hsync dflt (srun dflt s h))).
Proof.
  intros V dflt H d ds P h N Nw s. split.
  - apply run_valued; [exact (load_sound dflt H d ds P)|apply load_shape; exact N|exact Nw].
  - apply hsync_spec, run_sound. exact (load_sound dflt H d ds P).
Qed.
Print Assumptions C81_by_value.

(** ** A case: a parameter k = 3 and a vector e on cpu and cuda:0; the program
    has a buffer [10; 11; 12; 13] *)
Definition sx_P : smap (tensor Z) :=
  [("e"%string, mkT [2] [1%Z; 2%Z] cpu); ("k"%string, mkT [] [3%Z] cpu)].
Definition sx : sdisp Z := load_disp [[10; 11; 12; 13]%Z] cpu [cuda 0] sx_P.
(** The first two elements of the buffer, and every other one. *)
Definition sx_head : hnd := mkH 0 cpu [2] [0; 1].
Definition sx_other : hnd := mkH 0 cpu [2] [0; 2].
Definition sx_all (z : Z) : list Z -> list Z := map (fun _ => z).
(** What the two devices would use in the next evaluation. *)
Definition sx_next (s : sdisp Z) (n : string) : list (device * option (list Z)) :=
  map (fun dm => (fst dm, option_map (read 0%Z (sd_heap (fst (hsync 0%Z s)))) (lookup n (snd dm))))
      (sd_models (fst (hsync 0%Z s))).

Example C81_case :
  (NoDup (cpu :: [cuda 0]) /\ NoDup (keys sx_P) /\ all_on cpu sx_P) /\
  slot sx "k" = Some (mkH 2 cpu [] [0]) /\ slot sx "e" = Some (mkH 1 cpu [2] [0; 1]) /\
  is_contig sx_head = true /\ is_contig sx_other = false /\
  (* written in place and announced: both devices see it, e is not touched *)
  (let h := [SEval; SWrite 2 (sx_all 7%Z); SMut] in
   announced false h = true /\
   sx_next (srun 0%Z sx h) "k" = [(cpu, Some [7%Z]); (cuda 0, Some [7%Z])] /\
   sx_next (srun 0%Z sx h) "e" = [(cpu, Some [1%Z; 2%Z]); (cuda 0, Some [1%Z; 2%Z])]) /\
  (* a strided view is copied: the buffer may be reused *)
  (let h := [SSet "e" sx_other; SEval; SWrite 0 (sx_all 0%Z); SMut] in
   sx_next (srun 0%Z sx h) "e" = [(cpu, Some [10%Z; 12%Z]); (cuda 0, Some [10%Z; 12%Z])]) /\
  (* a contiguous one is shared *)
  (let h := [SSet "e" sx_head; SEval; SWrite 0 (sx_all 0%Z); SMut] in
   sx_next (srun 0%Z sx h) "e" = [(cpu, Some [0%Z; 0%Z]); (cuda 0, Some [0%Z; 0%Z])]).
Proof.
  split.
  - split; [|split].
    + repeat constructor; cbn; intuition discriminate.
    + repeat constructor; cbn; intuition discriminate.
    + repeat constructor.
  - vm_compute. repeat split; reflexivity.
Qed.

(** The documentation of [DispatchedModel] ("mutating it in place is broadcast to
    every device copy before the next dispatch") is false of a tensor kept from
    an earlier named_parameters(): the write reaches the master and not the other
    devices, and one evaluation uses two values of one parameter. *)
Theorem C81_kept_tensor_refuted :
  exists (H : heap Z) d ds P h x n,
    NoDup (d :: ds) /\ NoDup (keys P) /\ all_on d P /\
    (* the tensor written is the one named_parameters() handed out *)
    slot (srun 0%Z (load_disp H d ds P) [SMut]) n = Some x /\
    h = [SMut; SEval; SWrite (h_cell x) (fun _ => [9%Z])] /\
    let s := srun 0%Z (load_disp H d ds P) h in
    snd (hsync 0%Z s) = Ok tt /\
    exists e, ~ up_to_date (valued 0%Z (fst (hsync 0%Z s))) e.
Proof.
  exists [[10; 11; 12; 13]%Z], cpu, [cuda 0], sx_P, [SMut; SEval; SWrite 2 (fun _ => [9%Z])],
    (mkH 2 cpu [] [0]), "k"%string.
  split; [apply C81_case|]. split; [apply C81_case|]. split; [apply C81_case|].
  split; [vm_compute; reflexivity|]. split; [reflexivity|].
  split; [vm_compute; reflexivity|]. exists (cuda 0). intros U.
  specialize (U [("e"%string, mkT [2] [1%Z; 2%Z] cpu); ("k"%string, mkT [] [9%Z] cpu)]
                [("e"%string, mkT [2] [1%Z; 2%Z] (cuda 0)); ("k"%string, mkT [] [3%Z] (cuda 0))]
                "k"%string (mkT [] [9%Z] cpu)).
  vm_compute in U. specialize (U eq_refl eq_refl (fun F => ltac:(discriminate F)) eq_refl). discriminate.
Qed.
Print Assumptions C81_kept_tensor_refuted.

(** "The thin class owns the underlying tensors" is false after set_parameter with
    a contiguous tensor: the program reuses its buffer, never touches the
    dispatcher again, and the next evaluation uses the buffer's new contents on
    the master's device and the old ones on the other. *)
Theorem C81_owned_refuted :
  exists (s : sdisp Z) n x,
    s = sx /\ h_cell x < length (sd_heap s) /\
    let s1 := srun 0%Z s [SSet n x; SEval] in
    let s2 := srun 0%Z s1 [SWrite (h_cell x) (sx_all 0%Z); SEval] in
    sx_next s1 n = [(cpu, Some [10%Z; 11%Z]); (cuda 0, Some [10%Z; 11%Z])] /\
    sx_next s2 n = [(cpu, Some [0%Z; 0%Z]); (cuda 0, Some [10%Z; 11%Z])].
Proof.
  exists sx, "e"%string, sx_head. split; [reflexivity|]. split; [vm_compute; lia|].
  vm_compute. split; reflexivity.
Qed.
Print Assumptions C81_owned_refuted.
