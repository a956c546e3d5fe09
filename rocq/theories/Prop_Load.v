(** Properties C60 and C61: what a model loaded from an artifact holds. *)
From Coq Require Import String.
From Verif Require Import Base Tensor SpecRename Rename Krylov Float Load SpecLoad LoadProofs Example_Load.
Local Open Scope string_scope.
Local Open Scope list_scope.
Local Open Scope Z_scope.

(** ** C60: the loader reads what the exporter wrote *)
Theorem C60_roundtrip : forall V (of_int : Z -> V) trunc cast open_pkg sdef kdef leaf d a,
  artifact_ok kdef (fun s => open_pkg s = Ok tt) a ->
  exists m, load of_int trunc cast open_pkg sdef kdef leaf d true (write a) = Ok m /\ faithful cast sdef kdef leaf d a m.
Proof. intros * H. destruct (load_write of_int trunc cast open_pkg sdef kdef leaf d a H) as (m & E & Fm & _). exists m. auto. Qed.
Print Assumptions C60_roundtrip.

(** The settings of the solver: those the file gives arrive in their own field, the others keep their default. *)
Theorem C60_settings : forall V (of_int : Z -> V) trunc cast open_pkg sdef kdef leaf d ex o m,
  load of_int trunc cast open_pkg sdef kdef leaf d ex (JObj o) = Ok m -> settings o sdef kdef m.
Proof. intros * H. apply load_sound in H as (_ & _ & _ & o' & E & H). injection E as <-. exact H. Qed.
Print Assumptions C60_settings.

(** The same for the two sensitivity solves of an implicit segment. *)
Theorem C60_sensitivity : forall V (of_int : Z -> V) trunc open_pkg kdef o i,
  read_implicit of_int trunc open_pkg kdef (JObj o) = Ok i ->
  let block k v := given o k (fun v p => exists ov, v = JObj ov /\ given ov "kind" is_str "direct" (fst p) /\
    given ov "krylov" (fun w k => exists ok, w = JObj ok /\ krylov_settings ok kdef k) kdef (snd p)) ("direct", kdef) v in
  block "input_sensitivity" (im_in_kind i, im_in_krylov i) /\ block "param_sensitivity" (im_par_kind i, im_par_krylov i).
Proof. intros *. apply implicit_sensitivities. Qed.
Print Assumptions C60_sensitivity.

(** A forward segment and a matrix-free implicit segment with preconditioner, predictor and feedback. *)
Example C60_case : exists m, lx_load (write lx_artifact) = Ok m /\ faithful lx_cast lx_sdef lx_kdef "float64" cpu lx_artifact m /\
  ld_offsets m = [0; 6; 7] /\ ld_total m = 13 /\ sc_rtol (ld_cfg m) = fnum 1 (-30) /\ k_cache_max_its (ld_krylov m) = 7.
Proof.
  destruct (C60_roundtrip F lx_of_int lx_trunc lx_cast lx_open lx_sdef lx_kdef "float64" cpu lx_artifact lx_ok) as (m & E & Fm).
  exists m. split; [exact E|]. split; [exact Fm|]. vm_compute in E. injection E as <-. repeat split; reflexivity.
Qed.
(** Settings left out. *)
Example C60_settings_case : exists m, lx_load (lx_meta (JInt 14) [("rtol", Some (JNum (fnum 1 (-3)))); ("krylov", Some (obj [("restart", Some (JInt 5))]))]) = Ok m /\
  sc_rtol (ld_cfg m) = fnum 1 (-3) /\ sc_atol (ld_cfg m) = sc_atol lx_sdef /\ k_restart (ld_krylov m) = 5 /\ k_max_its (ld_krylov m) = 1000.
Proof.
  destruct (lx_load _) as [m|] eqn:E; vm_compute in E; [|discriminate]. exists m. split; [reflexivity|]. injection E as <-. repeat split; reflexivity.
Qed.

(** ** C61: what is known of every loaded model *)
(** Whatever the metadata says: a loaded model opened all its packages, has unknowns in every implicit segment, feedback
    variables within the predictor, consistent offsets, and only derivatives of inputs and parameters it has; the
    metadata had the right version and type, and every segment is of the kind its description names. *)
Theorem C61_sound : forall V (of_int : Z -> V) trunc cast open_pkg sdef kdef leaf d ex meta m,
  load of_int trunc cast open_pkg sdef kdef leaf d ex meta = Ok m ->
  loaded_sound (fun s => open_pkg s = Ok tt) m /\ metadata_sound meta m /\ ex = true.
Proof. intros * H. apply load_sound in H as (H1 & H2 & H3 & _). auto. Qed.
Print Assumptions C61_sound.

(** Parameters without inline values are refused. *)
Theorem C61_values : forall V (of_int : Z -> V) trunc cast open_pkg sdef kdef leaf d ex o m ps p,
  load of_int trunc cast open_pkg sdef kdef leaf d ex (JObj o) = Ok m -> lookup "parameters" o = Some (JArr ps) -> In p ps ->
  exists op vs, p = JObj op /\ lookup "values" op = Some (JArr vs).
Proof. intros * H L I. destruct (load_params_reads _ _ _ _ _ _ _ _ _ _ _ _ H L p I) as (r & Er). exact (param_values _ _ _ _ _ _ _ Er). Qed.
Print Assumptions C61_values.

Example C61_case : exists m, lx_load (write lx_artifact) = Ok m /\ length (ld_segs m) = 2%nat /\ ld_pderivs m = [("stress", "E")].
Proof.
  destruct (lx_load _) as [m|] eqn:E; vm_compute in E; [|discriminate]. exists m. split; [reflexivity|]. injection E as <-. split; reflexivity.
Qed.

(** Missing keys are not refused: reading one through a const reference is undefined. *)
Theorem C61_missing_refuted : forall V (of_int : Z -> V) trunc cast open_pkg sdef kdef leaf d o,
  lookup "schema_version" o = Some (JInt 14) -> lookup "type" o = Some (JStr "composed") -> lookup "boundary_aliases" o = None ->
  lookup "inputs" o = None ->
  load of_int trunc cast open_pkg sdef kdef leaf d true (JObj o) = Err (OtherExn 0).
Proof.
  intros * E1 E2 E3 E4. unfold load, value, read_aliases, contains, each, jat. rewrite E1, E2. cbn [get_i32 get_str bind].
  rewrite i32_id by (unfold i32_range; lia). cbn [assert_ bind Z.eqb Pos.eqb String.eqb Ascii.eqb Bool.eqb]. rewrite E3. cbn [bind]. rewrite E4. reflexivity.
Qed.
Print Assumptions C61_missing_refuted.
(** ... and unknown solver names are accepted (and run as direct solvers, solve.cpp:227), negative iteration counts become huge,
    versions and counts wrap. *)
Theorem C61_accepts_refuted :
  (exists m, lx_load (lx_meta (JInt 14) [("solver_kind", w_str "Krylov")]) = Ok m /\ ld_solver m = "Krylov") /\
  (exists m, lx_load (lx_meta (JInt 14) [("miters", Some (JInt (-1)))]) = Ok m /\ sc_miters (ld_cfg m) = 2 ^ 64 - 1) /\
  (exists m, lx_load (lx_meta (JInt (2 ^ 32 + 14)) []) = Ok m).
Proof.
  split; [|split].
  - destruct (lx_load _) as [m|] eqn:E; vm_compute in E; [|discriminate]. exists m. split; [reflexivity|]. injection E as <-. reflexivity.
  - destruct (lx_load _) as [m|] eqn:E; vm_compute in E; [|discriminate]. exists m. split; [reflexivity|]. injection E as <-. reflexivity.
  - destruct (lx_load _) as [m|] eqn:E; vm_compute in E; [|discriminate]. exists m. reflexivity.
Qed.
Print Assumptions C61_accepts_refuted.
