(** Lemmas about Settings.v. *)
From Coq Require Import String.
From Verif Require Import Load SpecLoad LoadProofs.
From Verif Require Import Base BaseProofs Tensor SpecRename Rename Float Newton Krylov BatchChunk Dispatch Params Async AsyncOp Substep Mat Jac Runtime Bundle SpecBundle BundleProofs Serve ServeJac Eager Settings SpecSettings.
Local Open Scope string_scope.
Local Open Scope list_scope.

(** ** What the loader reads *)
Section Load.
  Context {V : Type}.
  Variable of_int : Z -> V.
  Variable trunc : V -> result Z.
  Variable cast : string -> V -> V.
  Variable open_pkg : string -> result unit.
  Variable sdef : sconfig V.
  Variable kdef : kconfig V.

  (** Two files that differ in the solver's block only. *)
  Lemma load_elsewhere leaf d ex o o' m m' : (forall k, k <> "solver_config" -> lookup k o' = lookup k o) ->
    load of_int trunc cast open_pkg sdef kdef leaf d ex (JObj o) = Ok m -> load of_int trunc cast open_pkg sdef kdef leaf d ex (JObj o') = Ok m' ->
    ld_solver m' = ld_solver m -> ld_krylov m' = ld_krylov m -> m' = with_config (ld_cfg m') m.
  Proof.
    intros Ag. unfold load, value, each, each_opt, read_aliases, contains, jat, each, jat. rewrite !Ag by discriminate. intros E E'.
    repeat match type of E with
      | bind (read_solver _ _ _ _ _) _ = _ => fail 1
      | bind ?x _ = _ => destruct x; cbn [bind] in E, E'; [|discriminate E]
      end.
    apply bind_ok in E as ([cs kr] & _ & E). apply bind_ok in E' as ([cs' kr'] & _ & E').
    repeat match type of E with bind ?x _ = _ => destruct x; cbn [bind] in E, E'; [|discriminate E] end.
    destruct (offsets _ _) as [offs total]. injection E as <-. injection E' as <-. cbn. intros -> ->. reflexivity.
  Qed.
  Lemma write_elsewhere c (a : artifact V) k : k <> "solver_config" ->
    forall o o', write a = JObj o -> write (reconfigured c a) = JObj o' -> lookup k o' = lookup k o.
  Proof.
    intros Nk o o' E E'. apply (f_equal (fun j => match j with JObj x => x | _ => [] end)) in E, E'. unfold write, obj in E, E'. cbv beta iota in E, E'.
    rewrite <- E, <- E', !obj_lookup. unfold reconfigured, w_aliases.
    cbn [olookup ar_in ar_out ar_par ar_inputs ar_outputs ar_derivs ar_pderivs ar_params ar_solver ar_segs].
    assert (Es : String.eqb k "solver_config" = false) by (apply String.eqb_neq; exact Nk). rewrite !Es. reflexivity.
  Qed.
  Lemma load_reconfigured leaf d c (a : artifact V) m m' :
    load of_int trunc cast open_pkg sdef kdef leaf d true (write a) = Ok m -> faithful cast sdef kdef leaf d a m ->
    load of_int trunc cast open_pkg sdef kdef leaf d true (write (reconfigured c a)) = Ok m' -> faithful cast sdef kdef leaf d (reconfigured c a) m' ->
    m' = with_config c m.
  Proof.
    intros E F E' F'. do 12 apply proj2 in F. do 12 apply proj2 in F'. destruct F as (_ & Fs & Fk & _), F' as (Gc & Gs & Gk & _).
    cbn [reconfigured ar_solver] in Gc, Gs, Gk. rewrite <- Gc.
    destruct (write a) as [| | | | | |o] eqn:W; try discriminate W. destruct (write (reconfigured c a)) as [| | | | | |o'] eqn:W'; try discriminate W'.
    apply (load_elsewhere leaf d true o o' m m'); [|exact E|exact E'| |].
    - intros k Nk. exact (write_elsewhere c a k Nk o o' W W').
    - rewrite Gs, Fs. destruct (ar_solver a) as [[? [?|]]|]; reflexivity.
    - rewrite Gk, Fk. destruct (ar_solver a) as [[? [?|]]|]; reflexivity.
  Qed.
End Load.

(** ** Dispatchers that differ in nothing but where their packages came from *)
Definition same_model {V C C'} (x : model (V:=V) (C:=C)) (y : model (V:=V) (C:=C')) : Prop := md_device x = md_device y /\ md_loaded x = md_loaded y.
Definition alike {V C C'} (D : dispatched (V:=V) (C:=C)) (D' : dispatched (V:=V) (C:=C')) : Prop :=
  same_model (dm_active D) (dm_active D') /\ Forall2 (fun x y => fst x = fst y /\ same_model (snd x) (snd y)) (dm_models D) (dm_models D').

Lemma alike_model {V C C'} (D : dispatched (V:=V) (C:=C)) (D' : dispatched (V:=V) (C:=C')) d : alike D D' ->
  option_map md_loaded (dm_model D d) = option_map md_loaded (dm_model D' d).
Proof.
  intros [_ H]. unfold dm_model. induction H as [|x y l l' [E [_ L]] _ IH]; [reflexivity|]. cbn [find]. rewrite E. destruct (device_eqb d (fst y)); [cbn; rewrite L; reflexivity|exact IH].
Qed.
Lemma set_configs_last {V C} cs : forall (D : dispatched (V:=V) (C:=C)) c, set_configs D (cs ++ [c]) = set_config D c.
Proof.
  unfold set_configs. induction cs as [|c0 cs IH]; intros D c; [reflexivity|]. cbn [app fold_left]. rewrite IH. unfold set_config, model_config. cbn. rewrite map_map. reflexivity.
Qed.

Section Bundle.
  Context {V C H N : Type}.
  Variable of_int : Z -> V.
  Variable trunc : V -> result Z.
  Variable cast : string -> V -> V.
  Variable sdef : sconfig V.
  Variable kdef : kconfig V.
  Variable parse_json parse_json' : C -> result (json V).
  Variable open_pkg : C -> device -> result unit.
  Variable parse_hit : C -> result H.
  Variable find_node : H -> string -> option N.
  Variable param : N -> string -> result (option string).
  Notation open_model j := (open_model of_int trunc cast sdef kdef j open_pkg).
  Notation open_models j := (open_models of_int trunc cast sdef kdef j open_pkg).
  Notation load_model j := (load_model of_int trunc cast sdef kdef j open_pkg parse_hit find_node param).
  Notation bundle := (bundle parse_hit find_node param).
  Notation holds j := (holds kdef j open_pkg).
  Variables fs fs' : location -> option (node C).
  Variables cwd cwd' : location.

  Lemma open_models_alike r r' c devs : (forall d m m', In d devs -> open_model parse_json fs cwd r "float64" d = Ok m -> open_model parse_json' fs' cwd' r' "float64" d = Ok m' -> same_model (model_config c m) m') ->
    forall acc acc' ms ms', Forall2 (fun x y => fst x = fst y /\ same_model (model_config c (snd x)) (snd y)) acc acc' ->
    open_models parse_json fs cwd r "float64" devs acc = Ok ms -> open_models parse_json' fs' cwd' r' "float64" devs acc' = Ok ms' ->
    Forall2 (fun x y => fst x = fst y /\ same_model (model_config c (snd x)) (snd y)) ms ms'.
  Proof.
    induction devs as [|d devs IH]; intros K acc acc' ms ms' Ha E E'; cbn [Bundle.open_models] in E, E'.
    - injection E as <-. injection E' as <-. exact Ha.
    - apply bind_ok in E as (m & Em & E). apply bind_ok in E' as (m' & Em' & E').
      assert (Ex : existsb (fun e => device_eqb d (fst e)) acc = existsb (fun e => device_eqb d (fst e)) acc').
      { clear - Ha. induction Ha as [|x y l l' [Ef _] _ I]; [reflexivity|]. cbn [existsb]. rewrite Ef, I. reflexivity. }
      rewrite <- Ex in E'. refine (IH (fun d m m' Hd => K d m m' (or_intror Hd)) _ _ ms ms' _ E E').
      destruct (existsb _ acc); [exact Ha|]. apply Forall2_app; [exact Ha|]. constructor; [|constructor]. split; [reflexivity|]. exact (K d m m' (or_introl eq_refl) Em Em').
  Qed.
  Lemma reconfigured_alike p p' name name' s root root' c a D D' : bundle fs cwd p name root -> bundle fs' cwd' p' name' root' -> usable (given_scheduler s) -> Forall compiled_for (devices_of s) ->
    (forall d, In d (devices_of s) -> holds parse_json fs root a d) -> (forall d, In d (devices_of s) -> holds parse_json' fs' root' (reconfigured c a) d) ->
    load_model parse_json fs cwd p name s = Ok D -> load_model parse_json' fs' cwd' p' name' s = Ok D' -> alike (set_config D c) D'.
  Proof.
    intros (T & dir & file & x & path & L & F & St & Np & W) (T' & dir' & file' & x' & path' & L' & F' & St' & Np' & W') Us Cd Hh Hh' E E'.
    rewrite (load_model_is of_int trunc cast sdef kdef parse_json open_pkg parse_hit find_node param fs cwd p name s dir file x path L F St Np) in E.
    rewrite (load_model_is of_int trunc cast sdef kdef parse_json' open_pkg parse_hit find_node param fs' cwd' p' name' s dir' file' x' path' L' F' St' Np') in E'.
    assert (Lr := root_located fs cwd p dir file x path root T L F Np W). assert (Lr' := root_located fs' cwd' p' dir' file' x' path' root' T' L' F' Np' W').
    rewrite <- given_devices in *. destruct Us as [_ Us]. cbn [open_dispatched] in E, E'. rewrite Us in E, E'. cbn [assert_ bind] in E, E'.
    apply bind_ok in E as (u & _ & E). apply bind_ok in E as (ms & Em & E). apply bind_ok in E' as (u' & _ & E'). apply bind_ok in E' as (ms' & Em' & E').
    assert (A : Forall2 (fun x y => fst x = fst y /\ same_model (model_config c (snd x)) (snd y)) ms ms').
    { refine (open_models_alike _ _ c _ _ [] [] ms ms' (Forall2_nil _) Em Em'). intros d m m' Hd O O'. rewrite Forall_forall in Cd.
      destruct (model_opens of_int trunc cast sdef kdef parse_json open_pkg fs cwd _ root a d T Lr (Cd d Hd) (Hh d Hd)) as (n & On & Dn & Fn & _ & En).
      destruct (model_opens of_int trunc cast sdef kdef parse_json' open_pkg fs' cwd' _ root' _ d T' Lr' (Cd d Hd) (Hh' d Hd)) as (n' & On' & Dn' & Fn' & _ & En').
      rewrite O in On. injection On as <-. rewrite O' in On'. injection On' as <-. split; cbn [md_device md_loaded model_config]; [congruence|].
      symmetry. exact (load_reconfigured of_int trunc cast _ sdef kdef "float64" d c a _ _ En Fn En' Fn'). }
    assert (B : Forall2 (fun x y => fst x = fst y /\ same_model (snd x) (snd y)) (map (fun x => (fst x, model_config c (snd x))) ms) ms').
    { clear - A. induction A as [|y z l l' Hx _ IH]; constructor; [exact Hx|exact IH]. }
    destruct A as [|[d m] [d' m'] l l' [A0 A1] A]; [discriminate|]. injection E as <-. injection E' as <-. split; [exact A1|exact B].
  Qed.
End Bundle.

(** ** What they serve *)
Lemma sync_loop_ext {R} fuel (f g : Z -> Z -> result R) chunk b : (forall s c, f s c = g s c) -> forall s, sync_loop fuel f chunk b s = sync_loop fuel g chunk b s.
Proof. intros E. induction fuel as [|n IH]; intros s; [reflexivity|]. cbn [sync_loop]. rewrite E, IH. reflexivity. Qed.
Lemma sync_op_ext {V R} n (D : disp V) I (f f' : smap (tensor V) -> result R) g g' h : (forall x, f x = f' x) -> (forall a b d s c, g a b d s c = g' a b d s c) ->
  sync_op n D I f g h = sync_op n D I f' g' h.
Proof.
  intros Ef Eg. unfold sync_op. destruct (input_device I) as [in_dev|]; [|reflexivity]. destruct (_ && _).
  - destruct (model_at _ _) as [x|]; cbn [bind]; [rewrite Ef|]; reflexivity.
  - unfold sync_chunks. rewrite (sync_loop_ext _ _ _ _ _ (fun s c => Eg _ _ _ s c)). reflexivity.
Qed.

Lemma async_start_ext {V R} (g g' : device -> Z -> device -> Z -> Z -> result R) (I : smap (tensor V)) : (forall a b d s c, g a b d s c = g' a b d s c) ->
  match async_start g I, async_start g' I with
  | Ok (b, f), Ok (b', f') => b = b' /\ forall d s c, f d s c = f' d s c
  | Err e, Err e' => e = e'
  | _, _ => False
  end.
Proof. intros E. unfold async_start. destruct (input_device I); cbn [bind]; auto. Qed.

Section Serve.
  Context {C C' : Type}.
  Variable fsum rsum : list F -> F.
  Variable edot : list F -> list F -> F.
  Variable tri : list (list F) -> list F -> list F.
  Variable A : arith F.
  Variable neg : F -> F.
  Variable dot : list F -> list F -> F.
  Variable psum : list F -> F.
  Variable graph : device -> string -> list (tensor F) -> result (list (tensor F)).
  Variable capture : bool.
  Variable D : dispatched (V:=F) (C:=C).
  Variable D' : dispatched (V:=F) (C:=C').
  Hypothesis Al : alike D D'.

  Lemma at_alike {R} d (f : loaded F -> result R) : at_model D d f = at_model D' d f.
  Proof. unfold at_model. pose proof (alike_model D D' d Al) as E. destruct (dm_model D d), (dm_model D' d); try discriminate; [injection E as ->|]; reflexivity. Qed.
  Lemma fwd_alike d P I : fwd_at fsum rsum edot tri A graph capture D d P I = fwd_at fsum rsum edot tri A graph capture D' d P I.
  Proof. exact (at_alike d (fun m => call_model fsum rsum edot tri A graph capture m d P None I)). Qed.
  Lemma fresh_alike : fresh_of D = fresh_of D'.
  Proof.
    destruct Al as [[Ed _] Fm]. unfold fresh_of. rewrite Ed. f_equal. induction Fm as [|x y l l' [E [_ L]] _ IH]; [reflexivity|]. cbn [map]. rewrite E, L, IH. reflexivity.
  Qed.
  Lemma disp_alike s : disp_of D s = disp_of D' s.
  Proof. destruct Al as [[_ E] _]. unfold disp_of. rewrite E. reflexivity. Qed.
  Lemma full_alike s : full_disp D s = full_disp D' s.
  Proof. destruct Al as [[_ E] _]. unfold full_disp. rewrite E. reflexivity. Qed.
  Ltac chunked := repeat match goal with |- bind ?x _ = bind ?x _ => destruct x; cbn [bind]; [|reflexivity] end.

  Lemma serve_forward_alike n s I : serve_forward fsum rsum edot tri A graph capture D n s I = serve_forward fsum rsum edot tri A graph capture D' n s I.
  Proof.
    unfold serve_forward. destruct I as [|i I]; [reflexivity|]. destruct (sync_params s) as [s' [u|e]]; [|reflexivity]. rewrite disp_alike. f_equal. apply sync_op_ext.
    - intros x. apply fwd_alike.
    - intros in_dev b d p c. unfold chunk_forward. chunked. rewrite fwd_alike. reflexivity.
  Qed.
  Lemma after_alike {X} what (fail : exn -> X) I (f g : disp F -> X) s : (forall P, f P = g P) -> after_sync D what fail I f s = after_sync D' what fail I g s.
  Proof. intros E. unfold after_sync. destruct I; [reflexivity|]. destruct (sync_params s) as [s' [u|e]]; [|reflexivity]. rewrite full_alike, E. reflexivity. Qed.
  Lemma serve_jvp_alike n s I T : serve_jvp fsum rsum edot tri A neg dot graph capture D n s I T = serve_jvp fsum rsum edot tri A neg dot graph capture D' n s I T.
  Proof.
    apply after_alike. intros P. apply sync_op_ext.
    - intros x. apply at_alike.
    - intros in_dev b d p c. unfold chunk_jvp. chunked. unfold jvp_at. rewrite at_alike. reflexivity.
  Qed.
  Lemma serve_jacobian_alike n s I : serve_jacobian fsum rsum edot tri A neg dot graph capture D n s I = serve_jacobian fsum rsum edot tri A neg dot graph capture D' n s I.
  Proof.
    apply after_alike. intros P. apply sync_op_ext.
    - intros x. apply at_alike.
    - intros in_dev b d p c. unfold chunk_jacobian. chunked. unfold jacobian_at. rewrite at_alike. reflexivity.
  Qed.
  Lemma serve_param_jacobian_alike n s I : serve_param_jacobian fsum rsum edot tri A neg dot graph capture D n s I = serve_param_jacobian fsum rsum edot tri A neg dot graph capture D' n s I.
  Proof.
    apply after_alike. intros P. apply sync_op_ext.
    - intros x. apply at_alike.
    - intros in_dev b d p c. unfold chunk_jacobian. chunked. unfold param_jacobian_at. rewrite at_alike. reflexivity.
  Qed.
  Lemma serve_param_vjp_alike n s I W : serve_param_vjp fsum rsum edot tri A neg dot psum graph capture D n s I W = serve_param_vjp fsum rsum edot tri A neg dot psum graph capture D' n s I W.
  Proof.
    apply after_alike. intros P. apply sync_op_ext.
    - intros x. apply at_alike.
    - intros in_dev b d p c. unfold chunk_param_vjp. chunked. unfold param_vjp_at. rewrite at_alike. reflexivity.
  Qed.
  Lemma serve_pool_alike s I :
    let p := serve_pool fsum rsum edot tri A graph capture D s I in let p' := serve_pool fsum rsum edot tri A graph capture D' s I in
    fst p = fst p' /\
    match snd p, snd p' with
    | Ok (b, f), Ok (b', f') => b = b' /\ forall d s c, f d s c = f' d s c
    | Err e, Err e' => e = e'
    | _, _ => False
    end.
  Proof.
    cbv zeta. unfold serve_pool. destruct I as [|i I]; [split; reflexivity|]. destruct (sync_params s) as [s' [u|e]]; [|split; reflexivity]. cbn [fst snd]. split; [reflexivity|].
    rewrite disp_alike. apply async_start_ext. intros in_dev b d p c. unfold chunk_forward. chunked. rewrite fwd_alike. reflexivity.
  Qed.
  (** Two calls that start the same: the same state, the same batch, the same result of each chunk, the same made of the results. *)
  Lemma pool_of_alike {R} what (f f' : disp F -> device -> Z -> device -> Z -> Z -> result R) gather s I : (forall P a b d z k, f P a b d z k = f' P a b d z k) ->
    starts_alike (pool_of D what f gather s I) (pool_of D' what f' gather s I).
  Proof.
    intros E. unfold starts_alike, pool_of, after_sync. destruct I as [|i I]; [split; reflexivity|]. destruct (sync_params s) as [s' [u|e]]; [|split; reflexivity]. cbn [fst snd].
    split; [reflexivity|]. rewrite full_alike. unfold async_start. destruct (input_device (i :: I)); cbn [bind fst snd]; [|reflexivity]. split; [reflexivity|]. split; [intros; apply E|reflexivity].
  Qed.
  Lemma pool_jvp_alike s I T : starts_alike (pool_jvp fsum rsum edot tri A neg dot graph capture D s I T) (pool_jvp fsum rsum edot tri A neg dot graph capture D' s I T).
  Proof. apply pool_of_alike. intros P in_dev b d z k. unfold chunk_jvp. chunked. unfold jvp_at. rewrite at_alike. reflexivity. Qed.
  Lemma pool_jacobian_alike s I : starts_alike (pool_jacobian fsum rsum edot tri A neg dot graph capture D s I) (pool_jacobian fsum rsum edot tri A neg dot graph capture D' s I).
  Proof. apply pool_of_alike. intros P in_dev b d z k. unfold chunk_jacobian. chunked. unfold jacobian_at. rewrite at_alike. reflexivity. Qed.
  Lemma pool_param_jacobian_alike s I : starts_alike (pool_param_jacobian fsum rsum edot tri A neg dot graph capture D s I) (pool_param_jacobian fsum rsum edot tri A neg dot graph capture D' s I).
  Proof. apply pool_of_alike. intros P in_dev b d z k. unfold chunk_jacobian. chunked. unfold param_jacobian_at. rewrite at_alike. reflexivity. Qed.
  Lemma pool_param_vjp_alike s I W : starts_alike (pool_param_vjp fsum rsum edot tri A neg dot psum graph capture D s I W) (pool_param_vjp fsum rsum edot tri A neg dot psum graph capture D' s I W).
  Proof. apply pool_of_alike. intros P in_dev b d z k. unfold chunk_param_vjp. chunked. unfold param_vjp_at. rewrite at_alike. reflexivity. Qed.
End Serve.
Lemma fresh_set {C} (D : dispatched (V:=F) (C:=C)) c : fresh_of (set_config D c) = fresh_of D.
Proof. unfold fresh_of. cbn [set_config dm_models dm_active model_config md_device]. rewrite map_map. reflexivity. Qed.
