(** Lemmas about Bundle.v. *)
From Verif Require Import Base BaseProofs Tensor TensorProofs SpecRename Krylov Load SpecLoad LoadProofs Bundle SpecBundle.
Local Open Scope string_scope.
Local Open Scope list_scope.

(** ** Paths *)
Lemma components_some p : components p <> [].
Proof. destruct p as [|c p]; cbn; [discriminate|]. destruct (is_sep c); [discriminate|]. destruct (components p); discriminate. Qed.
Lemma components_app b a : components (b ++ "/" ++ a) = components b ++ components a.
Proof.
  induction b as [|c b IH]; [reflexivity|]. cbn [append components] in *. destruct (is_sep c); [rewrite IH; reflexivity|].
  rewrite IH. destruct (components b) as [|x l] eqn:E; [destruct (components_some b E)|reflexivity].
Qed.
Lemma sep_is c : is_sep c = true -> c = "/"%char.
Proof. apply Ascii.eqb_eq. Qed.
Lemma cut_some p b a : cut p = Some (b, a) -> p = (b ++ "/" ++ a)%string /\ cut a = None.
Proof.
  revert b a. induction p as [|c p IH]; intros b a E; cbn [cut] in E; [discriminate|]. destruct (cut p) as [[b' a']|] eqn:Ec.
  - injection E as <- <-. destruct (IH b' a' eq_refl) as [-> Ha]. split; [reflexivity|exact Ha].
  - destruct (is_sep c) eqn:Es; [|discriminate]. injection E as <- <-. apply sep_is in Es as ->. split; [reflexivity|exact Ec].
Qed.
Lemma cut_none p : cut p = None -> components p = [p].
Proof.
  induction p as [|c p IH]; intros E; [reflexivity|]. cbn [cut] in E. destruct (cut p) as [[b a]|]; [discriminate|].
  destruct (is_sep c) eqn:Es; [discriminate|]. cbn [components]. rewrite Es, (IH eq_refl). reflexivity.
Qed.
Lemma cut_plain s : plain s -> cut s = None.
Proof. intros (_ & _ & _ & H). destruct (cut s) as [[b a]|] eqn:E; [|reflexivity]. destruct (cut_some s b a E) as [E1 _]. destruct (H b a E1). Qed.
Lemma plain_relative s : plain s -> is_absolute s = false.
Proof. intros (_ & _ & _ & H). destruct s as [|c s]; [reflexivity|]. cbn. destruct (is_sep c) eqn:E; [|reflexivity]. apply sep_is in E as ->. destruct (H "" s eq_refl). Qed.
Lemma plain_enter l s : plain s -> enter l s = l ++ [s].
Proof.
  intros (H1 & H2 & H3 & _). unfold enter. destruct (String.eqb_spec s ""); [congruence|]. destruct (String.eqb_spec s "."); [congruence|].
  destruct (String.eqb_spec s ".."); [congruence|reflexivity].
Qed.
Lemma append_nil (p : string) : (p ++ "")%string = p.
Proof. induction p as [|c p IH]; [reflexivity|]. cbn. rewrite IH. reflexivity. Qed.
Lemma append_assoc (a b c : string) : ((a ++ b) ++ c)%string = (a ++ b ++ c)%string.
Proof. induction a as [|x a IH]; [reflexivity|]. cbn. rewrite IH. reflexivity. Qed.
Lemma no_filename_is p : no_filename p = true -> p = "" \/ exists q, p = (q ++ "/")%string.
Proof.
  induction p as [|c p IH]; intros E; [left; reflexivity|]. right. destruct p as [|c' p].
  - cbn in E. apply sep_is in E as ->. exists "". reflexivity.
  - destruct (IH E) as [D|[q ->]]; [discriminate D|]. exists (String c q). reflexivity.
Qed.
Lemma strip_components b : exists k, components b = components (strip b) ++ repeat "" k.
Proof.
  induction b as [|c b (k & IH)]; [exists 0%nat; reflexivity|]. cbn [strip]. destruct (strip b) as [|x t] eqn:Es.
  - cbn [components app] in IH |- *. destruct (is_sep c) eqn:Ec.
    + cbn [components]. rewrite IH. exists (S k). reflexivity.
    + cbn [components]. rewrite ?Ec, IH. exists k. reflexivity.
  - cbn [components] in *. destruct (is_sep c) eqn:Ec; rewrite ?IH; [exists k; reflexivity|].
    exists k. destruct (if is_sep x then _ else _) as [|y l] eqn:E; [|reflexivity].
    exfalso. destruct (is_sep x); [discriminate|]. destruct (components t); discriminate.
Qed.
Lemma strip_absolute b x t : strip b = String x t -> is_absolute b = is_sep x.
Proof.
  destruct b as [|c b]; cbn [strip is_absolute]; [discriminate|]. destruct (strip b); intros E; [|injection E as -> _; reflexivity].
  destruct (is_sep c) eqn:Ec; [discriminate|]. injection E as <- _. symmetry. exact Ec.
Qed.
Lemma strip_filename b : no_filename (strip b) = true -> strip b = "".
Proof.
  induction b as [|c b IH]; intros E; [reflexivity|]. cbn [strip] in *. destruct (strip b) as [|x t] eqn:Es.
  - destruct (is_sep c) eqn:Ec; [reflexivity|]. cbn in E. rewrite Ec in E. discriminate.
  - change (no_filename (String x t) = true) in E. specialize (IH E). discriminate.
Qed.
Lemma strip_nil b : strip b = "" -> b = "" \/ is_absolute b = true.
Proof.
  destruct b as [|c b]; [left; reflexivity|]. right. cbn [strip] in H. destruct (strip b); [|discriminate]. cbn. destruct (is_sep c); [reflexivity|discriminate].
Qed.

(** ** Walks *)
Section Walk.
  Context {C : Type}.
  Variable fs : location -> option (node C).
  Lemma walk_app a b l : walk fs l (a ++ b) = match walk fs l a with Some m => walk fs m b | None => None end.
  Proof. revert l. induction a as [|c a IH]; intros l; [reflexivity|]. cbn [app walk]. destruct (fs l) as [[|]|]; auto. Qed.
  Lemma walk_blank k l r : r <> [] -> walk fs l (repeat "" k ++ r) = walk fs l r.
  Proof.
    intros Hr. induction k as [|k IH]; [reflexivity|]. cbn [repeat app walk]. destruct (fs l) as [[|]|] eqn:E; [exact IH| |];
      (destruct r as [|c0 r]; [destruct (Hr eq_refl)|]; cbn [walk]; rewrite E; reflexivity).
  Qed.
  Lemma walk_dir l c r m : walk fs l (c :: r) = Some m -> fs l = Some Dir /\ walk fs (enter l c) r = Some m.
  Proof. cbn [walk]. destruct (fs l) as [[|]|]; try discriminate. auto. Qed.

  Lemma locate_join cwd p s l : plain s -> locate fs cwd p = Some l -> fs l = Some Dir -> locate fs cwd (join p s) = Some (l ++ [s]).
  Proof.
    intros Hs E D. unfold locate in E. destruct (String.eqb_spec p "") as [|Np]; [discriminate|]. unfold join. rewrite (plain_relative s Hs).
    assert (W : forall q, components q = components s -> walk fs l (components q) = Some (l ++ [s])).
    { intros q ->. rewrite (cut_none s (cut_plain s Hs)). cbn [walk]. rewrite D, (plain_enter l s Hs). reflexivity. }
    assert (A : forall q, is_absolute (p ++ q) = is_absolute p) by (intros q; destruct p; [destruct (Np eq_refl)|reflexivity]).
    assert (Z : forall q, String.eqb (p ++ q) "" = false) by (intros q; destruct p; [destruct (Np eq_refl)|reflexivity]).
    destruct (no_filename p) eqn:F; unfold locate; rewrite Z, A; unfold location in *; revert E; generalize (if is_absolute p then [] else cwd) as st; intros st E.
    - destruct (no_filename_is p F) as [->|[q ->]]; [destruct (Np eq_refl)|].
      change (q ++ "/")%string with (q ++ "/" ++ "")%string in E. rewrite components_app, walk_app in E.
      destruct (walk fs _ (components q)) as [m|] eqn:Eq; [|discriminate]. cbn [components] in E. apply walk_dir in E as [Dm E]. cbn in E. injection E as ->.
      rewrite append_assoc, components_app, walk_app, Eq. apply W. reflexivity.
    - rewrite components_app, walk_app, E. apply W. reflexivity.
  Qed.
  Lemma locate_join_inv cwd p s l : p <> "" -> plain s -> locate fs cwd (join p s) = Some l -> exists m, locate fs cwd p = Some m /\ fs m = Some Dir /\ l = m ++ [s].
  Proof.
    intros Np Hs E. unfold join in E. rewrite (plain_relative s Hs) in E. unfold locate. destruct (String.eqb_spec p ""); [contradiction|].
    assert (A : forall q, is_absolute (p ++ q) = is_absolute p) by (intros q; destruct p; [destruct (Np eq_refl)|reflexivity]).
    assert (Z : forall q, String.eqb (p ++ q) "" = false) by (intros q; destruct p; [destruct (Np eq_refl)|reflexivity]).
    destruct (no_filename p) eqn:F; unfold locate in E; rewrite Z, A in E; unfold location in *; revert E; generalize (if is_absolute p then [] else cwd) as st; intros st E.
    - destruct (no_filename_is p F) as [->|[q ->]]; [destruct (Np eq_refl)|].
      rewrite append_assoc, components_app, walk_app in E. change (q ++ "/")%string with (q ++ "/" ++ "")%string. rewrite components_app, walk_app.
      destruct (walk fs st (components q)) as [m|]; [|discriminate]. rewrite (cut_none s (cut_plain s Hs)) in E. apply walk_dir in E as [D E]. cbn [walk] in E. injection E as <-.
      rewrite (plain_enter m s Hs). exists m. cbn [components walk]. rewrite D. auto.
    - rewrite components_app, walk_app in E. destruct (walk fs st (components p)) as [m|]; [|discriminate]. rewrite (cut_none s (cut_plain s Hs)) in E.
      apply walk_dir in E as [D E]. cbn [walk] in E. injection E as <-. rewrite (plain_enter m s Hs). exists m. auto.
  Qed.
  (** Whatever the path by which a file is opened, its parent path leads to its directory. *)
  Lemma locate_parent cwd p l c r : tree fs -> locate fs cwd p = Some l -> fs l = Some (File c) -> r <> "" -> is_absolute r = false ->
    exists dir n, l = dir ++ [n] /\ plain n /\ locate fs cwd (join (parent_path p) r) = walk fs dir (components r).
  Proof.
    intros T E F Nr Ar.
    (* the last step *)
    assert (L : forall s a, cut a = None -> walk fs s (components a) = Some l -> fs s = Some Dir /\ l = s ++ [a] /\ plain a).
    { intros s a Ca W. rewrite (cut_none a Ca) in W. apply walk_dir in W as [D W]. cbn [walk] in W. injection W as W. split; [exact D|].
      unfold enter in W. destruct (String.eqb_spec a "") as [|N1]; [cbn in W; congruence|]. destruct (String.eqb_spec a ".") as [|N2]; [cbn in W; congruence|]. cbn [orb] in W.
      destruct (String.eqb_spec a "..") as [|N3].
      - exfalso. destruct (@exists_last _ s) as (q & x & ->); [intros ->; cbn in W; congruence|]. rewrite removelast_last in W. subst q.
        rewrite (T l x Dir D) in F. discriminate.
      - split; [symmetry; exact W|]. repeat split; try assumption. intros b a' ->. clear - Ca. induction b as [|x b IH].
        + cbn in Ca. destruct (cut a') as [[]|]; discriminate.
        + cbn [append cut] in Ca. destruct (cut (b ++ String "/" a')) as [[]|] eqn:Eb; [discriminate|]. apply IH. exact Eb. }
    unfold locate in E. destruct (String.eqb_spec p "") as [|Np]; [discriminate|]. unfold parent_path.
    destruct (cut p) as [[b a]|] eqn:Ec.
    - destruct (cut_some p b a Ec) as [-> Ca]. rewrite components_app, walk_app in E.
      destruct (walk fs _ (components b)) as [s|] eqn:Eb; [|discriminate]. destruct (L s a Ca E) as (D & -> & Pa).
      exists s, a. split; [reflexivity|]. split; [exact Pa|].
      destruct (strip_components b) as [k Ek]. rewrite Ek, walk_app in Eb.
      destruct (strip b) as [|x t] eqn:Es.
      + assert (Ab : is_absolute (b ++ "/" ++ a) = true).
        { destruct (strip_nil b Es) as [->|Ab]; [reflexivity|]. destruct b; [discriminate|exact Ab]. }
        rewrite Ab in Eb. unfold join, locate. rewrite Ar. change (walk fs [] (components "" ++ components r) = walk fs s (components r)). rewrite walk_app.
        destruct (walk fs [] (components "")) as [m|] eqn:Em; [|discriminate].
        assert (W : walk fs m (repeat "" k ++ [a]) = Some (s ++ [a])).
        { rewrite walk_app, Eb. cbn [walk]. rewrite D, (plain_enter s a Pa). reflexivity. }
        rewrite walk_blank in W by discriminate. apply walk_dir in W as [_ W]. rewrite (plain_enter m a Pa) in W. cbn [walk] in W. injection W as W.
        apply app_inj_tail in W as [-> _]. reflexivity.
      + assert (Ab : is_absolute (b ++ "/" ++ a) = is_sep x).
        { destruct b as [|y b]; [discriminate Es|]. cbn [append is_absolute]. exact (strip_absolute (String y b) x t Es). }
        rewrite Ab in Eb. unfold join, locate. rewrite Ar. destruct (no_filename (String x t)) eqn:Fn.
        { rewrite <- Es in Fn. apply strip_filename in Fn. congruence. }
        change (walk fs (if is_sep x then [] else cwd) (components (String x t ++ "/" ++ r)) = walk fs s (components r)). rewrite components_app, walk_app.
        destruct (walk fs _ (components (String x t))) as [m|] eqn:Em; [|discriminate].
        assert (W : walk fs m (repeat "" k ++ [a]) = Some (s ++ [a])).
        { rewrite walk_app, Eb. cbn [walk]. rewrite D, (plain_enter s a Pa). reflexivity. }
        rewrite walk_blank in W by discriminate. apply walk_dir in W as [_ W]. rewrite (plain_enter m a Pa) in W. cbn [walk] in W. injection W as W.
        apply app_inj_tail in W as [-> _]. reflexivity.
    - assert (Ap : is_absolute p = false).
      { destruct p as [|x p]; [reflexivity|]. cbn. destruct (is_sep x) eqn:Ex; [|reflexivity]. cbn in Ec. destruct (cut p) as [[]|]; [discriminate|]. rewrite Ex in Ec. discriminate. }
      rewrite Ap in E. destruct (L cwd p Ec E) as (D & -> & Pp). exists cwd, p. split; [reflexivity|]. split; [exact Pp|].
      unfold join, locate. rewrite Ar. cbn [no_filename append]. destruct (String.eqb_spec r ""); [contradiction|]. rewrite Ar. reflexivity.
  Qed.
End Walk.

(** ** The loader does not look at the packages *)
Section Open.
  Context {V : Type}.
  Variable of_int : Z -> V.
  Variable trunc : V -> result Z.
  Variable cast : string -> V -> V.
  Variable sdef : sconfig V.
  Variable kdef : kconfig V.
  Variable o1 o2 : string -> result unit.
  Hypothesis o12 : forall s, o1 s = Ok tt -> o2 s = Ok tt.
  Notation le x y := (forall r, x = Ok r -> y = Ok r).
  Lemma le_bind {A B} (x y : result A) (f g : A -> result B) : le x y -> (forall a, le (f a) (g a)) -> le (bind x f) (bind y g).
  Proof. intros Hx Hf r E. apply bind_ok in E as (a & E1 & E2). rewrite (Hx a E1). apply Hf, E2. Qed.
  Lemma le_refl {A} (x : result A) : le x x. Proof. auto. Qed.
  Lemma le_if {A} (b : bool) (x y u v : result A) : le x y -> le u v -> le (if b then x else u) (if b then y else v).
  Proof. destruct b; auto. Qed.
  Lemma le_package (j : json V) k : le (package o1 j k) (package o2 j k).
  Proof. unfold package. apply le_bind; [apply le_refl|]. intros s. apply le_bind; [|intros ?; apply le_refl]. intros [] E. apply o12, E. Qed.
  Lemma le_package_opt (j : json V) k : le (package_opt o1 j k) (package_opt o2 j k).
  Proof. unfold package_opt. apply le_if; [|apply le_refl]. apply le_bind; [apply le_package|]. intros ?. apply le_refl. Qed.
  Ltac less := repeat
    match goal with
    | |- forall r, ?x = Ok r -> ?x = Ok r => exact (le_refl x)
    | |- forall r, package _ ?j ?k = Ok r -> _ => exact (le_package j k)
    | |- forall r, package_opt _ ?j ?k = Ok r -> _ => exact (le_package_opt j k)
    | |- forall r, bind ?x ?f = Ok r -> bind ?y ?g = Ok r => refine (le_bind x y f g _ _); [|intros ?]
    | |- forall r, (if ?b then ?x else ?u) = Ok r -> (if ?b then ?y else ?v) = Ok r => refine (le_if b x y u v _ _)
    | |- forall r, (let '(_, _) := ?x in _) = _ -> _ => destruct x
    end.
  Lemma le_forward (j : json V) : le (read_forward trunc o1 j) (read_forward trunc o2 j).
  Proof. unfold read_forward. less. Qed.
  Lemma le_predictor (j : json V) : le (read_predictor trunc o1 j) (read_predictor trunc o2 j).
  Proof. unfold read_predictor. less. Qed.
  Lemma le_implicit (j : json V) : le (read_implicit of_int trunc o1 kdef j) (read_implicit of_int trunc o2 kdef j).
  Proof. unfold read_implicit. less. apply le_predictor. Qed.
  Lemma le_segment (j : json V) : le (read_segment of_int trunc o1 kdef j) (read_segment of_int trunc o2 kdef j).
  Proof. unfold read_segment. less; [apply le_forward|apply le_implicit]. Qed.
  Lemma le_mapM {A B} (f g : A -> result B) l : (forall a, le (f a) (g a)) -> le (mapM f l) (mapM g l).
  Proof. intros Hf. induction l as [|a l IH]; [apply le_refl|]. cbn [mapM]. apply le_bind; [apply Hf|]. intros b. apply le_bind; [exact IH|]. intros ?; apply le_refl. Qed.
  Lemma le_load leaf d ex meta : le (load of_int trunc cast o1 sdef kdef leaf d ex meta) (load of_int trunc cast o2 sdef kdef leaf d ex meta).
  Proof. unfold load. less. apply le_mapM, le_segment. Qed.
End Open.

Section Mono.
  Context {V : Type}.
  Variable kdef : kconfig V.
  Variable P Q : string -> Prop.
  Hypothesis PQ : forall s, P s -> Q s.
  Lemma opens_mono l : opens_all P l -> opens_all Q l.
  Proof. intros H s I. apply PQ, H, I. Qed.
  Lemma segment_mono s : segment_ok kdef P s -> segment_ok kdef Q s.
  Proof.
    unfold segment_ok. destruct (sg_kind s) as [f|i].
    - intros (H & R). exact (conj (opens_mono _ H) R).
    - unfold implicit_ok. intros (L & H & R1 & R2 & R3 & R4 & R5 & R6 & R7 & R8 & R9 & R10 & R11 & R12 & R13 & Hp).
      refine (conj L (conj (opens_mono _ H) (conj R1 (conj R2 (conj R3 (conj R4 (conj R5 (conj R6 (conj R7 (conj R8 (conj R9 (conj R10 (conj R11 (conj R12 (conj R13 _))))))))))))))).
      destruct (im_predictor i) as [p|]; [|exact I]. destruct Hp as [Hp Rp]. exact (conj (PQ _ Hp) Rp).
  Qed.
  Lemma artifact_mono (a : artifact V) : artifact_ok kdef P a -> artifact_ok kdef Q a.
  Proof.
    intros (R1 & R2 & R3 & R4 & R5 & R6 & R7 & R8 & R9 & R10 & R11 & H).
    refine (conj R1 (conj R2 (conj R3 (conj R4 (conj R5 (conj R6 (conj R7 (conj R8 (conj R9 (conj R10 (conj R11 _))))))))))).
    revert H. apply Forall_impl. exact segment_mono.
  Qed.
End Mono.

Section Bundle.
  Context {V C H N : Type}.
  Variable of_int : Z -> V.
  Variable trunc : V -> result Z.
  Variable cast : string -> V -> V.
  Variable sdef : sconfig V.
  Variable kdef : kconfig V.
  Variable parse_json : C -> result (json V).
  Variable open_pkg : C -> device -> result unit.
  Variable parse_hit : C -> result H.
  Variable find_node : H -> string -> option N.
  Variable param : N -> string -> result (option string).
  Notation open_model := (open_model of_int trunc cast sdef kdef parse_json open_pkg).
  Notation open_models := (open_models of_int trunc cast sdef kdef parse_json open_pkg).
  Notation load_model := (load_model of_int trunc cast sdef kdef parse_json open_pkg parse_hit find_node param).
  Notation bundle := (bundle parse_hit find_node param).
  Notation holds := (holds kdef parse_json open_pkg).
  Notation runs := (runs cast sdef kdef).

  Section Fs.
    Variable fs : location -> option (node C).
    Variable cwd : location.
    (** The path handed to DispatchedModel. *)
    Definition root_path (p path : string) : string := if is_absolute path then path else join (parent_path p) path.
    Lemma root_located p dir file c path root : tree fs -> locate fs cwd p = Some (dir ++ [file]) -> fs (dir ++ [file]) = Some (File c) -> path <> "" ->
      walk fs (if is_absolute path then [] else dir) (components path) = Some root -> locate fs cwd (root_path p path) = Some root.
    Proof.
      intros T L F Np W. unfold root_path. destruct (is_absolute path) eqn:A.
      - unfold locate. destruct (String.eqb_spec path ""); [contradiction|]. rewrite A. exact W.
      - destruct (locate_parent fs cwd p _ c path T L F Np A) as (dir' & n & E & _ & ->). apply app_inj_tail in E as [<- _]. exact W.
    Qed.

    Lemma plain_leaf d : compiled_for d -> plain (d_type d) /\ device_type_str d = d_type d.
    Proof.
      intros [E|E]; rewrite E; unfold device_type_str; rewrite E; (split; [|reflexivity]); repeat split; try discriminate; intros b a;
        do 6 (destruct b as [|? b]; [discriminate|]); discriminate.
    Qed.
    Lemma plain_float64 : plain "float64".
    Proof. repeat split; try discriminate. intros b a. do 9 (destruct b as [|? b]; [discriminate|]); discriminate. Qed.
    Lemma plain_metadata : plain "metadata.json".
    Proof. repeat split; try discriminate. intros b a. do 15 (destruct b as [|? b]; [discriminate|]); discriminate. Qed.

    Lemma model_opens p root a d : tree fs -> locate fs cwd p = Some root -> compiled_for d -> holds fs root a d ->
      exists m, open_model fs cwd p "float64" d = Ok m /\ md_device m = d /\ faithful cast sdef kdef "float64" d a (md_loaded m) /\
        (forall s, plain s -> md_package m s = fs (artifact_at root d s)) /\
        load of_int trunc cast (fun _ => Ok tt) sdef kdef "float64" d true (write a) = Ok (md_loaded m).
    Proof.
      intros T L Cd ((j & Ej & Pj) & Dl & Ok_). destruct (plain_leaf d Cd) as [Pk Ek].
      assert (Dk : fs (root ++ [d_type d]) = Some Dir).
      { apply (T _ "float64" Dir). rewrite <- app_assoc. exact Dl. }
      assert (Dr : fs root = Some Dir) by exact (T _ _ _ Dk).
      assert (Lk := locate_join fs cwd p _ root Pk L Dr). assert (Ll := locate_join fs cwd _ _ _ plain_float64 Lk Dk). rewrite <- app_assoc in Ll. cbn [app] in Ll.
      assert (Pkg : forall s, plain s -> node_at fs cwd (join (join (join p (d_type d)) "float64") s) = fs (artifact_at root d s)).
      { intros s Hs. unfold node_at. rewrite (locate_join fs cwd _ s _ Hs Ll Dl), <- app_assoc. reflexivity. }
      set (op := fun s => match node_at fs cwd (join (join (join p (d_type d)) "float64") s) with Some (File c) => open_pkg c d | _ => Err (StdExn "failed to open package") end).
      assert (Ok' : artifact_ok kdef (fun s => op s = Ok tt) a).
      { apply (artifact_mono kdef _ _ (fun s '(conj Hs (ex_intro _ c (conj Ec Eo))) => eq_trans (f_equal (fun x => match x with Some (File c) => open_pkg c d | _ => _ end) (eq_trans (Pkg s Hs) Ec)) Eo) a Ok_). }
      destruct (load_write of_int trunc cast op sdef kdef "float64" d a Ok') as (m & Em & Fm & _).
      unfold open_model, Bundle.open_model. rewrite Ek. unfold node_at at 1. rewrite (locate_join fs cwd p _ root plain_metadata L Dr), Ej, Pj. cbn [bind].
      unfold is_directory, node_at at 2. rewrite Ll, Dl. fold op. rewrite Em. cbn [bind]. eexists. split; [reflexivity|]. cbn [md_device md_loaded md_package].
      split; [reflexivity|]. split; [exact Fm|]. split; [exact Pkg|]. revert Em. apply le_load. reflexivity.
    Qed.

    (** ** The loop over the devices *)
    Notation found d l := (find (fun e : device * model => device_eqb d (fst e)) l).
    Lemma existsb_found d (l : list (device * model (V:=V) (C:=C))) : existsb (fun e => device_eqb d (fst e)) l = match found d l with Some _ => true | None => false end.
    Proof. induction l as [|e l IH]; [reflexivity|]. cbn [existsb find]. destruct (device_eqb d (fst e)); [reflexivity|exact IH]. Qed.
    Lemma find_app d (l r : list (device * model (V:=V) (C:=C))) : found d (l ++ r) = match found d l with Some e => Some e | None => found d r end.
    Proof. induction l as [|e l IH]; [reflexivity|]. cbn [app find]. destruct (device_eqb d (fst e)); [reflexivity|exact IH]. Qed.
    Lemma open_models_ok root dtype devs : forall acc ms, open_models fs cwd root dtype devs acc = Ok ms ->
      (forall d, In d devs -> exists m, open_model fs cwd root dtype d = Ok m) /\
      (exists r, ms = acc ++ r) /\
      (forall d, found d acc = None -> ~ In d devs -> found d ms = None) /\
      (forall d e, found d acc = Some e -> found d ms = Some e) /\
      (forall d m, found d acc = None -> In d devs -> open_model fs cwd root dtype d = Ok m -> found d ms = Some (d, m)) /\
      (acc = [] -> forall d r m, devs = d :: r -> open_model fs cwd root dtype d = Ok m -> exists t, ms = (d, m) :: t).
    Proof.
      induction devs as [|x devs IH]; intros acc ms E; cbn [Bundle.open_models] in E.
      - injection E as <-. split; [intros d []|]. split; [exists []; symmetry; apply app_nil_r|]. split; [auto|]. split; [auto|]. split; [intros d m _ []|discriminate].
      - apply bind_ok in E as (mx & Ex & E). rewrite existsb_found in E. destruct (found x acc) as [e|] eqn:Fx.
        + destruct (IH _ _ E) as (I1 & I2 & I3 & I4 & I5 & I6). split; [intros d [<-|Hd]; [eauto|auto]|]. split; [exact I2|].
          split; [intros d Fd Nd; apply I3; [exact Fd|intros Hd; apply Nd; right; exact Hd]|]. split; [exact I4|]. split.
          * intros d m Fd [->|Hd] Em; [congruence|]. apply I5; assumption.
          * intros -> . discriminate.
        + destruct (IH _ _ E) as (I1 & (r & I2) & I3 & I4 & I5 & I6).
          assert (Fa : forall d, found d (acc ++ [(x, mx)]) = match found d acc with Some e => Some e | None => if device_eqb d x then Some (x, mx) else None end).
          { intros d. rewrite find_app. reflexivity. }
          split; [intros d [<-|Hd]; [eauto|auto]|]. split; [exists ((x, mx) :: r); rewrite I2, <- app_assoc; reflexivity|].
          split; [|split; [|split]].
          * intros d Fd Nd. apply I3; [rewrite Fa, Fd|intros Hd; apply Nd; right; exact Hd]. destruct (device_eqb d x) eqn:Ed; [|reflexivity].
            apply device_eqb_eq in Ed. destruct Nd. left. symmetry. exact Ed.
          * intros d e Fd. apply I4. rewrite Fa, Fd. reflexivity.
          * intros d m Fd Hd Em. destruct (device_eqb d x) eqn:Ed.
            -- apply device_eqb_eq in Ed as ->. rewrite Ex in Em. injection Em as ->. apply I4. rewrite Fa, Fd, device_eqb_refl. reflexivity.
            -- apply I5; [rewrite Fa, Fd, Ed; reflexivity| |exact Em]. destruct Hd as [->|Hd]; [rewrite device_eqb_refl in Ed; discriminate|exact Hd].
          * intros -> d r' m Ed Em. injection Ed as -> _. rewrite Ex in Em. injection Em as ->. exists r. exact I2.
    Qed.
    Lemma open_models_total root dtype devs : (forall d, In d devs -> exists m, open_model fs cwd root dtype d = Ok m) ->
      forall acc, exists ms, open_models fs cwd root dtype devs acc = Ok ms.
    Proof.
      induction devs as [|x devs IH]; intros A acc; cbn [Bundle.open_models]; [eexists; reflexivity|].
      destruct (A x (or_introl eq_refl)) as [m ->]. cbn [bind]. apply IH. intros d Hd. apply A. right. exact Hd.
    Qed.
    Lemma dispatched_ok root s (D : dispatched) : usable s -> open_dispatched of_int trunc cast sdef kdef parse_json open_pkg fs cwd root "float64" (Some s) = Ok D ->
      (forall d, In d (sd_devices s) -> exists m, open_model fs cwd root "float64" d = Ok m /\ dm_model D d = Some m) /\
      (forall d, dm_model D d <> None -> In d (sd_devices s)) /\
      (forall d r, sd_devices s = d :: r -> dm_model D d = Some (dm_active D)).
    Proof.
      intros (Nd & Us) E. cbn [open_dispatched] in E. rewrite Us in E. cbn [assert_ bind] in E. destruct (sd_devices s) as [|d0 r0] eqn:Ed; [destruct (Nd eq_refl)|].
      cbn [negb assert_ bind] in E. apply bind_ok in E as (ms & Em & E). destruct (open_models_ok _ _ _ _ _ Em) as (I1 & _ & I3 & _ & I5 & I6).
      destruct (I1 d0 (or_introl eq_refl)) as [m0 E0]. destruct (I6 eq_refl d0 r0 m0 eq_refl E0) as [t ->]. injection E as <-. unfold dm_model. cbn [dm_models dm_active].
      split; [|split].
      - intros d Hd. destruct (I1 d Hd) as [m Hm]. exists m. split; [exact Hm|]. rewrite (I5 d m eq_refl Hd Hm). reflexivity.
      - intros d Hf. destruct (in_dec (fun a b => match device_eqb a b as q return device_eqb a b = q -> {a = b} + {a <> b} with true => fun e => left (proj1 (device_eqb_eq a b) e) | false => fun e => right (proj1 (device_eqb_neq a b) e) end eq_refl) d (d0 :: r0)) as [Hd|Hd]; [exact Hd|].
        rewrite (I3 d eq_refl Hd) in Hf. destruct (Hf eq_refl).
      - intros d r Er. injection Er as <- <-. rewrite (I5 d0 m0 eq_refl (or_introl eq_refl) E0). reflexivity.
    Qed.

    Definition given_scheduler (s : option scheduler) : scheduler := match s with Some s => s | None => default_scheduler end.
    Lemma given_devices s : sd_devices (given_scheduler s) = devices_of s.
    Proof. destruct s; reflexivity. Qed.
    Lemma load_model_is p name s dir file c path : locate fs cwd p = Some (dir ++ [file]) -> fs (dir ++ [file]) = Some (File c) ->
      stub_says parse_hit find_node param c name path -> path <> "" ->
      load_model fs cwd p name s = open_dispatched of_int trunc cast sdef kdef parse_json open_pkg fs cwd (root_path p path) "float64" (Some (given_scheduler s)).
    Proof.
      intros L F (h & n & Eh & En & Et & Ep) Np. unfold Bundle.load_model, node_at. rewrite L, F, Eh. cbn [to_fatal bind]. rewrite En, Et. cbn [bind]. rewrite String.eqb_refl.
      cbn [assert_ bind]. rewrite Ep. cbn [bind]. destruct (String.eqb_spec path ""); [contradiction|]. reflexivity.
    Qed.

    Lemma bundle_loads p name s root a : bundle fs cwd p name root -> usable (given_scheduler s) -> Forall compiled_for (devices_of s) ->
      (forall d, In d (devices_of s) -> holds fs root a d) ->
      exists D, load_model fs cwd p name s = Ok D /\
        (forall d, In d (devices_of s) -> exists m, dm_model D d = Some m /\ md_device m = d /\ faithful cast sdef kdef "float64" d a (md_loaded m) /\
          (forall x, plain x -> md_package m x = fs (artifact_at root d x)) /\
          load of_int trunc cast (fun _ => Ok tt) sdef kdef "float64" d true (write a) = Ok (md_loaded m)) /\
        (forall d, dm_model D d <> None -> In d (devices_of s)) /\
        (forall d r, devices_of s = d :: r -> dm_model D d = Some (dm_active D)).
    Proof.
      intros (T & dir & file & c & path & L & F & St & Np & W) Us Cd Hh. rewrite (load_model_is p name s dir file c path L F St Np).
      assert (Lr := root_located p dir file c path root T L F Np W). rewrite <- given_devices in *.
      assert (Op : forall d, In d (sd_devices (given_scheduler s)) -> exists m, open_model fs cwd (root_path p path) "float64" d = Ok m /\ md_device m = d /\
        faithful cast sdef kdef "float64" d a (md_loaded m) /\ (forall x, plain x -> md_package m x = fs (artifact_at root d x)) /\
        load of_int trunc cast (fun _ => Ok tt) sdef kdef "float64" d true (write a) = Ok (md_loaded m)).
      { intros d Hd. apply model_opens; [exact T|exact Lr| |apply Hh, Hd]. rewrite Forall_forall in Cd. apply Cd, Hd. }
      assert (E : exists D, open_dispatched of_int trunc cast sdef kdef parse_json open_pkg fs cwd (root_path p path) "float64" (Some (given_scheduler s)) = Ok D).
      { destruct Us as [Nd Us]. cbn [open_dispatched]. rewrite Us. cbn [assert_ bind].
        destruct (open_models_total (root_path p path) "float64" (sd_devices (given_scheduler s))) with (acc := @nil (device * model (V:=V) (C:=C))) as [ms Em].
        { intros d Hd. destruct (Op d Hd) as (m & Em & _). eauto. }
        destruct (open_models_ok _ _ _ _ _ Em) as (I1 & _ & _ & _ & _ & I6).
        destruct (sd_devices (given_scheduler s)) as [|d0 r0]; [destruct (Nd eq_refl)|]. cbn [negb assert_ bind]. rewrite Em. cbn [bind].
        destruct (I1 d0 (or_introl eq_refl)) as [m0 E0]. destruct (I6 eq_refl d0 r0 m0 eq_refl E0) as [t ->]. eexists. reflexivity. }
      destruct E as [D E]. exists D. split; [exact E|]. destruct (dispatched_ok _ _ D Us E) as (D1 & D2 & D3). split; [|split; assumption].
      intros d Hd. destruct (D1 d Hd) as (m & Em & Dm). destruct (Op d Hd) as (m' & Em' & R). rewrite Em in Em'. injection Em' as <-. exists m. split; [exact Dm|exact R].
    Qed.

    (** ** Whatever loads *)
    Lemma join_some p q : p <> "" -> join p q <> "".
    Proof. intros Hp. unfold join. destruct (is_absolute q) eqn:E; [destruct q; [discriminate E|discriminate]|]. destruct (no_filename p); destruct p; [destruct (Hp eq_refl)|discriminate|destruct (Hp eq_refl)|discriminate]. Qed.
    Lemma model_sound p d m : p <> "" -> compiled_for d -> open_model fs cwd p "float64" d = Ok m ->
      exists root j meta, locate fs cwd p = Some root /\ md_device m = d /\ fs (root ++ ["metadata.json"]) = Some (File j) /\ parse_json j = Ok meta /\
        fs (root ++ [d_type d; "float64"]) = Some Dir /\ metadata_sound meta (md_loaded m) /\
        loaded_sound (fun x => plain x -> exists c, fs (artifact_at root d x) = Some (File c) /\ open_pkg c d = Ok tt) (md_loaded m).
    Proof.
      intros Np Cd E. destruct (plain_leaf d Cd) as [Pk Ek]. unfold Bundle.open_model in E. rewrite Ek in E. apply bind_ok in E as (meta & Em & E).
      unfold node_at at 1 in Em. destruct (locate fs cwd (join p "metadata.json")) as [lm|] eqn:Lm; [|discriminate].
      destruct (locate_join_inv fs cwd p _ lm Np plain_metadata Lm) as (root & Lr & Dr & ->).
      destruct (fs (root ++ ["metadata.json"])) as [[|j]|] eqn:Ej; try discriminate.
      apply bind_ok in E as (ld & El & E). injection E as <-. cbn [md_device md_loaded].
      destruct (load_sound _ _ _ _ _ _ _ _ _ _ _ El) as (S1 & S2 & S3 & _).
      unfold is_directory, node_at in S3. destruct (locate fs cwd (join (join p (d_type d)) "float64")) as [ll|] eqn:Ll; [|discriminate].
      destruct (locate_join_inv fs cwd _ _ ll (join_some _ _ Np) plain_float64 Ll) as (lk & Lk & Dk & ->).
      destruct (locate_join_inv fs cwd _ _ lk Np Pk Lk) as (root' & Lr' & _ & ->). rewrite Lr in Lr'. injection Lr' as <-.
      rewrite <- app_assoc in S3. cbn [app] in S3. destruct (fs (root ++ [d_type d; "float64"])) as [[|]|] eqn:Dl; try discriminate.
      exists root, j, meta. split; [exact Lr|]. split; [reflexivity|]. split; [exact Ej|]. split; [exact Em|]. split; [exact Dl|]. split; [exact S2|].
      destruct S1 as (Sg & So). split; [|exact So]. revert Sg. apply Forall_impl. intros sg.
      assert (Pq : forall x, match node_at fs cwd (join (join (join p (d_type d)) "float64") x) with Some (File c) => open_pkg c d | _ => Err (StdExn "failed to open package") end = Ok tt ->
        plain x -> exists c, fs (artifact_at root d x) = Some (File c) /\ open_pkg c d = Ok tt).
      { intros x Ex Hx. unfold node_at in Ex. rewrite <- app_assoc in Ll. cbn [app] in Ll. rewrite (locate_join fs cwd _ x _ Hx Ll Dl), <- app_assoc in Ex. cbn [app] in Ex.
        unfold artifact_at. destruct (fs (root ++ [d_type d; "float64"; x])) as [[|c]|]; try discriminate. eauto. }
      unfold segment_sound. destruct (Load.sg_kind sg); [intros Hs x Ix Hx; exact (Pq x (Hs x Ix) Hx)|].
      intros (Hs & R). split; [|exact R]. intros x Ix Hx. exact (Pq x (Hs x Ix) Hx).
    Qed.
    Lemma load_model_sound p name s D : tree fs -> load_model fs cwd p name s = Ok D -> Forall compiled_for (devices_of s) ->
      exists root, bundle fs cwd p name root /\ usable (given_scheduler s) /\
        (forall d, In d (devices_of s) -> exists m j meta, dm_model D d = Some m /\ md_device m = d /\
          fs (root ++ ["metadata.json"]) = Some (File j) /\ parse_json j = Ok meta /\
          fs (root ++ [d_type d; "float64"]) = Some Dir /\ metadata_sound meta (md_loaded m) /\
          loaded_sound (fun x => plain x -> exists c, fs (artifact_at root d x) = Some (File c) /\ open_pkg c d = Ok tt) (md_loaded m)) /\
        (forall d, dm_model D d <> None -> In d (devices_of s)) /\
        (forall d r, devices_of s = d :: r -> dm_model D d = Some (dm_active D)).
    Proof.
      intros T E Cd. unfold Bundle.load_model in E. apply bind_ok in E as (h & Eh & E). unfold node_at in Eh.
      destruct (locate fs cwd p) as [l|] eqn:L; [|discriminate]. destruct (fs l) as [[|c]|] eqn:F; try discriminate.
      destruct (parse_hit c) as [h'|e] eqn:Ph; [|destruct e; discriminate]. cbn in Eh. injection Eh as ->.
      destruct (find_node h ("Models/" ++ name)) as [n|] eqn:En; [|discriminate]. apply bind_ok in E as (ty & Et & E). apply bind_ok in E as (u & Ea & E).
      apply assert_ok in Ea. destruct ty as [ty|]; [|discriminate]. apply String.eqb_eq in Ea. subst ty. apply bind_ok in E as (po & Ep & E). apply bind_ok in E as (u' & Eb & E).
      apply assert_ok in Eb. destruct po as [path|]; [|discriminate]. destruct (String.eqb_spec path "") as [|Np]; [discriminate|]. clear Eb u u'.
      change (open_dispatched of_int trunc cast sdef kdef parse_json open_pkg fs cwd (root_path p path) "float64" (Some (given_scheduler s)) = Ok D) in E.
      assert (Us : usable (given_scheduler s)).
      { cbn [open_dispatched] in E. apply bind_ok in E as (u & E1 & E). apply assert_ok in E1. apply bind_ok in E as (u' & E2 & _). apply assert_ok in E2. split; [|exact E1].
        intros Z. rewrite Z in E2. discriminate. }
      destruct (dispatched_ok _ _ D Us E) as (D1 & D2 & D3). rewrite given_devices in *.
      destruct (locate_parent fs cwd p l c "x" T L F) as (dir & file & -> & _ & _); [discriminate|reflexivity|].
      assert (Nr : root_path p path <> "").
      { unfold root_path. destruct (is_absolute path) eqn:A; [exact Np|]. unfold join. rewrite A. destruct (no_filename (parent_path p)); destruct (parent_path p); try discriminate. exact Np. }
      assert (Each : forall d, In d (devices_of s) -> exists root m j meta, locate fs cwd (root_path p path) = Some root /\ dm_model D d = Some m /\ md_device m = d /\
          fs (root ++ ["metadata.json"]) = Some (File j) /\ parse_json j = Ok meta /\
          fs (root ++ [d_type d; "float64"]) = Some Dir /\ metadata_sound meta (md_loaded m) /\
          loaded_sound (fun x => plain x -> exists c, fs (artifact_at root d x) = Some (File c) /\ open_pkg c d = Ok tt) (md_loaded m)).
      { intros d Hd. destruct (D1 d Hd) as (m & Em & Dm). rewrite Forall_forall in Cd. destruct (model_sound _ d m Nr (Cd d Hd) Em) as (root & j & meta & Lr & R).
        exists root, m, j, meta. auto. }
      assert (Nn : devices_of s <> []) by (destruct Us as [Nn _]; rewrite given_devices in Nn; exact Nn).
      destruct (devices_of s) as [|d0 r0] eqn:Ed; [destruct (Nn eq_refl)|]. destruct (Each d0 (or_introl eq_refl)) as (root & _ & _ & _ & Lr & _).
      exists root. split; [|split; [exact Us|split; [|split; assumption]]].
      - split; [exact T|]. exists dir, file, c, path. split; [exact L|]. split; [exact F|]. split; [exists h, n; auto|]. split; [exact Np|].
        unfold root_path in Lr. destruct (is_absolute path) eqn:A.
        + unfold locate in Lr. destruct (String.eqb path ""); [discriminate|]. rewrite A in Lr. exact Lr.
        + destruct (locate_parent fs cwd p _ c path T L F Np A) as (dir' & n' & E' & _ & W). apply app_inj_tail in E' as [<- _]. rewrite <- W. exact Lr.
      - intros d Hd. destruct (Each d Hd) as (root' & m & j & meta & Lr' & R). rewrite Lr in Lr'. injection Lr' as <-. exists m, j, meta. exact R.
    Qed.

    (** ** Refusals *)
    Lemma leaf_missing p name s root a d r j : bundle fs cwd p name root -> usable (given_scheduler s) -> devices_of s = d :: r -> compiled_for d ->
      fs (root ++ ["metadata.json"]) = Some (File j) -> parse_json j = Ok (write a) -> fs (root ++ [d_type d; "float64"]) <> Some Dir ->
      exists w, load_model fs cwd p name s = Err (Fatal w).
    Proof.
      intros (T & dir & file & c & path & L & F & St & Np & W) (Nd & Us) Ed Cd Ej Pj Nl. rewrite (load_model_is p name s dir file c path L F St Np).
      assert (Lr := root_located p dir file c path root T L F Np W). rewrite <- given_devices in Ed. cbn [open_dispatched]. rewrite Us, Ed. cbn [assert_ bind negb Bundle.open_models].
      destruct (plain_leaf d Cd) as [Pk Ek]. assert (Dr : fs root = Some Dir) by exact (T _ _ _ Ej).
      assert (Np' : root_path p path <> "") by (intros Z; rewrite Z in Lr; discriminate).
      assert (Ex : is_directory fs cwd (join (join (root_path p path) (d_type d)) "float64") = false).
      { unfold is_directory, node_at. destruct (locate fs cwd (join (join (root_path p path) (d_type d)) "float64")) as [ll|] eqn:Ll; [|reflexivity].
        destruct (locate_join_inv fs cwd _ _ ll (join_some _ _ Np') plain_float64 Ll) as (lk & Lk & _ & ->).
        destruct (locate_join_inv fs cwd _ _ lk Np' Pk Lk) as (root' & Lr' & _ & ->). rewrite Lr in Lr'. injection Lr' as <-. rewrite <- app_assoc. cbn [app].
        destruct (fs (root ++ [d_type d; "float64"])) as [[|]|]; [destruct (Nl eq_refl)|reflexivity|reflexivity]. }
      unfold Bundle.open_model. unfold node_at at 1. rewrite (locate_join fs cwd _ _ root plain_metadata Lr Dr), Ej, Pj. cbn [bind]. rewrite Ek, Ex.
      eexists. reflexivity.
    Qed.
  End Fs.
End Bundle.
