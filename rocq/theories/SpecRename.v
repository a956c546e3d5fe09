(** Specification vocabulary for boundary renames. *)
From Verif Require Import Base SpecMap.

(** The boundary name of [k] under a rename table {original: boundary}. *)
Definition boundary (table : smap string) (k : string) : string :=
  match find (fun p => String.eqb k (fst p)) table with Some p => snd p | None => k end.

(** Distinct names stay distinct: among [names] and the renamed names no two get
    the same boundary name. *)
Definition clash_free (table : smap string) (names : list string) : Prop :=
  forall a b, In a (names ++ keys table) -> In b (names ++ keys table) ->
    boundary table a = boundary table b -> a = b.

(** [m'] is [m] with every key [k] replaced by [f k]: no entry lost, merged or
    invented. *)
Definition renamed {T} (f : string -> string) (m m' : smap T) : Prop :=
  sorted m' /\
  (forall k v, lookup k m = Some v -> lookup (f k) m' = Some v) /\
  (forall e v, lookup e m' = Some v -> exists k, f k = e /\ lookup k m = Some v) /\
  length m' = length m.

Definition renamed2 {T} (f g : string -> string) (j j' : smap (smap T)) : Prop :=
  sorted j' /\
  (forall k r, lookup k j = Some r -> exists r', lookup (f k) j' = Some r' /\ renamed g r r') /\
  (forall e r', lookup e j' = Some r' ->
     exists k r, f k = e /\ lookup k j = Some r /\ renamed g r r') /\
  length j' = length j.

(** The keys of [m] are among [names]. *)
Definition keys_in {T} (names : list string) (m : smap T) : Prop :=
  forall k, In k (keys m) -> In k names.
