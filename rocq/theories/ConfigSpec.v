(** What keys, override strings and dictionary look-ups mean. *)
From Coq Require Import List String Ascii.
From Verif Require Import Outcome TagsSpec ConfigModel.
Import ListNotations.
Open Scope string_scope.

(** Text made of parts separated by a character. *)
Fixpoint join (d : ascii) (l : list string) : string :=
  match l with
  | [] => ""
  | [x] => x
  | x :: l' => x ++ String d (join d l')
  end.

(** A key made of segments: no segment contains the separator and the last one is not empty. *)
Definition segments (d : ascii) (l : list string) : Prop :=
  Forall (no_char d) l /\ last l "x" <> "".

(** The value at a path.  A sequence has its elements under their decimal indices; of several map entries with the
    same key the first counts. *)
Inductive at_path : tree -> list string -> tree -> Prop :=
| at_here t : at_path t [] t
| at_map m1 k c m2 p v : ~ In k (map fst m1) -> at_path c p v -> at_path (Map (m1 ++ (k, c) :: m2)%list) (k :: p) v
| at_seq l i c p v : nth_error l i = Some c -> at_path c p v -> at_path (Seq l) (index_key i :: p) v.

Definition present (t : tree) (p : list string) : Prop := exists v, at_path t p v.

(** A path that goes below a scalar. *)
Definition below_scalar (t : tree) (p : list string) : Prop :=
  exists p1 k p2 s, p = (p1 ++ k :: p2)%list /\ at_path t p1 (Scalar s).

(** Neither path is a prefix of the other. *)
Definition unrelated (p q : list string) : Prop :=
  (forall r, q <> p ++ r)%list /\ (forall r, p <> q ++ r)%list.

(** A well-formed [key=value] item. *)
Definition item_text (kv : string * string) : string := fst kv ++ "=" ++ snd kv.
Definition good_item (kv : string * string) : Prop :=
  no_char "=" (fst kv) /\ no_char ":" (fst kv) /\ no_char "=" (snd kv) /\ no_char ":" (snd kv) /\ snd kv <> "".

(** Malformed items: no '=', nothing after the only '=', or text after a second '='. *)
Inductive bad_item : string -> Prop :=
| bad_no_eq s : no_char "=" s -> bad_item s
| bad_no_value k : no_char "=" k -> bad_item (k ++ "=")
| bad_second_eq k v r : r <> "" -> bad_item (k ++ "=" ++ v ++ "=" ++ r).

(** The answer of a read, without the tree it leaves. *)
Definition found (o : outcome (option tree * tree)) : outcome (option tree) := let* (r, _) := o in Ok r.
Definition value {T} (o : outcome (T * tree)) : outcome T := let* (v, _) := o in Ok v.

(** Entry [e] has value [x] at [p]; an entry can be examined at [p] without an exception. *)
Definition entry_key {LT} (decode : tree -> outcome LT) (p : list string) (e : tree) (x : LT) : Prop :=
  exists n, at_path e p n /\ decode n = Ok x.
Definition readable {LT} (decode : tree -> outcome LT) (p : list string) (e : tree) : Prop :=
  (~ present e p /\ ~ below_scalar e p) \/ exists x, entry_key decode p e x.
