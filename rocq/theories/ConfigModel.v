(** Model of the configuration tree (include/input_parser.hpp, src/input_parser.cpp).  Definitions only.

    yaml-cpp itself is not in /repo.  Its documented behaviour used here: [operator[]] with a string key on a map
    searches the key; on a null node it makes an empty map; on a sequence it converts the sequence into a map keyed
    by the decimal indices; on a scalar it throws [BadSubscript] (nothing in the code catches it: [Abort]).
    Node handles share the tree, so [operator[]] and assignment through a handle change the tree.
    Simplified: [operator[]] on a map also inserts an undefined value for a missing key; undefined values are
    skipped by look-up, size and iteration, so they are dropped here. *)
From Coq Require Import ZArith List Bool String Ascii DecimalString.
From Verif Require Import Outcome.
Import ListNotations.
Open Scope string_scope.
Open Scope list_scope.

Inductive tree :=
| Null
| Scalar (s : string)
| Seq (l : list tree)
| Map (l : list (string * tree)).

(** [std::getline(stream, s, d)] on the unread text: what is read, and the text left.  Fails at the end. *)
Fixpoint span (d : ascii) (s : string) : string * option string :=
  match s with
  | EmptyString => (EmptyString, None)
  | String c s' => if Ascii.eqb c d then (EmptyString, Some s')
                   else let (a, r) := span d s' in (String c a, r)
  end.
Definition getline (d : ascii) (s : string) : option (string * string) :=
  match s with
  | EmptyString => None
  | _ => let (a, r) := span d s in Some (a, match r with Some r => r | None => EmptyString end)
  end.

(** All results of repeated [getline] (src/input_parser.cpp:59, 80, 84-86). *)
Fixpoint pieces (d : ascii) (s : string) : list string :=
  match s with
  | EmptyString => []
  | String c s' =>
      if Ascii.eqb c d then EmptyString :: pieces d s'
      else match pieces d s' with
           | [] => [String c EmptyString]
           | p :: ps => String c p :: ps
           end
  end.

Definition index_key (n : nat) : string := NilEmpty.string_of_uint (Nat.to_uint n).

(** The map seen (and made) by [operator[]] with a string key. *)
Definition as_map (t : tree) : outcome (list (string * tree)) :=
  match t with
  | Null => Ok []
  | Scalar _ => Abort
  | Seq l => Ok (combine (map index_key (seq 0 (List.length l))) l)
  | Map l => Ok l
  end.

Fixpoint assoc (m : list (string * tree)) (k : string) : option tree :=
  match m with
  | [] => None
  | (k', t) :: m' => if String.eqb k' k then Some t else assoc m' k
  end.
Fixpoint assoc_set (m : list (string * tree)) (k : string) (t : tree) : list (string * tree) :=
  match m with
  | [] => [(k, t)]
  | (k', t') :: m' => if String.eqb k' k then (k', t) :: m' else (k', t') :: assoc_set m' k t
  end.

(** src/input_parser.cpp:49-72 [FindNodeFromDict] with [create = false]: the node found ([None]: the undefined node
    of the first missing segment) and the tree as left by the calls of [operator[]]. *)
Fixpoint find_node (t : tree) (path : list string) : outcome (option tree * tree) :=
  match path with
  | [] => Ok (Some t, t)
  | s :: p =>
      let* m := as_map t in
      match assoc m s with
      | None => Ok (None, Map m)
      | Some c => let* (r, c') := find_node c p in Ok (r, Map (assoc_set m s c'))
      end
  end.

(** [FindNodeFromDict] with [create = true] followed by the assignment of include/input_parser.hpp:134-140
    [SetOptionInDict]: missing segments are created as null nodes. *)
Fixpoint set_node (t : tree) (path : list string) (v : tree) : outcome tree :=
  match path with
  | [] => Ok v
  | s :: p =>
      let* m := as_map t in
      let c := match assoc m s with Some c => c | None => Null end in
      let* c' := set_node c p v in
      Ok (Map (assoc_set m s c'))
  end.

Definition slash : ascii := "/".
Definition find_key (t : tree) (keys : string) := find_node t (pieces slash keys).
Definition set_key (t : tree) (keys : string) (v : tree) := set_node t (pieces slash keys) v.

Section Typed.
  (** Conversion of a value type ([YAML::convert<T>]); a failed [as<T>()] throws. *)
  Context {T : Type} (decode : tree -> outcome T).

  (** include/input_parser.hpp:110-119 [GetOptionFromDict]: the value and the tree after the call. *)
  Definition get_option (t : tree) (keys : string) (fallback : T) : outcome (T * tree) :=
    let* (r, t') := find_key t keys in
    match r with
    | None => Ok (fallback, t')
    | Some n => let* v := decode n in Ok (v, t')
    end.

  (** include/input_parser.hpp:98-108 [GetRequiredOptionFromDict]: a missing key exits. *)
  Definition get_required (t : tree) (keys : string) : outcome (T * tree) :=
    let* (r, t') := find_key t keys in
    match r with
    | None => Abort
    | Some n => let* v := decode n in Ok (v, t')
    end.

  (** include/input_parser.hpp:15-34 [convert<Array<T>>::encode / decode] (also 36-79): pushing nothing leaves the
      node null. *)
  Context (encode : T -> tree).
  Definition encode_array (l : list T) : tree :=
    match l with [] => Null | _ => Seq (map encode l) end.
  Fixpoint decode_all (l : list tree) : outcome (list T) :=
    match l with
    | [] => Ok []
    | x :: l' => let* v := decode x in let* vs := decode_all l' in Ok (v :: vs)
    end.
  Definition decode_array (t : tree) : outcome (list T) :=
    match t with Seq l => decode_all l | _ => Abort end.
End Typed.

Section Overwrite.
  (** [YAML::Load] of the text of a value (external parser; may throw). *)
  Context (load : string -> outcome tree).

  (** Body of the loop of src/input_parser.cpp:80-97: exactly two pieces, else exit. *)
  Definition overwrite_item (t : tree) (kv : string) : outcome tree :=
    match pieces "=" kv with
    | [key; val] => let* v := load val in set_key t key v
    | _ => Abort
    end.

  (** src/input_parser.cpp:74-98 [OverwriteOption]. *)
  Definition overwrite (t : tree) (forced_input : string) : outcome tree :=
    ofold overwrite_item (pieces ":" forced_input) t.
End Overwrite.

Section LookUp.
  Context {LT RT : Type} (ldecode : tree -> outcome LT) (leqb : LT -> LT -> bool)
          (rdecode : tree -> outcome RT).

  (** include/input_parser.hpp:146-164 [LookUpFromDict] (entry found) on a sequence of entries.  The mutation of
      entries by [operator[]] is dropped: every entry is visited once and the entry returned has been read only
      at [lkey]. *)
  Fixpoint look_up (lkey : string) (lval : LT) (entries : list tree) : outcome (option tree) :=
    match entries with
    | [] => Ok None
    | e :: es =>
        let* (n, e') := find_key e lkey in
        match n with
        | None => look_up lkey lval es
        | Some n => let* x := ldecode n in
                    if leqb x lval then Ok (Some e') else look_up lkey lval es
        end
    end.

  (** include/input_parser.hpp:166-184 [LookUpFromDict] with a right key and a default. *)
  Definition look_up_value (lkey : string) (lval : LT) (rkey : string) (def : RT) (entries : list tree) : outcome RT :=
    let* e := look_up lkey lval entries in
    match e with
    | None => Ok def
    | Some e => let* (v, _) := get_option rdecode e rkey def in Ok v
    end.
End LookUp.
