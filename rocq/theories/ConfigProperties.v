(** Property theorems: configuration. *)
From Coq Require Import ZArith List Bool String Ascii.
From Verif Require Import Outcome TagsSpec ConfigModel ConfigSpec ConfigProofs.
Import ListNotations.
Open Scope string_scope.
Open Scope list_scope.

(** C12: reading back an option. *)
Theorem C12_set_then_get : forall (T : Type) (decode : tree -> outcome T) t p v t',
  segments slash p -> set_key t (join slash p) v = Ok t' ->
  value (get_required decode t' (join slash p)) = decode v /\
  forall def, value (get_option decode t' (join slash p) def) = decode v.
Proof. exact @set_get. Qed.
Print Assumptions C12_set_then_get.

(** C12: unrelated options are untouched. *)
Theorem C12_set_leaves_unrelated : forall (T : Type) (decode : tree -> outcome T) t p v t' q,
  segments slash p -> segments slash q -> set_key t (join slash p) v = Ok t' -> unrelated p q ->
  value (get_required decode t' (join slash q)) = value (get_required decode t (join slash q)) /\
  forall def, value (get_option decode t' (join slash q) def) = value (get_option decode t (join slash q) def).
Proof. exact @set_other. Qed.
Print Assumptions C12_set_leaves_unrelated.

(** C12: setting works exactly when the path does not go below a scalar. *)
Theorem C12_set_accepted : forall p t v, (exists t', set_node t p v = Ok t') <-> ~ below_scalar t p.
Proof. exact set_accepted. Qed.
Print Assumptions C12_set_accepted.

(** C12: "an optional read returns the fallback exactly when the key is absent" is false: below a scalar the read
    throws instead of returning the fallback. *)
Theorem C12_absent_gives_fallback_refuted : exists t p (def : string), segments slash p /\ ~ present t p /\
  get_option (fun _ => Ok "") t (join slash p) def = Abort.
Proof.
  exists (Map [("a", Scalar "1")]), ["a"; "b"], "d". split; [|split; [|reflexivity]].
  - split; [repeat constructor; simpl; discriminate|discriminate].
  - intros [v H]. apply at_path_cons in H as (c & Hc & H). inversion Hc; subst.
    apply at_path_cons in H as (c & Hc' & _). discriminate.
Qed.
Print Assumptions C12_absent_gives_fallback_refuted.

(** C12, what holds for optional reads. *)
Theorem C12_optional_read_partial : forall (T : Type) (decode : tree -> outcome T) t p def, segments slash p ->
  (forall v, at_path t p v -> value (get_option decode t (join slash p) def) = decode v) /\
  (~ present t p -> ~ below_scalar t p -> value (get_option decode t (join slash p) def) = Ok def) /\
  (below_scalar t p -> get_option decode t (join slash p) def = Abort).
Proof. exact @get_option_cases. Qed.
Print Assumptions C12_optional_read_partial.

(** C12: "a read never modifies the configuration" is false: reading a key below a list turns the list into a map,
    so the list cannot be read as a list any more. *)
Theorem C12_read_does_not_modify_refuted : exists t t' def,
  get_option (fun _ => Ok "") t "mesh/files/x" def = Ok (def, t') /\
  value (get_required (decode_array (fun _ => Ok "")) t "mesh/files") = Ok [""; ""] /\
  get_required (decode_array (fun _ => Ok "")) t' "mesh/files" = Abort.
Proof.
  exists (Map [("mesh", Map [("files", Seq [Scalar "a"; Scalar "b"])])]). eexists. exists "d".
  split; [reflexivity|]. split; reflexivity.
Qed.
Print Assumptions C12_read_does_not_modify_refuted.

(** C12, what holds: a read changes no later read except reads of keys on the way to the key read ... *)
Theorem C12_read_changes_only_prefixes_partial : forall p t r t', find_node t p = Ok (r, t') ->
  forall q, (forall r', p <> q ++ r') -> found (find_node t' q) = found (find_node t q).
Proof. exact find_tree_frame. Qed.
Print Assumptions C12_read_changes_only_prefixes_partial.

(** ... and nothing at all when everything on the way is a map. *)
Theorem C12_read_through_maps_partial : forall p t r t', find_node t p = Ok (r, t') ->
  (forall p1 k p2 x, p = p1 ++ k :: p2 -> at_path t p1 x -> exists m, x = Map m) -> t' = t.
Proof. exact find_tree_same. Qed.
Print Assumptions C12_read_through_maps_partial.

(** C12 for lists: an empty list that was set cannot be read back ... *)
Theorem C12_array_roundtrip_refuted : exists l : list string,
  decode_array (fun t => match t with Scalar s => Ok s | _ => Abort end) (encode_array Scalar l) <> Ok l.
Proof. exists []. discriminate. Qed.
Print Assumptions C12_array_roundtrip_refuted.

(** ... a non-empty one can. *)
Theorem C12_array_roundtrip_partial : forall (T : Type) (decode : tree -> outcome T) (encode : T -> tree) l,
  (forall x, In x l -> decode (encode x) = Ok x) -> l <> [] ->
  decode_array decode (encode_array encode l) = Ok l.
Proof. exact @array_roundtrip. Qed.
Print Assumptions C12_array_roundtrip_partial.

(** C13: a list of well-formed items is applied from left to right. *)
Theorem C13_overrides_left_to_right : forall load t l, Forall good_item l ->
  overwrite load t (join ":" (map item_text l)) =
  ofold (fun t kv => let* v := load (snd kv) in set_key t (fst kv) v) l t.
Proof. exact overwrite_items. Qed.
Print Assumptions C13_overrides_left_to_right.

(** C13: the last assignment wins. *)
Theorem C13_last_assignment_wins : forall load t l1 p v val l2 t' (T : Type) (decode : tree -> outcome T) def,
  Forall good_item (l1 ++ (join slash p, v) :: l2) -> segments slash p -> load v = Ok val ->
  (forall kv, In kv l2 -> exists q, segments slash q /\ fst kv = join slash q /\ unrelated q p) ->
  overwrite load t (join ":" (map item_text (l1 ++ (join slash p, v) :: l2))) = Ok t' ->
  value (get_option decode t' (join slash p) def) = decode val.
Proof. exact overwrite_last. Qed.
Print Assumptions C13_last_assignment_wins.

(** C13: malformed items are never dropped: the program stops. *)
Theorem C13_malformed_items_stop : forall load t l s, segments ":" l -> In s l -> bad_item s ->
  forall t', overwrite load t (join ":" l) <> Ok t'.
Proof. exact overwrite_rejects. Qed.
Print Assumptions C13_malformed_items_stop.

(** C13: "an empty value stops the program" is false: "a==" is accepted and sets "a" to the parse of "". *)
Theorem C13_empty_value_stops_refuted : forall load t v, load "" = Ok v -> ~ below_scalar t ["a"] ->
  exists t', overwrite load t "a==" = Ok t' /\ at_path t' ["a"] v.
Proof.
  intros load t v Hl Hb. destruct (proj2 (set_accepted ["a"] t v) Hb) as [t' E]. exists t'. split.
  - unfold overwrite, overwrite_item. cbn [pieces Ascii.eqb Bool.eqb ofold obind]. simpl. rewrite Hl. cbn [obind].
    unfold set_key. change (pieces slash "a") with ["a"]. rewrite E. reflexivity.
  - eapply set_then_find; eauto.
Qed.
Print Assumptions C13_empty_value_stops_refuted.

(** C13: an item with an empty key is accepted and replaces the whole configuration. *)
Theorem C13_empty_key_rejected_refuted : forall load t v, load "b" = Ok v -> overwrite load t "=b" = Ok v.
Proof. intros load t v H. unfold overwrite, overwrite_item. simpl. rewrite H. reflexivity. Qed.
Print Assumptions C13_empty_key_rejected_refuted.

(** C14 *)
Theorem C14_look_up_first_match : forall (LT RT : Type) (ldecode : tree -> outcome LT) leqb
  (rdecode : tree -> outcome RT), (forall a b, leqb a b = true <-> a = b) ->
  forall p q lval def es, segments slash p -> segments slash q -> (forall r, p <> q ++ r) ->
  Forall (readable ldecode p) es ->
  (exists es1 e es2, es = es1 ++ e :: es2 /\ entry_key ldecode p e lval /\
     (forall e0, In e0 es1 -> ~ entry_key ldecode p e0 lval) /\
     look_up_value ldecode leqb rdecode (join slash p) lval (join slash q) def es =
     value (get_option rdecode e (join slash q) def)) \/
  ((forall e, In e es -> ~ entry_key ldecode p e lval) /\
   look_up_value ldecode leqb rdecode (join slash p) lval (join slash q) def es = Ok def).
Proof. intros LT RT ld leqb rd H. exact (@look_up_value_first LT RT ld leqb H rd). Qed.
Print Assumptions C14_look_up_first_match.

(** C14 for the entry itself: the first match, or nothing exactly when none matches. *)
Theorem C14_look_up_entry : forall (LT : Type) (ldecode : tree -> outcome LT) leqb,
  (forall a b, leqb a b = true <-> a = b) -> forall p lval, segments slash p -> forall es,
  Forall (readable ldecode p) es ->
  match look_up ldecode leqb (join slash p) lval es with
  | Ok (Some e') => exists es1 e es2, es = es1 ++ e :: es2 /\ entry_key ldecode p e lval /\
                     (forall e0, In e0 es1 -> ~ entry_key ldecode p e0 lval) /\
                     (forall q, (forall r, p <> q ++ r) -> found (find_node e' q) = found (find_node e q))
  | Ok None => forall e, In e es -> ~ entry_key ldecode p e lval
  | _ => False
  end.
Proof. intros LT ld leqb H. exact (@look_up_first LT ld leqb H). Qed.
Print Assumptions C14_look_up_entry.
