From Coq Require Import ZArith List Bool String Ascii Lia Arith DecimalString DecimalNat.
From Verif Require Import Outcome TagsSpec ConfigModel ConfigSpec.
Import ListNotations.
Open Scope string_scope.
Open Scope list_scope.

(** ** Splitting *)

Lemma pieces_getline d s :
  pieces d s = match getline d s with None => [] | Some (a, r) => a :: pieces d r end.
Proof.
  destruct s as [|c s]; [reflexivity|]. cbn [getline]. revert c.
  induction s as [|c' s IH]; intros c.
  - simpl. destruct (Ascii.eqb c d); reflexivity.
  - cbn [pieces span]. destruct (Ascii.eqb c d); [reflexivity|].
    specialize (IH c'). cbn [pieces span] in IH.
    destruct (Ascii.eqb c' d); [reflexivity|].
    destruct (span d s) as [a r]. destruct r as [r|].
    + destruct (pieces d s) as [|p ps]; inversion IH; subst; reflexivity.
    + destruct (pieces d s) as [|p ps]; inversion IH; subst; reflexivity.
Qed.

Lemma pieces_app_delim d a : forall r, no_char d a -> pieces d (a ++ String d r)%string = a :: pieces d r.
Proof.
  induction a as [|c a IH]; intros r H; simpl.
  - rewrite Ascii.eqb_refl. reflexivity.
  - destruct H as [Hc Ha]. destruct (Ascii.eqb_spec c d); [contradiction|]. rewrite IH by auto. reflexivity.
Qed.

Lemma pieces_plain d a : no_char d a -> a <> "" -> pieces d a = [a].
Proof.
  induction a as [|c a IH]; intros H Hne; [contradiction|]. simpl. destruct H as [Hc Ha].
  destruct (Ascii.eqb_spec c d); [contradiction|].
  destruct a as [|c' a]; [reflexivity|]. rewrite IH; auto. discriminate.
Qed.

Lemma pieces_join d : forall l, segments d l -> pieces d (join d l) = l.
Proof.
  induction l as [|x l IH]; intros [HF Hl]; [reflexivity|].
  inversion HF as [|? ? Hx HF']; subst. destruct l as [|y l].
  - simpl in *. apply pieces_plain; auto.
  - change (join d (x :: y :: l)) with (x ++ String d (join d (y :: l)))%string.
    rewrite pieces_app_delim by auto. f_equal. apply IH. split; auto.
Qed.

(** ** Maps *)

Lemma index_key_inj i j : index_key i = index_key j -> i = j.
Proof.
  unfold index_key. intros H. apply (f_equal NilEmpty.uint_of_string) in H.
  rewrite !NilEmpty.usu in H. inversion H as [H1]. apply Unsigned.to_uint_inj; auto.
Qed.

Lemma assoc_in m k c : assoc m k = Some c -> exists m1 m2, m = m1 ++ (k, c) :: m2 /\ ~ In k (map fst m1).
Proof.
  induction m as [|[k' t] m IH]; simpl; [discriminate|]. destruct (String.eqb_spec k' k) as [->|Hne].
  - intros E; inversion E; subst. exists [], m; auto.
  - intros E. destruct (IH E) as (m1 & m2 & -> & Hn). exists ((k', t) :: m1), m2. split; auto.
    simpl. intros [H|H]; auto.
Qed.
Lemma assoc_first m1 k c m2 : ~ In k (map fst m1) -> assoc (m1 ++ (k, c) :: m2) k = Some c.
Proof.
  induction m1 as [|[k' t] m1 IH]; simpl; intros H.
  - rewrite String.eqb_refl. reflexivity.
  - destruct (String.eqb_spec k' k); [exfalso; auto|]. apply IH; auto.
Qed.
Lemma assoc_none m k : assoc m k = None <-> ~ In k (map fst m).
Proof.
  induction m as [|[k' t] m IH]; simpl; [split; auto|].
  destruct (String.eqb_spec k' k) as [->|Hne]; [split; [discriminate|intros H; exfalso; auto]|].
  rewrite IH. split; [intros H [H1|H1]; auto|intros H; auto].
Qed.
Lemma assoc_set_eq m k c : assoc (assoc_set m k c) k = Some c.
Proof.
  induction m as [|[k' t] m IH]; simpl; [rewrite String.eqb_refl; auto|].
  destruct (String.eqb_spec k' k) as [->|Hne]; simpl; [rewrite String.eqb_refl; auto|].
  destruct (String.eqb_spec k' k); [contradiction|auto].
Qed.
Lemma assoc_set_ne m k c k' : k' <> k -> assoc (assoc_set m k c) k' = assoc m k'.
Proof.
  intros Hne. induction m as [|[k0 t] m IH]; simpl.
  - destruct (String.eqb_spec k k'); [congruence|auto].
  - destruct (String.eqb_spec k0 k) as [->|Hk]; simpl.
    + destruct (String.eqb_spec k k'); [congruence|auto].
    + destruct (String.eqb k0 k'); auto.
Qed.
Lemma assoc_set_same m k c : assoc m k = Some c -> assoc_set m k c = m.
Proof.
  induction m as [|[k' t] m IH]; simpl; [discriminate|]. destruct (String.eqb_spec k' k) as [->|Hne].
  - intros E; inversion E; auto.
  - intros E. rewrite IH; auto.
Qed.

Lemma seq_assoc : forall l a i c, nth_error l i = Some c ->
  assoc (combine (map index_key (seq a (List.length l))) l) (index_key (a + i)) = Some c.
Proof.
  induction l as [|x l IH]; intros a [|i] c H; simpl in *; try discriminate.
  - inversion H; subst. rewrite Nat.add_0_r, String.eqb_refl. reflexivity.
  - destruct (String.eqb_spec (index_key a) (index_key (a + S i))) as [E|_]; [apply index_key_inj in E; lia|].
    replace (a + S i) with (S a + i) by lia. apply IH; auto.
Qed.
Lemma seq_assoc_inv : forall l a k c,
  assoc (combine (map index_key (seq a (List.length l))) l) k = Some c ->
  exists i, k = index_key (a + i) /\ nth_error l i = Some c.
Proof.
  induction l as [|x l IH]; intros a k c H; simpl in *; [discriminate|].
  destruct (String.eqb_spec (index_key a) k) as [<-|Hne].
  - inversion H; subst. exists 0. rewrite Nat.add_0_r. auto.
  - destruct (IH (S a) k c H) as (i & -> & Hi). exists (S i). split; auto. f_equal. lia.
Qed.

(** child of a node under a key *)
Definition child (t : tree) (k : string) : option tree :=
  match as_map t with Ok m => assoc m k | _ => None end.

Lemma at_path_cons t k p v : at_path t (k :: p) v <-> exists c, child t k = Some c /\ at_path c p v.
Proof.
  unfold child. split.
  - intros H. inversion H; subst; simpl.
    + exists c. rewrite assoc_first; auto.
    + exists c. split; auto. apply (seq_assoc l 0 i c); auto.
  - intros (c & Hc & Hv). destruct t as [| |l|m]; simpl in Hc; try discriminate.
    + apply seq_assoc_inv in Hc as (i & -> & Hi). simpl. eapply at_seq; eauto.
    + apply assoc_in in Hc as (m1 & m2 & -> & Hn). apply at_map; auto.
Qed.
Lemma at_path_nil t v : at_path t [] v <-> v = t.
Proof. split; [intros H; inversion H; auto|intros ->; constructor]. Qed.

Lemma at_path_fun t p v v' : at_path t p v -> at_path t p v' -> v = v'.
Proof.
  revert t. induction p as [|k p IH]; intros t H1 H2.
  - apply at_path_nil in H1, H2. congruence.
  - apply at_path_cons in H1 as (c & Hc & H1), H2 as (c' & Hc' & H2).
    assert (c' = c) by congruence. subst. eauto.
Qed.

Lemma find_present : forall p t v, at_path t p v -> exists t', find_node t p = Ok (Some v, t').
Proof.
  induction p as [|k p IH]; intros t v H.
  - apply at_path_nil in H; subst. simpl; eauto.
  - apply at_path_cons in H as (c & Hc & H). unfold child in Hc. simpl.
    destruct (as_map t) as [m| |]; try discriminate. cbn [obind]. rewrite Hc.
    destruct (IH c v H) as [c' E]. rewrite E. cbn [obind]. eauto.
Qed.

Lemma find_below : forall p t, below_scalar t p -> find_node t p = Abort.
Proof.
  intros p t (p1 & k & p2 & s & -> & H). revert t H. induction p1 as [|k1 p1 IH]; intros t H; simpl.
  - apply at_path_nil in H. subst. reflexivity.
  - apply at_path_cons in H as (c & Hc & H). unfold child in Hc.
    destruct (as_map t) as [m| |]; try discriminate. cbn [obind]. rewrite Hc, (IH c H). reflexivity.
Qed.

Lemma find_cases : forall p t,
  (exists v t', find_node t p = Ok (Some v, t') /\ at_path t p v) \/
  (exists t', find_node t p = Ok (None, t') /\ ~ present t p /\ ~ below_scalar t p) \/
  (find_node t p = Abort /\ below_scalar t p).
Proof.
  induction p as [|k p IH]; intros t; simpl.
  - left. exists t, t. split; auto. constructor.
  - destruct t as [|s|l|m]; cbn [as_map obind].
    + right. left. eexists. split; [reflexivity|]. split.
      * intros [v H]. apply at_path_cons in H as (c & Hc & _). discriminate.
      * intros (p1 & k1 & p2 & s & E & H). destruct p1 as [|k2 p1].
        -- apply at_path_nil in H. discriminate.
        -- apply at_path_cons in H as (c & Hc & _). discriminate.
    + right. right. split; auto. exists [], k, p, s. split; auto. constructor.
    + remember (Seq l) as t. assert (Ht : as_map t = Ok (combine (map index_key (seq 0 (List.length l))) l)) by (subst; auto).
      set (m := combine _ l) in *. clearbody m. clear Heqt.
      destruct (assoc m k) as [c|] eqn:Ec.
      * destruct (IH c) as [(v & t' & E & H)|[(t' & E & H1 & H2)|(E & H)]]; rewrite E; cbn [obind].
        -- left. do 2 eexists. split; [reflexivity|]. apply at_path_cons. exists c. split; auto. unfold child. rewrite Ht; auto.
        -- right. left. eexists. split; [reflexivity|]. split.
           ++ intros [v H]. apply at_path_cons in H as (c' & Hc & H). unfold child in Hc. rewrite Ht in Hc.
              apply H1. exists v. congruence.
           ++ intros (p1 & k1 & p2 & s & Ep & H). destruct p1 as [|k2 p1]; simpl in Ep; inversion Ep; subst.
              ** apply at_path_nil in H. subst t. discriminate.
              ** apply at_path_cons in H as (c' & Hc & H). unfold child in Hc. rewrite Ht in Hc.
                 apply H2. exists p1, k1, p2, s. split; auto. congruence.
        -- right. right. split; auto. destruct H as (p1 & k1 & p2 & s & -> & H).
           exists (k :: p1), k1, p2, s. split; auto. apply at_path_cons. exists c. split; auto. unfold child. rewrite Ht; auto.
      * right. left. eexists. split; [reflexivity|]. split.
        -- intros [v H]. apply at_path_cons in H as (c & Hc & _). unfold child in Hc. rewrite Ht in Hc. congruence.
        -- intros (p1 & k1 & p2 & s & Ep & H). destruct p1 as [|k2 p1]; simpl in Ep; inversion Ep; subst.
           ++ apply at_path_nil in H. subst t. discriminate.
           ++ apply at_path_cons in H as (c & Hc & _). unfold child in Hc. rewrite Ht in Hc. congruence.
    + remember (Map m) as t. assert (Ht : as_map t = Ok m) by (subst; auto). clear Heqt.
      destruct (assoc m k) as [c|] eqn:Ec.
      * destruct (IH c) as [(v & t' & E & H)|[(t' & E & H1 & H2)|(E & H)]]; rewrite E; cbn [obind].
        -- left. do 2 eexists. split; [reflexivity|]. apply at_path_cons. exists c. split; auto. unfold child. rewrite Ht; auto.
        -- right. left. eexists. split; [reflexivity|]. split.
           ++ intros [v H]. apply at_path_cons in H as (c' & Hc & H). unfold child in Hc. rewrite Ht in Hc.
              apply H1. exists v. congruence.
           ++ intros (p1 & k1 & p2 & s & Ep & H). destruct p1 as [|k2 p1]; simpl in Ep; inversion Ep; subst.
              ** apply at_path_nil in H. subst t. discriminate.
              ** apply at_path_cons in H as (c' & Hc & H). unfold child in Hc. rewrite Ht in Hc.
                 apply H2. exists p1, k1, p2, s. split; auto. congruence.
        -- right. right. split; auto. destruct H as (p1 & k1 & p2 & s & -> & H).
           exists (k :: p1), k1, p2, s. split; auto. apply at_path_cons. exists c. split; auto. unfold child. rewrite Ht; auto.
      * right. left. eexists. split; [reflexivity|]. split.
        -- intros [v H]. apply at_path_cons in H as (c & Hc & _). unfold child in Hc. rewrite Ht in Hc. congruence.
        -- intros (p1 & k1 & p2 & s & Ep & H). destruct p1 as [|k2 p1]; simpl in Ep; inversion Ep; subst.
           ++ apply at_path_nil in H. subst t. discriminate.
           ++ apply at_path_cons in H as (c & Hc & _). unfold child in Hc. rewrite Ht in Hc. congruence.
Qed.

Lemma find_step t k p : found (find_node t (k :: p)) =
  match as_map t with
  | Ok m => match assoc m k with Some c => found (find_node c p) | None => Ok None end
  | Abort => Abort | UB => UB
  end.
Proof.
  simpl. destruct (as_map t) as [m| |]; auto. cbn [obind]. destruct (assoc m k); auto.
  destruct (find_node t0 p) as [[r c']| |]; reflexivity.
Qed.

Lemma set_then_find : forall p t v t', set_node t p v = Ok t' -> at_path t' p v.
Proof.
  induction p as [|k p IH]; intros t v t' H; simpl in H.
  - inversion H; constructor.
  - apply obind_ok in H as (m & Em & H). apply obind_ok in H as (c' & Ec & H). inversion H; subst.
    apply at_path_cons. exists c'. split; [|eapply IH; eauto]. unfold child; simpl. apply assoc_set_eq.
Qed.

Lemma unrelated_cons k p q : unrelated (k :: p) (k :: q) -> unrelated p q.
Proof. intros [H1 H2]. split; intros r E; [apply (H1 r)|apply (H2 r)]; simpl; congruence. Qed.

Lemma set_frame : forall p q t v t', set_node t p v = Ok t' -> unrelated p q ->
  found (find_node t' q) = found (find_node t q).
Proof.
  induction p as [|k p IH]; intros q t v t' H [Hu1 Hu2].
  - exfalso. apply (Hu1 q). reflexivity.
  - destruct q as [|k' q]; [exfalso; apply (Hu2 (k :: p)); reflexivity|].
    simpl in H. apply obind_ok in H as (m & Em & H). apply obind_ok in H as (c' & Ec & H). inversion H; subst.
    rewrite !find_step, Em. cbn [as_map].
    destruct (string_dec k' k) as [->|Hne].
    + rewrite assoc_set_eq. assert (Hu : unrelated p q).
      { apply (unrelated_cons k). split; auto. }
      rewrite (IH _ _ _ _ Ec Hu). destruct (assoc m k) as [c|]; auto.
      destruct q as [|k2 q]; [destruct Hu as [_ Hu]; exfalso; apply (Hu p); reflexivity|].
      rewrite find_step. reflexivity.
    + rewrite assoc_set_ne by auto. reflexivity.
Qed.

Lemma null_below p : ~ below_scalar Null p.
Proof.
  intros (p1 & k & p2 & s & -> & H). destruct p1 as [|k1 p1].
  - apply at_path_nil in H; discriminate.
  - apply at_path_cons in H as (c & Hc & _). discriminate.
Qed.

Lemma set_accepted : forall p t v, (exists t', set_node t p v = Ok t') <-> ~ below_scalar t p.
Proof.
  induction p as [|k p IH]; intros t v; simpl.
  - split; [|eauto]. intros _ (p1 & k & p2 & s & E & _). destruct p1; discriminate.
  - split.
    + intros [t' H] (p1 & k1 & p2 & s & E & Hs). apply obind_ok in H as (m & Em & H).
      apply obind_ok in H as (c' & Ec & _). destruct p1 as [|k2 p1]; simpl in E; inversion E; subst.
      * apply at_path_nil in Hs. subst t. discriminate.
      * apply at_path_cons in Hs as (c & Hc & Hs). unfold child in Hc. rewrite Em in Hc. rewrite Hc in Ec.
        apply (proj1 (IH c v)); [eauto|]. exists p1, k1, p2, s; auto.
    + intros Hn. destruct (as_map t) as [m| |] eqn:Em.
      * cbn [obind]. destruct (assoc m k) as [c|] eqn:Ec.
        -- assert (Hc : ~ below_scalar c p).
           { intros (p1 & k1 & p2 & s & -> & H). apply Hn. exists (k :: p1), k1, p2, s. split; auto.
             apply at_path_cons. exists c. split; auto. unfold child. rewrite Em. auto. }
           destruct (proj2 (IH c v) Hc) as [c' E]. rewrite E. cbn [obind]. eauto.
        -- destruct (proj2 (IH Null v) (null_below p)) as [c' E]. rewrite E. cbn [obind]. eauto.
      * exfalso. destruct t; try discriminate. apply Hn. exists [], k, p, s. split; auto. constructor.
      * destruct t; discriminate.
Qed.

(** reads: what later reads see *)
Lemma find_tree_frame : forall p t r t', find_node t p = Ok (r, t') ->
  forall q, (forall r', p <> q ++ r') -> found (find_node t' q) = found (find_node t q).
Proof.
  induction p as [|k p IH]; intros t r t' H q Hq; simpl in H.
  - inversion H; subst; auto.
  - apply obind_ok in H as (m & Em & H).
    destruct q as [|k' q]; [exfalso; apply (Hq (k :: p)); reflexivity|].
    destruct (assoc m k) as [c|] eqn:Ec.
    + apply obind_ok in H as ([r1 c'] & E & H). inversion H; subst.
      rewrite !find_step, Em. cbn [as_map]. destruct (string_dec k' k) as [->|Hne].
      * rewrite assoc_set_eq, Ec. apply (IH _ _ _ E). intros r' Er. apply (Hq r'). simpl. congruence.
      * rewrite assoc_set_ne by auto. reflexivity.
    + inversion H; subst. rewrite !find_step, Em. reflexivity.
Qed.

Lemma find_tree_same : forall p t r t', find_node t p = Ok (r, t') ->
  (forall p1 k p2 x, p = p1 ++ k :: p2 -> at_path t p1 x -> exists m, x = Map m) -> t' = t.
Proof.
  induction p as [|k p IH]; intros t r t' H Hm; simpl in H.
  - inversion H; auto.
  - destruct (Hm [] k p t eq_refl (at_here t)) as [m ->]. cbn [as_map obind] in H.
    destruct (assoc m k) as [c|] eqn:Ec.
    + apply obind_ok in H as ([r1 c'] & E & H). inversion H; subst.
      rewrite (IH c _ c' E).
      * rewrite assoc_set_same; auto.
      * intros p1 k1 p2 x -> Hx. apply (Hm (k :: p1) k1 p2 x eq_refl).
        apply at_path_cons. exists c. split; auto.
    + inversion H; subst. reflexivity.
Qed.

(** ** Typed reads *)
Section Typed.
  Context {T : Type} (decode : tree -> outcome T).

  Lemma get_option_cases t p def : segments slash p ->
    (forall v, at_path t p v -> value (get_option decode t (join slash p) def) = decode v) /\
    (~ present t p -> ~ below_scalar t p -> value (get_option decode t (join slash p) def) = Ok def) /\
    (below_scalar t p -> get_option decode t (join slash p) def = Abort).
  Proof.
    intros Hs. unfold get_option, find_key. rewrite pieces_join by auto. split; [|split].
    - intros v Hv. destruct (find_present _ _ _ Hv) as [t' ->]. cbn [obind]. destruct (decode v); reflexivity.
    - intros H1 H2. destruct (find_cases p t) as [(v & t' & E & H)|[(t' & E & _)|(E & H)]].
      + exfalso. apply H1. exists v; auto.
      + rewrite E. reflexivity.
      + contradiction.
    - intros H. rewrite (find_below _ _ H). reflexivity.
  Qed.

  Lemma set_get t p v t' : segments slash p -> set_key t (join slash p) v = Ok t' ->
    value (get_required decode t' (join slash p)) = decode v /\
    forall def, value (get_option decode t' (join slash p) def) = decode v.
  Proof.
    intros Hs. unfold set_key, get_option, get_required, find_key. rewrite pieces_join by auto. intros H.
    apply set_then_find in H. destruct (find_present _ _ _ H) as [t2 E]. rewrite E. cbn [obind].
    split; [|intros _]; destruct (decode v); reflexivity.
  Qed.

  Lemma set_other t p v t' q : segments slash p -> segments slash q ->
    set_key t (join slash p) v = Ok t' -> unrelated p q ->
    value (get_required decode t' (join slash q)) = value (get_required decode t (join slash q)) /\
    forall def, value (get_option decode t' (join slash q) def) = value (get_option decode t (join slash q) def).
  Proof.
    intros Hp Hq. unfold set_key, get_option, get_required, find_key. rewrite !pieces_join by auto. intros H Hu.
    pose proof (set_frame _ _ _ _ _ H Hu) as E. unfold found in E.
    destruct (find_node t' q) as [[r1 x1]| |], (find_node t q) as [[r2 x2]| |]; cbn [obind] in *;
      try discriminate; auto.
    inversion E; subst. destruct r2; auto. split; [|intros _]; cbn [obind]; destruct (decode t0); reflexivity.
  Qed.

  Lemma array_roundtrip (encode : T -> tree) l : (forall x, In x l -> decode (encode x) = Ok x) -> l <> [] ->
    decode_array decode (encode_array encode l) = Ok l.
  Proof.
    intros H Hne. destruct l as [|x l]; [contradiction|]. unfold encode_array, decode_array.
    clear Hne. induction (x :: l) as [|y ys IH]; auto. simpl. rewrite H by (simpl; auto). cbn [obind].
    rewrite IH by (intros z Hz; apply H; simpl; auto). reflexivity.
  Qed.
End Typed.

(** ** Overrides *)
Section Overwrite.
  Context (load : string -> outcome tree).

  Lemma no_char_app d a b : no_char d a -> no_char d b -> no_char d (a ++ b)%string.
  Proof. induction a; simpl; auto. intros [H1 H2] Hb. auto. Qed.

  Lemma item_good t kv : good_item kv ->
    overwrite_item load t (item_text kv) = let* v := load (snd kv) in set_key t (fst kv) v.
  Proof.
    destruct kv as [k v]; intros (H1 & H2 & H3 & H4 & H5). unfold overwrite_item, item_text; simpl in *.
    rewrite pieces_app_delim by auto. rewrite pieces_plain by auto. reflexivity.
  Qed.

  Lemma item_segments l : Forall good_item l -> segments ":" (map item_text l).
  Proof.
    intros HF. split.
    - apply Forall_map. eapply Forall_impl; [|exact HF]. intros [k v] (H1 & H2 & H3 & H4 & H5).
      unfold item_text; simpl in *. apply no_char_app; auto. simpl. split; [discriminate|auto].
    - destruct l as [|kv l]; [discriminate|]. revert kv HF. induction l as [|kv' l IH]; intros kv HF.
      + inversion HF as [|? ? H _]; subst. destruct kv as [k v]. simpl. unfold item_text. simpl.
        destruct k; discriminate.
      + inversion HF; subst. change (last (map item_text (kv :: kv' :: l)) "x") with (last (map item_text (kv' :: l)) "x").
        apply IH; auto.
  Qed.

  Lemma overwrite_items t l : Forall good_item l ->
    overwrite load t (join ":" (map item_text l)) =
    ofold (fun t kv => let* v := load (snd kv) in set_key t (fst kv) v) l t.
  Proof.
    intros HF. unfold overwrite. rewrite pieces_join by (apply item_segments; auto).
    revert t. induction l as [|kv l IH]; intros t; simpl; auto. inversion HF; subst.
    rewrite item_good by auto. destruct (let* v := load (snd kv) in set_key t (fst kv) v); simpl; auto.
  Qed.

  Lemma pieces_nonempty d s : s <> "" -> exists p ps, pieces d s = p :: ps.
  Proof.
    destruct s as [|c s]; [contradiction|]. intros _. simpl. destruct (Ascii.eqb c d); eauto.
    destruct (pieces d s); eauto.
  Qed.

  Lemma pieces_longer d k : forall r, r <> "" -> exists p ps, pieces d (k ++ String d r)%string = p :: ps /\
    (List.length (pieces d r) < List.length (p :: ps))%nat.
  Proof.
    induction k as [|c k IH]; intros r Hr; simpl.
    - rewrite Ascii.eqb_refl. do 2 eexists. split; [reflexivity|]. simpl. lia.
    - destruct (IH r Hr) as (p & ps & E & Hl). destruct (Ascii.eqb c d).
      + rewrite E. do 2 eexists. split; [reflexivity|]. simpl in *. lia.
      + rewrite E. do 2 eexists. split; [reflexivity|]. simpl in *. lia.
  Qed.

  Lemma item_bad t s : bad_item s -> overwrite_item load t s = Abort.
  Proof.
    intros H. unfold overwrite_item. inversion H as [s' Hs|k Hk|k v r Hr]; subst.
    - destruct (string_dec s "") as [->|Hne]; [reflexivity|]. rewrite pieces_plain by auto. reflexivity.
    - change (k ++ "=")%string with (k ++ String "=" "")%string. rewrite pieces_app_delim by auto. reflexivity.
    - simpl. destruct (pieces_longer "=" v r Hr) as (p & ps & E & Hl).
      assert (Hne : (v ++ String "=" r)%string <> "") by (destruct v; discriminate).
      destruct (pieces_longer "=" k _ Hne) as (p' & ps' & E' & Hl').
      rewrite E'. rewrite E in Hl'. destruct (pieces_nonempty "=" r Hr) as (a & b & Ea). rewrite Ea in Hl.
      simpl in *. destruct ps' as [|x [|y ps']]; simpl in Hl'; auto; lia.
  Qed.

  Lemma overwrite_rejects t l s : segments ":" l -> In s l -> bad_item s ->
    forall t', overwrite load t (join ":" l) <> Ok t'.
  Proof.
    intros Hs Hin Hb t' H. unfold overwrite in H. rewrite pieces_join in H by auto. clear Hs.
    revert t H. induction l as [|x l IH]; intros t H; [destruct Hin|]. simpl in H.
    apply obind_ok in H as (t1 & E & H). destruct Hin as [->|Hin]; [|eauto].
    rewrite item_bad in E by auto. discriminate.
  Qed.

  (** last assignment wins *)
  Lemma overwrite_last t l1 p v val l2 t' (T : Type) (decode : tree -> outcome T) def :
    Forall good_item (l1 ++ (join slash p, v) :: l2) -> segments slash p -> load v = Ok val ->
    (forall kv, In kv l2 -> exists q, segments slash q /\ fst kv = join slash q /\ unrelated q p) ->
    overwrite load t (join ":" (map item_text (l1 ++ (join slash p, v) :: l2))) = Ok t' ->
    value (get_option decode t' (join slash p) def) = decode val.
  Proof.
    intros HF Hs Hv Hl2 H. rewrite overwrite_items in H by auto. clear HF.
    rewrite ofold_app in H. apply obind_ok in H as (t1 & E1 & H). simpl in H.
    rewrite Hv in H. cbn [obind] in H. apply obind_ok in H as (t2 & E2 & H).
    assert (Hg : value (get_option decode t2 (join slash p) def) = decode val) by (eapply set_get; eauto).
    clear E2. revert t2 Hg H. induction l2 as [|kv l2 IH]; intros t2 Hg H; simpl in H.
    - inversion H; subst; auto.
    - apply obind_ok in H as (t3 & E3 & H). apply obind_ok in E3 as (w & _ & E3).
      destruct (Hl2 kv (or_introl eq_refl)) as (q & Hq & Ek & Hu). rewrite Ek in E3.
      apply (IH (fun kv' Hin => Hl2 kv' (or_intror Hin)) t3); auto.
      rewrite <- Hg. eapply (set_other decode); eauto.
  Qed.
End Overwrite.

(** ** LookUp *)
Section LookUp.
  Context {LT RT : Type} (ldecode : tree -> outcome LT) (leqb : LT -> LT -> bool)
          (Hleqb : forall a b, leqb a b = true <-> a = b) (rdecode : tree -> outcome RT).

  Notation entry_key := (entry_key ldecode).
  Notation readable := (readable ldecode).

  Lemma look_up_first p lval : segments slash p -> forall es,
    Forall (readable p) es ->
    match look_up ldecode leqb (join slash p) lval es with
    | Ok (Some e') => exists es1 e es2, es = es1 ++ e :: es2 /\ entry_key p e lval /\
                       (forall e0, In e0 es1 -> ~ entry_key p e0 lval) /\
                       (forall q, (forall r, p <> q ++ r) -> found (find_node e' q) = found (find_node e q))
    | Ok None => forall e, In e es -> ~ entry_key p e lval
    | _ => False
    end.
  Proof.
    intros Hs. induction es as [|e es IH]; intros HF; simpl; [intros ? []|].
    inversion HF as [|? ? Hr HF']; subst. specialize (IH HF').
    unfold find_key. rewrite pieces_join by auto.
    destruct Hr as [[H1 H2]|(x & n & Hn & Hx)].
    - destruct (find_cases p e) as [(v & t' & E & H)|[(t' & E & _)|(E & H)]].
      + exfalso. apply H1. exists v; auto.
      + rewrite E. cbn [obind].
        assert (Hno : ~ entry_key p e lval) by (intros (n & Hn & _); apply H1; exists n; auto).
        destruct (look_up ldecode leqb (join slash p) lval es) as [[e'|]| |]; auto.
        * destruct IH as (es1 & e1 & es2 & -> & Hk & Hf & Hq). exists (e :: es1), e1, es2.
          split; auto. split; auto. split; auto. intros e0 [<-|Hin]; auto.
        * intros e0 [<-|Hin]; auto.
      + contradiction.
    - destruct (find_present _ _ _ Hn) as [t' E]. rewrite E. cbn [obind]. rewrite Hx. cbn [obind].
      destruct (leqb x lval) eqn:El.
      + apply Hleqb in El. subst x. exists [], e, es. split; auto. split; [exists n; auto|].
        split; [intros ? []|]. intros q Hq. eapply find_tree_frame; eauto.
      + assert (Hno : ~ entry_key p e lval).
        { intros (n' & Hn' & Hx'). assert (n' = n) by (eapply at_path_fun; eauto). subst n'.
          assert (x = lval) by congruence. apply Hleqb in H. congruence. }
        destruct (look_up ldecode leqb (join slash p) lval es) as [[e'|]| |]; auto.
        * destruct IH as (es1 & e1 & es2 & -> & Hk & Hf & Hq). exists (e :: es1), e1, es2.
          split; auto. split; auto. split; auto. intros e0 [<-|Hin]; auto.
        * intros e0 [<-|Hin]; auto.
  Qed.

  Lemma look_up_value_first p q lval def es : segments slash p -> segments slash q -> (forall r, p <> q ++ r) ->
    Forall (readable p) es ->
    (exists es1 e es2, es = es1 ++ e :: es2 /\ entry_key p e lval /\ (forall e0, In e0 es1 -> ~ entry_key p e0 lval) /\
       look_up_value ldecode leqb rdecode (join slash p) lval (join slash q) def es =
       value (get_option rdecode e (join slash q) def)) \/
    ((forall e, In e es -> ~ entry_key p e lval) /\
     look_up_value ldecode leqb rdecode (join slash p) lval (join slash q) def es = Ok def).
  Proof.
    intros Hp Hq Hpq HF. pose proof (look_up_first p lval Hp es HF) as H. unfold look_up_value.
    destruct (look_up ldecode leqb (join slash p) lval es) as [[e'|]| |]; try contradiction.
    - destruct H as (es1 & e & es2 & -> & Hk & Hf & Hfr). left. exists es1, e, es2.
      split; auto. split; auto. split; auto. cbn [obind]. specialize (Hfr q Hpq).
      unfold get_option, find_key, value. rewrite pieces_join by auto. unfold found in Hfr.
      destruct (find_node e' q) as [[r1 x1]| |], (find_node e q) as [[r2 x2]| |]; cbn [obind] in *;
        try discriminate; auto.
      inversion Hfr; subst. destruct r2; auto. cbn [obind]. destruct (rdecode t); reflexivity.
    - right. auto.
  Qed.
End LookUp.
