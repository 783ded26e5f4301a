(** Proofs about file selection, basis sizes and tag lists. *)
From Coq Require Import ZArith List String Bool Lia Reals Lra.
From Verif Require Import Outcome ListLemmas TagsModel TagsSpec TagsProofs ConfigModel ConfigSpec ConfigProofs
  SamplingModel CompProofs SnapshotModel SnapshotSpec SnapshotProofs SnapshotCollect WorkModel WorkSpec.
Import ListNotations.
Open Scope string_scope.
Open Scope list_scope.

Lemma holds_fun {T} (dec : tree -> outcome T) t p x y : holds dec t p x -> holds dec t p y -> x = y.
Proof.
  intros (n & Hn & En) (m & Hm & Em). assert (n = m) by (eapply at_path_fun; eauto). subst. congruence.
Qed.
Lemma holds_present {T} (dec : tree -> outcome T) t p x : holds dec t p x -> present t p.
Proof. intros (n & Hn & _). exists n; auto. Qed.

(** [find_node] in terms of [at_path] and [absent] *)
Lemma find_some t p v : at_path t p v -> found (find_node t p) = Ok (Some v).
Proof. intros H. destruct (find_present _ _ _ H) as [t' E]. rewrite E. reflexivity. Qed.
Lemma find_none t p : absent t p -> found (find_node t p) = Ok None.
Proof.
  intros [H1 H2]. destruct (find_cases p t) as [(v & t' & E & H)|[(t' & E & _)|(E & H)]].
  - exfalso. apply H1. exists v; auto.
  - rewrite E. reflexivity.
  - contradiction.
Qed.
Lemma found_inv t p r : found (find_node t p) = Ok r ->
  match r with Some v => at_path t p v | None => absent t p end.
Proof.
  intros H. destruct (find_cases p t) as [(v & t' & E & Hv)|[(t' & E & Hv)|(E & _)]]; rewrite E in H; cbn in H.
  - inversion H; subst; auto.
  - inversion H; subst; auto.
  - discriminate.
Qed.
Lemma found_ok t p r t' : find_node t p = Ok (r, t') -> found (find_node t p) = Ok r.
Proof. intros ->. reflexivity. Qed.

(** two trees that answer a read alike *)
Definition agree (t t' : tree) (p : list string) : Prop := found (find_node t p) = found (find_node t' p).
Lemma agree_at t t' p v : agree t t' p -> (at_path t p v <-> at_path t' p v).
Proof.
  unfold agree. intros E. split; intros H.
  - apply find_some in H. rewrite E in H. apply found_inv in H. exact H.
  - apply find_some in H. rewrite <- E in H. apply found_inv in H. exact H.
Qed.
Lemma agree_absent t t' p : agree t t' p -> (absent t p <-> absent t' p).
Proof.
  unfold agree. intros E. split; intros H.
  - apply find_none in H. rewrite E in H. apply found_inv in H. exact H.
  - apply find_none in H. rewrite <- E in H. apply found_inv in H. exact H.
Qed.
Lemma agree_holds {T} (dec : tree -> outcome T) t t' p x : agree t t' p -> (holds dec t p x <-> holds dec t' p x).
Proof.
  intros E. split; intros (n & Hn & En); exists n; split; auto; eapply agree_at; eauto.
  unfold agree in *. congruence.
Qed.

Section Reads.
  Context {T : Type} (dec : tree -> outcome T).

  (** reading one path leaves the others as they were *)
  Lemma required_ok t k p x t' : pieces slash k = p -> get_required dec t k = Ok (x, t') ->
    holds dec t p x /\ forall q, (forall r, p <> q ++ r) -> agree t' t q.
  Proof.
    intros Hp H. unfold get_required, find_key in H. rewrite Hp in H.
    apply obind_ok in H as ([r t1] & E & H). destruct r as [n|]; [|discriminate].
    apply obind_ok in H as (v & Ev & H). inversion H; subst. split.
    - exists n. split; auto. apply found_ok in E. apply found_inv in E. exact E.
    - intros q Hq. eapply find_tree_frame; eauto.
  Qed.
  Lemma required_holds t k p x : pieces slash k = p -> holds dec t p x ->
    exists t', get_required dec t k = Ok (x, t').
  Proof.
    intros Hp (n & Hn & En). unfold get_required, find_key. rewrite Hp.
    destruct (find_present _ _ _ Hn) as [t' E]. rewrite E. cbn [obind]. rewrite En. cbn [obind]. eauto.
  Qed.
  Lemma option_ok t k p d x t' : pieces slash k = p -> get_option dec t k d = Ok (x, t') ->
    (holds dec t p x \/ (absent t p /\ x = d)) /\ forall q, (forall r, p <> q ++ r) -> agree t' t q.
  Proof.
    intros Hp H. unfold get_option, find_key in H. rewrite Hp in H.
    apply obind_ok in H as ([r t1] & E & H). pose proof (found_inv _ _ _ (found_ok _ _ _ _ E)) as Hr.
    destruct r as [n|].
    - apply obind_ok in H as (v & Ev & H). inversion H; subst. split.
      + left. exists n. auto.
      + intros q Hq. eapply find_tree_frame; eauto.
    - inversion H; subst. split; auto. intros q Hq. eapply find_tree_frame; eauto.
  Qed.
  Lemma option_holds t k p d x : pieces slash k = p -> holds dec t p x ->
    exists t', get_option dec t k d = Ok (x, t').
  Proof.
    intros Hp (n & Hn & En). unfold get_option, find_key. rewrite Hp.
    destruct (find_present _ _ _ Hn) as [t' E]. rewrite E. cbn [obind]. rewrite En. cbn [obind]. eauto.
  Qed.
  Lemma option_absent t k p d : pieces slash k = p -> absent t p -> exists t', get_option dec t k d = Ok (d, t').
  Proof.
    intros Hp H. apply find_none in H. unfold get_option, find_key. rewrite Hp.
    destruct (find_node t p) as [[[n|] t']| |]; cbn in H; try discriminate. cbn [obind]. eauto.
  Qed.
End Reads.

Lemma find_key_ok t k p r t' : pieces slash k = p -> find_key t k = Ok (r, t') ->
  found (find_node t p) = Ok r /\ forall q, (forall r', p <> q ++ r') -> agree t' t q.
Proof.
  intros <- H. split; [eapply found_ok; eauto|]. intros q Hq. eapply find_tree_frame; eauto.
Qed.
Lemma find_key_found t k p r : pieces slash k = p -> found (find_node t p) = Ok r -> exists t', find_key t k = Ok (r, t').
Proof.
  intros <- H. unfold find_key. destruct (find_node t (pieces slash k)) as [[r' t']| |]; cbn in H; try discriminate.
  inversion H; subst. eauto.
Qed.

Lemma nth_error_unique_list {A} (l l' : list A) : (forall k, nth_error l k = nth_error l' k) -> l = l'.
Proof. apply nth_error_ext. Qed.

Lemma numbers_spec (g : Z -> string) lo hi k :
  nth_error (map (fun k => g (lo + Z.of_nat k)%Z) (seq 0 (Z.to_nat (hi - lo + 1)))) k =
  if (lo + Z.of_nat k <=? hi)%Z then Some (g (lo + Z.of_nat k)%Z) else None.
Proof.
  destruct (Z.leb_spec (lo + Z.of_nat k) hi) as [H|H].
  - rewrite nth_error_map_seq by lia. f_equal.
  - apply nth_error_None. rewrite map_length, seq_length. lia.
Qed.

Section Files.
  Context (dstr : tree -> outcome string) (dint : tree -> outcome Z) (fmt : string -> Z -> string).
  Notation listed := (listed dstr).
  Notation numbered := (numbered dstr dint fmt).
  Notation first_named := (first_named dstr).
  Notation none_named := (none_named dstr).
  Notation names_readable := (names_readable dstr).
  Notation configured := (configured dstr dint fmt).
  Notation snapshot_files := (snapshot_files dstr dint fmt).

  Lemma decode_all_ok {T} (dec : tree -> outcome T) : forall l xs, decode_all dec l = Ok xs <-> Forall2 (fun n x => dec n = Ok x) l xs.
  Proof.
    induction l as [|a l IH]; intros xs; simpl.
    - split; [intros H; inversion H; constructor|intros H; inversion H; auto].
    - split.
      + intros H. apply obind_ok in H as (v & E & H). apply obind_ok in H as (vs & Es & H). inversion H; subst.
        constructor; auto. apply IH; auto.
      + intros H. inversion H as [|? ? ? ? E HF]; subst. rewrite E. cbn [obind]. apply IH in HF. rewrite HF. reflexivity.
  Qed.
  Lemma decode_array_ok t xs : decode_array dstr t = Ok xs <-> exists l, t = Seq l /\ Forall2 (fun n x => dstr n = Ok x) l xs.
  Proof.
    split.
    - intros H. destruct t as [| |l|]; try discriminate. exists l. split; auto. apply decode_all_ok; auto.
    - intros (l & -> & HF). apply decode_all_ok; auto.
  Qed.

  Lemma listed_option t k p fs : pieces slash k = p ->
    (exists t', get_option (decode_array dstr) t k [] = Ok (fs, t')) <-> listed t p fs.
  Proof.
    intros Hp. split.
    - intros [t' H]. destruct (option_ok _ _ _ _ _ _ _ Hp H) as [[(n & Hn & En)|[Ha ->]] _].
      + apply decode_array_ok in En as (l & -> & HF). eapply listed_some; eauto.
      + apply listed_none; auto.
    - intros H. inversion H as [Ha|l fs' Hn HF]; subst.
      + eapply option_absent; eauto.
      + eapply option_holds; eauto. exists (Seq l). split; auto. apply decode_array_ok. eauto.
  Qed.

  Lemma file_range_ok o lo hi f : file_range dstr dint o = Ok (lo, hi, f) <->
    holds dint o ["minimum"] lo /\ holds dint o ["maximum"] hi /\ holds dstr o ["format"] f.
  Proof.
    unfold file_range. split.
    - intros H. apply obind_ok in H as ([lo' o1] & E1 & H). apply obind_ok in H as ([hi' o2] & E2 & H).
      apply obind_ok in H as ([f' o3] & E3 & H). inversion H; subst.
      destruct (required_ok dint o "minimum" ["minimum"] _ _ eq_refl E1) as [H1 F1].
      destruct (required_ok dint o1 "maximum" ["maximum"] _ _ eq_refl E2) as [H2 F2].
      destruct (required_ok dstr o2 "format" ["format"] _ _ eq_refl E3) as [H3 F3].
      split; auto. split.
      + eapply agree_holds; [|exact H2]. assert (A : agree o1 o ["maximum"]) by (apply F1; intros r; discriminate).
        unfold agree in *. congruence.
      + eapply agree_holds; [|exact H3].
        assert (A : agree o1 o ["format"]) by (apply F1; intros r; discriminate).
        assert (B : agree o2 o1 ["format"]) by (apply F2; intros r; discriminate).
        unfold agree in *. congruence.
    - intros (H1 & H2 & H3).
      destruct (required_holds dint o "minimum" ["minimum"] _ eq_refl H1) as [o1 E1]. rewrite E1. cbn [obind].
      destruct (required_ok dint o "minimum" ["minimum"] _ _ eq_refl E1) as [_ F1].
      assert (A : agree o1 o ["maximum"]) by (apply F1; intros r; discriminate).
      assert (A' : agree o1 o ["format"]) by (apply F1; intros r; discriminate).
      apply (agree_holds dint _ _ _ _ A) in H2. apply (agree_holds dstr _ _ _ _ A') in H3.
      destruct (required_holds dint o1 "maximum" ["maximum"] _ eq_refl H2) as [o2 E2]. rewrite E2. cbn [obind].
      destruct (required_ok dint o1 "maximum" ["maximum"] _ _ eq_refl E2) as [_ F2].
      assert (B : agree o2 o1 ["format"]) by (apply F2; intros r; discriminate).
      apply (agree_holds dstr _ _ _ _ B) in H3.
      destruct (required_holds dstr o2 "format" ["format"] _ eq_refl H3) as [o3 E3]. rewrite E3. reflexivity.
  Qed.

  (** the formatted names appended to a list *)
  Lemma formatted_ok t p r fs out : found (find_node t p) = Ok r ->
    (add_formatted dstr dint fmt r fs = Ok out <-> exists gs, numbered t p gs /\ out = fs ++ gs).
  Proof.
    intros Er. pose proof (found_inv _ _ _ Er) as Hr. split.
    - unfold add_formatted. destruct r as [o|].
      + intros H. apply obind_ok in H as ([[lo hi] f] & E & H). inversion H; subst.
        apply file_range_ok in E as (H1 & H2 & H3). unfold parse_filenames.
        eexists. split; [|reflexivity]. eapply numbered_some; eauto. intros k. apply numbers_spec.
      + intros H. inversion H; subst. exists []. split; [apply numbered_none; auto|]. rewrite app_nil_r; auto.
    - intros (gs & Hg & ->). unfold add_formatted. inversion Hg as [Ha|o lo hi f gs' Ho H1 H2 H3 Hk]; subst.
      + destruct r as [o|]; [exfalso; destruct Ha as [Ha _]; apply Ha; exists o; auto|]. rewrite app_nil_r. auto.
      + destruct r as [o'|]; [|exfalso; destruct Hr as [Hr _]; apply Hr; exists o; auto].
        assert (o' = o) by (eapply at_path_fun; eauto). subst o'.
        assert (E : file_range dstr dint o = Ok (lo, hi, f)) by (apply file_range_ok; auto). rewrite E. cbn [obind].
        unfold parse_filenames. f_equal. f_equal. apply nth_error_unique_list. intros k. rewrite Hk.
        apply (numbers_spec (fmt f)).
  Qed.

  (** the entry of a name *)
  Lemma tags_found cfg es : tag_entries cfg es <->
    exists r, found (find_node cfg ["basis"; "tags"]) = Ok r /\ match r with Some t => entries t | None => [] end = es.
  Proof.
    split.
    - intros H. inversion H as [Ha|t Ht Hn|l Hl]; subst.
      + exists None. split; auto. apply find_none; auto.
      + exists (Some t). split; [apply find_some; auto|]. destruct t; auto. exfalso. apply (Hn l); auto.
      + exists (Some (Seq es)). split; auto. apply find_some; auto.
    - intros (r & Er & <-). apply found_inv in Er. destruct r as [t|]; [|apply tags_absent; auto].
      destruct t as [|s|l|m]; [apply (tags_other _ Null)|apply (tags_other _ (Scalar s))|apply tags_list|apply (tags_other _ (Map m))];
        auto; intros l; discriminate.
  Qed.
  Lemma tag_entries_fun cfg es es' : tag_entries cfg es -> tag_entries cfg es' -> es = es'.
  Proof.
    intros H H'. apply tags_found in H as (r & E & <-), H' as (r' & E' & <-). rewrite E in E'. inversion E'; auto.
  Qed.

  Lemma named_cases es nm : names_readable es ->
    (none_named es nm /\ look_up dstr String.eqb "name" nm es = Ok None) \/
    (exists e e', first_named es nm e /\ look_up dstr String.eqb "name" nm es = Ok (Some e') /\
       forall q, (forall r, ["name"] <> q ++ r) -> agree e' e q).
  Proof.
    intros Hr. assert (HF : Forall (readable dstr ["name"]) es).
    { apply Forall_forall. intros e He. destruct (Hr e He) as [H|H]; [left|right]; auto. }
    assert (Hs : segments slash ["name"]).
    { split; [|simpl; discriminate]. constructor; [|constructor]. simpl. repeat split; discriminate. }
    pose proof (look_up_first dstr String.eqb String.eqb_eq ["name"] nm Hs es HF) as H.
    change (join slash ["name"]) with "name" in H.
    destruct (look_up dstr String.eqb "name" nm es) as [[e'|]| |]; try contradiction.
    - right. destruct H as (es1 & e & es2 & -> & Hk & Hf & Hq). exists e, e'. split; [|split; auto].
      exists es1, es2. auto.
    - left. auto.
  Qed.
  Lemma first_named_fun es nm e e' : first_named es nm e -> first_named es nm e' -> e = e'.
  Proof.
    intros (a & b & E & H1 & H2) (a' & b' & E' & H1' & H2'). subst es.
    revert a' E' H2'. induction a as [|x a IH]; intros a' E' H2'; destruct a' as [|x' a']; simpl in E'; inversion E'; subst; auto.
    - exfalso. apply (H2' x'); simpl; auto.
    - exfalso. apply (H2 e'); simpl; auto.
    - apply (IH) with (a' := a'); auto. intros e0 H0. apply H2; simpl; auto. intros e0 H0. apply H2'; simpl; auto.
  Qed.
  Lemma first_not_none es nm e : first_named es nm e -> none_named es nm -> False.
  Proof. intros (a & b & -> & H & _) Hn. apply (Hn e); auto. apply in_or_app; simpl; auto. Qed.

  Lemma or_default_used fs d r : r = or_default fs d <-> used d fs r.
  Proof.
    unfold or_default, used. destruct fs as [|a fs].
    - split; [auto|]. intros [[_ H]|[H _]]; auto. contradiction.
    - split; [right; split; auto; discriminate|]. intros [[H _]|[_ H]]; auto. discriminate.
  Qed.

  Lemma snapshot_files_ok cfg es tag d r : tag_entries cfg es -> names_readable es ->
    (snapshot_files cfg tag d = Ok r <-> exists fs, configured cfg (print_tag tag) fs /\ used d fs r).
  Proof.
    intros Hes Hr. pose proof Hes as Hes'. apply tags_found in Hes' as (rt & Et & Ees).
    destruct (find_key_found cfg "basis/tags" _ _ eq_refl Et) as [cfg' Ek].
    unfold snapshot_files. rewrite Ek. cbn [obind].
    assert (Ebody : match rt with
      | None => Ok []
      | Some tags => let* e := look_up dstr String.eqb "name" (print_tag tag) (entries tags) in
          match e with None => Ok [] | Some e =>
            let* (files, e1) := get_option (decode_array dstr) e "snapshot_files" [] in
            let* (f, _) := find_key e1 "snapshot_format" in add_formatted dstr dint fmt f files end end
      = let* e := look_up dstr String.eqb "name" (print_tag tag) es in
          match e with None => Ok [] | Some e =>
            let* (files, e1) := get_option (decode_array dstr) e "snapshot_files" [] in
            let* (f, _) := find_key e1 "snapshot_format" in add_formatted dstr dint fmt f files end).
    { rewrite <- Ees. destruct rt; reflexivity. }
    rewrite Ebody. clear Ebody.
    destruct (named_cases es (print_tag tag) Hr) as [[Hn El]|(e & e' & Hf & El & Ha)]; rewrite El; cbn [obind].
    - split.
      + intros H. inversion H; subst. exists []. split; [eapply conf_none; eauto|]. left; auto.
      + intros (fs & Hc & Hu). inversion Hc as [es1 H1 H2|es1 e fs1 gs1 H1 H2 H3 H4]; subst.
        * apply or_default_used in Hu. subst; auto.
        * exfalso. assert (es1 = match rt with Some t => entries t | None => [] end) by (eapply tag_entries_fun; eauto). subst es1.
          eapply first_not_none; eauto.
    - assert (A1 : agree e' e ["snapshot_files"]) by (apply Ha; intros q; discriminate).
      assert (A2 : agree e' e ["snapshot_format"]) by (apply Ha; intros q; discriminate).
      assert (HL : forall fs, listed e' ["snapshot_files"] fs <-> listed e ["snapshot_files"] fs).
      { intros fs. split; intros H; inversion H as [Hab|l fs' Hl HF]; subst;
          (apply listed_none; apply (agree_absent _ _ _ A1); auto) || (eapply listed_some; eauto; apply (agree_at _ _ _ _ A1); auto). }
      split.
      + intros H. apply obind_ok in H as (fs & H & Hr'). inversion Hr'; subst r.
        apply obind_ok in H as ([files e1] & E1 & H). apply obind_ok in H as ([f e2] & E2 & H).
        destruct (option_ok _ _ "snapshot_files" ["snapshot_files"] _ _ _ eq_refl E1) as [_ F1].
        assert (A3 : agree e1 e' ["snapshot_format"]) by (apply F1; intros q; discriminate).
        destruct (find_key_ok _ "snapshot_format" ["snapshot_format"] _ _ eq_refl E2) as [E2' _].
        assert (E3 : found (find_node e ["snapshot_format"]) = Ok f) by (unfold agree in *; congruence).
        apply (formatted_ok _ _ _ _ _ E3) in H as (gs & Hg & ->).
        exists (files ++ gs). split; [|apply or_default_used; auto].
        eapply conf_some; eauto. apply HL. apply (listed_option e' "snapshot_files"); auto. eauto.
      + intros (fs & Hc & Hu). apply or_default_used in Hu. subst r.
        inversion Hc as [es1 H1 H2|es1 e1 fs1 gs1 H1 H2 H3 H4]; subst.
        { exfalso. assert (es1 = match rt with Some t => entries t | None => [] end) by (eapply tag_entries_fun; eauto). subst es1.
          eapply first_not_none; eauto. }
        assert (es1 = match rt with Some t => entries t | None => [] end) by (eapply tag_entries_fun; eauto). subst es1.
        assert (e1 = e) by (eapply first_named_fun; eauto). subst e1.
        apply HL in H3. apply (listed_option e' "snapshot_files" _ _ eq_refl) in H3 as [e1 E1]. rewrite E1. cbn [obind].
        destruct (option_ok _ _ "snapshot_files" ["snapshot_files"] _ _ _ eq_refl E1) as [_ F1].
        assert (A3 : agree e1 e' ["snapshot_format"]) by (apply F1; intros q; discriminate).
        assert (E3 : exists f, found (find_node e ["snapshot_format"]) = Ok f).
        { inversion H4 as [Hab|o lo hi f0 gs' Ho]; subst; [exists None; apply find_none; auto|exists (Some o); apply find_some; auto]. }
        destruct E3 as [f E3].
        destruct (find_key_found e1 "snapshot_format" ["snapshot_format"] f eq_refl) as [e2 E2]; [unfold agree in *; congruence|].
        rewrite E2. cbn [obind].
        assert (E4 : add_formatted dstr dint fmt f fs1 = Ok (fs1 ++ gs1)) by (apply (formatted_ok _ _ _ _ _ E3); eauto).
        rewrite E4. reflexivity.
  Qed.
End Files.
