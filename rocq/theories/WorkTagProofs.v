(** Proofs about basis sizes, tag lists, reading samples back, and the energy of singular values. *)
From Coq Require Import ZArith List String Bool Lia Reals Lra.
From Verif Require Import Outcome ListLemmas TagsModel TagsSpec TagsProofs ConfigModel ConfigSpec ConfigProofs
  SamplingModel CompProofs SnapshotModel SnapshotSpec SnapshotProofs SnapshotCollect WorkModel WorkSpec WorkProofs.
Import ListNotations.
Open Scope string_scope.
Open Scope list_scope.

Section Sizes.
  Context (dstr : tree -> outcome string) (dint : tree -> outcome Z) (fmt : string -> Z -> string).

  (** The same look-up with the same default in both places. *)
  Lemma sizes_agree cfg tag : train_num_basis dstr dint cfg tag = rom_num_basis dstr dint cfg tag.
  Proof.
    unfold train_num_basis, rom_num_basis.
    destruct (get_option dint cfg "basis/number_of_basis" (-1)%Z) as [[dflt c1]| |]; cbn [obind]; auto.
    destruct (find_key c1 "basis/tags") as [[[t|] c2]| |]; cbn [obind]; auto.
    unfold look_up_value. cbn [look_up obind]. destruct (0 <? dflt)%Z eqn:E; cbn [oassert obind]; auto.
  Qed.

  Lemma size_ok cfg es tag n : tag_entries cfg es -> names_readable dstr es ->
    (train_num_basis dstr dint cfg tag = Ok n <-> basis_size dstr dint cfg (print_tag tag) n /\ (0 < n)%Z).
  Proof.
    intros Hes Hr. unfold train_num_basis.
    assert (Hframe : forall d c1, get_option dint cfg "basis/number_of_basis" (-1)%Z = Ok (d, c1) ->
      common_size dint cfg d /\ agree c1 cfg ["basis"; "tags"]).
    { intros d c1 E. destruct (option_ok _ _ "basis/number_of_basis" ["basis"; "number_of_basis"] _ _ _ eq_refl E) as [H F].
      split; [exact H|]. apply F. intros r; discriminate. }
    assert (Hc : forall c, common_size dint cfg c -> exists c1, get_option dint cfg "basis/number_of_basis" (-1)%Z = Ok (c, c1)).
    { intros c [H|[H ->]].
      - eapply option_holds; eauto.
      - eapply option_absent; eauto. }
    assert (Hcf : forall c c', common_size dint cfg c -> common_size dint cfg c' -> c = c').
    { intros c c' H H'. apply Hc in H as [x E], H' as [x' E']. congruence. }
    pose proof Hes as Hes'. apply tags_found in Hes' as (rt & Et & Ees).
    assert (Hbody : forall d c1, get_option dint cfg "basis/number_of_basis" (-1)%Z = Ok (d, c1) ->
      (let* (tags, _) := find_key c1 "basis/tags" in
       let* num := match tags with
        | None => Ok d
        | Some tags => let* e := look_up dstr String.eqb "name" (print_tag tag) (entries tags) in
          match e with None => Ok d | Some e => let* (n, _) := get_option dint e "number_of_basis" d in Ok n end end in
       oassert (0 <? num)%Z (Ok num)) =
      let* num := (let* e := look_up dstr String.eqb "name" (print_tag tag) es in
          match e with None => Ok d | Some e => let* (n, _) := get_option dint e "number_of_basis" d in Ok n end) in
      oassert (0 <? num)%Z (Ok num)).
    { intros d c1 E. destruct (Hframe d c1 E) as [_ A].
      destruct (find_key_found c1 "basis/tags" ["basis"; "tags"] rt eq_refl) as [c2 E2]; [unfold agree in A; congruence|].
      rewrite E2. cbn [obind]. rewrite <- Ees. destruct rt; reflexivity. }
    split.
    - intros H. destruct (get_option dint cfg "basis/number_of_basis" (-1)%Z) as [[d c1]| |] eqn:E; cbn [obind] in H; try discriminate.
      rewrite (Hbody d c1 eq_refl) in H. destruct (Hframe d c1 eq_refl) as [Hd _].
      destruct (named_cases dstr es (print_tag tag) Hr) as [[Hn El]|(e & e' & Hf & El & Ha)]; rewrite El in H; cbn [obind] in H.
      + apply oassert_ok in H as [Hp H]. inversion H; subst. split; [eapply size_common; eauto|]. apply Z.ltb_lt; auto.
      + apply obind_ok in H as (m & H & H'). apply oassert_ok in H' as [Hp H']. inversion H'; subst m.
        apply obind_ok in H as ([m e2] & E2 & H). inversion H; subst m.
        assert (A1 : agree e' e ["number_of_basis"]) by (apply Ha; intros q; discriminate).
        apply Z.ltb_lt in Hp. split; auto.
        destruct (option_ok _ _ "number_of_basis" ["number_of_basis"] _ _ _ eq_refl E2) as [[Hh|[Hb ->]] _].
        * eapply size_own; eauto. apply (agree_holds dint _ _ _ _ A1). exact Hh.
        * eapply size_inherit; eauto. apply (agree_absent _ _ _ A1). exact Hb.
    - intros [Hs Hp]. apply Z.ltb_lt in Hp.
      assert (Hx : forall es1, tag_entries cfg es1 -> es1 = es) by (intros; eapply tag_entries_fun; eauto).
      inversion Hs as [es1 m H1 H2 H3|es1 e m H1 H2 H3 H4|es1 e m c H1 H2 H3 H4]; subst m; pose proof (Hx _ H1); subst es1; clear H1.
      + destruct (Hc _ H3) as [c1 E]. rewrite E. cbn [obind]. rewrite (Hbody _ _ E).
        destruct (named_cases dstr es (print_tag tag) Hr) as [[Hn El]|(e & e' & Hf & El & Ha)]; rewrite El; cbn [obind].
        * rewrite Hp. reflexivity.
        * exfalso. eapply first_not_none; eauto.
      + destruct (Hc _ H4) as [c1 E]. rewrite E. cbn [obind]. rewrite (Hbody _ _ E).
        destruct (named_cases dstr es (print_tag tag) Hr) as [[Hn El]|(e1 & e' & Hf & El & Ha)]; rewrite El; cbn [obind].
        * exfalso. eapply first_not_none; eauto.
        * assert (e1 = e) by (eapply first_named_fun; eauto). subst e1.
          assert (A1 : agree e' e ["number_of_basis"]) by (apply Ha; intros q; discriminate).
          apply (agree_absent _ _ _ A1) in H3.
          destruct (option_absent dint e' "number_of_basis" ["number_of_basis"] n eq_refl H3) as [e2 E2]. rewrite E2. cbn [obind].
          rewrite Hp. reflexivity.
      + destruct (Hc _ H4) as [c1 E]. rewrite E. cbn [obind]. rewrite (Hbody _ _ E).
        destruct (named_cases dstr es (print_tag tag) Hr) as [[Hn El]|(e1 & e' & Hf & El & Ha)]; rewrite El; cbn [obind].
        * exfalso. eapply first_not_none; eauto.
        * assert (e1 = e) by (eapply first_named_fun; eauto). subst e1.
          assert (A1 : agree e' e ["number_of_basis"]) by (apply Ha; intros q; discriminate).
          apply (agree_holds dint _ _ _ _ A1) in H3.
          destruct (option_holds dint e' "number_of_basis" ["number_of_basis"] c n eq_refl H3) as [e2 E2]. rewrite E2. cbn [obind].
          rewrite Hp. reflexivity.
  Qed.

  Lemma port_files_ok cfg sp r :
    port_files dstr dint fmt cfg sp = Ok r <->
    exists fs gs, listed dstr cfg ["sample_collection"; "port_files"] fs /\
      numbered dstr dint fmt cfg ["sample_collection"; "port_fileformat"] gs /\ used (sp ++ ".port.h5") (fs ++ gs) r.
  Proof.
    unfold port_files. split.
    - intros H. apply obind_ok in H as ([fs c1] & E1 & H). apply obind_ok in H as ([f c2] & E2 & H).
      apply obind_ok in H as (out & E3 & H). inversion H; subst r.
      destruct (option_ok _ _ "sample_collection/port_files" ["sample_collection"; "port_files"] _ _ _ eq_refl E1) as [_ F1].
      assert (A : agree c1 cfg ["sample_collection"; "port_fileformat"]) by (apply F1; intros q; discriminate).
      destruct (find_key_ok _ "sample_collection/port_fileformat" ["sample_collection"; "port_fileformat"] _ _ eq_refl E2) as [E2' _].
      assert (E4 : found (find_node cfg ["sample_collection"; "port_fileformat"]) = Ok f) by (unfold agree in A; congruence).
      apply (formatted_ok dstr dint fmt _ _ _ _ _ E4) in E3 as (gs & Hg & ->).
      exists fs, gs. split; [|split; auto].
      + apply (listed_option dstr cfg "sample_collection/port_files"); auto. eauto.
      + apply or_default_used. reflexivity.
    - intros (fs & gs & Hl & Hg & Hu). apply or_default_used in Hu. subst r.
      apply (listed_option dstr cfg "sample_collection/port_files" _ _ eq_refl) in Hl as [c1 E1]. rewrite E1. cbn [obind].
      destruct (option_ok _ _ "sample_collection/port_files" ["sample_collection"; "port_files"] _ _ _ eq_refl E1) as [_ F1].
      assert (A : agree c1 cfg ["sample_collection"; "port_fileformat"]) by (apply F1; intros q; discriminate).
      assert (E3 : exists f, found (find_node cfg ["sample_collection"; "port_fileformat"]) = Ok f).
      { inversion Hg as [Hab|o lo hi f0 gs' Ho]; subst; [exists None; apply find_none; auto|exists (Some o); apply find_some; auto]. }
      destruct E3 as [f E3].
      destruct (find_key_found c1 "sample_collection/port_fileformat" ["sample_collection"; "port_fileformat"] f eq_refl) as [e2 E2];
        [unfold agree in A; congruence|].
      rewrite E2. cbn [obind].
      assert (E4 : add_formatted dstr dint fmt f fs = Ok (fs ++ gs)) by (apply (formatted_ok dstr dint fmt _ _ _ _ _ E3); eauto).
      rewrite E4. reflexivity.
  Qed.
End Sizes.

(** ** Tag lists *)
Definition all_tags (comps vars : list string) : list basis_tag :=
  flat_map (fun c => map (fun v => {| comp := c; var := v |}) vars) comps.

Lemma all_tags_length comps vars : List.length (all_tags comps vars) = (List.length comps * List.length vars)%nat.
Proof. unfold all_tags. induction comps as [|c l IH]; simpl; auto. rewrite app_length, map_length, IH. lia. Qed.

Lemma all_tags_major comps vars : component_major comps vars (all_tags comps vars).
Proof.
  split; [apply all_tags_length|]. induction comps as [|c0 l IH]; intros i j c v Hi Hj; [destruct i; discriminate|].
  assert (Hj' : (j < List.length vars)%nat) by (apply nth_error_Some; congruence).
  destruct i as [|i]; simpl in *.
  - inversion Hi; subst c0. rewrite nth_error_app1 by (rewrite map_length; auto). rewrite nth_error_map, Hj. reflexivity.
  - rewrite nth_error_app2; rewrite map_length; [|lia].
    replace (List.length vars + i * List.length vars + j - List.length vars)%nat with (i * List.length vars + j)%nat by lia.
    apply IH; auto.
Qed.

Lemma component_major_fun comps vars ts : component_major comps vars ts -> ts = all_tags comps vars.
Proof.
  intros [Hl Hn]. destruct (all_tags_major comps vars) as [Hl' Hn']. apply nth_error_ext. intros k.
  destruct (Nat.lt_ge_cases k (List.length comps * List.length vars)) as [H|H].
  - set (n := List.length vars) in *. assert (n <> 0)%nat by (intros E; rewrite E in H; lia).
    assert (Ek : k = (k / n * n + k mod n)%nat) by (pose proof (Nat.div_mod k n); lia).
    assert (Hi : (k / n < List.length comps)%nat) by (apply Nat.div_lt_upper_bound; lia).
    assert (Hj : (k mod n < List.length vars)%nat) by (apply Nat.mod_upper_bound; auto).
    destruct (nth_error comps (k / n)) as [c|] eqn:Ec; [|apply nth_error_None in Ec; lia].
    destruct (nth_error vars (k mod n)) as [v|] eqn:Ev; [|apply nth_error_None in Ev; lia].
    rewrite Ek. rewrite (Hn _ _ _ _ Ec Ev), (Hn' _ _ _ _ Ec Ev). reflexivity.
  - assert (E1 : nth_error ts k = None) by (apply nth_error_None; lia).
    assert (E2 : nth_error (all_tags comps vars) k = None) by (apply nth_error_None; lia). congruence.
Qed.

Lemma in_all_tags comps vars t : In t (all_tags comps vars) <-> In (comp t) comps /\ In (var t) vars.
Proof.
  unfold all_tags. rewrite in_flat_map. split.
  - intros (c & Hc & Ht). apply in_map_iff in Ht as (v & <- & Hv). auto.
  - intros [Hc Hv]. exists (comp t). split; auto. apply in_map_iff. exists (var t). split; auto. destruct t; auto.
Qed.

Lemma NoDup_all_tags comps vars : NoDup comps -> NoDup vars -> NoDup (all_tags comps vars).
Proof.
  intros Hc Hv. induction comps as [|c l IH]; simpl; [constructor|]. inversion Hc; subst.
  assert (Hm : NoDup (map (fun v => {| comp := c; var := v |}) vars)).
  { clear - Hv. induction Hv; simpl; constructor; auto. intros H1. apply in_map_iff in H1 as (y & E & Hy). inversion E; subst; auto. }
  revert Hm. assert (Hd : forall t, In t (map (fun v => {| comp := c; var := v |}) vars) -> ~ In t (all_tags l vars)).
  { intros t Ht H'. apply in_map_iff in Ht as (v & <- & _). apply in_all_tags in H' as [H' _]. simpl in H'. contradiction. }
  intros Hm. specialize (IH H2). revert Hd IH. clear - Hm. fold (all_tags l vars). generalize (all_tags l vars).
  induction Hm as [|a m Ha Hm IHm]; intros L Hd HL; simpl; auto. constructor.
  - intros H. apply in_app_or in H as [H|H]; auto. apply (Hd a); simpl; auto.
  - apply IHm; auto. intros t Ht. apply Hd; simpl; auto.
Qed.

Lemma NoDup_map_inj {A B} (f : A -> B) l : (forall x y, In x l -> In y l -> f x = f y -> x = y) -> NoDup l -> NoDup (map f l).
Proof.
  intros Hi H. induction H as [|a l Ha H IH]; simpl; constructor.
  - intros Hin. apply in_map_iff in Hin as (b & E & Hb). assert (b = a) by (apply Hi; simpl; auto). subst; auto.
  - apply IH. intros x y Hx Hy. apply Hi; simpl; auto.
Qed.

Lemma physics_plain solver vars : physics_vars solver vars -> plain_vars vars /\ NoDup vars /\ vars <> [].
Proof.
  intros H. inversion H; subst; (split; [right|split; [|discriminate]]);
    try (intros x Hx; repeat (destruct Hx as [<-|Hx]; [split; [discriminate|simpl; repeat split; discriminate]|]); destruct Hx);
    repeat constructor; simpl; intuition discriminate.
Qed.

Section Tags.
  Context (dstr : tree -> outcome string).

  Lemma variable_names_ok solver vars : variable_names solver = Ok vars <-> physics_vars solver vars.
  Proof.
    unfold variable_names. split.
    - repeat match goal with |- context [String.eqb solver ?s] => destruct (String.eqb_spec solver s) as [->|?] end;
        intros H; inversion H; constructor.
    - intros H; inversion H; reflexivity.
  Qed.

  Lemma component_names_ok d cs : component_names dstr d = Ok cs <->
    (exists l, d = Seq l /\ Forall2 (fun e c => holds dstr e ["name"] c) l cs) \/
    ((d = Null \/ (exists s, d = Scalar s) \/ d = Map []) /\ cs = []).
  Proof.
    assert (Hmap : forall l, omap (fun e => let* (n, _) := get_required dstr e "name" in Ok n) l = Ok cs <->
              Forall2 (fun e c => holds dstr e ["name"] c) l cs).
    { intros l. rewrite omap_ok. split; intros H.
      - eapply Forall2_weaken; [|exact H]. intros e c Hc. cbn beta in Hc.
        apply obind_ok in Hc as ([n e1] & E & Hc). inversion Hc; subst.
        destruct (required_ok dstr e "name" ["name"] _ _ eq_refl E) as [Hh _]. exact Hh.
      - eapply Forall2_weaken; [|exact H]. intros e c Hc. cbn beta.
        destruct (required_holds dstr e "name" ["name"] _ eq_refl Hc) as [e' E]. rewrite E. reflexivity. }
    unfold component_names. destruct d as [|s|l|[|m0 m]]; cbn [entries omap].
    - split; [intros H; inversion H; auto|]. intros [(l & E & _)|[_ ->]]; [discriminate|auto].
    - split; [intros H; inversion H; right; split; eauto|]. intros [(l & E & _)|[_ ->]]; [discriminate|auto].
    - rewrite Hmap. split; [left; eauto|]. intros [(l' & E & H)|[[H|[(s & H)|H]] _]]; try discriminate. inversion E; subst; auto.
    - split; [intros H; inversion H; auto|]. intros [(l & E & _)|[_ ->]]; [discriminate|auto].
    - split; [discriminate|]. intros [(l' & E & H)|[[H|[(s & H)|H]] _]]; discriminate.
  Qed.

  Definition has_components (mode : topol_mode) (cfg : tree) (submesh comps : list string) : Prop :=
    (mode = SUBMESH /\ comps = submesh) \/ (mode = COMPONENT /\ declared dstr cfg comps).
  Definition has_variables (cfg : tree) (separate : bool) (vars : list string) : Prop :=
    (separate = false /\ vars = [""]) \/
    (separate = true /\ exists solver, holds dstr cfg ["main"; "solver"] solver /\ physics_vars solver vars).

  Lemma global_tags_ok mode cfg submesh separate ts :
    global_tags dstr mode cfg submesh separate = Ok ts <->
    exists comps vars, has_components mode cfg submesh comps /\ has_variables cfg separate vars /\
      component_major comps vars ts.
  Proof.
    unfold global_tags.
    assert (HC : forall comps, (match mode with
      | SUBMESH => Ok submesh
      | COMPONENT => let* (d, _) := find_key cfg "mesh/component-wise/components" in
          match d with None => Abort | Some d => component_names dstr d end
      | NUM_TOPOL_MODE => Abort end) = Ok comps <-> has_components mode cfg submesh comps).
    { intros comps. unfold has_components. destruct mode.
      - split; [intros H; inversion H; auto|]. intros [[_ ->]|[H _]]; [auto|discriminate].
      - split.
        + intros H. right. split; auto. apply obind_ok in H as ([d c1] & E & H). destruct d as [d|]; [|discriminate].
          destruct (find_key_ok _ "mesh/component-wise/components" ["mesh"; "component-wise"; "components"] _ _ eq_refl E) as [E' _]. apply found_inv in E'.
          apply component_names_ok in H as [(l & -> & HF)|[Hd ->]]; [eapply declared_list; eauto|eapply declared_none; eauto].
        + intros [[H _]|[_ H]]; [discriminate|].
          assert (Hd : exists d, at_path cfg ["mesh"; "component-wise"; "components"] d /\ component_names dstr d = Ok comps).
          { inversion H as [l cs Hl HF|d Hd Hs]; subst.
            - exists (Seq l). split; auto. apply component_names_ok. left; eauto.
            - exists d. split; auto. apply component_names_ok. auto. }
          destruct Hd as (d & Hd & En). apply find_some in Hd.
          destruct (find_key_found cfg "mesh/component-wise/components" _ _ eq_refl Hd) as [c1 E]. rewrite E. cbn [obind]. exact En.
      - split; [discriminate|]. intros [[H _]|[H _]]; discriminate. }
    assert (HV : forall vars, separate = true ->
      ((let* (s, _) := get_required dstr cfg "main/solver" in variable_names s) = Ok vars <-> has_variables cfg separate vars)).
    { intros vars ->. unfold has_variables. split.
      - intros H. right. split; auto. apply obind_ok in H as ([s c1] & E & H). exists s.
        destruct (required_ok dstr cfg "main/solver" ["main"; "solver"] _ _ eq_refl E) as [Hh _].
        split; auto. apply variable_names_ok; auto.
      - intros [[H _]|[_ (s & Hs & Hp)]]; [discriminate|].
        destruct (required_holds dstr cfg "main/solver" ["main"; "solver"] _ eq_refl Hs) as [c1 E]. rewrite E. cbn [obind].
        apply variable_names_ok; auto. }
    split.
    - intros H. apply obind_ok in H as (comps & Ec & H). apply HC in Ec. exists comps.
      apply obind_ok in H as (vars & Ev & H). inversion H; subst ts. destruct separate.
      + exists vars. split; auto. split; [apply HV; auto|]. apply all_tags_major.
      + exists [""]. split; auto. split; [left; auto|]. apply (all_tags_major comps [""]).
    - intros (comps & vars & Hc & Hv & Hm). apply component_major_fun in Hm. subst ts. apply HC in Hc. rewrite Hc. cbn [obind].
      destruct separate.
      + apply HV in Hv; auto. rewrite Hv. reflexivity.
      + cbn [obind]. destruct Hv as [[_ ->]|[H _]]; [reflexivity|discriminate].
  Qed.

  Lemma vars_plain cfg separate vars : has_variables cfg separate vars -> plain_vars vars /\ NoDup vars /\ vars <> [].
  Proof.
    intros [[_ ->]|[_ (s & _ & Hp)]].
    - split; [left; auto|]. split; [repeat constructor; simpl; tauto|discriminate].
    - eapply physics_plain; eauto.
  Qed.

  Lemma all_tags_distinct comps vars : plain_vars vars -> NoDup vars -> NoDup comps -> NoDup (map print_tag (all_tags comps vars)).
  Proof.
    intros Hp Hv Hc. apply NoDup_map_inj; [|apply NoDup_all_tags; auto].
    intros x y Hx Hy E. apply in_all_tags in Hx as [_ Hx], Hy as [_ Hy]. eapply plain_inj; eauto.
  Qed.
End Tags.
