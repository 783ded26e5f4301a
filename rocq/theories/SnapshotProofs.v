From Coq Require Import ZArith List Bool String Lia Arith.
From Verif Require Import Outcome ListLemmas TagsModel TagsSpec TagsProofs SnapshotModel SnapshotSpec.
Import ListNotations.
Open Scope list_scope.

(** ** Index maps *)
Section Index.
  Context {T : Type} (lt : T -> T -> bool) (Hlt : strict_total_order lt).

  Definition wf_index (keys : list T) (m : list (T * nat)) : Prop :=
    (forall k i, map_find lt m k = Some i <-> nth_error keys i = Some k) /\ List.length m = List.length keys.

  Lemma map_set_fresh_length (m : list (T * nat)) k v :
    map_find lt m k = None -> List.length (map_set lt m k v) = S (List.length m).
  Proof.
    induction m as [|[k' v'] m IH]; simpl; auto. destruct (equiv lt k' k); [discriminate|].
    intros H. simpl. rewrite IH; auto.
  Qed.

  Lemma wf_index_add keys m k : wf_index keys m -> map_find lt m k = None ->
    wf_index (keys ++ [k]) (map_set lt m k (List.length keys)).
  Proof.
    intros [Hf Hl] Hn. split.
    - intros k1 i. destruct (Nat.lt_ge_cases i (List.length keys)) as [Hi|Hi].
      + rewrite nth_error_app1 by auto.
        destruct (equiv lt k1 k) eqn:E.
        * apply (equiv_iff lt Hlt) in E; subst k1. rewrite (map_find_set_eq lt Hlt).
          split; [intros H; inversion H; lia|]. intros H. apply Hf in H. congruence.
        * assert (k1 <> k) by (intros ->; rewrite (proj2 (equiv_iff lt Hlt k k) eq_refl) in E; discriminate).
          rewrite (map_find_set_ne lt Hlt) by auto. apply Hf.
      + rewrite nth_error_app2 by auto. destruct (equiv lt k1 k) eqn:E.
        * apply (equiv_iff lt Hlt) in E; subst k1. rewrite (map_find_set_eq lt Hlt).
          split; intros H.
          -- inversion H; subst. rewrite Nat.sub_diag. reflexivity.
          -- destruct (i - List.length keys) as [|d] eqn:Ed.
             ++ f_equal; lia.
             ++ destruct d; discriminate.
        * assert (Hne : k1 <> k) by (intros ->; rewrite (proj2 (equiv_iff lt Hlt k k) eq_refl) in E; discriminate).
          rewrite (map_find_set_ne lt Hlt) by auto.
          split; intros H.
          -- apply Hf in H. 
             assert (i < List.length keys) by (apply nth_error_Some; congruence). lia.
          -- destruct (i - List.length keys) as [|d]; simpl in H; [inversion H; congruence|].
             destruct d; discriminate.
    - rewrite map_set_fresh_length by auto. rewrite app_length. simpl. lia.
  Qed.

  Lemma wf_index_None keys m k : wf_index keys m -> (map_find lt m k = None <-> ~ In k keys).
  Proof.
    intros [Hf _]. split.
    - intros Hn Hin. apply In_nth_error in Hin as [i Hi]. apply Hf in Hi. congruence.
    - intros Hn. destruct (map_find lt m k) as [i|] eqn:E; auto. apply Hf, nth_error_In in E. contradiction.
  Qed.

  Lemma wf_index_bound keys m k i : wf_index keys m -> map_find lt m k = Some i -> i < List.length keys.
  Proof. intros [Hf _] H. apply Hf in H. apply nth_error_Some. congruence. Qed.

  Lemma map_count_find (m : list (T * nat)) k : map_count lt m k = match map_find lt m k with Some _ => true | None => false end.
  Proof. reflexivity. Qed.
End Index.

(** ** Selecting by key *)
Section Sel.
  Context {T V : Type} (dec : forall a b : T, {a = b} + {a <> b}).
  Definition sel (ps : list (T * V)) (t : T) : list V :=
    map snd (filter (fun p => if dec (fst p) t then true else false) ps).

  Lemma sel_app ps qs t : sel (ps ++ qs) t = sel ps t ++ sel qs t.
  Proof. unfold sel. rewrite filter_app, map_app. reflexivity. Qed.
  Lemma sel_one_eq t v : sel [(t, v)] t = [v].
  Proof. unfold sel; simpl. destruct (dec t t); [reflexivity|contradiction]. Qed.
  Lemma sel_one_ne t v t' : t <> t' -> sel [(t, v)] t' = [].
  Proof. intros H. unfold sel; simpl. destruct (dec t t'); [contradiction|reflexivity]. Qed.
  Lemma sel_snoc_eq ps t v : sel (ps ++ [(t, v)]) t = sel ps t ++ [v].
  Proof. rewrite sel_app, sel_one_eq. reflexivity. Qed.
  Lemma sel_snoc_ne ps t v t' : t <> t' -> sel (ps ++ [(t, v)]) t' = sel ps t'.
  Proof. intros H. rewrite sel_app, sel_one_ne, app_nil_r; auto. Qed.
  Lemma sel_nth_app ps qs t c v : nth_error (sel ps t) c = Some v -> nth_error (sel (ps ++ qs) t) c = Some v.
  Proof. intros H. rewrite sel_app, nth_error_app1; auto. apply nth_error_Some. congruence. Qed.
  Lemma sel_map_const (rs : list V) t : sel (map (pair t) rs) t = rs.
  Proof.
    induction rs as [|r rs IH]; auto. unfold sel in *; simpl. destruct (dec t t); [|contradiction].
    simpl. rewrite IH. reflexivity.
  Qed.
  Lemma sel_map_const_ne (rs : list V) t t' : t <> t' -> sel (map (pair t) rs) t' = [].
  Proof.
    intros H. induction rs as [|r rs IH]; auto. unfold sel in *; simpl. destruct (dec t t'); [contradiction|].
    exact IH.
  Qed.
  Lemma sel_nil_notin ps t : sel ps t = [] <-> ~ In t (map fst ps).
  Proof.
    induction ps as [|[a v] ps IH]; [split; auto|].
    unfold sel in *; simpl. destruct (dec a t) as [->|Hne]; simpl.
    - split; [discriminate|]. intros H; exfalso; auto.
    - rewrite IH. split; [intros H [H1|H1]; auto|intros H; auto].
  Qed.
End Sel.

Section Snap.
  Context {K : Type} (accepts : list K -> bool).
  Notation sgK := (sg K).
  Notation bsel := (sel tag_dec).
  Notation psel := (sel port_tag_dec).

  (** invariant of the basis-tag side: [ps] is everything saved so far *)
  Record inv_b (dim : basis_tag -> nat) (ps : list (basis_tag * list K)) (s : sgK) : Prop := {
    ib_wf : wf_index basis_tag_lt (tags s) (tag2idx s);
    ib_len : List.length (gens s) = List.length (tags s);
    ib_gen : forall i t, nth_error (tags s) i = Some t -> exists g,
        nth_error (gens s) i = Some g /\ g_cols g = bsel ps t /\ g_dim g = dim t;
    ib_out : forall t, ~ In t (tags s) -> bsel ps t = [] }.

  (** invariant of the port side: [rs] is every record made so far *)
  Record inv_p (rs : list (port_tag * (nat * nat))) (s : sgK) : Prop := {
    ip_wf : wf_index port_tag_lt (ptags s) (ptag2idx s);
    ip_len : List.length (pcols s) = List.length (ptags s);
    ip_col : forall i t, nth_error (ptags s) i = Some t -> nth_error (pcols s) i = Some (psel rs t);
    ip_out : forall t, ~ In t (ptags s) -> psel rs t = [] }.

  Definition same_ports (s s' : sgK) : Prop :=
    ptags s' = ptags s /\ ptag2idx s' = ptag2idx s /\ pcols s' = pcols s.
  Definition same_basis (s s' : sgK) : Prop :=
    tags s' = tags s /\ tag2idx s' = tag2idx s /\ gens s' = gens s.

  Lemma inv_p_same rs s s' : same_ports s s' -> inv_p rs s -> inv_p rs s'.
  Proof. intros (E1 & E2 & E3) [H1 H2 H3 H4]. constructor; rewrite ?E1, ?E2, ?E3; auto. Qed.
  Lemma inv_b_same dim ps s s' : same_basis s s' -> inv_b dim ps s -> inv_b dim ps s'.
  Proof. intros (E1 & E2 & E3) [H1 H2 H3 H4]. constructor; rewrite ?E1, ?E2, ?E3; auto. Qed.

  Lemma inv_b0 dim : inv_b dim [] sg0.
  Proof.
    constructor; simpl; auto.
    - split; auto. intros k [|i]; simpl; split; discriminate.
    - intros [|i] t H; discriminate.
  Qed.
  Lemma inv_p0 : inv_p [] (sg0 (K := K)).
  Proof.
    constructor; simpl; auto.
    - split; auto. intros k [|i]; simpl; split; discriminate.
    - intros [|i] t H; discriminate.
  Qed.

  Lemma add_gen_spec dim ps s t n : inv_b dim ps s -> map_find basis_tag_lt (tag2idx s) t = None -> n = dim t ->
    exists s', add_snapshot_generator s n t = Ok s' /\ inv_b dim ps s' /\ same_ports s s' /\
      tags s' = tags s ++ [t].
  Proof.
    intros [Hwf Hlen Hgen Hout] Hn Hd. unfold add_snapshot_generator.
    pose proof (wf_index_add _ basis_tag_lt_sto _ _ _ Hwf Hn) as Hwf'.
    rewrite (proj2 Hwf'). rewrite !app_length, Hlen. simpl. rewrite !Nat.eqb_refl. simpl.
    eexists; split; [reflexivity|]. split; [|split; [repeat split|reflexivity]].
    assert (Hnin : ~ In t (tags s)) by (apply (wf_index_None _ _ _ t Hwf); auto).
    constructor; simpl; auto.
    - rewrite !app_length, Hlen. reflexivity.
    - intros i t' Hi. destruct (Nat.lt_ge_cases i (List.length (tags s))) as [Hlt|Hge].
      + rewrite nth_error_app1 in Hi by auto. destruct (Hgen i t' Hi) as (g & Hg & Hc & Hdm).
        exists g. rewrite nth_error_app1 by lia. auto.
      + rewrite nth_error_app2 in Hi by auto. rewrite nth_error_app2 by lia. rewrite Hlen.
        destruct (i - List.length (tags s)) as [|d]; simpl in *; [|destruct d; discriminate].
        inversion Hi; subst t'. eexists; split; [reflexivity|]. simpl. split; auto.
        symmetry. apply Hout; auto.
    - intros t' H. apply Hout. intros Hin. apply H. apply in_or_app; auto.
  Qed.

  (** append columns to the generator of a registered tag *)
  Lemma append_cols_inv dim ps s t i g us : inv_b dim ps s ->
    nth_error (tags s) i = Some t -> nth_error (gens s) i = Some g ->
    forall g', g_cols g' = g_cols g ++ us -> g_dim g' = g_dim g ->
    inv_b dim (ps ++ map (pair t) us)
      {| tags := tags s; tag2idx := tag2idx s; gens := upd (gens s) i g';
         ptags := ptags s; ptag2idx := ptag2idx s; pcols := pcols s |}.
  Proof.
    intros [Hwf Hlen Hgen Hout] Ht Hg g' Hc Hd.
    constructor; simpl; auto.
    - rewrite upd_length; auto.
    - intros j t' Hj. destruct (Hgen j t' Hj) as (gj & Hgj & Hcj & Hdj).
      destruct (Nat.eq_dec i j) as [<-|Hne].
      + assert (t' = t) by congruence. subst t'. assert (gj = g) by congruence. subst gj.
        exists g'. rewrite nth_error_upd_eq by (apply nth_error_Some; congruence).
        repeat split; [|congruence]. rewrite Hc, Hcj, sel_app, sel_map_const. reflexivity.
      + exists gj. rewrite nth_error_upd_ne by auto. repeat split; auto.
        rewrite Hcj, sel_app, sel_map_const_ne, app_nil_r; auto.
        intros <-. apply Hne. destruct Hwf as [Hf _].
        apply Hf in Hj, Ht. congruence.
    - intros t' Hn. rewrite sel_app, sel_map_const_ne, app_nil_r; auto.
      intros <-. apply Hn. eapply nth_error_In; eauto.
  Qed.

  Lemma map_at_some {T} (lt : T -> T -> bool) m k i : map_find lt m k = Some i -> map_at lt m k = (m, i).
  Proof. intros H. unfold map_at. rewrite H. reflexivity. Qed.

  Lemma save_one_spec dim ps s t u : inv_b dim ps s -> List.length u = dim t ->
    if accepts u then
      exists s', save_one accepts s t u = Ok (s', List.length (bsel ps t)) /\
        inv_b dim (ps ++ [(t, u)]) s' /\ same_ports s s' /\
        (forall t', In t' (tags s') <-> In t' (tags s) \/ t' = t)
    else save_one accepts s t u = Abort.
  Proof.
    intros Hinv Hu.
    assert (Hreg : exists s1, (if map_count basis_tag_lt (tag2idx s) t then Ok s
               else add_snapshot_generator s (List.length u) t) = Ok s1 /\ inv_b dim ps s1 /\ same_ports s s1 /\
               In t (tags s1) /\ (forall t', In t' (tags s1) <-> In t' (tags s) \/ t' = t)).
    { rewrite map_count_find. destruct (map_find basis_tag_lt (tag2idx s) t) as [i|] eqn:E.
      - exists s. split; [reflexivity|]. split; auto. split; [repeat split|].
        assert (In t (tags s)).
        { destruct (ib_wf _ _ _ Hinv) as [Hf _]. apply Hf in E. eapply nth_error_In; eauto. }
        split; auto. intros t'. split; auto. intros [H1| ->]; auto.
      - destruct (add_gen_spec dim ps s t (List.length u) Hinv E Hu) as (s1 & E1 & H1 & H2 & H3).
        exists s1. split; auto. split; auto. split; auto. rewrite H3. split; [apply in_or_app; simpl; auto|].
        intros t'. rewrite in_app_iff. simpl. intuition. }
    destruct Hreg as (s1 & E1 & Hinv1 & Hsp & Hin & Htags).
    unfold save_one. rewrite E1. cbn [obind].
    destruct (map_find basis_tag_lt (tag2idx s1) t) as [i|] eqn:Ef.
    2:{ apply (wf_index_None _ _ _ t (ib_wf _ _ _ Hinv1)) in Ef. contradiction. }
    rewrite (map_at_some _ _ _ _ Ef).
    pose proof (proj1 (proj1 (ib_wf _ _ _ Hinv1) t i) Ef) as Hti.
    destruct (ib_gen _ _ _ Hinv1 i t Hti) as (g & Hg & Hc & Hd).
    unfold oread. rewrite Hg. cbn [obind]. unfold take_sample.
    rewrite Hd, <- Hu, Nat.leb_refl. cbn [oguard]. rewrite firstn_all.
    destruct (accepts u); [|reflexivity]. cbn [oassert obind].
    unfold owrite. assert (Hib : i < List.length (gens s1)) by (apply nth_error_Some; congruence).
    destruct (Nat.ltb_spec i (List.length (gens s1))); [|lia]. cbn [obind g_cols].
    eexists. split.
    { do 2 f_equal. rewrite app_length, Hc. simpl. lia. }
    split; [|split].
    - apply (append_cols_inv dim ps s1 t i g [u] Hinv1 Hti Hg); simpl; auto. congruence.
    - destruct Hsp as (A & B & C). repeat split; simpl; auto.
    - simpl. exact Htags.
  Qed.

  Lemma save_loop_spec dim : forall ts us ps s, List.length us = List.length ts ->
    inv_b dim ps s ->
    (forall t b, In (t, b) (combine ts us) -> List.length b = dim t) ->
    if forallb accepts us then
      exists s' cs, save_loop accepts s ts us = Ok (s', cs) /\
        inv_b dim (ps ++ combine ts us) s' /\ same_ports s s' /\ List.length cs = List.length ts /\
        (forall k t u, nth_error ts k = Some t -> nth_error us k = Some u -> exists c,
            nth_error cs k = Some c /\ nth_error (bsel (ps ++ combine ts us) t) c = Some u /\
            c = List.length (bsel (ps ++ combine (firstn k ts) us) t)) /\
        (forall t', In t' (tags s') <-> In t' (tags s) \/ In t' ts)
    else save_loop accepts s ts us = Abort.
  Proof.
    induction ts as [|t ts IH]; intros [|u us] ps s Hl Hinv Hd; try discriminate; simpl.
    - exists s, []. split; [reflexivity|]. split; [rewrite app_nil_r; auto|]. split; [repeat split|].
      split; [reflexivity|]. split; [intros [|k]; discriminate|]. intros t'. intuition.
    - simpl in Hd. pose proof (save_one_spec dim ps s t u Hinv (Hd t u (or_introl eq_refl))) as H1.
      destruct (accepts u) eqn:Ea; [|rewrite H1; reflexivity].
      destruct H1 as (s1 & E1 & Hinv1 & Hsp1 & Ht1). rewrite E1. cbn [obind].
      specialize (IH us (ps ++ [(t, u)]) s1 ltac:(simpl in Hl; lia) Hinv1
                    (fun t' b Hin => Hd t' b (or_intror Hin))).
      cbn [andb]. destruct (forallb accepts us); [|rewrite IH; reflexivity].
      destruct IH as (s2 & cs & E2 & Hinv2 & Hsp2 & Hlc & Hnth & Ht2). rewrite E2. cbn [obind].
      exists s2, (List.length (bsel ps t) :: cs). rewrite <- app_assoc in Hinv2. simpl in Hinv2.
      split; [reflexivity|]. split; [exact Hinv2|]. split.
      { destruct Hsp1 as (A & B & C), Hsp2 as (A' & B' & C'). repeat split; congruence. }
      split; [simpl; lia|]. split.
      + intros [|k] t' u' Hk Hk'; simpl in Hk, Hk'.
        * inversion Hk; inversion Hk'; subst. exists (List.length (bsel ps t')). split; [reflexivity|].
          split; [|simpl; rewrite app_nil_r; auto].
          change (ps ++ (t', u') :: combine ts us) with (ps ++ [(t', u')] ++ combine ts us).
          rewrite app_assoc. apply sel_nth_app. rewrite sel_snoc_eq, nth_error_app2, Nat.sub_diag; auto.
        * destruct (Hnth k t' u' Hk Hk') as (c & Hc & Hn & Hcl). exists c. split; auto.
          rewrite <- app_assoc in Hn, Hcl. simpl in Hn, Hcl. split; auto.
      + intros t'. rewrite Ht2, Ht1. intuition.
  Qed.

  (** ** Ports *)

  Lemma register_port_spec rs s t : inv_p rs s ->
    inv_p rs (register_port s t) /\ same_basis s (register_port s t) /\
    In t (ptags (register_port s t)) /\
    (forall t', In t' (ptags (register_port s t)) <-> In t' (ptags s) \/ t' = t).
  Proof.
    intros [Hwf Hlen Hcol Hout]. unfold register_port. rewrite map_count_find.
    destruct (map_find port_tag_lt (ptag2idx s) t) as [i|] eqn:E.
    - assert (In t (ptags s)) by (apply (proj1 Hwf) in E; eapply nth_error_In; eauto).
      split; [constructor; auto|]. split; [repeat split|]. split; auto.
      intros t'. split; auto. intros [H1| ->]; auto.
    - assert (Hnin : ~ In t (ptags s)) by (apply (wf_index_None _ _ _ t Hwf); auto).
      split; [|split; [repeat split|]; simpl; split; [apply in_or_app; simpl; auto|]].
      + constructor; simpl.
        * apply (wf_index_add _ port_tag_lt_sto); auto.
        * rewrite !app_length, Hlen. auto.
        * intros j t' Hj. destruct (Nat.lt_ge_cases j (List.length (ptags s))) as [Hlt|Hge].
          -- rewrite nth_error_app1 in Hj by auto. rewrite nth_error_app1 by lia. auto.
          -- rewrite nth_error_app2 in Hj by auto. rewrite nth_error_app2 by lia. rewrite Hlen.
             destruct (j - List.length (ptags s)) as [|d]; simpl in *; [|destruct d; discriminate].
             inversion Hj; subst t'. f_equal. symmetry. apply Hout; auto.
        * intros t' H. apply Hout. intros Hin. apply H, in_or_app; auto.
      + intros t'. rewrite in_app_iff. simpl. intuition.
  Qed.

  Lemma append_rows_spec rs s t rows : inv_p rs s -> In t (ptags s) ->
    exists s', append_rows s t rows = Ok s' /\ inv_p (rs ++ map (pair t) rows) s' /\ same_basis s s' /\
      ptags s' = ptags s.
  Proof.
    intros [Hwf Hlen Hcol Hout] Hin. unfold append_rows.
    destruct (map_find port_tag_lt (ptag2idx s) t) as [i|] eqn:Ef.
    2:{ apply (wf_index_None _ _ _ t Hwf) in Ef. contradiction. }
    rewrite (map_at_some _ _ _ _ Ef).
    pose proof (proj1 (proj1 Hwf t i) Ef) as Hti.
    unfold oread. rewrite (Hcol i t Hti). cbn [obind]. unfold owrite.
    assert (Hib : i < List.length (pcols s)) by (rewrite Hlen; apply nth_error_Some; congruence).
    destruct (Nat.ltb_spec i (List.length (pcols s))); [|lia]. cbn [obind].
    eexists; split; [reflexivity|]. split; [|split; [repeat split|reflexivity]].
    constructor; simpl; auto.
    - rewrite upd_length; auto.
    - intros j t' Hj. destruct (Nat.eq_dec i j) as [<-|Hne].
      + assert (t' = t) by congruence. subst t'. rewrite nth_error_upd_eq by auto.
        rewrite sel_app, sel_map_const. reflexivity.
      + rewrite nth_error_upd_ne by auto. rewrite (Hcol j t' Hj), sel_app, sel_map_const_ne, app_nil_r; auto.
        intros <-. apply Hne. apply (proj1 Hwf) in Hj. congruence.
    - intros t' Hn. rewrite sel_app, sel_map_const_ne, app_nil_r; auto. intros <-; auto.
  Qed.

  Lemma check_cols_ok cols base c : forall n v,
    check_cols cols base n v c = Ok tt <->
    (forall k, v <= k < v + n -> nth_error cols (k + base) = Some c).
  Proof.
    induction n as [|n IH]; intros v; cbn [check_cols].
    - split; auto. intros _ k Hk; lia.
    - unfold oread. destruct (nth_error cols (v + base)) as [x|] eqn:E; cbn [obind].
      + destruct (Nat.eqb_spec c x) as [->|Hne]; cbn [oassert].
        * rewrite IH. split; intros H k Hk.
          -- destruct (Nat.eq_dec k v) as [->|]; auto. apply H; lia.
          -- apply H; lia.
        * split; [discriminate|]. intros H. specialize (H v ltac:(lia)). congruence.
      + split; [discriminate|]. intros H. specialize (H v ltac:(lia)). congruence.
  Qed.

  Definition mk_ptag (names : list string) (p : port_info) : option port_tag :=
    match nth_error names (pm1 p), nth_error names (pm2 p) with
    | Some c1, Some c2 => Some {| Mesh1 := c1; Mesh2 := c2; Attr1 := pa1 p; Attr2 := pa2 p |}
    | _, _ => None
    end.

  Lemma save_port_ok names nv cols s p s' rs : inv_p rs s ->
    save_port names nv cols s p = Ok s' ->
    exists t c1 c2, mk_ptag names p = Some t /\
      inv_p (rs ++ [(t, (c1, c2))]) s' /\ same_basis s s' /\
      (forall t', In t' (ptags s') <-> In t' (ptags s) \/ t' = t) /\
      nth_error cols (nv * pm1 p) = Some c1 /\ nth_error cols (nv * pm2 p) = Some c2 /\
      (forall v, v < nv -> nth_error cols (v + nv * pm1 p) = Some c1 /\ nth_error cols (v + nv * pm2 p) = Some c2).
  Proof.
    intros Hinv H. unfold save_port in H.
    apply obind_ok in H as (m1 & Em1 & H). apply obind_ok in H as (m2 & Em2 & H).
    apply oread_ok in Em1, Em2. cbv zeta in H.
    apply obind_ok in H as (c1 & Ec1 & H). apply obind_ok in H as (c2 & Ec2 & H).
    apply oread_ok in Ec1, Ec2.
    apply obind_ok in H as ([] & Ek1 & H). apply obind_ok in H as ([] & Ek2 & H).
    pose proof (proj1 (check_cols_ok _ _ _ _ _) Ek1) as Hk1. pose proof (proj1 (check_cols_ok _ _ _ _ _) Ek2) as Hk2.
    set (t := {| Mesh1 := m1; Mesh2 := m2; Attr1 := pa1 p; Attr2 := pa2 p |}) in *.
    destruct (register_port_spec rs s t Hinv) as (Hi & Hsb & Hin & Htags).
    destruct (append_rows_spec rs _ t [(c1, c2)] Hi Hin) as (s2 & E2 & Hi2 & Hsb2 & Hpt).
    rewrite E2 in H. inversion H; subst s2.
    exists t, c1, c2. split.
    { unfold mk_ptag. rewrite Em1, Em2. reflexivity. }
    split; [exact Hi2|]. split.
    { destruct Hsb as (A & B & C), Hsb2 as (A' & B' & C'). repeat split; congruence. }
    split; [intros t'; rewrite Hpt; apply Htags|]. split; auto. split; auto.
    intros v Hv. split; [apply Hk1; lia|apply Hk2; lia].
  Qed.

  Lemma save_port_progress names nv cols s p rs t c1 c2 : inv_p rs s ->
    mk_ptag names p = Some t -> 0 < nv ->
    (forall v, v < nv -> nth_error cols (v + nv * pm1 p) = Some c1 /\ nth_error cols (v + nv * pm2 p) = Some c2) ->
    exists s', save_port names nv cols s p = Ok s'.
  Proof.
    intros Hinv Ht Hnv Hc. unfold save_port. unfold mk_ptag in Ht.
    destruct (nth_error names (pm1 p)) as [m1|] eqn:E1; [|discriminate].
    destruct (nth_error names (pm2 p)) as [m2|] eqn:E2; [|discriminate].
    unfold oread at 1. rewrite E1. cbn [obind]. unfold oread at 1. rewrite E2. cbn [obind]. cbv zeta.
    destruct (Hc 0 Hnv) as [H1 H2]. rewrite Nat.add_0_l in H1, H2.
    unfold oread at 1. rewrite H1. cbn [obind]. unfold oread at 1. rewrite H2. cbn [obind].
    rewrite (proj2 (check_cols_ok cols (nv * pm1 p) c1 nv 0)) by (intros k Hk; apply Hc; lia). cbn [obind].
    rewrite (proj2 (check_cols_ok cols (nv * pm2 p) c2 nv 0)) by (intros k Hk; apply Hc; lia). cbn [obind].
    destruct (register_port_spec rs s {| Mesh1 := m1; Mesh2 := m2; Attr1 := pa1 p; Attr2 := pa2 p |} Hinv)
      as (Hi & Hsb & Hin & Htags).
    destruct (append_rows_spec rs _ _ [(c1, c2)] Hi Hin) as (s2 & E & _). eauto.
  Qed.

  (** ** One event *)

  Definition ev_tags (e : event K) : list basis_tag := get_basis_tags (ev_topo e) (ev_vars e).

  Lemma event_blocks_eq (e : event K) : event_blocks e = combine (ev_tags e) (ev_blocks e).
  Proof. reflexivity. Qed.

  Lemma ev_tags_length (e : event K) :
    List.length (ev_tags e) = List.length (ev_vars e) * List.length (t_names (ev_topo e)).
  Proof.
    unfold ev_tags, get_basis_tags. induction (t_names (ev_topo e)) as [|c l IH]; simpl; [lia|].
    rewrite app_length, map_length, IH. lia.
  Qed.

  Lemma nth_flat_tags (vars : list string) : forall names m v c x,
    nth_error names m = Some c -> nth_error vars v = Some x ->
    nth_error (flat_map (fun nm => map (tag_for_component nm) vars) names) (v + List.length vars * m)
    = Some {| comp := c; var := x |}.
  Proof.
    induction names as [|n names IH]; intros m v c x Hm Hv; [destruct m; discriminate|].
    assert (Hvl : v < List.length vars) by (apply nth_error_Some; congruence).
    destruct m as [|m]; simpl in Hm.
    - inversion Hm; subst n. simpl. rewrite nth_error_app1 by (rewrite map_length; lia).
      replace (v + List.length vars * 0) with v by lia. rewrite nth_error_map, Hv. reflexivity.
    - simpl. rewrite nth_error_app2 by (rewrite map_length; lia). rewrite map_length.
      replace (v + List.length vars * S m - List.length vars) with (v + List.length vars * m) by lia.
      apply IH; auto.
  Qed.

  Lemma map_fst_combine {A B} (l : list A) (l' : list B) :
    List.length l' = List.length l -> map fst (combine l l') = l.
  Proof. revert l'; induction l as [|a l IH]; intros [|b l'] H; try discriminate; simpl; auto. f_equal; auto. Qed.

  Definition points (ps : list (basis_tag * list K)) (e : event K) (m c : nat) : Prop :=
    forall v, v < List.length (ev_vars e) -> exists t b,
      block_tag e m v = Some t /\ block e m v = Some b /\ nth_error (bsel ps t) c = Some b.

  Definition use_ok (ps : list (basis_tag * list K)) (r : port_tag * (nat * nat)) (u : event K * port_info) : Prop :=
    port_tag_of (fst u) (snd u) = Some (fst r) /\
    points ps (fst u) (pm1 (snd u)) (fst (snd r)) /\ points ps (fst u) (pm2 (snd u)) (snd (snd r)).

  Lemma points_app ps qs e m c : points ps e m c -> points (ps ++ qs) e m c.
  Proof.
    intros H v Hv. destruct (H v Hv) as (t & b & H1 & H2 & H3). exists t, b. repeat split; auto.
    apply sel_nth_app; auto.
  Qed.
  Lemma use_ok_app ps qs r u : use_ok ps r u -> use_ok (ps ++ qs) r u.
  Proof. intros (H1 & H2 & H3). split; auto. split; apply points_app; auto. Qed.

  Lemma save_ports_loop names nv cols (e : event K) ps :
    names = t_names (ev_topo e) -> nv = List.length (ev_vars e) ->
    (forall m v c, v < nv -> nth_error cols (v + nv * m) = Some c -> m < List.length names -> exists t b,
        block_tag e m v = Some t /\ block e m v = Some b /\ nth_error (bsel ps t) c = Some b) ->
    forall ports s s' rs, inv_p rs s ->
    ofold (save_port names nv cols) ports s = Ok s' ->
    exists news, inv_p (rs ++ news) s' /\ same_basis s s' /\
      Forall2 (use_ok ps) news (map (pair e) ports) /\
      (forall t, In t (ptags s') <-> In t (ptags s) \/ In t (map fst news)).
  Proof.
    intros Hn Hnv Hcols. induction ports as [|p ports IH]; intros s s' rs Hinv H; simpl in H.
    - inversion H; subst s'. exists []. rewrite app_nil_r. split; auto. split; [repeat split|].
      split; [constructor|]. intros t; simpl; intuition.
    - apply obind_ok in H as (s1 & E1 & H).
      destruct (save_port_ok _ _ _ _ _ _ _ Hinv E1) as (t & c1 & c2 & Ht & Hi & Hsb & Htags & Hc1 & Hc2 & Hall).
      destruct (IH _ _ _ Hi H) as (news & Hi' & Hsb' & HF & Htags').
      exists ((t, (c1, c2)) :: news). split; [rewrite <- app_assoc in Hi'; exact Hi'|].
      split; [destruct Hsb as (A & B & C), Hsb' as (A' & B' & C'); repeat split; congruence|].
      split.
      + simpl. constructor; auto. unfold use_ok; simpl.
        assert (Hm : pm1 p < List.length names /\ pm2 p < List.length names).
        { unfold mk_ptag in Ht. split; apply nth_error_Some; intros E; rewrite E in Ht; try discriminate.
          destruct (nth_error names (pm1 p)); discriminate. }
        split; [unfold port_tag_of, mk_ptag in *; rewrite <- Hn; exact Ht|].
        split; intros v Hv; rewrite <- Hnv in Hv; destruct (Hall v Hv) as [Ha Hb].
        * exact (Hcols _ _ _ Hv Ha (proj1 Hm)).
        * exact (Hcols _ _ _ Hv Hb (proj2 Hm)).
      + intros t'. rewrite Htags', Htags. simpl. intuition.
  Qed.

  Lemma save_snapshots_ok dim ps rs s e s' : inv_b dim ps s -> inv_p rs s ->
    (forall t b, In (t, b) (event_blocks e) -> List.length b = dim t) ->
    save_snapshots accepts s e = Ok s' ->
    exists news, inv_b dim (ps ++ event_blocks e) s' /\ inv_p (rs ++ news) s' /\
      Forall2 (use_ok (ps ++ event_blocks e)) news (map (pair e) (t_ports (ev_topo e))) /\
      (List.length (ev_blocks e) = List.length (ev_tags e) /\ forallb accepts (ev_blocks e) = true) /\
      (forall t, In t (tags s') <-> In t (tags s) \/ In t (ev_tags e)) /\
      (forall t, In t (ptags s') <-> In t (ptags s) \/ In t (map fst news)).
  Proof.
    intros Hb Hp Hd H. unfold save_snapshots, save_snapshot in H.
    apply obind_ok in H as ([s1 cols] & E1 & H). apply oassert_ok in E1 as [Hl E1].
    apply Nat.eqb_eq in Hl. fold (ev_tags e) in Hl, E1.
    pose proof (save_loop_spec dim (ev_tags e) (ev_blocks e) ps s Hl Hb Hd) as HS.
    destruct (forallb accepts (ev_blocks e)) eqn:Hacc; [|congruence].
    destruct HS as (s1' & cs & E1' & Hb1 & Hsp & Hlc & Hnth & Htags).
    rewrite E1 in E1'. inversion E1'; subst s1' cs.
    unfold save_snapshot_ports in H. apply oguard_ok in H as [Hn0 H]. apply oassert_ok in H as [Hmod H].
    set (names := t_names (ev_topo e)) in *. set (nv := List.length (ev_vars e)) in *.
    assert (Hnn : List.length names <> 0) by (destruct (Nat.eqb_spec (List.length names) 0); auto; discriminate).
    assert (Hcl : List.length cols = nv * List.length names) by (rewrite Hlc; apply ev_tags_length).
    rewrite Hcl, Nat.div_mul in H by auto.
    destruct (save_ports_loop names nv cols e (ps ++ event_blocks e) eq_refl eq_refl) with
      (ports := t_ports (ev_topo e)) (s := s1) (s' := s') (rs := rs)
      as (news & Hi & Hsb & HF & Hpt).
    - intros m v c Hv Hc Hm.
      destruct (nth_error names m) as [nm|] eqn:En; [|apply nth_error_None in En; lia].
      destruct (nth_error (ev_vars e) v) as [x|] eqn:Ex; [|apply nth_error_None in Ex; fold nv in Ex; lia].
      pose proof (nth_flat_tags (ev_vars e) names m v nm x En Ex) as Ht. fold nv in Ht.
      destruct (nth_error (ev_blocks e) (v + nv * m)) as [b|] eqn:Eb.
      2:{ apply nth_error_None in Eb. rewrite Hl in Eb. apply nth_error_None in Eb.
          unfold ev_tags, get_basis_tags in Eb. fold names in Eb. congruence. }
      destruct (Hnth _ _ _ Ht Eb) as (c' & Hc' & Hn' & _).
      assert (c' = c) by congruence. subst c'.
      exists {| comp := nm; var := x |}, b. split; [unfold block_tag; fold names; rewrite En, Ex; reflexivity|].
      split; [exact Eb|]. rewrite event_blocks_eq. exact Hn'.
    - eapply inv_p_same; eauto.
    - exact H.
    - exists news. split; [eapply inv_b_same; [exact Hsb|]; rewrite event_blocks_eq; exact Hb1|].
      split; auto. split; auto. split; auto. split.
      + intros t. destruct Hsb as (A & _ & _). rewrite A. apply Htags.
      + intros t. rewrite Hpt. destruct Hsp as (A & _ & _). rewrite A. reflexivity.
  Qed.

  (** ** Whole histories *)

  Record inv (dim : basis_tag -> nat) (h : list (event K)) (s : sgK) (rs : list (port_tag * (nat * nat))) : Prop := {
    i_b : inv_b dim (flat_map event_blocks h) s;
    i_p : inv_p rs s;
    i_uses : Forall2 (use_ok (flat_map event_blocks h)) rs (flat_map (fun e => map (pair e) (t_ports (ev_topo e))) h);
    i_tags : forall t, In t (tags s) <-> In t (map fst (flat_map event_blocks h));
    i_ptags : forall t, In t (ptags s) <-> In t (map fst rs);
    i_acc : forall p, In p (flat_map event_blocks h) -> accepts (snd p) = true }.

  Lemma Forall2_imp {A B} (P Q : A -> B -> Prop) l l' :
    (forall a b, P a b -> Q a b) -> Forall2 P l l' -> Forall2 Q l l'.
  Proof. intros H; induction 1; constructor; auto. Qed.

  Lemma run_history_inv dim : forall h h0 s0 rs0 s, inv dim h0 s0 rs0 ->
    same_dims (h0 ++ h) dim ->
    ofold (save_snapshots accepts) h s0 = Ok s ->
    exists rs, inv dim (h0 ++ h) s rs.
  Proof.
    induction h as [|e h IH]; intros h0 s0 rs0 s Hinv Hd H; simpl in H.
    - inversion H; subst. rewrite app_nil_r. eauto.
    - apply obind_ok in H as (s1 & E1 & H).
      destruct Hinv as [Hb Hp Hu Ht Hpt Ha].
      assert (Hde : forall t b, In (t, b) (event_blocks e) -> List.length b = dim t).
      { intros t b Hin. apply Hd. rewrite flat_map_app. apply in_or_app. right. simpl. apply in_or_app; auto. }
      destruct (save_snapshots_ok dim _ _ _ _ _ Hb Hp Hde E1)
        as (news & Hb1 & Hp1 & HF & [Hl Hacc] & Htags & Hptags).
      replace (h0 ++ e :: h) with ((h0 ++ [e]) ++ h) in * by (rewrite <- app_assoc; reflexivity).
      apply (IH (h0 ++ [e]) s1 (rs0 ++ news)); auto.
      assert (Efm : flat_map event_blocks (h0 ++ [e]) = flat_map event_blocks h0 ++ event_blocks e).
      { rewrite flat_map_app. simpl. rewrite app_nil_r. reflexivity. }
      constructor; rewrite ?Efm; auto.
      + rewrite flat_map_app. apply Forall2_app.
        * eapply Forall2_imp; [|exact Hu]. intros; apply use_ok_app; auto.
        * simpl. rewrite app_nil_r. exact HF.
      + intros t. rewrite map_app, in_app_iff, <- Ht, Htags. rewrite event_blocks_eq, map_fst_combine; auto. tauto.
      + intros t. rewrite map_app, in_app_iff, <- Hpt. apply Hptags.
      + intros p Hin. apply in_app_or in Hin as [Hin|Hin]; auto. destruct p as [t b].
        rewrite event_blocks_eq in Hin. apply in_combine_r in Hin. rewrite forallb_forall in Hacc. auto.
  Qed.

  Lemma inv_init dim : inv dim [] sg0 [].
  Proof.
    constructor; simpl; try (intros; tauto).
    - apply inv_b0.
    - apply inv_p0.
    - constructor.
  Qed.

  Lemma run_inv dim h s : same_dims h dim -> run_history accepts h = Ok s -> exists rs, inv dim h s rs.
  Proof. intros Hd H. apply (run_history_inv dim h [] sg0 [] s (inv_init dim) Hd H). Qed.

  Lemma find_tag_spec : forall l t k, match find_tag l t k with
    | Some i => k <= i /\ nth_error l (i - k) = Some t
    | None => ~ In t l end.
  Proof.
    induction l as [|x l IH]; intros t k; simpl; auto.
    destruct (basis_tag_eqb x t) eqn:E.
    - apply basis_tag_eqb_eq in E. subst x. rewrite Nat.sub_diag. auto.
    - specialize (IH t (S k)). destruct (find_tag l t (S k)) as [i|].
      + destruct IH as [H1 H2]. split; [lia|]. replace (i - k) with (S (i - S k)) by lia. exact H2.
      + intros [->|H]; auto. rewrite (proj2 (basis_tag_eqb_eq t t) eq_refl) in E. discriminate.
  Qed.

  Lemma columns_sel (h : list (event K)) t : columns h t = bsel (flat_map event_blocks h) t.
  Proof. reflexivity. Qed.

  Lemma look_up_snapshot_inv dim ps s t : inv_b dim ps s ->
    (forall t, In t (tags s) <-> In t (map fst ps)) ->
    look_up_snapshot s t = match bsel ps t with [] => Abort | _ :: _ => Ok (bsel ps t) end.
  Proof.
    intros Hb Ht. unfold look_up_snapshot. rewrite (ib_len _ _ _ Hb), Nat.eqb_refl.
    pose proof (find_tag_spec (tags s) t 0) as HF.
    destruct (find_tag (tags s) t 0) as [i|].
    - destruct HF as [_ HF]. rewrite Nat.sub_0_r in HF.
      assert (Hpos : 0 < List.length (tags s)).
      { assert (i < List.length (tags s)) by (apply nth_error_Some; congruence). lia. }
      destruct (Nat.ltb_spec 0 (List.length (tags s))); [|lia]. cbn [oassert].
      destruct (ib_gen _ _ _ Hb i t HF) as (g & Hg & Hc & _).
      unfold oread. rewrite Hg. cbn [obind]. rewrite Hc.
      destruct (bsel ps t) eqn:E; auto.
      apply sel_nil_notin in E. exfalso. apply E, Ht. eapply nth_error_In; eauto.
    - assert (E : bsel ps t = []) by (apply sel_nil_notin; rewrite <- Ht; exact HF).
      rewrite E. destruct (Nat.ltb 0 (List.length (tags s))); reflexivity.
  Qed.

  Lemma look_up_port_inv rs s t : inv_p rs s ->
    (forall t, In t (ptags s) <-> In t (map fst rs)) ->
    look_up_port s t = match psel rs t with [] => Abort | _ :: _ => Ok (psel rs t) end.
  Proof.
    intros Hp Ht. unfold look_up_port. rewrite (ip_len _ _ Hp), Nat.eqb_refl.
    destruct (map_find port_tag_lt (ptag2idx s) t) as [i|] eqn:E.
    - apply (proj1 (ip_wf _ _ Hp)) in E.
      assert (Hpos : 0 < List.length (ptags s)).
      { assert (i < List.length (ptags s)) by (apply nth_error_Some; congruence). lia. }
      destruct (Nat.ltb_spec 0 (List.length (ptags s))); [|lia]. cbn [oassert].
      unfold oread. rewrite (ip_col _ _ Hp i t E).
      destruct (psel rs t) eqn:E1; auto.
      apply sel_nil_notin in E1. exfalso. apply E1, Ht. eapply nth_error_In; eauto.
    - apply (wf_index_None _ _ _ t (ip_wf _ _ Hp)) in E.
      assert (E1 : psel rs t = []) by (apply sel_nil_notin; rewrite <- Ht; exact E).
      rewrite E1. destruct (Nat.ltb 0 (List.length (ptags s))); reflexivity.
  Qed.

  Lemma snapshot_store dim h s : same_dims h dim -> run_history accepts h = Ok s ->
    forall t, look_up_snapshot s t = match columns h t with [] => Abort | _ :: _ => Ok (columns h t) end.
  Proof.
    intros Hd H t. destruct (run_inv dim h s Hd H) as (rs & [Hb Hp Hu Ht Hpt Ha]).
    rewrite columns_sel. eapply look_up_snapshot_inv; eauto.
  Qed.

  Lemma uses_filter ps : forall rs us t, Forall2 (use_ok ps) rs us ->
    Forall2 (fun r u => points ps (fst u) (pm1 (snd u)) (fst r) /\ points ps (fst u) (pm2 (snd u)) (snd r))
      (psel rs t)
      (filter (fun u : event K * port_info => match port_tag_of (fst u) (snd u) with
                     | Some t' => if port_tag_dec t' t then true else false
                     | None => false
                     end) us).
  Proof.
    intros rs us t HF. induction HF as [|[tg r] u rs us Hu HF IH]; [constructor|].
    unfold sel in *. simpl. destruct Hu as (H1 & H2 & H3). simpl in H1. rewrite H1.
    destruct (port_tag_dec tg t); simpl; auto.
  Qed.

  Lemma port_store dim h s : same_dims h dim -> run_history accepts h = Ok s ->
    forall t, match port_uses h t with
    | [] => look_up_port s t = Abort
    | _ :: _ => exists recs, look_up_port s t = Ok recs /\ Forall2 (record_ok h) recs (port_uses h t)
    end.
  Proof.
    intros Hd H t. destruct (run_inv dim h s Hd H) as (rs & [Hb Hp Hu Ht Hpt Ha]).
    rewrite (look_up_port_inv rs s t Hp Hpt).
    pose proof (uses_filter _ _ _ t Hu) as HF. fold (port_uses h t) in HF.
    destruct (port_uses h t) as [|u us].
    - inversion HF. reflexivity.
    - destruct (psel rs t) as [|r rs'] eqn:E; [inversion HF|].
      eexists; split; [reflexivity|]. exact HF.
  Qed.
End Snap.
