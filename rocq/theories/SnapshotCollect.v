(** Progress of saving, and collecting saved files. *)
From Coq Require Import ZArith List Bool String Lia Arith FinFun.
From Verif Require Import Outcome ListLemmas TagsModel TagsSpec TagsProofs SnapshotModel SnapshotSpec SnapshotProofs.
Import ListNotations.
Open Scope list_scope.

Section Count.
  Context {T V : Type} (dec : forall a b : T, {a = b} + {a <> b}).
  Lemma sel_combine_length (ts : list T) : forall (us : list V) t, List.length ts <= List.length us ->
    List.length (sel dec (combine ts us) t) = count_occ dec ts t.
  Proof.
    induction ts as [|a ts IH]; intros [|u us] t H; simpl in *; auto; [lia|].
    unfold sel in *. simpl. destruct (dec a t); simpl; rewrite IH by lia; reflexivity.
  Qed.

  (** selecting in a list of groups with distinct keys *)
  Lemma sel_groups (f : T -> list V) : forall ks t, NoDup ks ->
    sel dec (flat_map (fun k => map (pair k) (f k)) ks) t = if in_dec dec t ks then f t else [].
  Proof.
    induction ks as [|k ks IH]; intros t Hnd; simpl; auto. inversion Hnd as [|? ? Hk Hnd']; subst.
    rewrite sel_app, IH by auto. destruct (dec k t) as [->|Hne].
    - rewrite sel_map_const. destruct (in_dec dec t ks); [contradiction|]. rewrite app_nil_r. reflexivity.
    - rewrite sel_map_const_ne by auto. destruct (in_dec dec t ks); reflexivity.
  Qed.
End Count.

Lemma count_occ_notin_firstn {A} (dec : forall a b : A, {a = b} + {a <> b}) : forall l v x, NoDup l ->
  nth_error l v = Some x -> count_occ dec (firstn v l) x = 0.
Proof.
  induction l as [|a l IH]; intros [|v] x Hnd H; simpl in *; try discriminate; auto.
  inversion Hnd; subst. destruct (dec a x) as [->|]; [|auto]. apply nth_error_In in H. contradiction.
Qed.

Section Tags.
  Context (vars : list string) (Hnd : NoDup vars).
  Let F (nm : string) := map (tag_for_component nm) vars.

  Lemma F_nodup c : NoDup (F c).
  Proof. unfold F. apply FinFun.Injective_map_NoDup; auto. intros a b H. inversion H; auto. Qed.

  Lemma F_count c c' x : In x vars ->
    count_occ tag_dec (F c) {| comp := c'; var := x |} = if string_dec c c' then 1 else 0.
  Proof.
    intros Hx. destruct (string_dec c c') as [->|Hne].
    - apply NoDup_count_occ'; [apply F_nodup|]. unfold F. apply in_map_iff. exists x; auto.
    - apply count_occ_not_In. unfold F. rewrite in_map_iff. intros (y & E & _). inversion E; contradiction.
  Qed.

  Lemma flat_count names c x : In x vars ->
    count_occ tag_dec (flat_map F names) {| comp := c; var := x |} = count_occ string_dec names c.
  Proof.
    intros Hx. induction names as [|n names IH]; simpl; auto.
    rewrite count_occ_app, IH, F_count by auto. destruct (string_dec n c); reflexivity.
  Qed.

  Lemma flat_firstn : forall names m v c, nth_error names m = Some c -> v <= List.length vars ->
    firstn (v + List.length vars * m) (flat_map F names) = flat_map F (firstn m names) ++ firstn v (F c).
  Proof.
    induction names as [|n names IH]; intros m v c Hm Hv; [destruct m; discriminate|].
    destruct m as [|m]; simpl in Hm.
    - inversion Hm; subst n. simpl. replace (v + List.length vars * 0) with v by lia.
      rewrite firstn_app. replace (v - List.length (F c)) with 0 by (unfold F; rewrite map_length; lia).
      simpl. rewrite app_nil_r. reflexivity.
    - simpl. rewrite firstn_app.
      rewrite firstn_all2 by (unfold F; rewrite map_length; lia).
      replace (v + List.length vars * S m - List.length (F n)) with (v + List.length vars * m)
        by (unfold F; rewrite map_length; lia).
      rewrite (IH m v c Hm Hv), app_assoc. reflexivity.
  Qed.

  Lemma prefix_count names m v c x : nth_error names m = Some c -> nth_error vars v = Some x ->
    count_occ tag_dec (firstn (v + List.length vars * m) (flat_map F names)) {| comp := c; var := x |}
    = count_occ string_dec (firstn m names) c.
  Proof.
    intros Hm Hv. assert (v < List.length vars) by (apply nth_error_Some; congruence).
    rewrite (flat_firstn names m v c Hm) by lia. rewrite count_occ_app, flat_count by (eapply nth_error_In; eauto).
    rewrite (count_occ_notin_firstn tag_dec (F c) v {| comp := c; var := x |}); [lia|apply F_nodup|].
    unfold F. rewrite nth_error_map, Hv. reflexivity.
  Qed.
End Tags.

Section Snap.
  Context {K : Type} (accepts : list K -> bool).
  Notation sgK := (sg K).
  Notation bsel := (sel tag_dec).
  Notation psel := (sel port_tag_dec).

  (** All variables of a component have been saved equally often. *)
  Definition uniform (vars : list string) (ps : list (basis_tag * list K)) : Prop :=
    forall c x y, In x vars -> In y vars ->
      List.length (bsel ps {| comp := c; var := x |}) = List.length (bsel ps {| comp := c; var := y |}).

  Lemma event_uniform vars (e : event K) : NoDup vars -> ev_vars e = vars ->
    List.length (ev_blocks e) = List.length (t_names (ev_topo e)) * List.length vars ->
    forall c x, In x vars ->
      List.length (bsel (event_blocks e) {| comp := c; var := x |}) = count_occ string_dec (t_names (ev_topo e)) c.
  Proof.
    intros Hnd Hv Hl c x Hx. rewrite event_blocks_eq, sel_combine_length by (rewrite ev_tags_length, Hv; lia).
    unfold ev_tags, get_basis_tags. rewrite Hv. apply flat_count; auto.
  Qed.

  Lemma history_uniform vars h : proper_history vars h -> uniform vars (flat_map event_blocks h).
  Proof.
    intros [[Hnd _] He]. induction h as [|e h IH]; intros c x y Hx Hy; auto.
    simpl. rewrite !sel_app, !app_length.
    destruct (He e (or_introl eq_refl)) as (Hv & _ & Hl & _).
    rewrite !(event_uniform vars e Hnd Hv Hl) by auto. f_equal. apply IH; auto. intros e' H'. apply He; simpl; auto.
  Qed.

  Lemma save_ports_progress names nv cols : 0 < nv -> forall ports (s : sgK) rs, inv_p rs s ->
    (forall p, In p ports -> pm1 p < List.length names /\ pm2 p < List.length names) ->
    (forall m, m < List.length names -> exists c, forall v, v < nv -> nth_error cols (v + nv * m) = Some c) ->
    exists s', ofold (save_port names nv cols) ports s = Ok s'.
  Proof.
    intros Hnv. induction ports as [|p ports IH]; intros s rs Hinv Hp Hc; simpl; eauto.
    destruct (Hp p (or_introl eq_refl)) as [Hp1 Hp2].
    destruct (Hc _ Hp1) as [c1 H1], (Hc _ Hp2) as [c2 H2].
    assert (Ht : exists t, mk_ptag names p = Some t).
    { unfold mk_ptag. destruct (nth_error names (pm1 p)) eqn:E1; [|apply nth_error_None in E1; lia].
      destruct (nth_error names (pm2 p)) eqn:E2; [|apply nth_error_None in E2; lia]. eauto. }
    destruct Ht as [t Ht].
    destruct (save_port_progress names nv cols s p rs t c1 c2 Hinv Ht Hnv) as [s1 E1]; [auto|].
    rewrite E1. cbn [obind]. destruct (save_port_ok _ _ _ _ _ _ _ Hinv E1) as (t' & d1 & d2 & _ & Hi & _).
    apply (IH s1 _ Hi); auto. intros q Hq. apply Hp; simpl; auto.
  Qed.

  Lemma save_snapshots_progress dim vars ps rs s e : inv_b dim ps s -> inv_p rs s ->
    NoDup vars -> vars <> [] -> uniform vars ps -> ev_vars e = vars ->
    t_names (ev_topo e) <> [] ->
    List.length (ev_blocks e) = List.length (t_names (ev_topo e)) * List.length vars ->
    (forall p, In p (t_ports (ev_topo e)) ->
       pm1 p < List.length (t_names (ev_topo e)) /\ pm2 p < List.length (t_names (ev_topo e))) ->
    (forall t b, In (t, b) (event_blocks e) -> List.length b = dim t) ->
    forallb accepts (ev_blocks e) = true ->
    exists s', save_snapshots accepts s e = Ok s'.
  Proof.
    intros Hb Hp Hnd Hvne Hu Hv Hn Hl Hports Hd Hacc.
    set (names := t_names (ev_topo e)) in *.
    assert (Hnv : 0 < List.length vars) by (destruct vars; [contradiction|simpl; lia]).
    assert (Hnn : List.length names <> 0) by (destruct names; [contradiction|discriminate]).
    assert (Hlt : List.length (ev_tags e) = List.length vars * List.length names)
      by (rewrite ev_tags_length, Hv; reflexivity).
    unfold save_snapshots, save_snapshot. fold (ev_tags e).
    replace (Nat.eqb (List.length (ev_blocks e)) (List.length (ev_tags e))) with true
      by (symmetry; apply Nat.eqb_eq; lia).
    cbn [oassert].
    pose proof (save_loop_spec accepts dim (ev_tags e) (ev_blocks e) ps s ltac:(lia) Hb Hd) as HS.
    rewrite Hacc in HS. destruct HS as (s1 & cs & E1 & Hb1 & Hsp & Hlc & Hnth & Htags).
    rewrite E1. cbn [obind]. unfold save_snapshot_ports. fold names.
    replace (Nat.eqb (List.length names) 0) with false by (symmetry; apply Nat.eqb_neq; auto).
    cbn [negb oguard]. rewrite Hlc, Hlt, Nat.mod_mul, Nat.div_mul by auto. cbn [Nat.eqb oassert].
    apply save_ports_progress with (rs := rs); auto.
    - eapply inv_p_same; eauto.
    - intros m Hm. destruct (nth_error names m) as [c|] eqn:Em; [|apply nth_error_None in Em; lia].
      assert (Hv0 : exists x0, nth_error vars 0 = Some x0) by (destruct vars; [contradiction|simpl; eauto]).
      destruct Hv0 as [x0 Hx0].
      exists (List.length (bsel ps {| comp := c; var := x0 |}) + count_occ string_dec (firstn m names) c).
      intros v Hvl. destruct (nth_error vars v) as [x|] eqn:Ex; [|apply nth_error_None in Ex; lia].
      pose proof (nth_flat_tags vars names m v c x Em Ex) as Ht.
      assert (Ht' : nth_error (ev_tags e) (v + List.length vars * m) = Some {| comp := c; var := x |}).
      { unfold ev_tags, get_basis_tags. rewrite Hv. exact Ht. }
      destruct (nth_error (ev_blocks e) (v + List.length vars * m)) as [u|] eqn:Eu.
      2:{ apply nth_error_None in Eu. 
          assert (v + List.length vars * m < List.length (ev_tags e)) by (apply nth_error_Some; congruence). lia. }
      destruct (Hnth _ _ _ Ht' Eu) as (c' & Hc' & _ & Hcl). rewrite Hc'. f_equal. rewrite Hcl.
      rewrite sel_app, app_length, sel_combine_length by (rewrite firstn_length; lia).
      unfold ev_tags, get_basis_tags. rewrite Hv. fold names.
      rewrite (prefix_count vars Hnd names m v c x Em Ex).
      f_equal. apply Hu; eapply nth_error_In; eauto.
  Qed.

  Lemma history_progress_from dim vars : forall h h0 s0 rs0, inv accepts dim h0 s0 rs0 ->
    proper_history vars (h0 ++ h) -> same_dims (h0 ++ h) dim ->
    (forall e b, In e h -> In b (ev_blocks e) -> accepts b = true) ->
    exists s, ofold (save_snapshots accepts) h s0 = Ok s.
  Proof.
    induction h as [|e h IH]; intros h0 s0 rs0 Hinv Hph Hd Hacc; simpl; eauto.
    assert (Hde : forall t b, In (t, b) (event_blocks e) -> List.length b = dim t).
    { intros t b Hin. apply Hd. rewrite flat_map_app. apply in_or_app. right. simpl. apply in_or_app; auto. }
    pose proof Hph as [[Hnd Hne] He].
    assert (He' : In e (h0 ++ e :: h)) by (apply in_or_app; simpl; auto).
    destruct (He e He') as (Hv & Hn & Hl & Hports).
    assert (Hph0 : proper_history vars h0).
    { constructor; auto. intros e1 H1. apply He. apply in_or_app; auto. }
    assert (Hacce : forallb accepts (ev_blocks e) = true).
    { apply forallb_forall. intros b Hb. apply (Hacc e b); simpl; auto. }
    destruct (save_snapshots_progress dim vars _ _ s0 e (i_b _ _ _ _ _ Hinv) (i_p _ _ _ _ _ Hinv) Hnd Hne
                (history_uniform vars h0 Hph0) Hv Hn Hl Hports Hde Hacce) as [s1 E1].
    rewrite E1. cbn [obind].
    assert (Hd1 : same_dims (h0 ++ [e]) dim).
    { intros t b Hin. apply Hd. rewrite flat_map_app in *. simpl in *. rewrite app_nil_r in Hin.
      apply in_app_or in Hin as [H|H]; apply in_or_app; auto. right. apply in_or_app; auto. }
    destruct (run_history_inv accepts dim [e] h0 s0 rs0 s1 Hinv Hd1) as [rs1 Hinv1].
    { simpl. rewrite E1. reflexivity. }
    replace (h0 ++ e :: h) with ((h0 ++ [e]) ++ h) in * by (rewrite <- app_assoc; reflexivity).
    apply (IH (h0 ++ [e]) s1 rs1); auto. intros e1 b H1. apply Hacc; simpl; auto.
  Qed.

  Lemma history_progress dim vars h : proper_history vars h -> same_dims h dim ->
    (forall e b, In e h -> In b (ev_blocks e) -> accepts b = true) ->
    exists s, run_history accepts h = Ok s.
  Proof. intros. apply (history_progress_from dim vars h [] sg0 [] (inv_init accepts dim)); auto. Qed.

  (** ** Collecting *)

  Lemma inv_b_ext dim ps ps' (s : sgK) : (forall t, bsel ps t = bsel ps' t) -> inv_b dim ps s -> inv_b dim ps' s.
  Proof.
    intros H [Hwf Hl Hg Ho]. constructor; auto.
    - intros i t Hi. destruct (Hg i t Hi) as (g & A & B & C). exists g. rewrite <- H. auto.
    - intros t Ht. rewrite <- H. auto.
  Qed.

  Lemma wf_index_nodup {T} (lt : T -> T -> bool) keys m : wf_index lt keys m -> NoDup keys.
  Proof.
    intros [Hf _]. apply NoDup_nth_error. intros i j Hi E.
    destruct (nth_error keys i) as [k|] eqn:Ek; [|apply nth_error_None in Ek; lia].
    symmetry in E. apply Hf in Ek, E. congruence.
  Qed.

  Lemma load_samples_ok : forall cols g, (forall u, In u cols -> List.length u = g_dim g /\ accepts u = true) ->
    load_samples accepts g cols = Ok {| g_dim := g_dim g; g_cols := g_cols g ++ cols |}.
  Proof.
    unfold load_samples. induction cols as [|u cols IH]; intros g H; simpl.
    - rewrite app_nil_r. destruct g; reflexivity.
    - destruct (H u (or_introl eq_refl)) as [H1 H2]. unfold take_sample at 1.
      rewrite <- H1, Nat.leb_refl, firstn_all. cbn [oguard]. rewrite H2. cbn [oassert obind].
      rewrite IH; simpl.
      + rewrite H1, <- app_assoc. reflexivity.
      + intros u' Hu'. rewrite H1. apply H; simpl; auto.
  Qed.

  Lemma collect_by_basis_ok dim ps s (f : string -> option (gen K)) t fg : inv_b dim ps s ->
    f (print_tag t) = Some fg -> g_dim fg = dim t -> 0 < dim t ->
    (forall u, In u (g_cols fg) -> List.length u = dim t /\ accepts u = true) ->
    exists s', collect_by_basis accepts f s t = Ok s' /\ inv_b dim (ps ++ map (pair t) (g_cols fg)) s' /\
      same_ports s s' /\ (forall t', In t' (tags s') <-> In t' (tags s) \/ t' = t).
  Proof.
    intros Hinv Hf Hd Hpos Hu. unfold collect_by_basis. rewrite Hf, Hd.
    destruct (Nat.ltb_spec 0 (dim t)); [|lia]. cbn [oassert].
    assert (Hreg : exists s1, (if map_count basis_tag_lt (tag2idx s) t then Ok s
               else add_snapshot_generator s (dim t) t) = Ok s1 /\ inv_b dim ps s1 /\ same_ports s s1 /\
               In t (tags s1) /\ (forall t', In t' (tags s1) <-> In t' (tags s) \/ t' = t)).
    { rewrite map_count_find. destruct (map_find basis_tag_lt (tag2idx s) t) as [i|] eqn:E.
      - exists s. split; [reflexivity|]. split; auto. split; [repeat split|].
        assert (In t (tags s)).
        { destruct (ib_wf _ _ _ Hinv) as [Hf' _]. apply Hf' in E. eapply nth_error_In; eauto. }
        split; auto. intros t'. split; auto. intros [H1| ->]; auto.
      - destruct (add_gen_spec dim ps s t (dim t) Hinv E eq_refl) as (s1 & E1 & H1 & H2 & H3).
        exists s1. split; auto. split; auto. split; auto. rewrite H3. split; [apply in_or_app; simpl; auto|].
        intros t'. rewrite in_app_iff. simpl. intuition. }
    destruct Hreg as (s1 & E1 & Hinv1 & Hsp & Hin & Htags). rewrite E1. cbn [obind].
    destruct (map_find basis_tag_lt (tag2idx s1) t) as [i|] eqn:Ef.
    2:{ apply (wf_index_None _ _ _ t (ib_wf _ _ _ Hinv1)) in Ef. contradiction. }
    rewrite (map_at_some _ _ _ _ Ef).
    pose proof (proj1 (proj1 (ib_wf _ _ _ Hinv1) t i) Ef) as Hti.
    destruct (ib_gen _ _ _ Hinv1 i t Hti) as (g & Hg & Hc & Hdg).
    unfold oread. rewrite Hg. cbn [obind].
    rewrite load_samples_ok by (rewrite Hdg; exact Hu). cbn [obind].
    unfold owrite. assert (Hib : i < List.length (gens s1)) by (apply nth_error_Some; congruence).
    destruct (Nat.ltb_spec i (List.length (gens s1))); [|lia]. cbn [obind].
    eexists. split; [reflexivity|]. split; [|split].
    - apply (append_cols_inv dim ps s1 t i g _ Hinv1 Hti Hg); simpl; auto.
    - destruct Hsp as (A & B & C). repeat split; simpl; auto.
    - simpl. exact Htags.
  Qed.

  Lemma collect_basis_loop dim (f : string -> option (gen K)) (cols : basis_tag -> list (list K)) : forall ts ps s,
    inv_b dim ps s ->
    (forall t, In t ts -> 0 < dim t /\ exists fg, f (print_tag t) = Some fg /\ g_dim fg = dim t /\ g_cols fg = cols t /\
       forall u, In u (cols t) -> List.length u = dim t /\ accepts u = true) ->
    exists s', ofold (collect_by_basis accepts f) ts s = Ok s' /\
      inv_b dim (ps ++ flat_map (fun t => map (pair t) (cols t)) ts) s' /\ same_ports s s' /\
      (forall t', In t' (tags s') <-> In t' (tags s) \/ In t' ts).
  Proof.
    induction ts as [|t ts IH]; intros ps s Hinv H; simpl.
    - exists s. rewrite app_nil_r. split; auto. split; auto. split; [repeat split|]. intuition.
    - destruct (H t (or_introl eq_refl)) as (Hpos & fg & Hf & Hd & Hc & Hu).
      destruct (collect_by_basis_ok dim ps s f t fg Hinv Hf Hd Hpos) as (s1 & E1 & Hi1 & Hs1 & Ht1).
      { rewrite Hc. exact Hu. }
      rewrite E1. cbn [obind]. rewrite Hc in Hi1.
      destruct (IH _ _ Hi1) as (s2 & E2 & Hi2 & Hs2 & Ht2).
      { intros t' Ht'. apply H; simpl; auto. }
      exists s2. split; auto. rewrite <- app_assoc in Hi2. split; auto.
      split. { destruct Hs1 as (A & B & C), Hs2 as (A' & B' & C'). repeat split; congruence. }
      intros t'. rewrite Ht2, Ht1. intuition.
  Qed.

  (** the files written from a store *)
  Lemma write_snapshots_fold : forall (l : list (basis_tag * gen K)) (f : string -> option (gen K)) t g,
    NoDup (map fst l) ->
    (forall t t', In t (map fst l) -> In t' (map fst l) -> print_tag t = print_tag t' -> t = t') ->
    In (t, g) l ->
    fold_left (fun (f : string -> option (gen K)) '(t, g) n => if String.eqb n (print_tag t) then Some g else f n)
      l f (print_tag t) = Some g.
  Proof.
    induction l as [|[t0 g0] l IH] using rev_ind; intros f t g Hnd Hinj Hin; [destruct Hin|].
    rewrite fold_left_app. simpl. rewrite map_app in *. simpl in *.
    destruct (String.eqb_spec (print_tag t) (print_tag t0)) as [E|Hne].
    - assert (t = t0).
      { apply Hinj; auto; apply in_or_app; simpl; auto. apply in_app_or in Hin as [Hin|[Hin|[]]].
        - left. apply (in_map fst) in Hin. exact Hin.
        - right; left; inversion Hin; auto. }
      subst t0. apply in_app_or in Hin as [Hin|[Hin|[]]]; [|inversion Hin; auto].
      exfalso. apply NoDup_remove in Hnd as [_ Hnd]. apply Hnd. rewrite app_nil_r.
      apply (in_map fst) in Hin. exact Hin.
    - apply in_app_or in Hin as [Hin|[Hin|[]]]; [|inversion Hin; congruence].
      apply IH; auto.
      + apply NoDup_remove_1 in Hnd. rewrite app_nil_r in Hnd. exact Hnd.
      + intros a b Ha Hb. apply Hinj; apply in_or_app; auto.
  Qed.

  Lemma write_snapshots_spec dim ps (s : sgK) t : inv_b dim ps s ->
    (forall t t', In t (tags s) -> In t' (tags s) -> print_tag t = print_tag t' -> t = t') ->
    In t (tags s) -> exists g, write_snapshots s (print_tag t) = Some g /\ g_dim g = dim t /\ g_cols g = bsel ps t.
  Proof.
    intros Hinv Hinj Hin. apply In_nth_error in Hin as [i Hi].
    destruct (ib_gen _ _ _ Hinv i t Hi) as (g & Hg & Hc & Hd). exists g. split; auto.
    unfold write_snapshots. 
    assert (El : map fst (combine (tags s) (gens s)) = tags s) by (apply map_fst_combine, (ib_len _ _ _ Hinv)).
    apply write_snapshots_fold; rewrite ?El; auto.
    - eapply wf_index_nodup. exact (ib_wf _ _ _ Hinv).
    - apply nth_error_In with (n := i).
      clear - Hi Hg. revert i Hi Hg. generalize (gens s). induction (tags s) as [|a l IH]; intros [|b l'] [|i] H1 H2; simpl in *; try discriminate.
      + congruence.
      + apply IH; auto.
  Qed.

  (** the offset of a component *)
  Lemma offset_loop_spec c n : forall l off tmp,
    (forall t g, In (t, g) l -> comp t = c -> List.length (g_cols g) = n) ->
    (tmp = None /\ off = 0 \/ tmp = Some n /\ off = n) ->
    snapshot_offset_loop (K := K) c l off tmp =
      Ok (if existsb (fun p => String.eqb (comp (fst p)) c) l then n else off).
  Proof.
    induction l as [|[t g] l IH]; intros off tmp H Ht; simpl; auto.
    destruct (String.eqb_spec (comp t) c) as [Ec|Hne]; simpl.
    - pose proof (H t g (or_introl eq_refl) Ec) as Hn.
      rewrite Hn. replace (match tmp with Some x => x | None => n end) with n by (destruct Ht as [[-> _]|[-> _]]; auto).
      rewrite Nat.eqb_refl. simpl. rewrite IH; auto.
      + destruct (existsb _ l); reflexivity.
      + intros t' g' Hin. apply H; simpl; auto.
    - apply IH; auto. intros t' g' Hin. apply H; simpl; auto.
  Qed.

  Lemma in_combine_nth {A B} : forall (l : list A) (l' : list B) a b, In (a, b) (combine l l') ->
    exists i, nth_error l i = Some a /\ nth_error l' i = Some b.
  Proof.
    induction l as [|x l IH]; intros [|y l'] a b H; try destruct H.
    - inversion H; subst. exists 0; auto.
    - destruct (IH l' a b H) as (i & H1 & H2). exists (S i); auto.
  Qed.

  Lemma get_offset_spec dim ps vars (s : sgK) c x : inv_b dim ps s -> uniform vars ps ->
    (forall t, In t (tags s) -> In (var t) vars) -> In x vars ->
    get_snapshot_offset s c = Ok (List.length (bsel ps {| comp := c; var := x |})).
  Proof.
    intros Hinv Hu Hv Hx. unfold get_snapshot_offset.
    rewrite (ib_len _ _ _ Hinv), Nat.eqb_refl. cbn [oassert].
    rewrite (offset_loop_spec c (List.length (bsel ps {| comp := c; var := x |}))); auto.
    - destruct (existsb _ (combine (tags s) (gens s))) eqn:E; auto.
      rewrite (ib_out _ _ _ Hinv); auto. intros Hin.
      apply In_nth_error in Hin as [i Hi]. destruct (ib_gen _ _ _ Hinv i _ Hi) as (g & Hg & _).
      assert (existsb (fun p : basis_tag * gen K => String.eqb (comp (fst p)) c) (combine (tags s) (gens s)) = true).
      { apply existsb_exists. exists ({| comp := c; var := x |}, g). split; [|simpl; apply String.eqb_refl].
        clear - Hi Hg. apply nth_error_In with (n := i). revert i Hi Hg. generalize (gens s).
        induction (tags s) as [|a l IH]; intros [|b l'] [|i] H1 H2; simpl in *; try discriminate; [congruence|].
        apply IH; auto. }
      congruence.
    - intros t g Hin Hc. apply in_combine_nth in Hin as (i & Hi & Hg).
      destruct (ib_gen _ _ _ Hinv i t Hi) as (g' & Hg' & Hcols & _).
      assert (g' = g) by congruence. subst g'. rewrite Hcols.
      assert (Hvt : In (var t) vars) by (apply Hv; eapply nth_error_In; eauto).
      destruct t as [ct vt]; simpl in *; subst ct. apply Hu; auto.
  Qed.

  Lemma collect_ports_loop dim ps vars x : uniform vars ps -> In x vars ->
    let off c := List.length (bsel ps {| comp := c; var := x |}) in
    forall l rs (s : sgK), inv_b dim ps s -> inv_p rs s -> (forall t, In t (tags s) -> In (var t) vars) ->
    exists s', ofold collect_port l s = Ok s' /\
      inv_p (rs ++ flat_map (fun '(t, rows) => map (pair t)
               (map (fun r => (fst r + off (Mesh1 t), snd r + off (Mesh2 t))) rows)) l) s' /\
      same_basis s s' /\ (forall t, In t (ptags s') <-> In t (ptags s) \/ In t (map fst l)).
  Proof.
    intros Hu Hx off. induction l as [|[t rows] l IH]; intros rs s Hb Hp Hv; simpl.
    - exists s. rewrite app_nil_r. split; auto. split; auto. split; [repeat split|]. intuition.
    - destruct (register_port_spec rs s t Hp) as (Hi & Hsb & Hin & Htags).
      assert (Hb1 : inv_b dim ps (register_port s t)) by (eapply inv_b_same; eauto).
      assert (Hv1 : forall t', In t' (tags (register_port s t)) -> In (var t') vars).
      { intros t' H. destruct Hsb as (A & _ & _). rewrite A in H. auto. }
      rewrite (get_offset_spec dim ps vars _ (Mesh1 t) x Hb1 Hu Hv1 Hx). cbn [obind].
      rewrite (get_offset_spec dim ps vars _ (Mesh2 t) x Hb1 Hu Hv1 Hx). cbn [obind].
      fold (off (Mesh1 t)) (off (Mesh2 t)).
      destruct (append_rows_spec rs _ t (map (fun r => (fst r + off (Mesh1 t), snd r + off (Mesh2 t))) rows) Hi Hin)
        as (s2 & E2 & Hi2 & Hsb2 & Hpt). rewrite E2. cbn [obind].
      destruct (IH _ s2 (inv_b_same _ _ _ _ Hsb2 Hb1) Hi2) as (s3 & E3 & Hi3 & Hsb3 & Htags3).
      { intros t' H. destruct Hsb2 as (A & _ & _). rewrite A in H. auto. }
      exists s3. split; auto. rewrite <- app_assoc in Hi3. split; auto. split.
      { destruct Hsb as (A & B & C), Hsb2 as (A' & B' & C'), Hsb3 as (A'' & B'' & C'').
        repeat split; congruence. }
      intros t'. rewrite Htags3, Hpt, Htags. intuition.
  Qed.

  Lemma inv_p_ext rs rs' (s : sgK) : (forall t, psel rs t = psel rs' t) -> inv_p rs s -> inv_p rs' s.
  Proof.
    intros H [Hwf Hl Hg Ho]. constructor; auto.
    - intros i t Hi. rewrite <- H. auto.
    - intros t Ht. rewrite <- H. auto.
  Qed.

  (** the state after collecting the files of some histories, [H] being their concatenation *)
  Record cinv (dim : basis_tag -> nat) (H : list (event K)) (s : sgK) : Prop := {
    ci_b : inv_b dim (flat_map event_blocks H) s;
    ci_tags : forall t, In t (tags s) <-> In t (map fst (flat_map event_blocks H));
    ci_p : exists rs, inv_p rs s /\ (forall t, In t (ptags s) <-> In t (map fst rs)) /\
             forall t, Forall2 (record_ok H) (psel rs t) (port_uses H t) }.

  Lemma designates_shift H h c e m (o : nat) :
    (forall v t, v < List.length (ev_vars e) -> block_tag e m v = Some t -> List.length (columns H t) = o) ->
    designates h c e m -> designates (K := K) (H ++ h) (c + o) e m.
  Proof.
    intros Ho Hd v Hv. destruct (Hd v Hv) as (t & b & H1 & H2 & H3). exists t, b. split; auto. split; auto.
    rewrite columns_sel, flat_map_app, sel_app, <- !columns_sel. rewrite nth_error_app2 by (rewrite (Ho v t); auto; lia).
    rewrite (Ho v t) by auto. replace (c + o - o) with c by lia. exact H3.
  Qed.

  Lemma Forall2_map_l {A B C} (P : B -> C -> Prop) (f : A -> B) l l' :
    Forall2 (fun a c => P (f a) c) l l' -> Forall2 P (map f l) l'.
  Proof. induction 1; constructor; auto. Qed.

  Lemma Forall2_in_r {A B} (P Q : A -> B -> Prop) l l' :
    Forall2 P l l' -> (forall a b, In b l' -> P a b -> Q a b) -> Forall2 Q l l'.
  Proof.
    induction 1 as [|a b l l' H HF IH]; intros HQ; constructor; [apply HQ; simpl; auto|].
    apply IH. intros a' b' Hin. apply HQ; simpl; auto.
  Qed.

  Lemma port_uses_app (H h : list (event K)) t : port_uses (H ++ h) t = port_uses H t ++ port_uses h t.
  Proof. unfold port_uses. rewrite flat_map_app, filter_app. reflexivity. Qed.

  Lemma flat_combine_eq {A B C} (f : A -> B -> list C) (g : A -> B) : forall l l', List.length l' = List.length l ->
    (forall i a, nth_error l i = Some a -> nth_error l' i = Some (g a)) ->
    flat_map (fun '(a, b) => f a b) (combine l l') = flat_map (fun a => f a (g a)) l.
  Proof.
    induction l as [|a l IH]; intros [|b l'] Hl H; simpl in *; try discriminate; auto.
    rewrite IH; auto.
    - specialize (H 0 a eq_refl). simpl in H. congruence.
    - intros i a' Hi. apply (H (S i) a' Hi).
  Qed.

  Lemma collect_one dim vars H h s sh rsh f : cinv dim H s ->
    proper_history vars H -> proper_history vars h -> same_dims h dim ->
    (forall t, In t (map fst (flat_map event_blocks h)) -> 0 < dim t) ->
    (forall t t', In t (map fst (flat_map event_blocks h)) -> In t' (map fst (flat_map event_blocks h)) ->
       print_tag t = print_tag t' -> t = t') ->
    inv accepts dim h sh rsh -> write_files sh = Ok f ->
    exists s', collect_by_port accepts s f = Ok s' /\ cinv dim (H ++ h) s'.
  Proof.
    intros [Hb Ht (rs & Hp & Hpt & HF)] HpH Hph Hdh Hpos Hinj Hih Hw.
    unfold write_files in Hw. apply oassert_ok in Hw as [Hgne Hw]. inversion Hw; subst f; clear Hw.
    unfold collect_by_port. cbn [f_ports f_basistags f_snap].
    pose proof (history_uniform vars H HpH) as Hu.
    destruct HpH as [[Hnd Hne] HeH].
    assert (Hx : exists x, In x vars) by (destruct vars as [|x l]; [contradiction|exists x; simpl; auto]).
    destruct Hx as [x Hx].
    assert (Hvars : forall t, In t (tags s) -> In (var t) vars).
    { intros t Hin. apply Ht in Hin. apply in_map_iff in Hin as ([t' b] & <- & Hin). simpl.
      apply in_flat_map in Hin as (e & He & Hin). rewrite event_blocks_eq in Hin. apply in_combine_l in Hin.
      unfold ev_tags, get_basis_tags in Hin. apply in_flat_map in Hin as (nm & _ & Hin).
      apply in_map_iff in Hin as (y & <- & Hy). simpl. destruct (HeH e He) as (<- & _). exact Hy. }
    destruct (collect_ports_loop dim _ vars x Hu Hx (combine (ptags sh) (pcols sh)) rs s Hb Hp Hvars)
      as (s1 & E1 & Hp1 & Hsb1 & Hpt1).
    rewrite E1. cbn [obind].
    assert (Hgl : 0 < List.length (tags sh)).
    { rewrite <- (ib_len _ _ _ (i_b _ _ _ _ _ Hih)). apply Nat.ltb_lt; auto. }
    destruct (Nat.ltb_spec 0 (List.length (tags sh))); [|lia]. cbn [oassert].
    pose proof (i_b _ _ _ _ _ Hih) as Hbh. pose proof (i_p _ _ _ _ _ Hih) as Hph'.
    destruct (collect_basis_loop dim (write_snapshots sh) (bsel (flat_map event_blocks h)) (tags sh)
                _ s1 (inv_b_same _ _ _ _ Hsb1 Hb)) as (s2 & E2 & Hb2 & Hsp2 & Ht2).
    { intros t Hin. pose proof (proj1 (i_tags _ _ _ _ _ Hih t) Hin) as Hin'. split; auto.
      destruct (write_snapshots_spec dim _ sh t Hbh) as (g & Hg & Hd & Hc); auto.
      { intros a b Ha Hb'. apply Hinj; apply (i_tags _ _ _ _ _ Hih); auto. }
      exists g. split; auto. split; auto. split; auto.
      intros u Hu'. unfold sel in Hu'. apply in_map_iff in Hu' as ([t' u'] & Eu & Hf). simpl in Eu; subst u'.
      apply filter_In in Hf as [Hf1 Hf2]. simpl in Hf2. destruct (tag_dec t' t) as [->|]; [|discriminate].
      split; [apply Hdh; auto|]. apply (i_acc _ _ _ _ _ Hih (t, u)); auto. }
    exists s2. split; auto.
    pose proof (wf_index_nodup _ _ _ (ib_wf _ _ _ Hbh)) as Hndt.
    pose proof (wf_index_nodup _ _ _ (ip_wf _ _ Hph')) as Hndp.
    assert (Htags1 : tags s1 = tags s) by apply Hsb1.
    constructor.
    - eapply inv_b_ext; [|exact Hb2]. intros t. rewrite flat_map_app, !sel_app. f_equal.
      rewrite (sel_groups tag_dec (bsel (flat_map event_blocks h)) (tags sh) t Hndt).
      destruct (in_dec tag_dec t (tags sh)); auto. symmetry. apply (ib_out _ _ _ Hbh); auto.
    - intros t. rewrite Ht2, Htags1, flat_map_app, map_app, in_app_iff, Ht, (i_tags _ _ _ _ _ Hih). reflexivity.
    - set (off := fun c => List.length (bsel (flat_map event_blocks H) {| comp := c; var := x |})) in *.
      set (shift := fun t : port_tag => map (fun r : nat * nat => (fst r + off (Mesh1 t), snd r + off (Mesh2 t)))).
      set (rs' := rs ++ flat_map (fun t => map (pair t) (shift t (psel rsh t))) (ptags sh)).
      assert (Hrs : flat_map (fun '(t, rows) => map (pair t)
               (map (fun r => (fst r + off (Mesh1 t), snd r + off (Mesh2 t))) rows)) (combine (ptags sh) (pcols sh))
               = flat_map (fun t => map (pair t) (shift t (psel rsh t))) (ptags sh)).
      { apply (flat_combine_eq (fun t rows => map (pair t) (shift t rows)) (psel rsh)).
        - exact (ip_len _ _ Hph').
        - intros i t Hi. apply (ip_col _ _ Hph' i t Hi). }
      pose proof (eq_ind _ (fun l => inv_p (rs ++ l) s1) Hp1 _ Hrs) as Hp1'. fold rs' in Hp1'.
      exists rs'. split; [eapply inv_p_same; eauto|].
      assert (Hsel : forall t, psel rs' t = psel rs t ++ shift t (psel rsh t)).
      { intros t. unfold rs'. rewrite sel_app. f_equal.
        rewrite (sel_groups port_tag_dec (fun t => shift t (psel rsh t)) (ptags sh) t Hndp).
        destruct (in_dec port_tag_dec t (ptags sh)); auto.
        rewrite (ip_out _ _ Hph' t); auto. }
      split.
      + intros t. destruct Hsp2 as (A & _ & _). rewrite A, Hpt1, Hpt.
        rewrite map_fst_combine by (apply (ip_len _ _ Hph')).
        assert (Hiff : In t (map fst rs') <-> psel rs' t <> []).
        { rewrite sel_nil_notin. destruct (in_dec port_tag_dec t (map fst rs')); tauto. }
        rewrite Hiff, Hsel.
        assert (Hiff1 : In t (map fst rs) <-> psel rs t <> []).
        { rewrite sel_nil_notin. destruct (in_dec port_tag_dec t (map fst rs)); tauto. }
        assert (Hiff2 : In t (ptags sh) <-> shift t (psel rsh t) <> []).
        { rewrite (i_ptags _ _ _ _ _ Hih). unfold shift.
          assert (Hz : In t (map fst rsh) <-> psel rsh t <> []).
          { rewrite sel_nil_notin. destruct (in_dec port_tag_dec t (map fst rsh)); tauto. }
          rewrite Hz. destruct (psel rsh t); simpl; split; intros Q; auto; discriminate. }
        rewrite Hiff1, Hiff2. destruct (psel rs t), (shift t (psel rsh t)); simpl; intuition congruence.
      + intros t. rewrite Hsel, port_uses_app. apply Forall2_app.
        * eapply Forall2_imp; [|exact (HF t)]. intros r u [H1 H2].
          split; intros v Hv; [destruct (H1 v Hv) as (t' & b & P1 & P2 & P3)|destruct (H2 v Hv) as (t' & b & P1 & P2 & P3)];
            exists t', b; (split; [auto|split; [auto|]]); rewrite columns_sel, flat_map_app; apply sel_nth_app; exact P3.
        * unfold shift. apply Forall2_map_l.
          pose proof (uses_filter _ _ _ t (i_uses _ _ _ _ _ Hih)) as HF2. fold (port_uses h t) in HF2.
          eapply Forall2_in_r; [exact HF2|]. intros r u Hu' [H1 H2].
          unfold port_uses in Hu'. apply filter_In in Hu' as [Hu1 Hu2].
          apply in_flat_map in Hu1 as (e & He & Hu1). apply in_map_iff in Hu1 as (p & <- & Hpi).
          cbn [fst snd] in *. destruct (port_tag_of e p) as [t'|] eqn:Et; [|discriminate].
          destruct (port_tag_dec t' t) as [->|]; [|discriminate].
          destruct Hph as [_ Heh]. destruct (Heh e He) as (Hev & _).
          unfold port_tag_of in Et.
          destruct (nth_error (t_names (ev_topo e)) (pm1 p)) as [n1|] eqn:En1; [|discriminate].
          destruct (nth_error (t_names (ev_topo e)) (pm2 p)) as [n2|] eqn:En2; [|discriminate].
          inversion Et; subst t. cbn [Mesh1 Mesh2].
          split; cbn [fst snd]; apply designates_shift.
          -- intros v t Hv Hbt. unfold block_tag in Hbt. rewrite En1 in Hbt.
             destruct (nth_error (ev_vars e) v) as [y|] eqn:Ey; [|discriminate]. inversion Hbt.
             apply Hu; auto. rewrite <- Hev. eapply nth_error_In; eauto.
          -- exact H1.
          -- intros v t Hv Hbt. unfold block_tag in Hbt. rewrite En2 in Hbt.
             destruct (nth_error (ev_vars e) v) as [y|] eqn:Ey; [|discriminate]. inversion Hbt.
             apply Hu; auto. rewrite <- Hev. eapply nth_error_In; eauto.
          -- exact H2.
  Qed.

  Lemma cinv0 dim : cinv dim [] sg0.
  Proof.
    constructor.
    - apply inv_b0.
    - simpl; tauto.
    - exists []. split; [apply inv_p0|]. split; [simpl; tauto|]. intros t; constructor.
  Qed.

  Lemma history_tag_var vars (h : list (event K)) t : proper_history vars h ->
    In t (map fst (flat_map event_blocks h)) -> In (var t) vars.
  Proof.
    intros [_ He] Hin. apply in_map_iff in Hin as ([t' b] & <- & Hin). simpl.
    apply in_flat_map in Hin as (e & Hin' & Hin). rewrite event_blocks_eq in Hin. apply in_combine_l in Hin.
    unfold ev_tags, get_basis_tags in Hin. apply in_flat_map in Hin as (nm & _ & Hin).
    apply in_map_iff in Hin as (y & <- & Hy). simpl. destruct (He e Hin') as (<- & _). exact Hy.
  Qed.

  Lemma plain_inj vars t t' : plain_vars vars -> In (var t) vars -> In (var t') vars ->
    print_tag t = print_tag t' -> t = t'.
  Proof.
    intros [->|Hp] H1 H2 E; apply print_inj_vars; auto.
    - left. destruct H1 as [H1|[]], H2 as [H2|[]]; auto.
    - right. destruct (Hp _ H1), (Hp _ H2). auto.
  Qed.

  Lemma write_ok dim vars h s rs : inv accepts dim h s rs -> proper_history vars h -> h <> [] ->
    exists f, write_files s = Ok f.
  Proof.
    intros Hi [[_ Hne] He] Hh. unfold write_files.
    assert (Hlt : 0 < List.length (gens s)).
    { rewrite (ib_len _ _ _ (i_b _ _ _ _ _ Hi)).
      destruct h as [|e h]; [contradiction|]. destruct (He e (or_introl eq_refl)) as (Hv & Hn & Hl & _).
      destruct (t_names (ev_topo e)) as [|nm names] eqn:En; [contradiction|].
      destruct vars as [|x vars]; [contradiction|].
      destruct (ev_blocks e) as [|b bs] eqn:Eb; [simpl in Hl; lia|].
      assert (Hin : In {| comp := nm; var := x |} (tags s)).
      { apply (i_tags _ _ _ _ _ Hi). simpl. rewrite map_app. apply in_or_app. left.
        unfold event_blocks. rewrite En, Hv, Eb. simpl. auto. }
      destruct (tags s); [destruct Hin|simpl; lia]. }
    destruct (Nat.ltb_spec 0 (List.length (gens s))); [|lia]. simpl. eauto.
  Qed.

  Lemma collect_all dim vars : plain_vars vars -> forall hs H s fs, cinv dim H s -> proper_history vars H ->
    (forall h, In h hs -> proper_history vars h /\ same_dims h dim /\
       (forall e t b, In e h -> In (t, b) (event_blocks e) -> 0 < List.length b)) ->
    Forall2 (fun h f => run_and_write accepts h = Ok f) hs fs ->
    exists s', ofold (collect_by_port accepts) fs s = Ok s' /\ cinv dim (H ++ List.concat hs) s' .
  Proof.
    intros Hpv. induction hs as [|h hs IH]; intros H s fs Hc HH Hh HF; inversion HF; subst; simpl.
    - rewrite app_nil_r. eauto.
    - destruct (Hh h (or_introl eq_refl)) as (Hp & Hd & Hpos).
      unfold run_and_write in H2. apply obind_ok in H2 as (sh & Er & Ew).
      destruct (run_inv accepts dim h sh Hd Er) as [rsh Hih].
      destruct (collect_one dim vars H h s sh rsh y Hc HH Hp Hd) as (s1 & E1 & Hc1); auto.
      { intros t Hin. apply in_map_iff in Hin as ([t' b] & <- & Hin). simpl. rewrite <- (Hd t' b Hin).
        apply in_flat_map in Hin as (e & He & Hin). apply (Hpos e t' b); auto. }
      { intros t t' Ht Ht'. apply (plain_inj vars); auto; apply (history_tag_var vars h); auto. }
      rewrite E1. cbn [obind]. rewrite app_assoc. apply IH; auto.
      + destruct HH as [Hv He], Hp as [_ He']. constructor; auto. intros e Hin. apply in_app_or in Hin as [?|?]; auto.
      + intros h' Hin. apply Hh; simpl; auto.
  Qed.

  Lemma collected dim vars hs fs : plain_vars vars -> NoDup vars -> vars <> [] ->
    (forall h, In h hs -> proper_history vars h /\ same_dims h dim /\
       (forall e t b, In e h -> In (t, b) (event_blocks e) -> 0 < List.length b)) ->
    Forall2 (fun h f => run_and_write accepts h = Ok f) hs fs ->
    exists s, collect_files accepts fs = Ok s /\
      (forall t, look_up_snapshot s t = match columns (List.concat hs) t with
                                        | [] => Abort | _ :: _ => Ok (columns (List.concat hs) t) end) /\
      (forall t, match port_uses (List.concat hs) t with
                 | [] => look_up_port s t = Abort
                 | _ :: _ => exists recs, look_up_port s t = Ok recs /\
                               Forall2 (record_ok (List.concat hs)) recs (port_uses (List.concat hs) t)
                 end).
  Proof.
    intros Hpv Hnd Hne Hh HF.
    assert (Hp0 : proper_history vars (@nil (event K))) by (constructor; [auto|intros e []]).
    destruct (collect_all dim vars Hpv hs [] sg0 fs (cinv0 dim) Hp0 Hh HF) as (s & E & [Hb Ht (rs & Hp & Hpt & HF2)]).
    exists s. split; [exact E|]. simpl in *. split.
    - intros t. rewrite columns_sel. eapply look_up_snapshot_inv; eauto.
    - intros t. rewrite (look_up_port_inv rs s t Hp Hpt). specialize (HF2 t).
      destruct (port_uses (List.concat hs) t); [inversion HF2; reflexivity|].
      destruct (psel rs t); [inversion HF2|]. eauto.
  Qed.

  (** ** Arbitrary sequences of saves *)

  Lemma run_saves_inv dim : forall l ps s s', inv_b dim ps s ->
    (forall t, In t (tags s) <-> In t (map fst ps)) ->
    (forall t b, In (t, b) (saved_pairs l) -> List.length b = dim t) ->
    ofold (fun s '(ts, us) => let* (s', _) := save_snapshot accepts s us ts in Ok s') l s = Ok s' ->
    inv_b dim (ps ++ saved_pairs l) s' /\ (forall t, In t (tags s') <-> In t (map fst (ps ++ saved_pairs l))).
  Proof.
    induction l as [|[ts us] l IH]; intros ps s s' Hi Ht Hd H; simpl in H.
    - inversion H; subst. simpl. rewrite app_nil_r. auto.
    - apply obind_ok in H as (s1 & E1 & H). apply obind_ok in E1 as ([s2 cs] & E1 & E2). inversion E2; subst s2.
      unfold save_snapshot in E1. apply oassert_ok in E1 as [Hl E1]. apply Nat.eqb_eq in Hl.
      pose proof (save_loop_spec accepts dim ts us ps s Hl Hi) as HS.
      destruct (forallb accepts us).
      2:{ rewrite HS in E1; [discriminate|]. intros t b Hin. apply Hd. simpl. apply in_or_app; auto. }
      destruct HS as (s2 & cs' & E1' & Hi1 & _ & _ & _ & Ht1).
      { intros t b Hin. apply Hd. simpl. apply in_or_app; auto. }
      rewrite E1 in E1'. inversion E1'; subst s2 cs'. simpl. rewrite app_assoc.
      apply (IH _ s1); auto.
      + intros t. rewrite Ht1, Ht, map_app, in_app_iff, map_fst_combine by auto. reflexivity.
      + intros t b Hin. apply Hd. simpl. apply in_or_app; auto.
  Qed.

  Lemma saves_store dim l s : (forall t b, In (t, b) (saved_pairs l) -> List.length b = dim t) ->
    run_saves accepts l = Ok s ->
    forall t, look_up_snapshot s t = match saved l t with [] => Abort | _ :: _ => Ok (saved l t) end.
  Proof.
    intros Hd H t. destruct (run_saves_inv dim l [] sg0 s (inv_b0 dim)) as [Hi Ht]; auto.
    { simpl; tauto. }
    change (saved l t) with (bsel (saved_pairs l) t). eapply look_up_snapshot_inv; eauto.
  Qed.
End Snap.
