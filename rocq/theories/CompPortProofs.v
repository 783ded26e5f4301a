(** Proofs about reference ports: files, definitions, building from two component meshes. *)
From Coq Require Import ZArith QArith Qabs Lqa List Bool String Lia Permutation Sorted.
From Verif Require Import Outcome ListLemmas TopoModel TopoSpec TopoProofs CompModel CompSpec CompProofs.
Import ListNotations.
Local Open Scope nat_scope.
Local Open Scope list_scope.

(** ** Maps *)

Lemma slookup_sinsert m k v k' : slookup (sinsert m k v) k' = if String.eqb k k' then Some v else slookup m k'.
Proof.
  induction m as [|[k0 v0] m IH]; simpl; auto.
  destruct (String.eqb_spec k0 k) as [->|N]; simpl.
  - destruct (String.eqb_spec k k'); auto.
  - rewrite IH. destruct (String.eqb_spec k0 k') as [->|N']; auto.
    destruct (String.eqb_spec k k'); congruence.
Qed.

Lemma zlookup_zinsert m k v k' : zlookup (zinsert m k v) k' = if Z.eqb k k' then Some v else zlookup m k'.
Proof.
  induction m as [|[k0 v0] m IH]; simpl; auto.
  destruct (Z.eqb_spec k0 k) as [->|N]; simpl.
  - destruct (Z.eqb_spec k k'); auto.
  - rewrite IH. destruct (Z.eqb_spec k0 k') as [->|N']; auto.
    destruct (Z.eqb_spec k k'); congruence.
Qed.

Lemma zlookup_in m k v : zlookup m k = Some v -> In (k, v) m.
Proof.
  induction m as [|[k0 v0] m IH]; simpl; [discriminate|].
  destruct (Z.eqb_spec k0 k) as [->|N]; [intros [= ->]; auto|auto].
Qed.

Lemma zlookup_nodup m k v : NoDup (map fst m) -> (zlookup m k = Some v <-> In (k, v) m).
Proof.
  intros H. split; [apply zlookup_in|].
  induction m as [|[k0 v0] m IH]; simpl; [tauto|]. inversion H; subst.
  intros [[= -> ->]|Hi]; [rewrite Z.eqb_refl; auto|].
  destruct (Z.eqb_spec k0 k) as [->|N]; auto. exfalso. apply H2. apply in_map_iff. exists (k, v). auto.
Qed.

Lemma zlookup_none m k : zlookup m k = None <-> ~ In k (map fst m).
Proof.
  induction m as [|[k0 v0] m IH]; simpl; [tauto|].
  destruct (Z.eqb_spec k0 k) as [->|N].
  - split; [discriminate|]. intros H; exfalso; apply H; auto.
  - rewrite IH. intuition.
Qed.

Lemma zinsert_fresh m k v : zlookup m k = None -> zinsert m k v = m ++ [(k, v)].
Proof.
  induction m as [|[k0 v0] m IH]; simpl; auto.
  destruct (Z.eqb_spec k0 k); [discriminate|]. intros H. rewrite IH; auto.
Qed.

Lemma inserts_fresh l : NoDup (map fst l) ->
  fold_left (fun m p => zinsert m (fst p) (snd p)) l [] = l.
Proof.
  intros H. assert (K : forall l acc, NoDup (map fst (acc ++ l)) ->
     fold_left (fun m (p : Z * Z) => zinsert m (fst p) (snd p)) l acc = acc ++ l).
  { clear. induction l as [|[k v] l IH]; intros acc H; simpl; [rewrite app_nil_r; auto|].
    rewrite zinsert_fresh.
    - rewrite IH; rewrite <- app_assoc; auto.
    - apply zlookup_none. rewrite map_app in H. simpl in H. apply NoDup_remove_2 in H.
      intros Hi. apply H. apply in_app_iff; auto. }
  rewrite K; auto.
Qed.

Lemma name_map_snoc l s : name_map (l ++ [s]) = sinsert (name_map l) s (Z.of_nat (List.length l)).
Proof.
  unfold name_map. rewrite app_length. simpl. rewrite seq_app. simpl.
  assert (C : forall (a b : list nat) (c d : list string), List.length a = List.length c ->
     combine (a ++ b) (c ++ d) = combine a c ++ combine b d).
  { clear. induction a as [|x a IH]; intros b [|y c] d H; simpl in *; try discriminate; auto. f_equal. apply IH. lia. }
  rewrite C by apply seq_length. rewrite fold_left_app. reflexivity.
Qed.

Lemma name_map_ok names s i : NoDup names -> (slookup (name_map names) s = Some i <-> named names i s).
Proof.
  induction names as [|x names IH] using rev_ind; intros H.
  - simpl. split; [discriminate|]. intros [_ E]. destruct (Z.to_nat i); discriminate.
  - rewrite name_map_snoc, slookup_sinsert.
    assert (Hx : ~ In x names /\ NoDup names).
    { apply NoDup_remove in H. rewrite app_nil_r in H. tauto. }
    destruct Hx as [Hx Hn]. specialize (IH Hn).
    destruct (String.eqb_spec x s) as [->|N].
    + split.
      * intros [= <-]. split; [lia|]. rewrite Nat2Z.id. rewrite nth_error_app2, Nat.sub_diag by auto. reflexivity.
      * intros [I0 E]. apply nth_error_snoc in E as [E|[E _]].
        -- apply nth_error_In in E. contradiction.
        -- f_equal. lia.
    + rewrite IH. split; intros [I0 E]; split; auto.
      * rewrite nth_error_app1; auto. apply nth_error_Some. congruence.
      * apply nth_error_snoc in E as [E|[E ->]]; congruence.
Qed.

Lemma combine_swap (l : list (Z * Z)) : combine (map fst l) (map snd l) = l.
Proof. induction l as [|[a b] l IH]; simpl; congruence. Qed.

(** ** Write, then read *)

Lemma port_file_roundtrip names pnames p entries nm idx refs :
  NoDup names -> NoDup pnames ->
  (exists n1, named names (pd_comp1 p) n1) -> (exists n2, named names (pd_comp2 p) n2) ->
  NoDup (map fst (pd_vtx p)) -> Permutation entries (pd_vtx p) ->
  named pnames idx nm -> nth_error refs (Z.to_nat idx) = Some None ->
  exists f p', write_port_file names p entries nm = Ok f /\
  read_port_file (name_map pnames) (refs, name_map names) f = Ok (upd refs (Z.to_nat idx) (Some p'), name_map names) /\
  pd_comp1 p' = pd_comp1 p /\ pd_comp2 p' = pd_comp2 p /\ pd_attr1 p' = pd_attr1 p /\ pd_attr2 p' = pd_attr2 p /\
  same_map (pd_vtx p') (pd_vtx p) /\ pd_be p' = pd_be p.
Proof.
  intros Hn Hpn (n1 & N1) (n2 & N2) Hv Hp Hidx Hslot.
  assert (Hk : NoDup (map fst entries)).
  { eapply Permutation_NoDup; [|exact Hv]. apply Permutation_map, Permutation_sym; auto. }
  exists [PortRec nm (pd_attr1 p) (pd_attr2 p) n1 n2 (map snd entries) (map fst entries) (map fst (pd_be p)) (map snd (pd_be p))].
  exists (PortData (pd_comp1 p) (pd_comp2 p) (pd_attr1 p) (pd_attr2 p) entries (pd_be p)).
  split.
  - unfold write_port_file. rewrite (proj2 (zread_ok names _ n1) N1), (proj2 (zread_ok names _ n2) N2). reflexivity.
  - split.
    + unfold read_port_file, read_port_rec. cbn -[name_map]. rewrite (proj2 (name_map_ok pnames nm idx Hpn) Hidx).
      rewrite (proj2 (zread_ok refs idx None) (conj (proj1 Hidx) Hslot)). cbn -[name_map].
      unfold port_of_rec, sget. cbn -[name_map].
      rewrite (proj2 (name_map_ok names n1 _ Hn) N1), (proj2 (name_map_ok names n2 _ Hn) N2).
      destruct N1 as [P1 _], N2 as [P2 _]. rewrite (proj2 (Z.leb_le _ _) P1), (proj2 (Z.leb_le _ _) P2).
      rewrite !map_length, !Nat.eqb_refl. cbn -[name_map]. rewrite !combine_swap, inserts_fresh by auto. reflexivity.
    + repeat (split; auto). intros k. cbn [pd_vtx].
      destruct (zlookup entries k) as [v|] eqn:E.
      * symmetry. apply zlookup_nodup; auto. eapply Permutation_in; [exact Hp|]. apply zlookup_in; auto.
      * symmetry. apply zlookup_none. apply zlookup_none in E. intros Hi. apply E.
        eapply Permutation_in; [|exact Hi]. apply Permutation_map, Permutation_sym; auto.
Qed.

(** ** First definition wins *)

(** One definition at a time. *)
Definition apply_definition (pn : list (string * Z)) (st : pstate) (d : definition) : outcome pstate :=
  match d with
  | inl r => read_port_rec pn st r
  | inr (n, b) => apply_source pn st (FromInput n b)
  end.

Lemma sources_flat pn sources st st' : ofold (apply_source pn) sources st = Ok st' ->
  ofold (apply_definition pn) (definitions sources) st = Ok st'.
Proof.
  revert st; induction sources as [|s sources IH]; intros st H; simpl in *; auto.
  apply obind_ok in H as (s1 & E1 & H). rewrite ofold_app.
  assert (E : ofold (apply_definition pn) (match s with
                     | FromFile f => map inl f
                     | FromInput n b => [inr (n, b)] end) st = Ok s1).
  { destruct s as [f|n b].
    - simpl in E1. unfold read_port_file in E1. apply oassert_ok in E1 as [_ E1]. clear -E1.
      revert st E1. induction f as [|r f IH]; intros st E1; simpl in *; auto.
      apply obind_ok in E1 as (s2 & E2 & E1). rewrite E2. simpl. auto.
    - cbn [ofold]. unfold apply_definition. rewrite E1. reflexivity. }
  match goal with |- obind ?x _ = _ => replace x with (Ok s1) by (symmetry; exact E) end. simpl. auto.
Qed.

Definition extends (cn cn' : list (string * Z)) : Prop := forall k i, slookup cn k = Some i -> slookup cn' k = Some i.

Lemma sget_extends cn k : extends cn (snd (sget cn k)) /\ slookup (snd (sget cn k)) k = Some (fst (sget cn k)).
Proof.
  unfold sget, extends. destruct (slookup cn k) eqn:E; simpl; auto. split.
  - intros k' i H. rewrite slookup_sinsert. destruct (String.eqb_spec k k'); [congruence|auto].
  - rewrite slookup_sinsert, String.eqb_refl. auto.
Qed.

Lemma port_of_rec_gives cn cn0 r p cn' : extends cn0 cn -> port_of_rec cn r = Ok (p, cn') ->
  gives cn0 (inl r) p /\ extends cn cn'.
Proof.
  intros X H. unfold port_of_rec in H.
  pose proof (sget_extends cn (rec_comp1 r)) as [X1 L1]. destruct (sget cn (rec_comp1 r)) as [c1 cn1] eqn:G1.
  pose proof (sget_extends cn1 (rec_comp2 r)) as [X2 L2]. destruct (sget cn1 (rec_comp2 r)) as [c2 cn2] eqn:G2.
  cbn [fst snd] in *.
  apply oassert_ok in H as [_ H]. apply oassert_ok in H as [_ H]. apply oassert_ok in H as [B H].
  injection H as <- <-. apply Nat.eqb_eq in B. split; [|unfold extends in *; auto].
  simpl. repeat (split; auto); intros i Hi.
  - apply X, X1 in Hi. congruence.
  - apply X, X1, X2 in Hi. congruence.
Qed.

Lemma first_definition_snoc l d n' d' : first_definition (l ++ [d]) n' d' <->
  first_definition l n' d' \/ (d = d' /\ def_name d = n' /\ ~ In n' (map def_name l)).
Proof.
  split.
  - intros (pre & post & E & Hn & H). destruct post as [|x post] using rev_ind.
    + apply app_inj_tail in E as [-> ->]. auto.
    + rewrite app_comm_cons, app_assoc in E. apply app_inj_tail in E as [-> _]. left. exists pre, post. auto.
  - intros [(pre & post & -> & Hn & H)|(-> & Hn & H)].
    + exists pre, (post ++ [d]). rewrite <- app_assoc. auto.
    + exists l, []. auto.
Qed.

Lemma reference_ports_first pnames cn sources ps : NoDup pnames ->
  setup_reference_ports pnames cn sources = Ok ps ->
  List.length ps = List.length pnames /\
  forall i n p, nth_error pnames i = Some n -> nth_error ps i = Some p ->
    exists d, first_definition (definitions sources) n d /\ gives cn d p.
Proof.
  intros Hn H. unfold setup_reference_ports in H. apply obind_ok in H as (st & E & H).
  apply sources_flat in E.
  pose (I := fun (done : list definition) (st : pstate) =>
     List.length (fst st) = List.length pnames /\ extends cn (snd st) /\
     forall i n o, nth_error pnames i = Some n -> nth_error (fst st) i = Some o ->
       match o with
       | Some p => exists d, first_definition done n d /\ gives cn d p
       | None => ~ In n (map def_name done)
       end).
  apply (ofold_inv_ok _ I) in E.
  - destruct E as (L & _ & K). apply omap_ok in H. apply Forall2_nth_error in H as [L' H]. split; [lia|].
    intros i n p En Ep.
    assert (Li : i < List.length pnames) by (apply nth_error_Some; congruence).
    destruct (nth_error (fst st) i) as [o|] eqn:Eo; [|apply nth_error_None in Eo; lia].
    specialize (H _ _ _ Eo Ep). destruct o as [p'|]; [|discriminate]. injection H as ->.
    apply (K _ _ _ En Eo).
  - unfold I; simpl. split; [apply repeat_length|]. split; [unfold extends; auto|].
    intros i n o _ Eo. apply nth_error_In, repeat_spec in Eo. subst o. tauto.
  - intros done d [refs cn1] st' (L & X & K) Hs. cbn [fst snd] in *.
    assert (NMeq : forall idx i, slookup (name_map pnames) (def_name d) = Some idx ->
        nth_error pnames i = Some (def_name d) -> i = Z.to_nat idx).
    { intros idx i Hi Ei. apply name_map_ok in Hi as [I0 Hi]; auto.
      apply (proj1 (NoDup_nth_error pnames) Hn); [apply nth_error_Some; congruence|congruence]. }
    assert (Keep : (forall i o, nth_error pnames i = Some (def_name d) -> nth_error refs i = Some o -> o <> None) ->
                   I (done ++ [d]) (refs, cn1)).
    { intros Ho. unfold I; cbn [fst snd]. split; auto. split; auto. intros i n o En Eo. specialize (K i n o En Eo).
      destruct o as [p|].
      - destruct K as (d0 & F & G). exists d0. split; auto. apply first_definition_snoc. auto.
      - rewrite map_app, in_app_iff. simpl. intros [Hi|[<-|[]]]; [auto|]. apply (Ho i None En Eo). auto. }
    assert (Set_ : forall idx p cn2, slookup (name_map pnames) (def_name d) = Some idx ->
        nth_error refs (Z.to_nat idx) = Some None ->
        gives cn d p -> extends cn cn2 -> I (done ++ [d]) (upd refs (Z.to_nat idx) (Some p), cn2)).
    { intros idx p cn2 Hi Es G X2. unfold I; cbn [fst snd]. rewrite upd_length. split; auto. split; auto.
      intros i n o En Eo.
      pose proof (proj1 (name_map_ok pnames (def_name d) idx Hn) Hi) as [I0 Enm].
      assert (Lx : Z.to_nat idx < List.length refs) by (apply nth_error_Some; congruence).
      destruct (Nat.eq_dec (Z.to_nat idx) i) as [<-|Ne].
      - rewrite nth_error_upd_eq in Eo by auto. injection Eo as <-. exists d. split; auto.
        assert (n = def_name d) by congruence. subst n. apply first_definition_snoc. right. repeat (split; auto).
        apply (K _ _ _ Enm Es).
      - rewrite nth_error_upd_ne in Eo by auto. specialize (K i n o En Eo). destruct o as [p0|].
        + destruct K as (d0 & F & G0). exists d0. split; auto. apply first_definition_snoc. auto.
        + rewrite map_app, in_app_iff. simpl. intros [Hi'|[<-|[]]]; [auto|].
          apply Ne. symmetry. apply (NMeq idx i Hi En). }
    assert (Skip : slookup (name_map pnames) (def_name d) = None -> I (done ++ [d]) (refs, cn1)).
    { intros Hi. apply Keep. intros i o En _. exfalso.
      assert (Hi' : named pnames (Z.of_nat i) (def_name d)) by (split; [lia|rewrite Nat2Z.id; auto]).
      apply name_map_ok in Hi'; auto. congruence. }
    assert (Full : forall idx p, slookup (name_map pnames) (def_name d) = Some idx ->
        nth_error refs (Z.to_nat idx) = Some (Some p) -> I (done ++ [d]) (refs, cn1)).
    { intros idx p Hi Es. apply Keep. intros i o En Eo. rewrite (NMeq idx i Hi En) in Eo. congruence. }
    destruct d as [r|[nm b]]; unfold apply_definition, read_port_rec, apply_source in Hs; cbn [def_name fst snd] in *.
    + destruct (slookup (name_map pnames) (rec_name r)) as [idx|] eqn:Es; [|injection Hs as <-; auto].
      apply obind_ok in Hs as (slot & El & Hs). apply zread_ok in El as [I0 El].
      destruct slot as [p|]; [injection Hs as <-; eapply Full; eauto|].
      apply obind_ok in Hs as ((p, cn2) & Ep & Hs). injection Hs as <-.
      destruct (port_of_rec_gives cn1 cn r p cn2 X Ep) as [G X2].
      apply Set_; auto. unfold extends in *; auto.
    + destruct (slookup (name_map pnames) nm) as [idx|] eqn:Es; [|injection Hs as <-; auto].
      apply obind_ok in Hs as (slot & El & Hs). apply zread_ok in El as [I0 El].
      destruct slot as [p|]; [injection Hs as <-; eapply Full; eauto|].
      apply obind_ok in Hs as (p & Ep & Hs). injection Hs as <-.
      apply Set_; auto.
Qed.
