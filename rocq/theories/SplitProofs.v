(** Proofs about the faces of a mesh and of its submeshes. *)
From Coq Require Import ZArith List Bool Lia Reals String Sorting.Sorted.
From Verif Require Import Outcome TopoModel TopoProofs LaBase SplitModel SplitSpec.
Import ListNotations.
Local Open Scope nat_scope.

(** ** Edges *)
Definition rev_edge (p : nat * nat) : nat * nat := (snd p, fst p).

Lemma same_edge_iff p q : same_edge p q = true <-> p = q \/ p = rev_edge q.
Proof.
  destruct p as (a, b), q as (c, d). unfold same_edge, rev_edge. cbn [fst snd]. rewrite orb_true_iff, !andb_true_iff, !Nat.eqb_eq.
  split; intros [H|H]; [destruct H; subst; auto|destruct H; subst; auto|injection H as -> ->; auto|injection H as -> ->; auto].
Qed.

Lemma rev_rev p : rev_edge (rev_edge p) = p. Proof. destruct p; reflexivity. Qed.

Lemma same_refl p : same_edge p p = true. Proof. apply same_edge_iff. auto. Qed.

Lemma same_sym p q : same_edge p q = same_edge q p.
Proof.
  apply eq_true_iff_eq. rewrite !same_edge_iff. split; intros [->| ->]; auto; right; rewrite rev_rev; auto.
Qed.

Lemma same_trans p q r : same_edge p q = true -> same_edge q r = true -> same_edge p r = true.
Proof. rewrite !same_edge_iff. intros [->| ->] [->| ->]; auto. rewrite rev_rev. auto. Qed.

Lemma same_left p q r : same_edge p q = true -> same_edge r p = same_edge r q.
Proof.
  intros H. apply eq_true_iff_eq. split; intros K; [eapply same_trans; eauto|]. eapply same_trans; [exact K|]. rewrite same_sym. exact H.
Qed.

(** ** Faces *)
Notation use := (nat * nat * (nat * nat))%type.
Definition uses (U : list use) (p : nat * nat) : list use := filter (fun u => same_edge (snd u) p) U.

Definition face_of (U : list use) (f : finfo) : Prop :=
  exists l1, fi_inf1 f = inf_encode (Z.of_nat l1) 0 /\
  match fi_el2 f with
  | None => uses U (fi_edge f) = [(fi_el1 f, l1, fi_edge f)]
  | Some (e2, i2) => exists l2 p2, uses U (fi_edge f) = [(fi_el1 f, l1, fi_edge f); (e2, l2, p2)] /\
      i2 = inf_encode (Z.of_nat l2) (if (fst p2 =? snd (fi_edge f)) && (snd p2 =? fst (fi_edge f)) then 1 else 0)
  end.

Record FI (U : list use) (fs : list finfo) : Prop := {
  fi_inj : forall k k' f f', nth_error fs k = Some f -> nth_error fs k' = Some f' -> same_edge (fi_edge f) (fi_edge f') = true -> k = k';
  fi_cov : forall u, In u U -> exists k f, nth_error fs k = Some f /\ same_edge (fi_edge f) (snd u) = true;
  fi_face : forall k f, nth_error fs k = Some f -> face_of U f }.

Lemma find_face_some fs p : forall k, find_face fs p = Some k -> exists f, nth_error fs k = Some f /\ same_edge (fi_edge f) p = true.
Proof.
  induction fs as [|f t IH]; intros k H; cbn [find_face] in H; [discriminate|]. destruct (same_edge (fi_edge f) p) eqn:E.
  - injection H as <-. exists f. auto.
  - destruct (find_face t p) as [k'|] eqn:F; [|discriminate]. injection H as <-. destruct (IH k' eq_refl) as (f' & H1 & H2). exists f'. auto.
Qed.

Lemma find_face_none fs p : find_face fs p = None -> forall k f, nth_error fs k = Some f -> same_edge (fi_edge f) p = false.
Proof.
  induction fs as [|f t IH]; intros H k f' N; cbn [find_face] in H; [destruct k; discriminate|]. destruct (same_edge (fi_edge f) p) eqn:E; [discriminate|].
  destruct (find_face t p) as [k'|] eqn:F; [discriminate|]. destruct k as [|k]; cbn in N; [injection N as <-; auto|]. eapply IH; eauto.
Qed.

Lemma find_face_iff U fs p k : FI U fs -> find_face fs p = Some k <-> exists f, nth_error fs k = Some f /\ same_edge (fi_edge f) p = true.
Proof.
  intros F. split; [apply find_face_some|]. intros (f & H1 & H2). destruct (find_face fs p) as [k'|] eqn:E.
  - destruct (find_face_some _ _ _ E) as (f' & H3 & H4). f_equal. apply (fi_inj _ _ F k' k f' f); auto. eapply same_trans; [exact H4|]. rewrite same_sym. auto.
  - rewrite (find_face_none _ _ E _ _ H1) in H2. discriminate.
Qed.

Lemma uses_snoc U u p : uses (U ++ [u]) p = uses U p ++ (if same_edge (snd u) p then [u] else []).
Proof. unfold uses. rewrite filter_app. cbn [filter]. destruct (same_edge (snd u) p); reflexivity. Qed.

Lemma uses_same U p q : same_edge p q = true -> uses U p = uses U q.
Proof. intros H. unfold uses. apply filter_ext. intros u. apply same_left. auto. Qed.

Lemma add_face_ok U fs u : FI U fs -> List.length (uses (U ++ [u]) (snd u)) <= 2 -> exists fs', add_face fs u = Ok fs' /\ FI (U ++ [u]) fs'.
Proof.
  intros F L. destruct u as ((el, lf), p). cbn [snd] in L. unfold add_face. destruct (find_face fs p) as [k|] eqn:E.
  - destruct (find_face_some _ _ _ E) as (f & Nf & Sf). pose proof Nf as Rf. apply oread_ok in Rf. rewrite Rf. cbn [obind].
    destruct (fi_face _ _ F k f Nf) as (l1 & I1 & Hf). destruct (fi_el2 f) as [(e2, i2)|] eqn:E2.
    { destruct Hf as (l2 & p2 & Hu & _). rewrite uses_snoc in L. cbn [snd] in L. rewrite same_refl, <- (uses_same U _ _ Sf), Hu, app_length in L. cbn in L. lia. }
    set (ori := if (fst p =? snd (fi_edge f)) && (snd p =? fst (fi_edge f)) then 1%Z else 0%Z).
    assert (Lk : k < List.length fs) by (apply nth_error_Some; congruence).
    unfold owrite. rewrite (proj2 (Nat.ltb_lt _ _) Lk). eexists. split; [reflexivity|]. set (f' := FInfo (fi_edge f) (fi_el1 f) (fi_inf1 f) (Some (el, inf_encode (Z.of_nat lf) ori))).
    assert (Nth : forall j g, nth_error (upd fs k f') j = Some g -> exists g0, nth_error fs j = Some g0 /\ fi_edge g = fi_edge g0 /\ (j = k /\ g = f' \/ j <> k /\ g = g0)).
    { intros j g H. destruct (Nat.eq_dec j k) as [->|N].
      - rewrite nth_error_upd_eq in H by auto. injection H as <-. exists f. auto.
      - rewrite nth_error_upd_ne in H by auto. exists g. auto. }
    split.
    + intros j j' g g' H H' S. destruct (Nth _ _ H) as (g0 & H0 & Q & _), (Nth _ _ H') as (g0' & H0' & Q' & _). rewrite Q, Q' in S. eapply (fi_inj _ _ F); eauto.
    + intros v Hv. assert (K : exists j g, nth_error fs j = Some g /\ same_edge (fi_edge g) (snd v) = true).
      { apply in_app_iff in Hv as [Hv|[<-|[]]]; [apply (fi_cov _ _ F); auto|]. exists k, f. auto. }
      destruct K as (j & g & H & S). destruct (Nat.eq_dec j k) as [->|N].
      * exists k, f'. rewrite nth_error_upd_eq by auto. split; auto. cbn. congruence.
      * exists j, g. rewrite nth_error_upd_ne by auto. auto.
    + intros j g H. destruct (Nth _ _ H) as (g0 & H0 & _ & [(-> & ->)|(N & ->)]).
      * exists l1. cbn [fi_inf1 fi_el2 fi_el1 fi_edge f']. split; auto. exists lf, p. rewrite uses_snoc. cbn [snd]. rewrite (same_sym p), Sf, Hf. auto.
      * destruct (fi_face _ _ F j g0 H0) as (l & I & Hg). exists l. split; auto. rewrite uses_snoc. cbn [snd].
        destruct (same_edge p (fi_edge g0)) eqn:S; [|rewrite app_nil_r; auto]. exfalso. apply N. eapply (fi_inj _ _ F); eauto. rewrite same_sym in S. eapply same_trans; [exact S|]. rewrite same_sym. auto.
  - pose proof (find_face_none _ _ E) as Nn. eexists. split; [reflexivity|].
    assert (Nth : forall j g, nth_error (fs ++ [FInfo p el (inf_encode (Z.of_nat lf) 0) None]) j = Some g ->
      nth_error fs j = Some g \/ j = List.length fs /\ g = FInfo p el (inf_encode (Z.of_nat lf) 0) None).
    { intros j g H. destruct (Nat.lt_ge_cases j (List.length fs)); [rewrite nth_error_app1 in H by auto; auto|]. rewrite nth_error_app2 in H by auto.
      destruct (j - List.length fs) as [|d] eqn:D; [|destruct d; discriminate]. right. cbn in H. injection H as <-. split; [lia|auto]. }
    split.
    + intros j j' g g' H H' S. destruct (Nth _ _ H) as [H0|(-> & ->)], (Nth _ _ H') as [H0'|(-> & ->)].
      * eapply (fi_inj _ _ F); eauto.
      * cbn [fi_edge] in S. rewrite (Nn _ _ H0) in S. discriminate.
      * cbn [fi_edge] in S. rewrite same_sym, (Nn _ _ H0') in S. discriminate.
      * reflexivity.
    + intros v Hv. apply in_app_iff in Hv as [Hv|[<-|[]]].
      * destruct (fi_cov _ _ F v Hv) as (j & g & H & S). exists j, g. rewrite nth_error_app1 by (apply nth_error_Some; congruence). auto.
      * eexists _, _. rewrite nth_error_app2, Nat.sub_diag by auto. split; [reflexivity|]. apply same_refl.
    + intros j g H. destruct (Nth _ _ H) as [H0|(-> & ->)].
      * destruct (fi_face _ _ F j g H0) as (l & I & Hg). exists l. split; auto. rewrite uses_snoc. cbn [snd]. rewrite same_sym, (Nn _ _ H0), app_nil_r. auto.
      * exists lf. cbn [fi_inf1 fi_el2 fi_el1 fi_edge]. split; auto. rewrite uses_snoc. cbn [snd]. rewrite same_refl.
        replace (uses U p) with (@nil use); auto. symmetry. unfold uses. destruct (filter _ U) as [|v t] eqn:Q; auto. exfalso.
        assert (Hv : In v (filter (fun u => same_edge (snd u) p) U)) by (rewrite Q; left; auto). apply filter_In in Hv as (Hv & S).
        destruct (fi_cov _ _ F v Hv) as (k & f & H1 & H2). pose proof (Nn _ _ H1) as K. rewrite (same_trans _ _ _ H2 S) in K. discriminate.
Qed.

Lemma FI_nil : FI [] []. Proof. split; [intros k ? ? ? H; destruct k; discriminate|intros u []|intros k ? H; destruct k; discriminate]. Qed.

Lemma uses_prefix U V p : List.length (uses U p) <= List.length (uses (U ++ V) p).
Proof. unfold uses. rewrite filter_app, app_length. lia. Qed.

Lemma faces_ok U : (forall p, List.length (uses U p) <= 2) -> exists fs, ofold add_face U [] = Ok fs /\ FI U fs.
Proof.
  intros L. destruct (ofold_inv add_face (fun pre fs => FI pre fs) U []) as (fs & E & F); [exact FI_nil| |eauto].
  intros pre u post fs EU F. apply add_face_ok; auto. etransitivity; [|apply (L (snd u))]. rewrite EU. replace (pre ++ u :: post) with ((pre ++ [u]) ++ post) by (rewrite <- app_assoc; reflexivity).
  apply uses_prefix.
Qed.

(** ** Sides of elements *)
Lemma side_use els e l a b : In (e, l, (a, b)) (side_uses els) <-> side els e l a b.
Proof.
  unfold side_uses. rewrite in_flat_map. split.
  - intros (e' & He & Hl). apply in_seq in He. apply in_map_iff in Hl as (l' & Q & Hl). apply in_seq in Hl. injection Q as -> -> <- <-.
    exists (nth e els (Elem 0 [])). split; [apply nth_error_nth'; lia|]. split; [apply nth_error_nth'; lia|].
    destruct (Nat.eqb_spec (l + 1) (List.length (el_vert (nth e els (Elem 0 []))))) as [Q|Q]; [right; split; auto; apply nth_error_nth'; lia|left; apply nth_error_nth'; lia].
  - intros (x & Hx & Ha & Hb). exists e. pose proof (nth_error_nth _ _ (Elem 0 []) Hx) as Q. assert (He : e < List.length els) by (apply nth_error_Some; congruence).
    assert (Hl : l < List.length (el_vert x)) by (apply nth_error_Some; congruence).
    split; [apply in_seq; lia|]. rewrite Q. apply in_map_iff. exists l. split; [|apply in_seq; lia]. f_equal. unfold local_edge. f_equal; [apply nth_error_nth; auto|].
    destruct Hb as [Hb|(El & Hb)].
    + destruct (Nat.eqb_spec (l + 1) (List.length (el_vert x))); [|apply nth_error_nth; auto]. assert (l + 1 < List.length (el_vert x)) by (apply nth_error_Some; congruence). lia.
    + rewrite El, Nat.eqb_refl. apply nth_error_nth. auto.
Qed.

Lemma side_fun els e l a b a' b' : side els e l a b -> side els e l a' b' -> a = a' /\ b = b'.
Proof.
  intros (x & H1 & H2 & H3) (x' & H1' & H2' & H3'). assert (x' = x) by congruence. subst x'. split; [congruence|].
  destruct H3 as [H3|(L & H3)], H3' as [H3'|(L' & H3')]; try congruence; exfalso.
  - assert (l + 1 < List.length (el_vert x)) by (apply nth_error_Some; congruence). lia.
  - assert (l + 1 < List.length (el_vert x)) by (apply nth_error_Some; congruence). lia.
Qed.

Lemma NoDup_map_pair {A B} (f : A -> B) l : (forall x y, f x = f y -> x = y) -> NoDup l -> NoDup (map f l).
Proof. intros I N. induction N as [|x l H N IH]; constructor; auto. intros K. apply in_map_iff in K as (y & E & Hy). apply I in E. subst. auto. Qed.

Lemma side_uses_nodup els : NoDup (side_uses els).
Proof.
  unfold side_uses. pose proof (seq_NoDup (List.length els) 0) as N. induction N as [|e t He N IH]; [constructor|]. cbn [flat_map]. set (h := map _ _) at 1.
  assert (Nh : NoDup h) by (apply NoDup_map_pair; [intros x y Q; injection Q; auto|apply seq_NoDup]).
  assert (Dis : forall u, In u h -> ~ In u (flat_map (fun e => let v := el_vert (nth e els (Elem 0 [])) in map (fun l => (e, l, local_edge v l)) (seq 0 (List.length v))) t)).
  { intros u Hu K. apply in_map_iff in Hu as (l & <- & _). apply in_flat_map in K as (e' & He' & K). apply in_map_iff in K as (l' & Q & _). injection Q as -> -> _. auto. }
  clearbody h. revert Nh Dis. induction h as [|u h IHh]; intros Nh Dis; [exact IH|]. inversion Nh; subst. cbn [app]. constructor.
  - intros K. apply in_app_iff in K as [K|K]; [auto|]. apply (Dis u); [left; auto|auto].
  - apply IHh; auto. intros v Hv. apply Dis. right. auto.
Qed.

(** At most two sides on an edge. *)
Definition two_sided (els : list elem) : Prop := forall a b e1 l1 e2 l2 e3 l3, side_on els e1 l1 a b -> side_on els e2 l2 a b -> side_on els e3 l3 a b ->
    (e1, l1) = (e2, l2) \/ (e2, l2) = (e3, l3) \/ (e1, l1) = (e3, l3).

Lemma use_on els e l q p : In (e, l, q) (uses (side_uses els) p) -> side_on els e l (fst p) (snd p).
Proof.
  intros H. apply filter_In in H as (H & S). cbn [snd] in S. destruct q as (a, b). apply side_use in H. apply same_edge_iff in S as [<-|Q]; [left; auto|].
  destruct p as (c, d). unfold rev_edge in Q. cbn in Q. injection Q as -> ->. right. auto.
Qed.

Lemma on_use els e l a b : side_on els e l a b -> exists q, In (e, l, q) (uses (side_uses els) (a, b)).
Proof.
  intros [H|H]; apply side_use in H; eexists; (apply filter_In; split; [exact H|]); apply same_edge_iff; auto.
Qed.

Lemma two_uses els : two_sided els -> forall p, List.length (uses (side_uses els) p) <= 2.
Proof.
  intros T p. assert (N : NoDup (uses (side_uses els) p)) by (apply NoDup_filter, side_uses_nodup).
  assert (K : forall u, In u (uses (side_uses els) p) -> In u (side_uses els)) by (intros u Hu; apply filter_In in Hu; tauto).
  assert (O : forall e l q, In (e, l, q) (uses (side_uses els) p) -> side_on els e l (fst p) (snd p)) by (intros e l q; apply use_on).
  destruct (uses (side_uses els) p) as [|((e1, l1), q1) [|((e2, l2), q2) [|((e3, l3), q3) t]]] eqn:E; cbn; try lia. exfalso.
  assert (J : forall e l q e' l' q', In (e, l, q) (side_uses els) -> In (e', l', q') (side_uses els) -> (e, l) = (e', l') -> (e, l, q) = (e', l', q')).
  { intros e l (a, b) e' l' (a', b') H H' Q. injection Q as <- <-. apply side_use in H, H'. destruct (side_fun _ _ _ _ _ _ _ H H') as (-> & ->). reflexivity. }
  inversion N as [|? ? N1 N']; subst. inversion N' as [|? ? N2 _]; subst. cbn [In] in N1, N2.
  destruct (T _ _ _ _ _ _ _ _ (O e1 l1 q1 ltac:(cbn; auto)) (O e2 l2 q2 ltac:(cbn; auto)) (O e3 l3 q3 ltac:(cbn; auto))) as [Q|[Q|Q]].
  - apply N1. left. symmetry. apply J; auto; apply K; cbn; auto.
  - apply N2. left. symmetry. apply J; auto; apply K; cbn; auto.
  - apply N1. right. left. symmetry. apply J; auto; apply K; cbn; auto.
Qed.

Lemma mesh_faces_ok els : two_sided els -> exists fs, mesh_faces els = Ok fs /\ FI (side_uses els) fs.
Proof. intros T. apply faces_ok, two_uses, T. Qed.

(** Every side lies on a face; what a face knows. *)
Lemma side_face els fs e l a b : FI (side_uses els) fs -> side_on els e l a b -> exists k f, nth_error fs k = Some f /\ same_edge (fi_edge f) (a, b) = true.
Proof.
  intros F H. destruct (on_use _ _ _ _ _ H) as (q & Hq). apply filter_In in Hq as (Hq & S). cbn [snd] in S. destruct (fi_cov _ _ F _ Hq) as (k & f & H1 & H2).
  exists k, f. split; auto. eapply same_trans; eauto.
Qed.

Lemma side_on_same els e l a b c d : same_edge (a, b) (c, d) = true -> side_on els e l a b -> side_on els e l c d.
Proof. intros S H. apply same_edge_iff in S as [Q|Q]; unfold rev_edge in Q; cbn in Q; injection Q as -> ->; [auto|]. destruct H; [right|left]; auto. Qed.

Lemma face_side1 els fs k f : FI (side_uses els) fs -> nth_error fs k = Some f ->
  exists l1, fi_inf1 f = inf_encode (Z.of_nat l1) 0 /\ side els (fi_el1 f) l1 (fst (fi_edge f)) (snd (fi_edge f)).
Proof.
  intros F H. destruct (fi_face _ _ F k f H) as (l1 & I & Hf). exists l1. split; auto.
  assert (K : In (fi_el1 f, l1, fi_edge f) (uses (side_uses els) (fi_edge f))).
  { destruct (fi_el2 f) as [(e2, i2)|]; [destruct Hf as (l2 & p2 & -> & _)|rewrite Hf]; left; auto. }
  apply filter_In in K as (K & _). apply side_use. rewrite <- surjective_pairing. auto.
Qed.

(** A face with one element: the only side on the edge. *)
Lemma face_single els fs k f e l : FI (side_uses els) fs -> nth_error fs k = Some f -> fi_el2 f = None ->
  side_on els e l (fst (fi_edge f)) (snd (fi_edge f)) -> e = fi_el1 f /\ fi_inf1 f = inf_encode (Z.of_nat l) 0.
Proof.
  intros F H N S. destruct (fi_face _ _ F k f H) as (l1 & I & Hf). rewrite N in Hf. destruct (on_use _ _ _ _ _ S) as (q & Hq). rewrite <- surjective_pairing, Hf in Hq.
  destruct Hq as [Q|[]]. injection Q as <- <- _. auto.
Qed.

(** A face with two elements. *)
Lemma face_double els fs k f e2 i2 : FI (side_uses els) fs -> nth_error fs k = Some f -> fi_el2 f = Some (e2, i2) ->
  exists l1 l2, (fi_el1 f, l1) <> (e2, l2) /\ fi_inf1 f = inf_encode (Z.of_nat l1) 0 /\
    side els (fi_el1 f) l1 (fst (fi_edge f)) (snd (fi_edge f)) /\
    ((side els e2 l2 (snd (fi_edge f)) (fst (fi_edge f)) /\ i2 = inf_encode (Z.of_nat l2) 1) \/
     (side els e2 l2 (fst (fi_edge f)) (snd (fi_edge f)) /\ fst (fi_edge f) <> snd (fi_edge f) /\ i2 = inf_encode (Z.of_nat l2) 0)).
Proof.
  intros F H N. destruct (face_side1 _ _ _ _ F H) as (l1 & I & S1). destruct (fi_face _ _ F k f H) as (l1' & I' & Hf). rewrite N in Hf. destruct Hf as (l2 & p2 & Hu & E2).
  assert (l1' = l1) by (rewrite I in I'; unfold inf_encode in I'; lia). subst l1'.
  assert (K2 : In (e2, l2, p2) (uses (side_uses els) (fi_edge f))) by (rewrite Hu; right; left; auto). apply filter_In in K2 as (K2 & S). cbn [snd] in S.
  exists l1, l2. split; [|split; [exact I|split; [exact S1|]]].
  - intros Q. injection Q as Q1 Q2. assert (Nd : NoDup (uses (side_uses els) (fi_edge f))) by (apply NoDup_filter, side_uses_nodup). rewrite Hu in Nd. inversion Nd as [|? ? Na _]; subst. apply Na. left.
    destruct p2 as (a, b). apply side_use in K2. destruct (side_fun _ _ _ _ _ _ _ S1 K2) as (Qa & Qb). rewrite (surjective_pairing (fi_edge f)), Qa, Qb. reflexivity.
  - apply same_edge_iff in S. destruct p2 as (a, b). cbn [fst snd] in *. apply side_use in K2. destruct ((a =? snd (fi_edge f)) && (b =? fst (fi_edge f))) eqn:B.
    + apply andb_true_iff in B as (Ba & Bb). apply Nat.eqb_eq in Ba, Bb. subst a b. left. auto.
    + destruct S as [Q|Q].
      * right. rewrite <- Q in *. cbn [fst snd] in *. split; auto. split; auto. intros ->. rewrite !Nat.eqb_refl in B. discriminate.
      * exfalso. unfold rev_edge in Q. injection Q as -> ->. rewrite !Nat.eqb_refl in B. discriminate.
Qed.

(** Two different sides on an edge: the face has two elements, which are these. *)
Lemma face_two els fs k f e l e' l' : FI (side_uses els) fs -> nth_error fs k = Some f -> (e, l) <> (e', l') ->
  side_on els e l (fst (fi_edge f)) (snd (fi_edge f)) -> side_on els e' l' (fst (fi_edge f)) (snd (fi_edge f)) ->
  exists e2 i2, fi_el2 f = Some (e2, i2) /\ (e = fi_el1 f /\ e' = e2 \/ e = e2 /\ e' = fi_el1 f).
Proof.
  intros F H N S S'. destruct (fi_face _ _ F k f H) as (l1 & I & Hf). destruct (on_use _ _ _ _ _ S) as (q & Hq), (on_use _ _ _ _ _ S') as (q' & Hq').
  rewrite <- surjective_pairing in Hq, Hq'. destruct (fi_el2 f) as [(e2, i2)|].
  - exists e2, i2. split; auto. destruct Hf as (l2 & p2 & Hu & _). rewrite Hu in Hq, Hq'. destruct Hq as [Q|[Q|[]]], Hq' as [Q'|[Q'|[]]]; injection Q as Qa Qb _; injection Q' as Qa' Qb' _; subst; auto; exfalso; apply N; auto.
  - exfalso. rewrite Hf in Hq, Hq'. destruct Hq as [Q|[]], Hq' as [Q'|[]]. apply N. congruence.
Qed.

(** ** Submeshes *)
Lemma NoDup_app_snoc {A} (l : list A) a : NoDup l -> ~ In a l -> NoDup (l ++ [a]).
Proof. intros N H. apply NoDup_rev in N. rewrite <- (rev_involutive (l ++ [a])). apply NoDup_rev. rewrite rev_app_distr. constructor; auto. rewrite <- in_rev. auto. Qed.

Lemma uniq_spec l : NoDup (uniq l) /\ forall x, In x (uniq l) <-> In x l.
Proof.
  unfold uniq. assert (G : forall l acc, NoDup acc -> NoDup (fold_left (fun acc a => if existsb (Nat.eqb a) acc then acc else acc ++ [a]) l acc) /\
    forall x, In x (fold_left (fun acc a => if existsb (Nat.eqb a) acc then acc else acc ++ [a]) l acc) <-> In x acc \/ In x l).
  { clear l. induction l as [|a l IH]; intros acc N; cbn [fold_left In]; [tauto|]. destruct (existsb (Nat.eqb a) acc) eqn:E.
    - destruct (IH acc N) as (H1 & H2). split; auto. intros x. rewrite H2. apply existsb_exists in E as (y & Hy & Q). apply Nat.eqb_eq in Q. subst y. intuition (subst; auto).
    - assert (Na : ~ In a acc). { intros K. rewrite <- not_true_iff_false in E. apply E, existsb_exists. exists a. split; auto. apply Nat.eqb_refl. }
      destruct (IH (acc ++ [a])) as (H1 & H2). { apply NoDup_app_snoc; auto. } split; auto. intros x. rewrite H2, in_app_iff. cbn [In]. tauto. }
  destruct (G l [] (NoDup_nil _)) as (H1 & H2). split; auto. intros x. rewrite H2. cbn. tauto.
Qed.

Lemma vpos_ok vs v : In v vs -> nth_error vs (vpos vs v) = Some v.
Proof.
  induction vs as [|a t IH]; intros H; [destruct H|]. cbn [vpos]. destruct (Nat.eqb_spec a v) as [->|N]; [reflexivity|]. destruct H as [H|H]; [contradiction|]. cbn. auto.
Qed.

Record sub_ok (pm : mesh2) (dom : Z -> Prop) (sm : smesh) : Prop := {
  so_sorted : StronglySorted lt (sm_pel sm);
  so_in : forall e, In e (sm_pel sm) <-> exists z, has_attr (m_elems pm) e z /\ dom z;
  so_len : List.length (sm_elems sm) = List.length (sm_pel sm);
  so_vert : NoDup (sm_vert sm);
  so_el : forall i x, nth_error (sm_elems sm) i = Some x -> exists e px, nth_error (sm_pel sm) i = Some e /\ nth_error (m_elems pm) e = Some px /\
    el_attr x = el_attr px /\ map (nth_error (sm_vert sm)) (el_vert x) = map Some (el_vert px);
  so_fi : FI (side_uses (sm_elems sm)) (sm_faces sm);
  so_bdr : sm_bdr sm = filter (fun k => match option_map fi_el2 (nth_error (sm_faces sm) k) with Some None => true | _ => false end) (seq 0 (List.length (sm_faces sm))) }.

Lemma sorted_seq a n : StronglySorted lt (seq a n).
Proof. revert a. induction n as [|n IH]; intros a; cbn [seq]; constructor; auto. apply Forall_forall. intros x H. apply in_seq in H. lia. Qed.

Lemma sorted_filter (f : nat -> bool) l : StronglySorted lt l -> StronglySorted lt (filter f l).
Proof.
  induction 1 as [|a l S IH F]; cbn [filter]; [constructor|]. destruct (f a); auto. constructor; auto. rewrite Forall_forall in *. intros x H. apply filter_In in H. apply F. tauto.
Qed.

Lemma sorted_nodup l : StronglySorted lt l -> NoDup l.
Proof. induction 1 as [|a l S IH F]; constructor; auto. intros K. rewrite Forall_forall in F. specialize (F _ K). lia. Qed.

Section SubSides.
  Variables (pm : mesh2) (els : list elem) (vs ids : list nat).
  Hypothesis Len : List.length els = List.length ids.
  Hypothesis Nv : NoDup vs.
  Hypothesis Nids : NoDup ids.
  Hypothesis El : forall i x, nth_error els i = Some x -> exists e px, nth_error ids i = Some e /\ nth_error (m_elems pm) e = Some px /\
    el_attr x = el_attr px /\ map (nth_error vs) (el_vert x) = map Some (el_vert px).

  Lemma map_nth_vs (v pv : list nat) : map (nth_error vs) v = map Some pv -> List.length v = List.length pv /\
    (forall l a', nth_error v l = Some a' -> exists a, nth_error pv l = Some a /\ nth_error vs a' = Some a) /\
    (forall l a, nth_error pv l = Some a -> exists a', nth_error v l = Some a' /\ nth_error vs a' = Some a).
  Proof using.
    clear. intros M. split; [rewrite <- (map_length (nth_error vs) v), M, map_length; auto|]. split.
    - intros l a' H. assert (K : nth_error (map (nth_error vs) v) l = Some (nth_error vs a')) by (rewrite nth_error_map, H; reflexivity).
      rewrite M, nth_error_map in K. destruct (nth_error pv l) as [a|]; [|discriminate]. cbn in K. injection K as K. exists a. auto.
    - intros l a H. assert (K : nth_error (map Some pv) l = Some (Some a)) by (rewrite nth_error_map, H; reflexivity).
      rewrite <- M, nth_error_map in K. destruct (nth_error v l) as [a'|]; [|discriminate]. cbn in K. injection K as K. exists a'. auto.
  Qed.

  Lemma sub_side i l a' b' : side els i l a' b' <->
    exists e a b, nth_error ids i = Some e /\ side (m_elems pm) e l a b /\ nth_error vs a' = Some a /\ nth_error vs b' = Some b.
  Proof.
    split.
    - intros (x & Hx & Ha & Hb). destruct (El i x Hx) as (e & px & He & Hp & _ & M). destruct (map_nth_vs _ _ M) as (Lx & F1 & F2).
      destruct (F1 _ _ Ha) as (a & Pa & Va).
      assert (K : exists b, (nth_error (el_vert px) (l + 1) = Some b \/ l + 1 = List.length (el_vert px) /\ nth_error (el_vert px) 0 = Some b) /\ nth_error vs b' = Some b).
      { destruct Hb as [Hb|(Q & Hb)]; destruct (F1 _ _ Hb) as (b & Pb & Vb); exists b; split; auto. right. split; auto. lia. }
      destruct K as (b & Pb & Vb). exists e, a, b. split; auto. split; auto. exists px. auto.
    - intros (e & a & b & He & (px & Hp & Pa & Pb) & Va & Vb). destruct (nth_error els i) as [x|] eqn:Hx.
      2:{ exfalso. apply nth_error_None in Hx. assert (i < List.length ids) by (apply nth_error_Some; congruence). lia. }
      destruct (El i x Hx) as (e' & px' & He' & Hp' & _ & M). assert (e' = e) by congruence. subst e'. assert (px' = px) by congruence. subst px'. destruct (map_nth_vs _ _ M) as (Lx & F1 & F2).
      assert (U : forall c c' w, nth_error vs c = Some w -> nth_error vs c' = Some w -> c = c').
      { intros c c' w H H'. apply (proj1 (NoDup_nth_error vs) Nv); [apply nth_error_Some|]; congruence. }
      exists x. split; auto. split.
      + destruct (F2 _ _ Pa) as (a0 & Q & V). rewrite (U _ _ _ Va V). auto.
      + destruct Pb as [Pb|(Q & Pb)]; destruct (F2 _ _ Pb) as (b0 & Q' & V); rewrite (U _ _ _ Vb V); auto. right. split; auto. lia.
  Qed.

  Lemma sub_side_on i l a' b' : side_on els i l a' b' <->
    exists e a b, nth_error ids i = Some e /\ side_on (m_elems pm) e l a b /\ nth_error vs a' = Some a /\ nth_error vs b' = Some b.
  Proof.
    unfold side_on. rewrite !sub_side. split.
    - intros [(e & a & b & H1 & H2 & H3 & H4)|(e & b & a & H1 & H2 & H3 & H4)]; exists e, a, b; auto.
    - intros (e & a & b & H1 & [H2|H2] & H3 & H4); [left; exists e, a, b; auto|right; exists e, b, a; auto].
  Qed.

  Lemma sub_two : two_sided (m_elems pm) -> two_sided els.
  Proof.
    intros T a b e1 l1 e2 l2 e3 l3 H1 H2 H3. apply sub_side_on in H1 as (p1 & a1 & b1 & I1 & S1 & A1 & B1). apply sub_side_on in H2 as (p2 & a2 & b2 & I2 & S2 & A2 & B2). apply sub_side_on in H3 as (p3 & a3 & b3 & I3 & S3 & A3 & B3).
    assert (a2 = a1) by congruence. assert (a3 = a1) by congruence. assert (b2 = b1) by congruence. assert (b3 = b1) by congruence. subst.
    assert (U : forall c c' w, nth_error ids c = Some w -> nth_error ids c' = Some w -> c = c').
    { intros c c' w H H'. apply (proj1 (NoDup_nth_error ids) Nids); [apply nth_error_Some|]; congruence. }
    destruct (T _ _ _ _ _ _ _ _ S1 S2 S3) as [Q|[Q|Q]]; injection Q as -> ->; [left|right; left|right; right]; f_equal; eapply U; eauto.
  Qed.
End SubSides.

Lemma create_ok pm attrs : mesh_ok pm -> exists sm, create_from_domain pm attrs = Ok sm /\ sub_ok pm (fun z => In z attrs) sm.
Proof.
  intros MO. unfold create_from_domain. set (el := fun i => nth i (m_elems pm) (Elem 0 [])). set (ids := filter _ (seq 0 (List.length (m_elems pm)))).
  set (vs := uniq (flat_map (fun i => el_vert (el i)) ids)). set (els := map _ ids).
  assert (Si : StronglySorted lt ids) by (apply sorted_filter, sorted_seq).
  destruct (uniq_spec (flat_map (fun i => el_vert (el i)) ids)) as (Nv & Iv). fold vs in Nv, Iv.
  assert (Len : List.length els = List.length ids) by (apply map_length).
  assert (El : forall i x, nth_error els i = Some x -> exists e px, nth_error ids i = Some e /\ nth_error (m_elems pm) e = Some px /\ el_attr x = el_attr px /\ map (nth_error vs) (el_vert x) = map Some (el_vert px)).
  { intros i x H. unfold els in H. rewrite nth_error_map in H. destruct (nth_error ids i) as [e|] eqn:He; [|discriminate]. cbn in H. injection H as <-. exists e, (el e).
    pose proof (nth_error_In _ _ He) as Ie. assert (Le : e < List.length (m_elems pm)) by (apply filter_In in Ie as (Ie & _); apply in_seq in Ie; lia).
    split; auto. split; [apply nth_error_nth'; auto|]. split; auto. cbn [el_vert]. rewrite map_map. apply map_ext_in. intros v Hv. apply vpos_ok, Iv, in_flat_map. exists e. auto. }
  pose proof (sub_two pm els vs ids Len Nv (sorted_nodup _ Si) El) as T. destruct (mesh_faces_ok els) as (fs & Ef & F). { apply T. intros a b e1 l1 e2 l2 e3 l3. apply (mo_two pm MO). }
  cbv zeta. rewrite Ef. cbn [obind]. eexists. split; [reflexivity|]. split; cbn [sm_pel sm_elems sm_vert sm_faces sm_bdr]; auto.
  intros e. unfold ids. rewrite filter_In, in_seq. unfold has_attr. split.
  - intros (H & Q). apply existsb_exists in Q as (z & Hz & Q). apply Z.eqb_eq in Q. exists z. split; auto. exists (el e). split; auto. apply nth_error_nth'. lia.
  - intros (z & (x & Hx & Q) & Hz). split; [split; [lia|]; apply nth_error_Some; congruence|]. apply existsb_exists. exists z. split; auto. unfold el. rewrite (nth_error_nth _ _ _ Hx). apply Z.eqb_eq. auto.
Qed.
