(** Proofs about building a reference port from two component meshes. *)
From Coq Require Import ZArith QArith Qabs Lqa List Bool Lia Permutation Sorted FinFun.
From Verif Require Import Outcome ListLemmas TopoModel TopoSpec TopoProofs CompModel CompSpec CompProofs CompPortProofs.
Import ListNotations.
Local Open Scope nat_scope.
Local Open Scope list_scope.

(** ** Sorting *)

Lemma zinsort_perm a l : Permutation (zinsort a l) (a :: l).
Proof.
  induction l as [|b l IH]; simpl; auto. destruct (a <=? b)%Z; auto.
  rewrite IH. apply perm_swap.
Qed.

Lemma zsort_perm l : Permutation (zsort l) l.
Proof. induction l as [|a l IH]; simpl; auto. rewrite zinsort_perm, IH. auto. Qed.

Lemma zinsort_sorted a l : StronglySorted Z.le l -> StronglySorted Z.le (zinsort a l).
Proof.
  induction 1 as [|b l H IH F]; simpl; [repeat constructor|].
  destruct (Z.leb_spec a b).
  - constructor; [constructor; auto|]. constructor; auto. eapply Forall_impl; [|exact F]. simpl; intros; lia.
  - constructor; auto. eapply Permutation_Forall; [apply Permutation_sym, zinsort_perm|]. constructor; auto. lia.
Qed.

Lemma zsort_sorted l : StronglySorted Z.le (zsort l).
Proof. induction l; simpl; [constructor|apply zinsort_sorted; auto]. Qed.

Lemma sorted_unique l l' : StronglySorted Z.le l -> StronglySorted Z.le l' -> Permutation l l' -> l = l'.
Proof.
  revert l'; induction l as [|a l IH]; intros l' S S' P.
  - apply Permutation_nil in P. auto.
  - destruct l' as [|b l']; [apply Permutation_sym, Permutation_nil in P; discriminate|].
    inversion S as [|? ? S1 F1]; inversion S' as [|? ? S2 F2]; subst.
    assert (a = b).
    { assert (Ha : In a (b :: l')) by (eapply Permutation_in; [exact P|simpl; auto]).
      assert (Hb : In b (a :: l)) by (eapply Permutation_in; [apply Permutation_sym, P|simpl; auto]).
      rewrite Forall_forall in F1, F2. destruct Ha as [->|Ha]; auto. destruct Hb as [->|Hb]; auto.
      apply F2 in Ha. apply F1 in Hb. lia. }
    subst b. f_equal. apply IH; auto. eapply Permutation_cons_inv; eauto.
Qed.

Lemma zsort_eq l l' : zsort l = zsort l' <-> Permutation l l'.
Proof.
  split.
  - intros E. rewrite <- (zsort_perm l), E. apply zsort_perm.
  - intros P. apply sorted_unique; try apply zsort_sorted. rewrite !zsort_perm. auto.
Qed.

(** ** Closeness *)

Lemma Qltb_lt a b : Qltb a b = true <-> (a < b)%Q.
Proof.
  unfold Qltb. rewrite negb_true_iff. split.
  - intros H. apply Qnot_le_lt. intros L. apply Qle_bool_iff in L. congruence.
  - intros H. destruct (Qle_bool b a) eqn:E; auto. apply Qle_bool_iff in E. lra.
Qed.

Lemma gap_below_iff x1 x2 thr n : forall d,
  gap_below x1 x2 thr d n true = true <-> forall k, d <= k < d + n -> (Qabs (x1 k - x2 k) < thr)%Q.
Proof.
  induction n as [|n IH]; intros d; cbn [gap_below].
  - split; auto. intros _ k Hk. lia.
  - destruct (Qltb (Qabs (x1 d - x2 d)) thr) eqn:E.
    + apply Qltb_lt in E. rewrite IH. split; intros H k Hk.
      * destruct (Nat.eq_dec k d) as [->|]; auto. apply H. lia.
      * apply H. lia.
    + split; [discriminate|]. intros H. specialize (H d ltac:(lia)). apply Qltb_lt in H. congruence.
Qed.

Lemma vertices_match_iff dim thr x1 x2 : vertices_match dim thr x1 x2 = true <-> within dim thr x1 x2.
Proof.
  unfold vertices_match, within. rewrite gap_below_iff. split; intros H d Hd; apply H; lia.
Qed.

Lemma within_apart dim thr p q r : within dim thr p r -> within dim thr q r -> ~ apart dim (2 * thr) p q.
Proof.
  intros H1 H2 (d & Hd & A). specialize (H1 d Hd). specialize (H2 d Hd).
  assert ((p d - q d == (p d - r d) + (r d - q d))%Q) as E by ring.
  assert (T : (Qabs (p d - q d) <= Qabs (p d - r d) + Qabs (r d - q d))%Q)
    by (rewrite E; apply Qabs_triangle).
  rewrite (Qabs_Qminus (r d)) in T. lra.
Qed.

(** ** Elements and vertices of a port *)

Lemma elems_with_in l a b : In b (elems_with l a) <-> elem_with l a b.
Proof.
  unfold elems_with, elem_with. rewrite filter_In, in_seq. split.
  - intros [Hb E]. apply Z.eqb_eq in E. exists (nth b l (BElem 0 [])). split; auto.
    apply nth_error_nth'. lia.
  - intros (e & E & Ha). assert (b < List.length l) by (apply nth_error_Some; congruence).
    split; [lia|]. apply Z.eqb_eq. rewrite (nth_error_nth _ _ (BElem 0 []) E). auto.
Qed.

Lemma elems_with_nodup l a : NoDup (elems_with l a).
Proof. apply NoDup_filter, seq_NoDup. Qed.

Lemma elems_with_length l a : List.length (elems_with l a) = List.length (filter (fun e => Z.eqb (e_attr e) a) l).
Proof.
  unfold elems_with.
  assert (K : forall (pre : list belem), List.length (filter (fun b => Z.eqb (e_attr (nth b (pre ++ l) (BElem 0 []))) a)
     (seq (List.length pre) (List.length l))) = List.length (filter (fun e => Z.eqb (e_attr e) a) l)); [|apply (K [])].
  induction l as [|e l IH]; intros pre; simpl; auto.
  rewrite app_nth2, Nat.sub_diag by auto. simpl.
  specialize (IH (pre ++ [e])). rewrite <- app_assoc, app_length in IH. simpl in IH. rewrite Nat.add_1_r in IH.
  destruct (Z.eqb (e_attr e) a); simpl; rewrite IH; auto.
Qed.

Lemma collect_in l a v : In v (collect_vertices l (elems_with l a)) <-> port_vertex l a v.
Proof.
  unfold collect_vertices. change (fold_left _ ?x []) with (update_attributes x).
  rewrite (proj2 (proj2 (update_attributes_complete _))). rewrite in_flat_map. unfold port_vertex, vtx_of. split.
  - intros (b & Hb & Hv). apply elems_with_in in Hb as (e & E & Ha).
    rewrite (nth_error_nth _ _ (BElem 0 []) E) in Hv. exists e. split; [eapply nth_error_In; eauto|auto].
  - intros (e & He & Ha & Hv). apply In_nth_error in He as (b & E). exists b. split.
    + apply elems_with_in. exists e. auto.
    + rewrite (nth_error_nth _ _ (BElem 0 []) E). auto.
Qed.

Lemma collect_nodup l bs : NoDup (collect_vertices l bs).
Proof.
  unfold collect_vertices. change (fold_left _ ?x []) with (update_attributes x).
  apply update_attributes_complete.
Qed.

(** ** Matching vertices *)

Lemma find_partner_some close m vtx2 v : find_partner close m vtx2 = Some v ->
  In v vtx2 /\ zlookup m v = None /\ close v = true.
Proof.
  induction vtx2 as [|u t IH]; simpl; [discriminate|].
  destruct (zlookup m u) eqn:E; [intros H; apply IH in H; tauto|].
  destruct (close u) eqn:C; [intros [= <-]; auto|intros H; apply IH in H; tauto].
Qed.

Lemma find_partner_none close m vtx2 : find_partner close m vtx2 = None ->
  forall v, In v vtx2 -> zlookup m v = None -> close v = false.
Proof.
  induction vtx2 as [|u t IH]; simpl; [tauto|].
  destruct (zlookup m u) eqn:E.
  - intros H v [<-|Hv] Z; [congruence|auto].
  - destruct (close u) eqn:C; [discriminate|]. intros H v [<-|Hv] Z; auto.
Qed.

Lemma NoDup_snoc_Z (l : list Z) x : NoDup (l ++ [x]) <-> NoDup l /\ ~ In x l.
Proof.
  split.
  - intros H. apply NoDup_remove in H. rewrite app_nil_r in H. auto.
  - intros [H1 H2]. apply (Permutation_NoDup (l := x :: l)); [apply Permutation_cons_append|constructor; auto].
Qed.

Lemma matching_ok dim thr x1 x2 vtx1 vtx2 m : List.length vtx1 = List.length vtx2 -> NoDup vtx2 ->
  ofold (match_vertex dim thr x1 x2 vtx2) vtx1 [] = Ok m ->
  map snd m = vtx1 /\ NoDup (map fst m) /\ (forall v, In v (map fst m) <-> In v vtx2) /\
  (forall v w, In (v, w) m -> within dim thr (x1 w) (x2 v)).
Proof.
  intros L N E.
  pose (I := fun (done : list Z) (m : list (Z * Z)) =>
    map snd m = done /\ NoDup (map fst m) /\ incl (map fst m) vtx2 /\
    (forall v w, In (v, w) m -> within dim thr (x1 w) (x2 v))).
  apply (ofold_inv_ok _ I) in E.
  - destruct E as (A & B & C & D). split; auto. split; auto. split; auto.
    intros v; split; [apply C|]. apply NoDup_length_incl; auto.
    rewrite map_length. rewrite <- L, <- A, map_length. auto.
  - unfold I; simpl. repeat split; [constructor|intros v []|tauto].
  - intros done w m0 m1 (A & B & C & D) H. unfold match_vertex in H.
    destruct (find_partner _ m0 vtx2) as [v|] eqn:F; [|discriminate]. injection H as <-.
    apply find_partner_some in F as (F1 & F2 & F3). apply vertices_match_iff in F3.
    rewrite zinsert_fresh by auto. unfold I. rewrite !map_app. simpl. rewrite A. split; auto. split; [|split].
    + apply NoDup_snoc_Z. split; auto. apply zlookup_none; auto.
    + intros u Hu. apply in_app_iff in Hu as [Hu|[<-|[]]]; auto.
    + intros v' w' Hi. apply in_app_iff in Hi as [Hi|[[= <- <-]|[]]]; auto.
Qed.

Lemma find_elem_some l1 be1 s b : find_elem l1 be1 s = Ok (Some b) -> In b be1 /\ zsort (vtx_of l1 b) = s.
Proof.
  induction be1 as [|c t IH]; simpl; [discriminate|]. intros H. apply oassert_ok in H as [_ H].
  unfold zlist_eqb in H. destruct (list_eq_dec Z.eq_dec (zsort (vtx_of l1 c)) s).
  - injection H as <-. auto.
  - apply IH in H. tauto.
Qed.

Lemma pair_elem_ok l1 l2 be1 m b2 p : pair_elem l1 l2 be1 m b2 = Ok p ->
  exists b1 ws, p = (Z.of_nat b1, Z.of_nat b2) /\ In b1 be1 /\
  Forall2 (fun v w => zlookup m v = Some w) (vtx_of l2 b2) ws /\ Permutation ws (vtx_of l1 b1).
Proof.
  unfold pair_elem. intros H. apply obind_ok in H as (ws & E & H). apply obind_ok in H as (r & Er & H).
  destruct r as [b1|]; [|discriminate]. injection H as <-. apply find_elem_some in Er as [H1 H2].
  exists b1, ws. split; auto. split; auto. split.
  - apply omap_ok in E. eapply Forall2_weaken; [|exact E]. simpl. intros v w.
    destruct (zlookup m v); congruence.
  - apply Permutation_sym, zsort_eq. auto.
Qed.

Lemma map_snd_pairs (R : Z * Z -> nat -> Prop) (l : list nat) (r : list (Z * Z)) :
  Forall2 (fun b p => exists b1, p = (Z.of_nat b1, Z.of_nat b)) l r -> map snd r = map Z.of_nat l.
Proof. induction 1 as [|b p l r (b1 & ->) H IH]; simpl; congruence. Qed.

Lemma NoDup_snd_fun (m : list (Z * Z)) v v' w : NoDup (map snd m) -> In (v, w) m -> In (v', w) m -> v = v'.
Proof.
  induction m as [|[a b] m IH]; simpl; [tauto|]. intros N. inversion N as [|? ? N1 N2]; subst.
  intros [E|E] [E'|E']; auto.
  - congruence.
  - exfalso. apply N1. apply in_map_iff. exists (v', w). split; auto. simpl. congruence.
  - exfalso. apply N1. apply in_map_iff. exists (v, w). split; auto. simpl. congruence.
Qed.

Lemma Forall2_fun_inj (m : list (Z * Z)) l1 l2 ws1 ws2 : NoDup (map fst m) -> NoDup (map snd m) ->
  Forall2 (fun v w => zlookup m v = Some w) l1 ws1 -> Forall2 (fun v w => zlookup m v = Some w) l2 ws2 ->
  Permutation ws1 ws2 -> Permutation l1 l2.
Proof.
  intros N1 N2 F1 F2 P.
  pose (g := fun w => match find (fun p => Z.eqb (snd p) w) m with Some p => fst p | None => 0%Z end).
  assert (G : forall v w, zlookup m v = Some w -> g w = v).
  { intros v w H. apply zlookup_in in H. unfold g.
    destruct (find (fun p => Z.eqb (snd p) w) m) as [p|] eqn:E.
    - apply find_some in E as [E1 E2]. apply Z.eqb_eq in E2.
      destruct p as [v' w']. simpl in E2 |- *. subst w'. eapply NoDup_snd_fun; eauto.
    - eapply find_none in E; [|exact H]. simpl in E. rewrite Z.eqb_refl in E. discriminate. }
  assert (K : forall l ws, Forall2 (fun v w => zlookup m v = Some w) l ws -> map g ws = l).
  { clear -G. induction 1; simpl; auto. f_equal; auto. }
  rewrite <- (K _ _ F1), <- (K _ _ F2). apply Permutation_map; auto.
Qed.

Lemma build_port_sound dim thr c1 c2 a1 a2 l1 l2 x1 x2 pd :
  build_port dim thr c1 c2 a1 a2 l1 l2 x1 x2 = Ok pd ->
  pd_comp1 pd = c1 /\ pd_comp2 pd = c2 /\ pd_attr1 pd = a1 /\ pd_attr2 pd = a2 /\
  (forall v, port_vertex l2 a2 v <-> exists w, zlookup (pd_vtx pd) v = Some w) /\
  (forall w, port_vertex l1 a1 w <-> exists v, zlookup (pd_vtx pd) v = Some w) /\
  (forall v w, zlookup (pd_vtx pd) v = Some w -> within dim thr (x1 w) (x2 v)) /\
  (forall v v' w, zlookup (pd_vtx pd) v = Some w -> zlookup (pd_vtx pd) v' = Some w -> v = v') /\
  NoDup (map snd (pd_be pd)) /\
  (forall b, elem_with l2 a2 b <-> In (Z.of_nat b) (map snd (pd_be pd))) /\
  (forall p, In p (pd_be pd) -> exists b1 b2 e1 e2 ws, p = (Z.of_nat b1, Z.of_nat b2) /\
     nth_error l1 b1 = Some e1 /\ e_attr e1 = a1 /\ nth_error l2 b2 = Some e2 /\ e_attr e2 = a2 /\
     Forall2 (fun v w => zlookup (pd_vtx pd) v = Some w) (e_vtx e2) ws /\ Permutation ws (e_vtx e1)) /\
  ((forall b b' e e', nth_error l2 b = Some e -> nth_error l2 b' = Some e' -> e_attr e = a2 -> e_attr e' = a2 ->
      Permutation (e_vtx e) (e_vtx e') -> b = b') ->
   NoDup (map fst (pd_be pd)) /\ (forall b, elem_with l1 a1 b <-> In (Z.of_nat b) (map fst (pd_be pd)))).
Proof.
  intros H. unfold build_port in H.
  apply oassert_ok in H as [_ H]. apply oassert_ok in H as [_ H]. apply oassert_ok in H as [Lb H].
  apply oassert_ok in H as [Lv H]. apply obind_ok in H as (m & Em & H). apply obind_ok in H as (pairs & Ep & H).
  injection H as <-. apply Nat.eqb_eq in Lb, Lv. cbn [pd_comp1 pd_comp2 pd_attr1 pd_attr2 pd_vtx pd_be].
  apply matching_ok in Em as (M1 & M2 & M3 & M4); [|auto|apply collect_nodup].
  assert (N1 : NoDup (map snd m)) by (rewrite M1; apply collect_nodup).
  apply omap_ok in Ep.
  assert (Es : map snd pairs = map Z.of_nat (elems_with l2 a2)).
  { apply (map_snd_pairs (fun _ _ => True)). eapply Forall2_weaken; [|exact Ep]. simpl. intros b p Hp.
    apply pair_elem_ok in Hp as (b1 & ws & -> & _). eauto. }
  assert (Pe : forall p, In p pairs -> exists b1 b2 e1 e2 ws, p = (Z.of_nat b1, Z.of_nat b2) /\
     nth_error l1 b1 = Some e1 /\ e_attr e1 = a1 /\ nth_error l2 b2 = Some e2 /\ e_attr e2 = a2 /\
     Forall2 (fun v w => zlookup m v = Some w) (e_vtx e2) ws /\ Permutation ws (e_vtx e1)).
  { intros p Hp. apply In_nth_error in Hp as (n & Hn). apply Forall2_nth_error in Ep as [Lp Ep].
    destruct (nth_error (elems_with l2 a2) n) as [b2|] eqn:Eb.
    2:{ apply nth_error_None in Eb. assert (n < List.length pairs) by (apply nth_error_Some; congruence). lia. }
    specialize (Ep _ _ _ Eb Hn). apply pair_elem_ok in Ep as (b1 & ws & -> & H1 & H2 & H3).
    apply nth_error_In, elems_with_in in Eb as (e2 & E2 & A2). apply elems_with_in in H1 as (e1 & E1 & A1).
    exists b1, b2, e1, e2, ws. repeat (split; auto).
    - unfold vtx_of in H2. rewrite (nth_error_nth _ _ (BElem 0 []) E2) in H2. auto.
    - unfold vtx_of in H3. rewrite (nth_error_nth _ _ (BElem 0 []) E1) in H3. auto. }
  split; auto. split; auto. split; auto. split; auto.
  split; [|split; [|split; [|split; [|split; [|split; [|split; auto]]]]]].
  - intros v. rewrite <- collect_in, <- M3. split.
    + intros Hi. destruct (zlookup m v) eqn:E; eauto. apply zlookup_none in E. contradiction.
    + intros (w & E). apply zlookup_in in E. apply in_map_iff. exists (v, w). auto.
  - intros w. rewrite <- collect_in, <- M1. rewrite in_map_iff. split.
    + intros ([v w'] & <- & Hi). exists v. apply zlookup_nodup; auto.
    + intros (v & E). exists (v, w). split; auto. apply zlookup_in; auto.
  - intros v w E. apply M4, zlookup_in; auto.
  - intros v v' w E E'. apply zlookup_in in E, E'. eapply NoDup_snd_fun; eauto.
  - rewrite Es. apply Injective_map_NoDup; [intros a b Hab; lia|apply elems_with_nodup].
  - intros b. rewrite Es, <- elems_with_in, in_map_iff. split; [eauto|].
    intros (b' & Hb & Hi). replace b with b' by lia. auto.
  - intros Hd. assert (ND : NoDup (map fst pairs)).
    { apply NoDup_nth_error. intros i j Li Eij. rewrite map_length in Li. rewrite !nth_error_map in Eij.
      destruct (nth_error pairs i) as [p|] eqn:Ei; [|apply nth_error_None in Ei; lia].
      destruct (nth_error pairs j) as [q|] eqn:Ej; [|discriminate]. simpl in Eij. injection Eij as Eij.
      destruct (Pe p (nth_error_In _ _ Ei)) as (b1 & b2 & e1 & e2 & ws & -> & P1 & P2 & P3 & P4 & P5 & P6).
      destruct (Pe q (nth_error_In _ _ Ej)) as (b1' & b2' & e1' & e2' & ws' & -> & Q1 & Q2 & Q3 & Q4 & Q5 & Q6).
      simpl in Eij. assert (b1 = b1') by lia. subst b1'. rewrite P1 in Q1. injection Q1 as <-.
      assert (b2 = b2').
      { eapply Hd; eauto. eapply Forall2_fun_inj; eauto. rewrite P6, Q6. auto. }
      subst b2'.
      assert (Ns : NoDup (map snd pairs)) by (rewrite Es; apply Injective_map_NoDup; [intros a b Hab; lia|apply elems_with_nodup]).
      apply (proj1 (NoDup_nth_error _) Ns); [rewrite map_length; auto|].
      rewrite !nth_error_map, Ei, Ej. auto. }
    split; auto. intros b. rewrite <- elems_with_in. split.
    + intros Hb. assert (Hm : In (Z.of_nat b) (map Z.of_nat (elems_with l1 a1))) by (apply in_map; auto).
      revert Hm. apply NoDup_length_incl; auto.
      * rewrite !map_length, Lb. rewrite <- (map_length snd pairs), Es, map_length. auto.
      * intros z Hz. apply in_map_iff in Hz as (p & <- & Hp).
        destruct (Pe p Hp) as (b1 & b2 & e1 & e2 & ws & -> & P1 & P2 & _). simpl. apply in_map.
        apply elems_with_in. exists e1. auto.
    + intros Hi. apply in_map_iff in Hi as (p & Eb & Hp).
      destruct (Pe p Hp) as (b1 & b2 & e1 & e2 & ws & -> & P1 & P2 & _). simpl in Eb.
      replace b with b1 by lia. apply elems_with_in. exists e1. auto.
Qed.

(** ** Success *)

Lemma find_elem_complete l1 be1 s n : (forall b, In b be1 -> List.length (vtx_of l1 b) = n) -> List.length s = n ->
  (exists b, In b be1 /\ zsort (vtx_of l1 b) = s) -> exists b, find_elem l1 be1 s = Ok (Some b).
Proof.
  intros Hn Hs (b & Hb & E). induction be1 as [|c t IH]; simpl; [destruct Hb|].
  rewrite Hs, (Hn c) by (simpl; auto). rewrite Nat.eqb_refl. simpl.
  unfold zlist_eqb. destruct (list_eq_dec Z.eq_dec (zsort (vtx_of l1 c)) s); eauto.
  destruct Hb as [->|Hb]; [contradiction|]. apply IH; auto. intros; apply Hn; simpl; auto.
Qed.

Lemma port_match_builds dim thr c1 c2 a1 a2 l1 l2 x1 x2 f :
  port_match dim thr l1 l2 a1 a2 x1 x2 f ->
  (forall w w', port_vertex l1 a1 w -> port_vertex l1 a1 w' -> w <> w' -> apart dim (2 * thr) (x1 w) (x1 w')) ->
  exists pd, build_port dim thr c1 c2 a1 a2 l1 l2 x1 x2 = Ok pd /\
  (forall w, port_vertex l1 a1 w -> zlookup (pd_vtx pd) (f w) = Some w).
Proof.
  intros ((b0 & e0 & E0 & A0) & Hf & Hinj & Hsurj & (n & Hn1 & Hn2) & Hlen & Hel) Hsep.
  unfold build_port.
  assert (X1 : existsb (fun b => (e_attr b =? a1)%Z) l1 = true).
  { apply existsb_exists. exists e0. split; [eapply nth_error_In; eauto|apply Z.eqb_eq; auto]. }
  rewrite X1. cbn [oassert].
  assert (X2 : existsb (fun b => (e_attr b =? a2)%Z) l2 = true).
  { assert (P : 0 < List.length (filter (fun e => Z.eqb (e_attr e) a2) l2)).
    { rewrite <- Hlen. destruct (filter (fun e => Z.eqb (e_attr e) a1) l1) eqn:F; [|simpl; lia].
      assert (In e0 (filter (fun e => Z.eqb (e_attr e) a1) l1)).
      { apply filter_In. split; [eapply nth_error_In; eauto|apply Z.eqb_eq; auto]. }
      rewrite F in H. destruct H. }
    destruct (filter (fun e => Z.eqb (e_attr e) a2) l2) as [|e t] eqn:F; [simpl in P; lia|].
    assert (He : In e (filter (fun e => Z.eqb (e_attr e) a2) l2)) by (rewrite F; simpl; auto).
    apply filter_In in He. apply existsb_exists. eauto. }
  rewrite X2. cbn [oassert]. rewrite !elems_with_length, Hlen, Nat.eqb_refl. cbn [oassert].
  set (V1 := collect_vertices l1 (elems_with l1 a1)). set (V2 := collect_vertices l2 (elems_with l2 a2)).
  assert (I1 : forall w, In w V1 <-> port_vertex l1 a1 w) by (intros; apply collect_in).
  assert (I2 : forall w, In w V2 <-> port_vertex l2 a2 w) by (intros; apply collect_in).
  assert (N1 : NoDup V1) by apply collect_nodup. assert (N2 : NoDup V2) by apply collect_nodup.
  assert (Nf : NoDup (map f V1)).
  { clearbody V1. clear -N1 I1 Hinj. assert (K : forall l, incl l V1 -> NoDup l -> NoDup (map f l)).
    { induction l as [|a l IH]; intros Hi N; simpl; [constructor|]. inversion N; subst. constructor.
      - intros Hm. apply in_map_iff in Hm as (b & Hb & Hl).
        assert (b = a) by (apply Hinj; auto; apply I1, Hi; simpl; auto). subst b. contradiction.
      - apply IH; auto. intros x Hx. apply Hi; simpl; auto. }
    apply K; auto. intros x; auto. }
  assert (PV : Permutation (map f V1) V2).
  { apply NoDup_Permutation; auto. intros v. rewrite in_map_iff, I2. split.
    - intros (w & <- & Hw). apply I1 in Hw. apply Hf; auto.
    - intros Hv. destruct (Hsurj v Hv) as (w & Hw & <-). exists w. split; auto. apply I1; auto. }
  assert (LV : List.length V1 = List.length V2) by (rewrite <- (Permutation_length PV), map_length; auto).
  rewrite LV, Nat.eqb_refl. cbn [oassert].
  destruct (ofold_inv (match_vertex dim thr x1 x2 V2) (fun done m => m = map (fun w => (f w, w)) done) V1 [])
    as (m & Em & Hm); [reflexivity| |].
  { intros p w q m El ->. unfold match_vertex.
    assert (Hw : In w V1) by (rewrite El; apply in_app_iff; simpl; auto).
    assert (Free : zlookup (map (fun w => (f w, w)) p) (f w) = None).
    { apply zlookup_none. rewrite map_map. simpl. change (map (fun x => f x) p) with (map f p).
      rewrite El, map_app in Nf. simpl in Nf. apply NoDup_remove_2 in Nf. intros Hi. apply Nf. apply in_app_iff; auto. }
    destruct (Hf w) as [Pf Wf]; [apply I1; auto|].
    destruct (find_partner (fun v2 => vertices_match dim thr (x1 w) (x2 v2)) (map (fun w => (f w, w)) p) V2) as [v|] eqn:F.
    - apply find_partner_some in F as (F1 & F2 & F3). apply vertices_match_iff in F3. apply I2 in F1.
      destruct (Hsurj v F1) as (w' & Hw' & <-). destruct (Hf w' Hw') as [_ Wf'].
      assert (w = w').
      { destruct (Z.eq_dec w w') as [|Nw]; auto. exfalso.
        eapply within_apart; [exact F3|exact Wf'|]. apply Hsep; auto. apply I1; auto. }
      subst w'. eexists. split; [reflexivity|]. rewrite zinsert_fresh by auto. rewrite map_app. reflexivity.
    - exfalso. pose proof (find_partner_none _ _ _ F (f w) (proj2 (I2 _) Pf) Free) as K. cbv beta in K.
      rewrite (proj2 (vertices_match_iff _ _ _ _) Wf) in K. discriminate K. }
  rewrite Em. cbn [obind].
  assert (Lk : forall w, In w V1 -> zlookup m (f w) = Some w).
  { intros w Hw. apply zlookup_nodup; [subst m; rewrite map_map; exact Nf|]. subst m. apply in_map_iff. eauto. }
  destruct (omap_exists (pair_elem l1 l2 (elems_with l1 a1) m) (elems_with l2 a2)) as (pairs & Ep).
  { intros b2 Hb2. apply elems_with_in in Hb2 as (e2 & E2 & A2).
    destruct (Hel e2) as (e1 & H1 & A1 & P); [eapply nth_error_In; eauto|auto|].
    assert (Vin : forall w, In w (e_vtx e1) -> In w V1) by (intros w Hw; apply I1; exists e1; auto).
    unfold pair_elem. unfold vtx_of at 1. rewrite (nth_error_nth _ _ (BElem 0 []) E2).
    assert (Hws : exists ws, omap (fun v => match zlookup m v with Some w => Ok w | None => Abort end) (e_vtx e2) = Ok ws).
    { apply omap_exists. intros v Hv. apply Permutation_sym in P.
      apply (Permutation_in _ P) in Hv. apply in_map_iff in Hv as (w & <- & Hw). rewrite Lk; eauto. }
    destruct Hws as (ws & Ews). rewrite Ews. cbn [obind].
    apply omap_ok in Ews.
    pose (g := fun v => match zlookup m v with Some w => w | None => 0%Z end).
    assert (Gw : ws = map g (e_vtx e2)).
    { clear -Ews. unfold g. induction Ews as [|v w l ws H E IH]; simpl; auto.
      destruct (zlookup m v); [injection H as ->|discriminate]. congruence. }
    assert (Gf : map g (map f (e_vtx e1)) = e_vtx e1).
    { rewrite map_map. rewrite <- (map_id (e_vtx e1)) at 2. apply map_ext_in. intros w Hw.
      unfold g. rewrite Lk; auto. }
    assert (Pw : Permutation ws (e_vtx e1)).
    { rewrite <- Gf, Gw. apply Permutation_map, Permutation_sym; auto. }
    destruct (find_elem_complete l1 (elems_with l1 a1) (zsort ws) n) as (b & Eb).
    - intros b Hb. apply elems_with_in in Hb as (e & E & A). unfold vtx_of.
      rewrite (nth_error_nth _ _ (BElem 0 []) E). apply Hn1; auto. eapply nth_error_In; eauto.
    - rewrite (Permutation_length (zsort_perm ws)), (Permutation_length Pw). apply Hn1; auto.
    - apply In_nth_error in H1 as (b1 & E1). exists b1. split; [apply elems_with_in; exists e1; auto|].
      unfold vtx_of. rewrite (nth_error_nth _ _ (BElem 0 []) E1). apply zsort_eq, Permutation_sym; auto.
    - rewrite Eb. simpl. eauto. }
  rewrite Ep. cbn [obind]. eexists. split; [reflexivity|]. cbn [pd_vtx]. intros w Hw. apply Lk, I1; auto.
Qed.
