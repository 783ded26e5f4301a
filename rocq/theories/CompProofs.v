(** Proofs about component-wise configurations: numbering, boundaries, port attributes, transformations. *)
From Coq Require Import ZArith List Bool String Lia Reals Permutation.
From Verif Require Import Outcome ListLemmas TopoModel TopoSpec TopoProofs CompModel CompSpec.
Import ListNotations.
Local Open Scope nat_scope.
Local Open Scope list_scope.

Lemma zread_ok {A} (l : list A) z a : zread l z = Ok a <-> (0 <= z)%Z /\ nth_error l (Z.to_nat z) = Some a.
Proof.
  unfold zread, oread. destruct (Z.ltb_spec z 0).
  - split; [discriminate|lia].
  - destruct (nth_error l (Z.to_nat z)); split; intros E; try discriminate; try tauto.
    + injection E as ->; auto.
    + destruct E as [_ E]. congruence.
    + destruct E; discriminate.
Qed.

Lemma omap_ok {A B} (f : A -> outcome B) l r : omap f l = Ok r <-> Forall2 (fun a b => f a = Ok b) l r.
Proof.
  revert r; induction l as [|a l IH]; intros r; simpl.
  - split.
    + intros [= <-]. constructor.
    + intros H; inversion H; auto.
  - split.
    + intros H. apply obind_ok in H as (b & E1 & H). apply obind_ok in H as (bs & E2 & [= <-]).
      constructor; auto. apply IH; auto.
    + intros H. inversion H as [|? b ? bs E1 E2]; subst. rewrite E1. simpl.
      apply IH in E2. rewrite E2. reflexivity.
Qed.

Lemma Forall2_nth_error {A B} (R : A -> B -> Prop) l l' : Forall2 R l l' ->
  List.length l = List.length l' /\
  forall i a b, nth_error l i = Some a -> nth_error l' i = Some b -> R a b.
Proof.
  induction 1; simpl; split; auto.
  - intros [|i]; discriminate.
  - lia.
  - intros [|i] a b; simpl.
    + intros [= <-] [= <-]; auto.
    + apply IHForall2.
Qed.

Lemma Forall2_weaken {A B} (P Q : A -> B -> Prop) l l' : (forall a b, P a b -> Q a b) ->
  Forall2 P l l' -> Forall2 Q l l'.
Proof. intros H. induction 1; auto. Qed.

Lemma Forall2_of_nth {A B} (R : A -> B -> Prop) l : forall l', List.length l = List.length l' ->
  (forall i a b, nth_error l i = Some a -> nth_error l' i = Some b -> R a b) -> Forall2 R l l'.
Proof.
  induction l as [|a l IH]; intros [|b l'] L H; simpl in L; try discriminate; constructor.
  - apply (H 0); auto.
  - apply IH; [lia|]. intros i; apply (H (S i)).
Qed.

Lemma omap_exists {A B} (f : A -> outcome B) l : (forall a, In a l -> exists b, f a = Ok b) ->
  exists r, omap f l = Ok r.
Proof.
  induction l as [|a l IH]; intros H; simpl; eauto.
  destruct (H a) as (b & E); [left; auto|]. destruct IH as (r & Er); [intros; apply H; right; auto|].
  rewrite E, Er. simpl. eauto.
Qed.

(** ** Numbering *)

Lemma count_occ_app1 (l : list Z) x t : count_occ Z.eq_dec (l ++ [x]) t =
  count_occ Z.eq_dec l t + (if Z.eq_dec x t then 1 else 0).
Proof. rewrite count_occ_app. simpl. destruct (Z.eq_dec x t); lia. Qed.

Lemma count_run nc types : (forall t, In t types -> (0 <= t < Z.of_nat nc)%Z) ->
  exists idx cnt, count_instances nc types = Ok (idx, cnt) /\
  List.length idx = List.length types /\ List.length cnt = nc /\
  (forall m t, nth_error types m = Some t -> nth_error idx m = Some (occurrences types t m)) /\
  (forall t, t < nc -> nth_error cnt t = Some (count_occ Z.eq_dec types (Z.of_nat t))).
Proof.
  intros Hv. unfold count_instances.
  pose (I := fun (done : list Z) (st : list nat * list nat) =>
    List.length (fst st) = List.length done /\ List.length (snd st) = nc /\
    (forall m t, nth_error done m = Some t -> nth_error (fst st) m = Some (occurrences done t m)) /\
    (forall t, t < nc -> nth_error (snd st) t = Some (count_occ Z.eq_dec done (Z.of_nat t)))).
  destruct (ofold_inv count_step I types ([], repeat 0 nc)) as ([idx cnt] & E & H).
  - unfold I; simpl. split; auto. split; [apply repeat_length|]. split.
    + intros [|m]; discriminate.
    + intros t Ht. rewrite (nth_error_nth' _ 0) by (rewrite repeat_length; auto). rewrite nth_repeat. reflexivity.
  - intros p x q [idx cnt] Hl (L1 & L2 & H1 & H2). simpl in *.
    assert (Hx : (0 <= x < Z.of_nat nc)%Z) by (apply Hv; rewrite Hl; apply in_app_iff; simpl; auto).
    assert (Er : zread cnt x = Ok (count_occ Z.eq_dec p x)).
    { apply zread_ok. split; [lia|]. rewrite (H2 (Z.to_nat x)) by lia. rewrite Z2Nat.id by lia. reflexivity. }
    rewrite Er. simpl. eexists. split; [reflexivity|]. unfold I; simpl.
    split; [rewrite !app_length; simpl; lia|]. split; [rewrite upd_length; auto|]. split.
    + intros m t Hm. apply nth_error_snoc in Hm as [Hm|[-> ->]].
      * assert (Lm : m < List.length p) by (apply nth_error_Some; congruence).
        rewrite nth_error_app1 by lia. rewrite (H1 _ _ Hm). unfold occurrences.
        rewrite firstn_app. replace (m - List.length p) with 0 by lia. simpl. rewrite app_nil_r. auto.
      * rewrite nth_error_app2 by lia. replace (List.length p - List.length idx) with 0 by lia. simpl.
        unfold occurrences. rewrite firstn_app, Nat.sub_diag, firstn_all. simpl. rewrite app_nil_r. auto.
    + intros t Ht. rewrite count_occ_app1.
      destruct (Nat.eq_dec (Z.to_nat x) t) as [Et|Nt].
      * subst t. rewrite nth_error_upd_eq by lia. rewrite Z2Nat.id by lia.
        destruct (Z.eq_dec x x); [|congruence]. reflexivity.
      * rewrite nth_error_upd_ne by auto. rewrite H2 by auto. f_equal.
        destruct (Z.eq_dec x (Z.of_nat t)); lia.
  - exists idx, cnt. split; auto.
Qed.

Lemma count_occ_firstn_lt (l : list Z) t : forall m, nth_error l m = Some t ->
  occurrences l t (S m) = S (occurrences l t m).
Proof.
  unfold occurrences. induction l as [|a l IH]; intros [|m] H; simpl in *; try discriminate.
  - injection H as ->. destruct (Z.eq_dec t t); congruence.
  - rewrite (IH m H). destruct (Z.eq_dec a t); auto.
Qed.

Lemma occurrences_mono l t a b : a <= b -> occurrences l t a <= occurrences l t b.
Proof.
  unfold occurrences. revert a b; induction l as [|x l IH]; intros [|a] [|b] H; simpl; try lia.
  specialize (IH a b). destruct (Z.eq_dec x t); lia.
Qed.

Lemma occurrences_all l t : occurrences l t (List.length l) = count_occ Z.eq_dec l t.
Proof. unfold occurrences. rewrite firstn_all. reflexivity. Qed.

Lemma occurrences_reach l t n : n < count_occ Z.eq_dec l t ->
  exists m, nth_error l m = Some t /\ occurrences l t m = n.
Proof.
  revert n; induction l as [|x l IH]; intros n H; simpl in *; [lia|].
  unfold occurrences. destruct (Z.eq_dec x t) as [->|N].
  - destruct n as [|n].
    + exists 0. auto.
    + destruct (IH n) as (m & Hm & Em); [lia|]. exists (S m). simpl. split; auto.
      destruct (Z.eq_dec t t); [|congruence]. unfold occurrences in Em. lia.
  - destruct (IH n) as (m & Hm & Em); [lia|]. exists (S m). simpl. split; auto.
    destruct (Z.eq_dec x t); [congruence|]. auto.
Qed.

Lemma numbering nc types : (forall t, In t types -> (0 <= t < Z.of_nat nc)%Z) ->
  exists idx cnt, count_instances nc types = Ok (idx, cnt) /\
  List.length idx = List.length types /\ List.length cnt = nc /\
  (forall m t, nth_error types m = Some t -> nth_error idx m = Some (occurrences types t m)) /\
  (forall t, t < nc -> nth_error cnt t = Some (count_occ Z.eq_dec types (Z.of_nat t))) /\
  (forall m m' t i, nth_error types m = Some t -> nth_error types m' = Some t ->
     nth_error idx m = Some i -> nth_error idx m' = Some i -> m = m') /\
  (forall t n c, nth_error cnt t = Some c ->
     (n < c <-> exists m, nth_error types m = Some (Z.of_nat t) /\ nth_error idx m = Some n)).
Proof.
  intros Hv. destruct (count_run nc types Hv) as (idx & cnt & E & L1 & L2 & H1 & H2).
  exists idx, cnt. repeat (split; auto).
  - intros m m' t i Tm Tm' Im Im'. rewrite (H1 _ _ Tm) in Im. rewrite (H1 _ _ Tm') in Im'.
    pose proof (count_occ_firstn_lt _ _ _ Tm). pose proof (count_occ_firstn_lt _ _ _ Tm').
    destruct (Nat.lt_trichotomy m m') as [L|[L|L]]; auto.
    + pose proof (occurrences_mono types t (S m) m' ltac:(lia)). congruence || (injection Im as ?; injection Im' as ?; lia).
    + pose proof (occurrences_mono types t (S m') m ltac:(lia)). congruence || (injection Im as ?; injection Im' as ?; lia).
  - intros Hn. assert (Lt : t < nc) by (rewrite <- L2; apply nth_error_Some; congruence).
    rewrite H2 in H by auto. injection H as <-.
    destruct (occurrences_reach _ _ _ Hn) as (m & Hm & Em). exists m. split; auto. rewrite (H1 _ _ Hm). congruence.
  - intros (m & Hm & Im). assert (Lt : t < nc) by (rewrite <- L2; apply nth_error_Some; congruence).
    rewrite H2 in H by auto. injection H as <-. rewrite (H1 _ _ Hm) in Im. injection Im as <-.
    pose proof (count_occ_firstn_lt _ _ _ Hm).
    assert (Lm : m < List.length types) by (apply nth_error_Some; congruence).
    pose proof (occurrences_mono types (Z.of_nat t) (S m) (List.length types) ltac:(lia)).
    rewrite occurrences_all in *. lia.
Qed.

Lemma numbering_bad nc types : ~ (forall t, In t types -> (0 <= t < Z.of_nat nc)%Z) ->
  count_instances nc types = UB.
Proof.
  intros H. unfold count_instances.
  assert (K : forall l st, List.length (snd st) = nc -> ~ (forall t, In t l -> (0 <= t < Z.of_nat nc)%Z) ->
     ofold count_step l st = UB).
  { induction l as [|t l IH]; intros [idx cnt] L N; simpl in *.
    - exfalso. apply N. tauto.
    - unfold zread, oread. destruct (Z.ltb_spec t 0); auto.
      destruct (nth_error cnt (Z.to_nat t)) eqn:E; auto. simpl.
      apply IH; simpl; [rewrite upd_length; auto|]. intros Hl. apply N. intros x [<-|Hx]; auto.
      assert (Z.to_nat t < List.length cnt) by (apply nth_error_Some; congruence). lia. }
  apply K; auto. simpl. apply repeat_length.
Qed.

(** ** Boundary maps *)

Section Maps.
Variable comps : list comp.
Variable types : list Z.

Lemma comp_of_ok m k : comp_of comps types m = Ok k <-> instance_of comps types m k.
Proof.
  unfold comp_of, instance_of. rewrite obind_ok. split.
  - intros (t & E1 & E2). apply zread_ok in E1 as [? ?], E2 as [? ?]. eauto.
  - intros (? & t & ? & ? & ?). exists t. rewrite !zread_ok. auto.
Qed.

(** Shape of [bdr_c2g]: one row per subdomain, one entry per boundary attribute of its component. *)
Definition c2g_shape (c2g : list (list Z)) : Prop :=
  List.length c2g = List.length types /\
  forall m k, instance_of comps types m k ->
    exists r, nth_error c2g (Z.to_nat m) = Some r /\ List.length r = List.length (c_attrs k).

(** Entry of [bdr_c2g] for boundary [a] of subdomain [m]. *)
Definition entry (c2g : list (list Z)) (m a g : Z) : Prop :=
  exists k i r, instance_of comps types m k /\ zfind (c_attrs k) a = Some i /\
    nth_error c2g (Z.to_nat m) = Some r /\ nth_error r i = Some g.

Lemma instance_fun m k k' : instance_of comps types m k -> instance_of comps types m k' -> k = k'.
Proof. intros (_ & t & E & _ & E2) (_ & t' & E' & _ & E2'). congruence. Qed.

Lemma zfind_in l x : In x l -> exists i, zfind l x = Some i.
Proof.
  intros H. destruct (zfind l x) eqn:E; eauto. apply zfind_none in E. contradiction.
Qed.

Lemma zfind_inj l x y i : zfind l x = Some i -> zfind l y = Some i -> x = y.
Proof. intros H1 H2. apply zfind_some in H1 as [H1 _], H2 as [H2 _]. congruence. Qed.

Lemma set_c2g_ok c2g m a g : c2g_shape c2g -> has_boundary comps types m a ->
  exists c', set_c2g comps types c2g m a g = Ok c' /\ c2g_shape c' /\
  forall m' a' g', has_boundary comps types m' a' ->
    (entry c' m' a' g' <-> if (Z.eqb m' m && Z.eqb a' a)%bool then g' = g else entry c2g m' a' g').
Proof.
  intros [S1 S2] (k & Ik & Ha). unfold set_c2g.
  rewrite (proj2 (comp_of_ok m k) Ik). simpl.
  destruct (zfind_in _ _ Ha) as (i & Ei). rewrite Ei.
  destruct (S2 m k Ik) as (r & Er & Lr).
  assert (M0 : (0 <= m)%Z) by apply Ik.
  rewrite (proj2 (zread_ok c2g m r) (conj M0 Er)). simpl.
  pose proof (zfind_some _ _ _ Ei) as [Ni _].
  assert (Li : i < List.length r) by (rewrite Lr; apply nth_error_Some; congruence).
  unfold owrite. rewrite (proj2 (Nat.ltb_lt _ _) Li). simpl. eexists. split; [reflexivity|].
  assert (Lm : Z.to_nat m < List.length c2g) by (apply nth_error_Some; congruence).
  split.
  - split; [rewrite upd_length; auto|]. intros m' k' Ik'.
    destruct (Z.eq_dec m' m) as [->|N].
    + rewrite (instance_fun m k' k Ik' Ik). rewrite nth_error_upd_eq by auto.
      eexists. split; [reflexivity|]. rewrite upd_length. auto.
    + assert (M0' : (0 <= m')%Z) by apply Ik'. rewrite nth_error_upd_ne by lia. apply S2; auto.
  - intros m' a' g' (k' & Ik' & Ha').
    destruct (Z.eqb_spec m' m) as [->|N]; simpl.
    + rewrite (instance_fun m k' k Ik' Ik) in *.
      destruct (Z.eqb_spec a' a) as [->|Na].
      * split.
        -- intros (k2 & i2 & r2 & I2 & F2 & N2 & G2). rewrite (instance_fun m k2 k I2 Ik) in F2.
           rewrite Ei in F2. injection F2 as <-. rewrite nth_error_upd_eq in N2 by auto. injection N2 as <-.
           rewrite nth_error_upd_eq in G2 by auto. congruence.
        -- intros ->. exists k, i, (upd r i g). rewrite nth_error_upd_eq by auto.
           rewrite nth_error_upd_eq by auto. auto.
      * assert (D : forall i2, zfind (c_attrs k) a' = Some i2 -> i2 <> i).
        { intros i2 F2 ->. apply Na. eapply zfind_inj; eauto. }
        split; intros (k2 & i2 & r2 & I2 & F2 & N2 & G2); rewrite (instance_fun m k2 k I2 Ik) in F2.
        -- rewrite nth_error_upd_eq in N2 by auto. injection N2 as <-.
           rewrite nth_error_upd_ne in G2 by (apply not_eq_sym; auto). exists k, i2, r. auto.
        -- rewrite Er in N2. injection N2 as <-. exists k, i2, (upd r i g).
           rewrite nth_error_upd_eq by auto. rewrite nth_error_upd_ne by (apply not_eq_sym; auto). auto.
    + assert (M0' : (0 <= m')%Z) by apply Ik'.
      split; intros (k2 & i2 & r2 & I2 & F2 & N2 & G2); exists k2, i2, r2; repeat (split; auto).
      * rewrite nth_error_upd_ne in N2 by lia. auto.
      * rewrite nth_error_upd_ne by lia. auto.
Qed.

Lemma set_c2g_inv c2g m a g c' : set_c2g comps types c2g m a g = Ok c' -> has_boundary comps types m a.
Proof.
  unfold set_c2g. intros H. apply obind_ok in H as (k & E & H). apply comp_of_ok in E.
  destruct (zfind (c_attrs k) a) eqn:F; [|discriminate].
  exists k. split; auto. apply zfind_some in F as [F _]. eapply nth_error_In; eauto.
Qed.

Lemma assigned_snoc l m a g m' a' g' :
  assigned (l ++ [(m, a, g)]) m' a' g' <->
  if (Z.eqb m' m && Z.eqb a' a)%bool then g' = g else assigned l m' a' g'.
Proof.
  split.
  - intros (pre & post & E & H).
    destruct (Z.eqb_spec m' m) as [->|N1]; [destruct (Z.eqb_spec a' a) as [->|N2]|]; simpl.
    + destruct post as [|x post] using rev_ind.
      * apply app_inj_tail in E as [_ [= ->]]; auto.
      * rewrite app_comm_cons, app_assoc in E. apply app_inj_tail in E as [_ <-].
        exfalso. apply (H g). apply in_app_iff; simpl; auto.
    + destruct post as [|x post] using rev_ind.
      * apply app_inj_tail in E as [_ [= ? ?]]; congruence.
      * rewrite app_comm_cons, app_assoc in E. apply app_inj_tail in E as [E <-].
        exists pre, post. split; auto. intros g0 Hg. apply (H g0). apply in_app_iff; auto.
    + destruct post as [|x post] using rev_ind.
      * apply app_inj_tail in E as [_ [= ? ?]]; congruence.
      * rewrite app_comm_cons, app_assoc in E. apply app_inj_tail in E as [E <-].
        exists pre, post. split; auto. intros g0 Hg. apply (H g0). apply in_app_iff; auto.
  - destruct (Z.eqb_spec m' m) as [->|N1]; [destruct (Z.eqb_spec a' a) as [->|N2]|]; simpl.
    + intros ->. exists l, []. split; auto.
    + intros (pre & post & -> & H). exists pre, (post ++ [(m, a, g)]). split.
      * rewrite <- app_assoc. reflexivity.
      * intros g0 Hg. apply in_app_iff in Hg as [Hg|[[= ? ?]|[]]]; [apply (H g0); auto|congruence].
    + intros (pre & post & -> & H). exists pre, (post ++ [(m, a, g)]). split.
      * rewrite <- app_assoc. reflexivity.
      * intros g0 Hg. apply in_app_iff in Hg as [Hg|[[= ? ?]|[]]]; [apply (H g0); auto|congruence].
Qed.

(** [bdr_c2g] represents the assignments made so far. *)
Definition represents (asg : list assignment) (c2g : list (list Z)) : Prop :=
  c2g_shape c2g /\
  forall m a g, has_boundary comps types m a ->
    (entry c2g m a g <-> assigned asg m a g \/ (g = (-1)%Z /\ forall g', ~ assigned asg m a g')).

Lemma represents_set asg c2g m a g : represents asg c2g -> has_boundary comps types m a ->
  exists c', set_c2g comps types c2g m a g = Ok c' /\ represents (asg ++ [(m, a, g)]) c'.
Proof.
  intros [S R] H. destruct (set_c2g_ok c2g m a g S H) as (c' & E & S' & Hc).
  exists c'. split; auto. split; auto. intros m' a' g' H'. rewrite (Hc m' a' g' H').
  rewrite assigned_snoc. destruct (Z.eqb m' m && Z.eqb a' a)%bool eqn:B.
  - split; auto. intros [->|[-> K]]; auto. exfalso. apply (K g). apply assigned_snoc. rewrite B. auto.
  - rewrite R by auto. split; (intros [K|[-> K]]; [auto|right; split; auto; intros g'' Hg]).
    + apply assigned_snoc in Hg. rewrite B in Hg. apply (K g''); auto.
    + apply (K g''). apply assigned_snoc. rewrite B. auto.
Qed.

Lemma init_c2g_ok c0 : init_c2g comps types = Ok c0 -> represents [] c0.
Proof.
  intros H. unfold init_c2g in H. apply omap_ok in H. apply Forall2_nth_error in H as [L H].
  assert (K : forall m k r, instance_of comps types m k -> nth_error c0 (Z.to_nat m) = Some r ->
             r = repeat (-1)%Z (List.length (c_attrs k))).
  { intros m k r (M0 & t & T & T0 & C) Er. specialize (H _ _ _ T Er).
    apply obind_ok in H as (k' & E & [= <-]). apply zread_ok in E as [_ E]. congruence. }
  assert (S : c2g_shape c0).
  { split; auto. intros m k I. destruct (nth_error c0 (Z.to_nat m)) as [r|] eqn:Er.
    - exists r. split; auto. rewrite (K m k r I Er). apply repeat_length.
    - apply nth_error_None in Er. destruct I as (_ & t & T & _).
      assert (Z.to_nat m < List.length types) by (apply nth_error_Some; congruence). lia. }
  split; auto. intros m a g (k & I & Ha). split.
  - intros (k' & i & r & I' & F & N & G). right. split.
    + rewrite (K m k' r I' N) in G. apply nth_error_In, repeat_spec in G. auto.
    + intros g' (pre & post & E & _). destruct pre; discriminate.
  - intros [(pre & post & E & _)|[-> _]]; [destruct pre; discriminate|].
    destruct (zfind_in _ _ Ha) as (i & F). destruct S as [_ S]. destruct (S m k I) as (r & Er & Lr).
    exists k, i, r. repeat (split; auto). rewrite (K m k r I Er).
    pose proof (zfind_some _ _ _ F) as [Ni _].
    assert (i < List.length (c_attrs k)) by (apply nth_error_Some; congruence).
    rewrite (nth_error_nth' _ (-1)%Z) by (rewrite repeat_length; auto). rewrite nth_repeat. reflexivity.
Qed.

Lemma ofold_inv_ok {S B} (f : S -> B -> outcome S) (I : list B -> S -> Prop) l s s' :
  I [] s -> (forall p x s s', I p s -> f s x = Ok s' -> I (p ++ [x]) s') ->
  ofold f l s = Ok s' -> I l s'.
Proof.
  intros H0 Hs. change l with ([] ++ l) at 2. revert H0. generalize (@nil B) as pre. revert s.
  induction l as [|x l IH]; intros s pre H0 E; simpl in E.
  - injection E as <-. rewrite app_nil_r. auto.
  - apply obind_ok in E as (s1 & E1 & E).
    replace (pre ++ x :: l) with ((pre ++ [x]) ++ l) by (rewrite <- app_assoc; reflexivity).
    apply (IH s1); auto. eapply Hs; eauto.
Qed.

(** Boundary lines. *)
Lemma read_boundaries_ok c0 rows c1 battrs : represents [] c0 ->
  read_boundaries comps types c0 rows = Ok (c1, battrs) ->
  represents (boundary_assignments rows) c1 /\ first_occurrences (map (fun r => fst (fst r)) rows) battrs /\
  (forall g m a, In (g, m, a) rows -> has_boundary comps types m a).
Proof.
  intros R0 E. unfold read_boundaries in E.
  pose (I := fun (done : list boundary_row) (st : list (list Z) * list Z) =>
     represents (boundary_assignments done) (fst st) /\
     first_occurrences (map (fun r => fst (fst r)) done) (snd st) /\
     (forall g m a, In (g, m, a) done -> has_boundary comps types m a)).
  apply (ofold_inv_ok _ I) in E; auto.
  - unfold I; simpl. split; auto. split; [constructor|tauto].
  - intros p [[g m] a] [c battrs0] st' (R & F & HB) H. simpl in *.
    apply obind_ok in H as (c' & Ec & [= <-]).
    pose proof (set_c2g_inv _ _ _ _ _ Ec) as Hb.
    destruct (represents_set _ _ m a g R Hb) as (c'' & Ec' & R').
    rewrite Ec in Ec'. injection Ec' as <-.
    unfold I; simpl. unfold boundary_assignments. rewrite map_app. split; auto. split.
    + rewrite map_app. simpl. destruct (zfind battrs0 g) eqn:Fz.
      * apply fo_old; auto. apply (first_occurrences_in _ _ F). apply zfind_some in Fz as [Fz _].
        eapply nth_error_In; eauto.
      * apply fo_new; auto. apply zfind_none in Fz. rewrite <- (first_occurrences_in _ _ F). auto.
    + intros g' m' a' Hin. apply in_app_iff in Hin as [Hin|[[= <- <- <-]|[]]]; eauto.
Qed.

(** Port rows. *)
Lemma read_ports_ok asg c1 battrs rows ports c2 : represents asg c1 ->
  read_ports comps types c1 battrs rows = Ok (ports, c2) ->
  exists off, attr_offset comps battrs = Ok off /\
  represents (asg ++ port_assignments ports) c2 /\
  Forall2 port_of_row rows ports /\
  (forall k p, nth_error ports k = Some p -> gp_attr p = (off + Z.of_nat k)%Z) /\
  (forall r, In r rows -> has_boundary comps types (pr_mesh1 r) (pr_attr1 r) /\
                          has_boundary comps types (pr_mesh2 r) (pr_attr2 r)).
Proof.
  intros R0 E. unfold read_ports in E. apply obind_ok in E as (off & Eo & E).
  apply obind_ok in E as (st & E & [= <- <-]). exists off. split; auto.
  pose (I := fun (done : list port_row) (st : list gport * list (list Z) * Z) =>
     represents (asg ++ port_assignments (fst (fst st))) (snd (fst st)) /\
     snd st = (off + Z.of_nat (List.length (fst (fst st))))%Z /\
     Forall2 port_of_row done (fst (fst st)) /\
     (forall k p, nth_error (fst (fst st)) k = Some p -> gp_attr p = (off + Z.of_nat k)%Z) /\
     (forall r, In r done -> has_boundary comps types (pr_mesh1 r) (pr_attr1 r) /\
                             has_boundary comps types (pr_mesh2 r) (pr_attr2 r))).
  apply (ofold_inv_ok _ I) in E.
  - destruct E as (A & _ & B & C & D). auto.
  - unfold I; simpl. rewrite app_nil_r. split; auto. split; [lia|]. split; [constructor|].
    split; [|tauto]. intros [|k]; discriminate.
  - intros done row [[ps c] o] st' (R & O & F & P & HB) H. simpl in *. subst o.
    apply obind_ok in H as (k1 & E1 & H). apply obind_ok in H as (k2 & E2 & H).
    destruct (zfind (c_attrs k1) (pr_attr1 row)) as [i1|] eqn:F1; [|discriminate].
    destruct (zfind (c_attrs k2) (pr_attr2 row)) as [i2|] eqn:F2; [|discriminate].
    apply obind_ok in H as (ca & Ea & H). apply obind_ok in H as (cb & Eb & [= <-]).
    pose proof (set_c2g_inv _ _ _ _ _ Ea) as Ha. pose proof (set_c2g_inv _ _ _ _ _ Eb) as Hb.
    destruct (represents_set _ _ _ _ (off + Z.of_nat (List.length ps))%Z R Ha) as (ca' & Ea' & Ra).
    rewrite Ea in Ea'. injection Ea' as <-.
    destruct (represents_set _ _ _ _ (off + Z.of_nat (List.length ps))%Z Ra Hb) as (cb' & Eb' & Rb).
    rewrite Eb in Eb'. injection Eb' as <-.
    unfold I; simpl. split.
    { unfold port_assignments. rewrite flat_map_app. simpl. rewrite app_assoc. rewrite <- app_assoc in Rb. auto. }
    split; [rewrite app_length; simpl; lia|]. split.
    { apply Forall2_app; auto. constructor; [|constructor]. unfold port_of_row; simpl; auto. }
    split.
    + intros k p Hk. apply nth_error_snoc in Hk as [Hk|[-> ->]]; [apply P; auto|reflexivity].
    + intros r Hr. apply in_app_iff in Hr as [Hr|[<-|[]]]; auto.
Qed.

Lemma setup_bdr_ok asg c2g attrs : represents asg c2g ->
  setup_bdr_attributes comps types c2g = Ok attrs ->
  List.length attrs = List.length types /\
  forall m k r, instance_of comps types m k -> nth_error attrs (Z.to_nat m) = Some r ->
    Forall2 (fun a g => In a (c_attrs k) /\ assigned asg m a g /\ (0 <= g)%Z) (c_elems k) r.
Proof.
  intros [S R] E. unfold setup_bdr_attributes in E. apply omap_ok in E.
  apply Forall2_nth_error in E as [L H]. rewrite seq_length in L. split; auto.
  intros m k r I Er. assert (Lm : Z.to_nat m < List.length types).
  { rewrite L. apply nth_error_Some. congruence. }
  specialize (H _ _ _ (nth_error_seq _ 0 _ Lm) Er). simpl in H.
  destruct I as (M0 & t & T & T0 & C).
  assert (I : instance_of comps types m k) by (repeat (split; auto); eauto).
  apply obind_ok in H as (c & Ec & H). apply obind_ok in H as (k' & Ek & H).
  apply obind_ok in H as (row & Erow & H).
  unfold oread in Ec. rewrite T in Ec. injection Ec as <-.
  apply zread_ok in Ek as [_ Ek]. rewrite C in Ek. injection Ek as <-.
  unfold oread in Erow. destruct (nth_error c2g (Z.to_nat m)) as [row'|] eqn:Er2; [|discriminate].
  injection Erow as <-.
  apply omap_ok in H. eapply Forall2_weaken; [|exact H]. clear H.
  intros a g Hg. unfold elem_attr in Hg.
  destruct (zfind (c_attrs k) a) as [i|] eqn:F; [|discriminate].
  apply obind_ok in Hg as (g0 & Eg & Hg). apply oassert_ok in Hg as [G0 [= ->]].
  apply Z.leb_le in G0. unfold oread in Eg. destruct (nth_error row' i) eqn:Gn; [|discriminate].
  injection Eg as ->.
  assert (Ha : In a (c_attrs k)) by (apply zfind_some in F as [F _]; eapply nth_error_In; eauto).
  split; auto. assert (En : entry c2g m a g) by (exists k, i, row'; auto).
  apply R in En as [A|[-> _]]; [auto|lia|exists k; auto].
Qed.

(** The whole configuration, given that it was accepted. *)
Lemma configure_ok brows prows battrs ports attrs :
  configure comps types brows prows = Ok (battrs, ports, attrs) ->
  first_occurrences (map (fun r => fst (fst r)) brows) battrs /\
  Forall2 port_of_row prows ports /\
  NoDup (map gp_attr ports) /\
  (forall p b, In p ports -> In b battrs -> (b + 1 < gp_attr p)%Z) /\
  (forall p k a, In p ports -> In k comps -> In a (c_attrs k) -> (a < gp_attr p)%Z) /\
  List.length attrs = List.length types /\
  forall m k r, instance_of comps types m k -> nth_error attrs (Z.to_nat m) = Some r ->
    Forall2 (fun a g => assigned (boundary_assignments brows ++ port_assignments ports) m a g /\ (0 <= g)%Z)
            (c_elems k) r.
Proof.
  intros E. unfold configure in E. apply obind_ok in E as (c0 & E0 & E).
  apply obind_ok in E as ((c1, b1) & E1 & E). apply obind_ok in E as ((p1, c2) & E2 & E).
  apply obind_ok in E as (a1 & E3 & [= <- <- <-]).
  apply init_c2g_ok in E0. apply read_boundaries_ok in E1 as (R1 & F1 & _); auto.
  apply (read_ports_ok _ _ _ _ _ _ R1) in E2 as (off & Eo & R2 & F2 & P2 & _).
  apply (setup_bdr_ok _ _ _ R2) in E3 as [L3 H3].
  split; auto. split; auto. split; [|split; [|split; [|split; auto]]].
  - apply NoDup_nth_error. intros i j Li Eij. rewrite map_length in Li. rewrite !nth_error_map in Eij.
    destruct (nth_error p1 i) as [pi|] eqn:Ei; [|apply nth_error_None in Ei; lia].
    destruct (nth_error p1 j) as [pj|] eqn:Ej; [|discriminate]. simpl in Eij. injection Eij as Eij.
    rewrite (P2 _ _ Ei), (P2 _ _ Ej) in Eij. lia.
  - intros p b Hp Hb. apply In_nth_error in Hp as (k & Hk). rewrite (P2 _ _ Hk).
    unfold attr_offset in Eo. apply obind_ok in Eo as (o & _ & Eo). apply oassert_ok in Eo as [_ Eo].
    apply obind_ok in Eo as (mx & Em & [= <-]). apply zmax_spec in Em as [_ Em]. specialize (Em _ Hb). lia.
  - intros p k a Hp Hk Ha. apply In_nth_error in Hp as (n & Hn). rewrite (P2 _ _ Hn).
    unfold attr_offset in Eo. apply obind_ok in Eo as (o & Ek & Eo). apply oassert_ok in Eo as [_ Eo].
    apply obind_ok in Eo as (mx & Em & [= <-]). assert (a <= o)%Z; [|lia].
    clear -Ek Hk Ha. revert Ek. generalize 0%Z.
    assert (G : forall l z o', ofold (fun acc k => let* m := zmax (c_attrs k) in Ok (Z.max acc m)) l z = Ok o' -> (z <= o')%Z).
    { induction l as [|k' l IH]; intros z o' E; simpl in E; [injection E as <-; lia|].
      apply obind_ok in E as (z' & E1 & E). apply obind_ok in E1 as (mx & _ & [= <-]). apply IH in E. lia. }
    induction comps as [|k' l IH]; intros z E; [destruct Hk|]. simpl in E.
    apply obind_ok in E as (z' & E1 & E). apply obind_ok in E1 as (mx & Em & [= <-]).
    destruct Hk as [->|Hk].
    + apply zmax_spec in Em as [_ Em]. specialize (Em _ Ha). apply G in E. lia.
    + eapply IH; eauto.
  - intros m k r I Er. eapply Forall2_weaken; [|eapply H3; eauto]. simpl. tauto.
Qed.

(** Conversely, a complete configuration is accepted. *)
Lemma configure_accepts brows prows :
  (forall t, In t types -> (0 <= t < Z.of_nat (List.length comps))%Z) ->
  (forall k, In k comps -> c_attrs k <> [] /\ incl (c_elems k) (c_attrs k)) ->
  brows <> [] ->
  (forall g m a, In (g, m, a) brows -> (0 <= g)%Z /\ has_boundary comps types m a) ->
  (forall r, In r prows -> has_boundary comps types (pr_mesh1 r) (pr_attr1 r) /\
                           has_boundary comps types (pr_mesh2 r) (pr_attr2 r)) ->
  (forall m k a, instance_of comps types m k -> In a (c_elems k) ->
     (exists g, In (g, m, a) brows) \/
     (exists r, In r prows /\ ((pr_mesh1 r = m /\ pr_attr1 r = a) \/ (pr_mesh2 r = m /\ pr_attr2 r = a)))) ->
  exists battrs ports attrs, configure comps types brows prows = Ok (battrs, ports, attrs).
Proof.
  intros Ht Hk Hb0 Hb Hp Hc. unfold configure.
  destruct (omap_exists (fun c => let* k := zread comps c in Ok (repeat (-1)%Z (List.length (c_attrs k)))) types) as (c0 & E0).
  { intros t Hin. specialize (Ht t Hin). destruct (nth_error comps (Z.to_nat t)) as [k|] eqn:E.
    - rewrite (proj2 (zread_ok comps t k)) by (split; [lia|auto]). simpl. eauto.
    - apply nth_error_None in E. lia. }
  unfold init_c2g at 1. rewrite E0. simpl.
  pose proof (init_c2g_ok c0 E0) as R0.
  (* boundary lines *)
  destruct (ofold_inv (read_boundary comps types)
    (fun done st => represents (boundary_assignments done) (fst st) /\ (done <> [] -> 0 < List.length (snd st)))
    brows (c0, [])) as ([c1 battrs] & E1 & R1 & B1).
  { simpl. split; [auto|congruence]. }
  { intros p [[g m] a] q [c bs] El [R B]. simpl in *.
    destruct (Hb g m a) as [_ Hm]; [rewrite El; apply in_app_iff; simpl; auto|].
    destruct (represents_set _ _ m a g R Hm) as (c' & Ec & R'). rewrite Ec. simpl.
    eexists. split; [reflexivity|]. cbn [fst snd]. unfold boundary_assignments. rewrite map_app. split; auto.
    intros _. destruct (zfind bs g) eqn:F.
    - apply zfind_some in F as [F _]. assert (n < List.length bs) by (apply nth_error_Some; congruence). lia.
    - rewrite app_length. cbn [List.length]. lia. }
  unfold read_boundaries. rewrite E1. cbn [obind].
  (* offset *)
  assert (Eo : exists off, attr_offset comps battrs = Ok off /\ (0 <= off)%Z).
  { unfold attr_offset.
    assert (G : forall l z, (forall k, In k l -> In k comps) -> exists o, ofold (fun acc k => let* m := zmax (c_attrs k) in Ok (Z.max acc m)) l z = Ok o /\ (z <= o)%Z).
    { induction l as [|k l IH]; intros z Hl; simpl; [eauto with zarith|].
      destruct (zmax_nonempty (c_attrs k)) as (mx & Em); [apply Hk, Hl; simpl; auto|].
      rewrite Em. simpl. destruct (IH (Z.max z mx)) as (o & Eo & Lo); [intros; apply Hl; simpl; auto|].
      exists o. split; auto. lia. }
    destruct (G comps 0%Z) as (o & Eo & Lo); auto. rewrite Eo. simpl in *.
    assert (Lb : 0 < List.length battrs) by auto.
    rewrite (proj2 (Nat.ltb_lt _ _) Lb). simpl.
    destruct (zmax_nonempty battrs) as (mx & Em); [destruct battrs; simpl in Lb; [lia|discriminate]|].
    rewrite Em. simpl. eexists. split; [reflexivity|]. lia. }
  destruct Eo as (off & Eo & Off0).
  destruct (ofold_inv (read_port comps types)
    (fun done st => represents (boundary_assignments brows ++ port_assignments (fst (fst st))) (snd (fst st)) /\
       (0 <= snd st)%Z /\ (forall p, In p (fst (fst st)) -> (0 <= gp_attr p)%Z) /\ Forall2 port_of_row done (fst (fst st)))
    prows ([], c1, off)) as ([[ports c2] off'] & E2 & R2 & _ & P2 & F2).
  { simpl. rewrite app_nil_r. split; auto. split; auto. split; [tauto|constructor]. }
  { intros p row q [[ps c] o] El (R & O & P & F). cbn [fst snd] in *.
    destruct (Hp row) as [Ha Hb']; [rewrite El; apply in_app_iff; simpl; auto|].
    unfold read_port. destruct Ha as (k1 & I1 & A1), Hb' as (k2 & I2 & A2).
    rewrite (proj2 (comp_of_ok _ _) I1), (proj2 (comp_of_ok _ _) I2). cbn [obind].
    destruct (zfind_in _ _ A1) as (i1 & F1). destruct (zfind_in _ _ A2) as (i2 & F2). rewrite F1, F2.
    destruct (represents_set _ _ (pr_mesh1 row) (pr_attr1 row) o R) as (ca & Ea & Ra); [exists k1; auto|].
    rewrite Ea. cbn [obind].
    destruct (represents_set _ _ (pr_mesh2 row) (pr_attr2 row) o Ra) as (cb & Eb & Rb); [exists k2; auto|].
    rewrite Eb. cbn [obind]. eexists. split; [reflexivity|]. cbn [fst snd].
    split; [|split; [lia|split]].
    - unfold port_assignments. rewrite flat_map_app. simpl. rewrite app_assoc. rewrite <- app_assoc in Rb. auto.
    - intros p' Hp'. apply in_app_iff in Hp' as [Hp'|[<-|[]]]; auto.
    - apply Forall2_app; auto. constructor; [|constructor]. unfold port_of_row; simpl; auto. }
  cbn [fst snd] in R2, P2, F2.
  unfold read_ports. rewrite Eo. cbn [obind]. rewrite E2. cbn [obind fst snd].
  (* boundary elements *)
  destruct (omap_exists (fun m => let* c := oread types m in
                 let* k := zread comps c in
                 let* row := oread c2 m in
                 omap (elem_attr k row) (c_elems k)) (seq 0 (List.length types))) as (attrs & Ea).
  { intros m Hm. apply in_seq in Hm.
    destruct (nth_error types m) as [t|] eqn:T; [|apply nth_error_None in T; lia].
    unfold oread at 1. rewrite T. cbn [obind].
    assert (Rt : (0 <= t < Z.of_nat (List.length comps))%Z) by (apply Ht; eapply nth_error_In; eauto).
    destruct (nth_error comps (Z.to_nat t)) as [k|] eqn:C; [|apply nth_error_None in C; lia].
    rewrite (proj2 (zread_ok comps t k)) by (split; [lia|auto]). cbn [obind].
    assert (I : instance_of comps types (Z.of_nat m) k).
    { split; [lia|]. exists t. rewrite Nat2Z.id. repeat (split; auto); lia. }
    destruct R2 as [[S1 S2] R2]. destruct (S2 _ _ I) as (row & Er & Lr). rewrite Nat2Z.id in Er.
    unfold oread. rewrite Er. cbn [obind]. apply omap_exists. intros a Ha.
    assert (Hin : In k comps) by (eapply nth_error_In; eauto).
    assert (Haa : In a (c_attrs k)) by (apply (Hk k Hin); auto).
    unfold elem_attr. destruct (zfind_in _ _ Haa) as (i & Fi). rewrite Fi.
    pose proof (zfind_some _ _ _ Fi) as [Ni _].
    assert (Li : i < List.length row) by (rewrite Lr; apply nth_error_Some; congruence).
    destruct (nth_error row i) as [g|] eqn:G; [|apply nth_error_None in G; lia].
    unfold oread. rewrite G. cbn [obind].
    assert (En : entry c2 (Z.of_nat m) a g) by (exists k, i, row; rewrite Nat2Z.id; auto).
    apply R2 in En; [|exists k; auto].
    assert (G0 : (0 <= g)%Z).
    { destruct En as [(pre & post & El & _)|[_ No]].
      - assert (Hin' : In (Z.of_nat m, a, g) (boundary_assignments brows ++ port_assignments ports))
          by (rewrite El; apply in_app_iff; simpl; auto).
        apply in_app_iff in Hin' as [Hi|Hi].
        + apply in_map_iff in Hi as ([[g' m'] a'] & Eh & Hi); injection Eh as Eh1 Eh2 Eh3; subst g'. apply (Hb _ _ _ Hi).
        + apply in_flat_map in Hi as (p & Hp' & Hi). simpl in Hi.
          destruct Hi as [[= _ _ <-]|[[= _ _ <-]|[]]]; auto.
      - exfalso.
        assert (Hex : exists g', In (Z.of_nat m, a, g') (boundary_assignments brows ++ port_assignments ports)).
        { destruct (Hc _ _ _ I Ha) as [(g' & Hg)|(r & Hr & D)].
          - exists g'. apply in_app_iff. left. apply in_map_iff. exists (g', Z.of_nat m, a). auto.
          - apply In_nth_error in Hr as (n & Hn).
            destruct (Forall2_nth_error _ _ _ F2) as [L2 N2].
            destruct (nth_error ports n) as [p|] eqn:En; [|apply nth_error_None in En; assert (n < List.length prows) by (apply nth_error_Some; congruence); lia].
            destruct (N2 _ _ _ Hn En) as (A1 & A2 & A3 & A4).
            exists (gp_attr p). apply in_app_iff. right. apply in_flat_map. exists p.
            split; [eapply nth_error_In; eauto|]. simpl.
            destruct D as [[<- <-]|[<- <-]]; rewrite <- ?A1, <- ?A2, <- ?A3, <- ?A4; auto. }
        destruct Hex as (g' & Hg').
        assert (Hlast : forall l, In (Z.of_nat m, a, g') l -> exists g2, assigned l (Z.of_nat m) a g2).
        { clear. intros l. induction l as [|[[m2 a2] g2] l IH] using rev_ind; [intros []|].
          intros Hi. destruct (Z.eqb (Z.of_nat m) m2 && Z.eqb a a2)%bool eqn:B.
          - exists g2. apply assigned_snoc. rewrite B. auto.
          - apply in_app_iff in Hi as [Hi|[[= -> -> _]|[]]].
            + destruct (IH Hi) as (g3 & H3). exists g3. apply assigned_snoc. rewrite B. auto.
            + rewrite !Z.eqb_refl in B. discriminate. }
        destruct (Hlast _ Hg') as (g2 & H2). apply (No g2 H2). }
    rewrite (proj2 (Z.leb_le _ _) G0). simpl. eauto. }
  unfold setup_bdr_attributes. rewrite Ea. cbn [obind]. eauto.
Qed.

End Maps.

(** Ports agree with their reference port. *)
Lemma setup_ports_ok types refs ports ptypes res :
  setup_ports types refs ports ptypes = Ok res ->
  res = ptypes /\ List.length ptypes = List.length ports /\
  forall n p t, nth_error ports n = Some p -> nth_error ptypes n = Some t ->
    exists r, (0 <= t)%Z /\ nth_error refs (Z.to_nat t) = Some r /\
      nth_error types (Z.to_nat (gp_mesh1 p)) = Some (pd_comp1 r) /\
      nth_error types (Z.to_nat (gp_mesh2 p)) = Some (pd_comp2 r) /\
      gp_attr1 p = pd_attr1 r /\ gp_attr2 p = pd_attr2 r /\ gp_mesh1 p <> gp_mesh2 p.
Proof.
  intros H. unfold setup_ports in H. apply oassert_ok in H as [L H]. apply Nat.eqb_eq in L.
  apply omap_ok in H. apply Forall2_nth_error in H as [Lr H].
  rewrite combine_length in Lr.
  assert (Nc : forall n p t, nth_error ports n = Some p -> nth_error ptypes n = Some t ->
             nth_error (combine ports ptypes) n = Some (p, t)).
  { clear. intros n. revert ports ptypes. induction n as [|n IH]; intros [|p0 l] [|t0 l'] p t; simpl; try discriminate.
    - intros [= ->] [= ->]; auto.
    - apply IH. }
  assert (St : forall p t t', setup_port types refs (p, t) = Ok t' -> t' = t /\
     exists r, (0 <= t)%Z /\ nth_error refs (Z.to_nat t) = Some r /\
      nth_error types (Z.to_nat (gp_mesh1 p)) = Some (pd_comp1 r) /\
      nth_error types (Z.to_nat (gp_mesh2 p)) = Some (pd_comp2 r) /\
      gp_attr1 p = pd_attr1 r /\ gp_attr2 p = pd_attr2 r /\ gp_mesh1 p <> gp_mesh2 p).
  { clear. intros p t t' H. unfold setup_port in H.
    apply obind_ok in H as (r & Er & H). apply obind_ok in H as (t1 & E1 & H). apply obind_ok in H as (t2 & E2 & H).
    apply oassert_ok in H as [A1 H]. apply oassert_ok in H as [A2 H]. apply oassert_ok in H as [A3 H].
    apply oassert_ok in H as [A4 H]. apply oassert_ok in H as [A5 [= <-]].
    apply Z.eqb_eq in A1, A2, A3, A4. apply zread_ok in Er as [? ?], E1 as [? ?], E2 as [? ?]. subst.
    split; auto. exists r. repeat (split; auto). intros Em.
    assert (pd_comp1 r = pd_comp2 r) by congruence.
    rewrite Em, H5, !Z.eqb_refl in A5. discriminate. }
  split; [|split; auto].
  - apply nth_error_ext. intros n. destruct (nth_error ptypes n) as [t|] eqn:Et.
    + assert (Ln : n < List.length ptypes) by (apply nth_error_Some; congruence).
      destruct (nth_error ports n) as [p|] eqn:Ep; [|apply nth_error_None in Ep; lia].
      destruct (nth_error res n) as [t'|] eqn:Er; [|apply nth_error_None in Er; lia].
      specialize (H _ _ _ (Nc _ _ _ Ep Et) Er). apply St in H as [-> _]. auto.
    + apply nth_error_None in Et. apply nth_error_None. lia.
  - intros n p t Ep Et.
    assert (Ln : n < List.length ptypes) by (apply nth_error_Some; congruence).
    destruct (nth_error res n) as [t'|] eqn:Er; [|apply nth_error_None in Er; lia].
    specialize (H _ _ _ (Nc _ _ _ Ep Et) Er). apply St in H as [_ H]. auto.
Qed.

(** Conversely, ports that fit their reference port are accepted. *)
Lemma setup_ports_accepts types refs ports ptypes :
  List.length ptypes = List.length ports ->
  (forall n p t, nth_error ports n = Some p -> nth_error ptypes n = Some t ->
    exists r, (0 <= t)%Z /\ nth_error refs (Z.to_nat t) = Some r /\ (0 <= gp_mesh1 p)%Z /\ (0 <= gp_mesh2 p)%Z /\
      nth_error types (Z.to_nat (gp_mesh1 p)) = Some (pd_comp1 r) /\
      nth_error types (Z.to_nat (gp_mesh2 p)) = Some (pd_comp2 r) /\
      gp_attr1 p = pd_attr1 r /\ gp_attr2 p = pd_attr2 r /\ gp_mesh1 p <> gp_mesh2 p) ->
  setup_ports types refs ports ptypes = Ok ptypes.
Proof.
  intros L H. unfold setup_ports. rewrite (proj2 (Nat.eqb_eq _ _) L). cbn [oassert].
  apply omap_ok. apply Forall2_of_nth; [rewrite combine_length; lia|].
  intros n [p t] t' Hn Ht.
  assert (Np : nth_error ports n = Some p /\ nth_error ptypes n = Some t).
  { clear - Hn. revert ports ptypes Hn. induction n as [|n IH]; intros [|p0 l] [|t0 l']; simpl; try discriminate.
    - intros [= -> ->]; auto.
    - apply IH. }
  destruct Np as [Np Nt]. rewrite Ht in Nt. injection Nt as ->.
  destruct (H _ _ _ Np Ht) as (r & T0 & Tr & M1 & M2 & T1 & T2 & A1 & A2 & Ne).
  unfold setup_port.
  rewrite (proj2 (zread_ok refs t r) (conj T0 Tr)). cbn [obind].
  rewrite (proj2 (zread_ok types _ _) (conj M1 T1)). cbn [obind].
  rewrite (proj2 (zread_ok types _ _) (conj M2 T2)). cbn [obind].
  rewrite A1, A2, !Z.eqb_refl. cbn [oassert].
  rewrite (proj2 (Z.eqb_neq _ _) Ne), andb_false_r. reflexivity.
Qed.

(** ** Transformations *)

Local Open Scope R_scope.

Lemma inverse_transform2d_ok c x : inverse_transform2d c (transform2d c x) = x.
Proof.
  destruct x as [a b]. unfold inverse_transform2d, transform2d. cbn [fst snd].
  rewrite sin_neg, cos_neg. pose proof (sin2_cos2 (mc_r0 c)) as H. unfold Rsqr in H.
  f_equal.
  - transitivity ((sin (mc_r0 c) * sin (mc_r0 c) + cos (mc_r0 c) * cos (mc_r0 c)) * a); [ring|rewrite H; ring].
  - transitivity ((sin (mc_r0 c) * sin (mc_r0 c) + cos (mc_r0 c) * cos (mc_r0 c)) * b); [ring|rewrite H; ring].
Qed.

Lemma transform2d_inverse_ok c x : transform2d c (inverse_transform2d c x) = x.
Proof.
  destruct x as [a b]. unfold inverse_transform2d, transform2d. cbn [fst snd].
  rewrite sin_neg, cos_neg. pose proof (sin2_cos2 (mc_r0 c)) as H. unfold Rsqr in H.
  f_equal.
  - transitivity ((sin (mc_r0 c) * sin (mc_r0 c) + cos (mc_r0 c) * cos (mc_r0 c)) * (a - mc_t0 c) + mc_t0 c); [ring|rewrite H; ring].
  - transitivity ((sin (mc_r0 c) * sin (mc_r0 c) + cos (mc_r0 c) * cos (mc_r0 c)) * (b - mc_t1 c) + mc_t1 c); [ring|rewrite H; ring].
Qed.

Lemma transform2d_isometry c x y :
  let d p q := (fst p - fst q) * (fst p - fst q) + (snd p - snd q) * (snd p - snd q) in
  d (transform2d c x) (transform2d c y) = d x y.
Proof.
  destruct x as [a b], y as [a' b']. unfold transform2d. cbn zeta. cbn [fst snd].
  pose proof (sin2_cos2 (mc_r0 c)) as H. unfold Rsqr in H.
  transitivity ((sin (mc_r0 c) * sin (mc_r0 c) + cos (mc_r0 c) * cos (mc_r0 c)) *
                ((a - a') * (a - a') + (b - b') * (b - b'))); [ring|rewrite H; ring].
Qed.

Lemma transform3d_inverse_ok c x : inverse_transform3d c (transform3d c x) = x /\ transform3d c (inverse_transform3d c x) = x.
Proof. destruct x as [[a b] d]. simpl. split; repeat f_equal; ring. Qed.

Lemma transform3d_no_rotation t0 t1 t2 r0 r1 r2 x :
  transform3d (MeshConfig t0 t1 t2 r0 r1 r2) x = transform3d (MeshConfig t0 t1 t2 0 0 0) x.
Proof. reflexivity. Qed.
