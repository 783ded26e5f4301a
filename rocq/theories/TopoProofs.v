(** Proofs about meshes split into subdomains. *)
From Coq Require Import ZArith List Bool Lia Permutation FinFun.
From Verif Require Import Outcome ListLemmas TopoModel TopoSpec.
Import ListNotations.
Local Open Scope nat_scope.

(** ** Attribute lists *)

Lemma zfind_none l x : zfind l x = None <-> ~ In x l.
Proof.
  induction l as [|a l IH]; simpl; [tauto|].
  destruct (Z.eqb_spec a x) as [->|N].
  - split; [discriminate|]. intros H; exfalso; apply H; auto.
  - destruct (zfind l x); simpl.
    + split; [discriminate|]. intros H. exfalso. assert (K : ~ In x l) by tauto.
      apply IH in K. discriminate.
    + split; auto. intros _ [E|E]; [congruence|]. apply IH in E; auto.
Qed.

Lemma zfind_some l x k : zfind l x = Some k -> nth_error l k = Some x /\ ~ In x (firstn k l).
Proof.
  revert k; induction l as [|a l IH]; intros k; simpl; [discriminate|].
  destruct (Z.eqb_spec a x) as [->|N].
  - intros [= <-]. simpl. auto.
  - destruct (zfind l x) as [k'|]; simpl; [|discriminate]. intros [= <-]. simpl.
    destruct (IH k' eq_refl) as [H1 H2]. split; auto. intros [E|E]; auto.
Qed.

Lemma update_attributes_snoc l a : update_attributes (l ++ [a]) =
  match zfind (update_attributes l) a with None => update_attributes l ++ [a] | Some _ => update_attributes l end.
Proof. unfold update_attributes. rewrite fold_left_app. reflexivity. Qed.

Lemma first_occurrences_in l out : first_occurrences l out -> forall x, In x out <-> In x l.
Proof.
  induction 1; intros x; [tauto| |].
  - rewrite !in_app_iff, IHfirst_occurrences. tauto.
  - rewrite in_app_iff, IHfirst_occurrences. simpl. intuition. subst; auto.
Qed.

Lemma first_occurrences_nodup l out : first_occurrences l out -> NoDup out.
Proof.
  induction 1; auto.
  - constructor.
  - assert (K : ~ In a out) by (rewrite (first_occurrences_in l out); auto).
    clear -IHfirst_occurrences K. induction out as [|b out IH]; simpl.
    + repeat constructor; auto.
    + inversion_clear IHfirst_occurrences. simpl in K. constructor.
      * rewrite in_app_iff. simpl. intuition.
      * apply IH; auto.
Qed.

Lemma update_attributes_spec l : first_occurrences l (update_attributes l).
Proof.
  induction l as [|a l IH] using rev_ind.
  - constructor.
  - rewrite update_attributes_snoc. destruct (zfind (update_attributes l) a) as [k|] eqn:E.
    + apply fo_old; auto. apply (first_occurrences_in _ _ IH).
      apply zfind_some in E. destruct E as [E _]. apply nth_error_In in E. auto.
    + apply fo_new; auto. apply zfind_none in E. rewrite <- (first_occurrences_in _ _ IH). auto.
Qed.

Lemma update_attributes_complete l :
  first_occurrences l (update_attributes l) /\ NoDup (update_attributes l) /\
  (forall x, In x (update_attributes l) <-> In x l).
Proof.
  pose proof (update_attributes_spec l) as H. split; auto. split.
  - eapply first_occurrences_nodup; eauto.
  - intros x. apply (first_occurrences_in _ _ H).
Qed.

Lemma fold_max_ge l : forall a, (a <= fold_left Z.max l a)%Z /\ forall x, In x l -> (x <= fold_left Z.max l a)%Z.
Proof.
  induction l as [|b l IH]; intros a; simpl.
  - split; [lia|tauto].
  - destruct (IH (Z.max a b)) as [H1 H2]. split; [lia|].
    intros x [->|H]; [lia|auto].
Qed.

Lemma fold_max_in l : forall a, fold_left Z.max l a = a \/ In (fold_left Z.max l a) l.
Proof.
  induction l as [|b l IH]; intros a; simpl; auto.
  destruct (IH (Z.max a b)) as [H|H]; auto.
  rewrite H. destruct (Z.max_spec a b) as [[_ ->]|[_ ->]]; auto.
Qed.

Lemma zmax_spec l m : zmax l = Ok m <-> In m l /\ forall x, In x l -> (x <= m)%Z.
Proof.
  destruct l as [|a l]; simpl.
  - split; [discriminate|tauto].
  - split.
    + intros [= <-]. split.
      * destruct (fold_max_in l a); auto.
      * intros x [->|H]; [apply (proj1 (fold_max_ge l _))|apply (proj2 (fold_max_ge l a)); auto].
    + intros [H1 H2]. f_equal. apply Z.le_antisymm.
      * destruct (fold_max_in l a) as [->|H]; auto.
      * destruct H1 as [->|H1]; [apply (proj1 (fold_max_ge l _))|apply (proj2 (fold_max_ge l a)); auto].
Qed.

Lemma zmax_nonempty l : l <> [] -> exists m, zmax l = Ok m.
Proof. destruct l; [congruence|]. simpl; eauto. Qed.

(** ** Orientation codes *)

Lemma inf_roundtrip f o : (0 <= f -> 0 <= o < 64 ->
  inf_face (inf_encode f o) = f /\ inf_ori (inf_encode f o) = o)%Z.
Proof.
  intros Hf Ho. unfold inf_face, inf_ori, inf_encode.
  rewrite Z.quot_div_nonneg, Z.rem_mod_nonneg by lia.
  pose proof (Z.div_mod (64 * f + o) 64). pose proof (Z.mod_pos_bound (64 * f + o) 64). lia.
Qed.

Lemma inf_decode_encode inf : (0 <= inf -> 0 <= inf_ori inf < 64 /\ inf_encode (inf_face inf) (inf_ori inf) = inf)%Z.
Proof.
  intros H. unfold inf_face, inf_ori, inf_encode.
  rewrite Z.quot_div_nonneg, Z.rem_mod_nonneg by lia.
  pose proof (Z.mod_pos_bound inf 64). pose proof (Z.div_mod inf 64). lia.
Qed.

Lemma inf_set_orientation_spec f o o' : (0 <= f -> 0 <= o < 64 -> 0 <= o' < 64 ->
  inf_set_orientation (inf_encode f o) o' = inf_encode f o')%Z.
Proof. intros. unfold inf_set_orientation. destruct (inf_roundtrip f o) as [-> _]; auto. Qed.

(** ** Building ports *)

Lemma on_face_elem meshes i ib f : on_face meshes i ib f ->
  be_face (elem_at meshes i ib) = f /\ i < length meshes /\ ib < length (nth i meshes []).
Proof.
  intros (m & b & E1 & E2 & <-). unfold elem_at.
  rewrite (nth_error_nth _ _ _ E1), (nth_error_nth _ _ _ E2).
  split; auto. split; apply nth_error_Some; congruence.
Qed.

Lemma on_face_intro meshes i ib : i < length meshes -> ib < length (nth i meshes []) ->
  on_face meshes i ib (be_face (elem_at meshes i ib)).
Proof.
  intros H1 H2. exists (nth i meshes []), (elem_at meshes i ib).
  split; [apply nth_error_nth'; auto|]. split; auto.
  unfold elem_at. apply nth_error_nth'; auto.
Qed.

Lemma bdr_indices_in meshes from j jb :
  In (j, jb) (bdr_indices meshes from) <-> from <= j < length meshes /\ jb < length (nth j meshes []).
Proof.
  unfold bdr_indices. rewrite in_flat_map. split.
  - intros (x & Hx & H). apply in_map_iff in H as (y & [= -> ->] & Hy).
    apply in_seq in Hx, Hy. lia.
  - intros [H1 H2]. exists j. split; [apply in_seq; lia|].
    apply in_map. apply in_seq. lia.
Qed.

Lemma NoDup_flat_pairs {A} (g : nat -> list A) l : NoDup l -> (forall x, NoDup (g x)) ->
  NoDup (flat_map (fun j => map (pair j) (g j)) l).
Proof.
  intros Hl Hg. induction l as [|j l IH]; simpl; [constructor|].
  inversion_clear Hl. specialize (IH H0).
  assert (K : forall l2, (forall x, In x l2 -> ~ In x (map (pair j) (g j))) -> NoDup l2 ->
     NoDup (map (pair j) (g j) ++ l2)).
  { intros l2 Hd H2. specialize (Hg j). clear -Hd H2 Hg.
    induction (g j) as [|a t IHt]; simpl in *; auto.
    inversion_clear Hg. constructor.
    - rewrite in_app_iff, in_map_iff. intros [(y & [= ->] & Hy)|Hy]; auto.
      apply (Hd _ Hy). auto.
    - apply IHt; auto. intros x Hx Hin. apply (Hd x Hx); auto. }
  apply K; auto. intros (a, b) Hx Hin.
  apply in_flat_map in Hx as (y & Hy & Hx). apply in_map_iff in Hx as (z & [= -> ->] & _).
  apply in_map_iff in Hin as (w & [= ->] & _). auto.
Qed.

Lemma bdr_indices_NoDup meshes from : NoDup (bdr_indices meshes from).
Proof. apply NoDup_flat_pairs; intros; apply seq_NoDup. Qed.

Lemma parent_face_attr_gen pb f : forall acc,
  fold_left (fun acc p => if fst p =? f then Some (snd p) else acc) pb acc = None <->
  acc = None /\ interior pb f.
Proof.
  unfold interior. induction pb as [|(g, a) pb IH]; intros acc; simpl.
  - intuition.
  - rewrite IH. destruct (Nat.eqb_spec g f) as [->|N].
    + split; [intros [[=] _]|]. intros [_ H]. exfalso. apply (H a); auto.
    + split; intros [H1 H2]; split; auto; intros b Hb.
      * destruct Hb as [[= -> ->]|Hb]; auto. apply (H2 b Hb).
      * apply (H2 b); auto.
Qed.

Lemma parent_face_attr_none pb f : parent_face_attr pb f = None <-> interior pb f.
Proof. unfold parent_face_attr. rewrite parent_face_attr_gen. tauto. Qed.

Lemma parent_face_attr_in pb f a : parent_face_attr pb f = Some a -> In (f, a) pb.
Proof.
  unfold parent_face_attr.
  assert (K : forall acc, fold_left (fun acc p => if fst p =? f then Some (snd p) else acc) pb acc = Some a ->
     acc = Some a \/ In (f, a) pb).
  { induction pb as [|(g, b) pb IH]; intros acc; simpl; auto.
    intros H. apply IH in H as [H|H]; auto. destruct (Nat.eqb_spec g f) as [->|]; auto.
    injection H as ->; auto. }
  intros H. apply K in H as [[=]|H]; auto.
Qed.

Lemma submesh_attrs_at pb gen meshes i ib : i < length meshes -> ib < length (nth i meshes []) ->
  attr_at (submesh_attrs pb gen meshes) i ib = submesh_attr pb gen (elem_at meshes i ib).
Proof.
  intros H1 H2. unfold attr_at, submesh_attrs, elem_at.
  rewrite (nth_indep _ [] (map (submesh_attr pb gen) [])) by (rewrite map_length; auto).
  rewrite map_nth.
  rewrite (nth_indep _ 0%Z (submesh_attr pb gen (BdrElem 0 0))) by (rewrite map_length; auto).
  rewrite map_nth. reflexivity.
Qed.

Definition shape (meshes : list submesh) (attrs : list (list Z)) : Prop :=
  length attrs = length meshes /\ forall i, length (nth i attrs []) = length (nth i meshes []).

Lemma shape_init pb gen meshes : shape meshes (submesh_attrs pb gen meshes).
Proof.
  split; [apply map_length|]. intros i. unfold submesh_attrs.
  change (@nil Z) with (map (submesh_attr pb gen) []). rewrite map_nth, map_length. reflexivity.
Qed.

Lemma shape_set meshes attrs i ib a : shape meshes attrs -> shape meshes (set_attr attrs i ib a).
Proof.
  intros [H1 H2]. split; unfold set_attr.
  - rewrite upd_length; auto.
  - intros k. destruct (Nat.lt_ge_cases i (length attrs)).
    + destruct (Nat.eq_dec i k) as [->|N].
      * rewrite nth_upd_eq by auto. rewrite upd_length; auto.
      * rewrite nth_upd_ne by auto. auto.
    + rewrite upd_out by auto. auto.
Qed.

Lemma attr_set meshes attrs i ib a k kb : shape meshes attrs ->
  i < length meshes -> ib < length (nth i meshes []) ->
  attr_at (set_attr attrs i ib a) k kb = if (k =? i) && (kb =? ib) then a else attr_at attrs k kb.
Proof.
  intros [H1 H2] Hi Hib. unfold attr_at, set_attr.
  destruct (Nat.eqb_spec k i) as [->|N]; simpl.
  - rewrite nth_upd_eq by lia. destruct (Nat.eqb_spec kb ib) as [->|N].
    + rewrite nth_upd_eq; auto. rewrite H2; auto.
    + rewrite nth_upd_ne by auto. reflexivity.
  - rewrite nth_upd_ne by auto. reflexivity.
Qed.

Section Build.
Variable faces : nat -> pface.
Variable pb : parent_bdr.
Variable meshes : list submesh.
Variable gen : Z.
Hypothesis Hconf : conforming meshes.
Hypothesis Hgen : (0 <= gen)%Z.
Hypothesis Hmax : forall f a, In (f, a) pb -> (a < gen)%Z.

(** Quadruples (i, ib, j, jb) met by the innermost loop body. *)
Definition quad := ((nat * nat) * (nat * nat))%type.
Definition qi (q : quad) := fst (fst q).
Definition qib (q : quad) := snd (fst q).
Definition qj (q : quad) := fst (snd q).
Definition qjb (q : quad) := snd (snd q).

Definition fc (p : nat * nat) : nat := be_face (elem_at meshes (fst p) (snd p)).
Definition valid (p : nat * nat) : Prop := fst p < length meshes /\ snd p < length (nth (fst p) meshes []).
Definition orig (p : nat * nat) : Z := submesh_attr pb gen (elem_at meshes (fst p) (snd p)).

Definition matched (q : quad) : Prop :=
  valid (fst q) /\ valid (snd q) /\ qi q < qj q /\ fc (fst q) = fc (snd q) /\ interior pb (fc (fst q)).

Lemma valid_on_face p : valid p -> on_face meshes (fst p) (snd p) (fc p).
Proof. intros [H1 H2]. apply on_face_intro; auto. Qed.

Lemma orig_gen p : valid p -> orig p = gen <-> interior pb (fc p).
Proof.
  intros _. unfold orig, submesh_attr. fold (fc p). rewrite <- parent_face_attr_none.
  destruct (parent_face_attr pb (fc p)) eqn:E; split; auto; try discriminate.
  intros ->. apply parent_face_attr_in, Hmax in E. lia.
Qed.

Lemma valid_same p p' : valid p -> valid p' -> fc p = fc p' -> fst p = fst p' -> p = p'.
Proof.
  intros V V' E E1. destruct p as [i ib], p' as [i' ib']. simpl in E1. subst i'.
  f_equal. apply (one_per_face _ Hconf i ib ib' (fc (i, ib))).
  - apply (valid_on_face (i, ib)); auto.
  - rewrite E. apply (valid_on_face (i, ib')); auto.
Qed.

Lemma valid_two p1 p2 p3 : valid p1 -> valid p2 -> valid p3 -> fc p1 = fc p2 -> fc p2 = fc p3 ->
  fst p1 = fst p2 \/ fst p2 = fst p3 \/ fst p1 = fst p3.
Proof.
  intros V1 V2 V3 E1 E2.
  apply (two_sides _ Hconf _ _ _ (snd p1) (snd p2) (snd p3) (fc p1)).
  - apply valid_on_face; auto.
  - rewrite E1. apply valid_on_face; auto.
  - rewrite E1, E2. apply valid_on_face; auto.
Qed.

(** Two matched quadruples on the same face coincide. *)
Lemma matched_face_inj q q' : matched q -> matched q' -> fc (fst q) = fc (fst q') -> q = q'.
Proof.
  intros (V1 & V2 & L & E & _) (V1' & V2' & L' & E' & _) F.
  unfold qi, qj in *.
  assert (A1 : fst (fst q') = fst (fst q) \/ fst (fst q') = fst (snd q)).
  { destruct (valid_two (fst q) (snd q) (fst q')) as [|[|]]; auto; try lia; congruence. }
  assert (A2 : fst (snd q') = fst (fst q) \/ fst (snd q') = fst (snd q)).
  { destruct (valid_two (fst q) (snd q) (snd q')) as [|[|]]; auto; try lia; congruence. }
  destruct A1 as [A1|A1], A2 as [A2|A2]; try lia.
  assert (fst q = fst q') by (apply valid_same; auto).
  assert (snd q = snd q') by (apply valid_same; auto; congruence).
  destruct q, q'; simpl in *; congruence.
Qed.

Definition touches (q : quad) (p : nat * nat) : Prop := fst q = p \/ snd q = p.

Lemma touch_same q q' p : matched q -> matched q' -> touches q p -> touches q' p -> q = q'.
Proof.
  intros M M' T T'. apply matched_face_inj; auto.
  assert (E : fc (fst q) = fc (snd q)) by apply M. assert (E' : fc (fst q') = fc (snd q')) by apply M'.
  destruct T as [<-|<-], T' as [T'|T']; congruence.
Qed.

Definition info_of (q : quad) : itf_info :=
  let b := elem_at meshes (qi q) (qib q) in
  let i12 := find_parent_interface_info (faces (be_face b)) (be_elem b) in
  ItfInfo (qib q) (qjb q) (fst i12) (snd i12).

Definition at_pair (i j : nat) (q : quad) : bool := (qi q =? i) && (qj q =? j).

Record Inv (M : list quad) (st : bstate) : Prop := {
  inv_matched : forall q, In q M -> matched q;
  inv_next : bs_next st = (gen + 1 + Z.of_nat (length (bs_ports st)))%Z;
  inv_len : length (bs_infos st) = length (bs_ports st);
  inv_port : forall k p, nth_error (bs_ports st) k = Some p ->
    pi_attr p = (gen + 1 + Z.of_nat k)%Z /\ pi_attr1 p = pi_attr p /\ pi_attr2 p = pi_attr p /\
    bs_ia st (pi_mesh1 p) (pi_mesh2 p) = pi_attr p /\ bs_im st (pi_mesh1 p) (pi_mesh2 p) = Some k /\
    nth_error (bs_infos st) k = Some (map info_of (filter (at_pair (pi_mesh1 p) (pi_mesh2 p)) M));
  inv_ia : forall i j, (bs_ia st i j <= 0)%Z ->
    forall p, In p (bs_ports st) -> ~ (pi_mesh1 p = i /\ pi_mesh2 p = j);
  inv_ia' : forall i j, (0 < bs_ia st i j)%Z ->
    exists k p, nth_error (bs_ports st) k = Some p /\ pi_mesh1 p = i /\ pi_mesh2 p = j;
  inv_ports_of : forall q, In q M -> (0 < bs_ia st (qi q) (qj q))%Z;
  inv_of_ports : forall p, In p (bs_ports st) -> exists q, In q M /\ qi q = pi_mesh1 p /\ qj q = pi_mesh2 p;
  inv_nodup : NoDup (map (fun p => (pi_mesh1 p, pi_mesh2 p)) (bs_ports st));
  inv_shape : shape meshes (bs_attrs st);
  inv_attr : forall q p, In q M -> touches q p ->
    attr_at (bs_attrs st) (fst p) (snd p) = bs_ia st (qi q) (qj q);
  inv_untouched : forall p, valid p -> (forall q, In q M -> ~ touches q p) ->
    attr_at (bs_attrs st) (fst p) (snd p) = orig p }.

Lemma Inv_init : Inv [] (BState (submesh_attrs pb gen meshes) [] []
   (fun _ _ => (-1)%Z) (fun _ _ => None) (gen + 1)%Z).
Proof.
  constructor; simpl; try tauto; try lia.
  - intros [|k] p; discriminate.
  - constructor.
  - apply shape_init.
  - intros p [V1 V2] _. unfold orig. apply submesh_attrs_at; auto.
Qed.

Lemma nth_error_snoc {A} (l : list A) a k x : nth_error (l ++ [a]) k = Some x ->
  nth_error l k = Some x \/ (k = length l /\ x = a).
Proof.
  intros H. destruct (Nat.lt_ge_cases k (length l)) as [L|L].
  - rewrite nth_error_app1 in H; auto.
  - rewrite nth_error_app2 in H by auto. destruct (k - length l) as [|n] eqn:E; simpl in H.
    + injection H as <-. right. split; auto. lia.
    + destruct n; discriminate.
Qed.

(** The state just after [open_port], before the info is appended. *)
Lemma open_port_spec M st i j : Inv M st ->
  (forall q, In q M -> at_pair i j q = true -> (0 < bs_ia st i j)%Z) ->
  let st1 := open_port i j st in
  exists k, bs_im st1 i j = Some k /\ bs_ia st1 i j = (gen + 1 + Z.of_nat k)%Z /\
  bs_attrs st1 = bs_attrs st /\
  bs_next st1 = (gen + 1 + Z.of_nat (length (bs_ports st1)))%Z /\
  length (bs_infos st1) = length (bs_ports st1) /\
  (exists p, nth_error (bs_ports st1) k = Some p /\ pi_mesh1 p = i /\ pi_mesh2 p = j) /\
  (forall k p, nth_error (bs_ports st1) k = Some p ->
    pi_attr p = (gen + 1 + Z.of_nat k)%Z /\ pi_attr1 p = pi_attr p /\ pi_attr2 p = pi_attr p /\
    bs_ia st1 (pi_mesh1 p) (pi_mesh2 p) = pi_attr p /\ bs_im st1 (pi_mesh1 p) (pi_mesh2 p) = Some k /\
    nth_error (bs_infos st1) k = Some (map info_of (filter (at_pair (pi_mesh1 p) (pi_mesh2 p)) M))) /\
  (forall i' j', (bs_ia st1 i' j' <= 0)%Z ->
    forall p, In p (bs_ports st1) -> ~ (pi_mesh1 p = i' /\ pi_mesh2 p = j')) /\
  (forall i' j', (0 < bs_ia st1 i' j')%Z ->
    exists k p, nth_error (bs_ports st1) k = Some p /\ pi_mesh1 p = i' /\ pi_mesh2 p = j') /\
  (forall i' j', (0 < bs_ia st i' j')%Z -> bs_ia st1 i' j' = bs_ia st i' j') /\
  (forall p, In p (bs_ports st1) -> In p (bs_ports st) \/ (pi_mesh1 p = i /\ pi_mesh2 p = j)) /\
  NoDup (map (fun p => (pi_mesh1 p, pi_mesh2 p)) (bs_ports st1)).
Proof.
  intros I Hnew. unfold open_port. destruct (Z.leb_spec (bs_ia st i j) 0) as [L|L]; cbn zeta.
  - exists (length (bs_ports st)). simpl.
    pose proof (inv_next _ _ I) as Hn. pose proof (inv_len _ _ I) as Hl.
    assert (S2 : forall {A} (f : nat -> nat -> A) a, set2 f i j a i j = a).
    { intros A f a. unfold set2. rewrite !Nat.eqb_refl. reflexivity. }
    assert (S2' : forall {A} (f : nat -> nat -> A) a i' j', ~ (i' = i /\ j' = j) -> set2 f i j a i' j' = f i' j').
    { intros A f a i' j' N. unfold set2. destruct (Nat.eqb_spec i' i), (Nat.eqb_spec j' j); simpl; auto. tauto. }
    rewrite !S2. split; auto. split; [lia|]. split; auto. split.
    { rewrite app_length; simpl. lia. }
    split; [rewrite !app_length; simpl; lia|]. split.
    { eexists. rewrite nth_error_app2, Nat.sub_diag by lia. simpl. split; [reflexivity|]. auto. }
    split; [|split; [|split; [|split; [|split]]]].
    + intros k p Hk. apply nth_error_snoc in Hk as [Hk|[-> ->]].
      * destruct (inv_port _ _ I _ _ Hk) as (P1 & P2 & P3 & P4 & P5 & P6).
        assert (N : ~ (pi_mesh1 p = i /\ pi_mesh2 p = j)).
        { apply (inv_ia _ _ I i j L). eapply nth_error_In; eauto. }
        rewrite !S2' by auto. repeat (split; auto).
        rewrite nth_error_app1; auto. apply nth_error_Some. congruence.
      * simpl. rewrite !S2. repeat (split; [lia|]). split; auto.
        rewrite nth_error_app2, <- Hl, Nat.sub_diag by lia. simpl. f_equal.
        assert (F : filter (at_pair i j) M = []).
        { clear -Hnew L. induction M as [|q M IH]; simpl; auto.
          destruct (at_pair i j q) eqn:E.
          - pose proof (Hnew q (or_introl eq_refl) E). lia.
          - apply IH. intros; apply (Hnew q0); simpl; auto. }
        rewrite F. reflexivity.
    + intros i' j' L' p Hp. apply in_app_iff in Hp as [Hp|[<-|[]]].
      * intros N. assert (N' : ~ (i' = i /\ j' = j)).
        { intros [-> ->]. apply (inv_ia _ _ I i j L p Hp N). }
        rewrite S2' in L' by auto. apply (inv_ia _ _ I i' j' L' p Hp N).
      * simpl. intros [<- <-]. rewrite S2 in L'. lia.
    + intros i' j' L'. destruct (Nat.eq_dec i' i) as [->|N1]; [destruct (Nat.eq_dec j' j) as [->|N2]|].
      * exists (length (bs_ports st)). eexists. rewrite nth_error_app2, Nat.sub_diag by lia. simpl. auto.
      * rewrite S2' in L' by tauto. destruct (inv_ia' _ _ I _ _ L') as (k & p & K & K').
        exists k, p. rewrite nth_error_app1; auto. apply nth_error_Some; congruence.
      * rewrite S2' in L' by tauto. destruct (inv_ia' _ _ I _ _ L') as (k & p & K & K').
        exists k, p. rewrite nth_error_app1; auto. apply nth_error_Some; congruence.
    + intros i' j' L'. apply S2'. intros [-> ->]. lia.
    + intros p Hp. apply in_app_iff in Hp as [Hp|[<-|[]]]; auto.
    + rewrite map_app. simpl. pose proof (inv_nodup _ _ I) as ND.
      assert (NI : ~ In (i, j) (map (fun p => (pi_mesh1 p, pi_mesh2 p)) (bs_ports st))).
      { intros H. apply in_map_iff in H as (p & [= E1 E2] & Hp). apply (inv_ia _ _ I i j L p Hp); auto. }
      apply (Permutation_NoDup (l := (i, j) :: map (fun p => (pi_mesh1 p, pi_mesh2 p)) (bs_ports st))).
      * apply Permutation_cons_append.
      * constructor; auto.
  - destruct (inv_ia' _ _ I _ _ L) as (k & p & K & E1 & E2).
    destruct (inv_port _ _ I _ _ K) as (P1 & P2 & P3 & P4 & P5 & P6).
    exists k. rewrite E1, E2 in *.
    split; auto. split; [congruence|]. split; auto. split; [apply I|]. split; [apply I|].
    split; [exists p; auto|]. split; [apply I|]. split; [apply (inv_ia _ _ I)|].
    split; [apply I|]. split; auto. split; auto. apply I.
Qed.

Lemma visit_match M st q : Inv M st -> matched q -> ~ In q M ->
  exists st', visit_pair faces meshes gen (qi q) (qib q) st (snd q) = Ok st' /\ Inv (M ++ [q]) st'.
Proof.
  intros I Mq NI. destruct q as [[i ib] [j jb]]. unfold qi, qib; simpl.
  assert (Mq' := Mq). destruct Mq' as (V1 & V2 & Lt & E & Int). unfold qi, qj in Lt. simpl in *.
  unfold fc in E; simpl in E. rewrite E, Nat.eqb_refl.
  assert (Aj : attr_at (bs_attrs st) j jb = gen).
  { pose proof (inv_untouched _ _ I (j, jb) V2) as U. simpl in U. rewrite U.
    - apply orig_gen; auto. unfold fc in Int |- *; simpl in *. rewrite <- E; auto.
    - intros q' Hq' T. apply NI. pose proof (inv_matched _ _ I _ Hq').
      rewrite (touch_same ((i, ib), (j, jb)) q' (j, jb)); auto. right; auto. }
  rewrite Aj, Z.eqb_refl. simpl.
  destruct (open_port_spec M st i j I) as (k & Im & Ia & At & Nx & Ln & (pk & Pk & Pm1 & Pm2) & Port & IaN & IaP & IaS & PIn & ND).
  { intros q Hq Hat. apply andb_prop in Hat as [A1 A2]. apply Nat.eqb_eq in A1, A2.
    rewrite <- A1, <- A2. apply (inv_ports_of _ _ I); auto. }
  set (st1 := open_port i j st) in *.
  rewrite Im.
  destruct (find_parent_interface_info (faces (be_face (elem_at meshes j jb))) (be_elem (elem_at meshes i ib))) as [inf1 inf2] eqn:Finf.
  assert (Lk : k < length (bs_ports st1)) by (apply nth_error_Some; congruence).
  rewrite (proj2 (Nat.ltb_lt k (length (bs_infos st1)))) by lia. simpl.
  eexists. split; [reflexivity|].
  assert (Hinfo : info_of ((i, ib), (j, jb)) = ItfInfo ib jb inf1 inf2).
  { unfold info_of, qi, qib, qjb; simpl. rewrite E, Finf. reflexivity. }
  destruct V1 as [V1a V1b], V2 as [V2a V2b]. simpl in V1a, V1b, V2a, V2b.
  assert (Sh : shape meshes (bs_attrs st1)) by (rewrite At; apply I).
  assert (Sh1 := shape_set meshes _ i ib (bs_ia st1 i j) Sh).
  constructor; cbn [bs_attrs bs_ports bs_infos bs_ia bs_im bs_next].
  - intros q Hq. apply in_app_iff in Hq as [Hq|[<-|[]]]; auto. apply (inv_matched _ _ I); auto.
  - auto.
  - rewrite upd_length. auto.
  - intros k' p Hk'. destruct (Port _ _ Hk') as (P1 & P2 & P3 & P4 & P5 & P6).
    repeat (split; auto). rewrite filter_app, map_app. simpl.
    unfold at_pair at 2. unfold qi, qj; simpl.
    destruct (Nat.eq_dec k' k) as [->|N].
    + rewrite Pk in Hk'. injection Hk' as <-. rewrite Pm1, Pm2, !Nat.eqb_refl. simpl.
      rewrite nth_error_upd_eq by lia. rewrite (nth_error_nth _ _ _ P6), Hinfo, Pm1, Pm2. reflexivity.
    + rewrite nth_error_upd_ne by auto. rewrite P6.
      destruct (Nat.eqb_spec i (pi_mesh1 p)) as [e1|], (Nat.eqb_spec j (pi_mesh2 p)) as [e2|]; simpl;
        rewrite ?app_nil_r; auto.
      exfalso. apply N. rewrite <- e1, <- e2, Im in P5. congruence.
  - auto.
  - auto.
  - intros q Hq. apply in_app_iff in Hq as [Hq|[<-|[]]].
    + pose proof (inv_ports_of _ _ I _ Hq). rewrite IaS; auto.
    + unfold qi, qj; simpl. lia.
  - intros p Hp. destruct (PIn _ Hp) as [Hp'|[<- <-]].
    + destruct (inv_of_ports _ _ I _ Hp') as (q & Hq & ?). exists q. rewrite in_app_iff. auto.
    + eexists. split; [apply in_app_iff; right; left; reflexivity|]. auto.
  - auto.
  - apply shape_set; auto.
  - intros q p Hq T. rewrite (attr_set meshes) by auto. rewrite (attr_set meshes) by auto.
    apply in_app_iff in Hq as [Hq|[<-|[]]].
    + pose proof (inv_matched _ _ I _ Hq) as Mq'.
      assert (NT : ~ touches ((i, ib), (j, jb)) p).
      { intros T'. apply NI. rewrite (touch_same ((i, ib), (j, jb)) q p); auto. }
      rewrite At, (inv_attr _ _ I q p Hq T), (IaS (qi q) (qj q)) by (apply (inv_ports_of _ _ I); auto).
      destruct p as [k' kb']. simpl.
      destruct (Nat.eqb_spec k' j) as [e1|], (Nat.eqb_spec kb' jb) as [e2|]; simpl;
      destruct (Nat.eqb_spec k' i) as [e3|], (Nat.eqb_spec kb' ib) as [e4|]; simpl; auto;
        exfalso; apply NT; unfold touches; simpl; subst; auto.
    + unfold qi, qj; simpl. destruct T as [<-|<-]; simpl; rewrite !Nat.eqb_refl; simpl; auto.
      destruct ((i =? j) && (ib =? jb)); auto.
  - intros p Vp Hp. rewrite (attr_set meshes) by auto. rewrite (attr_set meshes) by auto.
    rewrite At.
    rewrite (inv_untouched _ _ I p Vp) by (intros q Hq; apply Hp, in_app_iff; auto).
    assert (NT : ~ touches ((i, ib), (j, jb)) p) by (apply Hp, in_app_iff; simpl; auto).
    destruct p as [k' kb']. simpl.
    destruct (Nat.eqb_spec k' j) as [e1|], (Nat.eqb_spec kb' jb) as [e2|]; simpl;
    destruct (Nat.eqb_spec k' i) as [e3|], (Nat.eqb_spec kb' ib) as [e4|]; simpl; auto;
      exfalso; apply NT; unfold touches; simpl; subst; auto.
Qed.

Definition same_face (p q : nat * nat) : bool := fc p =? fc q.

(** All the matches found from boundary element [p]. *)
Definition matches_of (p : nat * nat) : list quad :=
  match parent_face_attr pb (fc p) with
  | None => map (pair p) (filter (same_face p) (bdr_indices meshes (fst p + 1)))
  | Some _ => []
  end.

Lemma matches_of_in p q : valid p -> In q (matches_of p) <-> fst q = p /\ matched q.
Proof.
  intros V. unfold matches_of. split.
  - destruct (parent_face_attr pb (fc p)) eqn:E; simpl; [tauto|].
    intros H. apply in_map_iff in H as ((j, jb) & <- & H). apply filter_In in H as [H1 H2].
    apply bdr_indices_in in H1. apply Nat.eqb_eq in H2. split; auto.
    split; auto. split; [split; simpl; lia|]. unfold qi, qj; simpl. split; [lia|]. split; auto.
    apply parent_face_attr_none; auto.
  - intros [<- (V1 & V2 & L & E & Int)]. apply parent_face_attr_none in Int. rewrite Int.
    destruct q as [p [j jb]]. simpl in *. apply in_map. apply filter_In.
    destruct V2 as [V2a V2b]. unfold qi, qj in L; simpl in *. split.
    + apply bdr_indices_in. lia.
    + apply Nat.eqb_eq; auto.
Qed.

Lemma visit_elem_spec Pre p post st :
  bdr_indices meshes 0 = Pre ++ p :: post ->
  Inv (flat_map matches_of Pre) st ->
  exists st', visit_elem faces meshes gen st p = Ok st' /\ Inv (flat_map matches_of (Pre ++ [p])) st'.
Proof.
  intros Hl I. rewrite flat_map_app. simpl. rewrite app_nil_r.
  assert (Vall : forall x, In x (bdr_indices meshes 0) -> valid x).
  { intros (x, y) Hx. apply bdr_indices_in in Hx. split; simpl; lia. }
  assert (Vp : valid p) by (apply Vall; rewrite Hl; apply in_app_iff; simpl; auto).
  assert (Hfresh : forall q, In q (flat_map matches_of Pre) -> fst q <> p).
  { intros q Hq E. apply in_flat_map in Hq as (x & Hx & Hq).
    apply matches_of_in in Hq; [|apply Vall; rewrite Hl; apply in_app_iff; auto].
    destruct Hq as [<- _]. pose proof (bdr_indices_NoDup meshes 0) as ND. rewrite Hl in ND.
    apply NoDup_remove_2 in ND. apply ND, in_app_iff. left. congruence. }
  destruct p as [i ib]. unfold visit_elem.
  destruct (Z.eqb_spec (attr_at (bs_attrs st) i ib) gen) as [A|A].
  - assert (Int : interior pb (fc (i, ib))).
    { destruct (parent_face_attr pb (fc (i, ib))) as [a|] eqn:Ea; [|apply parent_face_attr_none; auto].
      exfalso.
      assert (U : attr_at (bs_attrs st) (fst (i, ib)) (snd (i, ib)) = orig (i, ib)).
      { apply (inv_untouched _ _ I); auto. intros q Hq T. pose proof (inv_matched _ _ I _ Hq) as Mq.
        assert (fc (i, ib) = fc (fst q)) by (destruct T as [<-|<-]; auto; symmetry; apply Mq).
        destruct Mq as (_ & _ & _ & _ & Int). rewrite <- H in Int. apply parent_face_attr_none in Int. congruence. }
      simpl in U. rewrite U in A. apply orig_gen in A; auto. apply parent_face_attr_none in A. congruence. }
    apply parent_face_attr_none in Int. unfold matches_of at 2. rewrite Int. apply parent_face_attr_none in Int.
    pose (J := fun (done : list (nat * nat)) s =>
       Inv (flat_map matches_of Pre ++ map (pair (i, ib)) (filter (same_face (i, ib)) done)) s).
    destruct (ofold_inv (visit_pair faces meshes gen i ib) J (bdr_indices meshes (fst (i, ib) + 1)) st) as (st' & E & HJ).
    + unfold J. simpl. rewrite app_nil_r. auto.
    + intros pre (j, jb) suf s Hs HJ. unfold J in *.
      rewrite filter_app, map_app. simpl.
      assert (Vj : i < j < length meshes /\ jb < length (nth j meshes [])).
      { assert (H : In (j, jb) (bdr_indices meshes (fst (i, ib) + 1))) by (rewrite Hs; apply in_app_iff; simpl; auto).
        apply bdr_indices_in in H. simpl in H. lia. }
      destruct (same_face (i, ib) (j, jb)) eqn:Es.
      * simpl. rewrite app_assoc.
        apply (visit_match _ s ((i, ib), (j, jb))); auto.
        -- split; auto. split; [split; simpl; lia|]. split; [unfold qi, qj; simpl; lia|].
           apply Nat.eqb_eq in Es. auto.
        -- intros Hin. apply in_app_iff in Hin as [Hin|Hin].
           ++ apply Hfresh in Hin. auto.
           ++ apply in_map_iff in Hin as (x & [= ->] & Hx). apply filter_In in Hx as [Hx _].
              pose proof (bdr_indices_NoDup meshes (fst (i, ib) + 1)) as ND. rewrite Hs in ND.
              apply NoDup_remove_2 in ND. apply ND, in_app_iff. auto.
      * exists s. simpl. unfold same_face, fc in Es. simpl in Es. rewrite Es. rewrite !app_nil_r. auto.
    + exists st'. split; auto.
  - exists st. split; auto.
    assert (E : matches_of (i, ib) = []).
    { unfold matches_of. destruct (parent_face_attr pb (fc (i, ib))) eqn:Ea; auto.
      destruct (filter (same_face (i, ib)) (bdr_indices meshes (fst (i, ib) + 1))) as [|(j, jb) t] eqn:Ef; auto.
      exfalso.
      assert (Hin : In (j, jb) (filter (same_face (i, ib)) (bdr_indices meshes (fst (i, ib) + 1)))) by (rewrite Ef; left; auto).
      apply filter_In in Hin as [H1 H2]. apply bdr_indices_in in H1. simpl in H1. apply Nat.eqb_eq in H2.
      apply A. apply parent_face_attr_none in Ea.
      pose proof (inv_untouched _ _ I (i, ib) Vp) as U. simpl in U. rewrite U.
      - apply orig_gen; auto.
      - intros q Hq T. pose proof (inv_matched _ _ I _ Hq) as Mq.
        assert (Mn : matched ((i, ib), (j, jb))).
        { split; auto. split; [split; simpl; lia|]. split; [unfold qi, qj; simpl; lia|]. auto. }
        assert (q = ((i, ib), (j, jb))) by (apply (touch_same _ _ (i, ib)); auto; left; auto).
        subst q. apply Hfresh in Hq. auto. }
    rewrite E, app_nil_r. auto.
Qed.

Definition all_matches : list quad := flat_map matches_of (bdr_indices meshes 0).

Lemma all_matches_in q : In q all_matches <-> matched q.
Proof.
  unfold all_matches. rewrite in_flat_map. split.
  - intros ((i, ib) & Hx & Hq). apply matches_of_in in Hq; [tauto|].
    apply bdr_indices_in in Hx. split; simpl; lia.
  - intros Mq. exists (fst q). assert (V : valid (fst q)) by apply Mq. split.
    + destruct q as [[i ib] q2]. apply bdr_indices_in. destruct V; simpl in *. lia.
    + apply matches_of_in; auto.
Qed.

Lemma all_matches_NoDup : NoDup all_matches.
Proof.
  unfold all_matches.
  assert (Hsub : forall p, In p (bdr_indices meshes 0) -> valid p).
  { intros (x, y) Hx. apply bdr_indices_in in Hx. split; simpl; lia. }
  pose proof (bdr_indices_NoDup meshes 0) as ND.
  induction (bdr_indices meshes 0) as [|p l IH]; simpl; [constructor|].
  inversion_clear ND. assert (V : valid p) by (apply Hsub; simpl; auto).
  assert (IHl : NoDup (flat_map matches_of l)) by (apply IH; auto; intros; apply Hsub; simpl; auto).
  assert (Np : NoDup (matches_of p)).
  { unfold matches_of. destruct (parent_face_attr pb (fc p)); [constructor|].
    apply Injective_map_NoDup; [intros x y [=]; auto|].
    apply NoDup_filter, bdr_indices_NoDup. }
  assert (Dj : forall q, In q (matches_of p) -> ~ In q (flat_map matches_of l)).
  { intros q H1 H2. apply matches_of_in in H1 as [H1 _]; auto. apply in_flat_map in H2 as (x & Hx & H2).
    apply matches_of_in in H2 as [H2 _]; [|apply Hsub; simpl; auto]. congruence. }
  clear -IHl Np Dj. induction (matches_of p) as [|q m IH]; simpl; auto.
  inversion_clear Np. constructor.
  - rewrite in_app_iff. intros [K|K]; auto. apply (Dj q); simpl; auto.
  - apply IH; auto. intros; apply Dj; simpl; auto.
Qed.

Lemma build_run : exists st,
  ofold (visit_elem faces meshes gen) (bdr_indices meshes 0)
        (BState (submesh_attrs pb gen meshes) [] [] (fun _ _ => (-1)%Z) (fun _ _ => None) (gen + 1)%Z) = Ok st /\
  Inv all_matches st.
Proof.
  apply (ofold_inv _ (fun done st => Inv (flat_map matches_of done) st)).
  - apply Inv_init.
  - intros pre x suf s E I. apply (visit_elem_spec pre x suf); auto.
Qed.

Lemma shared_matched i ib j jb f : i < j ->
  shared pb meshes i ib j jb f -> matched ((i, ib), (j, jb)) /\ fc (i, ib) = f.
Proof.
  intros L (H1 & H2 & H3). apply on_face_elem in H1 as (E1 & A1 & B1), H2 as (E2 & A2 & B2).
  unfold matched, fc, valid, qi, qj; simpl. subst f. rewrite E2. intuition.
Qed.

Lemma matched_shared i ib j jb : matched ((i, ib), (j, jb)) ->
  i < j /\ shared pb meshes i ib j jb (fc (i, ib)).
Proof.
  intros (V1 & V2 & L & E & Int). unfold qi, qj in L; simpl in *. split; auto. split; [|split; auto].
  - apply (valid_on_face (i, ib)); auto.
  - rewrite E. apply (valid_on_face (j, jb)); auto.
Qed.

(** Everything the caller can observe, for the state reached. *)
Lemma build_correct st : Inv all_matches st ->
  (forall i j, (exists p, In p (bs_ports st) /\ pi_mesh1 p = i /\ pi_mesh2 p = j) <->
               i < j /\ adjacent pb meshes i j) /\
  NoDup (map (fun p => (pi_mesh1 p, pi_mesh2 p)) (bs_ports st)) /\
  length (bs_infos st) = length (bs_ports st) /\
  (forall k p l, nth_error (bs_ports st) k = Some p -> nth_error (bs_infos st) k = Some l ->
     NoDup (map (fun x => (ii_be1 x, ii_be2 x)) l) /\
     (forall ib jb, In (ib, jb) (map (fun x => (ii_be1 x, ii_be2 x)) l) <->
                    exists f, shared pb meshes (pi_mesh1 p) ib (pi_mesh2 p) jb f) /\
     (sides_recorded faces meshes ->
      forall x f ei ej, In x l ->
        on_side meshes (pi_mesh1 p) (ii_be1 x) f ei -> on_side meshes (pi_mesh2 p) (ii_be2 x) f ej ->
        side_code (faces f) ei (ii_inf1 x) /\ side_code (faces f) ej (ii_inf2 x))) /\
  NoDup (map pi_attr (bs_ports st)) /\
  (forall p, In p (bs_ports st) -> (gen < pi_attr p)%Z /\ pi_attr1 p = pi_attr p /\ pi_attr2 p = pi_attr p) /\
  shape meshes (bs_attrs st) /\
  (forall p ib jb f, In p (bs_ports st) -> shared pb meshes (pi_mesh1 p) ib (pi_mesh2 p) jb f ->
     attr_at (bs_attrs st) (pi_mesh1 p) ib = pi_attr p /\ attr_at (bs_attrs st) (pi_mesh2 p) jb = pi_attr p) /\
  (forall i ib f, on_face meshes i ib f -> (forall j jb, j <> i -> ~ shared pb meshes i ib j jb f) ->
     attr_at (bs_attrs st) i ib = match parent_face_attr pb f with Some a => a | None => gen end).
Proof.
  intros I.
  assert (PQ : forall p, In p (bs_ports st) -> pi_mesh1 p < pi_mesh2 p).
  { intros p Hp. destruct (inv_of_ports _ _ I _ Hp) as (q & Hq & <- & <-).
    apply all_matches_in in Hq. apply Hq. }
  split; [|split; [|split; [|split; [|split; [|split; [|split; [|split]]]]]]].
  - intros i j. split.
    + intros (p & Hp & <- & <-). split; [apply PQ; auto|].
      destruct (inv_of_ports _ _ I _ Hp) as ([[i' ib] [j' jb]] & Hq & <- & <-).
      apply all_matches_in in Hq. unfold qi, qj; simpl. apply matched_shared in Hq as [_ Hs].
      exists ib, jb, (fc (i', ib)). auto.
    + intros [L (ib & jb & f & Hs)]. apply shared_matched in Hs as [Hm _]; auto.
      apply all_matches_in in Hm. pose proof (inv_ports_of _ _ I _ Hm) as Hp.
      destruct (inv_ia' _ _ I _ _ Hp) as (k & p & K & E1 & E2). exists p. split; auto.
      eapply nth_error_In; eauto.
  - apply I.
  - apply I.
  - intros k p l Hk Hl. pose proof (PQ p (nth_error_In _ _ Hk)) as Lp.
    destruct (inv_port _ _ I _ _ Hk) as (_ & _ & _ & _ & _ & P6).
    rewrite Hl in P6. injection P6 as ->. rewrite map_map.
    assert (Fin : forall q, In q (filter (at_pair (pi_mesh1 p) (pi_mesh2 p)) all_matches) <->
                            matched q /\ qi q = pi_mesh1 p /\ qj q = pi_mesh2 p).
    { intros q. rewrite filter_In, all_matches_in. unfold at_pair.
      rewrite andb_true_iff, !Nat.eqb_eq. tauto. }
    split; [|split].
    + assert (ND := NoDup_filter (at_pair (pi_mesh1 p) (pi_mesh2 p)) all_matches_NoDup).
      clear -ND Fin. revert Fin.
      induction (filter (at_pair (pi_mesh1 p) (pi_mesh2 p)) all_matches) as [|q m IH]; intros Fin; simpl; [constructor|].
      inversion_clear ND.
      assert (K : forall q', In q' m -> qi q' = pi_mesh1 p /\ qj q' = pi_mesh2 p).
      { intros q' Hq'. apply (Fin q'). simpl; auto. }
      assert (Kq : qi q = pi_mesh1 p /\ qj q = pi_mesh2 p) by (apply (Fin q); simpl; auto).
      clear Fin IH. revert K H. revert H0.
      assert (G : forall m', NoDup m' -> (forall q', In q' m' -> qi q' = pi_mesh1 p /\ qj q' = pi_mesh2 p) ->
                   NoDup (map (fun x => (ii_be1 (info_of x), ii_be2 (info_of x))) m')).
      { clear. induction m' as [|q m IH]; intros ND K; simpl; [constructor|].
        inversion_clear ND. constructor; [|apply IH; auto; intros; apply K; simpl; auto].
        intros Hin. apply in_map_iff in Hin as (q' & E & Hq'). unfold info_of in E; simpl in E.
        injection E as E1 E2. apply H.
        assert (qi q = pi_mesh1 p /\ qj q = pi_mesh2 p) as [? ?] by (apply K; simpl; auto).
        assert (qi q' = pi_mesh1 p /\ qj q' = pi_mesh2 p) as [? ?] by (apply K; simpl; auto).
        destruct q as [[a b] [c d]], q' as [[a' b'] [c' d']].
        unfold qi, qib, qj, qjb in *; simpl in *. congruence. }
      intros NDm K Hq. apply (G (q :: m)); [constructor; auto|].
      intros q' [<-|Hq']; auto.
    + intros ib jb. split.
      * intros Hin. apply in_map_iff in Hin as (q & E & Hq). unfold info_of in E; simpl in E.
        injection E as <- <-. apply Fin in Hq as (Hm & <- & <-).
        destruct q as [[i ib] [j jb]]. apply matched_shared in Hm as [_ Hs]. eauto.
      * intros (f & Hs). apply shared_matched in Hs as [Hm _]; auto.
        apply in_map_iff. exists ((pi_mesh1 p, ib), (pi_mesh2 p, jb)). split; auto.
        apply Fin. auto.
    + intros Hsides x f ei ej Hx S1 S2. apply in_map_iff in Hx as (q & <- & Hq).
      apply Fin in Hq as (Hm & E1 & E2). destruct q as [[i ib] [j jb]].
      unfold qi, qj in E1, E2; simpl in E1, E2. subst i j.
      unfold info_of, qib, qjb, qi in *; simpl in *.
      destruct S1 as (m1 & N1 & B1). assert (Eb : elem_at meshes (pi_mesh1 p) ib = BdrElem f ei).
      { unfold elem_at. rewrite (nth_error_nth _ _ _ N1), (nth_error_nth _ _ _ B1). reflexivity. }
      rewrite Eb. simpl.
      assert (D : (ei = pf_el1 (faces f) /\ ej = pf_el2 (faces f)) \/ (ei = pf_el2 (faces f) /\ ej = pf_el1 (faces f))).
      { apply (Hsides (pi_mesh1 p) (pi_mesh2 p) ib jb f ei ej); auto; [lia|]. exists m1; auto. }
      unfold find_parent_interface_info, side_code.
      destruct (Nat.eqb_spec ei (pf_el1 (faces f))) as [Ee|Ne]; simpl; intuition congruence.
  - assert (A : forall k p, nth_error (bs_ports st) k = Some p -> pi_attr p = (gen + 1 + Z.of_nat k)%Z).
    { intros k p Hk. apply (inv_port _ _ I _ _ Hk). }
    apply NoDup_nth_error. intros a b La E. rewrite map_length in La.
    rewrite !nth_error_map in E.
    destruct (nth_error (bs_ports st) a) as [pa|] eqn:Ea; [|apply nth_error_None in Ea; lia].
    destruct (nth_error (bs_ports st) b) as [pb'|] eqn:Eb; [|discriminate].
    simpl in E. injection E as E. rewrite (A _ _ Ea), (A _ _ Eb) in E. lia.
  - intros p Hp. apply In_nth_error in Hp as (k & Hk).
    destruct (inv_port _ _ I _ _ Hk) as (P1 & P2 & P3 & _). split; [lia|auto].
  - apply I.
  - intros p ib jb f Hp Hs. pose proof (PQ _ Hp) as L. apply shared_matched in Hs as [Hm _]; auto.
    apply all_matches_in in Hm. apply In_nth_error in Hp as (k & Hk).
    destruct (inv_port _ _ I _ _ Hk) as (_ & _ & _ & P4 & _).
    rewrite <- P4. split.
    + apply (inv_attr _ _ I _ (pi_mesh1 p, ib) Hm). left; auto.
    + apply (inv_attr _ _ I _ (pi_mesh2 p, jb) Hm). right; auto.
  - intros i ib f Hf Hno. pose proof (on_face_elem _ _ _ _ Hf) as (E & A & B).
    assert (V : valid (i, ib)) by (split; auto).
    pose proof (inv_untouched _ _ I (i, ib) V) as U. simpl in U. rewrite U.
    + unfold orig, submesh_attr; simpl. rewrite E. reflexivity.
    + intros [[i' ib'] [j' jb']] Hq T. apply all_matches_in in Hq.
      pose proof (matched_shared _ _ _ _ Hq) as [L (S1 & S2 & S3)].
      destruct T as [T|T]; simpl in T; injection T as -> ->.
      * apply (Hno j' jb'); [lia|]. unfold fc in *; simpl in *. rewrite E in *. split; auto.
      * assert (F : fc (i', ib') = f).
        { destruct Hq as (_ & _ & _ & Ef & _). simpl in Ef. rewrite Ef. unfold fc; simpl; auto. }
        rewrite F in *. apply (Hno i' ib'); [lia|]. split; auto.
Qed.

Lemma shared_dec i ib f : on_face meshes i ib f ->
  (exists j jb, j <> i /\ shared pb meshes i ib j jb f) \/
  (forall j jb, j <> i -> ~ shared pb meshes i ib j jb f).
Proof.
  intros Hf. pose proof (on_face_elem _ _ _ _ Hf) as (E & _).
  assert (D : forall q : quad, {touches q (i, ib)} + {~ touches q (i, ib)}).
  { intros [[a b] [c d]]. unfold touches; simpl.
    destruct (Nat.eq_dec a i), (Nat.eq_dec b ib); [left; left; congruence| | |];
    (destruct (Nat.eq_dec c i), (Nat.eq_dec d ib); [left; right; congruence| | |]);
    right; intros [[=]|[=]]; congruence. }
  destruct (Exists_dec (fun q => touches q (i, ib)) all_matches D) as [H|H].
  - left. apply Exists_exists in H as ([[a b] [c d]] & Hq & T). apply all_matches_in in Hq.
    assert (F : fc (a, b) = fc (c, d)) by apply Hq.
    apply matched_shared in Hq as [L (S1 & S2 & S3)]. destruct T as [T|T]; simpl in T; injection T as -> ->.
    + exists c, d. split; [lia|]. unfold fc in *; simpl in *. rewrite E in *. repeat split; auto.
    + exists a, b. split; [lia|]. rewrite F in *. unfold fc in *; simpl in *. rewrite E in *. repeat split; auto.
  - right. intros j jb N Hs. apply H, Exists_exists.
    destruct (Nat.lt_ge_cases i j) as [L|L].
    + apply shared_matched in Hs as [Hm _]; auto. apply all_matches_in in Hm. eexists. split; [eauto|]. left; auto.
    + destruct Hs as (S1 & S2 & S3). assert (Hs : shared pb meshes j jb i ib f) by (repeat split; auto).
      apply shared_matched in Hs as [Hm _]; [|lia]. apply all_matches_in in Hm. eexists. split; [eauto|]. right; auto.
Qed.

End Build.

Lemma generated_battr_spec pb : pb <> [] -> exists gen, generated_battr pb = Ok gen /\
  (forall f a, In (f, a) pb -> (a < gen)%Z) /\ (exists f, In (f, gen - 1)%Z pb).
Proof.
  intros N. unfold generated_battr.
  destruct (zmax_nonempty (update_attributes (map snd pb))) as (m & E).
  { destruct pb as [|(f, a) pb]; [congruence|]. intros H.
    assert (K : In a (update_attributes (map snd ((f, a) :: pb)))) by (apply update_attributes_complete; simpl; auto).
    rewrite H in K. destruct K. }
  rewrite E. simpl. exists (m + 1)%Z. split; auto. apply zmax_spec in E as [E1 E2].
  destruct (update_attributes_complete (map snd pb)) as (_ & _ & Hin).
  split.
  - intros f a Ha. assert (a <= m)%Z; [|lia]. apply E2, Hin. apply in_map_iff. exists (f, a); auto.
  - apply Hin, in_map_iff in E1 as ((f, a) & <- & Ha). exists f. simpl.
    replace (a + 1 - 1)%Z with a by lia. auto.
Qed.

Lemma build_interface_infos_correct faces pb meshes :
  conforming meshes -> pb <> [] -> (forall f a, In (f, a) pb -> (0 < a)%Z) ->
  exists st, build_interface_infos faces pb meshes = Ok st /\
  (forall i j, (exists p, In p (bs_ports st) /\ pi_mesh1 p = i /\ pi_mesh2 p = j) <->
               i < j /\ adjacent pb meshes i j) /\
  NoDup (map (fun p => (pi_mesh1 p, pi_mesh2 p)) (bs_ports st)) /\
  length (bs_infos st) = length (bs_ports st) /\
  (forall k p l, nth_error (bs_ports st) k = Some p -> nth_error (bs_infos st) k = Some l ->
     NoDup (map (fun x => (ii_be1 x, ii_be2 x)) l) /\
     (forall ib jb, In (ib, jb) (map (fun x => (ii_be1 x, ii_be2 x)) l) <->
                    exists f, shared pb meshes (pi_mesh1 p) ib (pi_mesh2 p) jb f) /\
     (sides_recorded faces meshes ->
      forall x f ei ej, In x l ->
        on_side meshes (pi_mesh1 p) (ii_be1 x) f ei -> on_side meshes (pi_mesh2 p) (ii_be2 x) f ej ->
        side_code (faces f) ei (ii_inf1 x) /\ side_code (faces f) ej (ii_inf2 x))) /\
  NoDup (map pi_attr (bs_ports st)) /\
  (forall p f a, In p (bs_ports st) -> In (f, a) pb -> (a + 1 < pi_attr p)%Z) /\
  (forall p ib jb f, In p (bs_ports st) -> shared pb meshes (pi_mesh1 p) ib (pi_mesh2 p) jb f ->
     attr_at (bs_attrs st) (pi_mesh1 p) ib = pi_attr p /\ attr_at (bs_attrs st) (pi_mesh2 p) jb = pi_attr p) /\
  (forall i ib f a, on_face meshes i ib f -> In (f, a) pb -> (forall a', In (f, a') pb -> a' = a) ->
     attr_at (bs_attrs st) i ib = a) /\
  (forall p i ib f, In p (bs_ports st) -> on_face meshes i ib f ->
     attr_at (bs_attrs st) i ib = pi_attr p ->
     (i = pi_mesh1 p /\ exists jb, shared pb meshes i ib (pi_mesh2 p) jb f) \/
     (i = pi_mesh2 p /\ exists jb, shared pb meshes i ib (pi_mesh1 p) jb f)).
Proof.
  intros Hc Hn Hpos. destruct (generated_battr_spec pb Hn) as (gen & Eg & Hmax & (fm & Hfm)).
  unfold build_interface_infos. rewrite Eg. simpl.
  assert (G : (0 <= gen)%Z) by (pose proof (Hpos _ _ Hfm); lia).
  destruct (build_run faces pb meshes gen Hc G Hmax) as (st & E & I).
  exists st. split; auto.
  destruct (build_correct faces pb meshes gen st I) as (C1 & C2 & C3 & C4 & C5 & C6 & C7 & C8 & C9).
  repeat (split; auto).
  - intros p f a Hp Ha. pose proof (Hmax _ _ Ha). destruct (C6 _ Hp) as [? _]. lia.
  - intros i ib f a Hf Hina Huniq.
    assert (Ha : parent_face_attr pb f = Some a).
    { destruct (parent_face_attr pb f) as [a'|] eqn:Ea.
      - f_equal. apply Huniq. apply parent_face_attr_in; auto.
      - apply parent_face_attr_none in Ea. destruct (Ea a Hina). }
    rewrite (C9 i ib f Hf).
    + rewrite Ha; auto.
    + intros j jb _ (_ & _ & Hi). apply parent_face_attr_none in Hi. congruence.
  - intros p i ib f Hp Hf Ea. destruct (C6 _ Hp) as [Hgt _].
    assert (Int : interior pb f).
    { apply parent_face_attr_none. destruct (parent_face_attr pb f) as [a|] eqn:Ef; auto. exfalso.
      rewrite (C9 i ib f Hf) in Ea.
      - rewrite Ef in Ea. apply parent_face_attr_in, Hmax in Ef. lia.
      - intros j jb _ (_ & _ & Hi). apply parent_face_attr_none in Hi. congruence. }
    (* some other subdomain shares f, otherwise the attribute is [gen] *)
    destruct (shared_dec faces pb meshes i ib f Hf) as [(j & jb & Nj & Hs)|Hno].
    2:{ exfalso. rewrite (C9 i ib f Hf) in Ea.
        - apply parent_face_attr_none in Int. rewrite Int in Ea. lia.
        - auto. }
    assert (Hs' : shared pb meshes j jb i ib f) by (destruct Hs as (? & ? & ?); repeat split; auto).
    assert (inj : forall p', In p' (bs_ports st) -> pi_attr p' = pi_attr p -> p' = p).
    { intros p' Hp' Ep. apply In_nth_error in Hp' as (a & Ka). apply In_nth_error in Hp as (b & Kb).
      assert (a = b).
      { apply (proj1 (NoDup_nth_error (map pi_attr (bs_ports st))) C5).
        - rewrite map_length. apply nth_error_Some. congruence.
        - rewrite !nth_error_map, Ka, Kb. simpl. congruence. }
      subst b. congruence. }
    destruct (Nat.lt_ge_cases i j) as [L|L].
    + assert (Ha : i < j /\ adjacent pb meshes i j) by (split; auto; exists ib, jb, f; auto).
      apply C1 in Ha as (p' & Hp' & E1 & E2). subst i j.
      destruct (C8 p' ib jb f Hp' Hs) as [A1 _]. rewrite A1 in Ea. apply inj in Ea; auto. subst p'.
      left. split; auto. eauto.
    + assert (Ha : j < i /\ adjacent pb meshes j i) by (split; [lia|]; exists jb, ib, f; auto).
      apply C1 in Ha as (p' & Hp' & E1 & E2). subst i j.
      destruct (C8 p' jb ib f Hp' Hs') as [_ A1]. rewrite A1 in Ea. apply inj in Ea; auto. subst p'.
      right. split; auto. eauto.
Qed.

Lemma segment_orientation_spec a b c d o : a <> b ->
  (segment_orientation [a; b] [c; d] = Ok o <-> (o = 0%Z /\ c = a /\ d = b) \/ (o = 1%Z /\ c = b /\ d = a)) /\
  segment_orientation [a; b] [c; d] <> UB.
Proof.
  intros N. unfold segment_orientation; simpl.
  destruct (Z.eqb_spec b c), (Z.eqb_spec a d), (Z.eqb_spec a c), (Z.eqb_spec b d); simpl;
    (split; [split; [intros H; inversion H; subst; auto; try tauto; try congruence
                    |intros [(-> & -> & ->)|(-> & -> & ->)]; auto; congruence]|discriminate]).
Qed.
