(** Proofs about copying, comparing and cutting solutions. *)
From Coq Require Import Reals List Bool Lia Arith ZArith String Lra.
From Verif Require Import Outcome ListLemmas LaBase BlockVec TagsModel SnapshotModel RomModel RomProofs MbModel MbSpec MbVecProofs MbMiscProofs
  CmprModel CmprSpec.
Import ListNotations.
Local Open Scope nat_scope.

Lemma bv_size_ok b n size i : bv_wf b n size -> i < n -> bv_size b i = Ok (size i).
Proof.
  intros W Hi. unfold bv_size. rewrite (off_read b n size W i) by lia. cbn [obind].
  rewrite Nat.add_1_r, (off_read b n size W (S i)) by lia. cbn [obind]. rewrite (off_step b n size W i Hi). f_equal. lia.
Qed.

Lemma size_loop (s s' : nat -> nat) n :
  (ofor n (fun (_ : unit) b => oassert (s' b =? s b) (Ok tt)) tt = Ok tt <-> forall b, b < n -> s' b = s b) /\
  (ofor n (fun (_ : unit) b => oassert (s' b =? s b) (Ok tt)) tt = Ok tt \/
   ofor n (fun (_ : unit) b => oassert (s' b =? s b) (Ok tt)) tt = Abort).
Proof.
  induction n as [|n [IH1 IH2]].
  - split; [split; [intros _ b Hb; lia|reflexivity]|left; reflexivity].
  - rewrite ofor_S. destruct IH2 as [E|E]; rewrite E in *; cbn [obind].
    + destruct (Nat.eqb_spec (s' n) (s n)) as [H|H]; cbn [oassert].
      * split; [|left; reflexivity]. split; [|reflexivity]. intros _ b Hb. destruct (Nat.eq_dec b n); [subst; auto|apply IH1; auto; lia].
      * split; [|right; reflexivity]. split; [discriminate|]. intros A. exfalso. apply H, A. lia.
    + split; [|right; reflexivity]. split; [discriminate|]. intros A. exfalso.
      assert (X : Abort = Ok tt) by (apply IH1; intros; apply A; lia). discriminate.
Qed.

Lemma ofor_ext {S} n (f g : S -> nat -> outcome S) s : (forall s i, i < n -> f s i = g s i) -> ofor n f s = ofor n g s.
Proof.
  revert s. induction n as [|n IH]; intros s H; [reflexivity|]. rewrite !ofor_S, IH by (intros; apply H; lia).
  destruct (ofor n g s); cbn [obind]; auto.
Qed.

Lemma check_layout_cases u t n s n' s' : shaped n s u -> shaped n' s' t ->
  (check_layout u t = Ok tt <-> bv_off t = bv_off u) /\ (check_layout u t = Ok tt \/ check_layout u t = Abort).
Proof.
  intros Su St. pose proof (proj1 (shaped_wf _ _ _) Su) as Wu. pose proof (proj1 (shaped_wf _ _ _) St) as Wt.
  unfold check_layout. rewrite (bv_n_wf u n s Wu), (bv_n_wf t n' s' Wt).
  destruct (Nat.eqb_spec n' n) as [->|Hn]; cbn [oassert].
  - rewrite (ofor_ext n _ (fun (_ : unit) b => oassert (s' b =? s b) (Ok tt)) tt).
    2:{ intros x i Hi. rewrite (bv_size_ok t n s' i Wt Hi), (bv_size_ok u n s i Wu Hi). reflexivity. }
    destruct (size_loop s s' n) as [A B]. split; auto. rewrite A.
    destruct Su as (Lu & Zu & Hu & _), St as (Lt & Zt & Ht & _). split.
    + intros E. apply nth_ext with (d := 0) (d' := 0); [congruence|]. intros i Hi. rewrite Lt in Hi.
      assert (G : forall i, i <= n -> nth i (bv_off t) 0 = nth i (bv_off u) 0).
      { induction i0 as [|j IH]; intros Hj; [congruence|]. rewrite Ht, Hu, IH, E by lia. reflexivity. }
      apply G. lia.
    + intros E b Hb. pose proof (Hu b Hb) as X. pose proof (Ht b Hb) as Y. rewrite E in Y. lia.
  - split; [|right; reflexivity]. split; [discriminate|]. intros E. exfalso. destruct Su as (Lu & _), St as (Lt & _).
    rewrite E in Lt. lia.
Qed.

Lemma copy_cases u t n s n' s' : shaped n s u -> shaped n' s' t ->
  (bv_off t = bv_off u -> copy_solution u t = Ok t) /\ (bv_off t <> bv_off u -> copy_solution u t = Abort).
Proof.
  intros Su St. destruct (check_layout_cases u t n s n' s' Su St) as [A B]. unfold copy_solution. split; intros H.
  - rewrite (proj2 A H). cbn [obind]. rewrite <- H. destruct t; reflexivity.
  - destruct B as [B|B]; [exfalso; apply H, A, B|]. rewrite B. reflexivity.
Qed.

Lemma compare_refused ns nv fes sv fields u t n s n' s' : shaped n s u -> shaped n' s' t -> bv_off t <> bv_off u ->
  compare_solution ns nv fes sv fields u t = Abort.
Proof.
  intros Su St H. destruct (check_layout_cases u t n s n' s' Su St) as [A B]. unfold compare_solution.
  destruct B as [B|B]; [exfalso; apply H, A, B|]. rewrite B. reflexivity.
Qed.

(** ** Errors *)
Lemma omap_map {A B} (f : A -> outcome B) (g : A -> B) l : (forall x, In x l -> f x = Ok (g x)) -> omap f l = Ok (map g l).
Proof.
  induction l as [|x l IH]; intros H; cbn [omap map]; [reflexivity|]. rewrite (H x) by (left; auto). cbn [obind].
  rewrite IH by (intros; apply H; right; auto). reflexivity.
Qed.

Lemma blocks_ok n s b : shaped n s b -> omap (bv_get b) (seq 0 n) = Ok (map (blk b) (seq 0 n)).
Proof.
  intros S0. apply shaped_wf in S0. apply omap_map. intros i Hi. apply in_seq in Hi. apply (bv_get_ok b n s S0). lia.
Qed.

Lemma nth_blocks n b k : k < n -> nth k (map (blk b) (seq 0 n)) [] = blk b k.
Proof.
  intros H. rewrite nth_indep with (d' := blk b 0) by (rewrite map_length, seq_length; auto). rewrite map_nth, seq_nth; auto.
Qed.

Lemma square_nonneg fs c : (forall q, q < fs_np fs -> (0 <= fs_w fs q)%R) -> (0 <= square_integral fs c)%R.
Proof.
  intros H. apply rsum_nonneg. intros q Hq. apply Rmult_le_pos; auto. apply rsum_nonneg. intros d Hd. apply Rle_0_sqr.
Qed.

Lemma error_norm_ok fs (u t : vec) : 0 < fs_vdim fs -> (forall q, q < fs_np fs -> (0 <= fs_w fs q)%R) ->
  subdomain_error_norm fs u t = (sqrt (square_integral fs (fun i => vnth u i - vnth t i)%R), sqrt (square_integral fs (vnth u))).
Proof.
  intros Hv Hw.
  assert (D : forall q d, (field_value fs u q d - field_value fs t q d = rsum (fs_nd fs) (fun i => fs_shape fs q d i * (vnth u i - vnth t i)))%R).
  { intros q d. unfold field_value. rewrite <- rsum_minus. apply rsum_ext. intros. ring. }
  unfold subdomain_error_norm. destruct (Nat.eqb_spec (fs_vdim fs) 1) as [E|E]; unfold lp_error_scalar, lp_error_vector; f_equal; f_equal; unfold square_integral.
  - apply rsum_ext. intros q Hq. f_equal. rewrite E, !D. cbn. ring.
  - apply rsum_ext. intros q Hq. f_equal. rewrite E. unfold field_value. cbn. ring.
  - apply rsum_ext. intros q Hq. f_equal. apply rsum_ext. intros d Hd. rewrite !D. ring.
  - apply rsum_ext. intros q Hq. f_equal. apply rsum_ext. intros d Hd. unfold field_value. ring.
Qed.

Lemma square_ext fs c c' : (forall i, i < fs_nd fs -> c i = c' i) -> square_integral fs c = square_integral fs c'.
Proof.
  intros H. unfold square_integral. apply rsum_ext. intros q Hq. f_equal. apply rsum_ext. intros d Hd.
  assert (E : rsum (fs_nd fs) (fun i => fs_shape fs q d i * c i)%R = rsum (fs_nd fs) (fun i => fs_shape fs q d i * c' i)%R).
  { apply rsum_ext. intros i Hi. rewrite H; auto. }
  rewrite E. reflexivity.
Qed.

Definition entry_of (nv : nat) (b : bvec) (m v i : nat) : R := bentry b (by_sub nv m v) i.

Lemma fields_loop (F : nat -> vec) n : forall es, n <= List.length es ->
  exists es', ofor n (fun es k => let* _ := oread es k in owrite es k (F k)) es = Ok es' /\ List.length es' = List.length es /\
  (forall k, k < n -> nth k es' [] = F k) /\ (forall k, n <= k -> nth k es' [] = nth k es []).
Proof.
  intros es. induction n as [|n IH]; intros H.
  - exists es. split; [reflexivity|]. split; auto. split; [intros; lia|auto].
  - destruct (IH ltac:(lia)) as (es1 & E & L & A & B). rewrite ofor_S, E. cbn [obind].
    assert (R : exists x, oread es1 n = Ok x).
    { unfold oread. destruct (nth_error es1 n) eqn:X; [eauto|]. apply nth_error_None in X. lia. }
    destruct R as [x Rx]. rewrite Rx. cbn [obind]. unfold owrite.
    rewrite (proj2 (Nat.ltb_lt n (List.length es1))) by lia. eexists. split; [reflexivity|].
    rewrite upd_length. split; [lia|]. split.
    + intros k Hk. destruct (Nat.eq_dec k n) as [->|N].
      * apply nth_error_nth. apply nth_error_upd_eq. rewrite L. exact H.
      * rewrite <- (A k) by lia.
        destruct (nth_error es1 k) eqn:X.
        -- rewrite (nth_error_nth es1 k [] X). apply nth_error_nth. rewrite nth_error_upd_ne; auto.
        -- apply nth_error_None in X. lia.
    + intros k Hk. rewrite <- (B k) by lia. destruct (nth_error es1 k) eqn:X.
      * rewrite (nth_error_nth es1 k [] X). apply nth_error_nth. rewrite nth_error_upd_ne; auto. lia.
      * apply nth_error_None in X. rewrite !nth_overflow; auto. rewrite upd_length. auto.
Qed.

Lemma compare_ok ns nv size fes sv fields u t : sub_shaped ns nv size u -> sub_shaped ns nv size t -> spaces_ok ns nv size fes ->
  (sv = true -> exists es, fields = Some es /\ List.length es = nv * ns) ->
  exists r fields', compare_solution ns nv fes sv fields u t = Ok (r, fields') /\ List.length r = nv /\
  (forall v, v < nv -> vnth r v = (sqrt (total_square ns fes nv v (fun m v i => bentry u (by_sub nv m v) i - bentry t (by_sub nv m v) i))
                                   / sqrt (total_square ns fes nv v (fun m v i => bentry u (by_sub nv m v) i)))%R) /\
  (sv = false -> fields' = fields) /\
  (sv = true -> exists es, fields' = Some es /\ List.length es = nv * ns /\ forall m v, m < ns -> v < nv ->
     List.length (nth (by_sub nv m v) es []) = size m v /\
     forall k, k < size m v -> vnth (nth (by_sub nv m v) es []) k = (bentry t (by_sub nv m v) k - bentry u (by_sub nv m v) k)%R).
Proof.
  intros (su & Su & Zu) (st & St & Zt) SP HF. unfold compare_solution.
  assert (Eo : bv_off t = bv_off u).
  { destruct Su as (Lu & Z0u & Hu & _), St as (Lt & Z0t & Ht & _). apply nth_ext with (d := 0) (d' := 0); [congruence|]. intros i Hi. rewrite Lt in Hi.
    assert (G : forall i, i <= nv * ns -> nth i (bv_off t) 0 = nth i (bv_off u) 0).
    { induction i0 as [|j IH]; intros Hj; [congruence|]. rewrite Ht, Hu, IH by lia. f_equal.
      destruct (sub_onto ns nv j ltac:(lia)) as (m & v & Hm & Hv & <-). rewrite Zt, Zu; auto. }
    apply G. lia. }
  destruct (check_layout_cases u t _ _ _ _ Su St) as [A _]. rewrite (proj2 A Eo). cbn [obind].
  rewrite (blocks_ok _ _ _ Su), (blocks_ok _ _ _ St). cbn [obind].
  set (en := fun m v => subdomain_error_norm (fes (m * nv + v)) (nth (m * nv + v) (map (blk u) (seq 0 (nv * ns))) []) (nth (m * nv + v) (map (blk t) (seq 0 (nv * ns))) [])).
  assert (EN : forall m v, m < ns -> v < nv -> en m v =
    (sqrt (square_integral (fes (by_sub nv m v)) (fun i => bentry u (by_sub nv m v) i - bentry t (by_sub nv m v) i)%R),
     sqrt (square_integral (fes (by_sub nv m v)) (fun i => bentry u (by_sub nv m v) i)))).
  { intros m v Hm Hv. pose proof (sub_lt ns nv m v Hm Hv) as Lt. destruct (SP m v Hm Hv) as (N1 & N2 & N3). unfold en.
    change (m * nv + v) with (by_sub nv m v). rewrite !nth_blocks by auto. rewrite error_norm_ok by auto.
    f_equal; f_equal; apply square_ext; intros i Hi; rewrite N1 in Hi.
    - rewrite (bentry_blk _ _ _ _ _ Su), (bentry_blk _ _ _ _ _ St); auto; [rewrite Zt; auto|rewrite Zu; auto].
    - rewrite (bentry_blk _ _ _ _ _ Su); auto. rewrite Zu; auto. }
  destruct (relative_error_ok ns nv en) as (r & Er & Lr & Vr). rewrite Er. cbn [obind].
  assert (V : forall v, v < nv -> vnth r v = (sqrt (total_square ns fes nv v (fun m v i => bentry u (by_sub nv m v) i - bentry t (by_sub nv m v) i))
                                   / sqrt (total_square ns fes nv v (fun m v i => bentry u (by_sub nv m v) i)))%R).
  { intros v Hv. rewrite Vr by auto. unfold total_square. f_equal; f_equal; apply rsum_ext; intros m Hm; rewrite EN by auto; cbn [fst snd];
      apply sqrt_sqrt; apply square_nonneg; apply (SP m v Hm Hv). }
  destruct sv.
  - destruct (HF eq_refl) as (es & -> & Le).
    destruct (fields_loop (fun k => map (fun xy => (fst xy - snd xy)%R) (combine (nth k (map (blk t) (seq 0 (nv * ns))) []) (nth k (map (blk u) (seq 0 (nv * ns))) []))) (nv * ns) es ltac:(lia))
      as (es' & E & L & A1 & _).
    match goal with |- context [ofor ?a ?f ?s] => replace (ofor a f s) with (Ok es') by (symmetry; exact E) end. cbn [obind]. exists r, (Some es'). split; [reflexivity|]. split; auto. split; auto. split; [discriminate|].
    intros _. exists es'. split; auto. split; [lia|]. intros m v Hm Hv. pose proof (sub_lt ns nv m v Hm Hv) as Hlt.
    rewrite A1, !nth_blocks by auto.
    pose proof (proj1 (shaped_wf _ _ _) Su) as Wu. pose proof (proj1 (shaped_wf _ _ _) St) as Wt.
    assert (L1 : List.length (blk u (by_sub nv m v)) = size m v) by (rewrite (blk_length u _ _ Wu _ Hlt); auto).
    assert (L2 : List.length (blk t (by_sub nv m v)) = size m v) by (rewrite (blk_length t _ _ Wt _ Hlt); auto).
    split; [rewrite map_length, combine_length; lia|]. intros k Hk. unfold vnth at 1.
    set (f := fun xy : R * R => (fst xy - snd xy)%R). rewrite nth_indep with (d' := f (0%R, 0%R)) by (rewrite map_length, combine_length; lia).
    rewrite (map_nth f), combine_nth by congruence. unfold f. cbn [fst snd].
    change (nth k (blk t (by_sub nv m v)) 0%R) with (vnth (blk t (by_sub nv m v)) k).
    change (nth k (blk u (by_sub nv m v)) 0%R) with (vnth (blk u (by_sub nv m v)) k).
    rewrite (bentry_blk _ _ _ _ _ Su), (bentry_blk _ _ _ _ _ St); auto; [rewrite Zt; auto|rewrite Zu; auto].
  - exists r, fields. split; [reflexivity|]. split; auto. split; auto. split; [auto|discriminate].
Qed.

Lemma total_nonneg ns nv size fes v c : spaces_ok ns nv size fes -> v < nv -> (0 <= total_square ns fes nv v c)%R.
Proof. intros SP Hv. apply rsum_nonneg. intros m Hm. apply square_nonneg. apply (SP m v Hm Hv). Qed.

Lemma quotient a b : (0 <= a -> 0 < b -> 0 <= sqrt a / sqrt b /\ (sqrt a / sqrt b) * (sqrt a / sqrt b) * b = a)%R.
Proof.
  intros Ha Hb. assert (Sb : (0 < sqrt b)%R) by (apply sqrt_lt_R0; auto). split.
  - apply Rmult_le_pos; [apply sqrt_pos|left; apply Rinv_0_lt_compat; auto].
  - rewrite <- (sqrt_sqrt b) at 3 by lra. rewrite <- (sqrt_sqrt a) at 3 by lra. field. lra.
Qed.

Lemma square_scale fs c e : square_integral fs (fun i => e * c i)%R = (e * e * square_integral fs c)%R.
Proof.
  unfold square_integral. rewrite <- rsum_scal. apply rsum_ext. intros q Hq.
  assert (E : forall d, rsum (fs_nd fs) (fun i => fs_shape fs q d i * (e * c i))%R = (e * rsum (fs_nd fs) (fun i => fs_shape fs q d i * c i))%R).
  { intros d. rewrite <- rsum_scal. apply rsum_ext. intros; ring. }
  replace (rsum (fs_vdim fs) (fun d => rsum (fs_nd fs) (fun i => fs_shape fs q d i * (e * c i)) * rsum (fs_nd fs) (fun i => fs_shape fs q d i * (e * c i))))%R
    with (e * e * rsum (fs_vdim fs) (fun d => rsum (fs_nd fs) (fun i => fs_shape fs q d i * c i) * rsum (fs_nd fs) (fun i => fs_shape fs q d i * c i)))%R; [ring|].
  rewrite <- rsum_scal. apply rsum_ext. intros d Hd. rewrite E. ring.
Qed.

(** ** Snapshots *)
Lemma tags_nth names vars m v nm x : nth_error names m = Some nm -> nth_error vars v = Some x ->
  nth_error (flat_map (fun nm => map (tag_for_component nm) vars) names) (by_sub (List.length vars) m v) = Some (tag_for_component nm x).
Proof.
  revert m. induction names as [|a names IH]; intros [|m] Hn Hx; cbn in Hn; try discriminate; unfold by_sub in *; cbn [flat_map].
  - inversion Hn; subst. cbn [Nat.mul Nat.add]. rewrite nth_error_app1 by (rewrite map_length; apply nth_error_Some; congruence).
    rewrite nth_error_map, Hx. reflexivity.
  - rewrite nth_error_app2 by (rewrite map_length; lia). rewrite map_length.
    replace (S m * List.length vars + v - List.length vars) with (m * List.length vars + v) by lia. apply IH; auto.
Qed.

Lemma tags_length (names vars : list string) :
  List.length (flat_map (fun nm => map (tag_for_component nm) vars) names) = List.length names * List.length vars.
Proof. induction names; cbn [flat_map]; auto. rewrite app_length, map_length, IHnames. cbn. lia. Qed.

Lemma prepare_separate ns nv size topo vars dom u : sub_shaped ns nv size u -> List.length (t_names topo) = ns -> List.length vars = nv ->
  exists blocks tags, prepare_snapshots true topo vars (bv_off u) dom u = Ok (blocks, tags) /\
  List.length blocks = nv * ns /\ List.length tags = nv * ns /\
  forall m v nm x, nth_error (t_names topo) m = Some nm -> nth_error vars v = Some x ->
    nth_error tags (by_sub nv m v) = Some (tag_for_component nm x) /\
    exists b, nth_error blocks (by_sub nv m v) = Some b /\ List.length b = size m v /\
    forall k, k < size m v -> vnth b k = bentry u (by_sub nv m v) k.
Proof.
  intros (su & Su & Zu) Ln Lv. unfold prepare_snapshots. pose proof (proj1 (shaped_wf _ _ _) Su) as Wu.
  replace (BVec (bv_off u) (bv_dat u)) with u by (destruct u; reflexivity).
  rewrite (bv_n_wf u _ _ Wu). unfold get_basis_tags. rewrite tags_length, Ln, Lv, (Nat.mul_comm ns nv), Nat.eqb_refl. cbn [oassert].
  rewrite (blocks_ok _ _ _ Su). cbn [obind]. do 2 eexists. split; [reflexivity|].
  rewrite map_length, seq_length, tags_length, Ln, Lv. split; auto. split; [lia|].
  intros m v nm x Hm Hx. assert (m < ns) by (rewrite <- Ln; apply nth_error_Some; congruence).
  assert (v < nv) by (rewrite <- Lv; apply nth_error_Some; congruence). pose proof (sub_lt ns nv m v H H0) as Hlt. split.
  - rewrite <- Lv. apply tags_nth; auto.
  - exists (blk u (by_sub nv m v)). split; [|split].
    + rewrite nth_error_map. rewrite (nth_error_nth' (seq 0 (nv * ns)) 0) by (rewrite seq_length; auto). rewrite seq_nth by auto. reflexivity.
    + rewrite (blk_length u _ _ Wu _ Hlt). auto.
    + intros k Hk. apply (bentry_blk _ _ _ _ _ Su); auto. rewrite Zu; auto.
Qed.

Lemma prepare_unified ns nv size topo vars var_off dom u : sub_shaped ns nv size u -> List.length (t_names topo) = ns ->
  offsets dom ns (fun m => nsum nv (size m)) ->
  exists blocks tags, prepare_snapshots false topo vars var_off dom u = Ok (blocks, tags) /\
  List.length blocks = ns /\ List.length tags = ns /\
  forall m nm, nth_error (t_names topo) m = Some nm ->
    nth_error tags m = Some (tag_for_component nm EmptyString) /\
    exists b, nth_error blocks m = Some b /\ List.length b = nsum nv (size m) /\
    forall v k, v < nv -> k < size m v -> vnth b (nsum v (size m) + k) = bentry u (by_sub nv m v) k.
Proof.
  intros (su & Su & Zu) Ln Od. destruct Su as (L0 & Z0 & H0 & D0).
  assert (IN : forall m, m < ns -> forall v, v <= nv -> nth (m * nv + v) (bv_off u) 0 = nth (m * nv) (bv_off u) 0 + nsum v (size m)).
  { intros m Hm. induction v as [|v IH]; intros Hv; [rewrite Nat.add_0_r; unfold nsum; simpl; lia|].
    pose proof (sub_lt ns nv m v Hm ltac:(lia)) as B. unfold by_sub in B.
    rewrite Nat.add_succ_r, H0, IH, nsum_S by lia. change (m * nv + v) with (by_sub nv m v). rewrite Zu by lia. lia. }
  assert (DM : forall m, m <= ns -> nth m dom 0 = nth (m * nv) (bv_off u) 0).
  { destruct Od as (Ld & Zd & Hd). induction m as [|m IH]; intros Hm; [rewrite Zd; auto|].
    rewrite Hd, IH by lia. rewrite <- (IN m ltac:(lia) nv) by lia. f_equal. lia. }
  unfold prepare_snapshots. set (w := BVec dom (bv_dat u)).
  assert (Sw : shaped ns (fun m => nsum nv (size m)) w).
  { destruct Od as (Ld & Zd & Hd). split; [exact Ld|]. split; [exact Zd|]. split; [exact Hd|]. cbn [w bv_dat bv_off]. rewrite D0, DM by lia. f_equal. lia. }
  pose proof (proj1 (shaped_wf _ _ _) Sw) as Ww. rewrite (bv_n_wf w _ _ Ww). unfold get_basis_tags. rewrite tags_length, Ln. cbn [List.length].
  rewrite Nat.mul_1_r, Nat.eqb_refl. cbn [oassert]. rewrite (blocks_ok _ _ _ Sw). cbn [obind]. do 2 eexists. split; [reflexivity|].
  rewrite map_length, seq_length, tags_length, Ln. cbn [List.length]. split; auto. split; [lia|].
  intros m nm Hm. assert (Hlt : m < ns) by (rewrite <- Ln; apply nth_error_Some; congruence). split.
  - pose proof (tags_nth (t_names topo) [EmptyString] m 0 nm EmptyString Hm eq_refl) as T. unfold by_sub in T. cbn [List.length] in T.
    rewrite Nat.mul_1_r, Nat.add_0_r in T. exact T.
  - exists (blk w m). split; [|split].
    + rewrite nth_error_map. rewrite (nth_error_nth' (seq 0 ns) 0) by (rewrite seq_length; auto). rewrite seq_nth by auto. reflexivity.
    + apply (blk_length w _ _ Ww _ Hlt).
    + intros v k Hv Hk.
      assert (B : nsum v (size m) + k < nsum nv (size m)).
      { pose proof (nsum_le (S v) nv (size m) ltac:(lia)). rewrite nsum_S in H. lia. }
      rewrite (bentry_blk _ _ _ _ _ Sw) by auto. unfold bentry. cbn [w bv_dat bv_off]. rewrite DM by lia. f_equal.
      unfold by_sub. rewrite (IN m Hlt v) by lia. lia.
Qed.

Lemma total_zero ns nv size fes v (a b : nat -> nat -> nat -> R) : spaces_ok ns nv size fes -> v < nv ->
  total_square ns fes nv v (fun m v i => a m v i - b m v i)%R = 0%R <->
  forall m q d, m < ns -> q < fs_np (fes (by_sub nv m v)) -> d < fs_vdim (fes (by_sub nv m v)) ->
     (0 < fs_w (fes (by_sub nv m v)) q)%R ->
     rsum (size m v) (fun i => fs_shape (fes (by_sub nv m v)) q d i * a m v i)%R =
     rsum (size m v) (fun i => fs_shape (fes (by_sub nv m v)) q d i * b m v i)%R.
Proof.
  intros SP Hv.
  assert (D : forall m q d, m < ns -> (rsum (fs_nd (fes (by_sub nv m v))) (fun i => fs_shape (fes (by_sub nv m v)) q d i * (a m v i - b m v i)) =
     rsum (size m v) (fun i => fs_shape (fes (by_sub nv m v)) q d i * a m v i) -
     rsum (size m v) (fun i => fs_shape (fes (by_sub nv m v)) q d i * b m v i))%R).
  { intros m q d Hm. destruct (SP m v Hm Hv) as [-> _]. rewrite <- rsum_minus. apply rsum_ext. intros; ring. }
  split.
  - intros H m q d Hm Hq Hd Hw.
    assert (A : square_integral (fes (by_sub nv m v)) (fun i => a m v i - b m v i)%R = 0%R).
    { apply (rsum_nonneg_zero ns (fun m => square_integral (fes (by_sub nv m v)) (fun i => a m v i - b m v i)%R)); auto.
      intros k Hk. apply square_nonneg. apply (SP k v Hk Hv). }
    unfold square_integral in A.
    assert (B := rsum_nonneg_zero _ _ (fun k Hk => Rmult_le_pos _ _ (proj2 (proj2 (SP m v Hm Hv)) k Hk) (rsum_nonneg _ _ (fun d0 _ => Rle_0_sqr _))) A q Hq).
    cbn beta in B. apply Rmult_integral in B as [B|B]; [lra|].
    assert (C := rsum_nonneg_zero _ _ (fun d0 _ => Rle_0_sqr _) B d Hd). cbn beta in C. apply Rmult_integral in C.
    pose proof (D m q d Hm) as X. destruct C as [C|C]; unfold Rsqr in *; rewrite X in C; lra.
  - intros H. unfold total_square. rewrite <- (rsum_zero ns). apply rsum_ext. intros m Hm.
    unfold square_integral. rewrite <- (rsum_zero (fs_np (fes (by_sub nv m v)))). apply rsum_ext. intros q Hq.
    destruct (Req_dec (fs_w (fes (by_sub nv m v)) q) 0) as [W|W]; [rewrite W; ring|].
    assert (P : (0 < fs_w (fes (by_sub nv m v)) q)%R) by (pose proof (proj2 (proj2 (SP m v Hm Hv)) q Hq); lra).
    replace (rsum (fs_vdim (fes (by_sub nv m v))) _) with 0%R; [ring|].
    rewrite <- (rsum_zero (fs_vdim (fes (by_sub nv m v)))). apply rsum_ext. intros d Hd. rewrite D, (H m q d) by auto. ring.
Qed.

Lemma same_fields ns nv size fes u t es1 es2 : sub_shaped ns nv size u -> sub_shaped ns nv size t -> spaces_ok ns nv size fes ->
  List.length es1 = nv * ns -> List.length es2 = nv * ns -> exists c,
  compare_solution ns nv fes true (init_error_fields true es1) u t = Ok c /\
  compare_solution ns nv fes true (init_error_fields true es2) u t = Ok c.
Proof.
  intros Su St SP L1 L2.
  destruct (compare_ok ns nv size fes true (Some es1) u t Su St SP (fun _ => ex_intro _ es1 (conj eq_refl L1))) as (r1 & f1 & E1 & Lr1 & V1 & _ & F1).
  destruct (compare_ok ns nv size fes true (Some es2) u t Su St SP (fun _ => ex_intro _ es2 (conj eq_refl L2))) as (r2 & f2 & E2 & Lr2 & V2 & _ & F2).
  destruct (F1 eq_refl) as (g1 & -> & G1 & H1). destruct (F2 eq_refl) as (g2 & -> & G2 & H2).
  cbn [init_error_fields]. exists (r1, Some g1). split; auto. rewrite E2. f_equal. f_equal; [|f_equal].
  - apply vec_ext; [congruence|]. intros v Hv. rewrite V1, V2 by congruence. reflexivity.
  - apply nth_ext with (d := []) (d' := []); [congruence|]. intros k Hk. rewrite G2 in Hk.
    destruct (sub_onto ns nv k Hk) as (m & v & Hm & Hvv & <-).
    destruct (H1 m v Hm Hvv) as [A1 B1]. destruct (H2 m v Hm Hvv) as [A2 B2].
    apply vec_ext; [congruence|]. intros i Hi. rewrite B1, B2 by congruence. reflexivity.
Qed.
