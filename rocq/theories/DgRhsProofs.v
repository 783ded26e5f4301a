(** Boundary right-hand sides and the boundary faces of a mixed form. *)
From Coq Require Import Reals List Bool Lia Lra Arith ZArith.
From Verif Require Import Outcome ListLemmas CompProofs LaBase EqpSpec IntegModel IntegProofs DgModel DgSpec DgAddProofs DgKernelProofs DgItfProofs DgFaceProofs.
Import ListNotations.
Local Open Scope R_scope.

(** ** Vectors *)

(** Loops over the components and the functions of a component *)
Lemma vec_loop h dim nd (x : nat -> nat -> R) : (0 < nd)%nat -> h = (dim * nd)%nat ->
  adds h 1 (fun v => ofor dim (fun v d => ofor nd (fun v a => sadd v (d * nd + a) 0 (x d a)) v) v)
    (fun i j => if ((i <? h) && (j =? 0))%nat then x (i / nd)%nat (i mod nd)%nat else 0).
Proof.
  intros Hn Hh. eapply adds_ext.
  - apply (adds_ofor h 1 dim (fun v d => ofor nd (fun v a => sadd v (d * nd + a) 0 (x d a)) v) (fun d i j => rsum nd (fun a => delta (d * nd + a) 0 (x d a) i j))).
    intros d Hd. apply (adds_ofor h 1 nd (fun v a => sadd v (d * nd + a) 0 (x d a)) (fun a => delta (d * nd + a) 0 (x d a))).
    intros a Ha. apply adds_sadd; nia.
  - intros i j. cbv beta. unfold delta. rewrite (rsum_ext dim _ (fun d => rsum nd (fun a => if (i =? d * nd + a)%nat then (if (j =? 0)%nat then x d a else 0) else 0))).
    + rewrite (pick2 dim nd i (fun d a => if (j =? 0)%nat then x d a else 0)) by auto. rewrite <- Hh. destruct (i <? h)%nat, (j =? 0)%nat; auto.
    + intros d _. apply rsum_ext. intros a _. destruct (i =? d * nd + a)%nat, (j =? 0)%nat; auto.
Qed.
Lemma vec_loop' h dim nd (x : nat -> nat -> R) : (0 < nd)%nat -> h = (dim * nd)%nat ->
  adds h 1 (fun v => ofor dim (fun v d => ofor nd (fun v a => sadd v (a + d * nd) 0 (x d a)) v) v)
    (fun i j => if ((i <? h) && (j =? 0))%nat then x (i / nd)%nat (i mod nd)%nat else 0).
Proof.
  intros Hn Hh m A B. destruct (vec_loop h dim nd x Hn Hh m A B) as (m' & E & H). exists m'. split; [|auto]. rewrite <- E.
  apply ofor_ext. intros v d _. apply ofor_ext. intros v' a _. rewrite Nat.add_comm. auto.
Qed.

(** A right-hand side that adds one vector per point *)
Lemma rhs_points {A} h (f : smat -> A -> outcome smat) (F : A -> fv) rule :
  (forall p, In p rule -> exists G, adds h 1 (fun v => f v p) G /\ forall i, (i < h)%nat -> G i 0%nat = F p i) ->
  exists r, ofold f rule (szero h 1) = Ok r /\ s_h r = h /\ s_w r = 1%nat /\ forall i, (i < h)%nat -> s_at r i 0%nat = lsum (fun p => F p i) rule.
Proof.
  induction rule as [|p rule IH] using rev_ind; intros H.
  - exists (szero h 1). repeat split; auto.
  - destruct IH as (r & E & B & C & D). { intros q Hq. apply H. apply in_or_app. auto. }
    destruct (H p) as (G & AG & EG). { apply in_or_app. simpl. auto. }
    destruct (AG r B C) as (r' & E' & B' & C' & D'). exists r'. rewrite ofold_app, E. cbn [obind ofold]. rewrite E'. repeat split; auto.
    intros i Hi. rewrite lsum_snoc_d, D', D, EG; auto.
Qed.

Lemma against_points {A} h (F : A -> fv) rule r v : (forall i, (i < h)%nat -> s_at r i 0%nat = lsum (fun p => F p i) rule) ->
  against h r v = lsum (fun p => rsum h (fun i => F p i * v i)) rule.
Proof.
  intros H. unfold against. rewrite lsum_rsum. apply rsum_ext. intros i Hi. rewrite H by auto.
  rewrite (lsum_ext_in (fun p => F p i * v i) (fun p => v i * F p i)) by (intros; ring). rewrite lsum_mul. ring.
Qed.

Lemma rsum_vec dim nd (x : nat -> nat -> R) (v : fv) :
  rsum (dim * nd) (fun i => x (i / nd)%nat (i mod nd)%nat * v i) = rsum dim (fun d => rsum nd (fun a => x d a * comp nd d v a)).
Proof.
  rewrite rsum_prod. apply rsum_ext. intros d _. apply rsum_ext. intros a Ha. unfold comp. destruct (divmod_of nd d a Ha) as [-> ->]. auto.
Qed.

(** ** Dirichlet data *)

Lemma vdl_ok dim nd alpha kappa rule v : (0 < nd)%nat -> (forall p, In p rule -> has_mu (b_side p) /\ sd_W (b_side p) <> 0) ->
  exists r, vdl_rhs dim nd alpha kappa rule = Ok r /\ s_h r = (dim * nd)%nat /\ s_w r = 1%nat /\
  against (dim * nd) r v = rsum dim (fun c => lsum (fun p => b_w p * b_val p c * (alpha * flux dim nd (b_nor p) (b_side p) (comp nd c v)
    + kappa * (stiff dim (b_nor p) (b_side p) / sd_W (b_side p)) * trace nd (b_side p) (comp nd c v))) rule).
Proof.
  intros Hn H. unfold vdl_rhs.
  set (X := fun (p : bpt) (d a : nat) => let s := b_side p in let wM := b_w p / sd_W s * val (sd_mu s) in
    (wM * alpha * b_val p d) * vdn dim 1 (b_nor p) s a + (kappa * wM * inner dim (b_nor p) (b_nor p) * b_val p d) * sd_shape s a).
  destruct (rhs_points (dim * nd) (vdl_point dim nd alpha kappa) (fun p i => X p (i / nd)%nat (i mod nd)%nat) rule) as (r & E & A & B & C).
  - intros p Hp. destruct (H p Hp) as ((M & _) & _).
    exists (fun i j => if ((i <? dim * nd) && (j =? 0))%nat then X p (i / nd)%nat (i mod nd)%nat else 0). split.
    + intros m Mh Mw. destruct (vec_loop (dim * nd) dim nd (X p) Hn eq_refl m Mh Mw) as (m' & E & F). exists m'. split; [|auto]. rewrite <- E.
      unfold vdl_point. cbv zeta. rewrite ocoef_val by auto. cbn [obind]. apply ofor_ext. intros w d _. apply ofor_ext. intros w' a _. f_equal.
      unfold X, vdn. cbv zeta. f_equal. f_equal. unfold mult. apply rsum_ext. intros k _. unfold scale. ring.
    + intros i Hi. in_range. reflexivity.
  - exists r. split; [auto|]. split; [auto|]. split; [auto|]. rewrite (against_points _ _ _ _ _ C). rewrite <- lsum_rsum. apply lsum_ext_in. intros p Hp.
    destruct (H p Hp) as ((M & Q) & W). rewrite (rsum_vec dim nd (X p)). apply rsum_ext. intros d _. unfold X. cbv zeta.
    set (s := b_side p) in *. set (wM := b_w p / sd_W s * val (sd_mu s)).
    transitivity (rsum nd (fun a => wM * alpha * b_val p d * (vdn dim 1 (b_nor p) s a * comp nd d v a)
      + kappa * wM * inner dim (b_nor p) (b_nor p) * b_val p d * (sd_shape s a * comp nd d v a))).
    + apply rsum_ext. intros. ring.
    + rewrite rsum_plus, !rsum_scal. rewrite vdn_ap by auto. unfold flux, stiff, trace, inner, sq, wM. rewrite Q. field. auto.
Qed.

(** ** Normal data *)

Lemma vadd_adds h n a w : n = h -> adds h 1 (fun v => vadd n a w v) (fun i j => if ((i <? h) && (j =? 0))%nat then a * w i else 0).
Proof.
  intros ->. unfold vadd. eapply adds_ext.
  - apply (adds_ofor h 1 h (fun v i => sadd v i 0 (a * w i)) (fun k => delta k 0 (a * w k))). intros k Hk. apply adds_sadd; lia.
  - intros i j. cbv beta. unfold delta. rewrite (rsum_ext h _ (fun k => if (i =? k)%nat then (if (j =? 0)%nat then a * w k else 0) else 0)).
    + rewrite (pick1 h i (fun k => if (j =? 0)%nat then a * w k else 0)). destruct (i <? h)%nat, (j =? 0)%nat; auto.
    + intros k _. destruct (i =? k)%nat, (j =? 0)%nat; auto.
Qed.

Lemma bn_ok dim nd rule q : exists r, bn_rhs dim nd rule = Ok r /\ s_h r = nd /\ s_w r = 1%nat /\
  against nd r q = lsum (fun p => b_w p * (inner dim (b_val p) (b_nor p) * trace nd (b_side p) q)) rule.
Proof.
  destruct (rhs_points nd (bn_point dim nd) (fun p i => b_w p * inner dim (b_val p) (b_nor p) * sd_shape (b_side p) i) rule) as (r & E & A & B & C).
  - intros p _. eexists. split; [apply (vadd_adds nd nd); reflexivity|]. intros i Hi. cbv beta. in_range. reflexivity.
  - exists r. repeat split; auto. rewrite (against_points _ _ _ _ _ C). apply lsum_ext_in. intros p _. unfold trace. rewrite <- !rsum_scal.
    apply rsum_ext. intros. ring.
Qed.

Lemma bns_ok dim nd rule v : (0 < nd)%nat -> exists r, bns_rhs dim nd rule = Ok r /\ s_h r = (dim * nd)%nat /\ s_w r = 1%nat /\
  against (dim * nd) r v = lsum (fun p => b_w p * rsum dim (fun k => rsum dim (fun l => b_val p (k + l * dim)%nat * b_nor p l) * trace nd (b_side p) (comp nd k v))) rule.
Proof.
  intros Hn. set (X := fun (p : bpt) (k a : nat) => b_w p * rsum dim (fun l => b_val p (k + l * dim)%nat * b_nor p l) * sd_shape (b_side p) a).
  destruct (rhs_points (dim * nd) (bns_point dim nd) (fun p i => X p (i / nd)%nat (i mod nd)%nat) rule) as (r & E & A & B & C).
  - intros p _. exists (fun i j => if ((i <? dim * nd) && (j =? 0))%nat then X p (i / nd)%nat (i mod nd)%nat else 0).
    split; [exact (vec_loop (dim * nd) dim nd (X p) Hn eq_refl)|]. intros i Hi. in_range. reflexivity.
  - exists r. repeat split; auto. rewrite (against_points _ _ _ _ _ C). apply lsum_ext_in. intros p _. rewrite (rsum_vec dim nd (X p)), <- rsum_scal.
    apply rsum_ext. intros k _. unfold X, trace. generalize (rsum dim (fun l => b_val p (k + l * dim)%nat * b_nor p l)). intros y.
    rewrite <- !rsum_scal. apply rsum_ext. intros. ring.
Qed.

(** ** Convection data *)

Lemma vwt_ok {A} dim nd (f : smat -> A -> outcome smat) (a : A -> R) (g s : A -> fv) rule v : (0 < nd)%nat ->
  (forall w p, f w p = vadd_vwt nd dim (a p) (s p) (g p) w) ->
  exists r, ofold f rule (szero (dim * nd) 1) = Ok r /\ s_h r = (dim * nd)%nat /\ s_w r = 1%nat /\
  (forall i, (i < dim * nd)%nat -> s_at r i 0%nat = lsum (fun p => a p * g p (i / nd)%nat * s p (i mod nd)%nat) rule) /\
  against (dim * nd) r v = lsum (fun p => a p * rsum dim (fun k => g p k * rsum nd (fun b => s p b * comp nd k v b))) rule.
Proof.
  intros Hn Hf. destruct (rhs_points (dim * nd) f (fun p i => a p * g p (i / nd)%nat * s p (i mod nd)%nat) rule) as (r & E & A0 & B & C).
  - intros p _. exists (fun i j => if ((i <? dim * nd) && (j =? 0))%nat then a p * g p (i / nd)%nat * s p (i mod nd)%nat else 0). split.
    + intros m Mh Mw. rewrite Hf. exact (vec_loop' (dim * nd) dim nd (fun d b => a p * g p d * s p b) Hn eq_refl m Mh Mw).
    + intros i Hi. in_range. reflexivity.
  - exists r. repeat split; auto. rewrite (against_points _ _ _ _ _ C). apply lsum_ext_in. intros p _.
    rewrite (rsum_vec dim nd (fun d b => a p * g p d * s p b)), <- rsum_scal. apply rsum_ext. intros k _. rewrite <- !rsum_scal. apply rsum_ext. intros. ring.
Qed.

(** ** Boundary faces of a mixed form *)

Lemma oread_nth (l : list Z) i : (i < length l)%nat -> oread l i = Ok (nth i l 0%Z).
Proof. intros H. apply oread_ok. apply nth_error_nth'. auto. Qed.

Lemma lor_zero a b : (Z.lor a b =? 0)%Z = ((a =? 0)%Z && (b =? 0)%Z)%bool.
Proof.
  destruct (Z.eqb_spec a 0); destruct (Z.eqb_spec b 0); cbn [andb]; subst; auto.
  - rewrite Z.lor_0_l. apply Z.eqb_neq; auto.
  - rewrite Z.lor_0_r. apply Z.eqb_neq; auto.
  - apply Z.eqb_neq. intros E. apply Z.lor_eq_0_iff in E. tauto.
Qed.

Lemma mb_marker_ok marks : forall acc, Forall (fun mk => match mk with Some l => (length acc <= length l)%nat | None => True end) marks ->
  exists r, mb_marker marks acc = Ok r /\ length r = length acc /\
    forall i, (i < length acc)%nat -> negb (nth i r 0 =? 0)%Z = (negb (nth i acc 0 =? 0)%Z || existsb (fun mk => wants mk (S i)) marks)%bool.
Proof.
  induction marks as [|[mk|] t IH]; intros acc H; inversion H; subst.
  - exists acc. simpl. repeat split; auto. intros. rewrite orb_false_r. auto.
  - cbn [mb_marker].
    match goal with |- context[ofor ?n ?f acc] =>
      destruct (ofor_inv n f (fun k a => length a = length acc /\ forall i, nth i a 0%Z = if (i <? k)%nat then Z.lor (nth i acc 0) (nth i mk 0) else nth i acc 0) acc)%Z
        as (a & E & L & N) end.
    + split; auto.
    + intros k a Hk (L & N). rewrite oread_nth by lia. cbn [obind]. rewrite oread_nth by lia. cbn [obind].
      destruct (owrite a k (Z.lor (nth k a 0) (nth k mk 0)))%Z as [b| |] eqn:W.
      * apply owrite_ok in W. destruct W as (W1 & ->). exists (upd a k (Z.lor (nth k a 0) (nth k mk 0)))%Z. split; [auto|]. split; [rewrite upd_length; auto|].
        intros i. destruct (Nat.eq_dec i k) as [->|D].
        -- rewrite nth_upd_eq by auto. rewrite N. rewrite Nat.ltb_irrefl. destruct (Nat.ltb_spec k (S k)); [auto|lia].
        -- rewrite nth_upd_ne by auto. rewrite N. destruct (Nat.ltb_spec i k); destruct (Nat.ltb_spec i (S k)); auto; lia.
      * exfalso. unfold owrite in W. destruct (Nat.ltb_spec k (length a)); [discriminate|lia].
      * exfalso. unfold owrite in W. destruct (Nat.ltb_spec k (length a)); [discriminate|lia].
    + rewrite E. cbn [obind]. destruct (IH a) as (r & F & LR & NR).
      { rewrite L. auto. }
      exists r. split; [auto|]. split; [lia|]. intros i Hi. rewrite NR by lia. rewrite N. rewrite (proj2 (Nat.ltb_lt _ _) Hi). rewrite lor_zero.
      cbn [existsb wants]. replace (S i - 1)%nat with i by lia. rewrite negb_andb, orb_assoc. auto.
  - exists (map (fun _ => 1%Z) acc). split; [auto|]. split; [apply map_length|]. intros i Hi. cbn [existsb wants]. rewrite orb_true_r.
    rewrite (nth_indep _ 0%Z ((fun _ => 1%Z) 0%Z)) by (rewrite map_length; auto). rewrite (map_nth (fun _ => 1%Z) acc 0%Z). auto.
Qed.

(** The pairs that have to be assembled, in order *)
Definition wanted (marks : list (option (list Z))) (bdr : list (nat * bool)) : list (nat * nat) :=
  flat_map (fun '(i, (attr, face)) => if face : bool then
    flat_map (fun '(k, mk) => if wants mk attr then [(i, k)] else []) (combine (seq 0 (length marks)) marks) else []) (combine (seq 0 (length bdr)) bdr).

Lemma omap_all {A B} (f : A -> outcome B) (g : A -> B) l : (forall a, In a l -> f a = Ok (g a)) -> omap f l = Ok (map g l).
Proof.
  induction l as [|a l IH]; intros H; [auto|]. simpl. rewrite (H a) by (simpl; auto). cbn [obind]. rewrite IH by (intros; apply H; simpl; auto). auto.
Qed.

Lemma mb_faces_ok nattr marks bdr : Forall (fun mk => match mk with Some l => (nattr <= length l)%nat | None => True end) marks ->
  Forall (fun af => (0 < fst af <= nattr)%nat) bdr -> mb_faces nattr marks bdr = Ok (wanted marks bdr).
Proof.
  intros HM HB. unfold mb_faces, wanted. destruct marks as [|mk0 t]; [|set (marks := mk0 :: t) in *].
  - f_equal. induction (combine (seq 0 (length bdr)) bdr) as [|[i [attr face]] l IH]; [auto|]. destruct face; exact IH.
  - destruct (mb_marker_ok marks (repeat 0%Z nattr)) as (r & E & L & N). { rewrite repeat_length. auto. }
    rewrite E. cbn [obind]. rewrite repeat_length in *.
    rewrite (omap_all _ (fun '(i, (attr, face)) => if face : bool then
      flat_map (fun '(k, mk) => if wants mk attr then [(i, k)] else []) (combine (seq 0 (length marks)) marks) else [])).
    + cbn [obind]. rewrite flat_map_concat_map. auto.
    + intros [i [attr face]] Hin. rewrite Forall_forall in HB. specialize (HB (attr, face) (in_combine_r _ _ _ _ Hin)). cbn [fst] in HB.
      rewrite (proj2 (Nat.ltb_lt 0 attr)) by lia. cbn [oguard]. rewrite oread_nth by lia. cbn [obind].
      specialize (N (attr - 1)%nat ltac:(lia)). rewrite nth_repeat in N. cbn [Z.eqb negb orb] in N. replace (S (attr - 1)) with attr in N by lia.
      assert (INNER : omap (fun '(k, mk) => match mk with None => Ok [(i, k)] | Some mk => let* x := oread mk (attr - 1) in if (x =? 0)%Z then Ok [] else Ok [(i, k)] end)
        (combine (seq 0 (length marks)) marks) = Ok (map (fun '(k, mk) => if wants mk attr then [(i, k)] else []) (combine (seq 0 (length marks)) marks))).
      { apply omap_all. intros [k mk] Hk. apply in_combine_r in Hk. rewrite Forall_forall in HM. specialize (HM mk Hk). destruct mk as [l|]; [|auto].
        rewrite oread_nth by lia. cbn [obind wants]. destruct (nth (attr - 1) l 0 =? 0)%Z; auto. }
      destruct (Z.eqb_spec (nth (attr - 1) r 0%Z) 0) as [Z|Z].
      * cbn [negb] in N. destruct face; [|auto]. f_equal. rewrite flat_map_concat_map.
        assert (NO : forall mk, In mk marks -> wants mk attr = false).
        { intros mk Hk. symmetry in N. destruct (wants mk attr) eqn:WW; auto. rewrite <- N. symmetry. apply existsb_exists. eauto. }
        assert (AL : forall k mk, In (k, mk) (combine (seq 0 (length marks)) marks) -> wants mk attr = false) by (intros k mk Hk; apply NO; eapply in_combine_r; eauto).
        clear - AL. induction (combine (seq 0 (length marks)) marks) as [|[k mk] l IH]; [auto|]. simpl. rewrite (AL k mk) by (simpl; auto).
        simpl. apply IH. intros. apply (AL k0). simpl. auto.
      * destruct face; cbn [negb]; [|auto]. unfold marks in INNER |- *. rewrite INNER. cbn [obind]. rewrite flat_map_concat_map. auto.
Qed.

Lemma wanted_iff marks bdr i k : In (i, k) (wanted marks bdr) <->
  exists attr mk, nth_error bdr i = Some (attr, true) /\ nth_error marks k = Some mk /\ wants mk attr = true.
Proof.
  assert (CI : forall {A} (l : list A) n a, In (n, a) (combine (seq 0 (length l)) l) <-> nth_error l n = Some a).
  { intros A l. assert (G : forall s n a, In (n, a) (combine (seq s (length l)) l) <-> (s <= n)%nat /\ nth_error l (n - s) = Some a).
    { induction l as [|x l IH]; intros s n a; simpl.
      - split; [tauto|]. intros (_ & H). destruct (n - s)%nat; discriminate.
      - rewrite IH. split.
        + intros [H|(H1 & H2)]; [injection H as <- <-; rewrite Nat.sub_diag; auto|]. split; [lia|]. replace (n - s)%nat with (S (n - S s)) by lia. auto.
        + intros (H1 & H2). destruct (Nat.eq_dec n s) as [->|D].
          * rewrite Nat.sub_diag in H2. injection H2 as <-. auto.
          * right. split; [lia|]. replace (n - s)%nat with (S (n - S s)) in H2 by lia. auto. }
    intros n a. rewrite G, Nat.sub_0_r. split; [tauto|]. intros. split; [lia|auto]. }
  unfold wanted. rewrite in_flat_map. split.
  - intros ([i' [attr face]] & H1 & H2). apply CI in H1. destruct face; [|contradiction]. apply in_flat_map in H2. destruct H2 as ([k' mk] & H3 & H4).
    apply CI in H3. destruct (wants mk attr) eqn:W; [|contradiction]. destruct H4 as [H4|[]]. injection H4 as -> ->. eauto.
  - intros (attr & mk & H1 & H2 & H3). exists (i, (attr, true)). split; [apply CI; auto|]. apply in_flat_map. exists (k, mk). split; [apply CI; auto|].
    rewrite H3. simpl. auto.
Qed.
