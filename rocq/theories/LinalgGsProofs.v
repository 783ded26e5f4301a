(** Proofs: modified Gram-Schmidt and orthonormalization against a basis. *)
From Coq Require Import Reals List Bool ZArith Lia Lra Arith.
From Verif Require Import Outcome ListLemmas LaBase LinalgModel LinalgSpec LinalgProofs.
Import ListNotations.
Local Open Scope R_scope.

(** ** Vectors *)

Lemma dot_comm n u v : dot n u v = dot n v u.
Proof. unfold dot. apply rsum_ext. intros. ring. Qed.

Lemma dot_nonneg n v : 0 <= dot n v v.
Proof. unfold dot. apply rsum_nonneg. intros i _. apply Rle_0_sqr. Qed.

Lemma dot_zero n v : dot n v v = 0 -> forall i, (i < n)%nat -> vnth v i = 0.
Proof.
  intros H i Hi. assert (E : vnth v i * vnth v i = 0).
  { apply (rsum_nonneg_zero n (fun i => vnth v i * vnth v i)); auto. intros; apply Rle_0_sqr. }
  apply Rmult_integral in E. tauto.
Qed.

Lemma vscale_length a v : length (vscale a v) = length v.
Proof. apply map_length. Qed.

Lemma vscale_nth a v i : vnth (vscale a v) i = a * vnth v i.
Proof.
  unfold vnth, vscale. replace 0 with (a * 0) at 1 by ring. apply (map_nth (fun x => a * x)).
Qed.

Lemma vadd_length u a v : length v = length u -> length (vadd u a v) = length u.
Proof. intros H. unfold vadd. rewrite map_length, combine_length. lia. Qed.

Lemma vadd_nth u a v i : length v = length u -> vnth (vadd u a v) i = vnth u i + a * vnth v i.
Proof.
  intros H. unfold vnth, vadd.
  set (f := fun p : R * R => fst p + a * snd p).
  transitivity (nth i (map f (combine u v)) (f (0, 0))).
  - f_equal. unfold f. simpl. ring.
  - rewrite map_nth, combine_nth by auto. auto.
Qed.

Lemma dot_ext n u u' v v' : (forall i, (i < n)%nat -> vnth u i = vnth u' i) -> (forall i, (i < n)%nat -> vnth v i = vnth v' i) ->
  dot n u v = dot n u' v'.
Proof. intros H1 H2. apply rsum_ext. intros i Hi. rewrite H1, H2; auto. Qed.

Lemma dot_vscale_r n u a v : dot n u (vscale a v) = a * dot n u v.
Proof. unfold dot. rewrite <- rsum_scal. apply rsum_ext. intros i _. rewrite vscale_nth. ring. Qed.

Lemma dot_vadd_r n w u a v : length v = length u -> dot n w (vadd u a v) = dot n w u + a * dot n w v.
Proof.
  intros H. unfold dot. rewrite <- rsum_scal, <- rsum_plus. apply rsum_ext. intros i _. rewrite vadd_nth by auto. ring.
Qed.

(** Product with a combination. *)
Lemma dot_comb n w u m (a : nat -> R) (vs : nat -> vec) :
  (forall i, (i < n)%nat -> vnth u i = rsum m (fun k => a k * vnth (vs k) i)) ->
  dot n w u = rsum m (fun k => a k * dot n w (vs k)).
Proof.
  intros H. unfold dot. rewrite (rsum_ext n _ (fun i => rsum m (fun k => a k * (vnth w i * vnth (vs k) i)))).
  - rewrite rsum_swap. apply rsum_ext. intros k _. rewrite rsum_scal. auto.
  - intros i Hi. rewrite H by auto. rewrite <- rsum_scal. apply rsum_ext. intros. ring.
Qed.

Lemma rsum_extend n m f : (m <= n)%nat -> rsum n (fun k => if (k <? m)%nat then f k else 0) = rsum m f.
Proof.
  intros H. replace n with (m + (n - m))%nat by lia. rewrite rsum_split.
  rewrite (rsum_ext m _ f), (rsum_ext (n - m) _ (fun _ => 0)), rsum_zero; [ring| |].
  - intros i _. destruct (Nat.ltb_spec (m + i) m); [lia|auto].
  - intros i Hi. destruct (Nat.ltb_spec i m); [auto|lia].
Qed.

Lemma req_spec x y : req x y = true <-> x = y.
Proof. unfold req. destruct (Req_EM_T x y); split; congruence. Qed.

Lemma req_false x y : req x y = false <-> x <> y.
Proof. unfold req. destruct (Req_EM_T x y); split; congruence. Qed.

Lemma oread_colv (cols : list vec) c : (c < length cols)%nat -> oread cols c = Ok (colv cols c).
Proof. intros H. unfold oread, colv. rewrite (nth_error_nth' cols []); auto. Qed.

Lemma colv_upd_eq (cols : list vec) c v : (c < length cols)%nat -> colv (upd cols c v) c = v.
Proof. intros H. apply nth_upd_eq. auto. Qed.

Lemma colv_upd_ne (cols : list vec) c i v : c <> i -> colv (upd cols c v) i = colv cols i.
Proof. intros H. apply nth_upd_ne. auto. Qed.

Lemma cols_wf_colv n cols : cols_wf n cols <-> forall i, (i < length cols)%nat -> length (colv cols i) = n.
Proof.
  split.
  - intros H i Hi. apply H, nth_In. auto.
  - intros H v Hv. apply (In_nth _ _ []) in Hv. destruct Hv as (i & Hi & <-). apply H. auto.
Qed.

(** ** Modified Gram-Schmidt *)

Definition mgs_body n (cols : list vec) (c : nat) : outcome (list vec) :=
    let* vc := oread cols c in
    oguard (negb (req (dot n vc vc) 0)) (
    let* cols := owrite cols c (vscale (/ sqrt (dot n vc vc)) vc) in
    oforr (c + 1) (length cols) (fun cols i =>
      let* tmp := oread cols i in
      let* vc := oread cols c in
      owrite cols i (vadd tmp (- dot n tmp vc) vc)) cols).

Lemma mgs_inner n cols c : cols_wf n cols -> (c < length cols)%nat ->
  exists cols', oforr (c + 1) (length cols) (fun cols i =>
      let* tmp := oread cols i in
      let* vc := oread cols c in
      owrite cols i (vadd tmp (- dot n tmp vc) vc)) cols = Ok cols' /\
    length cols' = length cols /\
    (forall i, (i <= c)%nat -> colv cols' i = colv cols i) /\
    (forall i, (c < i < length cols)%nat -> colv cols' i = vadd (colv cols i) (- dot n (colv cols i) (colv cols c)) (colv cols c)).
Proof.
  intros W Hc.
  match goal with |- context[oforr _ _ ?f _] =>
    destruct (oforr_inv (c + 1) (length cols) f (fun k s => length s = length cols /\
      (forall i, (i <= c \/ k <= i)%nat -> colv s i = colv cols i) /\
      (forall i, (c < i < k)%nat -> colv s i = vadd (colv cols i) (- dot n (colv cols i) (colv cols c)) (colv cols c))) cols)
      as (s & E & L & H1 & H2) end; [lia| | |].
  - split; auto. split; auto. intros; lia.
  - intros k s Hk (L & H1 & H2). rewrite oread_colv by lia. cbn [obind]. rewrite oread_colv by lia. cbn [obind].
    rewrite owrite_vec by lia. eexists; split; [reflexivity|]. split; [rewrite upd_length; auto|].
    rewrite (H1 k), (H1 c) by lia. split.
    + intros i Hi. rewrite colv_upd_ne by lia. apply H1. lia.
    + intros i Hi. destruct (Nat.eq_dec i k) as [->|N].
      * rewrite colv_upd_eq by lia. auto.
      * rewrite colv_upd_ne by lia. apply H2. lia.
  - exists s. split; auto.
Qed.

(** The loop invariant: [cur] after [c] columns. *)
Definition mgs_inv n (orig : list vec) (c : nat) (cur : list vec) : Prop :=
  length cur = length orig /\ cols_wf n cur /\
  (forall i j, (i < c)%nat -> (j < length orig)%nat -> dot n (colv cur i) (colv cur j) = if (i =? j)%nat then 1 else 0) /\
  (exists T : nat -> nat -> R, (forall i, (i < c)%nat -> 0 < T i i) /\ (forall k j, (j < k)%nat -> T k j = 0) /\
     forall j p, (j < length orig)%nat -> (p < n)%nat ->
       vnth (colv orig j) p = rsum c (fun k => T k j * vnth (colv cur k) p) + if (j <? c)%nat then 0 else vnth (colv cur j) p) /\
  (exists M : nat -> nat -> R, (forall j, (j < length orig)%nat -> M j j <> 0) /\
     forall j p, (j < length orig)%nat -> (p < n)%nat ->
       vnth (colv cur j) p = rsum (S j) (fun k => M k j * vnth (colv orig k) p)).

Lemma mgs_step n orig c cur : mgs_inv n orig c cur -> (c < length orig)%nat ->
  dot n (colv cur c) (colv cur c) <> 0 ->
  exists cur', mgs_body n cur c = Ok cur' /\ mgs_inv n orig (S c) cur'.
Proof.
  intros (L & W & O & (T & Tp & Tu & TE) & (M & Mn & ME)) Hc Hn. unfold mgs_body.
  rewrite oread_colv by lia. cbn [obind]. replace (req (dot n (colv cur c) (colv cur c)) 0) with false by (symmetry; apply req_false; auto).
  cbn [negb oguard]. rewrite owrite_vec by lia. cbn [obind].
  set (v := colv cur c) in *. set (s := sqrt (dot n v v)). set (q := vscale (/ s) v).
  assert (Dp : 0 < dot n v v) by (pose proof (dot_nonneg n v); lra).
  assert (Sp : 0 < s) by (apply sqrt_lt_R0; auto).
  assert (Ss : s * s = dot n v v) by (apply sqrt_sqrt; lra).
  assert (Lv : length v = n) by (apply cols_wf_colv; auto; lia).
  assert (W1 : cols_wf n (upd cur c q)).
  { apply cols_wf_colv. rewrite upd_length. intros i Hi. destruct (Nat.eq_dec i c) as [->|N].
    - rewrite colv_upd_eq by lia. unfold q. rewrite vscale_length. auto.
    - rewrite colv_upd_ne by auto. apply cols_wf_colv; auto. }
  destruct (mgs_inner n (upd cur c q) c W1) as (cur' & E & L' & H1 & H2); [rewrite upd_length; lia|].
  exists cur'. split; [exact E|]. rewrite upd_length in L', H2.
  assert (Cc : colv cur' c = q) by (rewrite H1, colv_upd_eq by lia; auto).
  assert (Clt : forall i, (i < c)%nat -> colv cur' i = colv cur i) by (intros i Hi; rewrite H1, colv_upd_ne by lia; auto).
  assert (Cgt : forall i, (c < i < length orig)%nat -> colv cur' i = vadd (colv cur i) (- dot n (colv cur i) q) q).
  { intros i Hi. rewrite H2 by lia. rewrite colv_upd_ne, colv_upd_eq by lia. auto. }
  assert (Lq : length q = n) by (unfold q; rewrite vscale_length; auto).
  assert (Lc : forall i, (i < length orig)%nat -> length (colv cur i) = n) by (intros i Hi; apply cols_wf_colv; auto; lia).
  assert (Vgt : forall i p, (c < i < length orig)%nat -> vnth (colv cur' i) p = vnth (colv cur i) p - dot n (colv cur i) q * vnth q p).
  { intros i p Hi. rewrite Cgt, vadd_nth by (auto; rewrite Lc by lia; auto). ring. }
  assert (Vq : forall p, vnth v p = s * vnth q p).
  { intros p. unfold q. rewrite vscale_nth. field. lra. }
  assert (Dqq : dot n q q = 1).
  { unfold q. rewrite dot_vscale_r, dot_comm, dot_vscale_r, <- Ss. field. lra. }
  assert (Dlq : forall i, (i < c)%nat -> dot n (colv cur i) q = 0).
  { intros i Hi. unfold q. rewrite dot_vscale_r. unfold v. rewrite O by lia. destruct (Nat.eqb_spec i c); [lia|]. ring. }
  split; [lia|]. split; [|split; [|split]].
  - apply cols_wf_colv. rewrite L'. intros i Hi. destruct (Nat.lt_trichotomy i c) as [Lt|[->|Gt]].
    + rewrite Clt by auto. apply Lc. lia.
    + rewrite Cc. auto.
    + rewrite Cgt by lia. rewrite vadd_length; rewrite Lc by lia; auto.
  - intros i j Hi Hj. destruct (Nat.eq_dec i c) as [->|Ni].
    + rewrite Cc. destruct (Nat.lt_trichotomy j c) as [Lt|[->|Gt]].
      * rewrite Clt by auto. rewrite dot_comm, Dlq by auto. destruct (Nat.eqb_spec c j); [lia|auto].
      * rewrite Cc, Nat.eqb_refl. auto.
      * rewrite Cgt, dot_vadd_r by (try lia; rewrite Lc by lia; auto). rewrite Dqq, (dot_comm n q).
        destruct (Nat.eqb_spec c j); [lia|]. ring.
    + assert (i < c)%nat by lia. rewrite (Clt i) by auto. destruct (Nat.lt_trichotomy j c) as [Lt|[->|Gt]].
      * rewrite Clt by auto. apply O; auto.
      * rewrite Cc, Dlq by auto. destruct (Nat.eqb_spec i c); [lia|auto].
      * rewrite Cgt, dot_vadd_r by (try lia; rewrite Lc by lia; auto). rewrite (Dlq i), (O i j) by lia.
        destruct (Nat.eqb_spec i j); [lia|]. ring.
  - exists (fun k j => if (k =? c)%nat then (if (j =? c)%nat then s else if (c <? j)%nat then dot n (colv cur j) q else 0) else T k j).
    split; [|split].
    + intros i Hi. destruct (Nat.eqb_spec i c) as [->|N]; auto. apply Tp. lia.
    + intros k j Hkj. destruct (Nat.eqb_spec k c) as [->|N]; [|apply Tu; auto].
      destruct (Nat.eqb_spec j c); [lia|]. destruct (Nat.ltb_spec c j); [lia|auto].
    + intros j p Hj Hp. rewrite TE by auto. cbn [rsum]. rewrite Nat.eqb_refl, Cc.
      rewrite (rsum_ext c (fun k => (if (k =? c)%nat then _ else T k j) * vnth (colv cur' k) p) (fun k => T k j * vnth (colv cur k) p)).
      2:{ intros k Hk. destruct (Nat.eqb_spec k c); [lia|]. rewrite Clt by auto. auto. }
      destruct (Nat.lt_trichotomy j c) as [Lt|[->|Gt]].
      * destruct (Nat.ltb_spec j c); [|lia]. destruct (Nat.eqb_spec j c); [lia|]. destruct (Nat.ltb_spec c j); [lia|].
        destruct (Nat.ltb_spec j (S c)); [|lia]. ring.
      * rewrite Nat.eqb_refl, Nat.ltb_irrefl. destruct (Nat.ltb_spec c (S c)); [|lia]. fold v. rewrite Vq. ring.
      * destruct (Nat.ltb_spec j c); [lia|]. destruct (Nat.eqb_spec j c); [lia|]. destruct (Nat.ltb_spec c j); [|lia].
        destruct (Nat.ltb_spec j (S c)); [lia|]. rewrite Vgt by lia. ring.
  - exists (fun k j => if (j <? c)%nat then M k j else if (j =? c)%nat then / s * M k c
                 else M k j - dot n (colv cur j) q * (if (k <? S c)%nat then / s * M k c else 0)).
    assert (Qe : forall p, (p < n)%nat -> vnth q p = rsum (S c) (fun k => / s * M k c * vnth (colv orig k) p)).
    { intros p Hp. unfold q. rewrite vscale_nth. unfold v. rewrite ME by auto. rewrite <- rsum_scal. apply rsum_ext. intros; ring. }
    split.
    + intros j Hj. destruct (Nat.ltb_spec j c); [apply Mn; auto|]. destruct (Nat.eqb_spec j c) as [->|N].
      * apply Rmult_integral_contrapositive_currified; [apply Rinv_neq_0_compat; lra|apply Mn; auto].
      * destruct (Nat.ltb_spec j (S c)); [lia|]. rewrite Rmult_0_r, Rminus_0_r. apply Mn. auto.
    + intros j p Hj Hp. destruct (Nat.lt_trichotomy j c) as [Lt|[->|Gt]].
      * rewrite Clt by auto. destruct (Nat.ltb_spec j c); [|lia]. apply ME; auto.
      * rewrite Cc, Nat.ltb_irrefl, Nat.eqb_refl. apply Qe. auto.
      * rewrite Vgt, ME, Qe by lia. destruct (Nat.ltb_spec j c); [lia|]. destruct (Nat.eqb_spec j c); [lia|].
        rewrite <- (rsum_extend (S j) (S c) (fun k => / s * M k c * vnth (colv orig k) p)) by lia.
        rewrite <- rsum_scal, <- rsum_minus. apply rsum_ext. intros k Hk. destruct (Nat.ltb_spec k (S c)); ring.
Qed.

Lemma mgs_inv_0 n cols : cols_wf n cols -> mgs_inv n cols 0 cols.
Proof.
  intros W. split; auto. split; auto. split; [intros; lia|]. split.
  - exists (fun _ _ => 0). split; [intros; lia|]. split; auto. intros j p _ _. simpl. ring.
  - exists (fun k j => if (k =? j)%nat then 1 else 0). split.
    + intros j _. rewrite Nat.eqb_refl. lra.
    + intros j p _ _. symmetry. rewrite (rsum_single (S j) j); [rewrite Nat.eqb_refl; ring|lia|].
      intros i _ N. destruct (Nat.eqb_spec i j); [congruence|ring].
Qed.

Lemma ofor_inv_ok {S} n (f : S -> nat -> outcome S) (I : nat -> S -> Prop) s s' :
  I 0%nat s -> (forall i s s', (i < n)%nat -> I i s -> f s i = Ok s' -> I (Datatypes.S i) s') ->
  ofor n f s = Ok s' -> I n s'.
Proof.
  intros H0 Hs. unfold ofor.
  assert (G : forall k a s, (a + k = n)%nat -> I a s -> ofold f (seq a k) s = Ok s' -> I n s').
  { induction k; intros a s1 Ha HI E.
    - simpl in E. injection E as <-. replace n with a by lia. auto.
    - cbn [seq ofold] in E. apply obind_ok in E. destruct E as (s2 & E2 & E). apply (IHk (Datatypes.S a) s2); [lia| |auto].
      apply (Hs a s1); auto. lia. }
  intros E. apply (G n 0%nat s); auto.
Qed.

Lemma mgs_is_body n cols : mgs n cols = ofor (length cols) (mgs_body n) cols.
Proof. reflexivity. Qed.

Lemma mgs_inv_run n cols q : cols_wf n cols -> mgs n cols = Ok q -> mgs_inv n cols (length cols) q.
Proof.
  intros W E. rewrite mgs_is_body in E.
  apply (ofor_inv_ok (length cols) (mgs_body n) (mgs_inv n cols) cols q); auto using mgs_inv_0.
  intros c s s' Hc HI Eb. destruct (Req_EM_T (dot n (colv s c) (colv s c)) 0) as [Z|N].
  - exfalso. unfold mgs_body in Eb. destruct HI as (L & _). rewrite oread_colv in Eb by lia. cbn [obind] in Eb.
    replace (req (dot n (colv s c) (colv s c)) 0) with true in Eb by (symmetry; apply req_spec; auto). discriminate.
  - destruct (mgs_step n cols c s HI Hc N) as (s2 & E2 & HI2). congruence.
Qed.

Lemma mgs_qr n cols q : cols_wf n cols -> mgs n cols = Ok q ->
  length q = length cols /\ cols_wf n q /\ orthonormal n q /\
  exists T : nat -> nat -> R, (forall i, (i < length cols)%nat -> 0 < T i i) /\ (forall k j, (j < k)%nat -> T k j = 0) /\
    forall j p, (j < length cols)%nat -> (p < n)%nat ->
      vnth (colv cols j) p = rsum (length cols) (fun k => T k j * vnth (colv q k) p).
Proof.
  intros W E. destruct (mgs_inv_run n cols q W E) as (L & Wq & O & (T & Tp & Tu & TE) & _).
  split; auto. split; auto. split.
  - intros i j Hi Hj. apply O; lia.
  - exists T. split; auto. split; auto. intros j p Hj Hp. rewrite TE by auto.
    destruct (Nat.ltb_spec j (length cols)); [ring|lia].
Qed.

(** Spans *)
Lemma span_matrix n us vs (C : nat -> nat -> R) w :
  (forall j p, (j < length us)%nat -> (p < n)%nat -> vnth (colv us j) p = rsum (length vs) (fun k => C k j * vnth (colv vs k) p)) ->
  in_span n us w -> in_span n vs w.
Proof.
  intros H (a & Ha). exists (fun k => rsum (length us) (fun j => a j * C k j)). intros p Hp. rewrite Ha by auto.
  rewrite (rsum_ext _ _ (fun j => rsum (length vs) (fun k => a j * C k j * vnth (colv vs k) p))).
  - rewrite rsum_swap. apply rsum_ext. intros k _. rewrite <- rsum_scal_r. auto.
  - intros j Hj. rewrite H by auto. rewrite <- rsum_scal. apply rsum_ext. intros. ring.
Qed.

Lemma colv_firstn cols m k : (k < m)%nat -> colv (firstn m cols) k = colv cols k.
Proof.
  revert cols k. induction m; intros cols k H; [lia|]. destruct cols; [reflexivity|]. destruct k; [reflexivity|].
  apply (IHm cols k). lia.
Qed.

Lemma mgs_spans n cols q m : cols_wf n cols -> mgs n cols = Ok q -> (m <= length cols)%nat ->
  same_span n (firstn m q) (firstn m cols).
Proof.
  intros W E Hm. destruct (mgs_inv_run n cols q W E) as (L & Wq & O & (T & Tp & Tu & TE) & (M & Mn & ME)).
  intros w. split.
  - apply span_matrix with (C := fun k j => if (k <? S j)%nat then M k j else 0).
    intros j p Hj Hp. rewrite firstn_length in *. rewrite colv_firstn, ME by lia.
    rewrite (Nat.min_l m) by lia.
    rewrite <- (rsum_extend m (S j)) by lia. apply rsum_ext. intros k Hk. rewrite colv_firstn by auto.
    destruct (Nat.ltb_spec k (S j)); ring.
  - apply span_matrix with (C := T). intros j p Hj Hp. rewrite firstn_length in *. rewrite colv_firstn, TE by lia.
    destruct (Nat.ltb_spec j (length cols)); [|lia]. rewrite Rplus_0_r. rewrite (Nat.min_l m) by lia.
    rewrite <- (rsum_extend (length cols) m) by lia. apply rsum_ext. intros k Hk.
    destruct (Nat.ltb_spec k m); [rewrite colv_firstn by auto; auto|]. rewrite Tu by lia. ring.
Qed.

(** It succeeds exactly on independent columns. *)
Lemma mgs_accepts n cols : cols_wf n cols -> lin_indep n cols -> exists q, mgs n cols = Ok q.
Proof.
  intros W LI. rewrite mgs_is_body.
  destruct (ofor_inv (length cols) (mgs_body n) (mgs_inv n cols) cols) as (q & E & _); eauto using mgs_inv_0.
  intros c cur Hc HI. apply mgs_step; auto. intros Z.
  destruct HI as (L & _ & _ & _ & (M & Mn & ME)).
  assert (Zc : M c c = 0).
  { assert (G : (fun k => if (k <? S c)%nat then M k c else 0) c = 0).
    { apply (LI (fun k => if (k <? S c)%nat then M k c else 0)); auto. intros p Hp. rewrite (rsum_ext _ _ (fun k => if (k <? S c)%nat then M k c * vnth (colv cols k) p else 0)).
      - rewrite (rsum_extend (length cols) (S c) (fun k => M k c * vnth (colv cols k) p)) by lia.
        rewrite <- ME by auto. apply (dot_zero n); auto.
      - intros k _. destruct (k <? S c)%nat; ring. }
    cbv beta in G. destruct (Nat.ltb_spec c (S c)); [auto|lia]. }
  apply (Mn c Hc Zc).
Qed.

Lemma mgs_only_independent n cols q : cols_wf n cols -> mgs n cols = Ok q -> lin_indep n cols.
Proof.
  intros W E. destruct (mgs_qr n cols q W E) as (L & Wq & O & (T & Tp & Tu & TE)). intros a Ha.
  assert (G : forall k, (k < length cols)%nat -> rsum (length cols) (fun j => T k j * a j) = 0).
  { intros k Hk.
    assert (D : dot n (colv q k) (map (fun p => rsum (length cols) (fun j => a j * vnth (colv cols j) p)) (seq 0 n)) = 0).
    { unfold dot. rewrite (rsum_ext n _ (fun _ => 0)), rsum_zero; auto. intros p Hp. unfold vnth at 2. rewrite nth_map_seq by auto.
      rewrite Ha by auto. ring. }
    rewrite (dot_comb n _ _ (length cols) a (colv cols)) in D.
    2:{ intros p Hp. unfold vnth at 1. rewrite nth_map_seq by auto. auto. }
    rewrite <- D. apply rsum_ext. intros j Hj.
    rewrite (dot_comb n (colv q k) (colv cols j) (length cols) (fun l => T l j) (colv q)) by (intros; apply TE; auto).
    rewrite (rsum_single (length cols) k); auto.
    - rewrite O by lia. rewrite Nat.eqb_refl. ring.
    - intros l Hl N. rewrite O by lia. destruct (Nat.eqb_spec k l); [congruence|ring]. }
  assert (D : forall m k, (length cols - m <= k < length cols)%nat -> a k = 0).
  { induction m; intros k Hk; [lia|]. destruct (Nat.le_gt_cases (length cols - m) k) as [Le|Gt]; [apply IHm; lia|].
    specialize (G k ltac:(lia)). rewrite (rsum_single (length cols) k) in G; [|lia|].
    - apply Rmult_integral in G. specialize (Tp k ltac:(lia)). destruct G; [lra|auto].
    - intros j Hj N. destruct (Nat.lt_ge_cases j k); [rewrite Tu by auto; ring|]. rewrite (IHm j) by lia. ring. }
  intros k Hk. apply (D (length cols)). lia.
Qed.

(** ** Orthonormalization against a basis *)

Definition proj_body n (mat1 : list vec) (mat : list vec) (i : nat) : outcome (list vec) :=
    let* tmp := oread mat1 i in
    let tmp_dot := dot n tmp tmp in
    ofor (length mat) (fun mat c =>
      let* vc := oread mat c in
      oguard (negb (req tmp_dot 0)) (
      owrite mat c (vadd vc (- dot n tmp vc / tmp_dot) tmp))) mat.

Lemma proj_step n mat1 mat i : (i < length mat1)%nat -> dot n (colv mat1 i) (colv mat1 i) <> 0 ->
  exists mat', proj_body n mat1 mat i = Ok mat' /\ length mat' = length mat /\
    forall c, (c < length mat)%nat -> colv mat' c = vadd (colv mat c) (- dot n (colv mat1 i) (colv mat c) / dot n (colv mat1 i) (colv mat1 i)) (colv mat1 i).
Proof.
  intros Hi Hn. unfold proj_body. rewrite oread_colv by auto. cbn [obind].
  match goal with |- context[ofor _ ?f _] =>
    destruct (ofor_inv (length mat) f (fun k s => length s = length mat /\
      (forall c, (k <= c)%nat -> colv s c = colv mat c) /\
      (forall c, (c < k)%nat -> colv s c = vadd (colv mat c) (- dot n (colv mat1 i) (colv mat c) / dot n (colv mat1 i) (colv mat1 i)) (colv mat1 i))) mat)
      as (s & E & L & H1 & H2) end.
  - split; auto. split; auto. intros; lia.
  - intros k s Hk (L & H1 & H2). rewrite oread_colv by lia. cbn [obind].
    replace (req _ 0) with false by (symmetry; apply req_false; auto). cbn [negb oguard].
    rewrite owrite_vec by lia. eexists; split; [reflexivity|]. split; [rewrite upd_length; auto|].
    rewrite (H1 k) by lia. split.
    + intros c Hc. rewrite colv_upd_ne by lia. apply H1. lia.
    + intros c Hc. destruct (Nat.eq_dec c k) as [->|N]; [rewrite colv_upd_eq by lia; auto|rewrite colv_upd_ne by lia; apply H2; lia].
  - exists s. split; [exact E|]. auto.
Qed.

Definition proj_inv n (mat1 orig : list vec) (i : nat) (cur : list vec) : Prop :=
  length cur = length orig /\ cols_wf n cur /\
  (forall k c, (k < i)%nat -> (c < length orig)%nat -> dot n (colv mat1 k) (colv cur c) = 0) /\
  exists C : nat -> nat -> R, forall c p, (c < length orig)%nat -> (p < n)%nat ->
    vnth (colv orig c) p = vnth (colv cur c) p + rsum i (fun k => C k c * vnth (colv mat1 k) p).

Lemma proj_run n mat1 mat : cols_wf n mat1 -> cols_wf n mat -> orthogonal_basis n mat1 ->
  exists cur, ofor (length mat1) (proj_body n mat1) mat = Ok cur /\ proj_inv n mat1 mat (length mat1) cur.
Proof.
  intros W1 W (Nz & Or). apply ofor_inv.
  - split; auto. split; auto. split; [intros; lia|]. exists (fun _ _ => 0). intros c p _ _. simpl. ring.
  - intros i cur Hi (L & Wc & O & (C & HC)).
    destruct (proj_step n mat1 cur i Hi (Nz i Hi)) as (cur' & E & L' & V). exists cur'. split; auto.
    assert (Lu : length (colv mat1 i) = n) by (apply cols_wf_colv; auto).
    assert (Lc : forall c, (c < length cur)%nat -> length (colv cur c) = n) by (intros c Hc; apply cols_wf_colv; auto).
    split; [lia|]. split; [|split].
    + apply cols_wf_colv. rewrite L'. intros c Hc. rewrite V, vadd_length by (auto; rewrite Lc by auto; auto). auto.
    + intros k c Hk Hc. rewrite V, dot_vadd_r by (try lia; rewrite Lc by lia; auto). destruct (Nat.eq_dec k i) as [->|N].
      * field. apply Nz. auto.
      * rewrite (O k c), (Or k i) by lia. ring.
    + exists (fun k c => if (k =? i)%nat then dot n (colv mat1 i) (colv cur c) / dot n (colv mat1 i) (colv mat1 i) else C k c).
      intros c p Hc Hp. rewrite HC by auto. cbn [rsum]. rewrite Nat.eqb_refl.
      rewrite V, vadd_nth by (try lia; rewrite Lc by lia; auto).
      rewrite (rsum_ext i (fun k => (if (k =? i)%nat then _ else C k c) * vnth (colv mat1 k) p) (fun k => C k c * vnth (colv mat1 k) p)).
      * field. apply Nz. auto.
      * intros k Hk. destruct (Nat.eqb_spec k i); [lia|auto].
Qed.

Lemma orthonormalize_split n mat1 mat : orthonormalize n mat1 n mat =
  (let* cur := ofor (length mat1) (proj_body n mat1) mat in mgs n cur).
Proof. unfold orthonormalize. rewrite Nat.eqb_refl. reflexivity. Qed.

Lemma orthonormalize_ok n mat1 mat q : cols_wf n mat1 -> cols_wf n mat -> orthogonal_basis n mat1 ->
  orthonormalize n mat1 n mat = Ok q ->
  length q = length mat /\ cols_wf n q /\ orthonormal n q /\ orthogonal_to n mat1 q /\
  exists (C T : nat -> nat -> R), (forall i, (i < length mat)%nat -> 0 < T i i) /\ (forall k j, (j < k)%nat -> T k j = 0) /\
    forall j p, (j < length mat)%nat -> (p < n)%nat ->
      vnth (colv mat j) p = rsum (length mat1) (fun k => C k j * vnth (colv mat1 k) p) + rsum (length mat) (fun k => T k j * vnth (colv q k) p).
Proof.
  intros W1 W B E. rewrite orthonormalize_split in E.
  destruct (proj_run n mat1 mat W1 W B) as (cur & Ec & (L & Wc & O & (C & HC))). rewrite Ec in E. cbn [obind] in E.
  destruct (mgs_qr n cur q Wc E) as (Lq & Wq & On & (T & Tp & Tu & TE)).
  split; [lia|]. split; auto. split; auto. split.
  - intros u v Hu Hv. apply (In_nth _ _ []) in Hu, Hv. destruct Hu as (i & Hi & <-), Hv as (j & Hj & <-).
    change (dot n (colv mat1 i) (colv q j) = 0). assert (Hj' : (j < length cur)%nat) by (rewrite <- Lq; exact Hj).
    destruct (mgs_inv_run n cur q Wc E) as (_ & _ & _ & _ & (M & _ & ME)).
    rewrite (dot_comb n _ _ (S j) (fun k => M k j) (colv cur)) by (intros; apply ME; auto).
    rewrite (rsum_ext _ _ (fun _ => 0)), rsum_zero; auto. intros k Hk. rewrite O by (auto; lia). ring.
  - rewrite <- L. exists C, T. split; auto. split; auto. intros j p Hj Hp. rewrite HC, TE by lia. ring.
Qed.

Lemma colv_app_l us vs k : (k < length us)%nat -> colv (us ++ vs) k = colv us k.
Proof. intros H. apply app_nth1. auto. Qed.
Lemma colv_app_r us vs k : colv (us ++ vs) (length us + k) = colv vs k.
Proof. unfold colv. rewrite app_nth2 by lia. f_equal. lia. Qed.

Lemma orthonormalize_accepts n mat1 mat : cols_wf n mat1 -> cols_wf n mat -> orthogonal_basis n mat1 ->
  lin_indep n (mat1 ++ mat) -> exists q, orthonormalize n mat1 n mat = Ok q.
Proof.
  intros W1 W B LI. rewrite orthonormalize_split.
  destruct (proj_run n mat1 mat W1 W B) as (cur & Ec & (L & Wc & O & (C & HC))). rewrite Ec. cbn [obind].
  apply mgs_accepts; auto. intros a Ha.
  set (m := length mat1) in *. set (N := length mat) in *.
  pose (b := fun k => if (k <? m)%nat then - rsum N (fun c => a c * C k c) else a (k - m)%nat).
  assert (G : forall k, (k < length (mat1 ++ mat))%nat -> b k = 0).
  { apply (LI b). intros p Hp. rewrite app_length. fold m N. rewrite rsum_split.
    rewrite (rsum_ext m _ (fun k => - rsum N (fun c => a c * C k c) * vnth (colv mat1 k) p)).
    2:{ intros k Hk. unfold b. destruct (Nat.ltb_spec k m); [|lia]. rewrite colv_app_l by auto. auto. }
    rewrite (rsum_ext N _ (fun c => a c * vnth (colv mat c) p)).
    2:{ intros c Hc. unfold b. destruct (Nat.ltb_spec (m + c) m); [lia|]. unfold m. rewrite colv_app_r.
        replace (length mat1 + c - length mat1)%nat with c by lia. auto. }
    rewrite (rsum_ext N _ (fun c => a c * vnth (colv cur c) p + rsum m (fun k => a c * C k c * vnth (colv mat1 k) p))).
    2:{ intros c Hc. rewrite HC by auto. rewrite Rmult_plus_distr_l. f_equal. rewrite <- rsum_scal. apply rsum_ext. intros; ring. }
    rewrite rsum_plus, rsum_swap.
    replace (rsum N (fun c => a c * vnth (colv cur c) p)) with 0 by (rewrite <- (Ha p Hp), L; auto).
    rewrite Rplus_0_l, <- rsum_plus. rewrite (rsum_ext m _ (fun _ => 0)), rsum_zero; auto.
    intros k Hk. rewrite rsum_scal_r. ring. }
  intros k Hk. specialize (G (m + k)%nat). rewrite app_length in G. fold m N in G. specialize (G ltac:(lia)).
  unfold b in G. destruct (Nat.ltb_spec (m + k) m); [lia|]. replace (m + k - m)%nat with k in G by lia. auto.
Qed.
