(** Proofs: blocks, copies, products with selected rows, triple products. *)
From Coq Require Import Reals List Bool ZArith Lia Lra Arith.
From Verif Require Import Outcome ListLemmas LaBase LinalgModel LinalgSpec.
Import ListNotations.
Local Open Scope R_scope.

(** ** Loop rules *)

Lemma ofor_oforr {S} n (f : S -> nat -> outcome S) s : ofor n f s = oforr 0 n f s.
Proof. unfold ofor, oforr. rewrite Nat.sub_0_r. auto. Qed.

Lemma ofor_eq {S} n (f : S -> nat -> outcome S) (st : nat -> S) :
  (forall i, (i < n)%nat -> f (st i) i = Ok (st (Datatypes.S i))) -> ofor n f (st 0%nat) = Ok (st n).
Proof.
  intros H. destruct (ofor_inv n f (fun i s => s = st i) (st 0%nat)) as (s' & E & ->); auto.
  intros i s Hi ->. eauto.
Qed.

Lemma ofor_acc n f g a : (forall s i, (i < n)%nat -> f s i = Ok (s + g i)) -> ofor n f a = Ok (a + rsum n g).
Proof.
  intros H. assert (E : ofor n f (a + rsum 0 g) = Ok (a + rsum n g)).
  { apply (ofor_eq n f (fun i => a + rsum i g)). intros i Hi. rewrite H by auto. simpl. f_equal. ring. }
  simpl in E. rewrite Rplus_0_r in E. auto.
Qed.

Lemma oforr_empty {S} a b (f : S -> nat -> outcome S) s : (b <= a)%nat -> oforr a b f s = Ok s.
Proof. intros H. unfold oforr. replace (b - a)%nat with 0%nat by lia. auto. Qed.

(** Writing entry by entry. *)
Lemma ofor_upd n f (F : nat -> R -> R) (y : vec) : (n <= length y)%nat ->
  (forall y' i, (i < n)%nat -> length y' = length y -> f y' i = Ok (upd y' i (F i (vnth y' i)))) ->
  exists z, ofor n f y = Ok z /\ length z = length y /\ forall i, vnth z i = if (i <? n)%nat then F i (vnth y i) else vnth y i.
Proof.
  intros L H.
  destruct (ofor_inv n f (fun k z => length z = length y /\
     forall i, vnth z i = if (i <? k)%nat then F i (vnth y i) else vnth y i) y) as (z & E & L' & H').
  - split; auto.
  - intros k z Hk (Lz & Hz). rewrite H by auto. eexists; split; [reflexivity|]. split; [rewrite upd_length; auto|].
    intros i. destruct (Nat.eq_dec i k) as [->|N].
    + rewrite vnth_upd_eq by lia. rewrite Hz, Nat.ltb_irrefl. destruct (Nat.ltb_spec k (S k)); [auto|lia].
    + rewrite vnth_upd_ne, Hz by auto. destruct (Nat.ltb_spec i k), (Nat.ltb_spec i (S k)); auto; lia.
  - exists z. auto.
Qed.

Definition inr (a b i : nat) : bool := ((a <=? i) && (i <? b))%nat%bool.

Lemma inr_spec x y i : inr x y i = true <-> (x <= i < y)%nat.
Proof. unfold inr. rewrite andb_true_iff, Nat.leb_le, Nat.ltb_lt. tauto. Qed.

Lemma inr_false x y i : inr x y i = false <-> ~ (x <= i < y)%nat.
Proof. rewrite <- inr_spec. destruct (inr x y i); split; congruence. Qed.

Lemma inr_S x y i : (x <= y)%nat -> inr x (Datatypes.S y) i = (inr x y i || (i =? y)%nat)%bool.
Proof.
  intros H. destruct (inr x y i) eqn:E; simpl.
  - apply inr_spec in E. apply inr_spec. lia.
  - apply inr_false in E. destruct (Nat.eqb_spec i y) as [->|N]; [apply inr_spec|apply inr_false]; lia.
Qed.

Lemma inr_empty x i : inr x x i = false.
Proof. apply inr_false. lia. Qed.

(** Visiting a rectangle of a two-dimensional store. *)
Section Fill.
  Context {S : Type} (good : S -> Prop) (get : S -> nat -> nat -> R) (dom : nat -> nat -> Prop)
          (f : S -> nat -> nat -> outcome S) (F : nat -> nat -> R -> R) (a b c d : nat).
  Hypothesis Hab : (a <= b)%nat.
  Hypothesis Hcd : (c <= d)%nat.
  Hypothesis Hdom : forall i j, (a <= i < b)%nat -> (c <= j < d)%nat -> dom i j.
  Hypothesis Hf : forall s i j, (a <= i < b)%nat -> (c <= j < d)%nat -> good s ->
    exists s', f s i j = Ok s' /\ good s' /\ get s' i j = F i j (get s i j) /\
      forall i' j', dom i' j' -> (i', j') <> (i, j) -> get s' i' j' = get s i' j'.

  Lemma fill_row s i : (a <= i < b)%nat -> good s ->
    exists s', oforr c d (fun s j => f s i j) s = Ok s' /\ good s' /\
      forall i' j', dom i' j' -> get s' i' j' = if ((i' =? i)%nat && inr c d j')%bool then F i' j' (get s i' j') else get s i' j'.
  Proof.
    intros Hi G.
    destruct (oforr_inv c d (fun s j => f s i j) (fun k s' => good s' /\ forall i' j', dom i' j' ->
       get s' i' j' = if ((i' =? i)%nat && inr c k j')%bool then F i' j' (get s i' j') else get s i' j') s)
       as (s' & E & H); auto.
    - split; auto. intros i' j' _. rewrite inr_empty, andb_false_r. auto.
    - intros k s1 Hk (G1 & H1). destruct (Hf s1 i k Hi Hk G1) as (s2 & E2 & G2 & V2 & O2).
      exists s2. split; auto. split; auto. intros i' j' D. rewrite inr_S by lia.
      destruct (Nat.eqb_spec i' i) as [->|Ni]; cbn [andb].
      + destruct (Nat.eqb_spec j' k) as [->|Nj].
        * rewrite V2, H1 by auto. rewrite orb_true_r, Nat.eqb_refl. cbn [andb].
          replace (inr c k k) with false by (symmetry; apply inr_false; lia). auto.
        * rewrite O2, H1 by congruence. rewrite orb_false_r, Nat.eqb_refl. auto.
      + rewrite O2, H1 by congruence. destruct (Nat.eqb_spec i' i); [congruence|]. auto.
    - exists s'. auto.
  Qed.

  Lemma fill_rect s : good s ->
    exists s', oforr a b (fun s i => oforr c d (fun s j => f s i j) s) s = Ok s' /\ good s' /\
      forall i j, dom i j -> get s' i j = if (inr a b i && inr c d j)%bool then F i j (get s i j) else get s i j.
  Proof.
    intros G.
    destruct (oforr_inv a b (fun s i => oforr c d (fun s j => f s i j) s) (fun k s' => good s' /\ forall i' j', dom i' j' ->
       get s' i' j' = if (inr a k i' && inr c d j')%bool then F i' j' (get s i' j') else get s i' j') s)
       as (s' & E & H); auto.
    - split; auto. intros i' j' _. rewrite inr_empty. auto.
    - intros k s1 Hk (G1 & H1). destruct (fill_row s1 k Hk G1) as (s2 & E2 & G2 & V2).
      exists s2. split; auto. split; auto. intros i' j' D. rewrite inr_S, V2, H1 by (auto; lia).
      destruct (Nat.eqb_spec i' k) as [->|Ni]; cbn [andb].
      + replace (inr a k k) with false by (symmetry; apply inr_false; lia). cbn [andb orb]. auto.
      + rewrite orb_false_r. auto.
    - exists s'. auto.
  Qed.
End Fill.

(** ** Blocks *)

Lemma rm_index_in m i j : rm_wf m -> (i < rm_r m)%nat -> (j < rm_c m)%nat -> (i * rm_c m + j < length (rm_buf m))%nat.
Proof. unfold rm_wf. intros -> Hi Hj. nia. Qed.

Lemma rm_index_inj w i j i' j' : (j < w)%nat -> (j' < w)%nat -> (i * w + j = i' * w + j')%nat -> i = i' /\ j = j'.
Proof. intros H1 H2 E. assert (i = i') by nia. subst. lia. Qed.

Lemma rm_set_ok m i j x : rm_wf m -> (i < rm_r m)%nat -> (j < rm_c m)%nat ->
  exists m', rm_set m i j x = Ok m' /\ rm_wf m' /\ rm_r m' = rm_r m /\ rm_c m' = rm_c m /\ rm_dist m' = rm_dist m /\
    rget m' i j = x /\
    forall i' j', (i' < rm_r m)%nat -> (j' < rm_c m)%nat -> (i', j') <> (i, j) -> rget m' i' j' = rget m i' j'.
Proof.
  intros W Hi Hj. pose proof (rm_index_in m i j W Hi Hj) as B. unfold rm_set.
  rewrite owrite_vec by auto. cbn [obind]. eexists; split; [reflexivity|]. unfold rm_wf, rget. cbn.
  rewrite upd_length. repeat (split; [first [exact W|reflexivity|apply vnth_upd_eq; auto]|]).
  intros i' j' Hi' Hj' N. apply vnth_upd_ne. intros E. apply N.
  destruct (rm_index_inj _ _ _ _ _ Hj Hj' E). congruence.
Qed.

Lemma set_block_mat_ok b is ie js je g : rm_wf b -> rm_wf g -> rm_dist b = false -> rm_dist g = false ->
  (rm_r b <= rm_r g)%nat -> (rm_c b <= rm_c g)%nat ->
  (0 <= is < Z.of_nat (rm_r g))%Z -> (0 <= js < Z.of_nat (rm_c g))%Z ->
  (is <= ie <= Z.of_nat (rm_r g))%Z -> (js <= je <= Z.of_nat (rm_c g))%Z ->
  (ie - is <= Z.of_nat (rm_r b))%Z -> (je - js <= Z.of_nat (rm_c b))%Z ->
  exists g', set_block_mat b is ie js je g = Ok g' /\ rm_wf g' /\ rm_r g' = rm_r g /\ rm_c g' = rm_c g /\
    forall i j, (i < rm_r g)%nat -> (j < rm_c g)%nat ->
      rget g' i j = if ((is <=? Z.of_nat i) && (Z.of_nat i <? ie) && (js <=? Z.of_nat j) && (Z.of_nat j <? je))%Z%bool
                    then rget b (Z.to_nat (Z.of_nat i - is)) (Z.to_nat (Z.of_nat j - js)) else rget g i j.
Proof.
  intros Wb Wg Db Dg Lr Lc His Hjs Hie Hje Fi Fj. unfold set_block_mat.
  rewrite Db, Dg. cbn [negb andb oassert].
  repeat match goal with |- context[oassert ?c _] =>
    replace c with true by (symmetry; repeat rewrite andb_true_iff; repeat rewrite ?Z.leb_le, ?Z.ltb_lt, ?Nat.leb_le; lia); cbn [oassert] end.
  destruct (fill_rect (fun g' => rm_wf g' /\ rm_r g' = rm_r g /\ rm_c g' = rm_c g) rget
    (fun i j => (i < rm_r g)%nat /\ (j < rm_c g)%nat)
    (fun g i j => let* x := rm_get b (i - Z.to_nat is) (j - Z.to_nat js) in rm_set g i j x)
    (fun i j _ => rget b (i - Z.to_nat is) (j - Z.to_nat js))
    (Z.to_nat is) (Z.to_nat ie) (Z.to_nat js) (Z.to_nat je)) with (s := g) as (g' & E & (W' & R' & C') & V); try lia; auto.
  - intros s i j Hi Hj (W & Rr & Cc). unfold rm_get.
    rewrite oread_vnth by (apply rm_index_in; auto; lia). cbn [obind].
    destruct (rm_set_ok s i j (rget b (i - Z.to_nat is) (j - Z.to_nat js)) W) as (s' & E & W' & R' & C' & _ & V & O); try lia.
    exists s'. split; [exact E|]. split; [rewrite R', C'; auto|]. split; auto. intros i' j' (D1 & D2) N. apply O; auto; lia.
  - exists g'. split; [exact E|]. split; auto. split; auto. split; auto. intros i j Hi Hj. rewrite V by auto.
    assert (Eb : (inr (Z.to_nat is) (Z.to_nat ie) i && inr (Z.to_nat js) (Z.to_nat je) j)%bool =
            ((is <=? Z.of_nat i) && (Z.of_nat i <? ie) && (js <=? Z.of_nat j) && (Z.of_nat j <? je))%Z%bool).
    { apply eq_true_iff_eq. repeat rewrite andb_true_iff. rewrite !inr_spec, !Z.leb_le, !Z.ltb_lt. lia. }
    rewrite Eb. replace (i - Z.to_nat is)%nat with (Z.to_nat (Z.of_nat i - is)) by lia.
    replace (j - Z.to_nat js)%nat with (Z.to_nat (Z.of_nat j - js)) by lia. reflexivity.
Qed.

Lemma set_block_vec_ok (b : vec) is ie (g : vec) : (length b <= length g)%nat ->
  (0 <= is < Z.of_nat (length g))%Z -> (is <= ie <= Z.of_nat (length g))%Z -> (ie - is <= Z.of_nat (length b))%Z ->
  exists g', set_block_vec b is ie g = Ok g' /\ length g' = length g /\
    forall i, (i < length g)%nat ->
      vnth g' i = if ((is <=? Z.of_nat i) && (Z.of_nat i <? ie))%Z%bool then vnth b (Z.to_nat (Z.of_nat i - is)) else vnth g i.
Proof.
  intros L His Hie F. unfold set_block_vec.
  repeat match goal with |- context[oassert ?c _] =>
    replace c with true by (symmetry; repeat rewrite andb_true_iff; repeat rewrite ?Z.leb_le, ?Z.ltb_lt, ?Nat.leb_le; lia); cbn [oassert] end.
  destruct (oforr_inv (Z.to_nat is) (Z.to_nat ie) (fun g i => let* x := oread b (i - Z.to_nat is) in owrite g i x)
    (fun k g' => length g' = length g /\ forall i, vnth g' i = if inr (Z.to_nat is) k i then vnth b (i - Z.to_nat is) else vnth g i) g)
    as (g' & E & L' & V); try lia.
  - split; auto. intros i. rewrite inr_empty. auto.
  - intros k g1 Hk (L1 & V1). rewrite oread_vnth by lia. cbn [obind]. rewrite owrite_vec by lia.
    eexists; split; [reflexivity|]. split; [rewrite upd_length; auto|]. intros i. rewrite inr_S by lia.
    destruct (Nat.eqb_spec i k) as [->|N].
    + rewrite vnth_upd_eq, orb_true_r by lia. auto.
    + rewrite vnth_upd_ne, V1, orb_false_r by auto. auto.
  - exists g'. split; auto. split; auto. intros i Hi. rewrite V.
    replace (inr (Z.to_nat is) (Z.to_nat ie) i) with ((is <=? Z.of_nat i) && (Z.of_nat i <? ie))%Z%bool.
    2:{ apply eq_true_iff_eq. rewrite andb_true_iff, inr_spec, Z.leb_le, Z.ltb_lt. lia. }
    replace (i - Z.to_nat is)%nat with (Z.to_nat (Z.of_nat i - is)) by lia. auto.
Qed.

(** ** Dense matrices *)

Lemma dm_put_ok m i j x : dm_wf m -> (i < dm_h m)%nat -> (j < dm_w m)%nat ->
  exists m', dm_put m i j x = Ok m' /\ dm_wf m' /\ dm_h m' = dm_h m /\ dm_w m' = dm_w m /\ mget m' i j = x /\
    forall i' j', (i' < dm_h m)%nat -> (i', j') <> (i, j) -> mget m' i' j' = mget m i' j'.
Proof.
  intros W Hi Hj. pose proof (mget_in m i j W Hi Hj) as B. unfold dm_put.
  rewrite owrite_vec by auto. cbn [obind]. eexists; split; [reflexivity|]. unfold dm_wf, mget. cbn.
  rewrite upd_length. split; [exact W|]. split; [auto|]. split; [auto|]. split; [apply vnth_upd_eq; auto|].
  intros i' j' Hi' N. apply vnth_upd_ne. intros E. apply N. destruct (cm_inj _ _ _ _ _ Hi Hi' E). congruence.
Qed.

Lemma dm_setsize_wf m h w : dm_wf m -> dm_wf (dm_setsize m h w) /\ dm_h (dm_setsize m h w) = h /\ dm_w (dm_setsize m h w) = w.
Proof.
  intros W. unfold dm_setsize. destruct (Nat.eqb_spec (dm_h m) h), (Nat.eqb_spec (dm_w m) w); cbn [andb];
  try (subst; auto; fail);
  (split; [|auto]; unfold dm_wf; cbn [dm_h dm_w dm_buf]; destruct (Nat.ltb_spec (length (dm_buf m)) (h * w)%nat); [rewrite repeat_length|]; lia).
Qed.

(** A double loop over the whole matrix. *)
Lemma dm_fill h w f (F : nat -> nat -> R -> R) m : dm_wf m -> dm_h m = h -> dm_w m = w ->
  (forall m' i j, (i < h)%nat -> (j < w)%nat -> dm_wf m' -> dm_h m' = h -> dm_w m' = w ->
     f m' i j = dm_put m' i j (F i j (mget m' i j))) ->
  exists m', ofor h (fun m i => ofor w (fun m j => f m i j) m) m = Ok m' /\ dm_wf m' /\ dm_h m' = h /\ dm_w m' = w /\
    forall i j, (i < h)%nat -> (j < w)%nat -> mget m' i j = F i j (mget m i j).
Proof.
  intros W Hh Hw Hf.
  destruct (fill_rect (fun m => dm_wf m /\ dm_h m = h /\ dm_w m = w) mget (fun i j => (i < h)%nat /\ (j < w)%nat)
     f F 0 h 0 w) with (s := m) as (m' & E & (W' & H1 & H2) & V); try lia; auto.
  - intros s i j Hi Hj (Ws & S1 & S2). rewrite Hf by (auto; lia).
    destruct (dm_put_ok s i j (F i j (mget s i j)) Ws) as (s' & E & W' & P1 & P2 & V & O); try lia.
    exists s'. split; auto. split; [split; [auto|split; congruence]|]. split; auto. intros i' j' (D1 & D2) N. apply O; auto. lia.
  - exists m'. rewrite ofor_oforr. rewrite <- E. split.
    + unfold oforr at 1 2. revert m W Hh Hw E V. generalize (seq 0 (h - 0)) as l. intros l m _ _ _ _ _.
      revert m. induction l as [|x l IH]; intros m; [auto|]. cbn [ofold]. rewrite ofor_oforr. destruct (oforr 0 w _ m); cbn [obind]; auto.
    + split; auto. split; auto. split; auto. intros i j Hi Hj. rewrite V by auto.
      replace (inr 0 h i) with true by (symmetry; apply inr_spec; lia).
      replace (inr 0 w j) with true by (symmetry; apply inr_spec; lia). auto.
Qed.

Lemma copy_matrix_ok c m : rm_wf c -> dm_wf m ->
  exists m', copy_matrix c m = Ok m' /\ dm_wf m' /\ dm_h m' = rm_r c /\ dm_w m' = rm_c c /\
    forall i j, (i < rm_r c)%nat -> (j < rm_c c)%nat -> mget m' i j = rget c i j.
Proof.
  intros Wc Wm. destruct (dm_setsize_wf m (rm_r c) (rm_c c) Wm) as (W & H1 & H2). unfold copy_matrix.
  apply (dm_fill (rm_r c) (rm_c c) (fun m i j => let* x := rm_get c i j in dm_put m i j x) (fun i j _ => rget c i j)); auto.
  intros m' i j Hi Hj _ _ _. unfold rm_get. rewrite oread_vnth by (apply rm_index_in; auto). auto.
Qed.

Lemma dm_colref_ok m j : dm_wf m -> (j < dm_w m)%nat -> dm_colref m j = Ok (dm_col m j).
Proof.
  intros W Hj. unfold dm_wf in W. unfold dm_colref.
  assert ((j + 1) * dm_h m <= length (dm_buf m))%nat by nia.
  destruct (Nat.leb_spec ((j + 1) * dm_h m) (length (dm_buf m))); [|lia]. cbn [oguard]. f_equal.
  apply vec_ext.
  - rewrite dm_col_length, firstn_length, skipn_length. nia.
  - intros i Hi. rewrite firstn_length, skipn_length in Hi. rewrite dm_col_nth by lia. unfold vnth, mget, vnth.
    assert (i < dm_h m)%nat by lia.
    transitivity (nth i (skipn (j * dm_h m) (dm_buf m)) 0).
    + clear - H1. revert i H1. generalize (skipn (j * dm_h m) (dm_buf m)) as l. generalize (dm_h m) as h.
      induction h; intros l i H; [lia|]. destruct l; [destruct i; auto|]. destruct i; simpl; auto. apply IHh. lia.
    + clear. generalize (j * dm_h m)%nat as k. generalize (dm_buf m) as l. intros l k. revert l i.
      induction k; intros l i; [rewrite Nat.add_0_r; auto|]. destruct l.
      * destruct i; simpl; auto; destruct (i + S k)%nat; auto.
      * simpl. rewrite IHk. rewrite Nat.add_succ_r. auto.
Qed.

Lemma dm_col_dot n m j v : dm_h m = n -> dot n (dm_col m j) v = rsum n (fun i => mget m i j * vnth v i).
Proof. intros <-. unfold dot. apply rsum_ext. intros i Hi. rewrite dm_col_nth; auto. Qed.

Lemma rtap_ok L A P M : dm_wf L -> dm_wf P -> dm_wf M -> dm_h L = op_h A -> op_w A = dm_h P ->
  exists m, rtap L A P M = Ok m /\ dm_wf m /\ dm_h m = dm_w L /\ dm_w m = dm_w P /\
    forall i j, (i < dm_w L)%nat -> (j < dm_w P)%nat ->
      mget m i j = rsum (op_h A) (fun k => mget L k i * vnth (op_mul A (dm_col P j)) k).
Proof.
  intros WL WP WM E1 E2. unfold rtap.
  destruct (Nat.eqb_spec (dm_h L) (op_h A)); [|congruence]. destruct (Nat.eqb_spec (op_w A) (dm_h P)); [|congruence].
  cbn [oassert]. destruct (dm_setsize_wf M (dm_w L) (dm_w P) WM) as (W & H1 & H2).
  apply (dm_fill (dm_w L) (dm_w P) _ (fun i j _ => rsum (op_h A) (fun k => mget L k i * vnth (op_mul A (dm_col P j)) k))); auto.
  intros m' i j Hi Hj _ _ _. rewrite !dm_colref_ok by auto. cbn [obind]. rewrite dm_col_dot by auto. rewrite e. auto.
Qed.

Lemma rtap_matrix_ok L A P a M : dm_wf L -> dm_wf P -> dm_wf M -> dm_h L = op_h A -> op_w A = dm_h P -> op_matrix A a ->
  exists m, rtap L A P M = Ok m /\ dm_wf m /\ dm_h m = dm_w L /\ dm_w m = dm_w P /\
    forall i j, (i < dm_w L)%nat -> (j < dm_w P)%nat -> mget m i j = rap (op_h A) (op_w A) (mget L) a (mget P) i j.
Proof.
  intros WL WP WM E1 E2 HA. destruct (rtap_ok L A P M WL WP WM E1 E2) as (m & E & W & H1 & H2 & V).
  exists m. split; auto. split; auto. split; auto. split; auto. intros i j Hi Hj. rewrite V by auto. unfold rap.
  apply rsum_ext. intros k Hk. destruct (HA (dm_col P j)) as (_ & HV); [rewrite dm_col_length; auto|].
  rewrite HV by auto. f_equal. apply rsum_ext. intros l Hl. rewrite dm_col_nth by lia. auto.
Qed.

Lemma op_matrix_col A a P j k : op_matrix A a -> op_w A = dm_h P -> (k < op_h A)%nat ->
  vnth (op_mul A (dm_col P j)) k = rsum (op_w A) (fun l => a k l * mget P l j).
Proof.
  intros HA E Hk. destruct (HA (dm_col P j)) as (_ & HV); [rewrite dm_col_length; auto|].
  rewrite HV by auto. apply rsum_ext. intros l Hl. rewrite dm_col_nth by lia. auto.
Qed.

Lemma rap_dot L A P a i j : op_matrix A a -> dm_h L = op_h A -> op_w A = dm_h P ->
  dot (dm_h L) (dm_col L i) (op_mul A (dm_col P j)) = rap (op_h A) (op_w A) (mget L) a (mget P) i j.
Proof.
  intros HA E1 E2. rewrite dm_col_dot by auto. rewrite E1. apply rsum_ext. intros k Hk.
  rewrite (op_matrix_col A a) by auto. auto.
Qed.

Lemma addw_rtap_ok L A P a M w : dm_wf L -> dm_wf P -> dm_wf M -> dm_h L = op_h A -> op_w A = dm_h P -> op_matrix A a ->
  dm_h M = dm_w L -> dm_w M = dm_w P ->
  exists m, addw_rtap L A P M w = Ok m /\ dm_wf m /\ dm_h m = dm_w L /\ dm_w m = dm_w P /\
    forall i j, (i < dm_w L)%nat -> (j < dm_w P)%nat ->
      mget m i j = mget M i j + w * rap (op_h A) (op_w A) (mget L) a (mget P) i j.
Proof.
  intros WL WP WM E1 E2 HA E3 E4. unfold addw_rtap.
  destruct (Nat.eqb_spec (dm_h L) (op_h A)); [|congruence]. destruct (Nat.eqb_spec (op_w A) (dm_h P)); [|congruence].
  destruct (Nat.eqb_spec (dm_h M) (dm_w L)); [|congruence]. destruct (Nat.eqb_spec (dm_w M) (dm_w P)); [|congruence].
  cbn [oassert].
  apply (dm_fill (dm_w L) (dm_w P) _ (fun i j x => x + w * rap (op_h A) (op_w A) (mget L) a (mget P) i j)); auto.
  intros m' i j Hi Hj Wm Hh Hw. rewrite !dm_colref_ok by auto. cbn [obind]. unfold dm_get.
  rewrite oread_vnth by (apply mget_in; auto; lia). cbn [obind].
  rewrite (rap_dot L A P a) by auto. reflexivity.
Qed.

(** ** Sparse targets *)

Lemma sm_fill h w f (F : nat -> nat -> R -> R) (fin : bool) m :
  sm_h m = h -> sm_w m = w -> sm_fin m = fin -> (forall i j, (i < h)%nat -> (j < w)%nat -> fin = true -> sm_has m i j = true) ->
  (forall m' i j, (i < h)%nat -> (j < w)%nat -> sm_h m' = h -> sm_w m' = w -> sm_fin m' = fin ->
     (fin = true -> sm_has m' i j = true) ->
     f m' i j = Ok (sm_put m' i j (F i j (sm_val m' i j)))) ->
  exists m', ofor h (fun m i => ofor w (fun m j => f m i j) m) m = Ok m' /\ sm_h m' = h /\ sm_w m' = w /\ sm_fin m' = fin /\
    forall i j, (i < h)%nat -> (j < w)%nat -> sm_val m' i j = F i j (sm_val m i j).
Proof.
  intros Hh Hw Hfin Hp Hf.
  destruct (fill_rect (fun m => sm_h m = h /\ sm_w m = w /\ sm_fin m = fin /\
       forall i j, (i < h)%nat -> (j < w)%nat -> fin = true -> sm_has m i j = true) sm_val (fun i j => (i < h)%nat /\ (j < w)%nat)
     f F 0 h 0 w) with (s := m) as (m' & E & (H1 & H2 & H3 & H4) & V); try lia; auto.
  - intros s i j Hi Hj (S1 & S2 & S3 & S4). rewrite Hf by (auto; try lia; intros; apply S4; auto; lia). eexists; split; [reflexivity|].
    cbn. split; [split; [auto|split; [auto|split; [auto|]]]|].
    + intros i' j' Hi' Hj' Hfin'. unfold sm_has. cbn. destruct ((i' =? i) && (j' =? j))%nat%bool; auto. apply S4; auto.
    + unfold sm_val. cbn. rewrite !Nat.eqb_refl. cbn. split; auto. intros i' j' _ N.
      destruct (Nat.eqb_spec i' i), (Nat.eqb_spec j' j); cbn; auto. congruence.
  - exists m'. rewrite ofor_oforr. rewrite <- E. split.
    + unfold oforr at 1 2. clear. revert m. generalize (seq 0 (h - 0)) as l.
      induction l as [|x l IH]; intros m; [auto|]. cbn [ofold]. rewrite ofor_oforr. destruct (oforr 0 w _ m); cbn [obind]; auto.
    + split; auto. split; auto. split; auto. intros i j Hi Hj. rewrite V by auto.
      replace (inr 0 h i) with true by (symmetry; apply inr_spec; lia).
      replace (inr 0 w j) with true by (symmetry; apply inr_spec; lia). auto.
Qed.

Lemma sparse_rtap_ok L A P a : dm_wf L -> dm_wf P -> dm_h L = op_h A -> op_w A = dm_h P -> op_matrix A a ->
  exists m, sparse_rtap L A P = Ok m /\ sm_h m = dm_w L /\ sm_w m = dm_w P /\ sm_fin m = true /\
    forall i j, (i < dm_w L)%nat -> (j < dm_w P)%nat -> sm_val m i j = rap (op_h A) (op_w A) (mget L) a (mget P) i j.
Proof.
  intros WL WP E1 E2 HA. unfold sparse_rtap.
  destruct (Nat.eqb_spec (dm_h L) (op_h A)); [|congruence]. destruct (Nat.eqb_spec (op_w A) (dm_h P)); [|congruence].
  cbn [oassert].
  destruct (sm_fill (dm_w L) (dm_w P) (fun m i j =>
      let* vi := dm_colref L i in
      let* vj := dm_colref P j in
      sm_set m i j (dot (dm_h L) vi (op_mul A vj)))
      (fun i j _ => rap (op_h A) (op_w A) (mget L) a (mget P) i j) false
      (SMat (dm_w L) (dm_w P) false (fun _ _ => None))) as (m & E & H1 & H2 & H3 & V); auto; try discriminate.
  - intros m' i j Hi Hj M1 M2 M3 _. rewrite !dm_colref_ok by auto. cbn [obind]. unfold sm_set. rewrite M1, M2, M3.
    destruct (Nat.ltb_spec i (dm_w L)); [|lia]. destruct (Nat.ltb_spec j (dm_w P)); [|lia]. cbn. rewrite (rap_dot L A P a) by auto. reflexivity.
  - rewrite E. cbn [obind]. eexists; split; [reflexivity|]. cbn. auto.
Qed.

Lemma addw_rtap_sparse_ok L A P a M w : dm_wf L -> dm_wf P -> dm_h L = op_h A -> op_w A = dm_h P -> op_matrix A a ->
  sm_h M = dm_w L -> sm_w M = dm_w P ->
  (sm_fin M = true -> forall i j, (i < dm_w L)%nat -> (j < dm_w P)%nat -> sm_has M i j = true) ->
  exists m, addw_rtap_sparse L A P M w = Ok m /\ sm_h m = dm_w L /\ sm_w m = dm_w P /\ sm_fin m = sm_fin M /\
    forall i j, (i < dm_w L)%nat -> (j < dm_w P)%nat ->
      sm_val m i j = sm_val M i j + w * rap (op_h A) (op_w A) (mget L) a (mget P) i j.
Proof.
  intros WL WP E1 E2 HA E3 E4 Hp. unfold addw_rtap_sparse.
  destruct (Nat.eqb_spec (dm_h L) (op_h A)); [|congruence]. destruct (Nat.eqb_spec (op_w A) (dm_h P)); [|congruence].
  destruct (Nat.eqb_spec (sm_h M) (dm_w L)); [|congruence]. destruct (Nat.eqb_spec (sm_w M) (dm_w P)); [|congruence].
  cbn [oassert].
  apply (sm_fill (dm_w L) (dm_w P) _ (fun i j x => x + w * rap (op_h A) (op_w A) (mget L) a (mget P) i j) (sm_fin M)); auto.
  intros m' i j Hi Hj M1 M2 M3 Hh. rewrite !dm_colref_ok by auto. cbn [obind]. unfold sm_add. rewrite M1, M2.
  destruct (Nat.ltb_spec i (dm_w L)); [|lia]. destruct (Nat.ltb_spec j (dm_w P)); [|lia]. cbn [andb oguard].
  replace (negb (sm_fin m') || sm_has m' i j)%bool with true.
  - cbn [oassert]. rewrite (rap_dot L A P a) by auto. reflexivity.
  - rewrite M3. destruct (sm_fin M); auto. rewrite Hh; auto.
Qed.

(** Blocks that do not fit. *)
Lemma set_block_vec_rejects (b : vec) is ie (g : vec) :
  ((length g < length b)%nat \/ ~ (0 <= is < Z.of_nat (length g))%Z \/ ~ (0 <= ie <= Z.of_nat (length g))%Z) ->
  set_block_vec b is ie g = Abort.
Proof.
  intros H. unfold set_block_vec, oassert.
  destruct (Nat.leb_spec (length b) (length g)); auto.
  destruct (Z.leb_spec 0 is); auto. destruct (Z.ltb_spec is (Z.of_nat (length g))); auto.
  destruct (Z.leb_spec 0 ie); auto. destruct (Z.leb_spec ie (Z.of_nat (length g))); auto. lia.
Qed.

Lemma set_block_mat_rejects b is ie js je g :
  (rm_dist b = true \/ rm_dist g = true \/ (rm_r g < rm_r b)%nat \/ (rm_c g < rm_c b)%nat \/
   ~ (0 <= is < Z.of_nat (rm_r g))%Z \/ ~ (0 <= js < Z.of_nat (rm_c g))%Z \/
   ~ (0 <= ie <= Z.of_nat (rm_r g))%Z \/ ~ (0 <= je <= Z.of_nat (rm_c g))%Z) ->
  set_block_mat b is ie js je g = Abort.
Proof.
  intros H. unfold set_block_mat, oassert.
  destruct (rm_dist b), (rm_dist g); cbn [negb andb]; auto.
  destruct (Nat.leb_spec (rm_r b) (rm_r g)); auto. destruct (Nat.leb_spec (rm_c b) (rm_c g)); auto.
  destruct (Z.leb_spec 0 is); auto. destruct (Z.ltb_spec is (Z.of_nat (rm_r g))); auto.
  destruct (Z.leb_spec 0 js); auto. destruct (Z.ltb_spec js (Z.of_nat (rm_c g))); auto.
  destruct (Z.leb_spec 0 ie); auto. destruct (Z.leb_spec ie (Z.of_nat (rm_r g))); auto.
  destruct (Z.leb_spec 0 je); auto. destruct (Z.leb_spec je (Z.of_nat (rm_c g))); auto.
  exfalso. destruct H as [H|[H|H]]; [discriminate|discriminate|lia].
Qed.
