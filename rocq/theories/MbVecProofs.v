(** Vectors by variable and by subdomain. *)
From Coq Require Import Reals List Bool Lia Arith ZArith String.
From Verif Require Import Outcome ListLemmas LaBase BlockVec RomModel RomSpec RomProofs MbModel MbSpec.
Import ListNotations.
Local Open Scope list_scope.
Local Open Scope nat_scope.

Lemma ofold_app2 {A B} (f : A -> B -> outcome A) l1 l2 s : ofold f (l1 ++ l2) s = let* s := ofold f l1 s in ofold f l2 s.
Proof. revert s. induction l1; intros s; cbn [ofold app obind]; auto. destruct (f s a); cbn [obind]; auto. Qed.

Lemma ofor_S {S} n (f : S -> nat -> outcome S) s : ofor (Datatypes.S n) f s = let* s := ofor n f s in f s n.
Proof.
  unfold ofor. rewrite seq_S, ofold_app2. cbn [ofold]. destruct (ofold f (seq 0 n) s) as [x| |]; cbn [obind]; auto.
  destruct (f x (0 + n)) eqn:E; cbn [obind]; rewrite <- E; auto.
Qed.

Lemma ofor_shift {S} a n (f : S -> nat -> outcome S) s : ofor n (fun s i => f s (a + i)) s = ofold f (seq a n) s.
Proof.
  induction n; [reflexivity|]. rewrite ofor_S, IHn, seq_S, ofold_app2. destruct (ofold f (seq a n) s); cbn [obind ofold]; auto.
  destruct (f a0 (a + n)); auto.
Qed.

(** Two nested loops are one loop over the pairs in row-major order. *)
Lemma ofor_nest {S} n m (f : S -> nat -> nat -> outcome S) s : 
  ofor n (fun s i => ofor m (fun s j => f s i j) s) s = ofor (n * m) (fun s k => f s (k / m) (k mod m)) s.
Proof.
  induction n; [reflexivity|]. rewrite ofor_S, IHn. cbn [Nat.mul]. rewrite Nat.add_comm.
  transitivity (let* s := ofold (fun s k => f s (k / m) (k mod m)) (seq 0 (n * m)) s in ofold (fun s k => f s (k / m) (k mod m)) (seq (n * m) m) s).
  - unfold ofor at 1. destruct (ofold _ _ s); cbn [obind]; auto. rewrite <- ofor_shift. apply ofor_ext. intros s' j Hj.
    rewrite lin_div, lin_mod; auto.
  - unfold ofor. rewrite seq_app, ofold_app2. reflexivity.
Qed.

Lemma shaped_wf n size b : shaped n size b <-> bv_wf b n size.
Proof.
  unfold shaped, bv_wf, offsets. split.
  - intros (A & B & C & D). split; [auto|]. rewrite D. apply (offsets_nsum _ n size); auto. split; auto.
  - intros ((A & B & C) & D). split; [auto|]. split; [auto|]. split; [auto|]. rewrite D. symmetry.
    apply (offsets_nsum _ n size); auto. split; auto.
Qed.

Lemma bentry_blk n size b i k : shaped n size b -> i < n -> k < size i -> vnth (blk b i) k = bentry b i k.
Proof. intros S H K. apply shaped_wf in S. apply (blk_nth b n size S i k H K). Qed.

(** Shaped vectors with the same offsets and entries are the same. *)
Lemma shaped_ext n size a b : shaped n size a -> shaped n size b -> bv_off a = bv_off b ->
  (forall i k, i < n -> k < size i -> bentry a i k = bentry b i k) -> a = b.
Proof.
  intros Sa Sb E H. apply (blk_ext a b n size); try (apply shaped_wf; auto); auto. intros i Hi.
  apply shaped_wf in Sa as Wa. apply shaped_wf in Sb as Wb.
  apply vec_ext; [rewrite (blk_length a n size), (blk_length b n size); auto|].
  intros k Hk. rewrite (blk_length a n size) in Hk by auto. rewrite (bentry_blk n size a), (bentry_blk n size b); auto.
Qed.

(** ** Sorting *)

(** Copying blocks [src i] of [a] to blocks [dst i] of [b]. *)
Lemma copy_blocks n N sa M sb a b (src dst : nat -> nat) f :
  bv_wf a N sa -> bv_wf b M sb ->
  (forall i, i < n -> src i < N /\ dst i < M /\ sb (dst i) = sa (src i)) ->
  (forall i j, i < n -> j < n -> dst i = dst j -> i = j) ->
  (forall x i, i < n -> bv_wf x M sb -> f x i = bv_put x (dst i) (blk a (src i))) ->
  exists b', ofor n f b = Ok b' /\ bv_wf b' M sb /\ bv_off b' = bv_off b /\
    (forall i, i < n -> blk b' (dst i) = blk a (src i)) /\
    (forall j, j < M -> (forall i, i < n -> dst i <> j) -> blk b' j = blk b j).
Proof.
  intros Wa Wb H Inj Hf. apply (bv_fill M sb n dst (fun i => blk a (src i)) f b Wb); auto.
  intros i Hi. destruct (H i Hi) as (A & B & C). split; auto. rewrite (blk_length a N sa); auto.
Qed.

Section Sort.
  Variables (ns nv : nat) (size : nat -> nat -> nat).

  Lemma sub_lt m v : m < ns -> v < nv -> by_sub nv m v < nv * ns.
  Proof. unfold by_sub. nia. Qed.
  Lemma var_lt m v : m < ns -> v < nv -> by_var ns m v < nv * ns.
  Proof. unfold by_var. nia. Qed.
  Lemma sub_inj m v m' v' : v < nv -> v' < nv -> by_sub nv m v = by_sub nv m' v' -> m = m' /\ v = v'.
  Proof. intros. apply (lin_inj m v m' v' nv); auto. Qed.
  Lemma var_inj m v m' v' : m < ns -> m' < ns -> by_var ns m v = by_var ns m' v' -> m = m' /\ v = v'.
  Proof. intros H H' E. destruct (lin_inj v m v' m' ns) as (A & B); auto. Qed.
  Lemma sub_onto i : i < nv * ns -> exists m v, m < ns /\ v < nv /\ by_sub nv m v = i.
  Proof. intros H. destruct (lin_onto i ns nv ltac:(lia)) as (A & B & C). exists (i / nv), (i mod nv). unfold by_sub. auto. Qed.
  Lemma var_onto i : i < nv * ns -> exists m v, m < ns /\ v < nv /\ by_var ns m v = i.
  Proof. intros H. destruct (lin_onto i nv ns ltac:(lia)) as (A & B & C). exists (i mod ns), (i / ns). unfold by_var. auto. Qed.

  Lemma sort_subs_ok bv bs : var_shaped ns nv size bv -> sub_shaped ns nv size bs ->
    exists b, sort_by_subdomains ns nv bv bs = Ok b /\ sub_shaped ns nv size b /\ bv_off b = bv_off bs /\
      forall m v k, m < ns -> v < nv -> k < size m v -> bentry b (by_sub nv m v) k = bentry bv (by_var ns m v) k.
  Proof.
    intros (sa & Sa & Za) (sb & Sb & Zb). apply shaped_wf in Sa as Wa. apply shaped_wf in Sb as Wb. unfold sort_by_subdomains.
    rewrite (bv_n_wf bv _ _ Wa), (bv_n_wf bs _ _ Wb), Nat.eqb_refl. cbn [oassert].
    rewrite ofor_nest.
    destruct (copy_blocks (ns * nv) (nv * ns) sa (nv * ns) sb bv bs (fun i => by_var ns (i / nv) (i mod nv)) (fun i => i)
      (fun s k => let* src := bv_get bv (ns * (k mod nv) + k / nv) in let* dst := bv_get s (nv * (k / nv) + k mod nv) in
         oassert (List.length src =? List.length dst) (bv_put s (nv * (k / nv) + k mod nv) src)) Wa Wb)
      as (b & E & W & O & V & _).
    - intros i Hi. destruct (lin_onto i ns nv Hi) as (A & B & C). split; [apply var_lt; auto|]. split; [lia|].
      rewrite Za by auto. rewrite <- Zb by auto. unfold by_sub. rewrite <- C. auto.
    - auto.
    - intros x i Hi Wx. destruct (lin_onto i ns nv Hi) as (A & B & C).
      assert (Zi : sb i = size (i / nv) (i mod nv)) by (rewrite <- Zb by auto; unfold by_sub; rewrite <- C; auto).
      rewrite !(Nat.mul_comm _ (i / nv)), !(Nat.mul_comm _ (i mod nv)), <- C.
      change (i mod nv * ns + i / nv) with (by_var ns (i / nv) (i mod nv)).
      rewrite (bv_get_ok bv _ _ Wa) by (apply var_lt; auto). cbn [obind].
      rewrite (bv_get_ok x _ _ Wx) by lia. cbn [obind].
      rewrite (blk_length bv _ _ Wa) by (apply var_lt; auto). rewrite (blk_length x _ _ Wx) by lia.
      rewrite Za by auto. rewrite Zi, Nat.eqb_refl. reflexivity.
    - exists b. split; [exact E|]. split; [exists sb; split; [apply shaped_wf; auto|auto]|]. split; [auto|].
      intros m v k Hm Hv Hk. assert (L : by_sub nv m v < ns * nv) by (pose proof (sub_lt m v Hm Hv); lia).
      rewrite <- (bentry_blk (nv * ns) sb b) by (try apply shaped_wf; auto; try lia; rewrite Zb; auto).
      rewrite (V (by_sub nv m v) L). unfold by_sub. rewrite lin_div, lin_mod by auto.
      rewrite (bentry_blk (nv * ns) sa bv); auto; [apply var_lt; auto|]. rewrite Za; auto.
  Qed.

  Lemma sort_vars_ok bs bv : sub_shaped ns nv size bs -> var_shaped ns nv size bv ->
    exists b, sort_by_variables ns nv bs bv = Ok b /\ var_shaped ns nv size b /\ bv_off b = bv_off bv /\
      forall m v k, m < ns -> v < nv -> k < size m v -> bentry b (by_var ns m v) k = bentry bs (by_sub nv m v) k.
  Proof.
    intros (sb & Sb & Zb) (sa & Sa & Za). apply shaped_wf in Sa as Wa. apply shaped_wf in Sb as Wb. unfold sort_by_variables.
    rewrite (bv_n_wf bv _ _ Wa), (bv_n_wf bs _ _ Wb), Nat.eqb_refl. cbn [oassert].
    rewrite ofor_nest.
    destruct (copy_blocks (ns * nv) (nv * ns) sb (nv * ns) sa bs bv (fun i => i) (fun i => by_var ns (i / nv) (i mod nv))
      (fun s k => let* dst := bv_get s (ns * (k mod nv) + k / nv) in let* src := bv_get bs (nv * (k / nv) + k mod nv) in
         oassert (List.length dst =? List.length src) (bv_put s (ns * (k mod nv) + k / nv) src)) Wb Wa)
      as (b & E & W & O & V & _).
    - intros i Hi. destruct (lin_onto i ns nv Hi) as (A & B & C). split; [lia|]. split; [apply var_lt; auto|].
      rewrite Za by auto. rewrite <- Zb by auto. unfold by_sub. rewrite <- C. auto.
    - intros i j Hi Hj Eq. destruct (lin_onto i ns nv Hi) as (A & B & C). destruct (lin_onto j ns nv Hj) as (A' & B' & C').
      apply var_inj in Eq; auto. destruct Eq as (E1 & E2). rewrite C, C', E1, E2. auto.
    - intros x i Hi Wx. destruct (lin_onto i ns nv Hi) as (A & B & C).
      assert (Zi : sb i = size (i / nv) (i mod nv)) by (rewrite <- Zb by auto; unfold by_sub; rewrite <- C; auto).
      rewrite !(Nat.mul_comm _ (i / nv)), !(Nat.mul_comm _ (i mod nv)), <- C.
      change (i mod nv * ns + i / nv) with (by_var ns (i / nv) (i mod nv)).
      rewrite (bv_get_ok x _ _ Wx) by (apply var_lt; auto). cbn [obind].
      rewrite (bv_get_ok bs _ _ Wb) by lia. cbn [obind].
      rewrite (blk_length x _ _ Wx) by (apply var_lt; auto). rewrite (blk_length bs _ _ Wb) by lia.
      rewrite Za by auto. rewrite Zi, Nat.eqb_refl. reflexivity.
    - exists b. split; [exact E|]. split; [exists sa; split; [apply shaped_wf; auto|auto]|]. split; [auto|].
      intros m v k Hm Hv Hk. assert (L : by_sub nv m v < ns * nv) by (pose proof (sub_lt m v Hm Hv); lia).
      pose proof (V (by_sub nv m v) L) as V'. unfold by_sub in V' at 1 2. rewrite lin_div, lin_mod in V' by auto.
      rewrite <- (bentry_blk (nv * ns) sa b) by (try apply shaped_wf; auto; try (apply var_lt; auto); rewrite Za; auto).
      rewrite V'. rewrite (bentry_blk (nv * ns) sb bs); auto; [lia|]. rewrite Zb; auto.
  Qed.

  Lemma sub_ext a b : sub_shaped ns nv size a -> sub_shaped ns nv size b -> bv_off a = bv_off b ->
    (forall m v k, m < ns -> v < nv -> k < size m v -> bentry a (by_sub nv m v) k = bentry b (by_sub nv m v) k) -> a = b.
  Proof.
    intros (sa & Sa & Za) (sb & Sb & Zb) E H. apply (shaped_ext (nv * ns) sa); auto.
    - destruct Sb as (A & B & C & D). split; [auto|]. split; [auto|]. split; [|auto]. intros i Hi. rewrite C by auto.
      destruct (sub_onto i Hi) as (m & v & Hm & Hv & <-). rewrite Za, Zb; auto.
    - intros i k Hi Hk. destruct (sub_onto i Hi) as (m & v & Hm & Hv & <-). apply H; auto. rewrite <- Za; auto.
  Qed.
  Lemma var_ext a b : var_shaped ns nv size a -> var_shaped ns nv size b -> bv_off a = bv_off b ->
    (forall m v k, m < ns -> v < nv -> k < size m v -> bentry a (by_var ns m v) k = bentry b (by_var ns m v) k) -> a = b.
  Proof.
    intros (sa & Sa & Za) (sb & Sb & Zb) E H. apply (shaped_ext (nv * ns) sa); auto.
    - destruct Sb as (A & B & C & D). split; [auto|]. split; [auto|]. split; [|auto]. intros i Hi. rewrite C by auto.
      destruct (var_onto i Hi) as (m & v & Hm & Hv & <-). rewrite Za, Zb; auto.
    - intros i k Hi Hk. destruct (var_onto i Hi) as (m & v & Hm & Hv & <-). apply H; auto. rewrite <- Za; auto.
  Qed.

  Lemma sort_there_and_back bs bv x : sub_shaped ns nv size bs -> var_shaped ns nv size bv -> sub_shaped ns nv size x ->
    bv_off x = bv_off bs ->
    (let* y := sort_by_variables ns nv bs bv in sort_by_subdomains ns nv y x) = Ok bs.
  Proof.
    intros Sb Sv Sx O. destruct (sort_vars_ok bs bv Sb Sv) as (y & E & Sy & Oy & Vy). rewrite E. cbn [obind].
    destruct (sort_subs_ok y x Sy Sx) as (z & E2 & Sz & Oz & Vz). rewrite E2. f_equal. apply sub_ext; auto; [congruence|].
    intros. rewrite Vz, Vy; auto.
  Qed.
  Lemma sort_back_and_there bs bv x : sub_shaped ns nv size bs -> var_shaped ns nv size bv -> var_shaped ns nv size x ->
    bv_off x = bv_off bv ->
    (let* y := sort_by_subdomains ns nv bv bs in sort_by_variables ns nv y x) = Ok bv.
  Proof.
    intros Sb Sv Sx O. destruct (sort_subs_ok bv bs Sv Sb) as (y & E & Sy & Oy & Vy). rewrite E. cbn [obind].
    destruct (sort_vars_ok y x Sy Sx) as (z & E2 & Sz & Oz & Vz). rewrite E2. f_equal. apply var_ext; auto; [congruence|].
    intros. rewrite Vz, Vy; auto.
  Qed.

  (** ** Single variables *)

  Lemma get_var_ok vi g x : vi < nv -> sub_shaped ns nv size g -> shaped ns (fun m => size m vi) x ->
    exists y, get_variable_vector ns nv (Z.of_nat vi) g x = Ok y /\ shaped ns (fun m => size m vi) y /\ bv_off y = bv_off x /\
      forall m k, m < ns -> k < size m vi -> bentry y m k = bentry g (by_sub nv m vi) k.
  Proof.
    intros Hv (sg & Sg & Zg) Sx. apply shaped_wf in Sg as Wg. apply shaped_wf in Sx as Wx. unfold get_variable_vector.
    rewrite (proj2 (Z.leb_le 0 (Z.of_nat vi))), (proj2 (Z.ltb_lt _ _)) by lia. cbn [andb oassert].
    rewrite (bv_n_wf g _ _ Wg), (bv_n_wf x _ _ Wx), !Nat.eqb_refl. cbn [oassert]. rewrite Nat2Z.id.
    destruct (copy_blocks ns (nv * ns) sg ns (fun m => size m vi) g x (fun m => by_sub nv m vi) (fun m => m)
      (fun var m => let* dst := bv_get var m in let* src := bv_get g (nv * m + vi) in
         oassert (List.length dst =? List.length src) (bv_put var m src)) Wg Wx) as (b & E & W & O & V & _).
    - intros m Hm. split; [apply sub_lt; auto|]. split; [auto|]. rewrite Zg; auto.
    - auto.
    - intros y m Hm Wy. rewrite (bv_get_ok y _ _ Wy) by auto. cbn [obind].
      replace (nv * m + vi) with (by_sub nv m vi) by (unfold by_sub; lia).
      rewrite (bv_get_ok g _ _ Wg) by (apply sub_lt; auto). cbn [obind].
      rewrite (blk_length y _ _ Wy), (blk_length g _ _ Wg), Zg, Nat.eqb_refl by (auto; apply sub_lt; auto). reflexivity.
    - exists b. split; [exact E|]. split; [apply shaped_wf; auto|]. split; [auto|]. intros m k Hm Hk.
      rewrite <- (bentry_blk ns (fun m => size m vi) b) by (auto; apply shaped_wf; auto). rewrite V by auto.
      apply (bentry_blk (nv * ns) sg); auto; [apply sub_lt; auto|rewrite Zg; auto].
  Qed.

  Lemma set_var_ok vi g x : vi < nv -> sub_shaped ns nv size g -> shaped ns (fun m => size m vi) x ->
    exists y, set_variable_vector ns nv (Z.of_nat vi) x g = Ok y /\ sub_shaped ns nv size y /\ bv_off y = bv_off g /\
      (forall m k, m < ns -> k < size m vi -> bentry y (by_sub nv m vi) k = bentry x m k) /\
      (forall m v k, m < ns -> v < nv -> v <> vi -> k < size m v -> bentry y (by_sub nv m v) k = bentry g (by_sub nv m v) k).
  Proof.
    intros Hv (sg & Sg & Zg) Sx. apply shaped_wf in Sg as Wg. apply shaped_wf in Sx as Wx. unfold set_variable_vector.
    rewrite (proj2 (Z.leb_le 0 (Z.of_nat vi))), (proj2 (Z.ltb_lt _ _)) by lia. cbn [andb oassert].
    rewrite (bv_n_wf g _ _ Wg), (bv_n_wf x _ _ Wx), !Nat.eqb_refl. cbn [oassert]. rewrite Nat2Z.id.
    destruct (copy_blocks ns ns (fun m => size m vi) (nv * ns) sg x g (fun m => m) (fun m => by_sub nv m vi)
      (fun global m => let* src := bv_get x m in let* dst := bv_get global (nv * m + vi) in
         oassert (List.length src =? List.length dst) (bv_put global (nv * m + vi) src)) Wx Wg) as (b & E & W & O & V & R).
    - intros m Hm. split; [auto|]. split; [apply sub_lt; auto|]. rewrite Zg; auto.
    - intros i j Hi Hj Eq. apply sub_inj in Eq; tauto.
    - intros y m Hm Wy. rewrite (bv_get_ok x _ _ Wx) by auto. cbn [obind].
      replace (nv * m + vi) with (by_sub nv m vi) by (unfold by_sub; lia).
      rewrite (bv_get_ok y _ _ Wy) by (apply sub_lt; auto). cbn [obind].
      rewrite (blk_length x _ _ Wx), (blk_length y _ _ Wy), Zg, Nat.eqb_refl by (auto; apply sub_lt; auto). reflexivity.
    - exists b. apply shaped_wf in W as Sb. split; [exact E|]. split; [exists sg; auto|]. split; [auto|]. split.
      + intros m k Hm Hk. rewrite <- (bentry_blk (nv * ns) sg b), V by (auto; try (apply sub_lt; auto); rewrite Zg; auto).
        apply (bentry_blk ns (fun m => size m vi)); auto.
      + intros m v k Hm Hv' N Hk. rewrite <- (bentry_blk (nv * ns) sg b) by (auto; try (apply sub_lt; auto); rewrite Zg; auto).
        rewrite R; [apply (bentry_blk (nv * ns) sg); auto; [apply sub_lt; auto|rewrite Zg; auto]|apply sub_lt; auto|].
        intros i Hi Eq. apply sub_inj in Eq; auto. destruct Eq. congruence.
  Qed.

  (** Get/put laws. *)
  Lemma put_get vi g x y : vi < nv -> sub_shaped ns nv size g -> shaped ns (fun m => size m vi) x -> shaped ns (fun m => size m vi) y ->
    bv_off y = bv_off x ->
    (let* g' := set_variable_vector ns nv (Z.of_nat vi) x g in get_variable_vector ns nv (Z.of_nat vi) g' y) = Ok x.
  Proof.
    intros Hv Sg Sx Sy O. destruct (set_var_ok vi g x Hv Sg Sx) as (g' & E & Sg' & Og & V & _). rewrite E. cbn [obind].
    destruct (get_var_ok vi g' y Hv Sg' Sy) as (z & E2 & Sz & Oz & Vz). rewrite E2. f_equal.
    apply (shaped_ext ns (fun m => size m vi)); auto; [congruence|]. intros. rewrite Vz, V; auto.
  Qed.
  Lemma get_put vi g x : vi < nv -> sub_shaped ns nv size g -> shaped ns (fun m => size m vi) x ->
    (let* y := get_variable_vector ns nv (Z.of_nat vi) g x in set_variable_vector ns nv (Z.of_nat vi) y g) = Ok g.
  Proof.
    intros Hv Sg Sx. destruct (get_var_ok vi g x Hv Sg Sx) as (y & E & Sy & Oy & V). rewrite E. cbn [obind].
    destruct (set_var_ok vi g y Hv Sg Sy) as (z & E2 & Sz & Oz & Vz & Vo). rewrite E2. f_equal.
    apply sub_ext; auto. intros m v k Hm Hv' Hk. destruct (Nat.eq_dec v vi) as [->|N]; [rewrite Vz, V|rewrite Vo]; auto.
  Qed.
End Sort.
