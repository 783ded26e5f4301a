(** Proofs about the reduced operators of the steady Navier-Stokes solver. *)
From Coq Require Import Reals List Bool Lia Arith ZArith Lra.
From Verif Require Import Outcome ListLemmas LaBase LinalgModel LinalgSpec LinalgTensorProofs BlockVec TagsModel RomModel RomSpec RomProofs HdfProofs IntegProofs NsModel NsSpec.
Import ListNotations.
Local Open Scope R_scope.

(** ** Sparse matrices *)

Definition gval (o : option R) : R := match o with Some v => v | None => 0 end.
Definition hit (a b : nat) (v : R) : R := if (a =? b)%nat then v else 0.

Lemma sm_val_put m i j x a b : sm_val (sm_put m i j x) a b = if ((a =? i) && (b =? j))%nat then x else sm_val m a b.
Proof. unfold sm_val, sm_put. cbn. destruct ((a =? i)%nat && (b =? j)%nat); auto. Qed.
Lemma sm_has_put m i j x a b : sm_has m a b = true -> sm_has (sm_put m i j x) a b = true.
Proof. unfold sm_has, sm_put. cbn. destruct ((a =? i)%nat && (b =? j)%nat); auto. Qed.

Lemma rsum_snoc n f : rsum (S n) f = rsum n f + f n.
Proof. reflexivity. Qed.

(** What adding preserves *)
Definition grows (m m' : smat) : Prop :=
  sm_h m' = sm_h m /\ sm_w m' = sm_w m /\ sm_fin m' = sm_fin m /\ forall a b, sm_has m a b = true -> sm_has m' a b = true.
Lemma grows_refl m : grows m m.
Proof. repeat split; auto. Qed.
Lemma grows_trans a b c : grows a b -> grows b c -> grows a c.
Proof. intros (A1 & A2 & A3 & A4) (B1 & B2 & B3 & B4). split; [congruence|]. split; [congruence|]. split; [congruence|auto]. Qed.
Lemma grows_take m m' a b : grows m m' -> can_take m a b -> can_take m' a b.
Proof. intros (_ & _ & F & H) [C|C]; [left; congruence|right; auto]. Qed.

Lemma sm_adds_ok nr nc r c rf cf g m :
  (forall i, (i < nr)%nat -> r i = Ok (rf i) /\ (rf i < sm_h m)%nat) -> (forall j, (j < nc)%nat -> c j = Ok (cf j) /\ (cf j < sm_w m)%nat) ->
  (forall i j, (i < nr)%nat -> (j < nc)%nat -> g i j <> None -> can_take m (rf i) (cf j)) ->
  exists m', sm_adds nr nc r c g m = Ok m' /\ grows m m' /\
    forall a b, sm_val m' a b = sm_val m a b + rsum nr (fun i => rsum nc (fun j => hit a (rf i) (hit b (cf j) (gval (g i j))))).
Proof.
  intros Hr Hc Ht. unfold sm_adds.
  match goal with |- context[ofor nr ?f m] => destruct (ofor_inv nr f (fun n s => grows m s /\
    forall a b, sm_val s a b = sm_val m a b + rsum n (fun i => rsum nc (fun j => hit a (rf i) (hit b (cf j) (gval (g i j)))))) m) as (m' & E & I) end.
  - split; [apply grows_refl|]. intros. cbn. lra.
  - intros i s Hi (G & V).
    match goal with |- context[ofor nc ?f s] => destruct (ofor_inv nc f (fun n u => grows s u /\
      forall a b, sm_val u a b = sm_val s a b + rsum n (fun j => hit a (rf i) (hit b (cf j) (gval (g i j))))) s) as (u & Eu & Gu & Vu) end.
    + split; [apply grows_refl|]. intros. cbn. lra.
    + intros j u Hj (Gu & Vu). destruct (g i j) as [v|] eqn:Eg.
      * destruct (Hr i Hi) as (Er & Br). destruct (Hc j Hj) as (Ec & Bc). rewrite Er, Ec. cbn [obind].
        pose proof (grows_trans _ _ _ G Gu) as GG. unfold sm_add. destruct GG as (D1 & D2 & D3 & D4). rewrite D1, D2, (proj2 (Nat.ltb_lt _ _) Br), (proj2 (Nat.ltb_lt _ _) Bc).
        cbn [andb oguard].
        assert (T : can_take u (rf i) (cf j)) by (eapply grows_take; [|apply Ht; auto; congruence]; repeat split; auto).
        replace (negb (sm_fin u) || sm_has u (rf i) (cf j)) with true by (destruct T as [T|T]; rewrite T; [reflexivity|rewrite orb_true_r; auto]).
        cbn [oassert]. eexists. split; [reflexivity|]. split.
        -- eapply grows_trans; [exact Gu|]. repeat split; auto. intros a b. apply sm_has_put.
        -- intros a b. rewrite sm_val_put, rsum_snoc, Eg. cbn [gval].
           destruct (Nat.eqb_spec a (rf i)) as [->|N1]; cbn [andb]; [destruct (Nat.eqb_spec b (cf j)) as [->|N2]|]; rewrite Vu.
           ++ assert (Hh : hit (rf i) (rf i) (hit (cf j) (cf j) v) = v) by (unfold hit; rewrite !Nat.eqb_refl; auto). rewrite Hh. lra.
           ++ assert (Hh : hit (rf i) (rf i) (hit b (cf j) v) = 0) by (unfold hit; rewrite Nat.eqb_refl; destruct (Nat.eqb_spec b (cf j)); congruence). rewrite Hh. lra.
           ++ assert (Hh : hit a (rf i) (hit b (cf j) v) = 0) by (unfold hit; destruct (Nat.eqb_spec a (rf i)); congruence). rewrite Hh. lra.
      * exists u. split; auto. split; auto. intros a b. rewrite rsum_snoc, Vu, Eg. unfold hit, gval. destruct (a =? rf i)%nat, (b =? cf j)%nat; lra.
    + exists u. split; auto. split; [eapply grows_trans; eauto|]. intros a b. rewrite Vu, V, rsum_snoc. lra.
  - exists m'. auto.
Qed.

(** Entries that were not there before *)
Lemma sm_adds_new nr nc r c rf cf g m m' :
  (forall i, (i < nr)%nat -> r i = Ok (rf i)) -> (forall j, (j < nc)%nat -> c j = Ok (cf j)) -> sm_adds nr nc r c g m = Ok m' ->
  forall a b, sm_has m' a b = true -> sm_has m a b = true \/ exists i j, (i < nr)%nat /\ (j < nc)%nat /\ g i j <> None /\ a = rf i /\ b = cf j.
Proof.
  intros Hr Hc. unfold sm_adds, ofor.
  assert (Lp : forall l u u', (forall i, In i l -> (i < nr)%nat) ->
    ofold (fun m i => ofold (fun m j => match g i j with None => Ok m | Some v => let* a := r i in let* b := c j in sm_add m a b v end) (seq 0 nc) m) l u = Ok u' ->
    forall a b, sm_has u' a b = true -> sm_has u a b = true \/ exists i j, (i < nr)%nat /\ (j < nc)%nat /\ g i j <> None /\ a = rf i /\ b = cf j).
  { induction l as [|i l IH]; intros u u' Hl E a b Ha; cbn in E; [injection E as <-; auto|].
    destruct (ofold _ (seq 0 nc) u) as [w| |] eqn:Ew; try discriminate. cbn [obind] in E.
    apply IH with (a := a) (b := b) in E; [|intros; apply Hl; right; auto|auto]. destruct E as [E|E]; [|right; auto].
    assert (Hi : (i < nr)%nat) by (apply Hl; left; auto).
    assert (Lj : forall l u w, (forall j, In j l -> (j < nc)%nat) ->
      ofold (fun m j => match g i j with None => Ok m | Some v => let* a := r i in let* b := c j in sm_add m a b v end) l u = Ok w ->
      sm_has w a b = true -> sm_has u a b = true \/ exists j, (j < nc)%nat /\ g i j <> None /\ a = rf i /\ b = cf j).
    { clear - Hr Hc Hi. induction l as [|j l IH]; intros u w Hl E Ha; cbn in E; [injection E as <-; auto|].
      destruct (g i j) as [v|] eqn:Eg.
      - destruct (let* a := r i in let* b := c j in sm_add u a b v) as [w0| |] eqn:E0; try discriminate. cbn [obind] in E.
        apply IH in E; [|intros; apply Hl; right; auto|auto]. destruct E as [E|E]; [|right; auto].
        rewrite Hr in E0 by auto. rewrite Hc in E0 by (apply Hl; left; auto). cbn [obind] in E0. unfold sm_add in E0.
        destruct (_ && _) eqn:B1 in E0; cbn [oguard] in E0; [|discriminate]. destruct (_ || _) eqn:B2 in E0; cbn [oassert] in E0; [|discriminate].
        injection E0 as <-.
        unfold sm_has, sm_put in E. cbn [sm_ent] in E. destruct (Nat.eqb_spec a (rf i)); [destruct (Nat.eqb_spec b (cf j))|]; cbn [andb] in E; auto.
        right. exists j. split; [apply Hl; left; auto|]. split; [congruence|auto].
      - cbn [obind] in E. apply IH in E; auto. intros; apply Hl; right; auto. }
    apply Lj in Ew; auto. 2:{ intros j Hj. apply in_seq in Hj. lia. }
    destruct Ew as [Ew|(j & Ew)]; [auto|right; exists i, j; tauto]. }
  intros E. apply (Lp (seq 0 nr) m m'); [intros i Hi; apply in_seq in Hi; lia|exact E].
Qed.

Lemma isz_spec x : isz x = true <-> x = 0.
Proof. unfold isz. destruct (Req_EM_T x 0); split; congruence. Qed.

Lemma sm_add_sub_ok o n A m : (o + n <= sm_h m)%nat -> (o + n <= sm_w m)%nat ->
  (forall i j, (i < n)%nat -> (j < n)%nat -> can_take m (o + i) (o + j)) ->
  exists m', sm_add_sub (seq o n) A m = Ok m' /\ grows m m' /\
    forall a b, sm_val m' a b = sm_val m a b + rsum n (fun i => rsum n (fun j => hit a (o + i) (hit b (o + j) (mget A i j)))).
Proof.
  intros Hh Hw Ht. unfold sm_add_sub. rewrite seq_length.
  assert (Rd : forall i, (i < n)%nat -> oread (seq o n) i = Ok (o + i)%nat) by (intros i Hi; unfold oread; rewrite nth_error_seq by auto; reflexivity).
  destruct (sm_adds_ok n n (oread (seq o n)) (oread (seq o n)) (fun i => o + i)%nat (fun j => o + j)%nat
    (fun i j => if isz (mget A i j) && isz (mget A j i) then None else Some (mget A i j)) m) as (m' & E & G & V).
  - intros i Hi. split; [auto|lia].
  - intros i Hi. split; [auto|lia].
  - auto.
  - exists m'. split; auto. split; auto. intros a b. rewrite V. f_equal. apply rsum_ext. intros i Hi. apply rsum_ext. intros j Hj. f_equal. f_equal.
    destruct (isz (mget A i j)) eqn:Z; cbn [andb]; [|reflexivity]. apply isz_spec in Z. destruct (isz (mget A j i)); cbn [gval]; auto.
Qed.

(** ** Block vectors *)

Lemma bv_update N size n (p : nat -> nat) (F : nat -> vec -> vec) f b0 : bv_wf b0 N size ->
  (forall i v, (i < n)%nat -> (p i < N)%nat /\ (List.length v = size (p i) -> List.length (F i v) = size (p i))) ->
  (forall i j, (i < n)%nat -> (j < n)%nat -> p i = p j -> i = j) ->
  (forall b i, (i < n)%nat -> bv_wf b N size -> bv_off b = bv_off b0 -> f b i = bv_put b (p i) (F i (blk b (p i)))) ->
  exists b, ofor n f b0 = Ok b /\ bv_wf b N size /\ bv_off b = bv_off b0 /\
    (forall i, (i < n)%nat -> blk b (p i) = F i (blk b0 (p i))) /\
    (forall j, (j < N)%nat -> (forall i, (i < n)%nat -> p i <> j) -> blk b j = blk b0 j).
Proof.
  intros W Hp Inj Hf.
  destruct (ofor_inv n f (fun k b => bv_wf b N size /\ bv_off b = bv_off b0 /\
     (forall i, (i < k)%nat -> blk b (p i) = F i (blk b0 (p i))) /\
     (forall j, (j < N)%nat -> (forall i, (i < k)%nat -> p i <> j) -> blk b j = blk b0 j)) b0) as (b & E & I).
  - split; [auto|]. split; [auto|]. split; [intros; lia|auto].
  - intros k b Hk (Wb & Eo & Hd & Ho). rewrite Hf by auto. pose proof (proj1 (Hp k [] Hk)) as Hpk.
    pose proof (proj2 (Hp k (blk b (p k)) Hk) (blk_length _ _ _ Wb _ Hpk)) as Lk.
    destruct (bv_put_ok b N size Wb (p k) _ Hpk Lk) as (b' & E & W' & O' & V & Oth). exists b'. split; [auto|].
    assert (Bk : blk b (p k) = blk b0 (p k)) by (apply Ho; auto; intros i Hi C; apply Inj in C; lia).
    split; [auto|]. split; [congruence|]. split.
    + intros i Hi. destruct (Nat.eq_dec i k) as [->|Ne]; [congruence|]. rewrite Oth.
      * apply Hd. lia.
      * apply (proj1 (Hp i [] ltac:(lia))).
      * intros C. apply Ne. apply Inj; auto; lia.
    + intros j Hj Hn. rewrite Oth; auto. intros C. apply (Hn k); auto.
  - exists b. auto.
Qed.

(** Every position is in a block *)
Lemma block_of off n size p : offsets off n size -> (p < nsum n size)%nat -> exists i k, (i < n)%nat /\ (k < size i)%nat /\ p = (nth i off 0 + k)%nat.
Proof.
  intros O. assert (H : forall m, (m <= n)%nat -> (p < nsum m size)%nat -> exists i k, (i < m)%nat /\ (k < size i)%nat /\ p = (nth i off 0 + k)%nat).
  { induction m; intros Hm Hp; [cbn in Hp; lia|]. rewrite nsum_S in Hp. destruct (Nat.lt_ge_cases p (nsum m size)) as [C|C].
    - destruct IHm as (i & k & A & B & D); try lia. exists i, k. split; [lia|auto].
    - exists m, (p - nsum m size)%nat. rewrite (offsets_nsum off n size m O) by lia. lia. }
  intros Hp. apply H; auto.
Qed.
(** ... and in one only *)
Lemma block_unique off n size i k i' k' : offsets off n size -> (i < n)%nat -> (i' < n)%nat -> (k < size i)%nat -> (k' < size i')%nat ->
  (nth i off 0 + k = nth i' off 0 + k')%nat -> i = i' /\ k = k'.
Proof.
  intros O Hi Hi' Hk Hk' E.
  assert (A : forall a b, (a < b)%nat -> (b < n)%nat -> (nth a off 0 + size a <= nth b off 0)%nat).
  { intros a b H1 H2. pose proof (offsets_mono off n size (S a) b O ltac:(lia)). destruct O as (_ & _ & S). rewrite S in H by lia. lia. }
  assert (i = i').
  { destruct (Nat.lt_trichotomy i i') as [C|[C|C]]; auto; [pose proof (A i i' C Hi')|pose proof (A i' i C Hi)]; lia. }
  subst. lia.
Qed.
Lemma block_end off n size i : offsets off n size -> (i < n)%nat -> (nth i off 0 + size i <= nsum n size)%nat.
Proof. intros O Hi. rewrite (offsets_nsum off n size i O) by lia. pose proof (nsum_le (S i) n size ltac:(lia)). rewrite nsum_S in H. lia. Qed.

Lemma rsum_hit n (f : nat -> R) a k : (k < n)%nat -> rsum n (fun i => hit (a + k) (a + i) (f i)) = f k.
Proof.
  intros Hk. rewrite (rsum_single n k).
  - unfold hit. rewrite Nat.eqb_refl. auto.
  - auto.
  - intros i Hi N. unfold hit. destruct (Nat.eqb_spec (a + k) (a + i)); [lia|auto].
Qed.
Lemma rsum_0 n f : (forall i, (i < n)%nat -> f i = 0) -> rsum n f = 0.
Proof. intros H. rewrite (rsum_ext n f (fun _ => 0)) by auto. apply rsum_zero. Qed.
Lemma rsum_no_hit n (f : nat -> R) a p : (forall i, (i < n)%nat -> p <> (a + i)%nat) -> rsum n (fun i => hit p (a + i) (f i)) = 0.
Proof. intros H. apply rsum_0. intros i Hi. unfold hit. destruct (Nat.eqb_spec p (a + i)); auto. exfalso. eapply H; eauto. Qed.
Lemma hit_scal a b v w : hit a b v * w = hit a b (v * w).
Proof. unfold hit. destruct (a =? b)%nat; lra. Qed.
Lemma hit_sum a b n f : rsum n (fun i => hit a b (f i)) = hit a b (rsum n f).
Proof. unfold hit. destruct (a =? b)%nat; auto. apply rsum_zero. Qed.
(** Selecting entries of a vector *)
Lemma rsum_pick N n o (f : nat -> R) (v : nat -> R) : (o + n <= N)%nat -> rsum N (fun b => rsum n (fun j => hit b (o + j) (f j)) * v b) = rsum n (fun j => f j * v (o + j)%nat).
Proof.
  intros H. rewrite (rsum_ext N _ (fun b => rsum n (fun j => hit b (o + j) (f j) * v b))) by (intros; symmetry; apply rsum_scal_r).
  rewrite rsum_swap. apply rsum_ext. intros j Hj. rewrite (rsum_single N (o + j)).
  - unfold hit. rewrite Nat.eqb_refl. auto.
  - lia.
  - intros i Hi N'. unfold hit. destruct (Nat.eqb_spec i (o + j)); [lia|lra].
Qed.

(** ** The layout *)

Lemma oread_map_seq {A} (f : nat -> A) n i : (i < n)%nat -> oread (map f (seq 0 n)) i = Ok (f i).
Proof. intros H. unfold oread. rewrite nth_error_map, nth_error_seq by auto. reflexivity. Qed.
Lemma omap_map {A B} (f : A -> outcome B) (g : A -> B) l : (forall a, In a l -> f a = Ok (g a)) -> omap f l = Ok (map g l).
Proof. induction l as [|a l IH]; intros H; cbn; auto. rewrite H by (left; auto). cbn. rewrite IH by (intros; apply H; right; auto). reflexivity. Qed.

Definition ns_of (h : rom) (off : list nat) (size : nat -> nat) (lin : smat) : nsrom :=
  NsRom lin (rh_nsub h) off (rh_sep h) (map (fun m => place h m 0) (seq 0 (rh_nsub h))) (map (fun m => seq (vel h off m) (vsize h size m)) (seq 0 (rh_nsub h))).

Section Layout.
  Variables (h : rom) (off : list nat) (size : nat -> nat) (lin : smat).
  Hypothesis W : flow_rom h off size lin.

  Lemma unk m : (m < rh_nsub h)%nat -> unknown h m 0.
  Proof. intros H. destruct W as (_ & V & _). split; auto. destruct (rh_sep h); lia. Qed.
  Lemma vplace_lt m : (m < rh_nsub h)%nat -> (place h m 0 < blocks h)%nat.
  Proof. intros H. apply place_lt. apply unk. auto. Qed.
  Lemma vplace_inj m m' : (m < rh_nsub h)%nat -> (m' < rh_nsub h)%nat -> place h m 0 = place h m' 0 -> m = m'.
  Proof. intros H H' E. apply place_inj in E; [tauto|apply unk; auto|apply unk; auto]. Qed.

  Lemma ns_init_ok : ns_init h off lin (rh_nsub h) = Ok (ns_of h off size lin).
  Proof.
    destruct W as (Hs & Hv & O & Hh & Hw). unfold ns_init, ns_of. pose proof (proj1 O) as Lo. unfold blocks in Lo. rewrite Lo.
    assert (Es : (S (rh_nsub h * (if rh_sep h then rh_nvar h else 1)) =? 2 * rh_nsub h + 1)%nat = rh_sep h).
    { destruct (rh_sep h); [apply Nat.eqb_eq; rewrite Hv; lia|apply Nat.eqb_neq; lia]. }
    rewrite Es. replace (rh_sep h || _)%bool with true.
    2:{ destruct (rh_sep h); auto. symmetry. apply Nat.eqb_eq. lia. }
    cbn [oassert].
    rewrite (omap_map (fun m => block_index h m 0) (fun m => place h m 0)).
    2:{ intros m Hm. apply in_seq in Hm. apply (block_index_place h m 0). apply unk. lia. }
    cbn [obind]. rewrite (omap_map _ (fun b => seq (nth b off 0%nat) (size b))).
    - cbn [obind]. rewrite map_map. reflexivity.
    - intros b Hb. apply in_map_iff in Hb as (m & <- & Hm). apply in_seq in Hm. pose proof (vplace_lt m ltac:(lia)) as B.
      assert (Rd : forall i, (i <= blocks h)%nat -> oread off i = Ok (nth i off 0%nat)).
      { intros i Hi. unfold oread. rewrite (nth_error_nth' off 0%nat) by (rewrite (proj1 O); lia). reflexivity. }
      rewrite !Rd by lia. cbn [obind]. rewrite Nat.add_1_r. destruct O as (_ & _ & St). rewrite St by auto. do 2 f_equal. lia.
  Qed.

  Lemma bwf x : List.length x = nsum (blocks h) size -> bv_wf (BVec off x) (blocks h) size.
  Proof. intros L. split; [apply W|exact L]. Qed.
  Lemma blk_vel x m : List.length x = nsum (blocks h) size -> (m < rh_nsub h)%nat -> blk (BVec off x) (place h m 0) = vel_of h off size x m.
  Proof.
    intros L Hm. pose proof (vplace_lt m Hm) as B. apply vec_ext.
    - rewrite (blk_length _ _ _ (bwf x L)) by auto. unfold vel_of. rewrite map_length, seq_length. reflexivity.
    - intros k Hk. rewrite (blk_length _ _ _ (bwf x L)) in Hk by auto. rewrite (blk_nth _ _ _ (bwf x L)) by auto. cbn [bv_dat bv_off].
      unfold vel_of. unfold vnth at 2. rewrite (nth_map_seq (fun k => vnth x (vel h off m + k))) by exact Hk. reflexivity.
  Qed.
  Lemma vel_end m : (m < rh_nsub h)%nat -> (vel h off m + vsize h size m <= nsum (blocks h) size)%nat.
  Proof. intros Hm. apply (block_end off (blocks h) size (place h m 0)); [apply W|apply vplace_lt; auto]. Qed.
  Lemma vel_unique m k m' k' : (m < rh_nsub h)%nat -> (m' < rh_nsub h)%nat -> (k < vsize h size m)%nat -> (k' < vsize h size m')%nat ->
    (vel h off m + k = vel h off m' + k')%nat -> m = m' /\ k = k'.
  Proof.
    intros Hm Hm' Hk Hk' E. destruct (block_unique off (blocks h) size (place h m 0) k (place h m' 0) k') as (A & B); auto; try apply W; try (apply vplace_lt; auto).
    split; auto. apply vplace_inj; auto.
  Qed.
  Lemma vel_or_not p : (p < nsum (blocks h) size)%nat ->
    (exists m k, (m < rh_nsub h)%nat /\ (k < vsize h size m)%nat /\ p = (vel h off m + k)%nat) \/
    (no_velocity h off size p /\ exists b k, (b < blocks h)%nat /\ (k < size b)%nat /\ p = (nth b off 0 + k)%nat /\ forall m, (m < rh_nsub h)%nat -> place h m 0 <> b).
  Proof.
    intros Hp. destruct (block_of off (blocks h) size p) as (b & k & Hb & Hk & E); [apply W|auto|].
    destruct (place_onto h b Hb) as (m & v & U & Pb). destruct (Nat.eq_dec v 0) as [->|Nv].
    - left. exists m, k. split; [apply U|]. subst b. split; [exact Hk|exact E].
    - right. assert (Nb : forall m', (m' < rh_nsub h)%nat -> place h m' 0 <> b).
      { intros m' Hm' C. rewrite <- Pb in C. apply place_inj in C; [lia|apply unk; auto|auto]. }
      split; [|exists b, k; auto].
      intros m' k' Hm' Hk' C. rewrite C in E. apply (block_unique off (blocks h) size) in E as (A & _); auto; [apply (Nb m' Hm'); auto|apply W|apply vplace_lt; auto].
  Qed.

  (** Adding something to the velocity blocks of a vector *)
  Lemma add_blocks (Z : nat -> vec) f y : List.length y = nsum (blocks h) size ->
    (forall m, (m < rh_nsub h)%nat -> List.length (Z m) = vsize h size m) ->
    (forall b m, (m < rh_nsub h)%nat -> bv_wf b (blocks h) size -> bv_off b = off ->
       f b m = bv_put b (place h m 0) (map (fun k => vnth (blk b (place h m 0)) k + vnth (Z m) k) (seq 0 (vsize h size m)))) ->
    exists b, ofor (rh_nsub h) f (BVec off y) = Ok b /\ bv_off b = off /\ List.length (bv_dat b) = nsum (blocks h) size /\
      (forall m k, (m < rh_nsub h)%nat -> (k < vsize h size m)%nat -> vnth (bv_dat b) (vel h off m + k) = vnth y (vel h off m + k) + vnth (Z m) k) /\
      (forall p, (p < nsum (blocks h) size)%nat -> no_velocity h off size p -> vnth (bv_dat b) p = vnth y p).
  Proof.
    intros Ly LZ Hf.
    destruct (bv_update (blocks h) size (rh_nsub h) (fun m => place h m 0) (fun m v => map (fun k => vnth v k + vnth (Z m) k) (seq 0 (vsize h size m))) f (BVec off y))
      as (b & E & Wb & Ob & Vb & Nb).
    - apply bwf. auto.
    - intros m v Hm. split; [apply vplace_lt; auto|]. intros _. rewrite map_length, seq_length. reflexivity.
    - intros m m' Hm Hm' C. apply vplace_inj; auto.
    - intros b m Hm Wb Ob. apply Hf; auto.
    - cbn [bv_off] in Ob. exists b. split; auto. split; auto. split; [apply Wb|]. split.
      + intros m k Hm Hk. pose proof (blk_nth _ _ _ Wb (place h m 0) k (vplace_lt m Hm) Hk) as B. rewrite Ob in B. unfold vel. rewrite <- B, Vb by auto.
        unfold vnth at 1. rewrite (nth_map_seq (fun k => vnth (blk (BVec off y) (place h m 0)) k + vnth (Z m) k)) by auto.
        rewrite (blk_nth _ _ _ (bwf y Ly)) by (auto using vplace_lt). reflexivity.
      + intros p Hp Np. destruct (vel_or_not p Hp) as [(m & k & Hm & Hk & C)|(_ & q & k & Hq & Hk & C & Nq)]; [exfalso; eapply Np; eauto|]. subst p.
        pose proof (blk_nth _ _ _ Wb q k Hq Hk) as B. rewrite Ob in B. rewrite <- B, Nb by auto. rewrite (blk_nth _ _ _ (bwf y Ly)) by auto. reflexivity.
  Qed.

  (** The rows of a matrix after adding a square matrix to each velocity block *)
  Lemma add_mats (A : nat -> dmat) f J0 : sm_h J0 = nsum (blocks h) size -> sm_w J0 = nsum (blocks h) size -> takes_velocity h off size J0 ->
    (forall J m, (m < rh_nsub h)%nat -> grows J0 J -> f J m = sm_add_sub (seq (vel h off m) (vsize h size m)) (A m) J) ->
    exists J, ofor (rh_nsub h) f J0 = Ok J /\ grows J0 J /\
      (forall m k (v : nat -> R), (m < rh_nsub h)%nat -> (k < vsize h size m)%nat ->
        rsum (nsum (blocks h) size) (fun b => sm_val J (vel h off m + k) b * v b) =
        rsum (nsum (blocks h) size) (fun b => sm_val J0 (vel h off m + k) b * v b) + rsum (vsize h size m) (fun j => mget (A m) k j * v (vel h off m + j)%nat)) /\
      (forall p (v : nat -> R), no_velocity h off size p ->
        rsum (nsum (blocks h) size) (fun b => sm_val J p b * v b) = rsum (nsum (blocks h) size) (fun b => sm_val J0 p b * v b)).
  Proof.
    intros Hh Hw Ht Hf.
    destruct (ofor_inv (rh_nsub h) f (fun n J => grows J0 J /\ forall a b, sm_val J a b = sm_val J0 a b +
      rsum n (fun m => rsum (vsize h size m) (fun i => hit a (vel h off m + i) (rsum (vsize h size m) (fun j => hit b (vel h off m + j) (mget (A m) i j)))))) J0) as (J & E & G & V).
    - split; [apply grows_refl|]. intros. cbn. lra.
    - intros m J Hm (G & V). rewrite Hf by auto. pose proof (vel_end m Hm) as En.
      destruct (sm_add_sub_ok (vel h off m) (vsize h size m) (A m) J) as (J' & E & G' & V').
      + destruct G as (-> & _). lia.
      + destruct G as (_ & -> & _). lia.
      + intros i j Hi Hj. eapply grows_take; [exact G|]. apply Ht; auto.
      + exists J'. split; auto. split; [eapply grows_trans; eauto|]. intros a b. rewrite V', V, rsum_snoc, Rplus_assoc. do 2 f_equal.
        apply rsum_ext. intros i Hi. apply hit_sum.
    - exists J. split; auto. split; auto.
      assert (Row : forall p (v : nat -> R), rsum (nsum (blocks h) size) (fun b => sm_val J p b * v b) = rsum (nsum (blocks h) size) (fun b => sm_val J0 p b * v b) +
        rsum (rh_nsub h) (fun m => rsum (vsize h size m) (fun i => hit p (vel h off m + i) (rsum (vsize h size m) (fun j => mget (A m) i j * v (vel h off m + j)%nat))))).
      { intros p v. rewrite (rsum_ext _ _ (fun b => sm_val J0 p b * v b + rsum (rh_nsub h) (fun m => rsum (vsize h size m) (fun i => hit p (vel h off m + i) (rsum (vsize h size m) (fun j => hit b (vel h off m + j) (mget (A m) i j))))) * v b)).
        2:{ intros b _. rewrite V. ring. }
        rewrite rsum_plus. f_equal.
        rewrite (rsum_ext _ _ (fun b => rsum (rh_nsub h) (fun m => rsum (vsize h size m) (fun i => hit p (vel h off m + i) (rsum (vsize h size m) (fun j => hit b (vel h off m + j) (mget (A m) i j)) * v b))))).
        2:{ intros b _. rewrite <- rsum_scal_r. apply rsum_ext. intros m _. rewrite <- rsum_scal_r. apply rsum_ext. intros i _. apply hit_scal. }
        rewrite rsum_swap. apply rsum_ext. intros m Hm. rewrite rsum_swap. apply rsum_ext. intros i Hi. rewrite hit_sum. f_equal.
        apply rsum_pick. apply vel_end. auto. }
      split.
      + intros m k v Hm Hk. rewrite Row. f_equal. rewrite (rsum_single _ m); auto.
        * apply (rsum_hit (vsize h size m) (fun i => rsum (vsize h size m) (fun j => mget (A m) i j * v (vel h off m + j)%nat))). auto.
        * intros m' Hm' Ne. apply rsum_no_hit. intros i Hi C. apply vel_unique in C; auto. lia.
      + intros p v Np. rewrite Row. rewrite (rsum_0 (rh_nsub h)); [ring|]. intros m Hm. apply rsum_no_hit. intros i Hi. apply Np; auto.
  Qed.

  Lemma lin_mult x : List.length x = nsum (blocks h) size -> exists y, sm_mult lin x = Ok y /\ List.length y = nsum (blocks h) size /\
    forall p, (p < nsum (blocks h) size)%nat -> vnth y p = rsum (nsum (blocks h) size) (fun b => sm_val lin p b * vnth x b).
  Proof.
    intros L. destruct W as (_ & _ & _ & Hh & Hw). unfold sm_mult. rewrite L, Hw, Nat.eqb_refl. cbn [oguard]. eexists. split; [reflexivity|].
    split; [rewrite map_length, seq_length; auto|]. intros p Hp. unfold vnth at 1. rewrite (nth_map_seq (fun i => rsum _ (fun j => sm_val lin i j * vnth x j))) by lia. reflexivity.
  Qed.
End Layout.
