(** The integrators as sums of kernels: every point contributes products of traces and tractions of the basis functions. *)
From Coq Require Import Reals List Bool Lia Lra Arith ZArith.
From Verif Require Import Outcome ListLemmas LaBase EqpSpec IntegModel IntegProofs DgModel DgSpec DgAddProofs.
Import ListNotations.
Local Open Scope R_scope.

(** ** Blocks of vector functions *)

Definition inb (o n i : nat) : bool := ((o <=? i) && (i <? o + n))%nat.

Lemma triple dim rn cn ro co (x : nat -> nat -> nat -> R) i j : (0 < rn)%nat -> (0 < cn)%nat ->
  rsum dim (fun d => rsum cn (fun jd => rsum rn (fun id => delta (ro + d * rn + id) (co + d * cn + jd) (x d id jd) i j))) =
  if (inb ro (dim * rn) i && inb co (dim * cn) j)%bool then
    if ((i - ro) / rn =? (j - co) / cn)%nat then x ((j - co) / cn)%nat ((i - ro) mod rn)%nat ((j - co) mod cn)%nat else 0
  else 0.
Proof.
  intros Hr Hc. unfold delta, inb.
  rewrite (rsum_ext dim _ (fun d => rsum cn (fun jd => if (j =? co + (d * cn + jd))%nat then
    (if ((ro + d * rn <=? i) && (i <? ro + d * rn + rn))%nat then x d (i - (ro + d * rn))%nat jd else 0) else 0))).
  2:{ intros d _. apply rsum_ext. intros jd _. rewrite Nat.add_assoc.
      rewrite (rsum_ext rn _ (fun id => if (j =? co + d * cn + jd)%nat then (if (i =? ro + d * rn + id)%nat then x d id jd else 0) else 0))
        by (intros; apply if_and). rewrite rsum_if. destruct (j =? co + d * cn + jd)%nat; auto.
      apply (pick_off rn (ro + d * rn) i (fun id => x d id jd)). }
  destruct (Nat.leb_spec co j); cbn [andb].
  2:{ rewrite andb_false_r. rewrite (rsum_ext dim _ (fun _ => 0)), rsum_zero; auto. intros d _.
      rewrite (rsum_ext cn _ (fun _ => 0)), rsum_zero; auto. intros jd _. destruct (Nat.eqb_spec j (co + (d * cn + jd))); [lia|auto]. }
  rewrite (rsum_ext dim _ (fun d => rsum cn (fun jd => if (j - co =? d * cn + jd)%nat then
    (if ((ro + d * rn <=? i) && (i <? ro + d * rn + rn))%nat then x d (i - (ro + d * rn))%nat jd else 0) else 0))).
  2:{ intros d _. apply rsum_ext. intros jd _. destruct (Nat.eqb_spec j (co + (d * cn + jd))); destruct (Nat.eqb_spec (j - co) (d * cn + jd)); auto; lia. }
  rewrite (pick2 dim cn (j - co) (fun d jd => if ((ro + d * rn <=? i) && (i <? ro + d * rn + rn))%nat then x d (i - (ro + d * rn))%nat jd else 0)) by auto.
  destruct (Nat.ltb_spec (j - co) (dim * cn)).
  2:{ destruct (Nat.ltb_spec j (co + dim * cn)); [lia|]. rewrite andb_false_r. auto. }
  destruct (Nat.ltb_spec j (co + dim * cn)); [|lia]. rewrite andb_true_r.
  destruct (divmod_lt cn dim (j - co)) as (B1 & B2 & B3); [lia|]. set (d := ((j - co) / cn)%nat) in *.
  destruct (Nat.leb_spec ro i); cbn [andb].
  2:{ destruct (Nat.leb_spec (ro + d * rn) i); [lia|auto]. }
  destruct (Nat.ltb_spec i (ro + dim * rn)).
  - destruct (divmod_lt rn dim (i - ro)) as (A1 & A2 & A3); [lia|].
    destruct (Nat.eqb_spec ((i - ro) / rn) d) as [E|E].
    + rewrite E in A3. destruct (Nat.leb_spec (ro + d * rn) i); [|lia]. destruct (Nat.ltb_spec i (ro + d * rn + rn)); [|lia]. cbn [andb].
      f_equal. lia.
    + destruct (Nat.leb_spec (ro + d * rn) i); cbn [andb]; auto. destruct (Nat.ltb_spec i (ro + d * rn + rn)); auto. exfalso. apply E.
      destruct (divmod_of rn d (i - (ro + d * rn))) as [Q _]; [lia|]. rewrite <- Q. f_equal. lia.
  - destruct (Nat.ltb_spec i (ro + d * rn + rn)); [nia|]. rewrite andb_false_r. auto.
Qed.

(** Traces of the basis functions of a vector space, component by component *)
Definition vS (n : nat) (s : fv) : fm := fun i c => if (i / n =? c)%nat then s (i mod n)%nat else 0.

Lemma vS_prod dim rn cn (rs cd : fv) i j : (i < dim * rn)%nat -> (j < dim * cn)%nat ->
  (if (i / rn =? j / cn)%nat then rs (i mod rn)%nat * cd (j mod cn)%nat else 0) = rsum dim (fun c => vS rn rs i c * vS cn cd j c).
Proof.
  intros Hi Hj. destruct (divmod_lt rn dim i Hi) as (A1 & _). destruct (divmod_lt cn dim j Hj) as (B1 & _). unfold vS.
  destruct (Nat.eqb_spec (i / rn) (j / cn)) as [E|E].
  - rewrite (rsum_single dim (i / rn)); auto.
    + rewrite Nat.eqb_refl, <- E, Nat.eqb_refl. auto.
    + intros c _ N. destruct (Nat.eqb_spec (i / rn) c); [lia|ring].
  - rewrite (rsum_ext dim _ (fun _ => 0)), rsum_zero; auto. intros c _.
    destruct (Nat.eqb_spec (i / rn) c); destruct (Nat.eqb_spec (j / cn) c); try ring. lia.
Qed.

Definition at_block (o1 n1 o2 n2 : nat) (F : fm) : fm := fun i j => if (inb o1 n1 i && inb o2 n2 j)%bool then F (i - o1)%nat (j - o2)%nat else 0.

Lemma vd_eblock h w dim rn cn ro co (rs cd : fv) : (0 < rn)%nat -> (0 < cn)%nat -> (ro + dim * rn <= h)%nat -> (co + dim * cn <= w)%nat ->
  adds h w (fun e => ofor dim (fun e d => ofor cn (fun e jdof => ofor rn (fun e idof =>
    sadd e (ro + d * rn + idof) (co + d * cn + jdof) (rs idof * cd jdof)) e) e) e)
    (at_block ro (dim * rn) co (dim * cn) (fun i j => rsum dim (fun c => vS rn rs i c * vS cn cd j c))).
Proof.
  intros Hr Hc Hh Hw. eapply adds_ext.
  - apply (adds_ofor h w dim (fun e d => ofor cn (fun e jdof => ofor rn (fun e idof =>
      sadd e (ro + d * rn + idof) (co + d * cn + jdof) (rs idof * cd jdof)) e) e)
      (fun d i j => rsum cn (fun jd => rsum rn (fun id => delta (ro + d * rn + id) (co + d * cn + jd) (rs id * cd jd) i j)))).
    intros d Hd. apply (adds_ofor h w cn (fun e jdof => ofor rn (fun e idof => sadd e (ro + d * rn + idof) (co + d * cn + jdof) (rs idof * cd jdof)) e)
      (fun jd i j => rsum rn (fun id => delta (ro + d * rn + id) (co + d * cn + jd) (rs id * cd jd) i j))).
    intros jd Hjd. apply (adds_ofor h w rn (fun e idof => sadd e (ro + d * rn + idof) (co + d * cn + jd) (rs idof * cd jd))
      (fun id => delta (ro + d * rn + id) (co + d * cn + jd) (rs id * cd jd))).
    intros id Hid. apply adds_sadd; nia.
  - intros i j. cbv beta. rewrite (triple dim rn cn ro co (fun _ id jd => rs id * cd jd)) by auto. unfold at_block.
    destruct (inb ro (dim * rn) i) eqn:Ei; destruct (inb co (dim * cn) j) eqn:Ej; cbn [andb]; auto.
    unfold inb in Ei, Ej. apply andb_true_iff in Ei as [E1 E2]. apply andb_true_iff in Ej as [E3 E4].
    apply Nat.leb_le in E1, E3. apply Nat.ltb_lt in E2, E4. apply vS_prod; lia.
Qed.

(** The same with the column sum running over the rows from a start on: the part of the block on and below a line *)
Lemma tri_block h w dim rn cn ro co (rs cs : fv) (jc : R) (io : nat -> nat) (start : nat -> nat -> nat) (low : nat -> nat -> bool) :
  (0 < rn)%nat -> (0 < cn)%nat -> (ro + dim * rn <= h)%nat -> (co + dim * cn <= w)%nat ->
  (forall d, (d < dim)%nat -> io d = (ro + d * rn)%nat) ->
  (forall d id jd, (d < dim)%nat -> (id < rn)%nat -> (jd < cn)%nat -> (start d jd <= id)%nat <-> low (ro + d * rn + id)%nat (co + d * cn + jd)%nat = true) ->
  adds h w (fun e => ofor dim (fun e d => ofor cn (fun e jd =>
    oforr (start d jd) rn (fun e id => sadd e (io d + id) (co + d * cn + jd) (rs id * (jc * cs jd))) e) e) e)
    (fun i j => if low i j then at_block ro (dim * rn) co (dim * cn) (fun i j => jc * rsum dim (fun c => vS rn rs i c * vS cn cs j c)) i j else 0).
Proof.
  intros Hr Hc Hh Hw Hio Hlow.
  set (X := fun d id jd => if low (ro + d * rn + id)%nat (co + d * cn + jd)%nat then rs id * (jc * cs jd) else 0).
  eapply adds_ext.
  - apply (adds_ofor h w dim (fun e d => ofor cn (fun e jd => oforr (start d jd) rn (fun e id => sadd e (io d + id) (co + d * cn + jd) (rs id * (jc * cs jd))) e) e)
      (fun d i j => rsum cn (fun jd => rsum rn (fun id => delta (ro + d * rn + id) (co + d * cn + jd) (X d id jd) i j)))).
    intros d Hd. apply (adds_ofor h w cn (fun e jd => oforr (start d jd) rn (fun e id => sadd e (io d + id) (co + d * cn + jd) (rs id * (jc * cs jd))) e)
      (fun jd i j => rsum rn (fun id => delta (ro + d * rn + id) (co + d * cn + jd) (X d id jd) i j))).
    intros jd Hjd. rewrite (Hio d Hd).
    assert (Z : forall id i j, (id < rn)%nat -> (id < start d jd)%nat -> delta (ro + d * rn + id) (co + d * cn + jd) (X d id jd) i j = 0).
    { intros id i j H1 H2. unfold X. destruct (low (ro + d * rn + id)%nat (co + d * cn + jd)%nat) eqn:El.
      - apply (Hlow d id jd Hd H1 Hjd) in El. lia.
      - unfold delta. destruct ((i =? ro + d * rn + id)%nat && (j =? co + d * cn + jd)%nat)%bool; auto. }
    destruct (Nat.le_gt_cases (start d jd) rn) as [Hs|Hs].
    + eapply adds_ext.
      * apply (adds_oforr h w (start d jd) rn (fun e id => sadd e (ro + d * rn + id) (co + d * cn + jd) (rs id * (jc * cs jd)))
          (fun id => delta (ro + d * rn + id) (co + d * cn + jd) (rs id * (jc * cs jd)))); auto.
        intros id Hid. apply adds_sadd; nia.
      * intros i j. cbv beta.
        transitivity (rsum (start d jd + (rn - start d jd)) (fun id => delta (ro + d * rn + id) (co + d * cn + jd) (X d id jd) i j));
          [|f_equal; lia].
        rewrite rsum_split. rewrite (rsum_ext (start d jd) _ (fun _ => 0)), rsum_zero, Rplus_0_l.
        2:{ intros k Hk. apply Z; lia. }
        apply rsum_ext. intros k Hk. unfold X. replace (low (ro + d * rn + (start d jd + k))%nat (co + d * cn + jd)%nat) with true; auto.
        symmetry. apply Hlow; lia.
    + intros m Hm Wm. rewrite oforr_empty by lia. exists m. repeat split; auto. intros i j. rewrite (rsum_ext rn _ (fun _ => 0)), rsum_zero; [ring|].
      intros id Hid. apply Z; lia.
  - intros i j. cbv beta. rewrite (triple dim rn cn ro co X) by auto. unfold at_block.
    destruct (inb ro (dim * rn) i) eqn:Ei; destruct (inb co (dim * cn) j) eqn:Ej; cbn [andb]; try (destruct (low i j); reflexivity).
    unfold inb in Ei, Ej. apply andb_true_iff in Ei as [E1 E2]. apply andb_true_iff in Ej as [E3 E4].
    apply Nat.leb_le in E1, E3. apply Nat.ltb_lt in E2, E4.
    destruct (divmod_lt rn dim (i - ro)) as (A1 & A2 & A3); [lia|]. destruct (divmod_lt cn dim (j - co)) as (B1 & B2 & B3); [lia|].
    rewrite <- (vS_prod dim rn cn rs cs (i - ro) (j - co)) by lia.
    destruct (Nat.eqb_spec ((i - ro) / rn) ((j - co) / cn)) as [E|E].
    + unfold X. replace (ro + (j - co) / cn * rn + (i - ro) mod rn)%nat with i by (rewrite <- E; lia).
      replace (co + (j - co) / cn * cn + (j - co) mod cn)%nat with j by lia. destruct (low i j); ring.
    + destruct (low i j); ring.
Qed.

(** Four nested loops: every component against every component *)
Lemma quad h w dim rn cn (x : nat -> nat -> nat -> nat -> R) : (0 < rn)%nat -> (0 < cn)%nat -> h = (dim * rn)%nat -> w = (dim * cn)%nat ->
  adds h w (fun e => ofor dim (fun e jm => ofor cn (fun e jd => ofor dim (fun e im => ofor rn (fun e id =>
    sadd e (im * rn + id) (jm * cn + jd) (x im id jm jd)) e) e) e) e)
    (fun i j => if ((i <? h) && (j <? w))%nat then x (i / rn)%nat (i mod rn)%nat (j / cn)%nat (j mod cn)%nat else 0).
Proof.
  intros Hr Hc Hh Hw. eapply adds_ext.
  - apply (adds_ofor h w dim (fun e jm => ofor cn (fun e jd => ofor dim (fun e im => ofor rn (fun e id =>
      sadd e (im * rn + id) (jm * cn + jd) (x im id jm jd)) e) e) e)
      (fun jm i j => rsum cn (fun jd => rsum dim (fun im => rsum rn (fun id => delta (im * rn + id) (jm * cn + jd) (x im id jm jd) i j))))).
    intros jm Hjm. apply (adds_ofor h w cn (fun e jd => ofor dim (fun e im => ofor rn (fun e id => sadd e (im * rn + id) (jm * cn + jd) (x im id jm jd)) e) e)
      (fun jd i j => rsum dim (fun im => rsum rn (fun id => delta (im * rn + id) (jm * cn + jd) (x im id jm jd) i j)))).
    intros jd Hjd. apply (adds_ofor h w dim (fun e im => ofor rn (fun e id => sadd e (im * rn + id) (jm * cn + jd) (x im id jm jd)) e)
      (fun im i j => rsum rn (fun id => delta (im * rn + id) (jm * cn + jd) (x im id jm jd) i j))).
    intros im Him. apply (adds_ofor h w rn (fun e id => sadd e (im * rn + id) (jm * cn + jd) (x im id jm jd))
      (fun id => delta (im * rn + id) (jm * cn + jd) (x im id jm jd))).
    intros id Hid. apply adds_sadd; nia.
  - intros i j. cbv beta.
    rewrite (rsum_ext dim _ (fun jm => rsum cn (fun jd => if (j =? jm * cn + jd)%nat then
      (if (i <? dim * rn)%nat then x (i / rn)%nat (i mod rn)%nat jm jd else 0) else 0))).
    2:{ intros jm _. apply rsum_ext. intros jd _. rewrite <- (pick2 dim rn i (fun im id => x im id jm jd)) by auto.
        rewrite (rsum_ext dim _ (fun im => if (j =? jm * cn + jd)%nat then rsum rn (fun id => if (i =? im * rn + id)%nat then x im id jm jd else 0) else 0)).
        - apply rsum_if.
        - intros im _. rewrite <- rsum_if. apply rsum_ext. intros id _. apply if_and. }
    rewrite (pick2 dim cn j (fun jm jd => if (i <? dim * rn)%nat then x (i / rn)%nat (i mod rn)%nat jm jd else 0)) by auto.
    rewrite <- Hh, <- Hw. destruct (i <? h)%nat, (j <? w)%nat; auto.
Qed.

(** ** Kernels *)

Record kern := Kern { kS1 : fm; kS2 : fm; kT1 : fm; kT2 : fm; kj : R }.

(** A sum over the components *)
Definition pr (nc : nat) (A B : fm) : fm := fun i j => rsum nc (fun c => A i c * B j c).

Definition ibuf_ok (n1 n2 : nat) (kappa : R) (s : ibuf) : Prop :=
  sized n1 n2 n1 n2 (ib s) /\
  (kappa <> 0 -> (exists m, j00 s = Some m /\ s_h m = n1 /\ s_w m = n1) /\ (exists m, j10 s = Some m /\ s_h m = n2 /\ s_w m = n1) /\
    (exists m, j11 s = Some m /\ s_h m = n2 /\ s_w m = n2)).

Definition jat (j : option smat) : fm := match j with Some m => s_at m | None => fun _ _ => 0 end.

(** What the buffers hold after the points of [l] *)
Definition holds (nc n1 n2 : nat) (kappa : R) (k : dpt -> kern) (l : list dpt) (s : ibuf) : Prop :=
  (forall i j, (i < n1)%nat -> (j < n1)%nat -> s_at (b00 (ib s)) i j = lsum (fun p => pr nc (kS1 (k p)) (kT1 (k p)) i j) l) /\
  (forall i j, (i < n1)%nat -> (j < n2)%nat -> s_at (b01 (ib s)) i j = lsum (fun p => pr nc (kS1 (k p)) (kT2 (k p)) i j) l) /\
  (forall i j, (i < n2)%nat -> (j < n1)%nat -> s_at (b10 (ib s)) i j = lsum (fun p => pr nc (kS2 (k p)) (kT1 (k p)) i j) l) /\
  (forall i j, (i < n2)%nat -> (j < n2)%nat -> s_at (b11 (ib s)) i j = lsum (fun p => pr nc (kS2 (k p)) (kT2 (k p)) i j) l) /\
  (kappa <> 0 ->
    (forall i j, (i < n1)%nat -> (j <= i)%nat -> jat (j00 s) i j = lsum (fun p => kj (k p) * pr nc (kS1 (k p)) (kS1 (k p)) i j) l) /\
    (forall i j, (i < n2)%nat -> (j < n1)%nat -> jat (j10 s) i j = lsum (fun p => kj (k p) * pr nc (kS2 (k p)) (kS1 (k p)) i j) l) /\
    (forall i j, (i < n2)%nat -> (j <= i)%nat -> jat (j11 s) i j = lsum (fun p => kj (k p) * pr nc (kS2 (k p)) (kS2 (k p)) i j) l)).

(** One point adds the kernel's products. *)
Definition step_ok (nc n1 n2 : nat) (kappa : R) (k : dpt -> kern) (f : ibuf -> dpt -> outcome ibuf) (p : dpt) : Prop :=
  forall s, ibuf_ok n1 n2 kappa s -> exists s', f s p = Ok s' /\ ibuf_ok n1 n2 kappa s' /\
  (forall i j, (i < n1)%nat -> (j < n1)%nat -> s_at (b00 (ib s')) i j = s_at (b00 (ib s)) i j + pr nc (kS1 (k p)) (kT1 (k p)) i j) /\
  (forall i j, (i < n1)%nat -> (j < n2)%nat -> s_at (b01 (ib s')) i j = s_at (b01 (ib s)) i j + pr nc (kS1 (k p)) (kT2 (k p)) i j) /\
  (forall i j, (i < n2)%nat -> (j < n1)%nat -> s_at (b10 (ib s')) i j = s_at (b10 (ib s)) i j + pr nc (kS2 (k p)) (kT1 (k p)) i j) /\
  (forall i j, (i < n2)%nat -> (j < n2)%nat -> s_at (b11 (ib s')) i j = s_at (b11 (ib s)) i j + pr nc (kS2 (k p)) (kT2 (k p)) i j) /\
  (kappa <> 0 ->
    (forall i j, (i < n1)%nat -> (j <= i)%nat -> jat (j00 s') i j = jat (j00 s) i j + kj (k p) * pr nc (kS1 (k p)) (kS1 (k p)) i j) /\
    (forall i j, (i < n2)%nat -> (j < n1)%nat -> jat (j10 s') i j = jat (j10 s) i j + kj (k p) * pr nc (kS2 (k p)) (kS1 (k p)) i j) /\
    (forall i j, (i < n2)%nat -> (j <= i)%nat -> jat (j11 s') i j = jat (j11 s) i j + kj (k p) * pr nc (kS2 (k p)) (kS2 (k p)) i j)).

Lemma ibuf0_ok n1 n2 kappa : ibuf_ok n1 n2 kappa (ibuf0 n1 n2 kappa).
Proof.
  unfold ibuf_ok, sized, ibuf0. destruct (Req_EM_T kappa 0) as [E|E]; cbn [ib b00 b01 b10 b11 j00 j10 j11 szero s_h s_w].
  - repeat split; auto; contradiction.
  - repeat split; auto; eexists; repeat split; reflexivity.
Qed.

Lemma lsum_snoc_d {A} (f : A -> R) l a : lsum f (l ++ [a]) = lsum f l + f a.
Proof. rewrite lsum_app. simpl. ring. Qed.

Lemma points_ok nc n1 n2 kappa k f rule : (forall p, In p rule -> step_ok nc n1 n2 kappa k f p) ->
  exists s, ofold f rule (ibuf0 n1 n2 kappa) = Ok s /\ ibuf_ok n1 n2 kappa s /\ holds nc n1 n2 kappa k rule s.
Proof.
  intros H. apply (ofold_inv f (fun l s => ibuf_ok n1 n2 kappa s /\ holds nc n1 n2 kappa k l s) rule (ibuf0 n1 n2 kappa)).
  - split; [apply ibuf0_ok|]. unfold holds, ibuf0. destruct (Req_EM_T kappa 0); cbn; repeat split; intros; auto; try contradiction.
  - intros l p q s El (A & B0 & B1 & B2 & B3 & B4).
    destruct (H p ltac:(rewrite El; apply in_or_app; right; left; auto) s A) as (s' & E & A' & C0 & C1 & C2 & C3 & C4).
    exists s'. split; auto. split; auto. unfold holds. repeat split.
    1,2,3,4: intros i j Hi Hj; rewrite lsum_snoc_d; rewrite ?C0, ?C1, ?C2, ?C3, ?B0, ?B1, ?B2, ?B3 by auto; auto.
    all: destruct (B4 H0) as (D0 & D1 & D2); destruct (C4 H0) as (F0 & F1 & F2); intros i j Hi Hj; rewrite lsum_snoc_d;
      rewrite ?F0, ?F1, ?F2, ?D0, ?D1, ?D2 by auto; auto.
Qed.

(** An entry of the assembled form: [A] and [TA] belong to the row, [B] and [TB] to the column. *)
Definition entry (nc : nat) (alpha : R) (kjp : R) (A TA B TB : fm) (i j : nat) : R :=
  rsum nc (fun c => alpha * (B j c * TA i c) - A i c * TB j c + kjp * (A i c * B j c)).

Lemma entry_split nc alpha kjp A TA B TB i j : entry nc alpha kjp A TA B TB i j = alpha * pr nc B TA j i - pr nc A TB i j + kjp * pr nc A B i j.
Proof. unfold entry, pr. rewrite rsum_plus, rsum_minus, !rsum_scal. auto. Qed.

Lemma pr_sym nc A B i j : pr nc A B i j = pr nc B A j i.
Proof. unfold pr. apply rsum_ext. intros. ring. Qed.

Definition itf_entries (nc n1 n2 : nat) (alpha : R) (k : dpt -> kern) (rule : list dpt) (b : blocks) : Prop :=
  (forall i j, (i < n1)%nat -> (j < n1)%nat -> s_at (b00 b) i j = lsum (fun p => entry nc alpha (kj (k p)) (kS1 (k p)) (kT1 (k p)) (kS1 (k p)) (kT1 (k p)) i j) rule) /\
  (forall i j, (i < n1)%nat -> (j < n2)%nat -> s_at (b01 b) i j = lsum (fun p => entry nc alpha (kj (k p)) (kS1 (k p)) (kT1 (k p)) (kS2 (k p)) (kT2 (k p)) i j) rule) /\
  (forall i j, (i < n2)%nat -> (j < n1)%nat -> s_at (b10 b) i j = lsum (fun p => entry nc alpha (kj (k p)) (kS2 (k p)) (kT2 (k p)) (kS1 (k p)) (kT1 (k p)) i j) rule) /\
  (forall i j, (i < n2)%nat -> (j < n2)%nat -> s_at (b11 b) i j = lsum (fun p => entry nc alpha (kj (k p)) (kS2 (k p)) (kT2 (k p)) (kS2 (k p)) (kT2 (k p)) i j) rule).

Lemma lsum_entry nc alpha (g : dpt -> R) (A TA B TB : dpt -> fm) rule i j :
  lsum (fun p => entry nc alpha (g p) (A p) (TA p) (B p) (TB p) i j) rule =
  alpha * lsum (fun p => pr nc (B p) (TA p) j i) rule - lsum (fun p => pr nc (A p) (TB p) i j) rule + lsum (fun p => g p * pr nc (A p) (B p) i j) rule.
Proof.
  rewrite <- lsum_mul. transitivity (lsum (fun p => alpha * pr nc (B p) (TA p) j i + -1 * pr nc (A p) (TB p) i j + g p * pr nc (A p) (B p) i j) rule).
  - apply lsum_ext_in. intros p _. rewrite entry_split. ring.
  - rewrite !lsum_add, (lsum_mul (-1)). ring.
Qed.

Lemma sym_j nc (g : dpt -> R) (A : dpt -> fm) rule (J : fm) n a b : (forall i j, (i < n)%nat -> (j <= i)%nat -> J i j = lsum (fun p => g p * pr nc (A p) (A p) i j) rule) ->
  (a < n)%nat -> (b < n)%nat -> J (Nat.max a b) (Nat.min a b) = lsum (fun p => g p * pr nc (A p) (A p) a b) rule.
Proof.
  intros H Ha Hb. rewrite H by lia. apply lsum_ext_in. intros p _. destruct (Nat.le_gt_cases a b).
  - replace (Nat.max a b) with b by lia. replace (Nat.min a b) with a by lia. rewrite pr_sym. auto.
  - replace (Nat.max a b) with a by lia. replace (Nat.min a b) with b by lia. auto.
Qed.

Lemma itf_final_ok nc n1 n2 alpha kappa k rule s : (kappa = 0 -> forall p, In p rule -> kj (k p) = 0) ->
  ibuf_ok n1 n2 kappa s -> holds nc n1 n2 kappa k rule s ->
  exists b, itf_final n1 n2 alpha kappa s = Ok b /\ sized n1 n2 n1 n2 b /\ itf_entries nc n1 n2 alpha k rule b.
Proof.
  intros K0 ((H00 & H01 & H10 & H11) & HJ) (A00 & A01 & A10 & A11 & AJ). unfold itf_final.
  destruct (Req_EM_T kappa 0) as [E|E].
  - destruct (fin_diag_0_ok n1 alpha (b00 (ib s))) as (e00 & E0 & P0 & Q0 & R0); try tauto.
    destruct (fin_diag_0_ok n2 alpha (b11 (ib s))) as (e11 & E1 & P1 & Q1 & R1); try tauto.
    destruct (fin_off_0_ok n1 n2 alpha (b10 (ib s)) (b01 (ib s))) as (e10 & e01 & E2 & P2 & Q2 & P3 & Q3 & R2 & R3); try tauto.
    rewrite E0. cbn [obind]. rewrite E1. cbn [obind]. rewrite E2. cbn [obind]. eexists. split; [reflexivity|].
    assert (Z : forall A B i j, lsum (fun p => kj (k p) * pr nc (A p) (B p) i j) rule = 0).
    { intros. apply lsum_0. intros p Hp. rewrite K0 by auto. ring. }
    split; [repeat split; auto|]. unfold itf_entries. cbn [b00 b01 b10 b11]. repeat split; intros i j Hi Hj; rewrite lsum_entry, Z.
    + rewrite R0 by auto. unfold fin_val. rewrite !A00 by auto. auto.
    + rewrite R3 by auto. rewrite A10, A01 by auto. ring.
    + rewrite R2 by auto. rewrite A10, A01 by auto. ring.
    + rewrite R1 by auto. unfold fin_val. rewrite !A11 by auto. auto.
  - destruct (HJ E) as ((m00 & M00 & Mh0 & Mw0) & (m10 & M10 & Mh1 & Mw1) & (m11 & M11 & Mh2 & Mw2)).
    destruct (AJ E) as (J00 & J10 & J11). rewrite M00 in *. rewrite M10 in *. rewrite M11 in *. cbn [ojm obind oassert jat] in *.
    destruct (fin_diag_j_ok n1 alpha m00 (b00 (ib s))) as (e00 & E0 & P0 & Q0 & R0); try tauto.
    destruct (fin_diag_j_ok n2 alpha m11 (b11 (ib s))) as (e11 & E1 & P1 & Q1 & R1); try tauto.
    destruct (fin_off_j_ok n1 n2 alpha m10 (b10 (ib s)) (b01 (ib s))) as (e10 & e01 & E2 & P2 & Q2 & P3 & Q3 & R2 & R3); try tauto.
    rewrite E0. cbn [obind]. rewrite E1. cbn [obind]. rewrite E2. cbn [obind]. eexists. split; [reflexivity|].
    split; [repeat split; auto|]. unfold itf_entries. cbn [b00 b01 b10 b11]. repeat split; intros i j Hi Hj; rewrite lsum_entry.
    + rewrite R0 by auto. unfold fin_val. rewrite !A00 by auto.
      rewrite (sym_j nc (fun p => kj (k p)) (fun p => kS1 (k p)) rule (s_at m00) n1 i j J00 Hi Hj). auto.
    + rewrite R3 by auto. rewrite A10, A01, J10 by auto. f_equal. apply lsum_ext_in. intros p _. rewrite pr_sym. auto.
    + rewrite R2 by auto. rewrite A10, A01, J10 by auto. auto.
    + rewrite R1 by auto. unfold fin_val. rewrite !A11 by auto.
      rewrite (sym_j nc (fun p => kj (k p)) (fun p => kS2 (k p)) rule (s_at m11) n2 i j J11 Hi Hj). auto.
Qed.

(** ** Forms *)

(** Coefficients against a kernel *)
Definition ap (n : nat) (A : fm) (u : fv) (c : nat) : R := rsum n (fun i => A i c * u i).

Lemma rsum_ap nc n1 n2 (A B : fm) (v u : fv) :
  rsum n1 (fun i => rsum n2 (fun j => v i * rsum nc (fun c => A i c * B j c) * u j)) = rsum nc (fun c => ap n1 A v c * ap n2 B u c).
Proof.
  transitivity (rsum n1 (fun i => rsum nc (fun c => v i * A i c * ap n2 B u c))).
  - apply rsum_ext. intros i _. transitivity (rsum n2 (fun j => rsum nc (fun c => v i * A i c * (B j c * u j)))).
    + apply rsum_ext. intros j _. rewrite <- rsum_scal, <- rsum_scal_r. apply rsum_ext. intros. ring.
    + rewrite rsum_swap. apply rsum_ext. intros c _. unfold ap. rewrite rsum_scal. auto.
  - rewrite rsum_swap. apply rsum_ext. intros c _. unfold ap at 2. rewrite <- rsum_scal_r. apply rsum_ext. intros. ring.
Qed.

Lemma paired_entry nc alpha n1 n2 (m : smat) (g : dpt -> R) (A TA B TB : dpt -> fm) rule v u :
  (forall i j, (i < n1)%nat -> (j < n2)%nat -> s_at m i j = lsum (fun p => entry nc alpha (g p) (A p) (TA p) (B p) (TB p) i j) rule) ->
  paired n1 n2 m v u = lsum (fun p => rsum nc (fun c => alpha * (ap n2 (B p) u c * ap n1 (TA p) v c) - ap n1 (A p) v c * ap n2 (TB p) u c
    + g p * (ap n1 (A p) v c * ap n2 (B p) u c))) rule.
Proof.
  intros H. unfold paired.
  transitivity (lsum (fun p => rsum n1 (fun i => rsum n2 (fun j => v i * entry nc alpha (g p) (A p) (TA p) (B p) (TB p) i j * u j))) rule).
  - rewrite lsum_rsum. apply rsum_ext. intros i Hi. rewrite lsum_rsum. apply rsum_ext. intros j Hj. rewrite H by auto.
    rewrite (lsum_ext_in (fun p => v i * entry nc alpha (g p) (A p) (TA p) (B p) (TB p) i j * u j)
      (fun p => u j * (v i * entry nc alpha (g p) (A p) (TA p) (B p) (TB p) i j))) by (intros; ring). rewrite !lsum_mul. ring.
  - apply lsum_ext_in. intros p _.
    rewrite rsum_plus, rsum_minus, !rsum_scal.
    rewrite <- !rsum_ap.
    transitivity (rsum n1 (fun i => rsum n2 (fun j => alpha * (v i * rsum nc (fun c => TA p i c * B p j c) * u j)
      - v i * rsum nc (fun c => A p i c * TB p j c) * u j + g p * (v i * rsum nc (fun c => A p i c * B p j c) * u j)))).
    + apply rsum_ext. intros i _. apply rsum_ext. intros j _. rewrite entry_split. rewrite (pr_sym nc (B p) (TA p)). unfold pr. ring.
    + rewrite (rsum_ext n1 _ (fun i => alpha * rsum n2 (fun j => v i * rsum nc (fun c => TA p i c * B p j c) * u j)
        - rsum n2 (fun j => v i * rsum nc (fun c => A p i c * TB p j c) * u j)
        + g p * rsum n2 (fun j => v i * rsum nc (fun c => A p i c * B p j c) * u j))).
      * rewrite rsum_plus, rsum_minus, !rsum_scal. rewrite (rsum_ap nc n1 n2 (TA p) (B p)).
        rewrite (rsum_ext nc (fun c => ap n1 (TA p) v c * ap n2 (B p) u c) (fun c => ap n2 (B p) u c * ap n1 (TA p) v c)) by (intros; ring).
        rewrite (rsum_ap nc n2 n1 (B p) (TA p)). auto.
      * intros i _. rewrite rsum_plus, rsum_minus, !rsum_scal. auto.
Qed.

Lemma form_entries nc n1 n2 alpha k rule b u1 u2 v1 v2 : itf_entries nc n1 n2 alpha k rule b ->
  form n1 n2 n1 n2 b u1 u2 v1 v2 = lsum (fun p => rsum nc (fun c =>
    let J x1 x2 := ap n1 (kS1 (k p)) x1 c + ap n2 (kS2 (k p)) x2 c in
    let M x1 x2 := ap n1 (kT1 (k p)) x1 c + ap n2 (kT2 (k p)) x2 c in
    alpha * (J u1 u2 * M v1 v2) - J v1 v2 * M u1 u2 + kj (k p) * (J v1 v2 * J u1 u2))) rule.
Proof.
  intros (H00 & H01 & H10 & H11). unfold form.
  rewrite (paired_entry _ _ _ _ _ _ _ _ _ _ _ v1 u1 H00), (paired_entry _ _ _ _ _ _ _ _ _ _ _ v1 u2 H01),
    (paired_entry _ _ _ _ _ _ _ _ _ _ _ v2 u1 H10), (paired_entry _ _ _ _ _ _ _ _ _ _ _ v2 u2 H11).
  rewrite <- !lsum_add. apply lsum_ext_in. intros p _. rewrite <- !rsum_plus. apply rsum_ext. intros c _. cbv zeta. ring.
Qed.
