(** Proofs: line search of the CG optimizer. *)
From Coq Require Import Reals List Bool ZArith Lia Lra Arith.
From Verif Require Import Outcome ListLemmas LaBase LinalgModel LinalgSpec LinalgProofs LinalgGsProofs.
Import ListNotations.
Local Open Scope R_scope.

Lemma rltb_true x y : rltb x y = true <-> x < y.
Proof. unfold rltb. destruct (Rlt_dec x y); split; auto; congruence. Qed.
Lemma rltb_false x y : rltb x y = false <-> y <= x.
Proof. unfold rltb. destruct (Rlt_dec x y); split; intros; try lra; try congruence; auto. Qed.

Lemma brent_shrink_ok fuel g phi b0 s : brent_shrink fuel g phi b0 = Some s ->
  phi s <= phi 0 /\ exists k, s = b0 / g ^ k.
Proof.
  revert b0. induction fuel; intros b0; cbn [brent_shrink]; destruct (rltb (phi 0) (phi b0)) eqn:B; try discriminate.
  - intros [= <-]. apply rltb_false in B. split; auto. exists 0%nat. simpl. field.
  - intros E. apply IHfuel in E. destruct E as (E & k & ->). split; auto. exists (S k). simpl. unfold Rdiv.
    rewrite Rmult_assoc. f_equal. rewrite Rinv_mult. auto.
  - intros [= <-]. apply rltb_false in B. split; auto. exists 0%nat. simpl. field.
Qed.

Section Bracket.
  Variables (g : R) (phi : R -> R) (s : R) (nb : nat).
  Hypothesis Hs : phi s <= phi 0.
  Hypothesis Hnb : (1 <= nb)%nat.

  Definition pt (k : nat) : R := match k with O => 0 | S k => s * g ^ k end.

  Lemma zread_vnth (l : vec) z : (0 <= z < Z.of_nat (length l))%Z -> zread l z = Ok (vnth l (Z.to_nat z)).
  Proof. intros H. unfold zread. destruct (Z.ltb_spec z 0); [lia|]. apply oread_vnth. lia. Qed.

  Lemma bracket_spec todo j step jb : (todo + j = nb + 1)%nat -> (1 <= j)%nat -> length step = (nb + 1)%nat -> length jb = nb ->
    (forall k, (k < j)%nat -> vnth step k = pt k /\ vnth jb k = phi (pt k)) ->
    (exists j', (j <= j' < nb)%nat /\ (2 <= j')%nat /\ phi (pt (j' - 1)) < phi (pt j') /\
       (forall k, (j <= k < j')%nat -> phi (pt k) <= phi (pt (k - 1))) /\
       brent_bracket todo g phi j (pt j) step jb =
         Ok (Some (pt (j' - 2), pt (j' - 1), pt j', phi (pt (j' - 2)), phi (pt (j' - 1)), phi (pt j')))) \/
    ((forall k, (j <= k < nb)%nat -> phi (pt k) <= phi (pt (k - 1))) /\ (todo <> 0)%nat /\ brent_bracket todo g phi j (pt j) step jb = UB) \/
    todo = 0%nat.
  Proof.
    revert j step jb. induction todo; intros j step jb Ht Hj Ls Lj H; [right; right; auto|].
    cbn [brent_bracket]. rewrite owrite_vec by lia. cbn [obind].
    destruct (Nat.eq_dec j nb) as [Ej|Nj].
    { right. left. split; [intros; lia|]. split; [lia|]. unfold owrite. destruct (Nat.ltb_spec j (length jb)); [lia|]. reflexivity. }
    rewrite owrite_vec by lia. cbn [obind]. rewrite oread_vnth by (rewrite upd_length; lia). cbn [obind].
    rewrite zread_vnth by (rewrite upd_length; lia). cbn [obind].
    rewrite vnth_upd_eq by lia. replace (Z.to_nat (Z.of_nat j - 1)) with (j - 1)%nat by lia. rewrite vnth_upd_ne by lia.
    rewrite (proj2 (H (j - 1)%nat ltac:(lia))).
    destruct (rltb (phi (pt (j - 1))) (phi (pt j))) eqn:B.
    - apply rltb_true in B. assert (j <> 1)%nat.
      { intros ->. simpl in B. rewrite Rmult_1_r in B. lra. }
      left. exists j. split; [lia|]. split; [lia|]. split; auto. split; [intros; lia|].
      repeat (first [rewrite zread_vnth by (rewrite upd_length; lia)|rewrite oread_vnth by (rewrite upd_length; lia)]; cbn [obind]).
      replace (Z.to_nat (Z.of_nat j - 1)) with (j - 1)%nat by lia. replace (Z.to_nat (Z.of_nat j - 2)) with (j - 2)%nat by lia.
      rewrite (vnth_upd_ne step j (j - 2)), (vnth_upd_ne step j (j - 1)), (vnth_upd_ne jb j (j - 2)), vnth_upd_eq by lia.
      destruct (H (j - 1)%nat) as (E1 & E2); [lia|]. destruct (H (j - 2)%nat) as (E3 & E4); [lia|]. congruence.
    - apply rltb_false in B.
      assert (Ep : pt j * g = pt (j + 1)).
      { rewrite Nat.add_1_r. destruct j; [lia|]. simpl. ring. }
      rewrite Ep. replace (j + 1)%nat with (S j) in * by lia.
      destruct (IHtodo (S j) (upd step j (pt j)) (upd jb j (phi (pt j)))) as [(j' & H1 & H2 & H3 & H4 & H5)|[(H1 & H2 & H3)|H1]];
        try lia; try (rewrite upd_length; lia).
      + intros k Hk. destruct (Nat.eq_dec k j) as [->|N].
        * rewrite !vnth_upd_eq by lia. auto.
        * rewrite !vnth_upd_ne by lia. apply H. lia.
      + left. exists j'. split; [lia|]. split; auto. split; auto. split; auto.
        intros k Hk. destruct (Nat.eq_dec k j) as [->|N]; auto. apply H4. lia.
      + right. left. split; [|split; [lia|auto]]. intros k Hk. destruct (Nat.eq_dec k j) as [->|N]; auto. apply H1. lia.
  Qed.
End Bracket.

(** ** Refinement *)

Definition brk_ok (phi : R -> R) (bound : R) (t : R * R * R * R * R * R) : Prop :=
  let '(a, b, c, fa, fb, fc) := t in
  fa = phi a /\ fb = phi b /\ fc = phi c /\ fb <= fa /\ fb <= fc /\ fb <= bound.

Lemma rmin4 w x y z : let m := rmin_list [w; x; y; z] in
  m <= w /\ m <= x /\ m <= y /\ m <= z /\ (m = w \/ m = x \/ m = y \/ m = z).
Proof.
  assert (G : forall a b, let r := if rltb a b then a else b in r <= a /\ r <= b /\ (r = a \/ r = b)).
  { intros a b. cbv zeta. destruct (rltb a b) eqn:E; [apply rltb_true in E|apply rltb_false in E]; repeat split; try lra; auto. }
  cbn [rmin_list fold_left]. pose proof (G x w) as G1. cbv zeta in *. set (m1 := if rltb x w then x else w) in *.
  pose proof (G y m1) as G2. set (m2 := if rltb y m1 then y else m1) in *.
  pose proof (G z m2) as G3. set (m3 := if rltb z m2 then z else m2) in *.
  destruct G1 as (? & ? & [G1|G1]), G2 as (? & ? & [G2|G2]), G3 as (? & ? & [G3|G3]); repeat split; try lra;
  rewrite G3, ?G2, ?G1; tauto.
Qed.

Lemma brent_step_ok phi bound bn t : brk_ok phi bound t ->
  (exists t', brent_step phi bn t = Ok t' /\ brk_ok phi bound t') \/ brent_step phi bn t = Abort.
Proof.
  destruct t as (((((a & b) & c) & fa) & fb) & fc). intros (-> & -> & -> & H1 & H2 & H3). cbn [brent_step].
  destruct (rltb b bn) eqn:B.
  - destruct (rmin4 (phi a) (phi b) (phi bn) (phi c)) as (M1 & M2 & M3 & M4 & M5).
    set (m := rmin_list _) in *. clearbody m. cbn [rfind Nat.add].
    destruct (req (phi a) m) eqn:E1; [right; reflexivity|]. apply req_false in E1.
    destruct (req (phi b) m) eqn:E2.
    + apply req_spec in E2. left. cbn. eexists; split; [reflexivity|]. cbn. repeat split; auto; lra.
    + apply req_false in E2. destruct (req (phi bn) m) eqn:E3.
      * apply req_spec in E3. left. cbn. eexists; split; [reflexivity|]. cbn. repeat split; auto; lra.
      * apply req_false in E3. exfalso. destruct M5 as [M5|[M5|[M5|M5]]]; try congruence. apply E2. lra.
  - destruct (rmin4 (phi a) (phi bn) (phi b) (phi c)) as (M1 & M2 & M3 & M4 & M5).
    set (m := rmin_list _) in *. clearbody m. cbn [rfind Nat.add].
    destruct (req (phi a) m) eqn:E1; [right; reflexivity|]. apply req_false in E1.
    destruct (req (phi bn) m) eqn:E2.
    + apply req_spec in E2. left. cbn. eexists; split; [reflexivity|]. cbn. repeat split; auto; lra.
    + apply req_false in E2. destruct (req (phi b) m) eqn:E3.
      * apply req_spec in E3. left. cbn. eexists; split; [reflexivity|]. cbn. repeat split; auto; lra.
      * apply req_false in E3. exfalso. destruct M5 as [M5|[M5|[M5|M5]]]; try congruence. apply E3. lra.
Qed.

Lemma brent_refine_ok todo phi stop propose bound t : brk_ok phi bound t ->
  (exists t', brent_refine todo phi stop propose t = Ok t' /\ brk_ok phi bound t') \/ brent_refine todo phi stop propose t = Abort.
Proof.
  revert t. induction todo; intros t H; cbn [brent_refine]; [left; eauto|].
  destruct (stop t); [left; eauto|].
  destruct (brent_step_ok phi bound (propose t) t H) as [(t' & E & H')|E]; rewrite E; cbn [obind]; [|right; auto]. apply IHtodo. auto.
Qed.

(** ** The search *)

Lemma brent_cases fuel nb np g phi stop propose b0 s : (1 <= nb)%nat -> brent_shrink fuel g phi b0 = Some s ->
  let r := brent fuel nb np g phi stop propose b0 in
  ((exists j, (2 <= j < nb)%nat /\ phi (trial g s (j - 1)) < phi (trial g s j)) /\
     ((exists b, r = Some (Ok b) /\ phi b <= phi 0) \/ r = Some Abort)) \/
  ((forall j, (1 <= j < nb)%nat -> phi (trial g s j) <= phi (trial g s (j - 1))) /\ r = Some UB).
Proof.
  intros Hnb Es r. unfold r, brent. rewrite Es. pose proof (proj1 (brent_shrink_ok _ _ _ _ _ Es)) as Hs.
  destruct nb as [|nb']; [lia|]. set (nb := S nb') in *. rewrite owrite_vec by (rewrite repeat_length; lia). cbn [obind].
  assert (E1 : s = pt g s 1) by (simpl; ring).
  destruct (bracket_spec g phi s nb Hs ltac:(lia) nb 1 (repeat 0 (nb + 1)) (upd (repeat 0 nb) 0 (phi 0)))
    as [(j & H1 & H2 & H3 & H4 & H5)|[(H1 & H2 & H3)|H1]]; try lia.
  - rewrite repeat_length. lia.
  - rewrite upd_length, repeat_length. lia.
  - intros k Hk. assert (k = 0%nat) by lia. subst k. split; [reflexivity|]. apply vnth_upd_eq. rewrite repeat_length. lia.
  - left. change (trial g s) with (pt g s). split; [exists j; split; [lia|auto]|].
    rewrite <- E1 in H5. rewrite H5. cbn [obind].
    destruct (negb _ && _ && _)%bool; cbn [oassert]; [|right; auto].
    assert (Dn : forall k, (k < j)%nat -> phi (pt g s k) <= phi 0).
    { induction k; intros Hk; [simpl; lra|]. specialize (H4 (S k) ltac:(lia)). replace (S k - 1)%nat with k in H4 by lia.
      specialize (IHk ltac:(lia)). lra. }
    destruct (brent_refine_ok np phi stop propose (phi 0) (pt g s (j - 2), pt g s (j - 1), pt g s j, phi (pt g s (j - 2)), phi (pt g s (j - 1)), phi (pt g s j)))
      as [(t & E & Ht)|E].
    + cbn. specialize (H4 (j - 1)%nat ltac:(lia)). replace (j - 1 - 1)%nat with (j - 2)%nat in H4 by lia.
      repeat split; auto; try lra. apply Dn. lia.
    + rewrite E. cbn [obind]. destruct t as (((((a & b) & c) & fa) & fb) & fc). cbn in Ht. left. exists b. split; auto.
      destruct Ht as (_ & Hb & _ & _ & _ & ?). rewrite <- Hb. auto.
    + rewrite E. right. auto.
  - right. change (trial g s) with (pt g s). split; auto. rewrite <- E1 in H3. rewrite H3. auto.
Qed.

Lemma brent_descends fuel nb np g phi stop propose b0 b : (1 <= nb)%nat ->
  brent fuel nb np g phi stop propose b0 = Some (Ok b) -> phi b <= phi 0.
Proof.
  intros Hnb E. destruct (brent_shrink fuel g phi b0) as [s|] eqn:Es.
  - destruct (brent_cases fuel nb np g phi stop propose b0 s Hnb Es) as [(_ & [(b' & E' & H)|E'])|(_ & E')]; cbv zeta in *; congruence.
  - unfold brent in E. rewrite Es in E. discriminate.
Qed.

Lemma brent_safe_iff fuel nb np g phi stop propose b0 s : (1 <= nb)%nat -> brent_shrink fuel g phi b0 = Some s ->
  brent fuel nb np g phi stop propose b0 <> Some UB <->
  exists j, (2 <= j < nb)%nat /\ phi (trial g s (j - 1)) < phi (trial g s j).
Proof.
  intros Hnb Es. destruct (brent_cases fuel nb np g phi stop propose b0 s Hnb Es) as [(H & [(b & E & _)|E])|(H & E)]; cbv zeta in *; rewrite E.
  - split; auto. discriminate.
  - split; auto. discriminate.
  - split; [congruence|]. intros (j & Hj & L) _. specialize (H j ltac:(lia)). lra.
Qed.

(** An objective that never grows along the direction overruns the record of trial values. *)
Lemma brent_overrun nb np g phi stop propose b0 : (1 <= nb)%nat -> 1 < g -> 0 < b0 ->
  (forall x y, 0 <= x <= y -> phi y <= phi x) -> brent 0 nb np g phi stop propose b0 = Some UB.
Proof.
  intros Hnb Hg Hb H.
  assert (Es : brent_shrink 0 g phi b0 = Some b0).
  { cbn. replace (rltb (phi 0) (phi b0)) with false; auto. symmetry. apply rltb_false. apply H. lra. }
  destruct (brent_cases 0 nb np g phi stop propose b0 b0 Hnb Es) as [((j & Hj & L) & _)|(_ & E)]; cbv zeta in *; auto.
  exfalso. assert (phi (trial g b0 j) <= phi (trial g b0 (j - 1))); [|lra].
  apply H. destruct j as [|[|j]]; [lia|lia|]. replace (S (S j) - 1)%nat with (S j) by lia. cbn [trial].
  assert (0 < g ^ j) by (apply pow_lt; lra). simpl. split; [nra|]. assert (g ^ j <= g * g ^ j) by nra. nra.
Qed.
