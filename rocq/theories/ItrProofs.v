(** Proofs about the training of the quadrature rules of ports: one rule. *)
From Coq Require Import Reals List Bool Lia Arith ZArith Lra.
From Verif Require Import Outcome ListLemmas TagsModel TagsSpec SnapshotModel SnapshotSpec HdfModel LaBase BlockVec LinalgModel LinalgSpec LinalgProofs LinalgSubProofs ItfModel ItfSpec EqpModel EqpSpec.
From Verif Require Import RomProofs MbFlowProofs EqpProofs EqpSetupProofs EqpEvalProofs EqpAccProofs ItrModel ItrSpec.
Import ListNotations.
Local Open Scope nat_scope.

(** ** Snapshot matrices *)

Lemma flat_rows {A} (f : nat -> A -> R) (l : list A) d : forall n a k c, k < n -> c < List.length l ->
  nth (k * List.length l + c) (flat_map (fun k => map (f k) l) (seq a n)) 0%R = f (a + k) (nth c l d).
Proof.
  induction n; intros a k c Hk Hc; [lia|]. cbn [seq flat_map]. destruct k.
  - rewrite app_nth1 by (rewrite map_length; lia). cbn [Nat.mul]. rewrite Nat.add_0_r, (nth_indep _ 0%R (f a d)) by (rewrite map_length; lia). apply (map_nth (f a)).
  - rewrite app_nth2 by (rewrite map_length; lia). rewrite map_length. replace (S k * List.length l + c - List.length l) with (k * List.length l + c) by lia.
    rewrite IHn by lia. f_equal. lia.
Qed.

Lemma flat_rows_len {A} (f : nat -> A -> R) (l : list A) : forall n a, List.length (flat_map (fun k => map (f k) l) (seq a n)) = n * List.length l.
Proof. induction n; intros a; auto. cbn [seq flat_map]. rewrite app_length, map_length, IHn. lia. Qed.

Lemma snap_matrix_ok cols r : cols <> [] -> (forall b, In b cols -> List.length b = r) ->
  rm_wf (snap_matrix cols) /\ rm_r (snap_matrix cols) = r /\ rm_c (snap_matrix cols) = List.length cols /\
  forall k c, k < r -> c < List.length cols -> rget (snap_matrix cols) k c = nth k (nth c cols []) 0%R.
Proof.
  intros Ne H. destruct cols as [|b cols]; [congruence|]. assert (Hb : List.length b = r) by (apply H; left; auto). unfold rm_wf, snap_matrix, rget, vnth. cbn [rm_r rm_c rm_buf]. rewrite Hb.
  split; [apply flat_rows_len|]. split; [auto|]. split; [auto|]. intros k c Hk Hc. rewrite (flat_rows (fun k b => nth k b 0%R) (b :: cols) []) by auto. f_equal.
Qed.

(** ** Sums *)

Lemma at_faces_sum f st : at_faces f st = rsum (List.length st) (fun e => match nth e st None with Some t => f t | None => 0%R end).
Proof.
  unfold at_faces. induction st as [|s st IH]; auto. cbn [List.length]. rewrite rsum_S_l. cbn [nth].
  change (lsum (fun so => match so with Some t => f t | None => 0%R end) (s :: st)) with ((match s with Some t => f t | None => 0%R end) + lsum (fun so => match so with Some t => f t | None => 0%R end) st)%R.
  rewrite IH. reflexivity.
Qed.

Lemma iform_at_ext n1 n2 t m w v1 v2 v1' v2' first phi : isite_ok n1 n2 t -> (forall k, k < n1 -> v1 k = v1' k) -> (forall k, k < n2 -> v2 k = v2' k) ->
  iform_at t m w v1 v2 first phi = iform_at t m w v1' v2' first phi.
Proof. intros (D1 & D2 & _) H1 H2. unfold iform_at. rewrite (on_dofs_ext v1 v1'), (on_dofs_ext v2 v2'); auto. Qed.

Lemma kept_error n nqe w (f : nat -> nat -> R) tol full : List.length w = n * nqe -> (forall i, i < List.length w -> (0 <= vnth w i)%R) ->
  (Rabs (rsum n (fun e => rsum nqe (fun m => (f e m * vnth w (e * nqe + m))%R)) - full) <= tol * Rabs full)%R ->
  (Rabs (rsum n (fun e => rsum nqe (fun m => if kept w (e * nqe + m) then (vnth w (e * nqe + m) * f e m)%R else 0%R)) - full)
     <= tol * Rabs full + / 10 ^ 12 * rsum n (fun e => rsum nqe (fun m => Rabs (f e m))))%R.
Proof.
  intros Lw Hp H.
  set (kp := rsum n (fun e => rsum nqe (fun m => if kept w (e * nqe + m) then (vnth w (e * nqe + m) * f e m)%R else 0%R))).
  set (all := rsum n (fun e => rsum nqe (fun m => (f e m * vnth w (e * nqe + m))%R))) in *.
  set (bnd := rsum n (fun e => rsum nqe (fun m => Rabs (f e m)))).
  assert (D : (Rabs (kp - all) <= / 10 ^ 12 * bnd)%R).
  { unfold kp, all, bnd. rewrite <- rsum_minus. eapply Rle_trans; [apply rsum_abs_le|]. rewrite <- rsum_scal. apply rsum_le. intros e He.
    rewrite <- rsum_minus, <- rsum_scal. eapply Rle_trans; [apply rsum_abs_le|]. apply rsum_le. intros m Hm.
    assert (P0 : (0 < / 10 ^ 12)%R) by (apply Rinv_0_lt_compat, pow_lt; lra). pose proof (Rabs_pos (f e m)) as Pf.
    destruct (kept w (e * nqe + m)) eqn:K.
    - replace (_ - _)%R with 0%R by ring. rewrite Rabs_R0. nra.
    - assert (Kw : (vnth w (e * nqe + m) <= / 10 ^ 12)%R).
      { apply Rnot_lt_le. intros Q. apply above_spec in Q. unfold kept in K. congruence. }
      specialize (Hp (e * nqe + m) ltac:(rewrite Lw; apply lin_lt; auto)).
      unfold Rminus. rewrite Rplus_0_l, Rabs_Ropp, Rabs_mult, (Rabs_right (vnth w (e * nqe + m))) by lra. nra. }
  replace (kp - full)%R with ((kp - all) + (all - full))%R by ring. eapply Rle_trans; [apply Rabs_triang|]. lra.
Qed.

(** ** The weights of the full order model are admissible *)

Lemma rep_len {A} (w : list A) n : List.length (concat (repeat w n)) = n * List.length w.
Proof. induction n; auto. cbn [repeat concat]. rewrite app_length, IHn. lia. Qed.
Lemma rep_nth {A} (w : list A) d : forall n e m, e < n -> m < List.length w -> nth (e * List.length w + m) (concat (repeat w n)) d = nth m w d.
Proof.
  induction n; intros e m He Hm; [lia|]. cbn [repeat concat]. destruct e; [rewrite app_nth1 by (cbn; auto); reflexivity|].
  rewrite app_nth2 by lia. replace (S e * List.length w + m - List.length w) with (e * List.length w + m) by lia. apply IHn; auto. lia.
Qed.
Lemma rep_concat {A} (w : list A) split : concat (map (fun d => concat (repeat w d)) split) = concat (repeat w (list_sum split)).
Proof. induction split; auto. cbn [map concat]. change (list_sum (a :: split)) with (a + list_sum split). rewrite repeat_app, concat_app, IHsplit. reflexivity. Qed.

Lemma parts_len nqe split (parts : list vec) : List.length parts = List.length split -> (forall r, r < List.length split -> List.length (nth r parts []) = nth r split 0 * nqe) ->
  List.length (concat parts) = list_sum split * nqe.
Proof.
  intros LP HP. rewrite concat_len. assert (Em : map (@List.length R) parts = map (fun d => d * nqe) split).
  { apply (nth_ext _ _ 0 0); [rewrite !map_length; auto|]. intros k Hk. rewrite map_length in Hk. rewrite (map_nth (@List.length R) parts []), HP by (rewrite <- LP; exact Hk).
    exact (eq_sym (map_nth (fun d => d * nqe) split 0 k)). }
  rewrite Em. clear. induction split; auto. cbn [map]. change (list_sum (a * nqe :: map (fun d => d * nqe) split)) with (a * nqe + list_sum (map (fun d => d * nqe) split)).
  change (list_sum (a :: split)) with (a + list_sum split). rewrite IHsplit. lia.
Qed.

Section Rule.
  Context (T : tnet) (tol : R) (w : list R) (st : list (option isite)) (B1 B2 : dmat) (o1 o2 n1 n2 : nat) (snap1 snap2 : rmat) (pairs : list (nat * nat)) (split : list nat) (jg jw : nat -> vec).
  Let nqe := List.length w.
  Let NB := dm_w B1 + dm_w B2.
  Context (W1 : dm_wf B1) (W2 : dm_wf B2) (H1 : o1 + n1 <= dm_h B1) (H2 : o2 + n2 <= dm_h B2) (S1 : rm_wf snap1) (S2 : rm_wf snap2) (R1 : n1 <= rm_r snap1) (R2 : n2 <= rm_r snap2).
  Context (Hp : forall p, In p pairs -> fst p < rm_c snap1 /\ snd p < rm_c snap2) (Hq : w <> []) (Hw : forall x, In x w -> (0 <= x)%R) (Sp : list_sum split = List.length st).
  Context (Hs : forall so, In so st -> exists t, so = Some t /\ isite_ok n1 n2 t /\ iweight_linear t).
  Context (Jg : forall r, r < List.length split -> List.length (jg r) = nth r split 0 * nqe * (NB * List.length pairs)).
  Context (Jw : forall r, r < List.length split -> List.length (jw r) = nth r split 0 * nqe).
  Context (Ht : (0 <= tol)%R).

  Lemma face_at e : e < List.length st -> exists t, nth e st None = Some t /\ pick_isite st e = t /\ isite_ok n1 n2 t /\ iweight_linear t.
  Proof.
    intros He. destruct (Hs (nth e st None)) as (t & E & O & L); [apply nth_In; auto|]. exists t. split; [auto|]. split; [|auto]. unfold pick_isite. rewrite E. reflexivity.
  Qed.

  Lemma full_admissible Gs rhs : setup_system_itf nqe w st B1 B2 o1 o2 n1 n2 snap1 snap2 pairs split jg jw = Ok (Gs, rhs) ->
    admissible Gs (fst (eqp_bounds tol rhs)) (snd (eqp_bounds tol rhs)) (map (fun d => concat (repeat w d)) split).
  Proof.
    intros Esys. assert (Q0 : 0 < nqe) by (unfold nqe; destruct w; cbn; [congruence|lia]).
    destruct (setup_system_itf_ok nqe w st B1 B2 o1 o2 n1 n2 snap1 snap2 pairs split jg jw) as (Gs' & rhs' & E & LG & LR & Sh & Ge & Re); auto.
    { intros so Hi. destruct (Hs so Hi) as (t & -> & O & _). exists t. auto. }
    rewrite Esys in E. injection E as <- <-. fold NB in LR, Sh, Ge, Re. unfold eqp_bounds. cbn [fst snd].
    unfold admissible. rewrite !map_length, LG.
      assert (Lr : forall r, r < List.length split -> List.length (nth r (map (fun d => concat (repeat w d)) split) []) = nth r split 0 * nqe).
      { intros r Hr. rewrite (nth_indep _ [] (concat (repeat w 0))) by (rewrite map_length; auto). rewrite (map_nth (fun d => concat (repeat w d))). apply rep_len. }
      split; [auto|]. split; [intros r Hr; rewrite Lr by auto; symmetry; apply Sh; auto|]. split.
      { intros part x Hpart Hx. apply in_map_iff in Hpart. destruct Hpart as (d & <- & _). apply Hw. apply in_concat in Hx. destruct Hx as (y & Hy & Hx). apply repeat_spec in Hy. subst y. exact Hx. }
      intros c Hc. assert (Hc' : c < List.length pairs * NB) by lia. destruct (lin_onto c _ _ Hc') as (Q1 & Q2 & Q3). set (i := c / NB) in *. set (j := c mod NB) in *. clearbody i j. subst c.
      assert (Et : vnth (transpose_mult (List.length rhs) (combine Gs (map (fun d => concat (repeat w d)) split))) (i * NB + j) = vnth rhs (i * NB + j)).
      { rewrite LR. rewrite (transpose_parts nqe NB (List.length pairs) split Gs _ (ientry B1 B2 o1 o2 snap1 snap2 pairs (pick_isite st))); auto; [|rewrite map_length; auto].
        rewrite Re, Sp by auto. apply rsum_ext. intros e He. apply rsum_ext. intros m Hm. f_equal. unfold vnth. rewrite rep_concat, Sp. apply rep_nth; auto. }
      match goal with |- (_ <= ?t <= _)%R => replace t with (vnth rhs (i * NB + j)) by (symmetry; exact Et) end. clear Et. unfold vnth. rewrite (nth_indep _ 0%R (0 - tol * Rabs 0)%R) by (rewrite map_length; lia). rewrite (map_nth (fun r => (r - tol * Rabs r)%R)).
      rewrite (nth_indep (map _ rhs) 0%R (0 + tol * Rabs 0)%R) by (rewrite map_length; lia). rewrite (map_nth (fun r => (r + tol * Rabs r)%R)).
      set (y := nth (i * NB + j) rhs 0%R). pose proof (Rmult_le_pos _ _ Ht (Rabs_pos y)). lra.
  Qed.

  Lemma rule_ok : exists Gs rhs, setup_system_itf nqe w st B1 B2 o1 o2 n1 n2 snap1 snap2 pairs split jg jw = Ok (Gs, rhs) /\
    let (lb, ub) := eqp_bounds tol rhs in
    forall parts, ((exists parts0, admissible Gs lb ub parts0) -> admissible Gs lb ub parts) ->
      (forall part x, In part parts -> In x part -> (0 <= x)%R) /\
      forall junk, List.length junk = list_sum (map (@List.length R) parts) ->
      exists l, solution_samples nqe parts None junk = Ok l /\ of_faces w st l /\
        forall i first j, i < List.length pairs -> j < (if first : bool then dm_w B1 else dm_w B2) ->
          stands_for tol w st l (fun k => rget snap1 k (fst (nth i pairs (0, 0)))) (fun k => rget snap2 k (snd (nth i pairs (0, 0)))) first (if first then mode B1 o1 j else mode B2 o2 j).
  Proof.
    assert (Q0 : 0 < nqe) by (unfold nqe; destruct w; cbn; [congruence|lia]).
    destruct (setup_system_itf_ok nqe w st B1 B2 o1 o2 n1 n2 snap1 snap2 pairs split jg jw) as (Gs & rhs & E & LG & LR & Sh & Ge & Re); auto.
    { intros so Hi. destruct (Hs so Hi) as (t & -> & O & _). exists t. auto. }
    fold NB in LR, Sh, Ge, Re. exists Gs, rhs. split; [exact E|]. unfold eqp_bounds.
    assert (A0 : exists parts0, admissible Gs (map (fun r => (r - tol * Rabs r)%R) rhs) (map (fun r => (r + tol * Rabs r)%R) rhs) parts0).
    { exists (map (fun d => concat (repeat w d)) split). exact (full_admissible Gs rhs E). }
    intros parts Hpt. specialize (Hpt A0). destruct Hpt as (P1 & P2 & P3 & P4). split; [exact P3|]. rewrite LG in P1, P2. rewrite !map_length in P4.
    assert (P2' : forall r, r < List.length split -> List.length (nth r parts []) = nth r split 0 * nqe) by (intros r Hr; rewrite P2 by auto; apply Sh; auto).
    pose proof (parts_len nqe split parts P1 P2') as Lc. rewrite Sp in Lc.
    assert (Pn : forall k, k < List.length (concat parts) -> (0 <= vnth (concat parts) k)%R).
    { intros k Hk. pose proof (nth_In (concat parts) 0%R Hk) as I. apply in_concat in I. destruct I as (pt & I1 & I2). exact (P3 pt _ I1 I2). }
    intros junk Lj. rewrite <- concat_len in Lj. rewrite (samples_domain nqe parts junk (List.length st)) by auto. rewrite samples_eq by (auto; rewrite seq_length; auto).
    eexists. split; [reflexivity|]. set (W := concat parts) in *. split.
    { intros s Hi. apply in_map_iff in Hi. destruct Hi as (i & <- & Hi). pose proof Hi as Hk. apply (kept_range nqe (seq 0 (List.length st)) W) in Hi; [|rewrite seq_length; auto]. rewrite seq_length in Hi. destruct Hi as (I1 & I2 & I3).
      unfold rsmp. cbn [si_el si_qp si_qw]. rewrite seq_nth by auto. cbn [Nat.add]. split; [lia|]. split; [fold nqe; lia|]. apply filter_In in Hk. destruct Hk as (_ & Hk). unfold kept in Hk. apply above_spec in Hk.
      assert (P0 : (0 < / 10 ^ 12)%R) by (apply Rinv_0_lt_compat, pow_lt; lra). lra. }
    intros i first j Hi Hj. set (v1 := fun k => rget snap1 k (fst (nth i pairs (0, 0)))). set (v2 := fun k => rget snap2 k (snd (nth i pairs (0, 0)))). set (phi := if first then mode B1 o1 j else mode B2 o2 j).
    set (jj := if first then j else dm_w B1 + j). assert (Hjj : jj < NB) by (unfold jj, NB; destruct first; lia).
    set (f := fun e m => iform_at (pick_isite st e) m 1 v1 v2 first phi).
    assert (Ef : forall e m, ientry B1 B2 o1 o2 snap1 snap2 pairs (pick_isite st) e m i jj = f e m).
    { intros e m. unfold ientry, f, jj, phi, v1, v2. destruct first.
      - destruct (Nat.ltb_spec j (dm_w B1)); [reflexivity|lia].
      - destruct (Nat.ltb_spec (dm_w B1 + j) (dm_w B1)); [lia|]. replace (dm_w B1 + j - dm_w B1) with j by lia. reflexivity. }
    assert (Hc : i * NB + jj < List.length rhs) by (rewrite LR, (Nat.mul_comm NB); apply lin_lt; auto).
    pose proof (bounds_near tol rhs (i * NB + jj) _ Hc (P4 _ Hc)) as N. rewrite LR in N.
    rewrite (transpose_parts nqe NB (List.length pairs) split Gs parts (ientry B1 B2 o1 o2 snap1 snap2 pairs (pick_isite st))) in N by auto. rewrite Re, Sp in N by auto.
    rewrite (rsum_ext (List.length st) (fun e => rsum nqe (fun m => (ientry B1 B2 o1 o2 snap1 snap2 pairs (pick_isite st) e m i jj * vnth (concat parts) (e * nqe + m))%R)) (fun e => rsum nqe (fun m => (f e m * vnth W (e * nqe + m))%R))) in N
      by (intros e He; apply rsum_ext; intros m Hm; rewrite Ef; reflexivity).
    assert (Fu : rsum (List.length st) (fun e => rsum nqe (fun m => (ientry B1 B2 o1 o2 snap1 snap2 pairs (pick_isite st) e m i jj * vnth w m)%R)) = full_sum w st v1 v2 first phi).
    { unfold full_sum. rewrite at_faces_sum. apply rsum_ext. intros e He. destruct (face_at e He) as (t & E1 & E2 & _ & L). rewrite E1. apply rsum_ext. intros m Hm. rewrite Ef. unfold f. rewrite E2, (L m (vnth w m)). ring. }
    rewrite Fu in N. pose proof (kept_error (List.length st) nqe W f tol (full_sum w st v1 v2 first phi) Lc Pn N) as K.
    assert (As : rsum (List.length st) (fun e => rsum nqe (fun m => Rabs (f e m))) = abs_sum w st v1 v2 first phi).
    { unfold abs_sum. rewrite at_faces_sum. apply rsum_ext. intros e He. destruct (face_at e He) as (t & E1 & E2 & _). rewrite E1. unfold f. rewrite E2. reflexivity. }
    rewrite As in K. unfold stands_for. replace (smp_sum _ _ v1 v2 first phi) with (rsum (List.length st) (fun e => rsum nqe (fun m => if kept W (e * nqe + m) then (vnth W (e * nqe + m) * f e m)%R else 0%R))); [exact K|].
    unfold smp_sum. rewrite lsum_map, lsum_filter, lsum_seq, Lc, rsum_tile. apply rsum_ext. intros e He. apply rsum_ext. intros m Hm. cbn [Nat.add]. destruct (kept W (e * nqe + m)); auto.
    unfold rsmp. cbn [si_el si_qp si_qw]. rewrite !Nat2Z.id, lin_div, lin_mod, seq_nth by auto. cbn [Nat.add]. destruct (face_at e He) as (t & E1 & E2 & _ & L). rewrite E1. unfold f. rewrite E2, (L m (vnth W _)). reflexivity.
  Qed.
End Rule.
