(** Which entries the linear matrix has to store; layouts for which every other block is a velocity. *)
From Coq Require Import Reals List Bool Lia Arith ZArith Lra.
From Verif Require Import Outcome ListLemmas LaBase LinalgModel LinalgSpec LinalgTensorProofs BlockVec TagsModel RomModel RomSpec RomProofs NsModel NsSpec NsProofs NsRomProofs.
Import ListNotations.
Local Open Scope R_scope.

Lemma sm_add_need u a b v w : sm_fin u = true -> sm_add u a b v = Ok w -> sm_has u a b = true /\ sm_fin w = true /\ forall p q, sm_has w p q = sm_has u p q.
Proof.
  intros F E. unfold sm_add in E. destruct ((a <? sm_h u)%nat && (b <? sm_w u)%nat); cbn [oguard] in E; [|discriminate]. rewrite F in E. cbn [negb orb] in E.
  destruct (sm_has u a b) eqn:Hb; cbn [oassert] in E; [|discriminate]. injection E as <-. split; auto. split; auto. intros p q. unfold sm_has, sm_put. cbn [sm_ent].
  destruct (Nat.eqb_spec p a) as [->|]; [destruct (Nat.eqb_spec q b) as [->|]|]; cbn [andb]; auto.
Qed.

(** Adding to a finalized matrix succeeds only where entries are stored, and stores no others *)
Lemma sm_adds_need nr nc r c rf cf g m m' :
  (forall i, (i < nr)%nat -> r i = Ok (rf i)) -> (forall j, (j < nc)%nat -> c j = Ok (cf j)) -> sm_fin m = true -> sm_adds nr nc r c g m = Ok m' ->
  sm_fin m' = true /\ (forall p q, sm_has m' p q = sm_has m p q) /\ forall i j, (i < nr)%nat -> (j < nc)%nat -> g i j <> None -> sm_has m (rf i) (cf j) = true.
Proof.
  intros Hr Hc F. unfold sm_adds, ofor.
  assert (Lj : forall i, (i < nr)%nat -> forall l u w, sm_fin u = true -> (forall j, In j l -> (j < nc)%nat) ->
      ofold (fun m j => match g i j with None => Ok m | Some v => let* a := r i in let* b := c j in sm_add m a b v end) l u = Ok w ->
      sm_fin w = true /\ (forall p q, sm_has w p q = sm_has u p q) /\ forall j, In j l -> g i j <> None -> sm_has u (rf i) (cf j) = true).
  { intros i Hi. induction l as [|j l IH]; intros u w Fu Hl E; cbn in E; [injection E as <-; split; auto; split; auto; intros j []|].
    destruct (g i j) as [v|] eqn:Eg.
    - destruct (let* a := r i in let* b := c j in sm_add u a b v) as [w0| |] eqn:E0; try discriminate. cbn [obind] in E.
      rewrite Hr in E0 by auto. rewrite Hc in E0 by (apply Hl; left; auto). cbn [obind] in E0. apply sm_add_need in E0 as (A1 & A2 & A3); auto.
      apply IH in E as (B1 & B2 & B3); auto; [|intros; apply Hl; right; auto]. split; auto. split; [intros; rewrite B2, A3; auto|].
      intros j' [<-|Hj'] Hg; auto. rewrite <- A3. auto.
    - cbn [obind] in E. apply IH in E as (B1 & B2 & B3); auto; [|intros; apply Hl; right; auto]. split; auto. split; auto. intros j' [<-|Hj'] Hg; [congruence|auto]. }
  assert (Lp : forall l u u', sm_fin u = true -> (forall i, In i l -> (i < nr)%nat) ->
    ofold (fun m i => ofold (fun m j => match g i j with None => Ok m | Some v => let* a := r i in let* b := c j in sm_add m a b v end) (seq 0 nc) m) l u = Ok u' ->
    sm_fin u' = true /\ (forall p q, sm_has u' p q = sm_has u p q) /\ forall i j, In i l -> (j < nc)%nat -> g i j <> None -> sm_has u (rf i) (cf j) = true).
  { induction l as [|i l IH]; intros u u' Fu Hl E; cbn in E; [injection E as <-; split; auto; split; auto; intros i j []|].
    destruct (ofold _ (seq 0 nc) u) as [w| |] eqn:Ew; try discriminate. cbn [obind] in E.
    apply Lj in Ew as (A1 & A2 & A3); [|apply Hl; left; auto|auto|intros j Hj; apply in_seq in Hj; lia].
    apply IH in E as (B1 & B2 & B3); auto; [|intros; apply Hl; right; auto]. split; auto. split; [intros; rewrite B2, A2; auto|].
    intros i' j [<-|Hi'] Hj Hg; [apply A3; auto; apply in_seq; lia|]. rewrite <- A2. auto. }
  intros E. apply Lp in E as (A & B & C); auto; [|intros i Hi; apply in_seq in Hi; lia]. split; auto. split; auto. intros i j Hi. apply C. apply in_seq. lia.
Qed.

Lemma alternate_layout h size : rh_nvar h = 2%nat -> (rh_sep h = false \/ rh_ord h = ByDomain) -> alternate h size.
Proof. intros Hv H Es m Hm. unfold vsize, place. rewrite Es. destruct H as [H|H]; [congruence|]. rewrite H, Hv. f_equal. lia. Qed.

Section Pattern.
  Variables (h : rom) (off : list nat) (size : nat -> nat) (lin : smat).
  Hypothesis W : flow_rom h off size lin.
  Local Notation N := (nsum (blocks h) size).
  Local Notation ns := (rh_nsub h).
  Local Notation u m := (vsize h size m).
  Local Notation o m := (vel h off m).
  Local Notation st := (ns_of h off size lin).

  (** A nonzero derivative needs a stored entry *)
  Lemma tensor_need hs x J : tensors_fit h size hs -> List.length x = N -> sm_fin lin = true -> tensor_rom_grad st hs x = Ok J ->
    forall m k j, (m < ns)%nat -> (k < u m)%nat -> (j < u m)%nat ->
      rsum (u m) (fun i => tget (nth m hs (Tensor 0 0 0 [])) i j k * vnth x (o m + i)) + rsum (u m) (fun i => tget (nth m hs (Tensor 0 0 0 [])) j i k * vnth x (o m + i)) <> 0 ->
      sm_has lin (o m + k) (o m + j) = true.
  Proof.
    intros (Lh & Ht) Lx Fin. unfold tensor_rom_grad. change (nr_nsub st) with ns. change (nr_lin st) with lin. unfold ofor.
    match goal with |- context[ofold ?f (seq 0 ns) lin] => set (body := f) end. intros E.
    destruct (ofold body (seq 0 ns) lin) as [J0| |] eqn:E0; try discriminate. clear E.
    assert (Lp : forall l J J', sm_fin J = true -> (forall m, In m l -> (m < ns)%nat) -> ofold body l J = Ok J' ->
      forall m k j, In m l -> (k < u m)%nat -> (j < u m)%nat ->
      rsum (u m) (fun i => tget (nth m hs (Tensor 0 0 0 [])) i j k * vnth x (o m + i)) + rsum (u m) (fun i => tget (nth m hs (Tensor 0 0 0 [])) j i k * vnth x (o m + i)) <> 0 ->
      sm_has J (o m + k) (o m + j) = true).
    { induction l as [|m l IH]; intros J1 J' F Hl E m' k j Hm' Hk Hj Hne; [destruct Hm'|]. cbn [ofold] in E. destruct (body J1 m) as [J2| |] eqn:E2; try discriminate. cbn [obind] in E.
      assert (Hm : (m < ns)%nat) by (apply Hl; left; auto). unfold body in E2.
      rewrite (mid_read h off size lin) in E2 by auto. cbn [obind] in E2. rewrite (x_read h off size lin W) in E2 by auto. cbn [obind] in E2. rewrite vel_of_length in E2.
      assert (ER : oread hs m = Ok (nth m hs (Tensor 0 0 0 []))) by (unfold oread; rewrite (nth_error_nth' hs (Tensor 0 0 0 [])) by lia; reflexivity).
      rewrite ER in E2. cbn [obind] in E2. destruct (Ht m Hm) as (Tw & T1 & T2 & T3). set (T := nth m hs (Tensor 0 0 0 [])) in *.
      destruct (zero_mat (u m)) as (Zw & Zv).
      destruct (tensor_transpose_0_ok (fun tv => tv) T (vel_of h off size x m) (DMat (u m) (u m) (repeat 0 (u m * u m)))) as (M1 & F1 & W1 & H1 & H1' & V1); auto; try (rewrite vel_of_length; congruence); try (cbn; congruence).
      destruct (tensor_transpose_1_ok (fun tv => tv) T (vel_of h off size x m) M1) as (M2 & F2 & W2 & H2 & H2' & V2); auto; try (rewrite vel_of_length; congruence); try congruence.
      unfold tensor_add_mult_transpose in E2. rewrite F1 in E2. cbn [obind] in E2. rewrite F2 in E2. cbn [obind] in E2.
      rewrite (idx_read h off size lin) in E2 by auto. cbn [obind] in E2. unfold sm_add_sub in E2. rewrite seq_length in E2.
      assert (Rd : forall i, (i < u m)%nat -> oread (seq (o m) (u m)) i = Ok (o m + i)%nat) by (intros i Hi; unfold oread; rewrite nth_error_seq by auto; reflexivity).
      apply (sm_adds_need _ _ _ _ (fun i => o m + i)%nat (fun i => o m + i)%nat) in E2 as (A1 & A2 & A3); auto.
      destruct (Nat.eq_dec m' m) as [->|Ne].
      - fold T in Hne. apply A3; auto. rewrite V2, V1, Zv by (rewrite ?T1, ?T2, ?T3; auto). rewrite T1, T2.
        rewrite (rsum_ext (u m) (fun i => tget T i j k * vnth (vel_of h off size x m) i) (fun i => tget T i j k * vnth x (o m + i))) by (intros i Hi; rewrite vel_of_nth by auto; reflexivity).
        rewrite (rsum_ext (u m) (fun i => tget T j i k * vnth (vel_of h off size x m) i) (fun i => tget T j i k * vnth x (o m + i))) by (intros i Hi; rewrite vel_of_nth by auto; reflexivity).
        destruct (isz (0 + _ + _)) eqn:Z; cbn [andb]; [|discriminate]. apply isz_spec in Z. exfalso. apply Hne. lra.
      - destruct Hm' as [->|Hm']; [lia|]. rewrite <- A2. apply (IH J2 J'); auto. intros; apply Hl; right; auto. }
    intros m k j Hm. apply (Lp (seq 0 ns) lin J0); auto; [intros i Hi; apply in_seq in Hi; lia|apply in_seq; lia].
  Qed.
End Pattern.
