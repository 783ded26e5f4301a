(** Proofs about the visualization of basis vectors and the check of element types. *)
From Coq Require Import Reals List Bool Lia Arith ZArith String Lra.
From Verif Require Import Outcome ListLemmas LaBase LinalgModel BlockVec TagsModel RomModel RomSpec RomProofs RomBasisProofs RomStateProofs
  CompProofs BcProofs DriveReportProofs SupProofs BvisModel.
Import ListNotations.
Local Open Scope nat_scope.

(** Size of the variables before [v]. *)
Definition before (z : nat -> nat) (v : nat) : nat := fold_left Nat.add (map z (seq 0 v)) 0.

Lemma before_S z v : before z (S v) = before z v + z v.
Proof. unfold before. rewrite seq_S, map_app, fold_left_app. reflexivity. Qed.

Lemma before_le z v w : v <= w -> before z v <= before z w.
Proof. induction 1; auto. rewrite before_S. lia. Qed.

Lemma before_ext z z' v : (forall i, i < v -> z i = z' i) -> before z v = before z' v.
Proof. intros H. unfold before. f_equal. apply map_ext_in. intros a Ha. apply in_seq in Ha. apply H. lia. Qed.

Lemma before_mod z n k v : v <= n -> 0 < n -> before (fun i => z (i mod n)) (k * n + v) = k * before z n + before z v.
Proof.
  intros Hv Hn. revert v Hv. induction k as [|k IH]; intros v Hv.
  - cbn [Nat.mul Nat.add]. apply before_ext. intros i Hi. rewrite Nat.mod_small by lia. reflexivity.
  - induction v as [|v IHv].
    + replace (S k * n + 0) with (k * n + n) by lia. rewrite IH by lia. change (before z 0) with 0. cbn [Nat.mul]. lia.
    + rewrite Nat.add_succ_r, before_S, IHv by lia. rewrite before_S.
      replace ((S k * n + v) mod n) with v by (rewrite Nat.add_comm, Nat.mod_add, Nat.mod_small; lia). lia.
Qed.

Lemma sizes_ok vs midx nvar n : 0 < nvar -> (midx + 1) * nvar <= List.length vs ->
  view_sizes vs midx nvar n = Ok (map (fun i => nth (midx * nvar + i mod nvar) vs 0) (seq 0 (n * nvar))).
Proof.
  intros H L. unfold view_sizes. apply omap_seq_make. intros i Hi. apply oread_nth. pose proof (Nat.mod_upper_bound i nvar ltac:(lia)). nia.
Qed.

Lemma firstn_map_seq {A} (f : nat -> A) k n : k <= n -> firstn k (map f (seq 0 n)) = map f (seq 0 k).
Proof.
  intros H. rewrite firstn_map. f_equal. replace n with (k + (n - k)) by lia. rewrite seq_app, firstn_app, seq_length.
  replace (k - k) with 0 by lia. rewrite firstn_O, app_nil_r, firstn_all2 by (rewrite seq_length; lia). reflexivity.
Qed.

Lemma nth_slice (l : vec) lo n i : i < n -> nth i (firstn n (skipn lo l)) 0%R = nth (lo + i) l 0%R.
Proof.
  intros H. revert lo l. induction lo as [|lo IH]; intros l; cbn [skipn Nat.add].
  - revert i l H. induction n as [|n IHn]; intros i l H; [lia|]. destruct l as [|x l]; destruct i as [|i]; cbn; auto. apply IHn. lia.
  - destruct l as [|x l]; [|apply IH]. destruct n; destruct i; reflexivity.
Qed.

Lemma block_ok (B : dmat) (z : nat -> nat) nvar n k v : 0 < nvar -> dm_wf B -> dm_h B = before z nvar -> dm_w B = n -> k < n -> v < nvar ->
  exists x, view_block (dm_buf B) (map (fun i => z (i mod nvar)) (seq 0 (n * nvar))) (k * nvar + v) = Ok x /\ List.length x = z v /\
    forall i, i < z v -> vnth x i = mget B (before z v + i) k.
Proof.
  intros Hn W H1 H2 Hk Hv. unfold view_block.
  assert (Hi : k * nvar + v < n * nvar) by nia.
  rewrite (oread_nth _ _ 0) by (rewrite map_length, seq_length; auto). rewrite nth_map_seq by auto. cbn [obind Nat.add].
  rewrite firstn_map_seq by lia. fold (before (fun i => z (i mod nvar)) (k * nvar + v)). rewrite before_mod by lia.
  replace ((k * nvar + v) mod nvar) with v by (rewrite Nat.add_comm, Nat.mod_add, Nat.mod_small; lia).
  pose proof (before_S z v) as S1. pose proof (before_le z (S v) nvar ltac:(lia)) as S2. unfold dm_wf in W. rewrite H1, H2 in W.
  assert (T : k * before z nvar + before z v + z v <= List.length (dm_buf B)) by nia.
  rewrite (proj2 (Nat.leb_le _ _) T). cbn [oguard]. eexists. split; [reflexivity|]. split.
  - rewrite firstn_length, skipn_length. lia.
  - intros i Hi'. unfold vnth, mget, vnth. rewrite nth_slice by auto. f_equal. rewrite H1. lia.
Qed.

Lemma omap_never {A B} (f : A -> outcome B) l a r : In a l -> (forall b, f a <> Ok b) -> omap f l <> Ok r.
Proof.
  intros H N E. apply omap_ok in E. revert H. induction E as [|x y l r E1 E2 IH]; intros H; [destruct H|]. destruct H as [->|H]; auto. exact (N _ E1).
Qed.

Lemma types_ok n types u : check_element_types n types = Ok u -> forall c, c < n -> exists t, nth_error types 0 = Some t /\ nth_error types c = Some t.
Proof.
  intros E. unfold check_element_types in E. apply bind_inv in E as (t & E0 & E). apply oread_ok in E0.
  refine (ofor_inv_ok n _ (fun n _ => forall c, c < n -> exists t, nth_error types 0 = Some t /\ nth_error types c = Some t) tt u _ _ E).
  - intros c Hc. lia.
  - intros i a a' Hi IH Ea c Hc. destruct (Nat.eq_dec c i) as [->|]; [|apply IH; lia].
    apply bind_inv in Ea as (t' & E1 & E2). apply oread_ok in E1. destruct (Nat.eqb_spec t t') as [<-|]; [|discriminate]. eauto.
Qed.

Lemma types_run n types t : nth_error types 0 = Some t -> (forall c, c < n -> nth_error types c = Some t) -> check_element_types n types = Ok tt.
Proof.
  intros E0 H. unfold check_element_types. apply oread_ok in E0. rewrite E0. cbn [obind].
  destruct (ofor_inv n (fun _ c => let* t' := oread types c in if negb (t =? t') then Abort else Ok tt) (fun _ _ => True) tt) as ([] & E & _); auto.
  intros i s Hi _. exists tt. split; [|auto]. apply H, oread_ok in Hi. rewrite Hi. cbn [obind]. rewrite Nat.eqb_refl. reflexivity.
Qed.

Lemma types_stop n types t c t' : nth_error types 0 = Some t -> n <= List.length types -> c < n -> nth_error types c = Some t' -> t <> t' -> check_element_types n types = Abort.
Proof.
  intros E0 L Hc Ec N. unfold check_element_types. apply oread_ok in E0. rewrite E0. cbn [obind].
  assert (K : forall l, (forall x, In x l -> x < List.length types) -> In c l -> ofold (fun _ c => let* t' := oread types c in if negb (t =? t') then Abort else Ok tt) l tt = Abort).
  { induction l as [|x l IH]; intros Hl Hin; [destruct Hin|]. cbn [ofold]. destruct Hin as [->|Hin].
    - apply oread_ok in Ec. rewrite Ec. cbn [obind]. rewrite (proj2 (Nat.eqb_neq _ _) N). reflexivity.
    - destruct (nth_error types x) as [tx|] eqn:Ex; [|apply nth_error_None in Ex; specialize (Hl x ltac:(left; auto)); lia].
      apply oread_ok in Ex. rewrite Ex. cbn [obind]. destruct (negb (t =? tx)); [reflexivity|]. cbn [obind]. apply IH; auto. intros y Hy. apply Hl. right. auto. }
  unfold ofor. apply K; [intros x Hx; apply in_seq in Hx; lia|apply in_seq; lia].
Qed.
