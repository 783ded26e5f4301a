(** Consequences of the interior penalty forms. *)
From Coq Require Import Reals List Bool Lia Lra Arith ZArith.
From Verif Require Import Outcome ListLemmas LaBase EqpSpec IntegModel IntegProofs DgModel DgSpec DgAddProofs DgKernelProofs DgItfProofs DgFaceProofs.
Import ListNotations.
Local Open Scope R_scope.

(** ** Symmetry *)

Lemma entry_sym nc g A TA B TB i j : entry nc (-1) g A TA B TB i j = entry nc (-1) g B TB A TA j i.
Proof. unfold entry. apply rsum_ext. intros. ring. Qed.

Lemma itf_sym nc n1 n2 k rule b : itf_entries nc n1 n2 (-1) k rule b -> sym_blocks n1 n2 b.
Proof.
  intros (A & B & C & D). split; [|split]; intros i j Hi Hj; rewrite ?A, ?B, ?C, ?D by auto; apply lsum_ext_in; intros; apply entry_sym.
Qed.

(** ** One scalar or vector point form: jump, mean, penalty *)

Lemma slope_const dim n s (x : fv) a : (forall i, (i < n)%nat -> x i = a) -> (forall l, (l < dim)%nat -> rsum n (fun i => sd_dshape s i l) = 0) ->
  (forall m, slope dim n s x m = 0).
Proof.
  intros Hx Hd m. unfold slope.
  transitivity (rsum n (fun i => rsum dim (fun l => a / sd_W s * (sd_dshape s i l * sd_adj s l m)))).
  - apply rsum_ext. intros i Hi. rewrite Hx by auto. rewrite rsum_scal. unfold Rdiv. ring.
  - rewrite rsum_swap. rewrite (rsum_ext dim _ (fun _ => 0)), rsum_zero; auto. intros l Hl. rewrite rsum_scal.
    rewrite rsum_scal_r. rewrite Hd by auto. ring.
Qed.

Lemma trace_const n s (x : fv) a : (forall i, (i < n)%nat -> x i = a) -> rsum n (fun i => sd_shape s i) = 1 -> trace n s x = a.
Proof.
  intros Hx Hs. unfold trace. rewrite (rsum_ext n _ (fun i => sd_shape s i * a)) by (intros; rewrite Hx; auto). rewrite rsum_scal_r. change (rsum n (sd_shape s)) with (rsum n (fun i => sd_shape s i)). rewrite Hs. ring.
Qed.

Lemma flux_zero dim n nor s x : (forall m, slope dim n s x m = 0) -> flux dim n nor s x = 0.
Proof.
  intros H. unfold flux. destruct (sd_mq s).
  - rewrite (rsum_ext dim _ (fun _ => 0)), rsum_zero; auto. intros l _. rewrite (rsum_ext dim _ (fun _ => 0)), rsum_zero; auto. intros m _. rewrite H. ring.
  - rewrite (rsum_ext dim _ (fun _ => 0)), rsum_zero; [ring|]. intros m _. rewrite H. ring.
Qed.

Lemma traction_zero dim n nor s x c : (c < dim)%nat -> (forall l m, (l < dim)%nat -> slope dim n s (comp n l x) m = 0) -> traction dim n nor s x c = 0.
Proof.
  intros Hc H. unfold traction. rewrite (rsum_ext dim (fun l => slope dim n s (comp n l x) l) (fun _ => 0)) by (intros; apply H; auto).
  rewrite (rsum_ext dim (fun l => (slope dim n s (comp n c x) l + slope dim n s (comp n l x) c) * nor l) (fun _ => 0)).
  - rewrite !rsum_zero. ring.
  - intros l Hl. rewrite !H by auto. ring.
Qed.

(** Jumps and means of the three forms *)
Definition jmp (n1 n2 : nat) (p : dpt) (x1 x2 : fv) : R := trace n1 (d_1 p) x1 - trace n2 (d_2 p) x2.
Definition avg (dim n1 n2 : nat) (p : dpt) (x1 x2 : fv) : R := (flux dim n1 (d_nor p) (d_1 p) x1 + flux dim n2 (d_nor p) (d_2 p) x2) / 2.
Definition pen (dim : nat) (p : dpt) : R := (stiff dim (d_nor p) (d_1 p) / sd_W (d_1 p) + stiff dim (d_nor p) (d_2 p) / sd_W (d_2 p)) / 2.

Lemma ip_alt dim n1 n2 sigma kappa u1 u2 v1 v2 p : ip_point dim n1 n2 sigma kappa u1 u2 v1 v2 p =
  d_w p * (- (avg dim n1 n2 p u1 u2 * jmp n1 n2 p v1 v2) + sigma * (avg dim n1 n2 p v1 v2 * jmp n1 n2 p u1 u2) + kappa * pen dim p * (jmp n1 n2 p u1 u2 * jmp n1 n2 p v1 v2)).
Proof. reflexivity. Qed.

Definition eavg (dim n1 n2 : nat) (p : dpt) (x1 x2 : fv) (c : nat) : R := (traction dim n1 (d_nor p) (d_1 p) x1 c + traction dim n2 (d_nor p) (d_2 p) x2 c) / 2.
Definition ejmp (n1 n2 : nat) (p : dpt) (x1 x2 : fv) (c : nat) : R := jmp n1 n2 p (comp n1 c x1) (comp n2 c x2).
Definition elm (s : side) : R := val (sd_lam s) + 2 * val (sd_mu s).
Definition epen (dim : nat) (p : dpt) : R := sq dim (d_nor p) * ((elm (d_1 p) / sd_W (d_1 p) + elm (d_2 p) / sd_W (d_2 p)) / 2).

Lemma el_alt dim n1 n2 sigma kappa u1 u2 v1 v2 p : el_point dim n1 n2 sigma kappa u1 u2 v1 v2 p =
  d_w p * rsum dim (fun c => - (eavg dim n1 n2 p u1 u2 c * ejmp n1 n2 p v1 v2 c) + sigma * (eavg dim n1 n2 p v1 v2 c * ejmp n1 n2 p u1 u2 c)
    + kappa * epen dim p * (ejmp n1 n2 p u1 u2 c * ejmp n1 n2 p v1 v2 c)).
Proof.
  unfold el_point. cbv zeta. f_equal. apply rsum_ext. intros c _. unfold eavg, ejmp, jmp, epen, elm. ring.
Qed.

Lemma lsum_nonneg_d {A} (f : A -> R) l : (forall a, In a l -> 0 <= f a) -> 0 <= lsum f l.
Proof.
  induction l as [|a l IH] using rev_ind; intros H; [simpl; lra|]. rewrite lsum_snoc_d. assert (0 <= f a) by (apply H; apply in_or_app; simpl; auto).
  assert (0 <= lsum f l) by (apply IH; intros; apply H; apply in_or_app; auto). lra.
Qed.

Lemma sq_nonneg dim n : 0 <= sq dim n.
Proof. unfold sq. apply rsum_nonneg. intros. nra. Qed.

Lemma pen_nonneg dim p : good_side dim (d_nor p) (d_1 p) -> good_side dim (d_nor p) (d_2 p) -> 0 <= pen dim p.
Proof.
  intros (W1 & S1) (W2 & S2). unfold pen. assert (0 <= stiff dim (d_nor p) (d_1 p) / sd_W (d_1 p)) by (apply Rmult_le_pos; [auto|left; apply Rinv_0_lt_compat; auto]).
  assert (0 <= stiff dim (d_nor p) (d_2 p) / sd_W (d_2 p)) by (apply Rmult_le_pos; [auto|left; apply Rinv_0_lt_compat; auto]). lra.
Qed.

Lemma epen_nonneg dim p : good_lame (d_1 p) -> good_lame (d_2 p) -> 0 <= epen dim p.
Proof.
  intros (W1 & S1) (W2 & S2). unfold epen, elm. assert (0 <= (val (sd_lam (d_1 p)) + 2 * val (sd_mu (d_1 p))) / sd_W (d_1 p)) by (apply Rmult_le_pos; [auto|left; apply Rinv_0_lt_compat; auto]).
  assert (0 <= (val (sd_lam (d_2 p)) + 2 * val (sd_mu (d_2 p))) / sd_W (d_2 p)) by (apply Rmult_le_pos; [auto|left; apply Rinv_0_lt_compat; auto]).
  apply Rmult_le_pos; [apply sq_nonneg|lra].
Qed.

Lemma ip_nonneg dim n1 n2 kappa u1 u2 p : 0 <= kappa -> 0 <= d_w p -> 0 <= pen dim p -> 0 <= ip_point dim n1 n2 1 kappa u1 u2 u1 u2 p.
Proof.
  intros K W P. rewrite ip_alt. apply Rmult_le_pos; [auto|]. set (j := jmp n1 n2 p u1 u2). set (a := avg dim n1 n2 p u1 u2).
  replace (- (a * j) + 1 * (a * j) + kappa * pen dim p * (j * j)) with (kappa * pen dim p * (j * j)) by ring.
  apply Rmult_le_pos; [apply Rmult_le_pos; auto|nra].
Qed.

Lemma el_nonneg dim n1 n2 kappa u1 u2 p : 0 <= kappa -> 0 <= d_w p -> 0 <= epen dim p -> 0 <= el_point dim n1 n2 1 kappa u1 u2 u1 u2 p.
Proof.
  intros K W P. rewrite el_alt. apply Rmult_le_pos; [auto|]. apply rsum_nonneg. intros c _. set (j := ejmp n1 n2 p u1 u2 c). set (a := eavg dim n1 n2 p u1 u2 c).
  replace (- (a * j) + 1 * (a * j) + kappa * epen dim p * (j * j)) with (kappa * epen dim p * (j * j)) by ring.
  apply Rmult_le_pos; [apply Rmult_le_pos; auto|nra].
Qed.

(** ** From the other side *)

Lemma flux_neg dim n nor s x : flux dim n (fun m => - nor m) s x = - flux dim n nor s x.
Proof.
  unfold flux. destruct (sd_mq s) as [M|].
  - rewrite (rsum_ext dim _ (fun l => -1 * rsum dim (fun m => nor l * M l m * slope dim n s x m))).
    + rewrite rsum_scal. ring.
    + intros l _. rewrite <- rsum_scal. apply rsum_ext. intros. ring.
  - rewrite (rsum_ext dim _ (fun m => -1 * (nor m * slope dim n s x m))) by (intros; ring). rewrite rsum_scal. ring.
Qed.
Lemma sq_neg dim nor : sq dim (fun m => - nor m) = sq dim nor.
Proof. unfold sq. apply rsum_ext. intros. ring. Qed.
Lemma stiff_neg dim nor s : stiff dim (fun m => - nor m) s = stiff dim nor s.
Proof.
  unfold stiff. rewrite sq_neg. destruct (sd_mq s) as [M|]; [|auto]. apply rsum_ext. intros l _. apply rsum_ext. intros. ring.
Qed.
Lemma traction_neg dim n nor s x c : traction dim n (fun m => - nor m) s x c = - traction dim n nor s x c.
Proof.
  unfold traction. rewrite (rsum_ext dim (fun l => (slope dim n s (comp n c x) l + slope dim n s (comp n l x) c) * - nor l)
    (fun l => -1 * ((slope dim n s (comp n c x) l + slope dim n s (comp n l x) c) * nor l))) by (intros; ring). rewrite rsum_scal. ring.
Qed.

Lemma ip_flip dim n1 n2 sigma kappa u1 u2 v1 v2 p : ip_point dim n2 n1 sigma kappa u2 u1 v2 v1 (flip p) = ip_point dim n1 n2 sigma kappa u1 u2 v1 v2 p.
Proof.
  rewrite !ip_alt. unfold avg, jmp, pen. cbn [flip d_w d_nor d_1 d_2]. rewrite !flux_neg, !stiff_neg. unfold Rdiv. ring.
Qed.

Lemma el_flip dim n1 n2 sigma kappa u1 u2 v1 v2 p : el_point dim n2 n1 sigma kappa u2 u1 v2 v1 (flip p) = el_point dim n1 n2 sigma kappa u1 u2 v1 v2 p.
Proof.
  rewrite !el_alt. cbn [flip d_w]. f_equal. apply rsum_ext. intros c _. unfold eavg, ejmp, jmp, epen. cbn [flip d_w d_nor d_1 d_2].
  rewrite !traction_neg, sq_neg. unfold Rdiv. ring.
Qed.

Lemma lsum_map_d {A B} (f : B -> R) (g : A -> B) l : lsum f (map g l) = lsum (fun a => f (g a)) l.
Proof. induction l as [|a l IH]; [auto|]. simpl map. rewrite !lsum_cons, IH. auto. Qed.
