(** Lemmas about the kernels of the integrators. *)
From Coq Require Import Reals List Bool Lia Arith Lra.
From Verif Require Import LaBase EqpSpec IntegModel IntegSpec.
Import ListNotations.
Local Open Scope R_scope.

(** ** Sums *)
Lemma rsum_grid nd dim f : rsum (nd * dim) f = rsum dim (fun d => rsum nd (fun k => f (k + d * nd)%nat)).
Proof.
  induction dim as [|dim IH]; [rewrite Nat.mul_0_r; reflexivity|].
  rewrite Nat.mul_succ_r, rsum_split, IH.
  change (rsum (S dim) ?g) with (rsum dim g + g dim)%R at 1. f_equal.
  apply rsum_ext. intros k _. f_equal. lia.
Qed.

Lemma rsum_delta n d f : (d < n)%nat -> rsum n (fun e => if (d =? e)%nat then f e else 0) = f d.
Proof.
  intros H. rewrite (rsum_single n d) by (auto; intros i _ Hi; apply Nat.neq_sym, Nat.eqb_neq in Hi; rewrite Hi; reflexivity).
  rewrite Nat.eqb_refl. reflexivity.
Qed.

Lemma rsum_delta' n d f : (d < n)%nat -> rsum n (fun e => if (e =? d)%nat then f e else 0) = f d.
Proof. intros H. rewrite <- (rsum_delta n d f H). apply rsum_ext. intros i _. rewrite (Nat.eqb_sym i d). reflexivity. Qed.

Lemma lsum_app {A} (f : A -> R) l l' : lsum f (l ++ l') = lsum f l + lsum f l'.
Proof. induction l as [|a l IH]; [symmetry; apply Rplus_0_l|]. change (lsum f ((a :: l) ++ l')) with (f a + lsum f (l ++ l')). rewrite IH. change (lsum f (a :: l)) with (f a + lsum f l). ring. Qed.
Lemma lsum_cons {A} (f : A -> R) a l : lsum f (a :: l) = f a + lsum f l.
Proof. reflexivity. Qed.
Lemma lsum_ext_in {A} (f g : A -> R) l : (forall a, In a l -> f a = g a) -> lsum f l = lsum g l.
Proof. induction l as [|a l IH]; intros H; [reflexivity|]. rewrite !lsum_cons, H by (left; auto). rewrite IH; [reflexivity|]. intros b Hb. apply H. right; auto. Qed.
Lemma lsum_add {A} (f g : A -> R) l : lsum (fun a => f a + g a) l = lsum f l + lsum g l.
Proof. induction l as [|a l IH]; [symmetry; apply Rplus_0_l|]. rewrite !lsum_cons, IH. ring. Qed.
Lemma lsum_mul {A} c (f : A -> R) l : lsum (fun a => c * f a) l = c * lsum f l.
Proof. induction l as [|a l IH]; [symmetry; apply Rmult_0_r|]. rewrite !lsum_cons, IH. ring. Qed.
Lemma lsum_rsum {A} n (f : A -> nat -> R) l : lsum (fun a => rsum n (f a)) l = rsum n (fun i => lsum (fun a => f a i) l).
Proof.
  induction l as [|a l IH]; [cbn; symmetry; apply rsum_zero|]. rewrite lsum_cons, IH, <- rsum_plus. apply rsum_ext. reflexivity.
Qed.
Lemma lsum_0 {A} (f : A -> R) l : (forall a, In a l -> f a = 0) -> lsum f l = 0.
Proof. induction l as [|a l IH]; intros H; [reflexivity|]. rewrite lsum_cons, H by (left; auto). rewrite IH; [ring|]. intros b Hb. apply H. right; auto. Qed.

(** ** Loops that add *)
Lemma fold_add {A S} (f : S -> A -> S) (c : A -> R) (rd : S -> R) l : (forall s a, In a l -> rd (f s a) = rd s + c a) ->
  forall s, rd (fold_left f l s) = rd s + lsum c l.
Proof.
  induction l as [|a l IH]; intros H s; [symmetry; apply Rplus_0_r|].
  change (fold_left f (a :: l) s) with (fold_left f l (f s a)). rewrite IH by (intros; apply H; right; auto).
  rewrite H by (left; auto). rewrite lsum_cons. ring.
Qed.

Lemma lsum_seq0 n f : lsum f (seq 0 n) = rsum n f.
Proof.
  induction n as [|n IH]; [reflexivity|]. rewrite seq_S, lsum_app, IH. rewrite lsum_cons. change (lsum f []) with 0. change (0 + n)%nat with n. change (rsum (S n) f) with (rsum n f + f n). ring.
Qed.

Lemma floop_add {S} n (f : nat -> S -> S) (c : nat -> R) (rd : S -> R) s : (forall i s, (i < n)%nat -> rd (f i s) = rd s + c i) ->
  rd (floop n f s) = rd s + rsum n c.
Proof.
  intros H. unfold floop. rewrite (fold_add _ c rd).
  - rewrite lsum_seq0. reflexivity.
  - intros s' i Hi. apply in_seq in Hi. apply H. lia.
Qed.

(** ** Blocks of matrices *)
Lemma blk_le nd i d k : (k < nd)%nat -> ((i * nd <=? k + d * nd) && (k + d * nd <? i * nd + nd))%nat = (i =? d)%nat.
Proof.
  intros H. destruct (Nat.eqb_spec i d) as [->|N].
  - apply andb_true_intro. split; [apply Nat.leb_le|apply Nat.ltb_lt]; lia.
  - apply andb_false_iff. destruct (Nat.lt_ge_cases i d).
    + right. apply Nat.ltb_ge. nia.
    + left. apply Nat.leb_gt. nia.
Qed.

(** One block added, seen from a position given by blocks *)
Lemma add_matrix_at a A nr nc i j ro co M r c k d m e Ro Co : (k < nr)%nat -> (m < nc)%nat ->
  r = (ro + (k + d * nr))%nat -> c = (co + (m + e * nc))%nat -> Ro = (ro + i * nr)%nat -> Co = (co + j * nc)%nat ->
  add_matrix a A nr nc Ro Co M r c = M r c + (if (i =? d)%nat then if (j =? e)%nat then a * A k m else 0 else 0).
Proof.
  intros Hk Hm Hr Hc HR HC. unfold add_matrix.
  replace ((Ro <=? r) && (r <? Ro + nr) && (Co <=? c) && (c <? Co + nc))%nat with ((i =? d) && (j =? e))%nat.
  2:{ rewrite <- (blk_le nr i d k Hk), <- (blk_le nc j e m Hm). subst.
      repeat (match goal with |- context [(?x <=? ?y)%nat] => destruct (Nat.leb_spec x y) | |- context [(?x <? ?y)%nat] => destruct (Nat.ltb_spec x y) end; cbn [andb]; try lia; try reflexivity). }
  destruct (Nat.eqb_spec i d) as [->|N]; cbn [andb]; [|ring]. destruct (Nat.eqb_spec j e) as [->|N]; [|ring].
  subst. f_equal. f_equal. f_equal; lia.
Qed.

Lemma add_matrix_row a A nr nc Ro Co M r c : (r < Ro)%nat \/ (Ro + nr <= r)%nat \/ (c < Co)%nat \/ (Co + nc <= c)%nat ->
  add_matrix a A nr nc Ro Co M r c = M r c.
Proof.
  intros H. unfold add_matrix.
  destruct (Nat.leb_spec Ro r), (Nat.ltb_spec r (Ro + nr)), (Nat.leb_spec Co c), (Nat.ltb_spec c (Co + nc)); cbn [andb]; try reflexivity; lia.
Qed.

(** Blocks on the diagonal; all blocks *)
Lemma diag_loop dim nd a A M k d m e : (k < nd)%nat -> (m < nd)%nat -> (d < dim)%nat ->
  floop dim (fun i M => add_matrix a A nd nd (i * nd) (i * nd) M) M (k + d * nd)%nat (m + e * nd)%nat =
  M (k + d * nd)%nat (m + e * nd)%nat + (if (d =? e)%nat then a * A k m else 0).
Proof.
  intros Hk Hm Hd. rewrite (floop_add dim _ (fun i => if (i =? d)%nat then if (i =? e)%nat then a * A k m else 0 else 0)
    (fun M => M (k + d * nd)%nat (m + e * nd)%nat)).
  - rewrite (rsum_delta' dim d (fun i => if (i =? e)%nat then a * A k m else 0) Hd). reflexivity.
  - intros i M' Hi. apply (add_matrix_at a A nd nd i i 0 0); auto.
Qed.

Lemma full_loop dim nd (a : nat -> nat -> R) (A : nat -> nat -> fm) M k d m e : (k < nd)%nat -> (m < nd)%nat -> (d < dim)%nat -> (e < dim)%nat ->
  floop dim (fun i M => floop dim (fun j M => add_matrix (a i j) (A i j) nd nd (i * nd) (j * nd) M) M) M (k + d * nd)%nat (m + e * nd)%nat =
  M (k + d * nd)%nat (m + e * nd)%nat + a d e * A d e k m.
Proof.
  intros Hk Hm Hd He. rewrite (floop_add dim _ (fun i => if (i =? d)%nat then a i e * A i e k m else 0)
    (fun M => M (k + d * nd)%nat (m + e * nd)%nat)).
  - rewrite (rsum_delta' dim d (fun i => a i e * A i e k m) Hd). reflexivity.
  - intros i M' Hi. rewrite (floop_add dim _ (fun j => if (i =? d)%nat then if (j =? e)%nat then a i j * A i j k m else 0 else 0)
      (fun M => M (k + d * nd)%nat (m + e * nd)%nat)).
    + destruct (i =? d)%nat; [|rewrite rsum_zero; reflexivity]. rewrite (rsum_delta' dim e (fun j => a i j * A i j k m) He). reflexivity.
    + intros j M'' Hj. apply (add_matrix_at (a i j) (A i j) nd nd i j 0 0); auto.
Qed.

(** ** Views *)
Lemma unview_at nd M k d : (k < nd)%nat -> unview nd M (k + d * nd)%nat = M k d.
Proof.
  intros H. unfold unview. rewrite Nat.mod_add, Nat.div_add, Nat.mod_small, Nat.div_small by lia. reflexivity.
Qed.

Lemma grid_index nd dim i : (i < nd * dim)%nat -> exists k d, (k < nd)%nat /\ (d < dim)%nat /\ i = (k + d * nd)%nat.
Proof.
  intros H. exists (i mod nd)%nat, (i / nd)%nat. assert (nd <> 0)%nat by (intros ->; lia).
  pose proof (Nat.div_mod i nd ltac:(auto)). split; [apply Nat.mod_upper_bound; auto|]. split; [|lia].
  apply Nat.div_lt_upper_bound; lia.
Qed.

Lemma join_fst nd1 nd2 dim vs k d : (k < nd1)%nat -> (d < dim)%nat -> join nd1 nd2 dim vs (k + d * nd1)%nat = fst vs k d.
Proof.
  intros H H'. unfold join. destruct (Nat.ltb_spec (k + d * nd1) (nd1 * dim)); [apply unview_at; auto|nia].
Qed.
Lemma join_snd nd1 nd2 dim vs k d : (k < nd2)%nat -> join nd1 nd2 dim vs (nd1 * dim + (k + d * nd2))%nat = snd vs k d.
Proof.
  intros H. unfold join. destruct (Nat.ltb_spec (nd1 * dim + (k + d * nd2)) (nd1 * dim)); [lia|].
  replace (nd1 * dim + (k + d * nd2) - nd1 * dim)%nat with (k + d * nd2)%nat by lia. apply unview_at; auto.
Qed.

(** ** Derivatives *)
Lemma quadratic_derivative (f : R -> R) a b c : (forall t, f t = a + t * b + t * t * c) -> derivable_pt_lim f 0 b.
Proof.
  intros H eps He.
  assert (Hd : 0 < eps / (Rabs c + 1)) by (apply Rdiv_lt_0_compat; [lra|pose proof (Rabs_pos c); lra]).
  exists (mkposreal _ Hd). cbn [pos]. intros h Hh Hlt. rewrite !H, Rplus_0_l.
  replace ((a + h * b + h * h * c - (a + 0 * b + 0 * 0 * c)) / h - b) with (h * c) by (field; auto).
  rewrite Rabs_mult. pose proof (Rabs_pos c). pose proof (Rabs_pos h).
  apply Rle_lt_trans with (Rabs h * (Rabs c + 1)); [nra|].
  apply (Rmult_lt_compat_r (Rabs c + 1)) in Hlt; [|lra].
  replace (eps / (Rabs c + 1) * (Rabs c + 1)) with eps in Hlt by (field; lra). exact Hlt.
Qed.

Lemma derivative_ext f g x l : (forall t, f t = g t) -> derivable_pt_lim f x l -> derivable_pt_lim g x l.
Proof. intros H D eps He. destruct (D eps He) as (de & Hde). exists de. intros h Hh Hl. rewrite <- !H. apply Hde; auto. Qed.

Lemma derivative_lsum {A} (f : A -> R -> R) (g : A -> R) x l : (forall a, In a l -> derivable_pt_lim (f a) x (g a)) ->
  derivable_pt_lim (fun t => lsum (fun a => f a t) l) x (lsum g l).
Proof.
  induction l as [|a l IH]; intros H.
  - apply derivable_pt_lim_const.
  - apply (derivative_ext (plus_fct (f a) (fun t => lsum (fun a => f a t) l))); [reflexivity|].
    rewrite lsum_cons. apply derivable_pt_lim_plus; [apply H; left; auto|apply IH; intros; apply H; right; auto].
Qed.

Lemma derivative_rsum n (f : nat -> R -> R) (g : nat -> R) x : (forall i, (i < n)%nat -> derivable_pt_lim (f i) x (g i)) ->
  derivable_pt_lim (fun t => rsum n (fun i => f i t)) x (rsum n g).
Proof.
  intros H. apply (derivative_ext (fun t => lsum (fun i => f i t) (seq 0 n))); [intros; apply lsum_seq0|].
  rewrite <- lsum_seq0. apply derivative_lsum. intros i Hi. apply in_seq in Hi. apply H. lia.
Qed.

Lemma derivative_scal a f x l : derivable_pt_lim f x l -> derivable_pt_lim (fun t => a * f t) x (a * l).
Proof. intros H. apply (derivative_ext (mult_real_fct a f)); [reflexivity|]. apply derivable_pt_lim_scal; auto. Qed.
