(** The face and interface integrators: positions, values, exactness of the Jacobians of the Temam flux. *)
From Coq Require Import Reals List Bool Lia Arith Lra FunctionalExtensionality.
From Verif Require Import LaBase EqpSpec IntegModel IntegSpec IntegProofs IntegDomProofs.
Import ListNotations.
Local Open Scope R_scope.

(** ** Two sides; [false] is the first *)
Definition szs (nd1 nd2 : nat) (a : bool) : nat := if a then nd2 else nd1.
Definition pos (nd1 nd2 dim : nat) (a : bool) (k d : nat) : nat :=
  if a then (nd1 * dim + (k + d * nd2))%nat else (k + d * nd1)%nat.
Definition blk0 (nd1 nd2 dim : nat) (a : bool) (i : nat) : nat := if a then (i * nd2 + dim * nd1)%nat else (i * nd1)%nat.

Lemma add_matrix_side nd1 nd2 dim a b a' b' c A i j M k d m e : (i < dim)%nat -> (j < dim)%nat -> (d < dim)%nat -> (e < dim)%nat ->
  (k < szs nd1 nd2 a')%nat -> (m < szs nd1 nd2 b')%nat ->
  add_matrix c A (szs nd1 nd2 a) (szs nd1 nd2 b) (blk0 nd1 nd2 dim a i) (blk0 nd1 nd2 dim b j) M (pos nd1 nd2 dim a' k d) (pos nd1 nd2 dim b' m e) =
  M (pos nd1 nd2 dim a' k d) (pos nd1 nd2 dim b' m e) +
  (if eqb a a' then if eqb b b' then if (i =? d)%nat then if (j =? e)%nat then c * A k m else 0 else 0 else 0 else 0).
Proof.
  intros Hi Hj Hd He Hk Hm.
  destruct (eqb a a') eqn:Ea.
  - apply eqb_prop in Ea. subst a'. destruct (eqb b b') eqn:Eb.
    + apply eqb_prop in Eb. subst b'.
      apply (add_matrix_at c A _ _ i j (if a then nd1 * dim else 0) (if b then nd1 * dim else 0)%nat); auto;
        destruct a, b; unfold pos, blk0; cbn [szs]; lia.
    + rewrite Rplus_0_r. apply add_matrix_row. right. right.
      destruct b, b'; try discriminate Eb; unfold pos, blk0 in *; cbn [szs] in *; [left|right]; nia.
  - rewrite Rplus_0_r. apply add_matrix_row.
    destruct a, a'; try discriminate Ea; unfold pos, blk0 in *; cbn [szs] in *; [left|right; left]; nia.
Qed.

Lemma eqb_diff_t : Bool.eqb true false = false. Proof. reflexivity. Qed.

(** A field whose coefficients move along a line *)
Lemma field_line o nd s x h t : field o nd s (fun k => x k + t * h k) = (fun e => field o nd s x e + t * field o nd s h e).
Proof. apply functional_extensionality. intros e. apply field_lin. Qed.

Lemma field_shift o nd s x d : field o nd s x d = field 0 nd s (fun i => x (o + i)%nat) d.
Proof. unfold field. apply rsum_ext. intros m _. f_equal. f_equal. lia. Qed.
Lemma field_shift_f o nd s x : field o nd s x = field 0 nd s (fun i => x (o + i)%nat).
Proof. apply functional_extensionality. intros d. apply field_shift. Qed.

Lemma field_none o s x : field o 0 s x = fun _ => 0.
Proof. reflexivity. Qed.

Section Sides.
Context {P : Type} (nd1 nd2 dim : nat) (rule : list P) (s : bool -> P -> fv).
Context (phi : bool -> P -> fv -> fv -> nat -> R) (G : bool -> bool -> P -> fm).

Definition at_side (b : bool) (x1 x2 : fv) (p : P) : fv := field 0 (szs nd1 nd2 b) (s b p) (if b then x2 else x1).

Definition side_value (a : bool) (x1 x2 : fv) (k d : nat) : R :=
  lsum (fun p => s a p k * phi a p (at_side false x1 x2 p) (at_side true x1 x2 p) d) rule.
Definition side_grad (a b : bool) (k d m e : nat) : R := lsum (fun p => s a p k * G a b p d e * s b p m) rule.

Definition flux_derivative (x1 x2 : fv) : Prop := forall a p v1 v2 d, In p rule -> (d < dim)%nat -> (nd2 = 0%nat -> v2 = fun _ => 0) ->
  (a = false \/ nd2 <> 0%nat) ->
  derivable_pt_lim (fun t => phi a p (fun e => at_side false x1 x2 p e + t * v1 e) (fun e => at_side true x1 x2 p e + t * v2 e) d) 0
    (rsum dim (fun e => G a false p d e * v1 e) + rsum dim (fun e => G a true p d e * v2 e)).

Lemma side_derivative x1 x2 h1 h2 a k d : flux_derivative x1 x2 -> (d < dim)%nat -> (a = false \/ nd2 <> 0%nat) ->
  derivable_pt_lim (fun t => side_value a (fun i => x1 i + t * h1 i) (fun i => x2 i + t * h2 i) k d) 0
    (rsum dim (fun e => rsum nd1 (fun m => side_grad a false k d m e * h1 (m + e * nd1)%nat)) +
     rsum dim (fun e => rsum nd2 (fun m => side_grad a true k d m e * h2 (m + e * nd2)%nat))).
Proof.
  intros HD Hd Ha. unfold side_value.
  replace (rsum dim _ + rsum dim _) with
    (lsum (fun p => s a p k * (rsum dim (fun e => G a false p d e * at_side false h1 h2 p e) + rsum dim (fun e => G a true p d e * at_side true h1 h2 p e))) rule).
  - apply derivative_lsum. intros p Hp. apply derivative_scal.
    apply (derivative_ext (fun t => phi a p (fun e => at_side false x1 x2 p e + t * at_side false h1 h2 p e) (fun e => at_side true x1 x2 p e + t * at_side true h1 h2 p e) d)).
    + intros t. unfold at_side. rewrite !field_line. reflexivity.
    + apply HD; auto. intros E. unfold at_side. rewrite E. reflexivity.
  - transitivity (lsum (fun p => rsum dim (fun e => s a p k * G a false p d e * at_side false h1 h2 p e) + rsum dim (fun e => s a p k * G a true p d e * at_side true h1 h2 p e)) rule).
    + apply lsum_ext_in. intros p _. rewrite Rmult_plus_distr_l, <- !rsum_scal. f_equal; apply rsum_ext; intros; ring.
    + rewrite lsum_add, !lsum_rsum. f_equal; apply rsum_ext; intros e _; unfold at_side, field; cbn [szs].
      * transitivity (rsum nd1 (fun m => lsum (fun p => s a p k * G a false p d e * (s false p m * h1 (m + e * nd1)%nat)) rule)).
        { rewrite <- lsum_rsum. apply lsum_ext_in. intros p _. rewrite <- rsum_scal. reflexivity. }
        apply rsum_ext. intros m _. unfold side_grad. rewrite Rmult_comm, <- lsum_mul. apply lsum_ext_in. intros. ring.
      * transitivity (rsum nd2 (fun m => lsum (fun p => s a p k * G a true p d e * (s true p m * h2 (m + e * nd2)%nat)) rule)).
        { rewrite <- lsum_rsum. apply lsum_ext_in. intros p _. rewrite <- rsum_scal. reflexivity. }
        apply rsum_ext. intros m _. unfold side_grad. rewrite Rmult_comm, <- lsum_mul. apply lsum_ext_in. intros. ring.
Qed.

(** A face: both sides in one vector *)
Lemma face_jacobian (F : fv -> fv) (J : fm) x :
  (forall y a k d, (d < dim)%nat -> (k < szs nd1 nd2 a)%nat -> F y (pos nd1 nd2 dim a k d) = side_value a y (fun i => y (nd1 * dim + i)%nat) k d) ->
  (forall a b k d m e, (d < dim)%nat -> (e < dim)%nat -> (k < szs nd1 nd2 a)%nat -> (m < szs nd1 nd2 b)%nat ->
     J (pos nd1 nd2 dim a k d) (pos nd1 nd2 dim b m e) = side_grad a b k d m e) ->
  flux_derivative x (fun i => x (nd1 * dim + i)%nat) ->
  is_jacobian (nd1 * dim + nd2 * dim) F J x.
Proof.
  intros HF HJ HD h i Hi.
  assert (E : exists a k d, (d < dim)%nat /\ (k < szs nd1 nd2 a)%nat /\ i = pos nd1 nd2 dim a k d /\ (a = false \/ nd2 <> 0%nat)).
  { destruct (Nat.lt_ge_cases i (nd1 * dim)) as [H|H].
    - destruct (grid_index nd1 dim i H) as (k & d & Hk & Hd & ->). exists false, k, d. auto.
    - destruct (grid_index nd2 dim (i - nd1 * dim) ltac:(lia)) as (k & d & Hk & Hd & E). exists true, k, d. cbn [szs pos]. repeat split; auto; lia. }
  destruct E as (a & k & d & Hd & Hk & -> & Ha).
  apply (derivative_ext (fun t => side_value a (fun i => x i + t * h i) (fun i => x (nd1 * dim + i)%nat + t * h (nd1 * dim + i)%nat) k d)).
  - intros t. rewrite HF by auto. reflexivity.
  - rewrite rsum_split, !rsum_grid.
    replace (rsum dim (fun d0 => rsum nd1 (fun k0 => J (pos nd1 nd2 dim a k d) (k0 + d0 * nd1)%nat * h (k0 + d0 * nd1)%nat)))
      with (rsum dim (fun e => rsum nd1 (fun m => side_grad a false k d m e * h (m + e * nd1)%nat))).
    2:{ apply rsum_ext. intros e He. apply rsum_ext. intros m Hm. rewrite <- (HJ a false k d m e); auto. }
    replace (rsum dim (fun d0 => rsum nd2 (fun k0 => J (pos nd1 nd2 dim a k d) (nd1 * dim + (k0 + d0 * nd2))%nat * h (nd1 * dim + (k0 + d0 * nd2))%nat)))
      with (rsum dim (fun e => rsum nd2 (fun m => side_grad a true k d m e * (fun i => h (nd1 * dim + i)%nat) (m + e * nd2)%nat))).
    2:{ apply rsum_ext. intros e He. apply rsum_ext. intros m Hm. rewrite <- (HJ a true k d m e); auto. }
    apply (side_derivative x (fun i => x (nd1 * dim + i)%nat) h (fun i => h (nd1 * dim + i)%nat)); auto.
Qed.

(** An interface: one vector for each side *)
Definition mat_of (a b : bool) (J : mats) : fm := if a then if b then m22 J else m21 J else if b then m12 J else m11 J.

Lemma itf_jacobian (F : fv -> fv -> fv * fv) (J : mats) x1 x2 :
  (forall y1 y2 k d, (d < dim)%nat -> (k < nd1)%nat -> fst (F y1 y2) (k + d * nd1)%nat = side_value false y1 y2 k d) ->
  (forall y1 y2 k d, (d < dim)%nat -> (k < nd2)%nat -> snd (F y1 y2) (k + d * nd2)%nat = side_value true y1 y2 k d) ->
  (forall a b k d m e, (d < dim)%nat -> (e < dim)%nat -> (k < szs nd1 nd2 a)%nat -> (m < szs nd1 nd2 b)%nat ->
     mat_of a b J (k + d * szs nd1 nd2 a)%nat (m + e * szs nd1 nd2 b)%nat = side_grad a b k d m e) ->
  flux_derivative x1 x2 ->
  is_jacobian2 (nd1 * dim) (nd2 * dim) F J x1 x2.
Proof.
  intros HF1 HF2 HJ HD h1 h2. split; intros i Hi.
  - destruct (grid_index nd1 dim i Hi) as (k & d & Hk & Hd & ->).
    apply (derivative_ext (fun t => side_value false (fun i => x1 i + t * h1 i) (fun i => x2 i + t * h2 i) k d)).
    + intros t. rewrite HF1 by auto. reflexivity.
    + rewrite !rsum_grid.
      replace (rsum dim (fun d0 => rsum nd1 (fun k0 => m11 J (k + d * nd1)%nat (k0 + d0 * nd1)%nat * h1 (k0 + d0 * nd1)%nat)))
        with (rsum dim (fun e => rsum nd1 (fun m => side_grad false false k d m e * h1 (m + e * nd1)%nat))).
      2:{ apply rsum_ext. intros e He. apply rsum_ext. intros m Hm. rewrite <- (HJ false false k d m e); auto. }
      replace (rsum dim (fun d0 => rsum nd2 (fun k0 => m12 J (k + d * nd1)%nat (k0 + d0 * nd2)%nat * h2 (k0 + d0 * nd2)%nat)))
        with (rsum dim (fun e => rsum nd2 (fun m => side_grad false true k d m e * h2 (m + e * nd2)%nat))).
      2:{ apply rsum_ext. intros e He. apply rsum_ext. intros m Hm. rewrite <- (HJ false true k d m e); auto. }
      apply side_derivative; auto.
  - destruct (grid_index nd2 dim i Hi) as (k & d & Hk & Hd & ->).
    apply (derivative_ext (fun t => side_value true (fun i => x1 i + t * h1 i) (fun i => x2 i + t * h2 i) k d)).
    + intros t. rewrite HF2 by auto. reflexivity.
    + rewrite !rsum_grid.
      replace (rsum dim (fun d0 => rsum nd1 (fun k0 => m21 J (k + d * nd2)%nat (k0 + d0 * nd1)%nat * h1 (k0 + d0 * nd1)%nat)))
        with (rsum dim (fun e => rsum nd1 (fun m => side_grad true false k d m e * h1 (m + e * nd1)%nat))).
      2:{ apply rsum_ext. intros e He. apply rsum_ext. intros m Hm. rewrite <- (HJ true false k d m e); auto. }
      replace (rsum dim (fun d0 => rsum nd2 (fun k0 => m22 J (k + d * nd2)%nat (k0 + d0 * nd2)%nat * h2 (k0 + d0 * nd2)%nat)))
        with (rsum dim (fun e => rsum nd2 (fun m => side_grad true true k d m e * h2 (m + e * nd2)%nat))).
      2:{ apply rsum_ext. intros e He. apply rsum_ext. intros m Hm. rewrite <- (HJ true true k d m e); auto. }
      apply side_derivative; auto. right. lia.
Qed.
End Sides.

(** ** Temam flux *)
Definition fs (a : bool) (p : fpt) : fv := if a then f_s2 p else f_s1 p.
Definition temam_phi (nd2 dim : nat) (a : bool) (p : fpt) (u1 u2 : fv) (d : nat) : R :=
  let un := inner dim (temam_nor p) u1 in
  if (nd2 =? 0)%nat then un * u1 d else if a then un * u1 d else - un * u2 d.
Definition temam_G (nd2 dim : nat) (u1 u2 : fpt -> fv) (a b : bool) (p : fpt) : fm := fun d e =>
  let un := inner dim (temam_nor p) (u1 p) in
  let nor := temam_nor p in
  if (nd2 =? 0)%nat then (if b then 0 else (if (d =? e)%nat then un else 0) + u1 p d * nor e)
  else if a then (if b then 0 else (if (d =? e)%nat then un else 0) + u1 p d * nor e)
  else (if b then (if (d =? e)%nat then - un else 0) else - u2 p d * nor e).

Lemma inner_lin n w u v t : inner n w (fun e => u e + t * v e) = inner n w u + t * inner n w v.
Proof. unfold inner. rewrite <- rsum_scal, <- rsum_plus. apply rsum_ext. intros. ring. Qed.

Lemma sum_rank1 dim d (c : R) (n v : fv) b : (d < dim)%nat ->
  rsum dim (fun e => ((if (d =? e)%nat then c else 0) + b * n e) * v e) = c * v d + b * inner dim n v.
Proof.
  intros H. transitivity (rsum dim (fun e => (if (d =? e)%nat then c * v e else 0) + b * (n e * v e))).
  - apply rsum_ext. intros e _. destruct (d =? e)%nat; ring.
  - rewrite rsum_plus, rsum_scal, (rsum_delta dim d (fun e => c * v e) H). reflexivity.
Qed.
Lemma sum_diag dim d (c : R) (v : fv) : (d < dim)%nat -> rsum dim (fun e => (if (d =? e)%nat then c else 0) * v e) = c * v d.
Proof.
  intros H. rewrite <- (rsum_delta dim d (fun e => c * v e) H). apply rsum_ext. intros e _. destruct (d =? e)%nat; ring.
Qed.
Lemma sum_vec dim (b : R) (n v : fv) : rsum dim (fun e => b * n e * v e) = b * inner dim n v.
Proof. unfold inner. rewrite <- rsum_scal. apply rsum_ext. intros. ring. Qed.
Lemma sum_none dim (v : fv) : rsum dim (fun e => 0 * v e) = 0.
Proof. rewrite (rsum_ext dim _ (fun _ => 0)) by (intros; ring). apply rsum_zero. Qed.

Lemma temam_flux_derivative nd1 nd2 dim rule x1 x2 :
  flux_derivative nd1 nd2 dim rule fs (temam_phi nd2 dim)
    (temam_G nd2 dim (fun p => at_side nd1 nd2 fs false x1 x2 p) (fun p => at_side nd1 nd2 fs true x1 x2 p)) x1 x2.
Proof.
  intros a p v1 v2 d Hp Hd H0 Ha. unfold temam_phi, temam_G. cbn zeta.
  set (u1 := at_side nd1 nd2 fs false x1 x2 p). set (u2 := at_side nd1 nd2 fs true x1 x2 p). set (nor := temam_nor p).
  destruct (Nat.eqb_spec nd2 0) as [E|E].
  - rewrite sum_none, sum_rank1 by auto.
    apply (quadratic_derivative _ (inner dim nor u1 * u1 d) _ (inner dim nor v1 * v1 d)). intros t. rewrite inner_lin. ring.
  - destruct a.
    + rewrite sum_none, sum_rank1 by auto.
      apply (quadratic_derivative _ (inner dim nor u1 * u1 d) _ (inner dim nor v1 * v1 d)). intros t. rewrite inner_lin. ring.
    + rewrite sum_diag, sum_vec by auto.
      apply (quadratic_derivative _ (- inner dim nor u1 * u2 d) _ (- inner dim nor v1 * v2 d)). intros t. rewrite inner_lin. ring.
Qed.

Lemma view_shift nd o x s d : mult_t nd (view o nd x) s d = field 0 nd s (fun i => x (o + i)%nat) d.
Proof. rewrite view_field. apply field_shift. Qed.
Lemma view_shift_f nd o x s : mult_t nd (view o nd x) s = field 0 nd s (fun i => x (o + i)%nat).
Proof. apply functional_extensionality. intros d. apply view_shift. Qed.
Lemma view_field_f o nd x s : mult_t nd (view o nd x) s = field o nd s x.
Proof. apply functional_extensionality. intros d. apply view_field. Qed.

Lemma temam_views_at nd1 nd2 dim rule y k d : 
  fst (temam_face_views nd1 nd2 dim rule y) k d = side_value nd1 nd2 rule fs (temam_phi nd2 dim) false y (fun i => y (nd1 * dim + i)%nat) k d /\
  (nd2 <> 0%nat -> snd (temam_face_views nd1 nd2 dim rule y) k d = side_value nd1 nd2 rule fs (temam_phi nd2 dim) true y (fun i => y (nd1 * dim + i)%nat) k d).
Proof.
  unfold temam_face_views, side_value. split.
  - rewrite (fold_add _ (fun p => fs false p k * temam_phi nd2 dim false p (at_side nd1 nd2 fs false y (fun i => y (nd1 * dim + i)%nat) p) (at_side nd1 nd2 fs true y (fun i => y (nd1 * dim + i)%nat) p) d)
      (fun vs : fm * fm => fst vs k d)).
    + cbn [fst]. unfold zero_m. ring.
    + intros (e1, e2) p _. cbn zeta. rewrite (view_field_f 0 nd1), (view_shift_f nd2). unfold temam_phi, at_side, fs. cbn [szs].
      destruct (nd2 =? 0)%nat; cbn [fst]; unfold add_vwt, scale; ring.
  - intros H. rewrite (fold_add _ (fun p => fs true p k * temam_phi nd2 dim true p (at_side nd1 nd2 fs false y (fun i => y (nd1 * dim + i)%nat) p) (at_side nd1 nd2 fs true y (fun i => y (nd1 * dim + i)%nat) p) d)
      (fun vs : fm * fm => snd vs k d)).
    + cbn [snd]. unfold zero_m. ring.
    + intros (e1, e2) p _. cbn zeta. rewrite (view_field_f 0 nd1), (view_shift_f nd2). unfold temam_phi, at_side, fs. cbn [szs].
      destruct (Nat.eqb_spec nd2 0); [contradiction|]. cbn [snd]. unfold add_vwt, scale; ring.
Qed.

Lemma temam_face_at nd1 nd2 dim rule y a k d : (d < dim)%nat -> (k < szs nd1 nd2 a)%nat ->
  temam_face_vector nd1 nd2 dim rule y (pos nd1 nd2 dim a k d) = side_value nd1 nd2 rule fs (temam_phi nd2 dim) a y (fun i => y (nd1 * dim + i)%nat) k d.
Proof.
  intros Hd Hk. unfold temam_face_vector. destruct a; cbn [szs pos] in *.
  - rewrite join_snd by auto. apply temam_views_at. lia.
  - rewrite join_fst by auto. apply temam_views_at.
Qed.

(** Reading one loop of single blocks *)
Lemma pair_loop nd1 nd2 dim a' b' (f : nat -> fm -> fm) (c : nat -> nat -> R) M k d m e : 
  (forall i M, (i < dim)%nat -> f i M (pos nd1 nd2 dim a' k d) (pos nd1 nd2 dim b' m e) = M (pos nd1 nd2 dim a' k d) (pos nd1 nd2 dim b' m e) + c i d) ->
  floop dim f M (pos nd1 nd2 dim a' k d) (pos nd1 nd2 dim b' m e) = M (pos nd1 nd2 dim a' k d) (pos nd1 nd2 dim b' m e) + rsum dim (fun i => c i d).
Proof. intros H. apply (floop_add dim f (fun i => c i d) (fun M => M (pos nd1 nd2 dim a' k d) (pos nd1 nd2 dim b' m e))). intros. apply H; auto. Qed.

Lemma temam_gpoint_at nd1 nd2 dim (rule : list fpt) x a b k d m e : (d < dim)%nat -> (e < dim)%nat -> (k < szs nd1 nd2 a)%nat -> (m < szs nd1 nd2 b)%nat ->
  temam_face_grad nd1 nd2 dim rule x (pos nd1 nd2 dim a k d) (pos nd1 nd2 dim b m e) =
  side_grad rule fs (temam_G nd2 dim (fun p => at_side nd1 nd2 fs false x (fun i => x (nd1 * dim + i)%nat) p)
                       (fun p => at_side nd1 nd2 fs true x (fun i => x (nd1 * dim + i)%nat) p)) a b k d m e.
Proof.
  intros Hd He Hk Hm. unfold temam_face_grad, side_grad.
  match goal with |- _ = lsum ?g rule => rewrite (fold_add _ g (fun M => M (pos nd1 nd2 dim a k d) (pos nd1 nd2 dim b m e))) end.
  { unfold zero_m. ring. }
  intros M p _. cbn zeta.
  assert (E1 : mult_t nd1 (view 0 nd1 x) (f_s1 p) = at_side nd1 nd2 fs false x (fun i => x (nd1 * dim + i)%nat) p) by apply view_field_f.
  assert (E2 : mult_t nd2 (view (nd1 * dim) nd2 x) (f_s2 p) = at_side nd1 nd2 fs true x (fun i => x (nd1 * dim + i)%nat) p) by apply view_shift_f.
  rewrite E1, E2. clear E1 E2.
  set (u1 := at_side nd1 nd2 fs false x (fun i => x (nd1 * dim + i)%nat) p). set (u2 := at_side nd1 nd2 fs true x (fun i => x (nd1 * dim + i)%nat) p).
  unfold temam_G. fold u1 u2. cbn zeta. set (nor := temam_nor p). set (un := inner dim nor u1).
  destruct (Nat.eqb_spec nd2 0) as [E|E].
  - assert (a = false /\ b = false) as (-> & ->) by (split; [destruct a|destruct b]; auto; cbn [szs] in *; lia).
    rewrite (floop_add dim _ (fun i => if (i =? d)%nat then (if (i =? e)%nat then un else 0) * (f_s1 p k * f_s1 p m) + u1 i * nor e * (f_s1 p k * f_s1 p m) else 0)
      (fun M => M (pos nd1 nd2 dim false k d) (pos nd1 nd2 dim false m e))).
    + rewrite (rsum_delta' dim d (fun i => (if (i =? e)%nat then un else 0) * (f_s1 p k * f_s1 p m) + u1 i * nor e * (f_s1 p k * f_s1 p m)) Hd).
      unfold fs. destruct (d =? e)%nat; ring.
    + intros i M' Hi. rewrite (floop_add dim _ (fun j => if (i =? d)%nat then if (j =? e)%nat then u1 i * nor j * (f_s1 p k * f_s1 p m) else 0 else 0)
        (fun M => M (pos nd1 nd2 dim false k d) (pos nd1 nd2 dim false m e))).
      * rewrite (add_matrix_side nd1 nd2 dim false false false false un _ i i M' k d m e) by auto. cbn [eqb]. unfold vwt.
        destruct (i =? d)%nat; [|rewrite rsum_zero; ring].
        rewrite (rsum_delta' dim e (fun j => u1 i * nor j * (f_s1 p k * f_s1 p m)) He). destruct (i =? e)%nat; ring.
      * intros j M'' Hj. rewrite (add_matrix_side nd1 nd2 dim false false false false _ _ i j M'' k d m e) by auto. reflexivity.
  - rewrite (floop_add dim _ (fun i => if (i =? d)%nat then
        (if a then if b then 0 else ((if (i =? e)%nat then un else 0) + u1 i * nor e) * (f_s2 p k * f_s1 p m)
         else if b then (if (i =? e)%nat then - un else 0) * (f_s1 p k * f_s2 p m) else - u2 i * nor e * (f_s1 p k * f_s1 p m)) else 0)
      (fun M => M (pos nd1 nd2 dim a k d) (pos nd1 nd2 dim b m e))).
    + rewrite (rsum_delta' dim d (fun i => if a then if b then 0 else ((if (i =? e)%nat then un else 0) + u1 i * nor e) * (f_s2 p k * f_s1 p m)
         else if b then (if (i =? e)%nat then - un else 0) * (f_s1 p k * f_s2 p m) else - u2 i * nor e * (f_s1 p k * f_s1 p m)) Hd).
      unfold fs. destruct a, b, (d =? e)%nat; ring.
    + intros i M' Hi. rewrite (floop_add dim _ (fun j => if (i =? d)%nat then if (j =? e)%nat then
          (if b then 0 else if a then u1 i * nor j * (f_s2 p k * f_s1 p m) else - u2 i * nor j * (f_s1 p k * f_s1 p m)) else 0 else 0)
        (fun M => M (pos nd1 nd2 dim a k d) (pos nd1 nd2 dim b m e))).
      * rewrite (add_matrix_side nd1 nd2 dim false true a b (- un) _ i i _ k d m e) by auto.
        rewrite (add_matrix_side nd1 nd2 dim true false a b un _ i i _ k d m e) by auto.
        unfold vwt, transpose.
        destruct (i =? d)%nat.
        -- rewrite (rsum_delta' dim e (fun j => if b then 0 else if a then u1 i * nor j * (f_s2 p k * f_s1 p m) else - u2 i * nor j * (f_s1 p k * f_s1 p m)) He).
           destruct a, b, (i =? e)%nat; cbn [eqb]; ring.
        -- rewrite rsum_zero. destruct a, b; cbn [eqb]; ring.
      * intros j M'' Hj.
        rewrite (add_matrix_side nd1 nd2 dim false false a b _ _ i j _ k d m e) by auto.
        rewrite (add_matrix_side nd1 nd2 dim true false a b _ _ i j _ k d m e) by auto.
        unfold vwt, transpose. destruct a, b, (i =? d)%nat, (j =? e)%nat; cbn [eqb]; ring.
Qed.

Lemma temam_face_jacobian nd1 nd2 dim rule x :
  is_jacobian (nd1 * dim + nd2 * dim) (temam_face_vector nd1 nd2 dim rule) (temam_face_grad nd1 nd2 dim rule x) x.
Proof.
  eapply (face_jacobian nd1 nd2 dim rule fs (temam_phi nd2 dim)).
  - intros. apply temam_face_at; auto.
  - intros. apply temam_gpoint_at; auto.
  - apply temam_flux_derivative.
Qed.

(** Interface *)
Lemma temam_itf_at nd1 nd2 dim rule y1 y2 : nd2 <> 0%nat ->
  (forall k d, (k < nd1)%nat -> fst (temam_itf_vector nd1 nd2 dim rule y1 y2) (k + d * nd1)%nat = side_value nd1 nd2 rule fs (temam_phi nd2 dim) false y1 y2 k d) /\
  (forall k d, (k < nd2)%nat -> snd (temam_itf_vector nd1 nd2 dim rule y1 y2) (k + d * nd2)%nat = side_value nd1 nd2 rule fs (temam_phi nd2 dim) true y1 y2 k d).
Proof.
  intros Hn. unfold temam_itf_vector. cbn zeta.
  match goal with |- context [fold_left ?f rule ?s0] => set (ff := f); set (ini := s0) end.
  assert (E1 : forall k d, fst (fold_left ff rule ini) k d = side_value nd1 nd2 rule fs (temam_phi nd2 dim) false y1 y2 k d).
  { intros k d. unfold side_value.
    rewrite (fold_add ff (fun p => fs false p k * temam_phi nd2 dim false p (at_side nd1 nd2 fs false y1 y2 p) (at_side nd1 nd2 fs true y1 y2 p) d) (fun vs : fm * fm => fst vs k d)).
    - cbn [ini fst]. unfold zero_m. ring.
    - intros (e1, e2) p _. unfold ff. cbn zeta. rewrite !view_field_f. cbn [fst]. unfold temam_phi, at_side, fs, add_vwt, scale. cbn [szs].
      destruct (Nat.eqb_spec nd2 0); [contradiction|]. ring. }
  assert (E2 : forall k d, snd (fold_left ff rule ini) k d = side_value nd1 nd2 rule fs (temam_phi nd2 dim) true y1 y2 k d).
  { intros k d. unfold side_value.
    rewrite (fold_add ff (fun p => fs true p k * temam_phi nd2 dim true p (at_side nd1 nd2 fs false y1 y2 p) (at_side nd1 nd2 fs true y1 y2 p) d) (fun vs : fm * fm => snd vs k d)).
    - cbn [ini snd]. unfold zero_m. ring.
    - intros (e1, e2) p _. unfold ff. cbn zeta. rewrite !view_field_f. cbn [snd]. unfold temam_phi, at_side, fs, add_vwt, scale. cbn [szs].
      destruct (Nat.eqb_spec nd2 0); [contradiction|]. ring. }
  destruct (fold_left ff rule ini) as (e1, e2). cbn [fst snd] in *. split; intros; rewrite unview_at by auto; auto.
Qed.

Lemma temam_itf_grad_at nd1 nd2 dim rule x1 x2 a b k d m e : nd2 <> 0%nat -> (d < dim)%nat -> (e < dim)%nat -> (k < szs nd1 nd2 a)%nat -> (m < szs nd1 nd2 b)%nat ->
  mat_of a b (temam_itf_grad nd1 nd2 dim rule x1 x2) (k + d * szs nd1 nd2 a)%nat (m + e * szs nd1 nd2 b)%nat =
  side_grad rule fs (temam_G nd2 dim (fun p => at_side nd1 nd2 fs false x1 x2 p) (fun p => at_side nd1 nd2 fs true x1 x2 p)) a b k d m e.
Proof.
  intros Hn Hd He Hk Hm. unfold temam_itf_grad, side_grad.
  match goal with |- _ = lsum ?g rule => rewrite (fold_add _ g (fun M => mat_of a b M (k + d * szs nd1 nd2 a)%nat (m + e * szs nd1 nd2 b)%nat)) end.
  { destruct a, b; cbn [mat_of zero_ms m11 m12 m21 m22]; unfold zero_m; ring. }
  intros M p _. cbn zeta. rewrite !view_field_f.
  change (field 0 nd1 (f_s1 p) x1) with (at_side nd1 nd2 fs false x1 x2 p). change (field 0 nd2 (f_s2 p) x2) with (at_side nd1 nd2 fs true x1 x2 p).
  set (u1 := at_side nd1 nd2 fs false x1 x2 p). set (u2 := at_side nd1 nd2 fs true x1 x2 p).
  unfold temam_G. fold u1 u2. cbn zeta. set (nor := temam_nor p). set (un := inner dim nor u1).
  destruct (Nat.eqb_spec nd2 0) as [E|_]; [contradiction|].
  rewrite (floop_add dim _ (fun i => if (i =? d)%nat then
        (if a then if b then 0 else ((if (i =? e)%nat then un else 0) + u1 i * nor e) * (f_s2 p k * f_s1 p m)
         else if b then (if (i =? e)%nat then - un else 0) * (f_s1 p k * f_s2 p m) else - u2 i * nor e * (f_s1 p k * f_s1 p m)) else 0)
      (fun M => mat_of a b M (k + d * szs nd1 nd2 a)%nat (m + e * szs nd1 nd2 b)%nat)).
  + rewrite (rsum_delta' dim d (fun i => if a then if b then 0 else ((if (i =? e)%nat then un else 0) + u1 i * nor e) * (f_s2 p k * f_s1 p m)
         else if b then (if (i =? e)%nat then - un else 0) * (f_s1 p k * f_s2 p m) else - u2 i * nor e * (f_s1 p k * f_s1 p m)) Hd).
    unfold fs. destruct a, b, (d =? e)%nat; ring.
  + intros i M' Hi. rewrite (floop_add dim _ (fun j => if (i =? d)%nat then if (j =? e)%nat then
          (if b then 0 else if a then u1 i * nor j * (f_s2 p k * f_s1 p m) else - u2 i * nor j * (f_s1 p k * f_s1 p m)) else 0 else 0)
        (fun M => mat_of a b M (k + d * szs nd1 nd2 a)%nat (m + e * szs nd1 nd2 b)%nat)).
    * destruct a, b; cbn [mat_of m11 m12 m21 m22 szs] in *.
      -- rewrite (rsum_ext dim _ (fun _ => 0)) by (intros j _; destruct (i =? d)%nat, (j =? e)%nat; reflexivity). rewrite rsum_zero. destruct (i =? d)%nat; ring.
      -- rewrite (add_matrix_at un _ nd2 nd1 i i 0 0 _ _ _ k d m e) by auto. unfold vwt, transpose. destruct (i =? d)%nat; [|rewrite rsum_zero; ring].
         rewrite (rsum_delta' dim e (fun j => u1 i * nor j * (f_s2 p k * f_s1 p m)) He). destruct (i =? e)%nat; ring.
      -- rewrite (add_matrix_at (- un) _ nd1 nd2 i i 0 0 _ _ _ k d m e) by auto.
         rewrite (rsum_ext dim _ (fun _ => 0)) by (intros j _; destruct (i =? d)%nat, (j =? e)%nat; reflexivity). rewrite rsum_zero.
         unfold vwt. destruct (i =? d)%nat, (i =? e)%nat; ring.
      -- destruct (i =? d)%nat; [|rewrite rsum_zero; ring].
         rewrite (rsum_delta' dim e (fun j => - u2 i * nor j * (f_s1 p k * f_s1 p m)) He). ring.
    * intros j M'' Hj. destruct a, b; cbn [mat_of m11 m12 m21 m22 szs] in *.
      -- destruct (i =? d)%nat, (j =? e)%nat; ring.
      -- rewrite (add_matrix_at _ _ nd2 nd1 i j 0 0 _ _ _ k d m e) by auto. unfold vwt, transpose. destruct (i =? d)%nat, (j =? e)%nat; ring.
      -- destruct (i =? d)%nat, (j =? e)%nat; ring.
      -- rewrite (add_matrix_at _ _ nd1 nd1 i j 0 0 _ _ _ k d m e) by auto. unfold vwt. destruct (i =? d)%nat, (j =? e)%nat; ring.
Qed.

Lemma temam_itf_jacobian nd1 nd2 dim rule x1 x2 : nd2 <> 0%nat ->
  is_jacobian2 (nd1 * dim) (nd2 * dim) (temam_itf_vector nd1 nd2 dim rule) (temam_itf_grad nd1 nd2 dim rule x1 x2) x1 x2.
Proof.
  intros Hn. eapply (itf_jacobian nd1 nd2 dim rule fs (temam_phi nd2 dim)).
  - intros. apply temam_itf_at; auto.
  - intros. apply temam_itf_at; auto.
  - intros. apply temam_itf_grad_at; auto.
  - apply temam_flux_derivative.
Qed.

(** ** Energy *)
Lemma side_tested {P} nd1 nd2 dim (rule : list P) (s : bool -> P -> fv) phi v1 v2 x1 x2 a (F : fv) :
  (forall k d, (d < dim)%nat -> (k < szs nd1 nd2 a)%nat -> F (k + d * szs nd1 nd2 a)%nat = side_value nd1 nd2 rule s phi a x1 x2 k d) ->
  tested (szs nd1 nd2 a * dim) (if a then v2 else v1) F =
  lsum (fun p => rsum dim (fun d => at_side nd1 nd2 s a v1 v2 p d * phi a p (at_side nd1 nd2 s false x1 x2 p) (at_side nd1 nd2 s true x1 x2 p) d)) rule.
Proof.
  intros H. rewrite (tested_points _ dim rule F (fun p k d => s a p k * phi a p (at_side nd1 nd2 s false x1 x2 p) (at_side nd1 nd2 s true x1 x2 p) d)) by (intros; apply H; auto).
  apply lsum_ext_in. intros p _. apply rsum_ext. intros d _. unfold at_side at 3, field. rewrite <- rsum_scal_r. apply rsum_ext. intros k _.
  change (0 + k + d * szs nd1 nd2 a)%nat with (k + d * szs nd1 nd2 a)%nat. ring.
Qed.

Lemma temam_itf_energy nd1 nd2 dim rule u1 u2 : nd2 <> 0%nat ->
  tested (nd1 * dim) u1 (fst (temam_itf_vector nd1 nd2 dim rule u1 u2)) + tested (nd2 * dim) u2 (snd (temam_itf_vector nd1 nd2 dim rule u1 u2)) = 0.
Proof.
  intros Hn.
  rewrite (side_tested nd1 nd2 dim rule fs (temam_phi nd2 dim) u1 u2 u1 u2 false) by (intros; apply (temam_itf_at nd1 nd2 dim rule u1 u2 Hn); auto).
  rewrite (side_tested nd1 nd2 dim rule fs (temam_phi nd2 dim) u1 u2 u1 u2 true) by (intros; apply (temam_itf_at nd1 nd2 dim rule u1 u2 Hn); auto).
  rewrite <- lsum_add. apply lsum_0. intros p _. rewrite <- rsum_plus. rewrite (rsum_ext dim _ (fun _ => 0)); [apply rsum_zero|].
  intros d _. unfold temam_phi. cbn zeta. destruct (Nat.eqb_spec nd2 0); [contradiction|]. ring.
Qed.

Lemma temam_face_energy nd1 nd2 dim rule u : nd2 <> 0%nat -> tested (nd1 * dim + nd2 * dim) u (temam_face_vector nd1 nd2 dim rule u) = 0.
Proof.
  intros Hn. unfold tested. rewrite rsum_split.
  set (v2 := fun i => u (nd1 * dim + i)%nat).
  pose proof (side_tested nd1 nd2 dim rule fs (temam_phi nd2 dim) u v2 u v2 false (temam_face_vector nd1 nd2 dim rule u)
    (fun k d Hd Hk => temam_face_at nd1 nd2 dim rule u false k d Hd Hk)) as E1.
  pose proof (side_tested nd1 nd2 dim rule fs (temam_phi nd2 dim) u v2 u v2 true (fun i => temam_face_vector nd1 nd2 dim rule u (nd1 * dim + i)%nat)
    (fun k d Hd Hk => temam_face_at nd1 nd2 dim rule u true k d Hd Hk)) as E2.
  unfold tested in E1, E2. cbn [szs] in E1, E2.
  etransitivity; [apply (f_equal2 Rplus E1 E2)|].
  rewrite <- lsum_add. apply lsum_0. intros p _. rewrite <- rsum_plus. rewrite (rsum_ext dim _ (fun _ => 0)); [apply rsum_zero|].
  intros d _. unfold temam_phi. cbn zeta. destruct (Nat.eqb_spec nd2 0); [contradiction|]. ring.
Qed.

(** A boundary face: half the kinetic energy carried out of the domain *)
Lemma temam_boundary_energy nd1 dim rule u :
  tested (nd1 * dim) u (temam_face_vector nd1 0 dim rule u) =
  lsum (fun p => f_w p * coef (f_Q p) * (1 / 2 * inner dim (f_nor p) (field 0 nd1 (f_s1 p) u) * inner dim (field 0 nd1 (f_s1 p) u) (field 0 nd1 (f_s1 p) u))) rule.
Proof.
  set (v2 := fun i => u (nd1 * dim + i)%nat).
  pose proof (side_tested nd1 0 dim rule fs (temam_phi 0 dim) u v2 u v2 false (temam_face_vector nd1 0 dim rule u)
    (fun k d Hd Hk => temam_face_at nd1 0 dim rule u false k d Hd Hk)) as E1.
  cbn [szs] in E1. etransitivity; [exact E1|].
  apply lsum_ext_in. intros p _. unfold temam_phi. cbn [Nat.eqb]. unfold at_side, fs. cbn [szs].
  set (w := field 0 nd1 (f_s1 p) u).
  replace (inner dim (temam_nor p) w) with (f_w p * coef (f_Q p) * (1 / 2 * inner dim (f_nor p) w)).
  - unfold inner at 3. rewrite <- !rsum_scal.
    apply rsum_ext. intros d _. ring.
  - unfold temam_nor, inner, scale. rewrite <- !rsum_scal. apply rsum_ext. intros d _. unfold with_q, coef. destruct (f_Q p); field.
Qed.
