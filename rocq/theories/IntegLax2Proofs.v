(** The Lax-Friedrichs integrators: values and Jacobians on faces and interfaces. *)
From Coq Require Import Reals List Bool Lia Arith Lra FunctionalExtensionality.
From Verif Require Import LaBase EqpSpec IntegModel IntegSpec IntegProofs IntegDomProofs IntegFaceProofs IntegLaxProofs.
Import ListNotations.
Local Open Scope R_scope.

(** Is there a velocity on the other side, and which *)
Definition has2 (nd2 : nat) (ud : bool) : bool := negb (nd2 =? 0)%nat || ud.
Definition other (nd2 : nat) (ud : bool) (old : fv) (p : fpt) (u2 : fv) : fv :=
  if (nd2 =? 0)%nat then if ud then f_UD p else old else u2.
Definition lf_phi (nd2 dim : nat) (ud : bool) (old : fv) (wt : fpt -> R) (a : bool) (p : fpt) (u1 u2 : fv) (d : nat) : R :=
  (if a then with_q (f_Q p) (wt p) else - with_q (f_Q p) (wt p)) * lf_flux dim u1 (other nd2 ud old p u2) (f_nor p) (has2 nd2 ud) d.

(** The gradients where they are numbers *)
Definition lf_g (nd2 dim : nat) (ud : bool) (old : fv) (p : fpt) (u1 u2 : fv) (b : bool) : fm :=
  match lf_grad dim u1 (other nd2 ud old p u2) (f_nor p) (has2 nd2 ud) (negb (nd2 =? 0)%nat) with
  | Some (g1, g2) => if b then g2 else g1
  | None => zero_m
  end.
Definition lf_G (nd2 dim : nat) (ud : bool) (old : fv) (wt : fpt -> R) (u1 u2 : fpt -> fv) (a b : bool) (p : fpt) : fm := fun d e =>
  (if a then with_q (f_Q p) (wt p) else - with_q (f_Q p) (wt p)) * lf_g nd2 dim ud old p (u1 p) (u2 p) b d e.

Definition lf_smooth (nd1 nd2 dim : nat) (ud : bool) (old : fv) (rule : list fpt) (x1 x2 : fv) : Prop := forall p, In p rule -> has2 nd2 ud = true ->
  smooth_at dim (at_side nd1 nd2 fs false x1 x2 p) (other nd2 ud old p (at_side nd1 nd2 fs true x1 x2 p)).

Lemma lf_derivative nd1 nd2 dim ud old wt rule x1 x2 : lf_smooth nd1 nd2 dim ud old rule x1 x2 ->
  flux_derivative nd1 nd2 dim rule fs (lf_phi nd2 dim ud old wt)
    (lf_G nd2 dim ud old wt (fun p => at_side nd1 nd2 fs false x1 x2 p) (fun p => at_side nd1 nd2 fs true x1 x2 p)) x1 x2.
Proof.
  intros HS a p v1 v2 d Hp Hd H0 Ha. specialize (HS p Hp). unfold lf_phi, lf_G, lf_g.
  set (u1 := at_side nd1 nd2 fs false x1 x2 p) in *. set (u2 := at_side nd1 nd2 fs true x1 x2 p) in *.
  destruct (lf_grad_some dim u1 (other nd2 ud old p u2) (f_nor p) (has2 nd2 ud) (negb (nd2 =? 0)%nat) HS) as ((g1, g2) & Eg). rewrite Eg.
  set (c := if a then with_q (f_Q p) (wt p) else - with_q (f_Q p) (wt p)).
  replace (rsum dim (fun e => c * g1 d e * v1 e) + rsum dim (fun e => c * g2 d e * v2 e)) with
    (c * (rsum dim (fun e => g1 d e * v1 e) + rsum dim (fun e => g2 d e * v2 e))).
  2:{ rewrite Rmult_plus_distr_l, <- !rsum_scal. f_equal; apply rsum_ext; intros; ring. }
  apply derivative_scal.
  apply (derivative_ext (fun t => lf_flux dim (line u1 v1 t) (line (other nd2 ud old p u2) v2 t) (f_nor p) (has2 nd2 ud) d)).
  - intros t. unfold other. destruct (Nat.eqb_spec nd2 0) as [E|E]; [|reflexivity].
    assert (L : forall u, line u v2 t = u).
    { intros u. apply functional_extensionality. intros e. unfold line. rewrite (H0 E). ring. }
    destruct ud; rewrite L; reflexivity.
  - apply (lf_flux_derivative dim u1 (other nd2 ud old p u2) v1 v2 (f_nor p) (has2 nd2 ud) (negb (nd2 =? 0)%nat)); auto.
    + intros E. apply H0. destruct (Nat.eqb_spec nd2 0); [auto|discriminate E].
    + unfold has2. destruct (nd2 =? 0)%nat; auto.
Qed.

Lemma lf_u2_other nd2 ud p e2 old : lf_u2 nd2 ud p e2 old = other nd2 ud old p (mult_t nd2 e2 (f_s2 p)).
Proof. unfold lf_u2, other. destruct (nd2 =? 0)%nat; reflexivity. Qed.

(** Values *)
Lemma lf_fold_at nd1 nd2 dim ud old wt rule o x1 x2 k d :
  let r := fold_left (fun elv p => lf_base nd1 nd2 dim ud p (wt p) (view 0 nd1 x1) (view o nd2 x2) old elv) rule (zero_m, zero_m) in
  fst r k d = side_value nd1 nd2 rule fs (lf_phi nd2 dim ud old wt) false x1 (fun i => x2 (o + i)%nat) k d /\
  (nd2 <> 0%nat -> snd r k d = side_value nd1 nd2 rule fs (lf_phi nd2 dim ud old wt) true x1 (fun i => x2 (o + i)%nat) k d).
Proof.
  cbn zeta. unfold side_value. split.
  - rewrite (fold_add _ (fun p => fs false p k * lf_phi nd2 dim ud old wt false p (at_side nd1 nd2 fs false x1 (fun i => x2 (o + i)%nat) p) (at_side nd1 nd2 fs true x1 (fun i => x2 (o + i)%nat) p) d)
      (fun vs : fm * fm => fst vs k d)).
    + cbn [fst]. unfold zero_m. ring.
    + intros (e1, e2) p _. unfold lf_base. cbn zeta. cbn [fst]. rewrite lf_u2_other, view_field_f, view_shift_f.
      unfold add_vwt, lf_phi, at_side, fs, has2. cbn [szs]. ring.
  - intros Hn. rewrite (fold_add _ (fun p => fs true p k * lf_phi nd2 dim ud old wt true p (at_side nd1 nd2 fs false x1 (fun i => x2 (o + i)%nat) p) (at_side nd1 nd2 fs true x1 (fun i => x2 (o + i)%nat) p) d)
      (fun vs : fm * fm => snd vs k d)).
    + cbn [snd]. unfold zero_m. ring.
    + intros (e1, e2) p _. unfold lf_base. cbn zeta. cbn [snd]. rewrite lf_u2_other, view_field_f, view_shift_f.
      unfold add_vwt, lf_phi, at_side, fs, has2. cbn [szs]. destruct (Nat.eqb_spec nd2 0); [contradiction|]. cbn [negb]. ring.
Qed.

Definition lf_face_sum (nd1 nd2 dim : nat) (ud : bool) (wt : fpt -> R) (rule : list fpt) (elfun old : fv) : fv :=
  join nd1 nd2 dim (fold_left (fun elv p =>
    lf_base nd1 nd2 dim ud p (wt p) (view 0 nd1 elfun) (view (nd1 * dim) nd2 elfun) old elv) rule (zero_m, zero_m)).

Lemma lf_face_at nd1 nd2 dim ud old wt rule y a k d : (d < dim)%nat -> (k < szs nd1 nd2 a)%nat ->
  lf_face_sum nd1 nd2 dim ud wt rule y old (pos nd1 nd2 dim a k d) =
  side_value nd1 nd2 rule fs (lf_phi nd2 dim ud old wt) a y (fun i => y (nd1 * dim + i)%nat) k d.
Proof.
  intros Hd Hk. unfold lf_face_sum. destruct a; cbn [szs pos] in *.
  - rewrite join_snd by auto. apply (lf_fold_at nd1 nd2 dim ud old wt rule (nd1 * dim) y y k d). lia.
  - rewrite join_fst by auto. apply (lf_fold_at nd1 nd2 dim ud old wt rule (nd1 * dim) y y k d).
Qed.

(** Gradients *)
Lemma fold_opt_inv {A S} (f : A -> S -> option S) (Q : list A -> S -> Prop) l : forall s s',
  fold_opt f l s = Some s' -> (forall k a s1 s2, Q k s1 -> In a l -> f a s1 = Some s2 -> Q (k ++ [a]) s2) -> forall k, Q k s -> Q (k ++ l) s'.
Proof.
  unfold fold_opt. induction l as [|a l IH]; intros s s' H Hs k Hk.
  - cbn in H. injection H as <-. rewrite app_nil_r. exact Hk.
  - cbn [fold_left] in H. destruct (f a s) as [s1|] eqn:E.
    + change (k ++ a :: l) with (k ++ [a] ++ l). rewrite app_assoc. apply (IH s1); auto.
      * intros k0 a0 s2 s3 Q0 I0 F0. apply (Hs k0 a0 s2 s3); auto. right. exact I0.
      * apply (Hs k a s s1); auto. left. reflexivity.
    + exfalso. clear - H. induction l as [|b l IH]; [discriminate|]. cbn [fold_left] in H. auto.
Qed.

Lemma fold_opt_add {A S} (f : A -> S -> option S) (c : A -> R) (rd : S -> R) l s s' :
  fold_opt f l s = Some s' -> (forall a s1 s2, In a l -> f a s1 = Some s2 -> rd s2 = rd s1 + c a) -> rd s' = rd s + lsum c l.
Proof.
  intros H Hs. apply (fold_opt_inv f (fun k s1 => rd s1 = rd s + lsum c k) l s s' H) with (k := []).
  - intros k a s1 s2 Q0 I0 F0. rewrite (Hs a s1 s2 I0 F0), Q0, lsum_app. cbn. ring.
  - cbn. ring.
Qed.

Lemma lf_gbase_some nd1 nd2 dim ud p iw o x1 x2 old w g1 g2 :
  lf_gbase nd1 nd2 dim ud p iw (view 0 nd1 x1) (view o nd2 x2) old = Some (w, g1, g2) ->
  w = with_q (f_Q p) iw /\ lf_g nd2 dim ud old p (field 0 nd1 (f_s1 p) x1) (field 0 nd2 (f_s2 p) (fun i => x2 (o + i)%nat)) false = g1 /\
  lf_g nd2 dim ud old p (field 0 nd1 (f_s1 p) x1) (field 0 nd2 (f_s2 p) (fun i => x2 (o + i)%nat)) true = g2.
Proof.
  unfold lf_gbase, lf_g. cbn zeta. rewrite lf_u2_other, view_field_f, view_shift_f. fold (has2 nd2 ud).
  destruct (lf_grad _ _ _ _ _ _) as [(h1, h2)|]; [|discriminate]. intros H. injection H as <- <- <-. auto.
Qed.

Lemma rsum2_delta n m d e (v : R) : (d < n)%nat -> (e < m)%nat ->
  rsum n (fun i => rsum m (fun j => if (i =? d)%nat then if (j =? e)%nat then v else 0 else 0)) = v.
Proof.
  intros Hd He. transitivity (rsum n (fun i => if (i =? d)%nat then v else 0)).
  - apply rsum_ext. intros i _. destruct (i =? d)%nat; [apply (rsum_delta' m e (fun _ => v) He)|apply rsum_zero].
  - apply (rsum_delta' n d (fun _ => v) Hd).
Qed.

Lemma lf_gpoint_at nd1 nd2 dim ud p iw x old M M' a b k d m e : (d < dim)%nat -> (e < dim)%nat -> (k < szs nd1 nd2 a)%nat -> (m < szs nd1 nd2 b)%nat ->
  lf_face_gpoint nd1 nd2 dim ud p iw x old M = Some M' ->
  M' (pos nd1 nd2 dim a k d) (pos nd1 nd2 dim b m e) = M (pos nd1 nd2 dim a k d) (pos nd1 nd2 dim b m e) +
    fs a p k * ((if a then with_q (f_Q p) iw else - with_q (f_Q p) iw) *
      lf_g nd2 dim ud old p (field 0 nd1 (f_s1 p) x) (field 0 nd2 (f_s2 p) (fun i => x (nd1 * dim + i)%nat)) b d e) * fs b p m.
Proof.
  intros Hd He Hk Hm. unfold lf_face_gpoint.
  destruct (lf_gbase nd1 nd2 dim ud p iw (view 0 nd1 x) (view (nd1 * dim) nd2 x) old) as [((w, g1), g2)|] eqn:Eg; [|discriminate].
  apply lf_gbase_some in Eg. destruct Eg as (-> & E1 & E2). cbn zeta. intros H. injection H as <-.
  set (w := with_q (f_Q p) iw). set (g := fun b : bool => lf_g nd2 dim ud old p (field 0 nd1 (f_s1 p) x) (field 0 nd2 (f_s2 p) (fun i => x (nd1 * dim + i)%nat)) b).
  change (lf_g nd2 dim ud old p _ _ b) with (g b). assert (G1 : g1 = g false) by (symmetry; exact E1). assert (G2 : g2 = g true) by (symmetry; exact E2).
  rewrite G1, G2. clear E1 E2 G1 G2 g1 g2.
  set (v := fs a p k * ((if a then w else - w) * g b d e) * fs b p m).
  rewrite (floop_add dim _ (fun i => rsum dim (fun j => if (i =? d)%nat then if (j =? e)%nat then v else 0 else 0)) (fun M => M (pos nd1 nd2 dim a k d) (pos nd1 nd2 dim b m e))).
  - rewrite rsum2_delta by auto. reflexivity.
  - intros i M1 Hi. rewrite (floop_add dim _ (fun j => if (i =? d)%nat then if (j =? e)%nat then v else 0 else 0) (fun M => M (pos nd1 nd2 dim a k d) (pos nd1 nd2 dim b m e))); [reflexivity|].
    intros j M2 Hj. destruct (Nat.eqb_spec nd2 0) as [E|E]; cbn [negb].
    + assert (a = false /\ b = false) as (-> & ->) by (split; [destruct a|destruct b]; auto; cbn [szs] in *; lia).
      rewrite (add_matrix_side nd1 nd2 dim false false false false _ _ i j M2 k d m e) by auto. cbn [eqb]. unfold v, fs, vwt.
      destruct (Nat.eqb_spec i d) as [->|], (Nat.eqb_spec j e) as [->|]; ring.
    + rewrite (add_matrix_side nd1 nd2 dim true true a b _ _ i j _ k d m e) by auto.
      rewrite (add_matrix_side nd1 nd2 dim true false a b _ _ i j _ k d m e) by auto.
      rewrite (add_matrix_side nd1 nd2 dim false true a b _ _ i j _ k d m e) by auto.
      rewrite (add_matrix_side nd1 nd2 dim false false a b _ _ i j _ k d m e) by auto.
      unfold v, fs, vwt, transpose.
      destruct (Nat.eqb_spec i d) as [->|], (Nat.eqb_spec j e) as [->|]; destruct a, b; cbn [eqb]; ring.
Qed.

Definition lf_face_gsum (nd1 nd2 dim : nat) (ud : bool) (wt : fpt -> R) (rule : list fpt) (elfun old : fv) : option fm :=
  fold_opt (fun p m => lf_face_gpoint nd1 nd2 dim ud p (wt p) elfun old m) rule zero_m.

Lemma lf_face_grad_at nd1 nd2 dim ud wt rule x old J a b k d m e : (d < dim)%nat -> (e < dim)%nat -> (k < szs nd1 nd2 a)%nat -> (m < szs nd1 nd2 b)%nat ->
  lf_face_gsum nd1 nd2 dim ud wt rule x old = Some J ->
  J (pos nd1 nd2 dim a k d) (pos nd1 nd2 dim b m e) =
  side_grad rule fs (lf_G nd2 dim ud old wt (fun p => at_side nd1 nd2 fs false x (fun i => x (nd1 * dim + i)%nat) p)
                       (fun p => at_side nd1 nd2 fs true x (fun i => x (nd1 * dim + i)%nat) p)) a b k d m e.
Proof.
  intros Hd He Hk Hm H. unfold side_grad.
  rewrite (fold_opt_add _ (fun p => fs a p k * lf_G nd2 dim ud old wt (fun p => at_side nd1 nd2 fs false x (fun i => x (nd1 * dim + i)%nat) p)
                       (fun p => at_side nd1 nd2 fs true x (fun i => x (nd1 * dim + i)%nat) p) a b p d e * fs b p m)
      (fun M : fm => M (pos nd1 nd2 dim a k d) (pos nd1 nd2 dim b m e)) rule zero_m J H).
  - unfold zero_m. ring.
  - intros p M M' _ E. apply (lf_gpoint_at nd1 nd2 dim ud p (wt p) x old M M' a b k d m e); auto.
Qed.

(** The Jacobian is a number where the flux is smooth *)
Lemma fold_opt_some {A S} (f : A -> S -> option S) l : forall s, (forall a s1, In a l -> exists s2, f a s1 = Some s2) -> exists s', fold_opt f l s = Some s'.
Proof.
  unfold fold_opt. induction l as [|a l IH]; intros s H; [eexists; reflexivity|].
  cbn [fold_left]. destruct (H a s ltac:(left; reflexivity)) as (s1 & ->). apply IH. intros b s2 Hb. apply H. right. exact Hb.
Qed.

Lemma lf_gbase_exists nd1 nd2 dim ud p iw o x1 x2 old :
  (has2 nd2 ud = true -> smooth_at dim (field 0 nd1 (f_s1 p) x1) (other nd2 ud old p (field 0 nd2 (f_s2 p) (fun i => x2 (o + i)%nat)))) ->
  exists r, lf_gbase nd1 nd2 dim ud p iw (view 0 nd1 x1) (view o nd2 x2) old = Some r.
Proof.
  intros H. unfold lf_gbase. cbn zeta. rewrite lf_u2_other, view_field_f, view_shift_f. fold (has2 nd2 ud).
  destruct (lf_grad_some dim _ _ (f_nor p) _ (negb (nd2 =? 0)%nat) H) as ((g1, g2) & ->). eauto.
Qed.

Lemma lf_face_jacobian nd1 nd2 dim ud wt rule x old : lf_smooth nd1 nd2 dim ud old rule x (fun i => x (nd1 * dim + i)%nat) ->
  exists J, lf_face_gsum nd1 nd2 dim ud wt rule x old = Some J /\
    is_jacobian (nd1 * dim + nd2 * dim) (fun y => lf_face_sum nd1 nd2 dim ud wt rule y old) J x.
Proof.
  intros HS. destruct (fold_opt_some (fun p m => lf_face_gpoint nd1 nd2 dim ud p (wt p) x old m) rule zero_m) as (J & EJ).
  { intros p M Hp. unfold lf_face_gpoint. destruct (lf_gbase_exists nd1 nd2 dim ud p (wt p) (nd1 * dim) x x old) as (((w, g1), g2) & ->); [|eauto].
    exact (HS p Hp). }
  exists J. split; [exact EJ|].
  eapply (face_jacobian nd1 nd2 dim rule fs (lf_phi nd2 dim ud old wt)).
  - intros y a k d Hd Hk. apply lf_face_at; auto.
  - intros a b k d m e Hd He Hk Hm. apply (lf_face_grad_at nd1 nd2 dim ud wt rule x old J); auto.
  - apply lf_derivative. exact HS.
Qed.

(** Interface *)
Definition lf_itf_sum (nd1 nd2 dim : nat) (ud : bool) (wt : fpt -> R) (rule : list fpt) (elfun1 elfun2 old : fv) : fv * fv :=
  let elv := fold_left (fun elv p =>
    lf_base nd1 nd2 dim ud p (wt p) (view 0 nd1 elfun1) (view 0 nd2 elfun2) old elv) rule (zero_m, zero_m) in
  (unview nd1 (fst elv), unview nd2 (snd elv)).
Definition lf_itf_gsum (nd1 nd2 dim : nat) (ud : bool) (wt : fpt -> R) (rule : list fpt) (elfun1 elfun2 old : fv) : option mats :=
  fold_opt (fun p m => lf_itf_gpoint nd1 nd2 dim ud p (wt p) elfun1 elfun2 old m) rule zero_ms.

Lemma lf_itf_at nd1 nd2 dim ud wt rule y1 y2 old :
  (forall k d, (k < nd1)%nat -> fst (lf_itf_sum nd1 nd2 dim ud wt rule y1 y2 old) (k + d * nd1)%nat = side_value nd1 nd2 rule fs (lf_phi nd2 dim ud old wt) false y1 y2 k d) /\
  (forall k d, (k < nd2)%nat -> snd (lf_itf_sum nd1 nd2 dim ud wt rule y1 y2 old) (k + d * nd2)%nat = side_value nd1 nd2 rule fs (lf_phi nd2 dim ud old wt) true y1 y2 k d).
Proof.
  unfold lf_itf_sum. cbn zeta. cbn [fst snd]. split; intros k d Hk; rewrite unview_at by auto;
    pose proof (lf_fold_at nd1 nd2 dim ud old wt rule 0 y1 y2 k d) as E; cbn zeta in E; apply E. lia.
Qed.

Lemma lf_itf_gpoint_at nd1 nd2 dim ud p iw x1 x2 old M M' a b k d m e : (d < dim)%nat -> (e < dim)%nat -> (k < szs nd1 nd2 a)%nat -> (m < szs nd1 nd2 b)%nat ->
  lf_itf_gpoint nd1 nd2 dim ud p iw x1 x2 old M = Some M' ->
  mat_of a b M' (k + d * szs nd1 nd2 a)%nat (m + e * szs nd1 nd2 b)%nat = mat_of a b M (k + d * szs nd1 nd2 a)%nat (m + e * szs nd1 nd2 b)%nat +
    fs a p k * ((if a then with_q (f_Q p) iw else - with_q (f_Q p) iw) *
      lf_g nd2 dim ud old p (field 0 nd1 (f_s1 p) x1) (field 0 nd2 (f_s2 p) x2) b d e) * fs b p m.
Proof.
  intros Hd He Hk Hm. unfold lf_itf_gpoint.
  destruct (lf_gbase nd1 nd2 dim ud p iw (view 0 nd1 x1) (view 0 nd2 x2) old) as [((w, g1), g2)|] eqn:Eg; [|discriminate].
  apply lf_gbase_some in Eg. destruct Eg as (-> & E1 & E2). cbn zeta. intros H. injection H as <-.
  set (w := with_q (f_Q p) iw). set (g := fun b : bool => lf_g nd2 dim ud old p (field 0 nd1 (f_s1 p) x1) (field 0 nd2 (f_s2 p) x2) b).
  change (lf_g nd2 dim ud old p _ _ b) with (g b). assert (G1 : g1 = g false) by (symmetry; exact E1). assert (G2 : g2 = g true) by (symmetry; exact E2).
  rewrite G1, G2. clear E1 E2 G1 G2 g1 g2.
  set (v := fs a p k * ((if a then w else - w) * g b d e) * fs b p m).
  rewrite (floop_add dim _ (fun i => rsum dim (fun j => if (i =? d)%nat then if (j =? e)%nat then v else 0 else 0)) (fun M => mat_of a b M (k + d * szs nd1 nd2 a)%nat (m + e * szs nd1 nd2 b)%nat)).
  - rewrite rsum2_delta by auto. reflexivity.
  - intros i M1 Hi. rewrite (floop_add dim _ (fun j => if (i =? d)%nat then if (j =? e)%nat then v else 0 else 0) (fun M => mat_of a b M (k + d * szs nd1 nd2 a)%nat (m + e * szs nd1 nd2 b)%nat)); [reflexivity|].
    intros j M2 Hj. destruct (Nat.eqb_spec nd2 0) as [E|E]; cbn [negb].
    + assert (a = false /\ b = false) as (-> & ->) by (split; [destruct a|destruct b]; auto; cbn [szs] in *; lia).
      cbn [mat_of m11 szs] in *.
      rewrite (add_matrix_at _ _ nd1 nd1 i j 0 0 _ _ _ k d m e) by auto. unfold v, fs, vwt.
      destruct (Nat.eqb_spec i d) as [->|], (Nat.eqb_spec j e) as [->|]; ring.
    + unfold v, fs. destruct a, b; cbn [mat_of m11 m12 m21 m22 szs] in *;
        [rewrite (add_matrix_at _ _ nd2 nd2 i j 0 0 _ _ _ k d m e) by auto|rewrite (add_matrix_at _ _ nd2 nd1 i j 0 0 _ _ _ k d m e) by auto
        |rewrite (add_matrix_at _ _ nd1 nd2 i j 0 0 _ _ _ k d m e) by auto|rewrite (add_matrix_at _ _ nd1 nd1 i j 0 0 _ _ _ k d m e) by auto];
        unfold vwt, transpose; destruct (Nat.eqb_spec i d) as [->|], (Nat.eqb_spec j e) as [->|]; ring.
Qed.

Lemma lf_itf_jacobian nd1 nd2 dim ud wt rule x1 x2 old : lf_smooth nd1 nd2 dim ud old rule x1 x2 ->
  exists J, lf_itf_gsum nd1 nd2 dim ud wt rule x1 x2 old = Some J /\
    is_jacobian2 (nd1 * dim) (nd2 * dim) (fun y1 y2 => lf_itf_sum nd1 nd2 dim ud wt rule y1 y2 old) J x1 x2.
Proof.
  intros HS. destruct (fold_opt_some (fun p m => lf_itf_gpoint nd1 nd2 dim ud p (wt p) x1 x2 old m) rule zero_ms) as (J & EJ).
  { intros p M Hp. unfold lf_itf_gpoint. destruct (lf_gbase_exists nd1 nd2 dim ud p (wt p) 0 x1 x2 old) as (((w, g1), g2) & ->); [|eauto].
    exact (HS p Hp). }
  exists J. split; [exact EJ|].
  apply (itf_jacobian nd1 nd2 dim rule fs (lf_phi nd2 dim ud old wt)
    (lf_G nd2 dim ud old wt (fun p => at_side nd1 nd2 fs false x1 x2 p) (fun p => at_side nd1 nd2 fs true x1 x2 p))).
  - intros. apply lf_itf_at; auto.
  - intros. apply lf_itf_at; auto.
  - intros a b k d m e Hd He Hk Hm. unfold side_grad.
    rewrite (fold_opt_add _ (fun p => fs a p k * lf_G nd2 dim ud old wt (fun p => at_side nd1 nd2 fs false x1 x2 p)
                       (fun p => at_side nd1 nd2 fs true x1 x2 p) a b p d e * fs b p m)
      (fun M => mat_of a b M (k + d * szs nd1 nd2 a)%nat (m + e * szs nd1 nd2 b)%nat) rule zero_ms J EJ).
    + destruct a, b; cbn [mat_of zero_ms m11 m12 m21 m22]; unfold zero_m; ring.
    + intros p M M' _ E. apply (lf_itf_gpoint_at nd1 nd2 dim ud p (wt p) x1 x2 old M M' a b k d m e); auto.
  - apply lf_derivative. exact HS.
Qed.

(** ** Conservation and consistency of the flux *)
Lemma vdot_neg dim n u : vdot dim (fun d => - n d) u = - vdot dim n u.
Proof. unfold vdot. rewrite <- (Rmult_1_l (rsum dim (fun d => n d * u d))), <- Ropp_mult_distr_l_reverse, <- rsum_scal. apply rsum_ext. intros. ring. Qed.

Lemma lax_conservative dim n u1 u2 d : lax dim (fun e => - n e) u2 u1 d = - lax dim n u1 u2 d.
Proof.
  unfold lax. rewrite !vdot_neg, (Rmax_comm (speed dim u2)).
  replace (speed dim (fun e => - n e)) with (speed dim n); [ring|].
  unfold speed. f_equal. unfold vdot. apply rsum_ext. intros. ring.
Qed.

Lemma lax_consistent dim n u d : lax dim n u u d = vdot dim n u * u d.
Proof. unfold lax. field. Qed.

(** What the two sides of an interior face, and an interface, contribute *)
Definition vjump (v1 v2 : R) := v1 - v2.
Lemma lf_itf_weak nd1 nd2 dim ud wt rule v1 v2 u1 u2 old : nd2 <> 0%nat ->
  tested (nd1 * dim) v1 (fst (lf_itf_sum nd1 nd2 dim ud wt rule u1 u2 old)) + tested (nd2 * dim) v2 (snd (lf_itf_sum nd1 nd2 dim ud wt rule u1 u2 old)) =
  lsum (fun p => - (wt p * coef (f_Q p) * rsum dim (fun d => (field 0 nd1 (f_s1 p) v1 d - field 0 nd2 (f_s2 p) v2 d) *
    lax dim (f_nor p) (field 0 nd1 (f_s1 p) u1) (field 0 nd2 (f_s2 p) u2) d))) rule.
Proof.
  intros Hn. assert (Hh : has2 nd2 ud = true) by (unfold has2; destruct (Nat.eqb_spec nd2 0); [contradiction|reflexivity]).
  pose proof (side_tested nd1 nd2 dim rule fs (lf_phi nd2 dim ud old wt) v1 v2 u1 u2 false (fst (lf_itf_sum nd1 nd2 dim ud wt rule u1 u2 old))
    (fun k d _ Hk => proj1 (lf_itf_at nd1 nd2 dim ud wt rule u1 u2 old) k d Hk)) as E1.
  pose proof (side_tested nd1 nd2 dim rule fs (lf_phi nd2 dim ud old wt) v1 v2 u1 u2 true (snd (lf_itf_sum nd1 nd2 dim ud wt rule u1 u2 old))
    (fun k d _ Hk => proj2 (lf_itf_at nd1 nd2 dim ud wt rule u1 u2 old) k d Hk)) as E2.
  cbn [szs] in E1, E2. etransitivity; [apply (f_equal2 Rplus E1 E2)|].
  rewrite <- lsum_add. apply lsum_ext_in. intros p _. rewrite <- rsum_plus.
  rewrite Ropp_mult_distr_l, <- rsum_scal. apply rsum_ext. intros d _.
  unfold lf_phi, other. destruct (Nat.eqb_spec nd2 0); [contradiction|]. rewrite Hh, lf_flux_two. rewrite with_q_coef. unfold at_side, fs. cbn [szs]. ring.
Qed.

Lemma lf_face_weak nd1 nd2 dim ud wt rule v u old : nd2 <> 0%nat ->
  tested (nd1 * dim + nd2 * dim) v (lf_face_sum nd1 nd2 dim ud wt rule u old) =
  lsum (fun p => - (wt p * coef (f_Q p) * rsum dim (fun d => (field 0 nd1 (f_s1 p) v d - field (nd1 * dim) nd2 (f_s2 p) v d) *
    lax dim (f_nor p) (field 0 nd1 (f_s1 p) u) (field (nd1 * dim) nd2 (f_s2 p) u) d))) rule.
Proof.
  intros Hn. assert (Hh : has2 nd2 ud = true) by (unfold has2; destruct (Nat.eqb_spec nd2 0); [contradiction|reflexivity]).
  unfold tested. rewrite rsum_split.
  set (v2 := fun i => v (nd1 * dim + i)%nat). set (u2 := fun i => u (nd1 * dim + i)%nat).
  pose proof (side_tested nd1 nd2 dim rule fs (lf_phi nd2 dim ud old wt) v v2 u u2 false (lf_face_sum nd1 nd2 dim ud wt rule u old)
    (fun k d Hd Hk => lf_face_at nd1 nd2 dim ud old wt rule u false k d Hd Hk)) as E1.
  pose proof (side_tested nd1 nd2 dim rule fs (lf_phi nd2 dim ud old wt) v v2 u u2 true (fun i => lf_face_sum nd1 nd2 dim ud wt rule u old (nd1 * dim + i)%nat)
    (fun k d Hd Hk => lf_face_at nd1 nd2 dim ud old wt rule u true k d Hd Hk)) as E2.
  unfold tested in E1, E2. cbn [szs] in E1, E2. etransitivity; [apply (f_equal2 Rplus E1 E2)|].
  rewrite <- lsum_add. apply lsum_ext_in. intros p _. rewrite <- rsum_plus.
  rewrite Ropp_mult_distr_l, <- rsum_scal. apply rsum_ext. intros d _.
  rewrite !(field_shift_f (nd1 * dim)). fold u2 v2.
  unfold lf_phi, other. destruct (Nat.eqb_spec nd2 0); [contradiction|]. rewrite Hh, lf_flux_two. rewrite with_q_coef. unfold at_side, fs. cbn [szs]. ring.
Qed.

(** A boundary face: the prescribed velocity on the other side, or none *)
Lemma lf_bdr_weak nd1 dim ud wt rule v u old :
  tested (nd1 * dim) v (lf_face_sum nd1 0 dim ud wt rule u old) =
  lsum (fun p => - (wt p * coef (f_Q p) * rsum dim (fun d => field 0 nd1 (f_s1 p) v d *
    (if ud then lax dim (f_nor p) (field 0 nd1 (f_s1 p) u) (f_UD p) d
     else vdot dim (f_nor p) (field 0 nd1 (f_s1 p) u) * field 0 nd1 (f_s1 p) u d)))) rule.
Proof.
  set (v2 := fun i => v (nd1 * dim + i)%nat). set (u2 := fun i => u (nd1 * dim + i)%nat).
  pose proof (side_tested nd1 0 dim rule fs (lf_phi 0 dim ud old wt) v v2 u u2 false (lf_face_sum nd1 0 dim ud wt rule u old)
    (fun k d Hd Hk => lf_face_at nd1 0 dim ud old wt rule u false k d Hd Hk)) as E1.
  cbn [szs] in E1. etransitivity; [exact E1|]. apply lsum_ext_in. intros p _.
  rewrite Ropp_mult_distr_l, <- rsum_scal. apply rsum_ext. intros d _.
  unfold lf_phi, other, has2. cbn [Nat.eqb negb orb]. rewrite with_q_coef. unfold at_side, fs. cbn [szs].
  destruct ud; [rewrite lf_flux_two; ring|rewrite lf_flux_one; ring].
Qed.

(** Where both velocities vanish the Jacobian is not a number *)
Lemma lf_grad_zero dim u1 u2 nor nd2 : (forall d, (d < dim)%nat -> u1 d = 0) -> (forall d, (d < dim)%nat -> u2 d = 0) -> lf_grad dim u1 u2 nor true nd2 = None.
Proof.
  intros H1 H2. assert (E1 : inner dim u1 u1 = 0).
  { unfold inner. rewrite (rsum_ext dim _ (fun _ => 0)); [apply rsum_zero|]. intros d Hd. rewrite H1 by auto. ring. }
  assert (E2 : inner dim u2 u2 = 0).
  { unfold inner. rewrite (rsum_ext dim _ (fun _ => 0)); [apply rsum_zero|]. intros d Hd. rewrite H2 by auto. ring. }
  unfold lf_grad. cbn zeta. rewrite E1, E2, sqrt_0. cbn [negb].
  destruct (Rle_dec 0 0) as [L|L]; [|exfalso; apply L; lra]. rewrite Bool.andb_false_r.
  destruct (Req_EM_T 0 0) as [|N]; [reflexivity|contradiction].
Qed.

(** … although the flux has the derivative zero there *)
Lemma lax_at_zero dim nor v1 v2 d : derivable_pt_lim (fun t => lax dim nor (fun e => t * v1 e) (fun e => t * v2 e) d) 0 0.
Proof.
  set (z := fun _ : nat => 0).
  apply (derivative_ext (fun t => t * t * (1 / 2 * (inner dim nor v1 * v1 d + inner dim nor v2 * v2 d)) +
    Rmax (mag dim (line z v1 t)) (mag dim (line z v2 t)) * (t * (mag dim nor * (v1 d - v2 d))))).
  - intros t. unfold lax, speed, mag. change (vdot dim) with (inner dim).
    assert (L : forall v, line z v t = fun e => t * v e) by (intros v; apply functional_extensionality; intros e; unfold line, z; ring).
    rewrite !L.
    assert (I : forall v, inner dim nor (fun e => t * v e) = t * inner dim nor v).
    { intros v. unfold inner. rewrite <- rsum_scal. apply rsum_ext. intros. ring. }
    rewrite !I. ring.
  - assert (D2 : derivable_pt_lim (fun t => Rmax (mag dim (line z v1 t)) (mag dim (line z v2 t)) * (t * (mag dim nor * (v1 d - v2 d)))) 0 0).
    { pose proof (vanishing_product _ (mag dim nor * (v1 d - v2 d)) (max_continuous _ _ (mag_continuous dim z v1) (mag_continuous dim z v2))) as E.
      cbv beta in E. rewrite !line_0 in E. assert (M : mag dim z = 0).
      { unfold mag, inner, z. rewrite (rsum_ext dim _ (fun _ => 0)) by (intros; ring). rewrite rsum_zero. apply sqrt_0. }
      rewrite M, Rmax_left, Rmult_0_l in E by lra. exact E. }
    assert (D1 : derivable_pt_lim (fun t => t * t * (1 / 2 * (inner dim nor v1 * v1 d + inner dim nor v2 * v2 d))) 0 0).
    { apply (quadratic_derivative _ 0 _ (1 / 2 * (inner dim nor v1 * v1 d + inner dim nor v2 * v2 d))). intros t. ring. }
    pose proof (derivable_pt_lim_plus _ _ _ _ _ D1 D2) as E. rewrite Rplus_0_l in E. exact E.
Qed.
