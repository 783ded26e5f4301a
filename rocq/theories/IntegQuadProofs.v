(** Exact expansion of the quadratic integrators. *)
From Coq Require Import Reals List Bool Lia Arith Lra.
From Verif Require Import LaBase IntegModel EqpSpec IntegSpec IntegProofs IntegDomProofs IntegDom2Proofs IntegFaceProofs.
Import ListNotations.
Local Open Scope R_scope.

(** Exact second-order expansions along lines *)
Definition linear_on (f : fv -> R) : Prop := forall x h t, f (fun k => x k + t * h k) = f x + t * f h.
Definition quadratic (f : fv -> R) : Prop := forall x h, exists b, forall t, f (fun k => x k + t * h k) = f x + t * b + t * t * f h.

Lemma field_linear o nd s d : linear_on (fun x => field o nd s x d).
Proof. intros x h t. apply field_lin. Qed.
Lemma deriv_linear nd g d e : linear_on (fun x => deriv nd g x d e).
Proof. intros x h t. apply deriv_lin. Qed.
Lemma linear_scal c f : linear_on f -> linear_on (fun x => c * f x).
Proof. intros H x h t. rewrite H. ring. Qed.
Lemma linear_rsum n f : (forall i, (i < n)%nat -> linear_on (f i)) -> linear_on (fun x => rsum n (fun i => f i x)).
Proof. intros H x h t. rewrite <- rsum_scal, <- rsum_plus. apply rsum_ext. intros i Hi. apply H; auto. Qed.

Lemma quadratic_mul f g : linear_on f -> linear_on g -> quadratic (fun x => f x * g x).
Proof. intros F G x h. exists (f x * g h + f h * g x). intros t. rewrite F, G. ring. Qed.
Lemma quadratic_scal c f : quadratic f -> quadratic (fun x => c * f x).
Proof. intros F x h. destruct (F x h) as (b & H). exists (c * b). intros t. rewrite H. ring. Qed.
Lemma quadratic_minus f g : quadratic f -> quadratic g -> quadratic (fun x => f x - g x).
Proof. intros F G x h. destruct (F x h) as (b & H). destruct (G x h) as (b' & H'). exists (b - b'). intros t. rewrite H, H'. ring. Qed.
Lemma quadratic_plus f g : quadratic f -> quadratic g -> quadratic (fun x => f x + g x).
Proof. intros F G x h. destruct (F x h) as (b & H). destruct (G x h) as (b' & H'). exists (b + b'). intros t. rewrite H, H'. ring. Qed.
Lemma quadratic_zero : quadratic (fun _ => 0).
Proof. intros x h. exists 0. intros t. ring. Qed.
Lemma quadratic_ext f g : (forall x, f x = g x) -> quadratic g -> quadratic f.
Proof. intros E G x h. destruct (G x h) as (b & H). exists b. intros t. rewrite !E. apply H. Qed.
Lemma quadratic_rsum f : forall n, (forall i, (i < n)%nat -> quadratic (f i)) -> quadratic (fun x => rsum n (fun i => f i x)).
Proof.
  induction n as [|n IH]; intros H; [apply (quadratic_ext _ (fun _ => 0)); [reflexivity|apply quadratic_zero]|].
  cbn [rsum]. apply quadratic_plus; [apply IH; auto|apply H; lia].
Qed.
Lemma quadratic_lsum {P} (f : P -> fv -> R) l : (forall p, In p l -> quadratic (f p)) -> quadratic (fun x => lsum (fun p => f p x) l).
Proof.
  induction l as [|p l IH]; intros H; [apply (quadratic_ext _ (fun _ => 0)); [reflexivity|apply quadratic_zero]|].
  apply (quadratic_ext _ (fun x => f p x + lsum (fun p => f p x) l)); [intros x; apply (lsum_cons (fun p => f p x))|].
  apply (quadratic_plus (f p)); [apply H; left; auto|apply IH; intros; apply H; right; auto].
Qed.

(** The linear term is the derivative *)
Lemma quadratic_expansion f x h l : quadratic f -> derivable_pt_lim (fun t => f (fun k => x k + t * h k)) 0 l ->
  f (fun k => x k + h k) = f x + l + f h.
Proof.
  intros Q D. destruct (Q x h) as (b & H).
  assert (E : derivable_pt_lim (fun t => f (fun k => x k + t * h k)) 0 b).
  { apply (quadratic_derivative _ _ _ _ H). }
  rewrite (uniqueness_limite _ _ _ _ D E). specialize (H 1). rewrite !Rmult_1_l in H. rewrite <- H. f_equal. 
  apply FunctionalExtensionality.functional_extensionality. intros k. ring.
Qed.

Lemma expands_of n F J x : (forall i, (i < n)%nat -> quadratic (fun y => F y i)) -> is_jacobian n F J x -> expands n F J x.
Proof. intros Q D h i Hi. apply (quadratic_expansion (fun y => F y i)); [auto|]. apply D; auto. Qed.

Lemma conv_quadratic nd dim p iw k d : q_vQ p = None -> quadratic (fun x => conv_term nd dim p iw x k d).
Proof.
  intros V. unfold conv_term, wind. rewrite V. apply (quadratic_ext _ (fun x => q_shape p k * (iw * q_J p * coef (q_Q p) * rsum dim (fun e => deriv nd (dphys dim p) x d e * field 0 nd (q_shape p) x e)))); [reflexivity|].
  apply quadratic_scal, quadratic_scal, quadratic_rsum. intros e _. apply quadratic_mul; [apply deriv_linear|apply field_linear].
Qed.
Lemma visc_quadratic nd dim p iw k d : quadratic (fun x => visc_term nd dim p iw x k d).
Proof.
  unfold visc_term. apply quadratic_scal, quadratic_rsum. intros e _. apply quadratic_scal, quadratic_mul; apply field_linear.
Qed.

Lemma conv_expands nd dim rule x : (forall p, In p rule -> geometry dim p /\ q_vQ p = None) ->
  expands (nd * dim) (conv_vector nd dim rule) (conv_grad nd dim rule x) x.
Proof.
  intros H. apply expands_of; [|apply conv_jacobian; auto]. intros i Hi. destruct (grid_index nd dim i Hi) as (k & d & Hk & Hd & ->).
  apply (quadratic_ext _ (fun x => lsum (fun p => conv_term nd dim p (q_w p) x k d) rule)); [intros; apply conv_vector_at; auto|].
  apply (quadratic_lsum (fun p x => conv_term nd dim p (q_w p) x k d)). intros p Hp. apply conv_quadratic. apply H; auto.
Qed.
Lemma visc_expands nd dim rule x : expands (nd * dim) (visc_vector nd dim rule) (visc_grad nd dim rule x) x.
Proof.
  apply expands_of; [|apply visc_jacobian; auto]. intros i Hi. destruct (grid_index nd dim i Hi) as (k & d & Hk & Hd & ->).
  apply (quadratic_ext _ (fun x => lsum (fun p => visc_term nd dim p (q_w p) x k d) rule)); [intros; apply visc_vector_at; auto|].
  apply (quadratic_lsum (fun p x => visc_term nd dim p (q_w p) x k d)). intros p Hp. apply visc_quadratic.
Qed.
Lemma temam_expands nd dim rule x : expands (nd * dim) (temam_vector nd dim rule) (temam_grad nd dim rule x) x.
Proof.
  apply expands_of; [|apply temam_jacobian; auto]. intros i Hi. destruct (grid_index nd dim i Hi) as (k & d & Hk & Hd & ->).
  eapply quadratic_ext; [intros; apply temam_vector_at; auto|].
  apply (quadratic_lsum (fun p x => conv_term nd dim (no_vq p) (1 / 2 * q_w p) x k d - visc_term nd dim p (1 / 2 * q_w p) x k d)).
  intros p Hp. apply quadratic_minus; [apply conv_quadratic; reflexivity|apply visc_quadratic].
Qed.

Lemma inner_linear n w (f : fv -> fv) : (forall d, (d < n)%nat -> linear_on (fun x => f x d)) -> linear_on (fun x => inner n w (f x)).
Proof. intros H. unfold inner. apply (linear_rsum n (fun i x => w i * f x i)). intros i Hi. apply linear_scal. auto. Qed.

(** A face on both sides as a function of one vector *)
Lemma side_pos nd1 nd2 dim i : (i < nd1 * dim + nd2 * dim)%nat -> exists a k d, (d < dim)%nat /\ (k < szs nd1 nd2 a)%nat /\ i = pos nd1 nd2 dim a k d.
Proof.
  intros Hi. destruct (Nat.lt_ge_cases i (nd1 * dim)) as [L|L].
  - destruct (grid_index nd1 dim i L) as (k & d & Hk & Hd & ->). exists false, k, d. cbn. auto.
  - destruct (grid_index nd2 dim (i - nd1 * dim)) as (k & d & Hk & Hd & E); [lia|]. exists true, k, d. cbn. split; [auto|]. split; [auto|]. lia.
Qed.

Lemma temam_phi_quadratic nd1 nd2 dim a p k d : 
  quadratic (fun x => fs a p k * temam_phi nd2 dim a p (field 0 nd1 (f_s1 p) x) (field (nd1 * dim) nd2 (f_s2 p) x) d).
Proof.
  apply quadratic_scal. unfold temam_phi. cbn zeta.
  assert (L : linear_on (fun x => inner dim (temam_nor p) (field 0 nd1 (f_s1 p) x))) by (apply inner_linear; intros; apply field_linear).
  destruct (nd2 =? 0)%nat; [|destruct a]; try (apply quadratic_mul; [exact L|apply field_linear]).
  apply (quadratic_ext _ (fun x => -1 * (inner dim (temam_nor p) (field 0 nd1 (f_s1 p) x) * field (nd1 * dim) nd2 (f_s2 p) x d))); [intros; ring|].
  apply quadratic_scal, quadratic_mul; [exact L|apply field_linear].
Qed.

Lemma temam_face_expands nd1 nd2 dim rule x : 
  expands (nd1 * dim + nd2 * dim) (temam_face_vector nd1 nd2 dim rule) (temam_face_grad nd1 nd2 dim rule x) x.
Proof.
  apply expands_of; [|apply temam_face_jacobian]. intros i Hi. destruct (side_pos nd1 nd2 dim i Hi) as (a & k & d & Hd & Hk & ->).
  eapply quadratic_ext; [intros y; apply temam_face_at; auto|]. unfold side_value, at_side. cbn [szs fs].
  apply (quadratic_ext _ (fun x => lsum (fun p => fs a p k * temam_phi nd2 dim a p (field 0 nd1 (f_s1 p) x) (field (nd1 * dim) nd2 (f_s2 p) x) d) rule)).
  - intros y. apply lsum_ext_in. intros p _. rewrite <- (field_shift_f (nd1 * dim) nd2). reflexivity.
  - apply (quadratic_lsum (fun p x => fs a p k * temam_phi nd2 dim a p (field 0 nd1 (f_s1 p) x) (field (nd1 * dim) nd2 (f_s2 p) x) d)).
    intros p _. apply (temam_phi_quadratic nd1 nd2 dim a).
Qed.

Lemma quadratic_pair nd1 nd2 dim (rule : list fpt) a k d x1 x2 h1 h2 : exists b, forall t,
  side_value nd1 nd2 rule fs (temam_phi nd2 dim) a (fun k => x1 k + t * h1 k) (fun k => x2 k + t * h2 k) k d =
  side_value nd1 nd2 rule fs (temam_phi nd2 dim) a x1 x2 k d + t * b + t * t * side_value nd1 nd2 rule fs (temam_phi nd2 dim) a h1 h2 k d.
Proof.
  unfold side_value, at_side. cbn [szs].
  assert (L : forall p, exists b, forall t,
     fs a p k * temam_phi nd2 dim a p (field 0 nd1 (fs false p) (fun k => x1 k + t * h1 k)) (field 0 nd2 (fs true p) (fun k => x2 k + t * h2 k)) d =
     fs a p k * temam_phi nd2 dim a p (field 0 nd1 (fs false p) x1) (field 0 nd2 (fs true p) x2) d + t * b
     + t * t * (fs a p k * temam_phi nd2 dim a p (field 0 nd1 (fs false p) h1) (field 0 nd2 (fs true p) h2) d)).
  { intros p. set (n := temam_nor p). set (u1 := field 0 nd1 (fs false p) x1). set (v1 := field 0 nd1 (fs false p) h1).
    set (u2 := field 0 nd2 (fs true p) x2). set (v2 := field 0 nd2 (fs true p) h2).
    exists (fs a p k * (if (nd2 =? 0)%nat then inner dim n u1 * v1 d + inner dim n v1 * u1 d else if a then inner dim n u1 * v1 d + inner dim n v1 * u1 d
      else - inner dim n u1 * v2 d - inner dim n v1 * u2 d)). intros t. rewrite !field_line. fold u1 v1 u2 v2. unfold temam_phi. cbn zeta. fold n. rewrite inner_lin.
    destruct (nd2 =? 0)%nat; [ring|]. destruct a; ring. }
  induction rule as [|p l IH]; [exists 0; intros; cbn; ring|]. destruct IH as (b & Hb). destruct (L p) as (b' & Hb'). exists (b' + b).
  intros t. rewrite !lsum_cons, Hb, Hb'. ring.
Qed.

Lemma temam_itf_expands nd1 nd2 dim rule x1 x2 : nd2 <> 0%nat ->
  expands2 (nd1 * dim) (nd2 * dim) (temam_itf_vector nd1 nd2 dim rule) (temam_itf_grad nd1 nd2 dim rule x1 x2) x1 x2.
Proof.
  intros N h1 h2. destruct (temam_itf_jacobian nd1 nd2 dim rule x1 x2 N h1 h2) as (J1 & J2).
  assert (G : forall a k d l (F : fv -> fv -> R), (forall y1 y2, F y1 y2 = side_value nd1 nd2 rule fs (temam_phi nd2 dim) a y1 y2 k d) ->
    derivable_pt_lim (fun t => F (fun k => x1 k + t * h1 k) (fun k => x2 k + t * h2 k)) 0 l ->
    F (fun k => x1 k + h1 k) (fun k => x2 k + h2 k) = F x1 x2 + l + F h1 h2).
  { intros a k d l F EF D. destruct (quadratic_pair nd1 nd2 dim rule a k d x1 x2 h1 h2) as (b & H).
    assert (E : derivable_pt_lim (fun t => F (fun k => x1 k + t * h1 k) (fun k => x2 k + t * h2 k)) 0 b).
    { apply (quadratic_derivative _ (F x1 x2) _ (F h1 h2)). intros t. rewrite !EF. apply H. }
    rewrite (uniqueness_limite _ _ _ _ D E). specialize (H 1). rewrite !Rmult_1_l in H. rewrite !EF. rewrite <- H. f_equal;
    apply FunctionalExtensionality.functional_extensionality; intros; ring. }
  split; intros i Hi.
  - destruct (grid_index nd1 dim i Hi) as (k & d & Hk & Hd & ->).
    apply (G false k d _ (fun y1 y2 => fst (temam_itf_vector nd1 nd2 dim rule y1 y2) (k + d * nd1)%nat)); [intros; apply temam_itf_at; auto|].
    apply J1; auto.
  - destruct (grid_index nd2 dim i Hi) as (k & d & Hk & Hd & ->).
    apply (G true k d _ (fun y1 y2 => snd (temam_itf_vector nd1 nd2 dim rule y1 y2) (k + d * nd2)%nat)); [intros; apply temam_itf_at; auto|].
    apply J2; auto.
Qed.
