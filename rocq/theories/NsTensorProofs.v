(** The reduced tensor reproduces the projected convection. *)
From Coq Require Import Reals List Bool Lia Arith ZArith Lra.
From Verif Require Import Outcome ListLemmas HdfModel LaBase LinalgModel LinalgSpec BlockVec MbModel ItfModel ItfSpec ItfProofs EqpModel EqpSpec EqpSetupProofs IntegModel IntegSpec IntegProofs IntegDomProofs NsTensorModel NsTensorSpec.
Import ListNotations.
Local Open Scope R_scope.

Lemma add_elvec_ok n y vd e : List.length y = n -> (forall d, In d vd -> (dofn d < n)%nat) ->
  exists y', add_elvec y vd e = Ok y' /\ List.length y' = n /\
    forall phi : nat -> R, rsum n (fun r => phi r * vnth y' r) = rsum n (fun r => phi r * vnth y r) + rsum (List.length vd) (fun k => vnth (on_dofs phi vd) k * e k).
Proof.
  intros L Hd. unfold add_elvec.
  match goal with |- context[ofor ?m ?f y] => destruct (ofor_inv m f (fun i z => List.length z = n /\
    forall phi : nat -> R, rsum n (fun r => phi r * vnth z r) = rsum n (fun r => phi r * vnth y r) + rsum i (fun k => vnth (on_dofs phi vd) k * e k)) y) as (z & E & H) end.
  - split; auto. intros. cbn. lra.
  - intros k z Hk (Lz & V). assert (Ed : nth_error vd k = Some (nth k vd 0%Z)) by (apply nth_error_nth'; auto). unfold oread at 1. rewrite Ed. cbn [obind].
    set (d := nth k vd 0%Z) in *. pose proof (Hd d (nth_error_In _ _ Ed)) as B.
    assert (Ei : dof_idx d = dofn d) by (apply dof_idx_n). assert (Es : dof_sgn d = dofs d) by (apply dof_sgn_s). rewrite Ei, Es.
    rewrite oread_vnth by lia. cbn [obind]. rewrite owrite_vec by lia. eexists. split; [reflexivity|]. split; [rewrite upd_length; auto|].
    intros phi. change (rsum (S k) (fun k => vnth (on_dofs phi vd) k * e k)) with (rsum k (fun k => vnth (on_dofs phi vd) k * e k) + vnth (on_dofs phi vd) k * e k).
    assert (Eo : vnth (on_dofs phi vd) k = dofs d * phi (dofn d)).
    { unfold on_dofs, vnth. rewrite (nth_indep _ 0 (dofs 0%Z * phi (dofn 0%Z))) by (rewrite map_length; auto). apply (map_nth (fun d => dofs d * phi (dofn d))). }
    rewrite Eo. rewrite <- Rplus_assoc, <- V.
    rewrite (rsum_ext n (fun r => phi r * vnth (upd z (dofn d) (vnth z (dofn d) + dofs d * e k)) r) (fun r => phi r * vnth z r + (if (r =? dofn d)%nat then phi r * (dofs d * e k) else 0))).
    + rewrite rsum_plus. f_equal. rewrite (rsum_single n (dofn d)); auto.
      * rewrite Nat.eqb_refl. ring.
      * intros r _ Ne. destruct (Nat.eqb_spec r (dofn d)); [congruence|auto].
    + intros r Hr. destruct (Nat.eqb_spec r (dofn d)) as [->|Ne]; [rewrite vnth_upd_eq by lia; ring|rewrite vnth_upd_ne by auto; ring].
  - exists z. auto.
Qed.

Lemma vnth_on_dofs v ds k : (k < List.length ds)%nat -> vnth (on_dofs v ds) k = dofs (nth k ds 0%Z) * v (dofn (nth k ds 0%Z)).
Proof.
  intros H. unfold on_dofs, vnth. rewrite (nth_indep _ 0 (dofs 0%Z * v (dofn 0%Z))) by (rewrite map_length; auto). apply (map_nth (fun d => dofs d * v (dofn d))).
Qed.

Lemma convection_at_wind nd dim w u v p : q_vQ p = None ->
  convection_at nd dim u v (at_wind nd w p) = rsum dim (fun d => rsum dim (fun e => field 0 nd (q_shape p) v d * field 0 nd (q_shape p) w e * deriv nd (dphys dim p) u d e)).
Proof.
  intros _. unfold convection_at. cbn [q_vQ at_wind q_shape]. apply rsum_ext. intros d _. apply rsum_ext. intros e _. change (dphys dim (at_wind nd w p)) with (dphys dim p).
  f_equal. f_equal. unfold mult_t, field, view. apply rsum_ext. intros. ring.
Qed.

Lemma conv_form_ok n dim els wind x : elements_fit n dim els -> List.length x = n -> (forall w, wind = Some w -> List.length w = n) ->
  exists y, conv_form n dim els wind x = Ok y /\ List.length y = n /\
    forall phi : nat -> R, rsum n (fun r => phi r * vnth y r) = convection dim els (vnth (match wind with Some w => w | None => x end)) (vnth x) phi.
Proof.
  intros F Lx Lw. unfold conv_form.
  match goal with |- context[ofold ?f els ?s] => destruct (ofold_inv f (fun l y => List.length y = n /\
    forall phi : nat -> R, rsum n (fun r => phi r * vnth y r) = convection dim l (vnth (match wind with Some w => w | None => x end)) (vnth x) phi) els s) as (y & E & H) end.
  - split; [apply repeat_length|]. intros phi. change (convection dim [] _ _ phi) with 0.
    rewrite (rsum_ext n _ (fun _ => 0)); [apply rsum_zero|]. intros r _. unfold vnth. rewrite nth_repeat. ring.
  - intros l el q y El (Ly & V). assert (Hel : In el els) by (rewrite El; apply in_or_app; right; left; auto). destruct (F el Hel) as (Ld & Hd & Hq).
    rewrite (get_sub_on x (vnth x) n) by auto. cbn [obind].
    set (ww := match wind with Some w => w | None => x end) in *.
    assert (Er : exists rule, match wind with None => Ok (ce_rule el) | Some w => let* ew := get_sub w (ce_dofs el) in Ok (map (at_wind (ce_nd el) (vnth ew)) (ce_rule el)) end = Ok rule /\
      forall phi, tested (ce_nd el * dim) phi (conv_vector (ce_nd el) dim rule (vnth (on_dofs (vnth x) (ce_dofs el)))) =
        integral (fun p => rsum dim (fun d => rsum dim (fun e => field 0 (ce_nd el) (q_shape p) phi d * field 0 (ce_nd el) (q_shape p) (vnth (on_dofs (vnth ww) (ce_dofs el))) e *
          deriv (ce_nd el) (dphys dim p) (vnth (on_dofs (vnth x) (ce_dofs el))) d e))) (ce_rule el)).
    { destruct wind as [w|].
      - rewrite (get_sub_on w (vnth w) n) by auto. cbn [obind]. eexists. split; [reflexivity|]. intros phi. rewrite conv_weak. unfold integral.
        clear - Hq. subst ww. induction (ce_rule el) as [|p l IH]; [reflexivity|]. cbn [map]. rewrite !lsum_cons, IH by (intros; apply Hq; right; auto).
        rewrite convection_at_wind by (apply Hq; left; auto). reflexivity.
      - eexists. split; [reflexivity|]. intros phi. rewrite conv_weak. unfold integral. apply lsum_ext_in. intros p Hp. f_equal.
        unfold convection_at. rewrite (Hq p Hp). reflexivity. }
    destruct Er as (rule & Er & Vr). rw_bind Er.
    destruct (add_elvec_ok n y (ce_dofs el) (conv_vector (ce_nd el) dim rule (vnth (on_dofs (vnth x) (ce_dofs el)))) Ly Hd) as (y' & E' & L' & V').
    exists y'. split; auto. split; auto. intros phi. rewrite V', V, Ld. specialize (Vr (vnth (on_dofs phi (ce_dofs el)))). unfold tested in Vr. rewrite Vr.
    unfold convection. rewrite lsum_app, lsum_cons. change (lsum _ []) with 0. rewrite Rplus_0_r. reflexivity.
  - exists y. auto.
Qed.

(** Linear in the wind and in the velocity *)
Definition comb (n : nat) (c : nat -> R) (v : nat -> nat -> R) (r : nat) : R := rsum n (fun i => c i * v i r).
Lemma loc_comb n c v ds k : (k < List.length ds)%nat -> vnth (on_dofs (comb n c v) ds) k = rsum n (fun i => c i * vnth (on_dofs (v i) ds) k).
Proof. intros H. rewrite vnth_on_dofs by auto. unfold comb. rewrite <- rsum_scal. apply rsum_ext. intros i _. rewrite vnth_on_dofs by auto. ring. Qed.
Lemma field_comb nb c v ds nd dim s d : List.length ds = (nd * dim)%nat -> (d < dim)%nat ->
  field 0 nd s (vnth (on_dofs (comb nb c v) ds)) d = rsum nb (fun i => c i * field 0 nd s (vnth (on_dofs (v i) ds)) d).
Proof.
  intros L Hd. unfold field. rewrite (rsum_ext nd _ (fun m => rsum nb (fun i => c i * (s m * vnth (on_dofs (v i) ds) (0 + m + d * nd))))).
  - rewrite rsum_swap. apply rsum_ext. intros i _. apply rsum_scal.
  - intros m Hm. rewrite loc_comb by (rewrite L; nia). rewrite <- rsum_scal. apply rsum_ext. intros. ring.
Qed.
Lemma deriv_comb nb c v ds nd dim g d e : List.length ds = (nd * dim)%nat -> (d < dim)%nat ->
  deriv nd g (vnth (on_dofs (comb nb c v) ds)) d e = rsum nb (fun i => c i * deriv nd g (vnth (on_dofs (v i) ds)) d e).
Proof.
  intros L Hd. unfold deriv. rewrite (rsum_ext nd _ (fun m => rsum nb (fun i => c i * (g m e * vnth (on_dofs (v i) ds) (m + d * nd))))).
  - rewrite rsum_swap. apply rsum_ext. intros i _. apply rsum_scal.
  - intros m Hm. rewrite loc_comb by (rewrite L; nia). rewrite <- rsum_scal. apply rsum_ext. intros. ring.
Qed.
Lemma convection_comb n dim els nb c v nb' c' v' phi : elements_fit n dim els ->
  convection dim els (comb nb c v) (comb nb' c' v') phi = rsum nb' (fun j => rsum nb (fun i => convection dim els (v i) (v' j) phi * c i * c' j)).
Proof.
  intros F. unfold convection.
  rewrite (lsum_ext_in _ (fun el => rsum nb' (fun j => rsum nb (fun i =>
     integral (fun p => rsum dim (fun d => rsum dim (fun e => field 0 (ce_nd el) (q_shape p) (vnth (on_dofs phi (ce_dofs el))) d *
       field 0 (ce_nd el) (q_shape p) (vnth (on_dofs (v i) (ce_dofs el))) e * deriv (ce_nd el) (dphys dim p) (vnth (on_dofs (v' j) (ce_dofs el))) d e))) (ce_rule el) * c i * c' j)))).
  - rewrite lsum_rsum. apply rsum_ext. intros j _. rewrite lsum_rsum. apply rsum_ext. intros i _.
    transitivity (lsum (fun el => (c i * c' j) * integral (fun p => rsum dim (fun d => rsum dim (fun e => field 0 (ce_nd el) (q_shape p) (vnth (on_dofs phi (ce_dofs el))) d *
       field 0 (ce_nd el) (q_shape p) (vnth (on_dofs (v i) (ce_dofs el))) e * deriv (ce_nd el) (dphys dim p) (vnth (on_dofs (v' j) (ce_dofs el))) d e))) (ce_rule el)) els).
    + apply lsum_ext_in. intros. ring.
    + rewrite lsum_mul. ring.
  - intros el Hel. destruct (F el Hel) as (Ld & _). unfold integral.
    rewrite (lsum_ext_in _ (fun p => rsum nb' (fun j => rsum nb (fun i => q_w p * q_J p * coef (q_Q p) * rsum dim (fun d => rsum dim (fun e => field 0 (ce_nd el) (q_shape p) (vnth (on_dofs phi (ce_dofs el))) d *
       field 0 (ce_nd el) (q_shape p) (vnth (on_dofs (v i) (ce_dofs el))) e * deriv (ce_nd el) (dphys dim p) (vnth (on_dofs (v' j) (ce_dofs el))) d e)) * (c i * c' j))))).
    + rewrite lsum_rsum. apply rsum_ext. intros j _. rewrite lsum_rsum. apply rsum_ext. intros i _. rewrite Rmult_assoc, (Rmult_comm _ (c i * c' j)), <- lsum_mul. apply lsum_ext_in. intros. ring.
    + intros p _. set (w := q_w p * q_J p * coef (q_Q p)).
      transitivity (w * rsum nb' (fun j => rsum nb (fun i => rsum dim (fun d => rsum dim (fun e => field 0 (ce_nd el) (q_shape p) (vnth (on_dofs phi (ce_dofs el))) d *
       field 0 (ce_nd el) (q_shape p) (vnth (on_dofs (v i) (ce_dofs el))) e * deriv (ce_nd el) (dphys dim p) (vnth (on_dofs (v' j) (ce_dofs el))) d e)) * (c i * c' j)))).
      2:{ rewrite <- rsum_scal. apply rsum_ext. intros j _. rewrite <- rsum_scal. apply rsum_ext. intros. ring. }
      f_equal.
      rewrite (rsum_ext dim _ (fun d => rsum dim (fun e => rsum nb' (fun j => rsum nb (fun i => field 0 (ce_nd el) (q_shape p) (vnth (on_dofs phi (ce_dofs el))) d *
       field 0 (ce_nd el) (q_shape p) (vnth (on_dofs (v i) (ce_dofs el))) e * deriv (ce_nd el) (dphys dim p) (vnth (on_dofs (v' j) (ce_dofs el))) d e * (c i * c' j)))))).
      * rewrite (rsum_ext dim _ (fun d => rsum nb' (fun j => rsum nb (fun i => rsum dim (fun e => field 0 (ce_nd el) (q_shape p) (vnth (on_dofs phi (ce_dofs el))) d *
         field 0 (ce_nd el) (q_shape p) (vnth (on_dofs (v i) (ce_dofs el))) e * deriv (ce_nd el) (dphys dim p) (vnth (on_dofs (v' j) (ce_dofs el))) d e * (c i * c' j)))))).
        2:{ intros d _. rewrite rsum_swap. apply rsum_ext. intros j _. apply rsum_swap. }
        rewrite rsum_swap. apply rsum_ext. intros j _. rewrite rsum_swap. apply rsum_ext. intros i _. rewrite <- rsum_scal_r. apply rsum_ext. intros d _. apply rsum_scal_r.
      * intros d Hd. apply rsum_ext. intros e He. rewrite (field_comb nb c v _ _ dim), (deriv_comb nb' c' v' _ _ dim) by auto.
        set (f := field 0 (ce_nd el) (q_shape p) (vnth (on_dofs phi (ce_dofs el))) d).
        rewrite <- rsum_scal. apply rsum_ext. intros j _. rewrite <- rsum_scal, <- rsum_scal_r. apply rsum_ext. intros i _. ring.
Qed.

(** The loop over basis functions *)
Lemma cube_inj nb i j k i' j' k' : (i < nb)%nat -> (j < nb)%nat -> (i' < nb)%nat -> (j' < nb)%nat ->
  (i + j * nb + k * (nb * nb) = i' + j' * nb + k' * (nb * nb))%nat -> i = i' /\ j = j' /\ k = k'.
Proof.
  intros Hi Hj Hi' Hj' E. assert (A : (i + j * nb < nb * nb)%nat) by nia. assert (A' : (i' + j' * nb < nb * nb)%nat) by nia.
  assert (k = k') by nia. subst k'. assert (j = j') by nia. subst j'. split; [lia|auto].
Qed.

Lemma reduced_tensor_ok n dim els B junk : elements_fit n dim els -> dm_wf B -> (n <= dm_h B)%nat -> List.length junk = (dm_w B * dm_w B * dm_w B)%nat ->
  exists T, reduced_tensor n dim els B junk = Ok T /\ t_wf T /\ t_i T = dm_w B /\ t_j T = dm_w B /\ t_k T = dm_w B /\
    forall i j k, (i < dm_w B)%nat -> (j < dm_w B)%nat -> (k < dm_w B)%nat -> tget T i j k = convection dim els (mode B 0 i) (mode B 0 j) (mode B 0 k).
Proof.
  intros F Wb Hn Lj. unfold reduced_tensor. rewrite (proj2 (Nat.leb_le _ _) Hn). cbn [oassert]. set (nb := dm_w B) in *.
  set (want := fun i j k => convection dim els (mode B 0 i) (mode B 0 j) (mode B 0 k)).
  assert (Cx : forall v v' w w' phi, (forall r, (r < n)%nat -> v r = v' r) -> (forall r, (r < n)%nat -> w r = w' r) -> convection dim els v w phi = convection dim els v' w' phi).
  { intros v v' w w' phi Hv Hw. unfold convection. apply lsum_ext_in. intros el Hel. destruct (F el Hel) as (_ & Hd & _).
    rewrite (on_dofs_ext v v') by auto. rewrite (on_dofs_ext w w') by auto. reflexivity. }
  match goal with |- context[ofor nb ?f junk] => destruct (ofor_inv nb f (fun m buf => List.length buf = (nb * nb * nb)%nat /\
    forall i j k, (i < m)%nat -> (j < nb)%nat -> (k < nb)%nat -> vnth buf (i + j * nb + k * (nb * nb)) = want i j k) junk) as (buf & E & Lb & Vb) end.
  - split; auto. intros; lia.
  - intros i b Hi (Lb & Vb). destruct (col_view_ok B i 0 n Wb Hi ltac:(lia)) as (ui & Ei & Li & Vi). rw_bind Ei.
    match goal with |- context[ofor nb ?f b] => destruct (ofor_inv nb f (fun m buf => List.length buf = (nb * nb * nb)%nat /\
      (forall i' j k, (i' < i)%nat -> (j < nb)%nat -> (k < nb)%nat -> vnth buf (i' + j * nb + k * (nb * nb)) = want i' j k) /\
      (forall j k, (j < m)%nat -> (k < nb)%nat -> vnth buf (i + j * nb + k * (nb * nb)) = want i j k)) b) as (b' & E' & Lb' & Vo & Vn) end.
    + split; auto. split; auto. intros; lia.
    + intros j c Hj (Lc & Vc & Vd). destruct (col_view_ok B j 0 n Wb Hj ltac:(lia)) as (uj & Ej & Lju & Vj). rw_bind Ej.
      destruct (conv_form_ok n dim els (Some ui) uj F Lju) as (tmp & Et & Lt & Vt); [intros w Ew; injection Ew as <-; auto|]. rw_bind Et.
      match goal with |- context[ofor nb ?f c] => destruct (ofor_inv nb f (fun m buf => List.length buf = (nb * nb * nb)%nat /\
        (forall i' j' k, (i' < nb)%nat -> (j' < nb)%nat -> (k < nb)%nat -> (i' <> i \/ j' <> j) -> vnth buf (i' + j' * nb + k * (nb * nb)) = vnth c (i' + j' * nb + k * (nb * nb))) /\
        (forall k, (k < m)%nat -> vnth buf (i + j * nb + k * (nb * nb)) = want i j k)) c) as (c' & E' & Lc' & Vo & Vn) end.
      * split; auto. split; auto. intros; lia.
      * intros k d Hk (Ld & Ve & Vf). destruct (col_view_ok B k 0 n Wb Hk ltac:(lia)) as (uk & Ek & Lk & Vk). rw_bind Ek.
        assert (Bd : (i + j * nb + k * (nb * nb) < List.length d)%nat) by (rewrite Ld; nia). rewrite owrite_vec by auto. eexists. split; [reflexivity|].
        split; [rewrite upd_length; auto|]. split.
        -- intros i' j' k' Hi' Hj' Hk' Ne. rewrite vnth_upd_ne; auto. intros Q. apply cube_inj in Q; auto. lia.
        -- intros k' Hk'. destruct (Nat.eq_dec k' k) as [->|Nk].
           ++ rewrite vnth_upd_eq by auto. unfold dot. rewrite (rsum_ext n _ (fun r => mode B 0 k r * vnth tmp r)) by (intros r Hr; rewrite Vk by auto; reflexivity).
              rewrite Vt. unfold want. apply Cx; auto.
           ++ rewrite vnth_upd_ne; [apply Vf; lia|]. intros Q. apply cube_inj in Q; auto. lia.
      * exists c'. split; auto. split; auto. split.
        -- intros i' j' k Hi' Hj' Hk. rewrite Vo by lia. apply Vc; auto.
        -- intros j' k Hj' Hk. destruct (Nat.eq_dec j' j) as [->|Nj]; [apply Vn; auto|]. rewrite Vo by lia. apply Vd; lia.
    + exists b'. split; auto. split; auto. intros i' j k Hi' Hj Hk. destruct (Nat.eq_dec i' i) as [->|Ni]; [apply Vn; auto|apply Vo; auto; lia].
  - rw_bind E. eexists. split; [reflexivity|]. split; [exact Lb|]. split; [reflexivity|]. split; [reflexivity|]. split; [reflexivity|]. exact Vb.
Qed.

Lemma tensor_projects n dim els B T : elements_fit n dim els -> t_i T = dm_w B -> t_j T = dm_w B ->
  (forall i j k, (i < dm_w B)%nat -> (j < dm_w B)%nat -> (k < dm_w B)%nat -> tget T i j k = convection dim els (mode B 0 i) (mode B 0 j) (mode B 0 k)) ->
  forall w x k, (k < dm_w B)%nat -> contraction T w x k = convection dim els (comb (dm_w B) w (mode B 0)) (comb (dm_w B) x (mode B 0)) (mode B 0 k).
Proof.
  intros F Ti Tj Vt w x k Hk. rewrite (convection_comb n) by auto. unfold contraction. rewrite Ti, Tj. apply rsum_ext. intros j Hj. apply rsum_ext. intros i Hi.
  rewrite Vt by auto. reflexivity.
Qed.
