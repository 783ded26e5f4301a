(** From training to evaluation: the error of the hyper-reduced form at a training state. *)
From Coq Require Import Reals List Bool Lia Arith ZArith Lra.
From Verif Require Import Outcome ListLemmas HdfModel LaBase BlockVec LinalgModel LinalgSpec LinalgProofs LinalgSubProofs ItfModel ItfSpec EqpModel EqpSpec.
From Verif Require Import RomProofs MbFlowProofs EqpProofs EqpSetupProofs EqpEvalProofs.
Import ListNotations.
Local Open Scope nat_scope.

Lemma lsum_filter {A} (f : A -> R) p l : lsum f (filter p l) = lsum (fun a => if p a then f a else 0%R) l.
Proof.
  induction l as [|a l IH]; auto. cbn [filter]. destruct (p a) eqn:E.
  - change (lsum f (a :: filter p l)) with (f a + lsum f (filter p l))%R. change (lsum (fun a => if p a then f a else 0%R) (a :: l)) with ((if p a then f a else 0%R) + lsum (fun a => if p a then f a else 0%R) l)%R.
    rewrite IH, E. reflexivity.
  - change (lsum (fun a => if p a then f a else 0%R) (a :: l)) with ((if p a then f a else 0%R) + lsum (fun a => if p a then f a else 0%R) l)%R. rewrite IH, E. ring.
Qed.

Lemma lsum_map {A C} (g : C -> A) (f : A -> R) l : lsum f (map g l) = lsum (fun c => f (g c)) l.
Proof. induction l as [|a l IH]; auto. cbn [map lsum fold_right]. unfold lsum in IH. rewrite IH. reflexivity. Qed.

Lemma lsum_seq f n : forall a, lsum f (seq a n) = rsum n (fun i => f (a + i)).
Proof.
  induction n; intros a; auto. cbn [seq]. change (lsum f (a :: seq (S a) n)) with (f a + lsum f (seq (S a) n))%R. rewrite IHn, rsum_S_l.
  f_equal; [f_equal; lia|]. apply rsum_ext. intros i _. f_equal. lia.
Qed.

Lemma rsum_abs_le n f : (Rabs (rsum n f) <= rsum n (fun i => Rabs (f i)))%R.
Proof. induction n; cbn [rsum]; [rewrite Rabs_R0; lra|]. eapply Rle_trans; [apply Rabs_triang|]. lra. Qed.

Lemma rsum_le n f g : (forall i, i < n -> (f i <= g i)%R) -> (rsum n f <= rsum n g)%R.
Proof. induction n; intros H; cbn [rsum]; [lra|]. specialize (IHn (fun i Hi => H i (Nat.lt_lt_succ_r _ _ Hi))). specialize (H n (Nat.lt_succ_diag_r n)). lra. Qed.

(** The product of a distributed matrix and a distributed vector. *)
Lemma transpose_parts nqe NB ns split Gs parts ent : List.length Gs = List.length split -> List.length parts = List.length split ->
  (forall r, r < List.length split -> shape (nth r split 0 * nqe) (NB * ns) (nth r Gs (RMat 0 0 true []))) ->
  (forall r, r < List.length split -> List.length (nth r parts []) = nth r split 0 * nqe) ->
  (forall r e m i j, site_split split r e -> m < nqe -> i < ns -> j < NB ->
     rget (nth r Gs (RMat 0 0 true [])) ((e - list_sum (firstn r split)) * nqe + m) (i * NB + j) = ent e m i j) ->
  forall i j, i < ns -> j < NB -> vnth (transpose_mult (NB * ns) (combine Gs parts)) (i * NB + j) =
    rsum (list_sum split) (fun e => rsum nqe (fun m => (ent e m i j * vnth (concat parts) (e * nqe + m))%R)).
Proof.
  intros LG LP HG HP HE i j Hi Hj. assert (Hc : i * NB + j < NB * ns) by (rewrite (Nat.mul_comm NB); apply lin_lt; auto).
  unfold transpose_mult, vnth at 1. rewrite nth_map_seq by auto. cbn [Nat.add].
  pose proof (rsum_offsets (fun e => rsum nqe (fun m => (ent e m i j * vnth (concat parts) (e * nqe + m))%R)) split 0) as Ro. cbn [Nat.add] in Ro. rewrite <- Ro. clear Ro.
  assert (LC : List.length (combine Gs parts) = List.length split) by (rewrite combine_length; lia).
  assert (Ep : combine Gs parts = map (fun r => (nth r Gs (RMat 0 0 true []), nth r parts [])) (seq 0 (List.length split))).
  { apply (nth_ext _ _ (RMat 0 0 true [], []) (RMat 0 0 true [], [])); [rewrite map_length, seq_length; auto|].
    intros k Hk. rewrite combine_nth by congruence. rewrite nth_map_seq by (rewrite <- LC; auto). reflexivity. }
  rewrite Ep, map_map. apply fold_map_ext. intros r Hr. apply in_seq in Hr. cbn [fst snd]. destruct (HG r ltac:(lia)) as (W & R1 & C1). rewrite R1, rsum_tile.
  apply rsum_ext. intros e He. apply rsum_ext. intros m Hm. rewrite <- (HE r) by (auto; split; lia).
  replace (list_sum (firstn r split) + e - list_sum (firstn r split)) with e by lia. unfold rget at 1. f_equal.
  assert (Es : list_sum (firstn r (map (@List.length R) parts)) = list_sum (firstn r split) * nqe).
  { assert (Em : map (@List.length R) parts = map (fun d => d * nqe) split).
    { apply (nth_ext _ _ 0 0); [rewrite !map_length; auto|]. intros k Hk. rewrite map_length in Hk. rewrite (map_nth (@List.length R) parts []), HP by lia.
      exact (eq_sym (map_nth (fun d => d * nqe) split 0 k)). }
    rewrite Em. rewrite firstn_map. clear. induction (firstn r split); auto. cbn [map]. change (list_sum (a * nqe :: map (fun d => d * nqe) l)) with (a * nqe + list_sum (map (fun d => d * nqe) l)).
    change (list_sum (a :: l)) with (a + list_sum l). rewrite IHl. lia. }
  unfold vnth. pose proof (concat_nth parts 0%R r (e * nqe + m)) as Q. rewrite Es in Q. rewrite <- Q.
  - f_equal. lia.
  - lia.
  - assert (e * nqe + m < nth r split 0 * nqe) by (apply lin_lt; auto). eapply Nat.lt_le_trans; [exact H|]. apply Nat.eq_le_incl. symmetry. apply HP. lia.
Qed.

(** Trained integrator over the places [ids]. *)
Definition trained (nqe : nat) (st : sites) (attr : list Z) (mark : option (list Z)) (l : list (sinfo R)) : integ := Integ (Some nqe) st attr mark (Some l).

Lemma lsum_samples nqe st attr mark ids w v phi : 0 < nqe -> List.length w = List.length ids * nqe ->
  (forall id, In id ids -> exists s, at_site st id s /\ weight_linear s) ->
  lsum (sample_form (trained nqe st attr mark []) v phi) (map (rsmp nqe ids w) (filter (kept w) (seq 0 (List.length w)))) =
  rsum (List.length ids) (fun e => rsum nqe (fun m => if kept w (e * nqe + m) then (vnth w (e * nqe + m) * form_at (pick_site st ids e) m 1 v phi)%R else 0%R)).
Proof.
  intros Hq Lw Hs. rewrite lsum_map, lsum_filter, lsum_seq, Lw, rsum_tile. apply rsum_ext. intros e He. apply rsum_ext. intros m Hm. cbn [Nat.add].
  destruct (kept w (e * nqe + m)); auto. unfold sample_form, site_of, rsmp. cbn [si_el si_qp si_qw in_sites trained]. rewrite !Nat2Z.id, lin_div, lin_mod by auto.
  destruct (Hs (nth e ids 0)) as (s & A & L); [apply nth_In; auto|]. rewrite (pick_site_ok _ _ _ _ A). unfold at_site in A. rewrite (nth_error_nth _ _ None A). apply L.
Qed.

Lemma hyper_error nqe st attr mark ids w w_el v phi tol : 0 < nqe -> List.length w = List.length ids * nqe ->
  (forall id, In id ids -> exists s, at_site st id s /\ weight_linear s) ->
  (forall i, i < List.length w -> (0 <= vnth w i)%R) ->
  let f := fun e m => form_at (pick_site st ids e) m 1 v phi in
  let full := rsum (List.length ids) (fun e => rsum nqe (fun m => form_at (pick_site st ids e) m (vnth w_el m) v phi)) in
  (Rabs (rsum (List.length ids) (fun e => rsum nqe (fun m => (f e m * vnth w (e * nqe + m))%R)) - rsum (List.length ids) (fun e => rsum nqe (fun m => (f e m * vnth w_el m)%R)))
    <= tol * Rabs (rsum (List.length ids) (fun e => rsum nqe (fun m => (f e m * vnth w_el m)%R))))%R ->
  (Rabs (lsum (sample_form (trained nqe st attr mark []) v phi) (map (rsmp nqe ids w) (filter (kept w) (seq 0 (List.length w)))) - full)
    <= tol * Rabs full + / 10 ^ 12 * rsum (List.length ids) (fun e => rsum nqe (fun m => Rabs (f e m))))%R.
Proof.
  intros Hq Lw Hs Hp f full H. rewrite lsum_samples by auto.
  assert (Ef : full = rsum (List.length ids) (fun e => rsum nqe (fun m => (f e m * vnth w_el m)%R))).
  { apply rsum_ext. intros e He. apply rsum_ext. intros m Hm. destruct (Hs (nth e ids 0)) as (s & A & L); [apply nth_In; auto|]. unfold f. rewrite (pick_site_ok _ _ _ _ A), L. ring. }
  rewrite <- Ef in H.
  set (kp := rsum (List.length ids) (fun e => rsum nqe (fun m => if kept w (e * nqe + m) then (vnth w (e * nqe + m) * form_at (pick_site st ids e) m 1 v phi)%R else 0%R))).
  set (all := rsum (List.length ids) (fun e => rsum nqe (fun m => (f e m * vnth w (e * nqe + m))%R))) in *.
  set (bnd := rsum (List.length ids) (fun e => rsum nqe (fun m => Rabs (f e m)))).
  assert (D : (Rabs (kp - all) <= / 10 ^ 12 * bnd)%R).
  { unfold kp, all, bnd. rewrite <- rsum_minus. eapply Rle_trans; [apply rsum_abs_le|]. rewrite <- rsum_scal. apply rsum_le. intros e He.
    rewrite <- rsum_minus, <- rsum_scal. eapply Rle_trans; [apply rsum_abs_le|]. apply rsum_le. intros m Hm.
    assert (P0 : (0 < / 10 ^ 12)%R) by (apply Rinv_0_lt_compat, pow_lt; lra). pose proof (Rabs_pos (f e m)) as Pf.
    destruct (kept w (e * nqe + m)) eqn:K.
    - replace (_ - _)%R with 0%R by (unfold f; ring). rewrite Rabs_R0. nra.
    - assert (Kw : (vnth w (e * nqe + m) <= / 10 ^ 12)%R).
      { apply Rnot_lt_le. intros Q. apply above_spec in Q. unfold kept in K. congruence. }
      specialize (Hp (e * nqe + m) ltac:(rewrite Lw; apply lin_lt; auto)).
      unfold Rminus. rewrite Rplus_0_l, Rabs_Ropp, Rabs_mult, (Rabs_right (vnth w (e * nqe + m))) by lra. nra. }
  replace (kp - full)%R with ((kp - all) + (all - full))%R by ring. eapply Rle_trans; [apply Rabs_triang|]. lra.
Qed.

Lemma bounds_near tol rhs c v : c < List.length rhs -> (vnth (fst (eqp_bounds tol rhs)) c <= v <= vnth (snd (eqp_bounds tol rhs)) c)%R ->
  (Rabs (v - vnth rhs c) <= tol * Rabs (vnth rhs c))%R.
Proof.
  intros Hc (A & B). unfold eqp_bounds, vnth in *. cbn [fst snd] in *.
  rewrite (nth_indep _ 0%R (0 - tol * Rabs 0)%R) in A by (rewrite map_length; auto). rewrite (map_nth (fun r => (r - tol * Rabs r)%R)) in A.
  rewrite (nth_indep _ 0%R (0 + tol * Rabs 0)%R) in B by (rewrite map_length; auto). rewrite (map_nth (fun r => (r + tol * Rabs r)%R)) in B.
  apply Rabs_le. lra.
Qed.

(** The places a boundary integrator may be evaluated on. *)
Definition id_marked (attr : list Z) (mark : option (list Z)) (id : nat) : Prop :=
  match mark with
  | None => True
  | Some mk => exists a m, nth_error attr id = Some a /\ (1 <= a)%Z /\ nth_error mk (Z.to_nat (a - 1)) = Some m /\ m <> 0%Z
  end.

Theorem hyper_training nqe w_el st attr mark ids B0 off n vsize B snap split jg jw Gs rhs parts tol junk l x y i :
  dm_wf B0 -> set_basis n vsize B0 off = Ok B -> rm_wf snap -> vsize <= rm_r snap -> nqe <= List.length w_el -> list_sum split = List.length ids ->
  0 < n -> 0 < nqe ->
  (forall id, In id ids -> id_marked attr mark id /\ exists s, at_site st id s /\ site_ok vsize s /\ plain s /\ weight_linear s) ->
  (forall r, r < List.length split -> List.length (jg r) = nth r split 0 * nqe * (n * rm_c snap)) ->
  (forall r, r < List.length split -> List.length (jw r) = nth r split 0 * nqe) ->
  setup_system nqe w_el st ids B vsize snap split jg jw = Ok (Gs, rhs) ->
  List.length parts = List.length split -> (forall r, r < List.length split -> List.length (nth r parts []) = nth r split 0 * nqe) ->
  (forall k, k < List.length (concat parts) -> (0 <= vnth (concat parts) k)%R) ->
  (forall c, c < List.length rhs -> (vnth (fst (eqp_bounds tol rhs)) c <= vnth (transpose_mult (List.length rhs) (combine Gs parts)) c <= vnth (snd (eqp_bounds tol rhs)) c)%R) ->
  List.length junk = List.length (concat parts) -> solution_samples nqe parts (Some ids) junk = Ok l ->
  List.length x = n -> List.length y = n -> i < rm_c snap -> (forall r, r < vsize -> lift B0 off x r = rget snap r i) ->
  exists z, form_mult n (Some B) [trained nqe st attr mark l] x y = Ok z /\
    forall j, j < n ->
      let full := rsum (List.length ids) (fun e => rsum nqe (fun m => form_at (pick_site st ids e) m (vnth w_el m) (lift B0 off x) (mode B0 off j))) in
      (Rabs (vnth z j - full) <= tol * Rabs full + / 10 ^ 12 * rsum (List.length ids) (fun e => rsum nqe (fun m => Rabs (form_at (pick_site st ids e) m 1 (lift B0 off x) (mode B0 off j)))))%R.
Proof.
  intros W0 EB Ws Hv Hw Hsp Hn Hq Hid Hjg Hjw ES LP HP Hpos Hb Lj El Lx Ly Hi Hx.
  destruct (setup_system_ok nqe w_el st ids B0 off n vsize B snap split jg jw) as (Gs' & rhs' & E & LG & LR & Sh & Ge & Re); auto.
  { intros id Hd. destruct (Hid id Hd) as (_ & s & A & O & _). exists s. auto. }
  rewrite ES in E. injection E as <- <-.
  assert (Lc : List.length (concat parts) = List.length ids * nqe).
  { rewrite concat_len, <- Hsp. assert (Em : map (@List.length R) parts = map (fun d => d * nqe) split).
    { apply (nth_ext _ _ 0 0); [rewrite !map_length; auto|]. intros k Hk. rewrite map_length in Hk. rewrite (map_nth (@List.length R) parts []), HP by lia.
      exact (eq_sym (map_nth (fun d => d * nqe) split 0 k)). }
    rewrite Em. clear. induction split; auto. cbn [map]. change (list_sum (a * nqe :: map (fun d => d * nqe) split)) with (a * nqe + list_sum (map (fun d => d * nqe) split)).
    change (list_sum (a :: split)) with (a + list_sum split). rewrite IHsplit. lia. }
  rewrite samples_eq in El by auto. injection El as El.
  set (I := trained nqe st attr mark l).
  assert (FI : integ_fits vsize I).
  { split; [discriminate|]. exists l. split; [reflexivity|]. intros s Hs. rewrite <- El in Hs. apply in_map_iff in Hs. destruct Hs as (k & <- & Hk). apply filter_In in Hk. destruct Hk as (Hk & _).
    apply in_seq in Hk. assert (Hke : k / nqe < List.length ids) by (apply Nat.div_lt_upper_bound; lia).
    unfold rsmp, sample_fits, mark_fits, site_of. cbn [si_el si_qp si_qw in_rule in_sites in_attr in_mark I trained]. rewrite !Nat2Z.id.
    destruct (Hid (nth (k / nqe) ids 0)) as (M & s & A & O & P & _); [apply nth_In; auto|].
    split; [lia|]. split.
    { exists s. split; [|auto]. unfold at_site in A. exact (nth_error_nth _ _ None A). }
    split; [|exact M]. exists nqe. split; [reflexivity|]. assert (k mod nqe < nqe) by (apply Nat.mod_upper_bound; lia). lia. }
  destruct (form_mult_ok n vsize B0 off B [I] x y) as (z & Ez & Lz & Vz); auto.
  { intros J [<-|[]]. auto. }
  exists z. split; [exact Ez|]. intros j Hj full. rewrite Vz by auto.
  change (lsum (fun I0 => lsum (sample_form I0 (lift B0 off x) (mode B0 off j)) (samples_of I0)) [I]) with (lsum (sample_form I (lift B0 off x) (mode B0 off j)) l + 0)%R. rewrite Rplus_0_r.
  assert (Ei : lsum (sample_form I (lift B0 off x) (mode B0 off j)) l = lsum (sample_form (trained nqe st attr mark []) (lift B0 off x) (mode B0 off j)) l) by reflexivity.
  rewrite Ei, <- El. unfold full. apply hyper_error; auto.
  - intros id Hd. destruct (Hid id Hd) as (_ & s & A & _ & _ & L). exists s. auto.
  - assert (Fx : forall e m, e < List.length ids -> form_at (pick_site st ids e) m 1 (lift B0 off x) (mode B0 off j) = form_at (pick_site st ids e) m 1 (fun k => rget snap k i) (mode B0 off j)).
    { intros e m He. destruct (Hid (nth e ids 0)) as (_ & s & A & O & _); [apply nth_In; auto|]. rewrite (pick_site_ok _ _ _ _ A). apply (form_at_ext vsize); auto. }
    assert (Hc : i * n + j < List.length rhs) by (rewrite LR, (Nat.mul_comm n); apply lin_lt; auto).
    pose proof (bounds_near tol rhs (i * n + j) _ Hc (Hb _ Hc)) as N. rewrite Re in N by auto. rewrite LR in N.
    rewrite (transpose_parts nqe n (rm_c snap) split Gs parts (fun e m i j => form_at (pick_site st ids e) m 1 (fun k => rget snap k i) (mode B0 off j))) in N; auto.
    + rewrite Hsp in N.
      rewrite (rsum_ext (List.length ids) (fun e => rsum nqe (fun m => (form_at (pick_site st ids e) m 1 (lift B0 off x) (mode B0 off j) * vnth (concat parts) (e * nqe + m))%R))
        (fun e => rsum nqe (fun m => (form_at (pick_site st ids e) m 1 (fun k => rget snap k i) (mode B0 off j) * vnth (concat parts) (e * nqe + m))%R))) by (intros e He; apply rsum_ext; intros m Hm; rewrite Fx; auto).
      rewrite (rsum_ext (List.length ids) (fun e => rsum nqe (fun m => (form_at (pick_site st ids e) m 1 (lift B0 off x) (mode B0 off j) * vnth w_el m)%R))
        (fun e => rsum nqe (fun m => (form_at (pick_site st ids e) m 1 (fun k => rget snap k i) (mode B0 off j) * vnth w_el m)%R))) by (intros e He; apply rsum_ext; intros m Hm; rewrite Fx; auto).
      exact N.
    + intros r e m i' j' S1 Hm Hi' Hj'. assert (He : e < List.length ids).
      { destruct S1 as (S1 & S2 & S3). assert (Q : list_sum (firstn (S r) split) <= list_sum split) by apply list_sum_firstn_le.
        rewrite list_sum_firstn_S in Q by auto. lia. }
      destruct (Hid (nth e ids 0)) as (_ & s & A & O & _); [apply nth_In; auto|]. rewrite (pick_site_ok _ _ _ _ A). apply Ge; auto.
Qed.
