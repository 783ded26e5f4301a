(** Proofs about the complementary flux. *)
From Coq Require Import Reals List Bool Lia Arith ZArith Ascii String Lra.
From Verif Require Import Outcome ListLemmas LaBase MbModel MbSpec MbMiscProofs ProbModel BcModel BcSpec BcProofs BcFlowProofs.
Import ListNotations.
Local Open Scope list_scope.
Local Open Scope R_scope.

(** ** Sums *)

Lemma lsum_app {A} (f : A -> R) l1 l2 : lsum f (l1 ++ l2) = lsum f l1 + lsum f l2.
Proof. induction l1; cbn; [ring|]. rewrite IHl1. ring. Qed.
Lemma lsum_ext {A} (f g : A -> R) l : (forall x, In x l -> f x = g x) -> lsum f l = lsum g l.
Proof. induction l; intros H; cbn; auto. rewrite (H a) by (left; auto). rewrite IHl; auto. intros x Hx. apply H. right. auto. Qed.
Lemma lsum_minus {A} (f g : A -> R) l k : lsum (fun x => f x - k * g x) l = lsum f l - k * lsum g l.
Proof. induction l; cbn; [ring|]. rewrite IHl. ring. Qed.
Lemma lsum_zero {A} (f : A -> R) l : (forall x, In x l -> f x = 0) -> lsum f l = 0.
Proof. intros H. induction l; cbn; auto. rewrite (H a) by (left; auto). rewrite IHl; [ring|]. intros x Hx. apply H. right. auto. Qed.

Definition picks (gattr : list Z) (sel : nat -> bool) (meshes : list (list belem)) : list (nat * belem) :=
  flat_map (fun es => flat_map (fun e => match attr_find gattr (be_attr e) 0 with Some i => if sel i then [(i, e)] else [] | None => [] end) es) meshes.
Lemma picks_sum gattr (sel : nat -> bool) meshes (v : nat -> belem -> R) :
  lsum (lsum (fun e => match attr_find gattr (be_attr e) 0 with Some i => if sel i then v i e else 0 | None => 0 end)) meshes = lsum (fun ie => v (fst ie) (snd ie)) (picks gattr sel meshes).
Proof.
  induction meshes as [|es ms IH]; cbn; auto. rewrite lsum_app, IH. f_equal. clear. induction es as [|e es IH]; cbn; auto. rewrite lsum_app, IH. f_equal. destruct (attr_find gattr (be_attr e) 0) as [i|]; auto. destruct (sel i); cbn; ring.
Qed.
Lemma picks_in gattr (sel : nat -> bool) meshes i e : In (i, e) (picks gattr sel meshes) -> sel i = true /\ (exists es, In es meshes /\ In e es) /\ (i < List.length gattr)%nat.
Proof.
  unfold picks. intros H. apply in_flat_map in H as (es & He & H). apply in_flat_map in H as (e' & He' & H). destruct (attr_find gattr (be_attr e') 0) as [j|] eqn:Ej; [|destruct H]. destruct (sel j) eqn:Es; [|destruct H].
  destruct H as [H|[]]. injection H as -> ->. split; auto. split; eauto. apply find_lt in Ej. auto.
Qed.
Lemma bdr_sum_picks {A} gattr nz meshes (f : A -> nat -> belem -> outcome A) a : List.length nz = List.length gattr ->
  bdr_sum false gattr nz meshes f a = ofold (fun a ie => f a (fst ie) (snd ie)) (picks gattr (fun i => nth i nz false) meshes) a.
Proof.
  intros L. unfold bdr_sum. revert a. induction meshes as [|es ms IH]; intros a; [reflexivity|]. unfold picks. cbn [ofold flat_map]. rewrite ofold_app. fold (picks gattr (fun i => nth i nz false) ms).
  assert (In1 : forall es a, ofold (fun a e => match attr_find gattr (be_attr e) 0 with None => Ok a | Some i => let* z := oread nz i in if z then oassert (negb false) (f a i e) else Ok a end) es a
     = ofold (fun a ie => f a (fst ie) (snd ie)) (flat_map (fun e => match attr_find gattr (be_attr e) 0 with Some i => if nth i nz false then [(i, e)] else [] | None => [] end) es) a).
  { clear a es. induction es as [|e es IHe]; intros a; [reflexivity|]. cbn [ofold flat_map]. rewrite ofold_app. destruct (attr_find gattr (be_attr e) 0) as [i|] eqn:Ei; cbn [ofold obind fst snd]; auto.
    apply find_lt in Ei. unfold oread. rewrite nth_error_nth' with (d := false) by lia. cbn [obind]. destruct (nth i nz false); cbn [ofold obind fst snd oassert negb]; auto. destruct (f a i e); cbn [obind]; auto. }
  rewrite In1. destruct (ofold _ (flat_map _ es) a); cbn [obind]; auto.
Qed.
(** Only with a broken space per subdomain does the loop get past a selected element. *)
Lemma bdr_sum_dg {A} full_dg gattr nz meshes (f : A -> nat -> belem -> outcome A) a r : bdr_sum full_dg gattr nz meshes f a = Ok r -> bdr_sum false gattr nz meshes f a = Ok r.
Proof.
  destruct full_dg; auto. unfold bdr_sum. revert a. induction meshes as [|es ms IH]; intros a H; [exact H|]. cbn [ofold] in *. apply obind_ok in H as (a1 & E & H).
  assert (Q : forall es a a1, ofold (fun a e => match attr_find gattr (be_attr e) 0 with None => Ok a | Some i => let* z := oread nz i in if z then oassert (negb true) (f a i e) else Ok a end) es a = Ok a1 ->
     ofold (fun a e => match attr_find gattr (be_attr e) 0 with None => Ok a | Some i => let* z := oread nz i in if z then oassert (negb false) (f a i e) else Ok a end) es a = Ok a1).
  { clear. induction es as [|e es IHe]; intros a a1 H; [exact H|]. cbn [ofold] in *. apply obind_ok in H as (a2 & E & H). assert (E' : match attr_find gattr (be_attr e) 0 with None => Ok a | Some i => let* z := oread nz i in if z then oassert (negb false) (f a i e) else Ok a end = Ok a2).
    { destruct (attr_find gattr (be_attr e) 0); auto. destruct (oread nz n) as [[]| |]; cbn in *; auto; discriminate. }
    rewrite E'. cbn [obind]. auto. }
  rewrite (Q _ _ _ E). cbn [obind]. auto.
Qed.
Lemma bdr_sum_dg_abort {A} gattr nz meshes (f : A -> nat -> belem -> outcome A) a i e : List.length nz = List.length gattr -> In (i, e) (picks gattr (fun i => nth i nz false) meshes) -> forall r, bdr_sum true gattr nz meshes f a <> Ok r.
Proof.
  intros L H. unfold bdr_sum. revert a. induction meshes as [|es ms IH]; intros a r Q; [destruct H|]. cbn [ofold] in Q. apply obind_ok in Q as (a1 & E & Q). unfold picks in H. cbn [flat_map] in H. apply in_app_or in H as [H|H]; [|exact (IH H _ _ Q)].
  clear - L H E. revert a E. induction es as [|x es IH]; intros a E; [destruct H|]. cbn [ofold] in E. apply obind_ok in E as (a2 & E2 & E). cbn [flat_map] in H. apply in_app_or in H as [H|H]; [|exact (IH H _ E)].
  destruct (attr_find gattr (be_attr x) 0) as [j|] eqn:Ej; [|destruct H]. apply find_lt in Ej. unfold oread in E2. rewrite nth_error_nth' with (d := false) in E2 by lia. cbn [obind] in E2. destruct (nth j nz false); [discriminate|destruct H].
Qed.

Lemma ofold_some {A} (f : option R -> A -> outcome (option R)) (v : A -> R) l : (forall x r, In x l -> f (Some r) x = Ok (Some (r + v x))) -> forall r, ofold f l (Some r) = Ok (Some (r + lsum v l)).
Proof.
  induction l as [|x l IH]; intros H r; cbn [ofold lsum]; [f_equal; f_equal; ring|]. rewrite H by (left; auto). cbn [obind]. rewrite IH; [f_equal; f_equal; ring|]. intros y q Hy. apply H. right. auto.
Qed.
Lemma be_flux_ok c g del x0 (u : vec -> vec) e : (forall q, In q (be_q e) -> ceval c g del x0 (qp_x q) = Ok (Some (u (qp_x q)))) ->
  be_flux c g del x0 e = Ok (Some (lsum (fun q => dot (List.length (qp_x q)) (u (qp_x q)) (qp_n q)) (be_q e))).
Proof.
  intros H. unfold be_flux. erewrite ofold_some; [|intros q r Hq; rewrite H by auto; cbn [obind oplus]; reflexivity]. f_equal. f_equal. ring.
Qed.
Lemma be_dirflux_ok z e : (forall q, In q (be_q e) -> List.length (qp_x q) = List.length z) ->
  be_dirflux (Some z) e = Ok (Some (lsum (fun q => dot (List.length (qp_x q)) (map (fun i => vnth (qp_x q) i - vnth z i) (seq 0 (List.length (qp_x q)))) (qp_n q)) (be_q e))).
Proof.
  intros H. unfold be_dirflux. erewrite ofold_some; [|intros q r Hq; rewrite (H q Hq), Nat.eqb_refl; cbn [oassert oplus]; reflexivity]. f_equal. f_equal. rewrite Rplus_0_l. apply lsum_ext. intros q Hq. rewrite (H q Hq). reflexivity.
Qed.
Lemma be_area_ok e : be_area e = lsum qp_w (be_q e).
Proof.
  unfold be_area. assert (Q : forall l s, fold_left (fun s q => s + 1 * qp_w q) l s = s + lsum qp_w l). { induction l; intros s; cbn; [ring|]. rewrite IHl. ring. }
  rewrite Q. ring.
Qed.
Lemma vnth_map_seq n (f : nat -> R) k : (k < n)%nat -> vnth (map f (seq 0 n)) k = f k.
Proof. intros H. unfold vnth. apply nth_map_seq. auto. Qed.
Lemma be_moment_ok dim e k : (k < dim)%nat -> vnth (be_moment dim e) k = lsum (fun q => vnth (qp_x q) k * qp_w q) (be_q e).
Proof.
  intros Hk. unfold be_moment. assert (Q : forall l s, vnth (fold_left (fun s q => map (fun i => vnth s i + vnth (qp_x q) i * qp_w q) (seq 0 dim)) l s) k = vnth s k + lsum (fun q => vnth (qp_x q) k * qp_w q) l).
  { induction l; intros s; cbn [fold_left lsum]; [ring|]. rewrite IHl, vnth_map_seq by auto. ring. }
  rewrite Q. assert (vnth (repeat 0 dim) k = 0) as -> by (unfold vnth; apply nth_repeat). ring.
Qed.

Lemma area_pass gattr nz meshes dim : List.length nz = List.length gattr -> exists x1,
  bdr_sum false gattr nz meshes (fun a _ e => Ok (fst a + be_area e, map (fun i => vnth (snd a) i + vnth (be_moment dim e) i) (seq 0 dim))) (0, repeat 0 dim)
    = Ok (area_of gattr (fun i => nth i nz false) meshes, x1) /\ List.length x1 = dim /\ forall k, (k < dim)%nat -> vnth x1 k = moment_of gattr (fun i => nth i nz false) meshes k.
Proof.
  intros L. rewrite bdr_sum_picks by auto.
  assert (Q : forall l a x, List.length x = dim -> exists x1, ofold (fun a (ie : nat * belem) => Ok (fst a + be_area (snd ie), map (fun i => vnth (snd a) i + vnth (be_moment dim (snd ie)) i) (seq 0 dim))) l (a, x)
     = Ok (a + lsum (fun ie => lsum qp_w (be_q (snd ie))) l, x1) /\ List.length x1 = dim /\ forall k, (k < dim)%nat -> vnth x1 k = vnth x k + lsum (fun ie => lsum (fun q => vnth (qp_x q) k * qp_w q) (be_q (snd ie))) l).
  { induction l as [|[i e] l IH]; intros a x Lx; cbn [ofold lsum obind fst snd].
    - exists x. split; [f_equal; f_equal; ring|]. split; auto. intros. ring.
    - destruct (IH (a + be_area e) (map (fun i => vnth x i + vnth (be_moment dim e) i) (seq 0 dim))) as (x1 & E & L1 & V); [rewrite map_length, seq_length; auto|]. rewrite E. exists x1. split; [rewrite be_area_ok; f_equal; f_equal; ring|]. split; auto.
      intros k Hk. rewrite V, vnth_map_seq, be_moment_ok by auto. ring. }
  destruct (Q (picks gattr (fun i => nth i nz false) meshes) 0 (repeat 0 dim) (repeat_length _ _)) as (x1 & E & L1 & V). exists x1. split; [|split; auto].
  - rewrite E. f_equal. f_equal. unfold area_of. rewrite (picks_sum gattr _ meshes (fun _ e => lsum qp_w (be_q e))). ring.
  - intros k Hk. rewrite V by auto. unfold moment_of. rewrite (picks_sum gattr _ meshes (fun _ e => lsum (fun q => vnth (qp_x q) k * qp_w q) (be_q e))). assert (vnth (repeat 0 dim) k = 0) as -> by (unfold vnth; apply nth_repeat). ring.
Qed.

Lemma net_flux_picks gattr (sel : nat -> bool) meshes u : net_flux gattr sel meshes u = lsum (fun ie => lsum (fun q => dot (List.length (qp_x q)) (u (fst ie) (qp_x q)) (qp_n q)) (be_q (snd ie))) (picks gattr sel meshes).
Proof. unfold net_flux. rewrite (picks_sum gattr sel meshes (fun i e => lsum (fun q => dot (List.length (qp_x q)) (u i (qp_x q)) (qp_n q)) (be_q e))). reflexivity. Qed.

Lemma present ud i : forallb (fun c => negb (missing c)) ud = true -> (i < List.length ud)%nat -> exists c, nth_error ud i = Some (Some c).
Proof.
  intros H Hi. destruct (nth_error ud i) as [[c|]|] eqn:E; [eauto| |apply nth_error_None in E; lia]. rewrite forallb_forall in H. specialize (H None (nth_error_In _ _ E)). discriminate.
Qed.
(** the sum of fluxes when all velocities are finite *)
Lemma flux_pass dim gattr nz meshes g ud del x0 u r : List.length nz = List.length gattr -> List.length ud = List.length gattr -> forallb (fun c => negb (missing c)) ud = true -> points_ok dim meshes ->
  (forall i e c x, In (i, e) (picks gattr (fun i => nth i nz false) meshes) -> nth_error ud i = Some (Some c) -> List.length x = dim -> ceval c g del x0 x = Ok (Some (u i x))) ->
  bdr_sum false gattr nz meshes (fun a i e => let* b := (let* c := oread ud i in match c with Some c => be_flux c g del x0 e | None => UB end) in Ok (oplus a b)) (Some r)
  = Ok (Some (r + net_flux gattr (fun i => nth i nz false) meshes u)).
Proof.
  intros L1 L2 H P Ev. rewrite bdr_sum_picks by auto. rewrite net_flux_picks. apply ofold_some. intros [i e] q Hie. cbn [fst snd]. destruct (picks_in _ _ _ _ _ Hie) as (Hz & (es & He1 & He2) & Hi). destruct (present ud i H ltac:(lia)) as (c & Ec). unfold oread. rewrite Ec. cbn [obind].
  rewrite (be_flux_ok c g del x0 (u i)); [reflexivity|]. intros p Hp. apply (Ev i e); auto. eapply P; eauto.
Qed.

Lemma flux_balanced full_dg dim gattr meshes g ud nz d z u : points_ok dim meshes -> complementary_flux full_dg dim gattr meshes g ud nz = Ok (d, z) -> evaluates dim g ud d z u ->
  Rabs (net_flux gattr (fun i => nth i nz false) meshes u) <= threshold.
Proof.
  intros P H Ev. unfold complementary_flux in H. rewrite !oassert_ok in H. destruct H as (H1 & H2 & H3 & H). apply Nat.eqb_eq in H1. apply Nat.eqb_eq in H2.
  apply obind_ok in H as ([area x1] & _ & H). apply obind_ok in H as ([bf df] & _ & H). apply obind_ok in H as (b & Eb & H). apply bdr_sum_dg in Eb.
  assert (Q : (d, z) = (match bf, df with Some b, Some d => if Req_EM_T d 0 then None else Some (b / d) | _, _ => None end, if Req_EM_T area 0 then None else Some (map (fun v => v / area) x1))).
  { destruct b as [b|]; [destruct (Rlt_dec threshold (Rabs b)); [discriminate|]|]; injection H as <- <-; reflexivity. }
  injection Q as Qd Qz. rewrite <- Qd, <- Qz in Eb. rewrite (flux_pass dim gattr nz meshes g ud d z u 0 H1 H2 H3 P) in Eb; [|intros i e c x _; apply Ev]. injection Eb as <-. rewrite Rplus_0_l in H. destruct (Rlt_dec _ _); [discriminate|]. lra.
Qed.

(** ** Velocities corrected by the flux *)

Definition base_velocity (g : gvars) (x : vec) : vec := map (fun i =>
  g (cell "component_flow::u0" i) + g (cell "component_flow::du" i) * sin ((fsum (List.length x) (fun j => g (mcell "component_flow::k" j i) * vnth x j) - g (cell "component_flow::offsets" i)) * (2 * PI))) (seq 0 (List.length x)).
Definition corrected (g : gvars) (d : R) (z x : vec) : vec := map (fun i => vnth (base_velocity g x) i - (vnth x i - vnth z i) * d) (seq 0 (List.length x)).
Lemma component_corrected g d z x : (List.length x <= 3)%nat -> List.length z = List.length x -> ceval (CVector VComponent) g (Some d) (Some z) x = Ok (Some (corrected g d z x)).
Proof.
  intros L Lz. cbn [ceval veval]. unfold component_ubdr. replace (List.length x <=? 3)%nat with true by (symmetry; apply Nat.leb_le; auto). cbn [oguard]. unfold flux. rewrite Lz, Nat.eqb_refl. cbn [oassert obind]. f_equal. f_equal.
  unfold corrected. apply map_ext_in. intros i Hi. apply in_seq in Hi. rewrite (vnth_map_seq (List.length x) (fun i => (vnth x i - vnth z i) * d)) by lia. reflexivity.
Qed.
Lemma dot_corrected g d z x n : dot (List.length x) (corrected g d z x) n = dot (List.length x) (corrected g 0 z x) n - d * dot (List.length x) (map (fun i => vnth x i - vnth z i) (seq 0 (List.length x))) n.
Proof.
  unfold dot. rewrite <- rsum_scal. rewrite <- rsum_minus. apply rsum_ext. intros i Hi. unfold corrected. rewrite !vnth_map_seq by auto. ring.
Qed.
Lemma net_corrected gattr (sel : nat -> bool) meshes g d z : net_flux gattr sel meshes (fun _ => corrected g d z) = net_flux gattr sel meshes (fun _ => corrected g 0 z) - d * net_flux gattr sel meshes (fun _ => outward z).
Proof.
  rewrite !net_flux_picks. rewrite <- lsum_minus. apply lsum_ext. intros [i e] _. cbn [fst snd]. rewrite <- lsum_minus. apply lsum_ext. intros q _. apply dot_corrected.
Qed.
Lemma net_flux_ext gattr (sel sel' : nat -> bool) meshes u u' dim : points_ok dim meshes -> (forall i, (i < List.length gattr)%nat -> sel i = sel' i) -> (forall i x, (i < List.length gattr)%nat -> sel i = true -> List.length x = dim -> u i x = u' i x) -> net_flux gattr sel meshes u = net_flux gattr sel' meshes u'.
Proof.
  intros P Hs Hu. unfold net_flux. apply lsum_ext. intros es He. apply lsum_ext. intros e Hee. destruct (attr_find gattr (be_attr e) 0) as [i|] eqn:Ei; auto. apply find_lt in Ei. rewrite <- (Hs i Ei). destruct (sel i) eqn:Es; auto. apply lsum_ext. intros q Hq. rewrite Hu; auto. eapply P; eauto.
Qed.

(** The first two passes, when all selected elements carry the component flow *)
Lemma flux_unfold dim gattr meshes g ud nz : let sel := fun i => nth i nz false in let z := centre gattr sel meshes dim in
  (dim <= 3)%nat -> points_ok dim meshes -> List.length nz = List.length gattr -> List.length ud = List.length gattr -> forallb (fun c => negb (missing c)) ud = true ->
  (forall i e, In (i, e) (picks gattr sel meshes) -> nth i ud None = Some (CVector VComponent)) -> area_of gattr sel meshes <> 0 ->
  let del := if Req_EM_T (net_flux gattr sel meshes (fun _ => outward z)) 0 then None else Some (net_flux gattr sel meshes (fun _ => corrected g 0 z) / net_flux gattr sel meshes (fun _ => outward z)) in
  complementary_flux false dim gattr meshes g ud nz =
    (let* b := bdr_sum false gattr nz meshes (fun a i e => let* b := (let* c := oread ud i in match c with Some c => be_flux c g del (Some z) e | None => UB end) in Ok (oplus a b)) (Some 0) in
     match b with Some b => if Rlt_dec threshold (Rabs b) then Abort else Ok (del, Some z) | None => Ok (del, Some z) end) /\
  forall dd i e c x, In (i, e) (picks gattr sel meshes) -> nth_error ud i = Some (Some c) -> List.length x = dim -> ceval c g (Some dd) (Some z) x = Ok (Some (corrected g dd z x)).
Proof.
  intros sel z Hd P L1 L2 H Hc Ha del.
  assert (Lz : List.length z = dim) by (unfold z, centre; rewrite map_length, seq_length; auto).
  assert (Ev : forall dd i e c x, In (i, e) (picks gattr sel meshes) -> nth_error ud i = Some (Some c) -> List.length x = dim -> ceval c g (Some dd) (Some z) x = Ok (Some (corrected g dd z x))).
  { intros dd i e c x Hi Hn Lxx. specialize (Hc i e Hi). rewrite (nth_error_nth _ _ _ Hn) in Hc. injection Hc as ->. apply component_corrected; [lia|congruence]. }
  split; [|exact Ev].
  unfold complementary_flux. rewrite L1, L2, Nat.eqb_refl, H. cbn [oassert]. destruct (area_pass gattr nz meshes dim L1) as (x1 & E1 & Lx & V1). rewrite E1. cbn [obind]. fold sel. destruct (Req_EM_T (area_of gattr sel meshes) 0) as [Q|_]; [exfalso; apply Ha; exact Q|].
  assert (Ez : map (fun v => v / area_of gattr sel meshes) x1 = z).
  { unfold z, centre. apply vec_ext; [rewrite !map_length, seq_length; auto|]. intros k Hk. rewrite map_length in Hk. rewrite vnth_map_seq by lia. rewrite <- V1 by lia. unfold vnth. rewrite (nth_indep _ 0 (0 / area_of gattr sel meshes)) by (rewrite map_length; auto). rewrite (map_nth (fun v => v / area_of gattr sel meshes)). reflexivity. }
  rewrite Ez. clear E1 V1 Ez.
  assert (E2 : bdr_sum false gattr nz meshes (fun a i e => let* b := (let* c := oread ud i in match c with Some c => be_flux c g (Some 0) (Some z) e | None => UB end) in let* d := be_dirflux (Some z) e in Ok (oplus (fst a) b, oplus (snd a) d)) (Some 0, Some 0)
    = Ok (Some (net_flux gattr sel meshes (fun _ => corrected g 0 z)), Some (net_flux gattr sel meshes (fun _ => outward z)))).
  { rewrite bdr_sum_picks by auto. rewrite !net_flux_picks.
    assert (Q : forall l r1 r2, (forall ie, In ie l -> In ie (picks gattr sel meshes)) ->
      ofold (fun a (ie : nat * belem) => let* b := (let* c := oread ud (fst ie) in match c with Some c => be_flux c g (Some 0) (Some z) (snd ie) | None => UB end) in let* d := be_dirflux (Some z) (snd ie) in Ok (oplus (fst a) b, oplus (snd a) d)) l (Some r1, Some r2)
      = Ok (Some (r1 + lsum (fun ie => lsum (fun q => dot (List.length (qp_x q)) (corrected g 0 z (qp_x q)) (qp_n q)) (be_q (snd ie))) l), Some (r2 + lsum (fun ie => lsum (fun q => dot (List.length (qp_x q)) (outward z (qp_x q)) (qp_n q)) (be_q (snd ie))) l))).
    { induction l as [|[i e] l IH]; intros r1 r2 Hl; cbn [ofold lsum fst snd]; [rewrite !Rplus_0_r; reflexivity|]. pose proof (Hl (i, e) (or_introl eq_refl)) as Hie. destruct (picks_in _ _ _ _ _ Hie) as (Hz & (es & He1 & He2) & Hi). destruct (present ud i H ltac:(lia)) as (c & Ec).
      unfold oread. rewrite Ec. cbn [obind]. rewrite (be_flux_ok c g (Some 0) (Some z) (corrected g 0 z)); [|intros q Hq; apply (Ev 0 i e); auto; eapply P; eauto]. cbn [obind]. rewrite be_dirflux_ok by (intros q Hq; rewrite Lz; eapply P; eauto). cbn [obind oplus fst snd].
      rewrite IH by (intros ie Hie'; apply Hl; right; auto). f_equal. f_equal; f_equal; [ring|]. unfold outward at 2. ring. }
    etransitivity; [exact (Q (picks gattr sel meshes) 0 0 (fun ie H => H))|]. rewrite !Rplus_0_l. reflexivity. }
  rw_bind E2. cbn [obind]. reflexivity.
Qed.
Lemma threshold_pos : 0 < threshold.
Proof. unfold threshold. apply Rinv_0_lt_compat. apply pow_lt. lra. Qed.
Lemma flux_component dim gattr meshes g ud nz : let sel := fun i => nth i nz false in let z := centre gattr sel meshes dim in
  (dim <= 3)%nat -> points_ok dim meshes -> List.length nz = List.length gattr -> List.length ud = List.length gattr -> forallb (fun c => negb (missing c)) ud = true ->
  (forall i e, In (i, e) (picks gattr sel meshes) -> nth i ud None = Some (CVector VComponent)) ->
  area_of gattr sel meshes <> 0 -> net_flux gattr sel meshes (fun _ => outward z) <> 0 ->
  let d := net_flux gattr sel meshes (fun _ => corrected g 0 z) / net_flux gattr sel meshes (fun _ => outward z) in
  complementary_flux false dim gattr meshes g ud nz = Ok (Some d, Some z) /\ net_flux gattr sel meshes (fun _ => corrected g d z) = 0.
Proof.
  intros sel z Hd P L1 L2 H Hc Ha Ho d.
  assert (Bal : net_flux gattr sel meshes (fun _ => corrected g d z) = 0) by (rewrite net_corrected; unfold d; field; auto). split; auto.
  destruct (flux_unfold dim gattr meshes g ud nz Hd P L1 L2 H Hc Ha) as (E & Ev). fold sel z in E, Ev. destruct (Req_EM_T _ _) as [Q|_] in E; [exfalso; apply Ho; exact Q|]. fold d in E.
  etransitivity; [exact E|]. rw_bind (flux_pass dim gattr nz meshes g ud (Some d) (Some z) (fun _ => corrected g d z) 0 L1 L2 H P (Ev d)). cbn [obind]. fold sel. rewrite Bal, Rplus_0_l, Rabs_R0.
  destruct (Rlt_dec threshold 0) as [Q|_]; auto. exfalso. pose proof threshold_pos. lra.
Qed.
(** No outward direction: a division by zero that is not noticed *)
Lemma flux_degenerate dim gattr meshes g ud nz : let sel := fun i => nth i nz false in let z := centre gattr sel meshes dim in
  (dim <= 3)%nat -> points_ok dim meshes -> List.length nz = List.length gattr -> List.length ud = List.length gattr -> forallb (fun c => negb (missing c)) ud = true ->
  (forall i e, In (i, e) (picks gattr sel meshes) -> nth i ud None = Some (CVector VComponent)) ->
  area_of gattr sel meshes <> 0 -> net_flux gattr sel meshes (fun _ => outward z) = 0 ->
  complementary_flux false dim gattr meshes g ud nz = Ok (None, Some z).
Proof.
  intros sel z Hd P L1 L2 H Hc Ha Ho. destruct (flux_unfold dim gattr meshes g ud nz Hd P L1 L2 H Hc Ha) as (E & _). fold sel z in E. destruct (Req_EM_T _ _) as [Q|Q] in E; [|exfalso; apply Q; exact Ho]. etransitivity; [exact E|].
  assert (B : exists b, bdr_sum false gattr nz meshes (fun a i e => let* b := (let* c := oread ud i in match c with Some c => be_flux c g None (Some z) e | None => UB end) in Ok (oplus a b)) (Some 0) = Ok b /\ (b = None \/ b = Some 0)).
  { rewrite bdr_sum_picks by auto. assert (G : forall l b, (forall ie, In ie l -> In ie (picks gattr sel meshes)) -> b = None \/ b = Some 0 -> exists b', ofold (fun a (ie : nat * belem) => let* b := (let* c := oread ud (fst ie) in match c with Some c => be_flux c g None (Some z) (snd ie) | None => UB end) in Ok (oplus a b)) l b = Ok b' /\ (b' = None \/ b' = Some 0)).
    { induction l as [|[i e] l IH]; intros b Hl Hb; cbn [ofold fst snd]; [eauto|]. pose proof (Hl (i, e) (or_introl eq_refl)) as Hie. destruct (picks_in _ _ _ _ _ Hie) as (_ & _ & Hi). destruct (present ud i H ltac:(lia)) as (c & Ec). specialize (Hc i e Hie). rewrite (nth_error_nth _ _ _ Ec) in Hc. injection Hc as ->.
      unfold oread. rewrite Ec. cbn [obind]. assert (Fl : exists r, be_flux (CVector VComponent) g None (Some z) e = Ok r /\ (r = None \/ r = Some 0)).
      { unfold be_flux. cbn [ceval obind]. assert (G : forall qs r, r = None \/ r = Some 0 -> exists r', ofold (fun acc (q : qpoint) => Ok (oplus acc None)) qs r = Ok r' /\ (r' = None \/ r' = Some 0)).
        { induction qs as [|q qs IHq]; intros r Hr; cbn [ofold obind]; [eauto|]. apply IHq. left. destruct r; reflexivity. } apply G. auto. }
      destruct Fl as (r & -> & Hr). cbn [obind]. apply IH; [intros ie Hie'; apply Hl; right; auto|]. destruct Hb as [->| ->], Hr as [->| ->]; cbn [oplus]; auto. right. f_equal. ring. }
    apply G; auto. }
  destruct B as (b & Eb & Hb). rw_bind Eb. destruct Hb as [->| ->]; auto. destruct (Rlt_dec _ _) as [Q'|_]; auto. exfalso. rewrite Rabs_R0 in Q'. pose proof threshold_pos. lra.
Qed.
(** Nothing to correct: the centre is not a number. *)
Lemma flux_nothing full_dg dim gattr g ud nz : List.length nz = List.length gattr -> List.length ud = List.length gattr -> forallb (fun c => negb (missing c)) ud = true -> complementary_flux full_dg dim gattr [] g ud nz = Ok (None, None).
Proof.
  intros L1 L2 H. unfold complementary_flux. rewrite L1, L2, Nat.eqb_refl, H. cbn [oassert]. unfold bdr_sum. cbn [ofold obind]. destruct (Req_EM_T 0 0) as [_|Q]; [|congruence]. destruct (Rlt_dec _ _) as [Q|_]; auto. exfalso. rewrite Rabs_R0 in Q. pose proof threshold_pos. lra.
Qed.

(** ** The whole boundary *)

Lemma zero_value c g d z x v dim : c = CZero -> List.length x = dim -> ceval c g d z x = Ok (Some v) -> forall n, dot dim v n = 0.
Proof. intros -> L H n. cbn in H. injection H as <-. unfold dot. rewrite L. transitivity (rsum dim (fun _ => 0)); [|apply rsum_zero]. apply rsum_ext. intros i Hi. unfold vnth. rewrite nth_repeat. ring. Qed.
Lemma whole_flux gattr (sel : nat -> bool) meshes u dim : points_ok dim meshes -> (forall i x n, (i < List.length gattr)%nat -> sel i = false -> List.length x = dim -> dot dim (u i x) n = 0) ->
  net_flux gattr (fun _ => true) meshes u = net_flux gattr sel meshes u.
Proof.
  intros P H. unfold net_flux. apply lsum_ext. intros es He. apply lsum_ext. intros e Hee. destruct (attr_find gattr (be_attr e) 0) as [i|] eqn:Ei; auto. apply find_lt in Ei. destruct (sel i) eqn:Es; auto.
  apply lsum_zero. intros q Hq. rewrite (P _ _ _ He Hee Hq). apply H; auto. eapply P; eauto.
Qed.
Lemma nonzero_form gattr p : NoDup gattr -> List.length (pb_types p) = List.length (pb_battr p) -> one_for_all p \/ (listed p /\ aligned gattr p) -> nonzero_bdr gattr p = Ok (map (fun a => negb (homogeneous p a)) gattr).
Proof.
  intros Ng L [O|(Lp & Al)]; [|apply nonzero_listed; auto]. apply nonzero_all; auto. rewrite L. unfold one_for_all in O. rewrite O. reflexivity.
Qed.
Lemma inhom_at gattr p i a : nth_error gattr i = Some a -> inhomogeneous gattr p i = negb (homogeneous p a).
Proof. intros H. unfold inhomogeneous. apply nth_error_nth. rewrite nth_error_map, H. reflexivity. Qed.
Lemma hom_prescribed p a : homogeneous p a = true -> prescribed CVector (pb_vbdr p) p a = Some CZero.
Proof. unfold homogeneous, prescribed. destruct (item p a); [|discriminate]. destruct (nth n (pb_types p) BNone); try discriminate. reflexivity. Qed.
Lemma form_of gattr p : one_for_all p \/ (listed p /\ aligned gattr p) -> listed p \/ one_for_all p.
Proof. tauto. Qed.

Lemma flow_balanced full_dg dim gattr meshes junk g p s s' u : NoDup gattr -> (0 < List.length gattr)%nat -> complete p (pb_vbdr p) -> one_for_all p \/ (listed p /\ aligned gattr p) -> List.length (so_ud s) = List.length gattr ->
  points_ok dim meshes -> stokes_set full_dg dim gattr meshes junk g p s = Ok s' -> so_pres s' = false -> evaluates dim g (so_ud s') (so_del s') (so_x0 s') u -> Rabs (net_flux gattr (fun _ => true) meshes u) <= threshold.
Proof.
  intros Ng Lg C Fm Ls P H Hp Ev. destruct (stokes_set_inv _ _ _ _ _ _ _ _ _ Ls H) as (t & ud & Et & Eu & _ & Q2 & _ & _ & _ & _ & Q). rewrite Hp in Q. destruct Q as (_ & nz & En & Ec). rewrite Q2 in Ev.
  rewrite (nonzero_form gattr p Ng (proj1 C) Fm) in En. injection En as <-. pose proof (flux_balanced _ _ _ _ _ _ _ _ _ _ P Ec Ev) as B. change (fun i => nth i (map (fun a => negb (homogeneous p a)) gattr) false) with (inhomogeneous gattr p) in B.
  rewrite (whole_flux gattr (inhomogeneous gattr p) meshes u dim P); auto. intros i x n Hi Hs Lx. pose proof (nth_gattr gattr i Hi) as Ea. rewrite (inhom_at gattr p i _ Ea) in Hs. apply negb_false_iff in Hs.
  destruct (puts_prescribed CVector (pb_vbdr p) gattr p (stokes_case p) Ng Lg (form_of _ _ Fm)) as (bdr & E & L & V). { intros j Hj. apply stokes_case_ok; auto. } rewrite Eu in E. injection E as <-.
  specialize (V i _ Ea). rewrite (hom_prescribed _ _ Hs) in V. apply (zero_value CZero g (so_del s') (so_x0 s') x (u i x) dim eq_refl Lx). apply Ev; auto. rewrite <- V. apply nth_error_nth'. lia.
Qed.

Lemma flow_component dim gattr meshes junk g p s : NoDup gattr -> (0 < List.length gattr)%nat -> complete p (pb_vbdr p) -> listed p -> aligned gattr p -> sized gattr (so_types s) (so_ud s) ->
  (forall a, In a gattr -> exists i, attr_find (pb_battr p) a 0 = Some i /\ (nth_error (pb_types p) i = Some BZero \/ (nth_error (pb_types p) i = Some BDirichlet /\ nth_error (pb_vbdr p) i = Some (Some VComponent)))) ->
  (dim <= 3)%nat -> points_ok dim meshes -> let sel := inhomogeneous gattr p in let z := centre gattr sel meshes dim in
  area_of gattr sel meshes <> 0 -> net_flux gattr sel meshes (fun _ => outward z) <> 0 ->
  exists s' u, stokes_set false dim gattr meshes junk g p s = Ok s' /\ so_pres s' = false /\ so_x0 s' = Some z /\ evaluates dim g (so_ud s') (so_del s') (so_x0 s') u /\ net_flux gattr (fun _ => true) meshes u = 0.
Proof.
  intros Ng Lg C Lp Al (L1 & L2) Hc Hd P sel z Ha Ho. destruct (types_ok gattr p (so_types s) L1 (proj1 C)) as (t & Et & Lt).
  destruct (puts_prescribed CVector (pb_vbdr p) gattr p (stokes_case p) Ng Lg (or_introl Lp)) as (ud & Eu & Lu & V). { intros j Hj. apply stokes_case_ok; auto. }
  assert (W : forall i, (i < List.length gattr)%nat -> nth i ud None = if sel i then Some (CVector VComponent) else Some CZero).
  { intros i Hi. pose proof (nth_gattr gattr i Hi) as Ea. rewrite (V i _ Ea). unfold sel. rewrite (inhom_at gattr p i _ Ea). unfold homogeneous, prescribed. rewrite (item_listed p _ Lp). destruct (Hc _ (nth_error_In _ _ Ea)) as (j & Ej & [Hj|(Hj & Hv)]); rewrite Ej, (nth_error_nth _ _ _ Hj); cbn [negb]; auto.
    rewrite (nth_error_nth _ _ _ Hv). reflexivity. }
  assert (Full : forallb (fun c => negb (missing c)) ud = true).
  { apply forallb_forall. intros c Hin. apply In_nth_error in Hin as (i & Hi). assert (Hl : (i < List.length gattr)%nat) by (rewrite <- Lu; apply nth_error_Some; congruence). specialize (W i Hl). rewrite (nth_error_nth _ _ _ Hi) in W. subst c. destruct (sel i); reflexivity. }
  destruct (sputs_ex gattr (pb_battr p) (stokes_case p) (List.length (pb_battr p)) (repeat None (List.length gattr), so_pres s) ud ltac:(apply repeat_length) Eu) as (pres & E2).
  destruct (sputs_ok gattr (pb_battr p) (stokes_case p) (List.length (pb_battr p)) (repeat None (List.length gattr), so_pres s) (ud, pres) ltac:(apply repeat_length) E2) as (_ & P2 & P3). cbn [fst snd] in P2, P3.
  assert (pres = false).
  { assert (Em : existsb missing ud = false) by (rewrite none_missing in Full; destruct (existsb missing ud); [discriminate|reflexivity]). destruct (existsb (touches _ _ _) _); [congruence|]. rewrite (P3 eq_refl), all_missing in Em by auto. discriminate. }
  clear P2 P3. subst pres. unfold stokes_set. rewrite Et. cbn [obind]. rewrite none_list, L2. unfold sputs in E2. rewrite E2. cbn [obind]. rewrite (nonzero_listed gattr p Lp Ng Al (proj1 C)). cbn [obind].
  destruct (flux_component dim gattr meshes g ud (map (fun a => negb (homogeneous p a)) gattr) Hd P) as (Ec & Bal); auto.
  { rewrite map_length. auto. } { intros i e Hie. destruct (picks_in _ _ _ _ _ Hie) as (Hs & _ & Hi). rewrite (W i Hi). change (sel i = true) in Hs. rewrite Hs. reflexivity. }
  change (fun i => nth i (map (fun a => negb (homogeneous p a)) gattr) false) with sel in Ec, Bal. fold z in Ec, Bal. set (d := net_flux gattr sel meshes (fun _ => corrected g 0 z) / net_flux gattr sel meshes (fun _ => outward z)) in *.
  rewrite Ec. cbn [obind]. exists (SSolver t ud [match pb_vrhs p with Some f => CVector f | None => CZero end] false (g "flow_problem::nu"%string) (Some d) (Some z)), (fun i x => if sel i then corrected g d z x else repeat 0 dim).
  split; [reflexivity|]. cbn [so_pres so_x0 so_ud so_del]. split; auto. split; auto. split.
  - intros i c x Hi Lx. assert (Hl : (i < List.length gattr)%nat) by (rewrite <- Lu; apply nth_error_Some; congruence). specialize (W i Hl). rewrite (nth_error_nth _ _ _ Hi) in W. destruct (sel i); injection W as ->.
    + apply component_corrected; [lia|]. unfold z, centre. rewrite map_length, seq_length. auto.
    + cbn [ceval]. rewrite Lx. reflexivity.
  - rewrite (whole_flux gattr sel meshes _ dim P).
    + rewrite <- Bal. apply (net_flux_ext _ _ _ _ _ _ dim P); auto. intros i x _ Hs _. rewrite Hs. reflexivity.
    + intros i x n Hi Hs Lx. rewrite Hs. apply (zero_value CZero g None None x (repeat 0 dim) dim eq_refl Lx). cbn [ceval]. rewrite Lx. reflexivity.
Qed.
