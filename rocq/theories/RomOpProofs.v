(** Projection of operators, appended bases. *)
From Coq Require Import Reals List Bool Lia Arith ZArith String Lra.
From Verif Require Import Outcome ListLemmas LaBase LinalgModel LinalgSpec LinalgProofs BlockVec TagsModel CompProofs RomModel RomSpec RomProofs RomBasisProofs.
Import ListNotations.
Local Open Scope nat_scope.

Lemma sparse_galerkin L A P : dm_wf L -> dm_wf P -> dm_h L = op_h A -> op_w A = dm_h P -> (exists a, op_matrix A a) ->
  exists M, sparse_rtap L A P = Ok M /\ galerkin L (Some A) P M.
Proof.
  intros WL WP E1 E2 (a & Ha). destruct (sparse_rtap_ok L A P a WL WP E1 E2 Ha) as (M & E & H1 & H2 & _ & _).
  exists M. split; [auto|]. split; [auto|]. split; [auto|]. intros a' Ha' i j Hi Hj.
  destruct (sparse_rtap_ok L A P a' WL WP E1 E2 Ha') as (M' & E' & _ & _ & _ & V). rewrite E in E'. injection E' as <-. auto.
Qed.

Lemma sm_new_galerkin L P : galerkin L None P (sm_new (dm_w L) (dm_w P)).
Proof. split; [auto|]. split; [auto|]. intros. reflexivity. Qed.

Lemma project_dom_op_ok s dim m1 v1 m2 v2 A : bases_ok s dim -> unknown (rs_h s) m1 v1 -> unknown (rs_h s) m2 v2 ->
  op_fits A (full_size (rs_h s) dim m1 v1) (full_size (rs_h s) dim m2 v2) ->
  exists M, project_dom_op s (place (rs_h s) m1 v1) (place (rs_h s) m2 v2) A = Ok M /\
    galerkin (basis_of s m1 v1) A (basis_of s m2 v2) M.
Proof.
  intros B U1 U2 F. unfold project_dom_op. rewrite num_blocks_blocks.
  rewrite (proj2 (Nat.ltb_lt _ _) (place_lt _ _ _ U1)), (proj2 (Nat.ltb_lt _ _) (place_lt _ _ _ U2)).
  rewrite (proj1 B). cbn [oassert]. rewrite (get_dom_ok s dim m1 v1 B U1). cbn [obind].
  rewrite (get_dom_ok s dim m2 v2 B U2). cbn [obind].
  destruct (basis_of_ok s dim m1 v1 B U1) as (W1 & H1 & _). destruct (basis_of_ok s dim m2 v2 B U2) as (W2 & H2 & _).
  destruct A as [A|].
  - destruct F as (Fh & Fw & Fa). rewrite H1, H2, Fh, Fw, !Nat.eqb_refl. cbn [oassert]. apply sparse_galerkin; auto; congruence.
  - eexists. split; [reflexivity|]. apply sm_new_galerkin.
Qed.

Lemma project_ref_op_ok s dim b1 b2 A : bases_ok s dim -> b1 < List.length (rh_nb (rs_h s)) -> b2 < List.length (rh_nb (rs_h s)) ->
  op_fits (Some A) (dim b1) (dim b2) ->
  exists M, project_ref_op s b1 b2 (Some A) = Ok M /\
    galerkin (nth b1 (rs_ref s) (DMat 0 0 [])) (Some A) (nth b2 (rs_ref s) (DMat 0 0 [])) M.
Proof.
  intros B U1 U2 (Fh & Fw & Fa). unfold project_ref_op. pose proof B as (Ld & W & _ & R & _). rewrite num_ref_blocks_eq by auto.
  rewrite (proj2 (Nat.ltb_lt _ _) U1), (proj2 (Nat.ltb_lt _ _) U2), Ld. cbn [oassert].
  rewrite (get_ref_ok s dim b1 B U1). cbn [obind]. rewrite (get_ref_ok s dim b2 B U2). cbn [obind].
  destruct (R b1 U1) as (W1 & H1 & _). destruct (R b2 U2) as (W2 & H2 & _).
  rewrite H1, H2, Fh, Fw, !Nat.eqb_refl. cbn [oassert]. apply sparse_galerkin; auto; congruence.
Qed.

Lemma project_ref_op_null s dim b1 b2 : bases_ok s dim -> b1 < List.length (rh_nb (rs_h s)) -> b2 < List.length (rh_nb (rs_h s)) ->
  project_ref_op s b1 b2 None = UB.
Proof.
  intros B U1 U2. unfold project_ref_op. pose proof B as (Ld & W & _ & R & _). rewrite num_ref_blocks_eq by auto.
  rewrite (proj2 (Nat.ltb_lt _ _) U1), (proj2 (Nat.ltb_lt _ _) U2), Ld. cbn [oassert].
  rewrite (get_ref_ok s dim b1 B U1). cbn [obind]. rewrite (get_ref_ok s dim b2 B U2). reflexivity.
Qed.

Lemma omap_seq_exists {B} (f : nat -> outcome B) n (P : nat -> B -> Prop) d : (forall i, i < n -> exists b, f i = Ok b /\ P i b) ->
  exists l, omap f (seq 0 n) = Ok l /\ List.length l = n /\ forall i, i < n -> P i (nth i l d).
Proof.
  intros H. assert (G : forall k a, (forall i, a <= i < a + k -> exists b, f i = Ok b /\ P i b) ->
    exists l, omap f (seq a k) = Ok l /\ List.length l = k /\ forall i, i < k -> P (a + i) (nth i l d)).
  { induction k; intros a Ha; [exists []; cbn; repeat split; auto; lia|].
    destruct (Ha a) as (b & E & Pb); [lia|]. destruct (IHk (S a)) as (l & El & Ll & Pl); [intros; apply Ha; lia|].
    exists (b :: l). cbn [seq omap]. rewrite E. cbn [obind]. rewrite El. cbn [obind]. split; [auto|]. split; [cbn; lia|].
    intros [|i] Hi; [rewrite Nat.add_0_r; auto|]. replace (a + S i) with (S a + i) by lia. apply Pl. lia. }
  destruct (G n 0) as (l & E & L & Hl); [intros; apply H; lia|]. exists l. auto.
Qed.

Lemma project_ops_ok proj bound (idx_i idx_j : list nat) mats (P : nat -> nat -> smat -> Prop) :
  0 < List.length idx_i -> 0 < List.length idx_j ->
  (forall i, In i idx_i -> i < bound) -> (forall i, In i idx_j -> i < bound) ->
  om_r mats = List.length idx_i -> om_c mats = List.length idx_j ->
  (forall i j, i < List.length idx_i -> j < List.length idx_j ->
     exists M, proj (nth i idx_i 0) (nth j idx_j 0) (om_get mats i j) = Ok M /\ P i j M) ->
  exists out, project_ops proj true bound idx_i idx_j mats = Ok out /\ List.length out = List.length idx_i /\
    (forall i, i < List.length idx_i -> List.length (nth i out []) = List.length idx_j) /\
    forall i j, i < List.length idx_i -> j < List.length idx_j -> P i j (smat_at out i j).
Proof.
  intros Pi Pj Bi Bj Er Ec H. unfold project_ops. cbn [oassert].
  destruct (Nat.eqb_spec (List.length idx_i) 0); [lia|]. destruct (Nat.eqb_spec (List.length idx_j) 0); [lia|]. cbn [negb oguard].
  rewrite (proj2 (forallb_forall _ idx_i)) by (intros; apply Nat.ltb_lt; auto).
  rewrite (proj2 (forallb_forall _ idx_j)) by (intros; apply Nat.ltb_lt; auto).
  cbn [oassert]. rewrite Er, Ec, !Nat.eqb_refl. cbn [oassert].
  destruct (omap_seq_exists (fun i => omap (fun j =>
    let* ii := oread idx_i i in
    let* jj := oread idx_j j in
    proj ii jj (om_get mats i j)) (seq 0 (List.length idx_j))) (List.length idx_i)
    (fun i l => List.length l = List.length idx_j /\ forall j, j < List.length idx_j -> P i j (nth j l (sm_new 0 0))) []) as (out & E & L & Ho).
  - intros i Hi. destruct (omap_seq_exists (fun j =>
    let* ii := oread idx_i i in
    let* jj := oread idx_j j in
    proj ii jj (om_get mats i j)) (List.length idx_j) (P i) (sm_new 0 0)) as (l & El & Ll & Hl).
    + intros j Hj. rewrite (oread_nth idx_i i 0), (oread_nth idx_j j 0) by auto. cbn [obind]. auto.
    + exists l. auto.
  - exists out. split; [auto|]. split; [auto|]. split; [intros; apply Ho; auto|]. intros i j Hi Hj. apply Ho; auto.
Qed.

(** Blocks of a subdomain operator land where the block index says. *)
Lemma project_dom_ops_ok s dim (ui uj : list (nat * nat)) mats : bases_ok s dim ->
  0 < List.length ui -> 0 < List.length uj ->
  (forall p, In p ui -> unknown (rs_h s) (fst p) (snd p)) -> (forall p, In p uj -> unknown (rs_h s) (fst p) (snd p)) ->
  om_r mats = List.length ui -> om_c mats = List.length uj ->
  (forall i j, i < List.length ui -> j < List.length uj ->
     op_fits (om_get mats i j) (full_size (rs_h s) dim (fst (nth i ui (0, 0))) (snd (nth i ui (0, 0))))
       (full_size (rs_h s) dim (fst (nth j uj (0, 0))) (snd (nth j uj (0, 0))))) ->
  exists out, project_dom_ops s (map (fun p => place (rs_h s) (fst p) (snd p)) ui) (map (fun p => place (rs_h s) (fst p) (snd p)) uj) mats = Ok out /\
    List.length out = List.length ui /\ (forall i, i < List.length ui -> List.length (nth i out []) = List.length uj) /\
    forall i j, i < List.length ui -> j < List.length uj ->
      galerkin (basis_of s (fst (nth i ui (0, 0))) (snd (nth i ui (0, 0)))) (om_get mats i j)
               (basis_of s (fst (nth j uj (0, 0))) (snd (nth j uj (0, 0)))) (smat_at out i j).
Proof.
  intros B Pi Pj Hi Hj Er Ec F. unfold project_dom_ops. rewrite (proj1 B).
  set (pl := fun p : nat * nat => place (rs_h s) (fst p) (snd p)).
  destruct (project_ops_ok (project_dom_op s) (num_blocks (rs_h s)) (map pl ui) (map pl uj) mats
    (fun i j M => galerkin (basis_of s (fst (nth i ui (0, 0))) (snd (nth i ui (0, 0)))) (om_get mats i j)
               (basis_of s (fst (nth j uj (0, 0))) (snd (nth j uj (0, 0)))) M)) as (out & E & L1 & L2 & G);
    rewrite ?map_length in *; auto.
  - intros b Hb. rewrite num_blocks_blocks. apply in_map_iff in Hb. destruct Hb as (p & <- & Hp). apply place_lt. auto.
  - intros b Hb. rewrite num_blocks_blocks. apply in_map_iff in Hb. destruct Hb as (p & <- & Hp). apply place_lt. auto.
  - intros i j Li Lj. rewrite (nth_indep (map pl ui) 0 (pl (0, 0))) by (rewrite map_length; auto).
    rewrite (nth_indep (map pl uj) 0 (pl (0, 0))) by (rewrite map_length; auto). rewrite !map_nth. unfold pl.
    apply (project_dom_op_ok s dim); auto; [apply Hi|apply Hj]; apply nth_In; auto.
  - exists out. auto.
Qed.

(** ** Global operator *)

Lemma project_global_op_ok s dim mats : bases_ok s dim -> om_r mats = blocks (rs_h s) -> om_c mats = blocks (rs_h s) ->
  (forall m v m' v', unknown (rs_h s) m v -> unknown (rs_h s) m' v' ->
     op_fits (om_get mats (place (rs_h s) m v) (place (rs_h s) m' v')) (full_size (rs_h s) dim m v) (full_size (rs_h s) dim m' v')) ->
  exists out, project_global_op s mats = Ok out /\ List.length out = blocks (rs_h s) /\
    forall m v m' v', unknown (rs_h s) m v -> unknown (rs_h s) m' v' ->
      galerkin (basis_of s m v) (om_get mats (place (rs_h s) m v) (place (rs_h s) m' v')) (basis_of s m' v')
        (smat_at out (place (rs_h s) m v) (place (rs_h s) m' v')).
Proof.
  intros B Er Ec F. unfold project_global_op. rewrite num_blocks_blocks, Er, Ec, Nat.eqb_refl. cbn [oassert].
  set (h := rs_h s) in *. set (us := map (fun k => (um h k, uv h k)) (seq 0 (blocks h))).
  assert (Lu : List.length us = blocks h) by (unfold us; rewrite map_length, seq_length; auto).
  assert (Nu : forall k, k < blocks h -> nth k us (0, 0) = (um h k, uv h k)) by (intros; unfold us; rewrite nth_map_seq by auto; auto).
  assert (Ps : map (fun p => place h (fst p) (snd p)) us = seq 0 (blocks h)).
  { unfold us. rewrite map_map. rewrite <- (map_id (seq 0 (blocks h))) at 2. apply map_ext_in. intros k Hk. apply in_seq in Hk.
    cbn [fst snd]. apply um_uv. lia. }
  assert (Us : forall p, In p us -> unknown h (fst p) (snd p)).
  { intros p Hp. unfold us in Hp. apply in_map_iff in Hp. destruct Hp as (k & <- & Hk). apply in_seq in Hk. cbn [fst snd]. apply um_uv. lia. }
  destruct (project_dom_ops_ok s dim us us mats B) as (out & E & L1 & _ & G); auto; try (rewrite Lu; auto using num_blocks_pos).
  - apply num_blocks_pos. apply B.
  - apply num_blocks_pos. apply B.
  - intros i j Hi Hj. rewrite !Nu by auto. cbn [fst snd]. fold h.
    destruct (um_uv h i Hi) as (U1 & P1). destruct (um_uv h j Hj) as (U2 & P2).
    pose proof (F _ _ _ _ U1 U2) as Fx. rewrite P1, P2 in Fx. exact Fx.
  - fold h in E. rewrite Ps in E. exists out. split; [exact E|]. split; [lia|]. intros m v m' v' U U'.
    specialize (G (place h m v) (place h m' v')). rewrite Lu in G. specialize (G (place_lt h m v U) (place_lt h m' v' U')).
    rewrite !Nu in G by (apply place_lt; auto). cbn [fst snd] in G.
    destruct (um_uv_place h m v U) as (E1 & E2). destruct (um_uv_place h m' v' U') as (E3 & E4).
    rewrite E1, E2, E3, E4 in G. exact G.
Qed.

(** Sum over all unknowns. *)
Definition usum (h : rom) (f : nat -> nat -> R) : R :=
  rsum (rh_nsub h) (fun m => rsum (if rh_sep h then rh_nvar h else 1) (fun v => f m v)).

Lemma usum_ext h f g : (forall m v, unknown h m v -> f m v = g m v) -> usum h f = usum h g.
Proof.
  intros H. apply rsum_ext. intros m Hm. apply rsum_ext. intros v Hv. apply H. split; auto. destruct (rh_sep h); auto. lia.
Qed.
Lemma usum_rsum h n (f : nat -> nat -> nat -> R) : rsum n (fun k => usum h (f k)) = usum h (fun m v => rsum n (fun k => f k m v)).
Proof. unfold usum. rewrite rsum_swap. apply rsum_ext. intros. apply rsum_swap. Qed.
Lemma usum_scal h a f : usum h (fun m v => a * f m v)%R = (a * usum h f)%R.
Proof. unfold usum. rewrite <- rsum_scal. apply rsum_ext. intros. apply rsum_scal. Qed.

Lemma galerkin_identity s dim mats a out r V0 V : bases_ok s dim -> om_r mats = blocks (rs_h s) -> om_c mats = blocks (rs_h s) ->
  let h := rs_h s in
  (forall m v m' v', unknown h m v -> unknown h m' v' ->
     match om_get mats (place h m v) (place h m' v') with
     | Some A => op_h A = full_size h dim m v /\ op_w A = full_size h dim m' v' /\ op_matrix A (a m v m' v')
     | None => forall p q, a m v m' v' p q = 0%R
     end) ->
  fits h (place h) (basis_size h) r -> fits h (fom_place h) (full_size h dim) V0 ->
  project_global_op s mats = Ok out -> lift_global s r V0 = Ok V ->
  forall m v k, unknown h m v -> k < basis_size h m v ->
    usum h (fun m' v' => rsum (basis_size h m' v') (fun l =>
      sm_val (smat_at out (place h m v) (place h m' v')) k l * entry (place h) r m' v' l)%R) =
    rsum (full_size h dim m v) (fun i => (mget (basis_of s m v) i k *
      usum h (fun m' v' => rsum (full_size h dim m' v') (fun q => a m v m' v' i q * entry (fom_place h) V m' v' q)))%R).
Proof.
  intros B Er Ec h Ha Fr F0 Eo El m v k U K.
  destruct (project_global_op_ok s dim mats B Er Ec) as (out' & Eo' & _ & G).
  { intros m1 v1 m2 v2 U1 U2. specialize (Ha m1 v1 m2 v2 U1 U2). fold h. unfold op_fits. destruct (om_get _ _ _); auto.
    destruct Ha as (A1 & A2 & A3). split; [auto|]. split; [auto|]. eexists. exact A3. }
  rewrite Eo in Eo'. injection Eo' as <-.
  destruct (lift_global_ok s dim B r V0 Fr F0) as (V' & El' & _ & HV). rewrite El in El'. injection El' as <-. fold h in HV, G.
  rewrite (rsum_ext _ _ (fun i => usum h (fun m' v' => rsum (full_size h dim m' v') (fun q =>
     mget (basis_of s m v) i k * (a m v m' v' i q * entry (fom_place h) V m' v' q))))%R).
  2:{ intros i Hi. rewrite <- usum_scal. apply usum_ext. intros m' v' U'. rewrite <- rsum_scal. apply rsum_ext. intros. ring. }
  rewrite usum_rsum. apply usum_ext. intros m' v' U'.
  destruct (G m v m' v' U U') as (S1 & S2 & SV). specialize (Ha m v m' v' U U').
  destruct (basis_of_ok s dim m v B U) as (_ & H1 & W1). destruct (basis_of_ok s dim m' v' B U') as (_ & H2 & W2). fold h in H1, H2, W1, W2.
  specialize (SV (a m v m' v')).
  assert (Val : forall l, l < basis_size h m' v' -> sm_val (smat_at out (place h m v) (place h m' v')) k l =
     rsum (full_size h dim m v) (fun i => rsum (full_size h dim m' v') (fun q => mget (basis_of s m v) i k * (a m v m' v' i q * mget (basis_of s m' v') q l)))%R).
  { intros l Hl. destruct (om_get mats (place h m v) (place h m' v')) as [A|].
    - destruct Ha as (A1 & A2 & A3). rewrite (SV A3 k l) by lia. unfold rap. rewrite A1, A2. apply rsum_ext. intros i Hi.
      rewrite <- rsum_scal. apply rsum_ext. intros. ring.
    - rewrite (SV I k l) by lia. symmetry. rewrite <- (rsum_zero (full_size h dim m v)). apply rsum_ext. intros i Hi.
      rewrite <- (rsum_zero (full_size h dim m' v')). apply rsum_ext. intros q Hq. rewrite Ha. ring. }
  rewrite (rsum_ext (basis_size h m' v') _ (fun l => rsum (full_size h dim m v) (fun i => rsum (full_size h dim m' v') (fun q =>
     mget (basis_of s m v) i k * (a m v m' v' i q * mget (basis_of s m' v') q l) * entry (place h) r m' v' l)))%R).
  2:{ intros l Hl. rewrite Val by auto. rewrite <- rsum_scal_r. apply rsum_ext. intros i Hi. rewrite <- rsum_scal_r. auto. }
  rewrite rsum_swap. apply rsum_ext. intros i Hi. rewrite rsum_swap. apply rsum_ext. intros q Hq.
  rewrite (HV m' v' q U' Hq). rewrite <- rsum_scal. rewrite <- rsum_scal. apply rsum_ext. intros. ring.
Qed.

(** ** Component, interface and variable projections *)

Lemma comp_idx_place h m : m < rh_nsub h -> rh_sep h = false \/ rh_ord h = ByDomain ->
  comp_idx h m = map (fun p => place h (fst p) (snd p)) (map (fun v => (m, v)) (seq 0 (if rh_sep h then rh_nvar h else 1))).
Proof.
  intros Hm C. unfold comp_idx, place. destruct (rh_sep h); [|reflexivity]. destruct C as [C|C]; [discriminate|]. rewrite C.
  rewrite map_map. reflexivity.
Qed.
Lemma itf_idx_place h m1 m2 : rh_sep h = false \/ rh_ord h = ByDomain ->
  itf_idx h m1 m2 = map (fun p => place h (fst p) (snd p))
    (map (fun v => (m1, v)) (seq 0 (if rh_sep h then rh_nvar h else 1)) ++ map (fun v => (m2, v)) (seq 0 (if rh_sep h then rh_nvar h else 1))).
Proof.
  intros C. unfold itf_idx, place. destruct (rh_sep h); [|reflexivity]. destruct C as [C|C]; [discriminate|]. rewrite C.
  rewrite map_app, !map_map. reflexivity.
Qed.
Lemma var_idx_place h v : rh_sep h = true -> rh_ord h = ByDomain ->
  var_idx h v = map (fun p => place h (fst p) (snd p)) (map (fun m => (m, v)) (seq 0 (rh_nsub h))).
Proof. intros S C. unfold var_idx, place. rewrite S, C, map_map. reflexivity. Qed.

(** [us] are the unknowns of the rows and columns of [mats], [out] their projection. *)
Definition designates (s : romst) (dim : nat -> nat) (us : list (nat * nat)) (mats : opmat) : Prop :=
  om_r mats = List.length us /\ om_c mats = List.length us /\
  forall i j, i < List.length us -> j < List.length us ->
     op_fits (om_get mats i j) (full_size (rs_h s) dim (fst (nth i us (0, 0))) (snd (nth i us (0, 0))))
       (full_size (rs_h s) dim (fst (nth j us (0, 0))) (snd (nth j us (0, 0)))).
Definition projected (s : romst) (ui uj : list (nat * nat)) (mats : opmat) (out : list (list smat)) : Prop :=
  List.length out = List.length ui /\ (forall i, i < List.length ui -> List.length (nth i out []) = List.length uj) /\
  forall i j, i < List.length ui -> j < List.length uj ->
      galerkin (basis_of s (fst (nth i ui (0, 0))) (snd (nth i ui (0, 0)))) (om_get mats i j)
               (basis_of s (fst (nth j uj (0, 0))) (snd (nth j uj (0, 0)))) (smat_at out i j).

Definition comp_unknowns (h : rom) (m : nat) : list (nat * nat) := map (fun v => (m, v)) (seq 0 (if rh_sep h then rh_nvar h else 1)).
Definition var_unknowns (h : rom) (v : nat) : list (nat * nat) := map (fun m => (m, v)) (seq 0 (rh_nsub h)).

Lemma comp_unknowns_ok h m p : m < rh_nsub h -> In p (comp_unknowns h m) -> unknown h (fst p) (snd p).
Proof.
  intros Hm Hp. unfold comp_unknowns in Hp. apply in_map_iff in Hp. destruct Hp as (v & <- & Hv). apply in_seq in Hv.
  cbn [fst snd]. split; auto. destruct (rh_sep h); lia.
Qed.
Lemma comp_unknowns_pos h m : rom_wf h -> 0 < List.length (comp_unknowns h m).
Proof. intros (_ & Hv & _). unfold comp_unknowns. rewrite map_length, seq_length. destruct (rh_sep h); lia. Qed.

Lemma project_comp_dom_ok s dim m mats : bases_ok s dim -> m < rh_nsub (rs_h s) ->
  rh_sep (rs_h s) = false \/ rh_ord (rs_h s) = ByDomain -> designates s dim (comp_unknowns (rs_h s) m) mats ->
  exists out, project_comp_dom s m mats = Ok out /\ projected s (comp_unknowns (rs_h s) m) (comp_unknowns (rs_h s) m) mats out.
Proof.
  intros B Hm C (D1 & D2 & D3). unfold project_comp_dom. rewrite comp_idx_place by auto. fold (comp_unknowns (rs_h s) m).
  unfold square. rewrite map_length, D1, D2, Nat.eqb_refl. cbn [andb oassert].
  apply (project_dom_ops_ok s dim); auto; try (apply comp_unknowns_pos; apply B); intros p Hp; eapply comp_unknowns_ok; eauto.
Qed.

Lemma project_itf_dom_ok s dim m1 m2 mats : bases_ok s dim -> m1 < rh_nsub (rs_h s) -> m2 < rh_nsub (rs_h s) ->
  rh_sep (rs_h s) = false \/ rh_ord (rs_h s) = ByDomain ->
  designates s dim (comp_unknowns (rs_h s) m1 ++ comp_unknowns (rs_h s) m2) mats ->
  exists out, project_itf_dom s m1 m2 mats = Ok out /\
    projected s (comp_unknowns (rs_h s) m1 ++ comp_unknowns (rs_h s) m2) (comp_unknowns (rs_h s) m1 ++ comp_unknowns (rs_h s) m2) mats out.
Proof.
  intros B Hm1 Hm2 C (D1 & D2 & D3). unfold project_itf_dom. rewrite itf_idx_place by auto. fold (comp_unknowns (rs_h s) m1) (comp_unknowns (rs_h s) m2).
  unfold square. rewrite map_length, D1, D2, Nat.eqb_refl. cbn [andb oassert].
  assert (P : 0 < List.length (comp_unknowns (rs_h s) m1 ++ comp_unknowns (rs_h s) m2)).
  { rewrite app_length. pose proof (comp_unknowns_pos (rs_h s) m1 (proj1 (proj2 B))). lia. }
  assert (I : forall p, In p (comp_unknowns (rs_h s) m1 ++ comp_unknowns (rs_h s) m2) -> unknown (rs_h s) (fst p) (snd p)).
  { intros p Hp. apply in_app_or in Hp. destruct Hp; [apply (comp_unknowns_ok _ m1)|apply (comp_unknowns_ok _ m2)]; auto. }
  apply (project_dom_ops_ok s dim); auto.
Qed.

Lemma project_var_dom_ok s dim vi vj mats : bases_ok s dim -> vi < rh_nvar (rs_h s) -> vj < rh_nvar (rs_h s) ->
  rh_sep (rs_h s) = true -> rh_ord (rs_h s) = ByDomain ->
  om_r mats = rh_nsub (rs_h s) -> om_c mats = rh_nsub (rs_h s) ->
  (forall m m', m < rh_nsub (rs_h s) -> m' < rh_nsub (rs_h s) ->
     op_fits (om_get mats m m') (full_size (rs_h s) dim m vi) (full_size (rs_h s) dim m' vj)) ->
  exists out, project_var_dom s vi vj mats = Ok out /\ projected s (var_unknowns (rs_h s) vi) (var_unknowns (rs_h s) vj) mats out.
Proof.
  intros B Hi Hj Sep C D1 D2 D3. unfold project_var_dom. rewrite Sep. cbn [oassert]. rewrite !var_idx_place by auto.
  fold (var_unknowns (rs_h s) vi) (var_unknowns (rs_h s) vj). unfold square.
  assert (Lv : forall v, List.length (var_unknowns (rs_h s) v) = rh_nsub (rs_h s)) by (intros; unfold var_unknowns; rewrite map_length, seq_length; auto).
  assert (Iv : forall v p, v < rh_nvar (rs_h s) -> In p (var_unknowns (rs_h s) v) -> unknown (rs_h s) (fst p) (snd p)).
  { intros v p Hv Hp. unfold var_unknowns in Hp. apply in_map_iff in Hp. destruct Hp as (m & <- & Hm). apply in_seq in Hm.
    split; cbn [fst snd]; [lia|]. rewrite Sep. auto. }
  pose proof (proj1 (proj1 (proj2 B))) as Ps.
  rewrite map_length, Lv, D1, D2, Nat.eqb_refl. cbn [andb oassert].
  apply (project_dom_ops_ok s dim); auto; rewrite ?Lv; auto.
  - intros p Hp. apply (Iv vi); auto.
  - intros p Hp. apply (Iv vj); auto.
  - intros i j Li Lj. unfold var_unknowns. rewrite !nth_map_seq by auto. cbn [fst snd]. auto.
Qed.

(** Reference versions: the bases are indexed by (component, variable) whatever the ordering. *)
Definition ref_basis_of (s : romst) (c v : nat) : dmat := nth (ref_place (rs_h s) c v) (rs_ref s) (DMat 0 0 []).
Definition ref_unknown (h : rom) (p : nat * nat) : Prop := fst p < rh_ncomp h /\ (if rh_sep h then snd p < rh_nvar h else snd p = 0).

Lemma project_ref_ops_ok s dim (us : list (nat * nat)) mats (A : nat -> nat -> operator) : bases_ok s dim ->
  0 < List.length us -> (forall p, In p us -> ref_unknown (rs_h s) p) ->
  om_r mats = List.length us -> om_c mats = List.length us ->
  (forall i j, i < List.length us -> j < List.length us -> om_get mats i j = Some (A i j) /\
     op_fits (Some (A i j)) (dim (ref_place (rs_h s) (fst (nth i us (0, 0))) (snd (nth i us (0, 0)))))
       (dim (ref_place (rs_h s) (fst (nth j us (0, 0))) (snd (nth j us (0, 0)))))) ->
  exists out, project_ref_ops s (map (fun p => ref_place (rs_h s) (fst p) (snd p)) us) (map (fun p => ref_place (rs_h s) (fst p) (snd p)) us) mats = Ok out /\
    List.length out = List.length us /\ (forall i, i < List.length us -> List.length (nth i out []) = List.length us) /\
    forall i j, i < List.length us -> j < List.length us ->
      galerkin (ref_basis_of s (fst (nth i us (0, 0))) (snd (nth i us (0, 0)))) (Some (A i j))
               (ref_basis_of s (fst (nth j us (0, 0))) (snd (nth j us (0, 0)))) (smat_at out i j).
Proof.
  intros B P Hu Er Ec F. unfold project_ref_ops. rewrite (proj1 B).
  set (pl := fun p : nat * nat => ref_place (rs_h s) (fst p) (snd p)).
  assert (Lt : forall p, In p us -> pl p < List.length (rh_nb (rs_h s))).
  { intros p Hp. destruct (Hu p Hp) as (H1 & H2). unfold pl. destruct B as (_ & (_ & _ & _ & _ & L) & _). rewrite L. apply ref_place_lt; auto. }
  destruct (project_ops_ok (project_ref_op s) (num_ref_blocks (rs_h s)) (map pl us) (map pl us) mats
    (fun i j M => galerkin (ref_basis_of s (fst (nth i us (0, 0))) (snd (nth i us (0, 0)))) (Some (A i j))
               (ref_basis_of s (fst (nth j us (0, 0))) (snd (nth j us (0, 0)))) M)) as (out & E & L1 & L2 & G);
    rewrite ?map_length in *; auto.
  - intros b Hb. rewrite num_ref_blocks_eq by apply B. apply in_map_iff in Hb. destruct Hb as (p & <- & Hp). auto.
  - intros b Hb. rewrite num_ref_blocks_eq by apply B. apply in_map_iff in Hb. destruct Hb as (p & <- & Hp). auto.
  - intros i j Li Lj. rewrite (nth_indep (map pl us) 0 (pl (0, 0))) by (rewrite map_length; auto).
    rewrite (nth_indep (map pl us) (n := j) 0 (pl (0, 0))) by (rewrite map_length; auto). rewrite !map_nth.
    destruct (F i j Li Lj) as (Em & Fo). rewrite Em. unfold ref_basis_of.
    apply (project_ref_op_ok s dim); auto; apply Lt; apply nth_In; auto.
  - exists out. auto.
Qed.

Lemma comp_idx_ref h c : comp_idx h c = map (fun p => ref_place h (fst p) (snd p)) (comp_unknowns h c).
Proof. unfold comp_idx, ref_place, comp_unknowns. destruct (rh_sep h); [rewrite map_map|]; reflexivity. Qed.
Lemma itf_idx_ref h c1 c2 : itf_idx h c1 c2 = map (fun p => ref_place h (fst p) (snd p)) (comp_unknowns h c1 ++ comp_unknowns h c2).
Proof. unfold itf_idx, ref_place, comp_unknowns. destruct (rh_sep h); [rewrite map_app, !map_map|]; reflexivity. Qed.

Lemma comp_unknowns_ref h c p : c < rh_ncomp h -> In p (comp_unknowns h c) -> ref_unknown h p.
Proof.
  intros Hm Hp. unfold comp_unknowns in Hp. apply in_map_iff in Hp. destruct Hp as (v & <- & Hv). apply in_seq in Hv.
  split; cbn [fst snd]; auto. destruct (rh_sep h); lia.
Qed.

Definition ref_designates (s : romst) (dim : nat -> nat) (us : list (nat * nat)) (mats : opmat) (A : nat -> nat -> operator) : Prop :=
  om_r mats = List.length us /\ om_c mats = List.length us /\
  (forall i j, i < List.length us -> j < List.length us -> om_get mats i j = Some (A i j) /\
     op_fits (Some (A i j)) (dim (ref_place (rs_h s) (fst (nth i us (0, 0))) (snd (nth i us (0, 0)))))
       (dim (ref_place (rs_h s) (fst (nth j us (0, 0))) (snd (nth j us (0, 0)))))).
Definition ref_projected (s : romst) (us : list (nat * nat)) (A : nat -> nat -> operator) (out : list (list smat)) : Prop :=
  List.length out = List.length us /\ (forall i, i < List.length us -> List.length (nth i out []) = List.length us) /\
  forall i j, i < List.length us -> j < List.length us ->
      galerkin (ref_basis_of s (fst (nth i us (0, 0))) (snd (nth i us (0, 0)))) (Some (A i j))
               (ref_basis_of s (fst (nth j us (0, 0))) (snd (nth j us (0, 0)))) (smat_at out i j).

Lemma project_comp_ref_ok s dim c mats A : bases_ok s dim -> c < rh_ncomp (rs_h s) ->
  ref_designates s dim (comp_unknowns (rs_h s) c) mats A ->
  exists out, project_comp_ref s c mats = Ok out /\ ref_projected s (comp_unknowns (rs_h s) c) A out.
Proof.
  intros B Hc (D1 & D2 & D3). unfold project_comp_ref. rewrite comp_idx_ref. unfold square.
  rewrite map_length, D1, D2, Nat.eqb_refl. cbn [andb oassert].
  apply (project_ref_ops_ok s dim); auto; [apply comp_unknowns_pos; apply B|]. intros p Hp. eapply comp_unknowns_ref; eauto.
Qed.
Lemma project_itf_ref_ok s dim c1 c2 mats A : bases_ok s dim -> c1 < rh_ncomp (rs_h s) -> c2 < rh_ncomp (rs_h s) ->
  ref_designates s dim (comp_unknowns (rs_h s) c1 ++ comp_unknowns (rs_h s) c2) mats A ->
  exists out, project_itf_ref s c1 c2 mats = Ok out /\ ref_projected s (comp_unknowns (rs_h s) c1 ++ comp_unknowns (rs_h s) c2) A out.
Proof.
  intros B Hc1 Hc2 (D1 & D2 & D3). unfold project_itf_ref. rewrite itf_idx_ref. unfold square.
  rewrite map_length, D1, D2, Nat.eqb_refl. cbn [andb oassert].
  apply (project_ref_ops_ok s dim); auto.
  - rewrite app_length. pose proof (comp_unknowns_pos (rs_h s) c1 (proj1 (proj2 B))). lia.
  - intros p Hp. apply in_app_or in Hp. destruct Hp; [apply (comp_unknowns_ref _ c1)|apply (comp_unknowns_ref _ c2)]; auto.
Qed.

(** ** Stokes *)

Lemma flat_map_nth {A} (d : A) (g : nat -> nat -> A) w : forall n a i j, i < w -> j < n ->
  nth (i + j * w) (flat_map (fun j => map (g j) (seq 0 w)) (seq a n)) d = g (a + j) i.
Proof.
  induction n; intros a i j Hi Hj; [lia|]. cbn [seq flat_map]. destruct j.
  - rewrite app_nth1 by (rewrite map_length, seq_length; lia). rewrite !Nat.add_0_r. rewrite nth_map_seq by auto. auto.
  - rewrite app_nth2 by (rewrite map_length, seq_length; cbn; lia). rewrite map_length, seq_length.
    replace (i + S j * w - w) with (i + j * w) by (cbn; lia). rewrite IHn by lia. f_equal. lia.
Qed.
Lemma flat_map_len {A} (g : nat -> nat -> A) w : forall n a, List.length (flat_map (fun j => map (g j) (seq 0 w)) (seq a n)) = n * w.
Proof. induction n; intros a; cbn [seq flat_map]; auto. rewrite app_length, map_length, seq_length, IHn. cbn. auto. Qed.

Lemma dm_transpose_ok m : dm_wf (dm_transpose m) /\ dm_h (dm_transpose m) = dm_w m /\ dm_w (dm_transpose m) = dm_h m /\
  forall i j, i < dm_w m -> j < dm_h m -> mget (dm_transpose m) i j = mget m j i.
Proof.
  unfold dm_transpose. split; [|split; [auto|split; [auto|]]].
  - unfold dm_wf. cbn [dm_h dm_w dm_buf]. rewrite flat_map_len. lia.
  - intros i j Hi Hj. unfold mget at 1. cbn [dm_h dm_buf]. unfold vnth. rewrite flat_map_nth by auto. reflexivity.
Qed.

Lemma op_of_matrix m a : (forall i j, i < dm_h m -> j < dm_w m -> mget m i j = a i j) -> op_matrix (op_of m) a.
Proof.
  intros H x Lx. cbn [op_of op_h op_w op_mul] in *. split; [apply dm_mult_length|]. intros i Hi. rewrite dm_mult_nth by auto.
  unfold mat_vec. apply rsum_ext. intros j Hj. rewrite H by auto. auto.
Qed.

(** Which matrix couples two unknowns in the saddle-point system. *)
Definition saddle_block (mm bm : nat -> nat -> dmat) (m v m' v' : nat) : option dmat :=
  match v, v' with
  | 0, 0 => Some (mm m m')
  | 1, 0 => Some (bm m m')
  | 0, 1 => Some (dm_transpose (bm m' m))
  | _, _ => None
  end.

Lemma stokes_blocks_ok h mm bm : rom_wf h -> rh_sep h = true -> rh_nvar h = 2 ->
  exists t, stokes_blocks h mm bm = Ok t /\
    forall m v m' v', unknown h m v -> unknown h m' v' -> t (place h m v) (place h m' v') = saddle_block mm bm m v m' v'.
Proof.
  intros W Sep Nv.
  assert (Un : forall m v, m < rh_nsub h -> v < 2 -> unknown h m v) by (intros; split; [auto|rewrite Sep, Nv; auto]).
  set (J := fun (i j : nat) (t : nat -> nat -> option dmat) => forall m v m' v', unknown h m v -> unknown h m' v' ->
     t (place h m v) (place h m' v') = if (m <? i) || ((m =? i) && (m' <? j)) then saddle_block mm bm m v m' v' else None).
  unfold stokes_blocks.
  destruct (ofor_inv (rh_nsub h) (fun t i => ofor (rh_nsub h) (fun t j =>
    let bt := dm_transpose (bm j i) in
    let* ui := block_index h i 0 in
    let* pi := block_index h i 1 in
    let* uj := block_index h j 0 in
    let* pj := block_index h j 1 in
    Ok (set2 (set2 (set2 t ui uj (mm i j)) pi uj (bm i j)) ui pj bt)) t) (fun i => J i 0) (fun _ _ => None)) as (t & E & Ht).
  - intros m v m' v' _ _. destruct (Nat.ltb_spec m 0); [lia|]. cbn [orb]. destruct (m =? 0); auto.
  - intros i t Hi Ht.
    destruct (ofor_inv (rh_nsub h) (fun t j =>
    let bt := dm_transpose (bm j i) in
    let* ui := block_index h i 0 in
    let* pi := block_index h i 1 in
    let* uj := block_index h j 0 in
    let* pj := block_index h j 1 in
    Ok (set2 (set2 (set2 t ui uj (mm i j)) pi uj (bm i j)) ui pj bt)) (fun j => J i j) t Ht) as (t' & E & Ht').
    + intros j t1 Hj H1. cbv zeta.
      change 0%Z with (Z.of_nat 0). change 1%Z with (Z.of_nat 1). rewrite !block_index_place by (apply Un; auto). cbn [obind].
      eexists. split; [reflexivity|]. intros m v m' v' U U'. unfold set2.
      assert (Q : forall a b c d, unknown h a b -> unknown h c d -> (place h a b =? place h c d) = ((a =? c) && (b =? d))).
      { intros a b c d Ua Uc. destruct (Nat.eqb_spec (place h a b) (place h c d)) as [e|ne].
        - apply place_inj in e; auto. destruct e as (-> & ->). rewrite !Nat.eqb_refl. auto.
        - destruct (Nat.eqb_spec a c), (Nat.eqb_spec b d); subst; auto; congruence. }
      rewrite !Q by (auto; apply Un; auto). specialize (H1 m v m' v' U U'). rewrite H1. clear H1 Q.
      destruct U as (Um & Uv). destruct U' as (Um' & Uv'). rewrite Sep, Nv in Uv, Uv'.
      destruct (Nat.eqb_spec m i) as [->|Nm]; cbn [andb orb].
      2:{ destruct (m <? i); auto. }
      rewrite Nat.ltb_irrefl. cbn [orb].
      destruct (Nat.eqb_spec m' j) as [->|Nm']; cbn [andb].
      2:{ rewrite !andb_false_r. destruct (Nat.ltb_spec m' j), (Nat.ltb_spec m' (S j)); auto; lia. }
      rewrite Nat.ltb_irrefl. rewrite (proj2 (Nat.ltb_lt j (S j))) by lia.
      destruct v as [|[|v]], v' as [|[|v']]; try lia; reflexivity.
    + exists t'. split; [auto|]. intros m v m' v' U U'. rewrite (Ht' m v m' v' U U'). destruct U as (Um & _), U' as (Um' & _).
      rewrite (proj2 (Nat.ltb_lt m' (rh_nsub h))) by auto. rewrite andb_true_r.
      replace (m' <? 0) with false by (symmetry; apply Nat.ltb_ge; lia). rewrite andb_false_r, orb_false_r.
      destruct (Nat.ltb_spec m i), (Nat.eqb_spec m i), (Nat.ltb_spec m (S i)); auto; lia.
  - exists t. split; [auto|]. intros m v m' v' U U'. rewrite (Ht m v m' v' U U').
    rewrite (proj2 (Nat.ltb_lt m (rh_nsub h))) by apply U. reflexivity.
Qed.

(** Entries of the saddle-point matrix. *)
Definition saddle (mm bm : nat -> nat -> dmat) (m v m' v' i j : nat) : R :=
  match v, v' with
  | 0, 0 => mget (mm m m') i j
  | 1, 0 => mget (bm m m') i j
  | 0, 1 => mget (bm m' m) j i
  | _, _ => 0%R
  end.

Lemma stokes_galerkin s dim mm bm r V0 V out : bases_ok s dim -> rh_sep (rs_h s) = true -> rh_nvar (rs_h s) = 2 ->
  let h := rs_h s in
  (forall m m', m < rh_nsub h -> m' < rh_nsub h -> dm_h (mm m m') = full_size h dim m 0 /\ dm_w (mm m m') = full_size h dim m' 0 /\
     dm_h (bm m m') = full_size h dim m 1 /\ dm_w (bm m m') = full_size h dim m' 0) ->
  fits h (place h) (basis_size h) r -> fits h (fom_place h) (full_size h dim) V0 ->
  stokes_project s mm bm = Ok out -> lift_global s r V0 = Ok V ->
  forall m v k, unknown h m v -> k < basis_size h m v ->
    usum h (fun m' v' => rsum (basis_size h m' v') (fun l =>
      sm_val (smat_at out (place h m v) (place h m' v')) k l * entry (place h) r m' v' l)%R) =
    rsum (full_size h dim m v) (fun i => (mget (basis_of s m v) i k *
      usum h (fun m' v' => rsum (full_size h dim m' v') (fun q => saddle mm bm m v m' v' i q * entry (fom_place h) V m' v' q)))%R).
Proof.
  intros B Sep Nv h Hd Fr F0 Eo El. destruct (stokes_blocks_ok (rs_h s) mm bm (proj1 (proj2 B)) Sep Nv) as (t & Et & Ht).
  unfold stokes_project in Eo. rewrite Et in Eo. cbn [obind] in Eo.
  refine (galerkin_identity s dim _ (saddle mm bm) out r V0 V B _ _ _ Fr F0 Eo El); cbn [om_r om_c om_get].
  - apply num_blocks_blocks.
  - apply num_blocks_blocks.
  - intros m v m' v' U U'. rewrite (Ht m v m' v' U U'). fold h. destruct U as (Um & Uv), U' as (Um' & Uv'). fold h in Um, Um', Uv, Uv'.
    unfold h in Uv, Uv'. rewrite Sep, Nv in Uv, Uv'.
    destruct (Hd m m' Um Um') as (A1 & A2 & A3 & A4). destruct (Hd m' m Um' Um) as (A5 & A6 & A7 & A8).
    destruct v as [|[|v]], v' as [|[|v']]; try lia; cbn [saddle_block option_map op_of op_h op_w].
    + split; [auto|]. split; [auto|]. apply op_of_matrix. auto.
    + destruct (dm_transpose_ok (bm m' m)) as (_ & T1 & T2 & T3). split; [congruence|]. split; [congruence|].
      apply op_of_matrix. intros i j Hi Hj. rewrite T1 in Hi. rewrite T2 in Hj. apply T3; auto.
    + split; [auto|]. split; [auto|]. apply op_of_matrix. auto.
    + intros. reflexivity.
Qed.

Lemma stokes_project_ok s dim mm bm : bases_ok s dim -> rh_sep (rs_h s) = true -> rh_nvar (rs_h s) = 2 ->
  let h := rs_h s in
  (forall m m', m < rh_nsub h -> m' < rh_nsub h -> dm_h (mm m m') = full_size h dim m 0 /\ dm_w (mm m m') = full_size h dim m' 0 /\
     dm_h (bm m m') = full_size h dim m 1 /\ dm_w (bm m m') = full_size h dim m' 0) ->
  exists out, stokes_project s mm bm = Ok out.
Proof.
  intros B Sep Nv h Hd. destruct (stokes_blocks_ok (rs_h s) mm bm (proj1 (proj2 B)) Sep Nv) as (t & Et & Ht).
  unfold stokes_project. rewrite Et. cbn [obind].
  destruct (project_global_op_ok s dim (OpMat (num_blocks (rs_h s)) (num_blocks (rs_h s)) (fun i j => option_map op_of (t i j))) B) as (out & E & _);
    cbn [om_r om_c om_get]; try apply num_blocks_blocks.
  - intros m v m' v' U U'. rewrite (Ht m v m' v' U U'). pose proof U as (Um & Uv). pose proof U' as (Um' & Uv'). rewrite Sep, Nv in Uv, Uv'.
    destruct (Hd m m' Um Um') as (A1 & A2 & A3 & A4). destruct (Hd m' m Um' Um) as (A5 & A6 & A7 & A8).
    destruct v as [|[|v]], v' as [|[|v']]; try lia; cbn [saddle_block option_map]; unfold op_fits; cbn [op_of op_h op_w].
    + split; [auto|]. split; [auto|]. exists (mget (mm m m')). apply op_of_matrix. auto.
    + destruct (dm_transpose_ok (bm m' m)) as (_ & T1 & T2 & T3). split; [rewrite T1; exact A8|]. split; [rewrite T2; exact A7|].
      exists (mget (dm_transpose (bm m' m))). apply op_of_matrix. auto.
    + split; [auto|]. split; [auto|]. exists (mget (bm m m')). apply op_of_matrix. auto.
    + auto.
  - exists out. exact E.
Qed.
