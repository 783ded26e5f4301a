(** The Stokes solver: the reduced matrix from component elements is the projected saddle point matrix. *)
From Coq Require Import Reals List Bool Lia Lra Arith ZArith.
From Verif Require Import Outcome ListLemmas LaBase LinalgModel LinalgSpec BlockVec RomModel RomSpec RomProofs RomOpProofs MbModel MbSpec MbMiscProofs EqpSpec EqpAccProofs IntegProofs ItfModel ItfSpec ItfProofs ItfAlgProofs ItfPortProofs ProbModel BcModel BcProofs BupModel BupSpec BupFormProofs BupFullProofs BupRomProofs BupAsmProofs BupSolverProofs.
From Verif Require MbProperties BcSpec.
Import ListNotations.
Local Open Scope nat_scope.

(** ** Blocks of two variables *)
Definition whole (M B Bt : fmat) : fmat :=
  FMat (fm_h M + fm_h B) (fm_w M + fm_w Bt) (fun i j =>
    if i <? fm_h M then if j <? fm_w M then fm_val M i j else fm_val Bt i (j - fm_w M)
    else if j <? fm_w M then fm_val B (i - fm_h M) j else 0%R).
Definition sk (sep : bool) (M B Bt : fmat) (v v' : nat) : option fmat :=
  if sep then match v, v' with 0, 0 => Some M | 1, 0 => Some B | 0, 1 => Some Bt | _, _ => None end else Some (whole M B Bt).
Definition sk2 (sep : bool) (M B : option fmat) (v v' : nat) : option fmat :=
  match M, B with Some M, Some B => sk sep M B (fm_t B) v v' | _, _ => None end.
Definition sk3 (sep : bool) (M B B' : option fmat) (v v' : nat) : option fmat :=
  match M, B, B' with Some M, Some B, Some B' => sk sep M B (fm_t B') v v' | _, _, _ => None end.

(** ** Sums over a component, its boundaries and the ports *)
Definition ent (g : geometry) (enf : Z -> bool) (vc : R) (vb : nat -> R) (vp : nat -> nat -> nat -> R) (m m' : nat) : R :=
  (ind (m =? m')%nat (vc + rsum (List.length (row_of g m)) (fun b => ind (enf (nth b (row_of g m) 0%Z)) (vb b)))
   + rsum (List.length (g_ports g)) (fun k => rsum 2 (fun x => rsum 2 (fun y =>
       ind ((side_mesh (port_of g k) x =? m) && (side_mesh (port_of g k) y =? m'))%nat (vp k x y)))))%R.

Lemma ent_ext g enf vc vb vp vc' vb' vp' m m' : (m = m' -> vc = vc') -> (m = m' -> forall b, b < List.length (row_of g m) -> vb b = vb' b) ->
  (forall k x y, k < List.length (g_ports g) -> x < 2 -> y < 2 -> side_mesh (port_of g k) x = m -> side_mesh (port_of g k) y = m' -> vp k x y = vp' k x y) ->
  ent g enf vc vb vp m m' = ent g enf vc' vb' vp' m m'.
Proof.
  intros H1 H2 H3. unfold ent. f_equal.
  - destruct (Nat.eqb_spec m m') as [E|]; [|reflexivity]. cbn [ind]. rewrite (H1 E). f_equal. apply rsum_ext. intros b Hb. rewrite (H2 E b Hb). reflexivity.
  - apply rsum_ext. intros k Hk. apply rsum_ext. intros x Hx. apply rsum_ext. intros y Hy.
    destruct (Nat.eqb_spec (side_mesh (port_of g k) x) m) as [E1|]; [|reflexivity]. destruct (Nat.eqb_spec (side_mesh (port_of g k) y) m') as [E2|]; [|reflexivity]. cbn [andb ind]. apply H3; auto.
Qed.
Lemma ent_t g enf vc vb vp m m' : ent g enf vc vb vp m m' = ent g enf vc vb (fun k x y => vp k y x) m' m.
Proof.
  unfold ent. f_equal.
  - rewrite (Nat.eqb_sym m' m). destruct (Nat.eqb_spec m m') as [->|]; reflexivity.
  - apply rsum_ext. intros k Hk. rewrite (rsum_swap 2 2). apply rsum_ext. intros x Hx. apply rsum_ext. intros y Hy. rewrite andb_comm. reflexivity.
Qed.
Lemma ent_0 g enf m m' : ent g enf 0 (fun _ => 0%R) (fun _ _ _ => 0%R) m m' = 0%R.
Proof.
  unfold ent. rewrite (rsum_ext _ _ (fun _ => 0%R)) by (intros; apply ind_0). rewrite rsum_zero. rewrite Rplus_0_r, ind_0.
  rewrite (rsum_ext _ _ (fun _ => 0%R)); [rewrite rsum_zero; ring|]. intros k Hk. cbn [rsum]. rewrite !ind_0. ring.
Qed.

Section Stokes.
  Variables (nu : numerics) (g : geometry).
  Hypothesis G : geo_ok g.
  Variables (fv : nat -> option unit) (enf : Z -> bool).
  Hypothesis Enf : forall a, enf a = true <-> exists b, nth_error (g_gattr g) b = Some a /\ fv b <> None.
  Variables (cu cp : list fespace) (tm tb : nat -> outcome terms) (dm im db ib : list itg) (bm bb itm itb : itg) (s : romst) (dim : nat -> nat) (types : list btype) (bdr : list (option coeff)).
  Hypotheses (Tm : forall c, c < ncomp g -> tm c = Ok (dm, im, bm)) (Tb : forall c, c < ncomp g -> tb c = Ok (db, ib, bb))
    (Cm : copied nu g dm im bm) (Cb : copied nu g db ib bb) (Im : itf_ok nu g cu cu itm) (Ib : itf_ok nu g cp cu itb)
    (SB : stokes_bases s g cu cp dim) (Sz : BcSpec.sized (g_gattr g) types bdr) (Ew : forall a, enf a = true <-> weak g types bdr a).
  Let h := rs_h s.
  Let sep := rh_sep h.
  Let nbk := if sep then 2 else 1.
  Let us c := fe_size (fth cu c).
  Let pss c := fe_size (fth cp c).

  Lemma st_nb : List.length (rh_nb h) = ncomp g * nbk.
  Proof. destruct SB as ((_ & (_ & _ & _ & _ & L) & _) & Nv & _ & N & _). fold h in N, L, Nv. rewrite L, N, Nv. reflexivity. Qed.
  Lemma st_dim c : c < ncomp g -> if sep then dim (ref_place h c 0) = us c /\ dim (ref_place h c 1) = pss c else dim (ref_place h c 0) = us c + pss c.
  Proof.
    intros Hc. destruct SB as (_ & Nv & _ & _ & _ & D). specialize (D c Hc). unfold ref_place. fold h sep in D, Nv |- *. destruct sep; [|exact D]. rewrite Nv. replace (c * 2 + 0) with (2 * c) by lia. replace (c * 2 + 1) with (2 * c + 1) by lia. exact D.
  Qed.

  Lemma form_block_ok M B Bt : fm_w B = fm_w M -> fm_h Bt = fm_h M -> form_block_matrix M B Bt = Ok (whole M B Bt).
  Proof. intros E1 E2. unfold form_block_matrix. rewrite E1, E2, !Nat.eqb_refl. reflexivity. Qed.

  Lemma stokes_blocks_ok c1 c2 M B Bt : c1 < ncomp g -> c2 < ncomp g -> fm_h M = us c1 -> fm_w M = us c2 -> fm_h B = pss c1 -> fm_w B = us c2 -> fm_h Bt = us c1 -> fm_w Bt = pss c2 ->
    exists X, stokes_blocks s sep c1 c2 M B Bt = Ok X /\ forall v v', v < nbk -> v' < nbk -> proj s dim (ref_place h c1 v) (ref_place h c2 v') (sk sep M B Bt v v') (X v v').
  Proof.
    intros H1 H2 M1 M2 B1 B2 T1 T2. pose proof (st_dim c1 H1) as D1. pose proof (st_dim c2 H2) as D2. pose proof st_nb as Lnb.
    pose proof SB as (B0 & Nv & _). unfold stokes_blocks, sk, ref_place, nbk in *. fold h sep in D1, D2, Nv |- *. destruct sep.
    - rewrite Nv in *. rewrite !Nat.add_0_r in D1, D2. destruct D1 as (D1 & D1'), D2 as (D2 & D2').
      destruct (elem_block_ok s dim (c1 * 2) (c2 * 2) M B0) as (X00 & E00 & P00); try (fold h; lia); try congruence.
      destruct (elem_block_ok s dim (c1 * 2 + 1) (c2 * 2) B B0) as (X10 & E10 & P10); try (fold h; lia); try congruence.
      destruct (elem_block_ok s dim (c1 * 2) (c2 * 2 + 1) Bt B0) as (X01 & E01 & P01); try (fold h; lia); try congruence.
      rewrite E00. cbn [obind]. rewrite E10. cbn [obind]. rewrite E01. cbn [obind]. eexists. split; [reflexivity|].
      intros [|[|v]] [|[|v']] Hv Hv'; try lia; rewrite ?Nat.add_0_r; try assumption. exact Logic.I.
    - rewrite form_block_ok by congruence. cbn [obind].
      destruct (elem_block_ok s dim c1 c2 (whole M B Bt) B0) as (X & E & PX); try (fold h; lia); try (cbn [whole fm_h fm_w]; congruence).
      rewrite E. cbn [obind]. eexists. split; [reflexivity|]. intros [|v] [|v'] Hv Hv'; try lia. exact PX.
  Qed.

  Variables PM PB : itf_port -> blockmat.
  Hypothesis HM : forall r, In r (g_refs g) -> port_matrix cu cu [nu_itf nu itm] (ip_m1 r) (ip_m2 r) (ip_faces r) = Ok (PM r) /\
         forall i j, i < 2 -> j < 2 -> exists M, PM r i j = Some M /\ fm_h M = fe_size (fth cu (side_mesh r i)) /\ fm_w M = fe_size (fth cu (side_mesh r j)).
  Hypothesis HB : forall r, In r (g_refs g) -> port_matrix cp cu [nu_itf nu itb] (ip_m1 r) (ip_m2 r) (ip_faces r) = Ok (PB r) /\
         forall i j, i < 2 -> j < 2 -> exists M, PB r i j = Some M /\ fm_h M = fe_size (fth cp (side_mesh r i)) /\ fm_w M = fe_size (fth cu (side_mesh r j)).

  Let cm c := okM (comp_matrix nu g cu cu tm c).
  Let cb c := okM (comp_matrix nu g cp cu tb c).
  Let bdm c b := okM (bdr_matrix nu g cu cu tm c b).
  Let bdb c b := okM (bdr_matrix nu g cp cu tb c b).

  Definition elems_fun : outcome (list mblocks * list (list mblocks) * list mblocks) :=
    let nb := if sep then 2 else 1 in
    oassert (rs_loaded s) (
    let* cs := all_comp g (fun c =>
      let* M := comp_matrix nu g cu cu tm c in
      let* B := comp_matrix nu g cp cu tb c in
      let* X := stokes_blocks s sep c c M B (fm_t B) in
      Ok (MBlocks nb nb X)) in
    let* bs := all_bdr g (fun c b =>
      let* M := bdr_matrix nu g cu cu tm c b in
      let* B := bdr_matrix nu g cp cu tb c b in
      let* X := stokes_blocks s sep c c M B (fm_t B) in
      Ok (MBlocks nb nb X)) in
    let* ps := omap (fun r =>
      let cidx i := if i =? 0 then ip_m1 r else ip_m2 r in
      let* PM := port_matrix cu cu [nu_itf nu itm] (ip_m1 r) (ip_m2 r) (ip_faces r) in
      let* PB := port_matrix cp cu [nu_itf nu itb] (ip_m1 r) (ip_m2 r) (ip_faces r) in
      let* l := quad (fun i j =>
        let* M := deref (PM i j) in
        let* B := deref (PB i j) in
        let* B' := deref (PB j i) in
        stokes_blocks s sep (cidx i) (cidx j) M B (fm_t B')) in
      Ok (MBlocks (2 * nb) (2 * nb) (fun i j => match quad_get l (i / nb) (j / nb) with Some X => X (i mod nb) (j mod nb) | None => None end))) (g_refs g) in
    Ok (cs, bs, ps)).

  Definition good (c1 c2 : nat) (A : nat -> nat -> option fmat) (Y : mblocks) : Prop :=
    mb_r Y = nbk /\ mb_c Y = nbk /\ forall v v', v < nbk -> v' < nbk -> proj s dim (ref_place h c1 v) (ref_place h c2 v') (A v v') (mb_get Y v v').

  Lemma elems_ok : exists cs bs ps, elems_fun = Ok (cs, bs, ps) /\
    List.length cs = ncomp g /\ List.length bs = ncomp g /\ List.length ps = List.length (g_refs g) /\
    (forall c, c < ncomp g -> good c c (sk2 sep (cm c) (cb c)) (nth c cs no_blocks)) /\
    (forall c, c < ncomp g -> List.length (nth c bs []) = List.length (attrs_of g c) /\ forall b, b < List.length (attrs_of g c) ->
       good c c (sk2 sep (bdm c b) (bdb c b)) (nth b (nth c bs []) no_blocks)) /\
    (forall k, k < List.length (g_refs g) -> let r := nth k (g_refs g) (ItfPort 0 0 []) in
       mb_r (nth k ps no_blocks) = 2 * nbk /\ mb_c (nth k ps no_blocks) = 2 * nbk /\ forall i j v v', i < 2 -> j < 2 -> v < nbk -> v' < nbk ->
         proj s dim (ref_place h (side_mesh r i) v) (ref_place h (side_mesh r j) v') (sk3 sep (PM r i j) (PB r i j) (PB r j i) v v') (mb_get (nth k ps no_blocks) (i * nbk + v) (j * nbk + v'))).
  Proof.
    destruct SB as ((Ld & _) & _). destruct Im as (L1 & _ & (R1 & _) & _). destruct Ib as (L2 & _). unfold elems_fun. rewrite Ld. cbn [oassert]. fold nbk. cbn zeta.
    destruct (omap_seq_Q (fun c => let* M := comp_matrix nu g cu cu tm c in let* B := comp_matrix nu g cp cu tb c in let* X := stokes_blocks s sep c c M B (fm_t B) in Ok (MBlocks nbk nbk X))
      (fun c Y => good c c (sk2 sep (cm c) (cb c)) Y) (List.length (g_comps g))) as (cs & Ecs & Lcs & Vcs).
    { intros c Hc. fold (ncomp g) in Hc. destruct (comp_matrix_ok nu g G cu cu tm dm im bm c L1 L1 Hc (Tm c Hc)) as (M & E & H1 & H2 & _).
      destruct (comp_matrix_ok nu g G cp cu tb db ib bb c L2 L1 Hc (Tb c Hc)) as (B & E' & H3 & H4 & _). unfold cm, cb. rewrite E, E'. cbn [obind okM sk2].
      destruct (stokes_blocks_ok c c M B (fm_t B) Hc Hc H1 H2 H3 H4) as (X & EX & PX); [exact H4|exact H3|]. rewrite EX. cbn [obind]. eexists. split; [reflexivity|]. split; [reflexivity|]. split; [reflexivity|]. exact PX. }
    unfold all_comp. rewrite Ecs. cbn [obind]. fold (ncomp g) in Lcs, Vcs.
    destruct (omap_seq_Q (fun c => let* at_ := oread (g_attrs g) c in omap ((fun c b => let* M := bdr_matrix nu g cu cu tm c b in let* B := bdr_matrix nu g cp cu tb c b in let* X := stokes_blocks s sep c c M B (fm_t B) in Ok (MBlocks nbk nbk X)) c) (seq 0 (List.length at_)))
      (fun c Y => List.length Y = List.length (attrs_of g c) /\ forall b, b < List.length (attrs_of g c) -> good c c (sk2 sep (bdm c b) (bdb c b)) (nth b Y no_blocks)) (List.length (g_comps g))) as (bs & Ebs & Lbs & Vbs).
    { intros c Hc. fold (ncomp g) in Hc. destruct (geo_comp g G c Hc) as (_ & ->). cbn [obind].
      destruct (omap_seq_Q (fun b => let* M := bdr_matrix nu g cu cu tm c b in let* B := bdr_matrix nu g cp cu tb c b in let* X := stokes_blocks s sep c c M B (fm_t B) in Ok (MBlocks nbk nbk X))
        (fun b Y => good c c (sk2 sep (bdm c b) (bdb c b)) Y) (List.length (attrs_of g c))) as (r & Er & Lr & Vr).
      - intros b Hb. destruct (bdr_matrix_ok nu g G cu cu tm dm im bm c L1 L1 Hc (Tm c Hc) b Hb) as (M & E & H1 & H2 & _).
        destruct (bdr_matrix_ok nu g G cp cu tb db ib bb c L2 L1 Hc (Tb c Hc) b Hb) as (B & E' & H3 & H4 & _). unfold bdm, bdb. rewrite E, E'. cbn [obind okM sk2].
        destruct (stokes_blocks_ok c c M B (fm_t B) Hc Hc H1 H2 H3 H4) as (X & EX & PX); [exact H4|exact H3|]. rewrite EX. cbn [obind]. eexists. split; [reflexivity|]. split; [reflexivity|]. split; [reflexivity|]. exact PX.
      - exists r. split; [exact Er|]. split; [exact Lr|]. intros b Hb. apply Vr. auto. }
    unfold all_bdr. rewrite Ebs. cbn [obind]. fold (ncomp g) in Lbs, Vbs.
    match goal with |- context [omap ?F (g_refs g)] => destruct (omap_list_Q F
      (fun r Y => mb_r Y = 2 * nbk /\ mb_c Y = 2 * nbk /\ forall i j v v', i < 2 -> j < 2 -> v < nbk -> v' < nbk ->
         proj s dim (ref_place h (side_mesh r i) v) (ref_place h (side_mesh r j) v') (sk3 sep (PM r i j) (PB r i j) (PB r j i) v v') (mb_get Y (i * nbk + v) (j * nbk + v'))) (g_refs g)) as (ps & Eps & Lps & Vps) end.
    { intros r Hr. destruct (HM r Hr) as (-> & FM). destruct (HB r Hr) as (-> & FB). cbn [obind]. destruct (R1 r Hr) as (Q1 & Q2). rewrite L1 in Q1, Q2.
      match goal with |- context [quad ?F] => destruct (quad_ok F (fun i j X => forall v v', v < nbk -> v' < nbk ->
         proj s dim (ref_place h (side_mesh r i) v) (ref_place h (side_mesh r j) v') (sk3 sep (PM r i j) (PB r i j) (PB r j i) v v') (X v v'))) as (l & El & Vl) end.
      - intros i j Hi Hj. destruct (FM i j Hi Hj) as (M & EM & H1 & H2). destruct (FB i j Hi Hj) as (B & EB & H3 & H4). destruct (FB j i Hj Hi) as (B' & EB' & H5 & H6).
        rewrite EM, EB, EB'. cbn [deref obind sk3].
        assert (Sd : forall i, i < 2 -> (if i =? 0 then ip_m1 r else ip_m2 r) = side_mesh r i /\ side_mesh r i < ncomp g). { intros [|[|z]] Hz; [| |lia]; split; auto. }
        destruct (Sd i Hi) as (-> & S1). destruct (Sd j Hj) as (-> & S2). apply stokes_blocks_ok; auto.
      - rewrite El. cbn [obind]. eexists. split; [reflexivity|]. cbn [mb_r mb_c mb_get]. split; [auto|]. split; [auto|]. intros i j v v' Hi Hj Hv Hv'.
        assert (NZ : nbk <> 0) by lia. rewrite !Nat.div_add_l, !Nat.div_small, !Nat.add_0_r by auto. rewrite !(Nat.add_comm (_ * nbk)), !Nat.mod_add, !Nat.mod_small by auto.
        destruct (Vl i j Hi Hj) as (y & -> & Py). apply Py; auto. }
    rewrite Eps. cbn [obind]. exists cs, bs, ps. split; [reflexivity|]. split; [exact Lcs|]. split; [exact Lbs|]. split; [exact Lps|]. split; [|split].
    - intros c Hc. apply Vcs. auto.
    - intros c Hc. apply Vbs. auto.
    - intros k Hk. cbn zeta. apply Vps. auto.
  Qed.

  Lemma stokes_reduces AM AB :
    (forall m m' i j, m < nsub g -> m' < nsub g -> val (AM m m') i j = (ind (m =? m') (diag_val nu g enf dm im bm m i j) + rsum (List.length (g_ports g)) (fun k =>
          rsum 2 (fun s => rsum 2 (fun t => ind ((side_mesh (port_of g k) s =? m) && (side_mesh (port_of g k) t =? m')) (val (PM (ref_of g k) s t) i j)))))%R) ->
    (forall m m' i j, m < nsub g -> m' < nsub g -> val (AB m m') i j = (ind (m =? m') (diag_val nu g enf db ib bb m i j) + rsum (List.length (g_ports g)) (fun k =>
          rsum 2 (fun s => rsum 2 (fun t => ind ((side_mesh (port_of g k) s =? m) && (side_mesh (port_of g k) t =? m')) (val (PB (ref_of g k) s t) i j)))))%R) ->
    exists el Bm, elems_fun = Ok el /\ assemble_rom_mat (bup_asm s g types bdr el) = Ok Bm /\
      reduces s dim (saddle_block AM AB sep (fun m => us (type_of g m))) Bm.
  Proof.
    intros VM VB. destruct elems_ok as (cs & bs & ps & E & L1 & L2 & L3 & V1 & V2 & V3). pose proof SB as (B & Nv & Et & Ec & En & Dm). fold h in Nv, Et, Ec, En.
    assert (NB : (if rh_sep h then rh_nvar h else 1) = nbk) by (unfold nbk; fold sep; rewrite Nv; auto).
    destruct (rom_reduces s dim g types bdr cs bs ps B G Et Ec En Sz (fun c v v' => sk2 sep (cm c) (cb c) v v') (fun c b v v' => sk2 sep (bdm c b) (bdb c b) v v')
      (fun k i j v v' => let r := nth k (g_refs g) (ItfPort 0 0 []) in sk3 sep (PM r i j) (PB r i j) (PB r j i) v v') L1 L2 L3) with (enf := enf) as (Bm & EB & RB); auto; fold h; rewrite ?NB; auto.
    - exists (cs, bs, ps), Bm. split; [exact E|]. split; [exact EB|]. refine (reduces_ext _ _ _ _ _ RB _). fold h. intros m v m' v' i j U U' Hi Hj.
      pose proof G as (_ & _ & _ & Ty & _ & Gr & _ & _ & _ & Pk).
      destruct U as (U1 & Hv), U' as (U2 & Hv'). rewrite En in U1, U2. fold sep in Hv, Hv'. rewrite Nv in Hv, Hv'.
      pose proof (Ty m U1) as T1. pose proof (Ty m' U2) as T2.
      unfold full_size in Hi, Hj. unfold comp_of in Hi, Hj. rewrite Et in Hi, Hj. fold (type_of g m) in Hi. fold (type_of g m') in Hj.
      assert (WM : forall m m' i j, m < nsub g -> m' < nsub g -> val (AM m m') i j = ent g enf (val (cm (type_of g m)) i j) (fun b => val (bdm (type_of g m) b) i j) (fun k x y => val (PM (ref_of g k) x y) i j) m m').
      { intros. rewrite VM by auto. rewrite (copy_diag nu g G enf cu cu tm dm im bm) by (auto; apply Im). reflexivity. }
      assert (WB : forall m m' i j, m < nsub g -> m' < nsub g -> val (AB m m') i j = ent g enf (val (cb (type_of g m)) i j) (fun b => val (bdb (type_of g m) b) i j) (fun k x y => val (PB (ref_of g k) x y) i j) m m').
      { intros. rewrite VB by auto. rewrite (copy_diag nu g G enf cp cu tb db ib bb) by (auto; apply Ib). reflexivity. }
      (* matrices that are there, with their sizes *)
      assert (XC : forall c, c < ncomp g -> exists M B, cm c = Some M /\ cb c = Some B /\ fm_h M = us c /\ fm_w M = us c).
      { intros c Hc. destruct (comp_matrix_ok nu g G cu cu tm dm im bm c (proj1 Im) (proj1 Im) Hc (Tm c Hc)) as (M & E1 & H1 & H2 & _).
        destruct (comp_matrix_ok nu g G cp cu tb db ib bb c (proj1 Ib) (proj1 Im) Hc (Tb c Hc)) as (B1 & E1' & _). unfold cm, cb. rewrite E1, E1'. exists M, B1. auto. }
      assert (XB : forall c b, c < ncomp g -> b < List.length (attrs_of g c) -> exists M B, bdm c b = Some M /\ bdb c b = Some B /\ fm_h M = us c /\ fm_w M = us c).
      { intros c b Hc Hb. destruct (bdr_matrix_ok nu g G cu cu tm dm im bm c (proj1 Im) (proj1 Im) Hc (Tm c Hc) b Hb) as (M & E1 & H1 & H2 & _).
        destruct (bdr_matrix_ok nu g G cp cu tb db ib bb c (proj1 Ib) (proj1 Im) Hc (Tb c Hc) b Hb) as (B1 & E1' & _). unfold bdm, bdb. rewrite E1, E1'. exists M, B1. auto. }
      assert (XP : forall k x y, k < List.length (g_ports g) -> x < 2 -> y < 2 -> exists M B B', PM (ref_of g k) x y = Some M /\ PB (ref_of g k) x y = Some B /\ PB (ref_of g k) y x = Some B' /\
         fm_h M = us (type_of g (side_mesh (port_of g k) x)) /\ fm_w M = us (type_of g (side_mesh (port_of g k) y))).
      { intros k x y Hk Hx Hy. destruct (Pk k Hk) as (Hr & Sd). assert (Ir : In (ref_of g k) (g_refs g)) by (apply nth_In; auto). destruct (HM _ Ir) as (_ & FM). destruct (HB _ Ir) as (_ & FB).
        destruct (FM x y Hx Hy) as (M & E1 & H1 & H2). destruct (FB x y Hx Hy) as (B1 & E2 & _). destruct (FB y x Hy Hx) as (B2 & E3 & _). exists M, B1, B2. rewrite E1, E2, E3.
        destruct (Sd x Hx) as (_ & <-). destruct (Sd y Hy) as (_ & <-). auto. }
      transitivity (ent g enf (val (sk2 sep (cm (type_of g m)) (cb (type_of g m)) v v') i j) (fun b => val (sk2 sep (bdm (type_of g m) b) (bdb (type_of g m) b) v v') i j)
        (fun k x y => val (sk3 sep (PM (ref_of g k) x y) (PB (ref_of g k) x y) (PB (ref_of g k) y x) v v') i j) m m'); [reflexivity|].
      assert (KEY : forall vc vb vp w,
        (forall M B, cm (type_of g m) = Some M -> cb (type_of g m) = Some B -> fm_h M = us (type_of g m) -> fm_w M = us (type_of g m) -> m = m' -> val (sk sep M B (fm_t B) v v') i j = vc) ->
        (forall b M B, bdm (type_of g m) b = Some M -> bdb (type_of g m) b = Some B -> fm_h M = us (type_of g m) -> fm_w M = us (type_of g m) -> m = m' -> val (sk sep M B (fm_t B) v v') i j = vb b) ->
        (forall k x y M B B', PM (ref_of g k) x y = Some M -> PB (ref_of g k) x y = Some B -> PB (ref_of g k) y x = Some B' -> fm_h M = us (type_of g m) -> fm_w M = us (type_of g m') ->
           val (sk sep M B (fm_t B') v v') i j = vp k x y) ->
        ent g enf vc vb vp m m' = w ->
        ent g enf (val (sk2 sep (cm (type_of g m)) (cb (type_of g m)) v v') i j) (fun b => val (sk2 sep (bdm (type_of g m) b) (bdb (type_of g m) b) v v') i j)
        (fun k x y => val (sk3 sep (PM (ref_of g k) x y) (PB (ref_of g k) x y) (PB (ref_of g k) y x) v v') i j) m m' = w).
      { intros vc vb vp w K1 K2 K3 <-. apply ent_ext.
        - intros Emm. destruct (XC _ T1) as (M & B1 & E1 & E2 & H1 & H2). rewrite E1, E2. cbn [sk2]. apply K1; auto.
        - intros Emm b Hb. destruct (Gr m U1) as (Lr & _). rewrite Lr in Hb. destruct (XB _ b T1 Hb) as (M & B1 & E1 & E2 & H1 & H2). rewrite E1, E2. cbn [sk2]. apply K2; auto.
        - intros k x y Hk Hx Hy S1 S2. destruct (XP k x y Hk Hx Hy) as (M & B1 & B2 & E1 & E2 & E3 & H1 & H2). rewrite E1, E2, E3. cbn [sk3]. rewrite S1 in H1. rewrite S2 in H2. apply K3; auto. }
      assert (DM : forall M B Bt, sk true M B Bt 0 0 = Some M /\ sk true M B Bt 1 0 = Some B /\ sk true M B Bt 0 1 = Some Bt /\ sk true M B Bt 1 1 = None) by (intros; repeat split).
      assert (TB : forall i j, val (AB m' m) j i = ent g enf (val (cb (type_of g m')) j i) (fun b => val (bdb (type_of g m') b) j i) (fun k x y => val (PB (ref_of g k) y x) j i) m m').
      { intros a b. rewrite WB by auto. rewrite ent_t. reflexivity. }
      unfold saddle_block. revert KEY Hv Hv'. generalize sep. intros sp KEY Hv Hv'. destruct sp.
      + destruct v as [|[|v]]; [| |lia]; (destruct v' as [|[|v']]; [| |lia]).
        * rewrite WM by auto. eapply KEY; [| | |reflexivity]; cbv beta.
          -- intros M B1 -> _ _ _ _. reflexivity.
          -- intros b M B1 -> _ _ _ _. reflexivity.
          -- intros k x y M B1 B2 -> _ _ _ _. reflexivity.
        * rewrite TB. eapply KEY; [| | |reflexivity]; cbv beta.
          -- intros M B1 _ E1 _ _ <-. rewrite E1. reflexivity.
          -- intros b M B1 _ E1 _ _ <-. rewrite E1. reflexivity.
          -- intros k x y M B1 B2 _ _ -> _ _. reflexivity.
        * rewrite WB by auto. eapply KEY; [| | |reflexivity]; cbv beta.
          -- intros M B1 _ -> _ _ _. reflexivity.
          -- intros b M B1 _ -> _ _ _. reflexivity.
          -- intros k x y M B1 B2 _ -> _ _ _. reflexivity.
        * eapply KEY; [| | |apply ent_0]; reflexivity.
      + subst v v'. cbn [sk] in KEY.
        assert (VW : forall M B Bt, val (Some (whole M B Bt)) i j = if i <? fm_h M then if j <? fm_w M then fm_val M i j else fm_val Bt i (j - fm_w M) else if j <? fm_w M then fm_val B (i - fm_h M) j else 0%R) by reflexivity.
        destruct (i <? us (type_of g m)) eqn:Ei; destruct (j <? us (type_of g m')) eqn:Ej.
        * rewrite WM by auto. eapply KEY; [| | |reflexivity]; cbv beta.
          -- intros M B1 -> _ H1 H2 Q. cbn [sk]. rewrite VW, H1, H2, Ei. rewrite Q at 1. rewrite Ej. reflexivity.
          -- intros b M B1 -> _ H1 H2 Q. cbn [sk]. rewrite VW, H1, H2, Ei. rewrite Q at 1. rewrite Ej. reflexivity.
          -- intros k x y M B1 B2 -> _ _ H1 H2. cbn [sk]. rewrite VW, H1, H2, Ei, Ej. reflexivity.
        * rewrite TB. eapply KEY; [| | |reflexivity]; cbv beta.
          -- intros M B1 _ E1 H1 H2 Q. cbn [sk]. rewrite VW, H1, H2, Ei. rewrite Q at 1. rewrite Ej. rewrite Q in E1 |- *. rewrite E1. reflexivity.
          -- intros b M B1 _ E1 H1 H2 Q. cbn [sk]. rewrite VW, H1, H2, Ei. rewrite Q at 1. rewrite Ej. rewrite Q in E1 |- *. rewrite E1. reflexivity.
          -- intros k x y M B1 B2 _ _ -> H1 H2. cbn [sk]. rewrite VW, H1, H2, Ei, Ej. reflexivity.
        * rewrite WB by auto. eapply KEY; [| | |reflexivity]; cbv beta.
          -- intros M B1 _ -> H1 H2 Q. cbn [sk]. rewrite VW, H1, H2, Ei. rewrite Q at 1. rewrite Ej. reflexivity.
          -- intros b M B1 _ -> H1 H2 Q. cbn [sk]. rewrite VW, H1, H2, Ei. rewrite Q at 1. rewrite Ej. reflexivity.
          -- intros k x y M B1 B2 _ -> _ H1 H2. cbn [sk]. rewrite VW, H1, H2, Ei, Ej. reflexivity.
        * eapply KEY; [| | |apply ent_0].
          -- intros M B1 _ _ H1 H2 Q. cbn [sk]. rewrite VW, H1, H2, Ei. rewrite Q at 1. rewrite Ej. reflexivity.
          -- intros b M B1 _ _ H1 H2 Q. cbn [sk]. rewrite VW, H1, H2, Ei. rewrite Q at 1. rewrite Ej. reflexivity.
          -- intros k x y M B1 B2 _ _ _ H1 H2. cbn [sk]. rewrite VW, H1, H2, Ei, Ej. reflexivity.
  Qed.
End Stokes.
