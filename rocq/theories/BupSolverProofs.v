(** The Poisson and elasticity solvers: the reduced matrix from component elements is the projected full-order matrix. *)
From Coq Require Import Reals List Bool Lia Lra Arith ZArith.
From Verif Require Import Outcome ListLemmas LaBase LinalgModel LinalgSpec BlockVec RomModel RomSpec RomProofs RomOpProofs MbModel MbSpec MbMiscProofs EqpSpec EqpAccProofs IntegProofs ItfModel ItfSpec ItfProofs ItfAlgProofs ItfPortProofs ProbModel BcModel BcProofs BupModel BupSpec BupFormProofs BupFullProofs BupRomProofs BupAsmProofs.
From Verif Require MbProperties BcSpec.
Import ListNotations.
Local Open Scope nat_scope.

Notation lsum := EqpSpec.lsum.
Definition okM (o : outcome fmat) : option fmat := match o with Ok M => Some M | _ => None end.

Lemma reduces_ext s dim a a' B : reduces s dim a B ->
  (forall m v m' v' i j, unknown (rs_h s) m v -> unknown (rs_h s) m' v' -> i < full_size (rs_h s) dim m v -> j < full_size (rs_h s) dim m' v' -> a m v m' v' i j = a' m v m' v' i j) ->
  reduces s dim a' B.
Proof.
  unfold reduces. cbn zeta. intros H E m v m' v' p q U U' Hp Hq. rewrite H by auto. apply rap_ext. intros. apply E; auto.
Qed.

Section Solver.
  Variables (nu : numerics) (g : geometry).
  Hypothesis G : geo_ok g.

  Lemma setup_ok domf fv : domf (sattrs g) = Ok (BcSpec.terms (sattrs g) (g_gattr g) fv) ->
    exists marks n, sub_setup g domf = Ok (map (smesh g) (seq 0 (nsub g)), marks, BcSpec.terms (sattrs g) (g_gattr g) fv) /\
      List.length marks = List.length (g_gattr g) /\ (forall m a, m < nsub g -> In a (sub_attrs (smesh g m)) -> (a <= Z.of_nat n)%Z) /\
      forall b, b < List.length (g_gattr g) -> exists mk, nth_error marks b = Some mk /\ List.length mk = n /\
        forall a, (0 < a <= Z.of_nat n)%Z -> nth (Z.to_nat a - 1) mk 0%Z = if (a =? nth b (g_gattr g) 0)%Z then 1%Z else 0%Z.
  Proof.
    intros D. destruct (markers_ok g G) as (marks & types & n & E & L & U & V). exists marks, n. unfold sub_setup. rewrite (sub_meshes_ok g G). cbn [obind]. fold (sattrs g).
    rewrite E. cbn [obind]. rewrite D. cbn [obind]. auto.
  Qed.

  Variables (fv : nat -> option unit) (enf : Z -> bool).
  Hypothesis Enf : forall a, enf a = true <-> exists b, nth_error (g_gattr g) b = Some a /\ fv b <> None.

  Section Copy.
    Variables (ctest ctrial : list fespace) (ts : nat -> outcome terms) (dom int : list itg) (bd : itg).
    Hypotheses (Lt : List.length ctest = ncomp g) (Lr : List.length ctrial = ncomp g) (T : forall c, c < ncomp g -> ts c = Ok (dom, int, bd)).
    Hypothesis C : copied nu g dom int bd.

    Lemma copy_diag m i j : m < nsub g -> diag_val nu g enf dom int bd m i j =
      (val (okM (comp_matrix nu g ctest ctrial ts (type_of g m))) i j
       + rsum (List.length (row_of g m)) (fun b => ind (enf (nth b (row_of g m) 0%Z)) (val (okM (bdr_matrix nu g ctest ctrial ts (type_of g m) b)) i j)))%R.
    Proof.
      intros Hm. pose proof G as (_ & _ & _ & Ty & _ & Gr & _). specialize (Ty m Hm). destruct (Gr m Hm) as (Lrow & _). unfold diag_val, bdr_sum. cbn zeta. f_equal.
      - destruct (comp_matrix_ok nu g G ctest ctrial ts dom int bd (type_of g m) Lt Lr Ty (T _ Ty)) as (M & E & _ & _ & V). rewrite E. cbn [okM val]. rewrite V. f_equal.
        + apply lsum_ext_in. intros x Hx. apply rsum_ext. intros e He. apply (C m e i j Hm). auto.
        + apply lsum_ext_in. intros x Hx. apply rsum_ext. intros e He. apply (C m e i j Hm). auto.
      - apply rsum_ext. intros b Hb. f_equal. rewrite Lrow in Hb.
        destruct (bdr_matrix_ok nu g G ctest ctrial ts dom int bd (type_of g m) Lt Lr Ty (T _ Ty) b Hb) as (M & E & _ & _ & V). rewrite E. cbn [okM val]. rewrite V.
        apply rsum_ext. intros e He. cbn zeta. f_equal. apply (C m e i j Hm).
    Qed.
  End Copy.

  (** ** One variable *)
  Section Scalar.
    Variables (cfes : list fespace) (ts : nat -> outcome terms) (dom int : list itg) (bd it : itg) (s : romst) (dim : nat -> nat) (types : list btype) (bdr : list (option coeff)).
    Hypotheses (T : forall c, c < ncomp g -> ts c = Ok (dom, int, bd)) (C : copied nu g dom int bd) (I : itf_ok nu g cfes cfes it)
      (SB : scalar_bases s g cfes dim) (Sz : BcSpec.sized (g_gattr g) types bdr) (Ew : forall a, enf a = true <-> weak g types bdr a).
    Let h := rs_h s.

    Lemma scalar_ref c v : v < (if rh_sep h then rh_nvar h else 1) -> ref_place h c v = c.
    Proof. destruct SB as (_ & N & _). fold h in N. unfold ref_place. rewrite N. destruct (rh_sep h); lia. Qed.
    Lemma scalar_nbk : (if rh_sep h then rh_nvar h else 1) = 1.
    Proof. destruct SB as (_ & N & _). fold h in N. rewrite N. destruct (rh_sep h); auto. Qed.
    Lemma scalar_nb : List.length (rh_nb h) = ncomp g.
    Proof. destruct SB as ((_ & (_ & _ & _ & _ & L) & _) & _ & _ & N & _). fold h in N, L. rewrite L, scalar_nbk, N. lia. Qed.

    Variable P : itf_port -> blockmat.
    Hypothesis HP : forall r, In r (g_refs g) -> port_matrix cfes cfes [nu_itf nu it] (ip_m1 r) (ip_m2 r) (ip_faces r) = Ok (P r) /\
           forall i j, i < 2 -> j < 2 -> exists M, P r i j = Some M /\ fm_h M = fe_size (fth cfes (side_mesh r i)) /\ fm_w M = fe_size (fth cfes (side_mesh r j)).

    Lemma scalar_elems_ok : exists cs bs ps, scalar_elems nu s g cfes ts it = Ok (cs, bs, ps) /\
      List.length cs = ncomp g /\ List.length bs = ncomp g /\ List.length ps = List.length (g_refs g) /\
      (forall c, c < ncomp g -> exists X, nth c cs no_blocks = one_block X /\ proj s dim c c (okM (comp_matrix nu g cfes cfes ts c)) (Some X)) /\
      (forall c, c < ncomp g -> List.length (nth c bs []) = List.length (attrs_of g c) /\ forall b, b < List.length (attrs_of g c) ->
         exists X, nth b (nth c bs []) no_blocks = one_block X /\ proj s dim c c (okM (bdr_matrix nu g cfes cfes ts c b)) (Some X)) /\
      (forall k, k < List.length (g_refs g) -> let r := nth k (g_refs g) (ItfPort 0 0 []) in
         mb_r (nth k ps no_blocks) = 2 /\ mb_c (nth k ps no_blocks) = 2 /\ forall i j, i < 2 -> j < 2 ->
           proj s dim (side_mesh r i) (side_mesh r j) (P r i j) (mb_get (nth k ps no_blocks) i j)).
    Proof.
      destruct SB as (B & Nv & Et & Ec & En & Dm). destruct I as (L1 & _ & (R1 & _) & _). pose proof scalar_nb as Lnb. unfold h in Lnb.
      unfold scalar_elems. destruct B as (Ld & B'). rewrite Ld. cbn [oassert]. assert (B : bases_ok s dim) by (split; auto). clear B'.
      destruct (omap_seq_Q (fun c => let* M := comp_matrix nu g cfes cfes ts c in let* X := elem_block s c c M in Ok (one_block X))
        (fun c Y => exists X, Y = one_block X /\ proj s dim c c (okM (comp_matrix nu g cfes cfes ts c)) (Some X)) (List.length (g_comps g))) as (cs & Ecs & Lcs & Vcs).
      { intros c Hc. fold (ncomp g) in Hc. destruct (comp_matrix_ok nu g G cfes cfes ts dom int bd c L1 L1 Hc (T c Hc)) as (M & E & H1 & H2 & _). rewrite E. cbn [obind okM].
        destruct (elem_block_ok s dim c c M B) as (X & EX & PX); try lia; try (rewrite Dm by auto; auto). rewrite EX. cbn [obind]. eexists. split; [reflexivity|]. exists X. auto. }
      unfold all_comp. rewrite Ecs. cbn [obind]. fold (ncomp g) in Lcs, Vcs.
      destruct (omap_seq_Q (fun c => let* at_ := oread (g_attrs g) c in omap ((fun c b => let* M := bdr_matrix nu g cfes cfes ts c b in let* X := elem_block s c c M in Ok (one_block X)) c) (seq 0 (List.length at_)))
        (fun c Y => List.length Y = List.length (attrs_of g c) /\ forall b, b < List.length (attrs_of g c) ->
           exists X, nth b Y no_blocks = one_block X /\ proj s dim c c (okM (bdr_matrix nu g cfes cfes ts c b)) (Some X)) (List.length (g_comps g))) as (bs & Ebs & Lbs & Vbs).
      { intros c Hc. fold (ncomp g) in Hc. destruct (geo_comp g G c Hc) as (_ & ->). cbn [obind].
        destruct (omap_seq_Q (fun b => let* M := bdr_matrix nu g cfes cfes ts c b in let* X := elem_block s c c M in Ok (one_block X))
          (fun b Y => exists X, Y = one_block X /\ proj s dim c c (okM (bdr_matrix nu g cfes cfes ts c b)) (Some X)) (List.length (attrs_of g c))) as (r & Er & Lr & Vr).
        - intros b Hb. destruct (bdr_matrix_ok nu g G cfes cfes ts dom int bd c L1 L1 Hc (T c Hc) b Hb) as (M & E & H1 & H2 & _). rewrite E. cbn [obind okM].
          destruct (elem_block_ok s dim c c M B) as (X & EX & PX); try lia; try (rewrite Dm by auto; auto). rewrite EX. cbn [obind]. eexists. split; [reflexivity|]. exists X. auto.
        - exists r. split; [exact Er|]. split; [exact Lr|]. intros b Hb. apply Vr. auto. }
      unfold all_bdr. rewrite Ebs. cbn [obind]. fold (ncomp g) in Lbs, Vbs.
      destruct (omap_list_Q (fun r => let cidx i := if i =? 0 then ip_m1 r else ip_m2 r in
          let* P := port_matrix cfes cfes [nu_itf nu it] (ip_m1 r) (ip_m2 r) (ip_faces r) in
          let* l := quad (fun i j => let* M := deref (P i j) in elem_block s (cidx i) (cidx j) M) in
          Ok (MBlocks 2 2 (quad_get l)))
        (fun r Y => mb_r Y = 2 /\ mb_c Y = 2 /\ forall i j, i < 2 -> j < 2 -> proj s dim (side_mesh r i) (side_mesh r j) (P r i j) (mb_get Y i j)) (g_refs g)) as (ps & Eps & Lps & Vps).
      { intros r Hr. cbn zeta. destruct (HP r Hr) as (-> & F). cbn [obind]. destruct (R1 r Hr) as (Q1 & Q2). rewrite L1 in Q1, Q2.
        destruct (quad_ok (fun i j => let* M := deref (P r i j) in elem_block s (if i =? 0 then ip_m1 r else ip_m2 r) (if j =? 0 then ip_m1 r else ip_m2 r) M)
          (fun i j X => proj s dim (side_mesh r i) (side_mesh r j) (P r i j) (Some X))) as (l & El & Vl).
        - intros i j Hi Hj. destruct (F i j Hi Hj) as (M & EM & H1 & H2). rewrite EM. cbn [deref obind].
          assert (S : forall i, i < 2 -> (if i =? 0 then ip_m1 r else ip_m2 r) = side_mesh r i /\ side_mesh r i < ncomp g). { intros [|[|z]] Hz; [| |lia]; split; auto. }
          destruct (S i Hi) as (-> & S1). destruct (S j Hj) as (-> & S2). apply elem_block_ok; auto; try lia; rewrite Dm; auto.
        - rewrite El. cbn [obind]. eexists. split; [reflexivity|]. cbn [mb_r mb_c mb_get]. split; [auto|]. split; [auto|]. intros i j Hi Hj. destruct (Vl i j Hi Hj) as (y & -> & Py). exact Py. }
      cbn zeta in Eps. rewrite Eps. cbn [obind]. exists cs, bs, ps. split; [reflexivity|]. split; [exact Lcs|]. split; [exact Lbs|]. split; [exact Lps|]. split; [|split].
      - intros c Hc. apply Vcs. auto.
      - intros c Hc. apply Vbs. auto.
      - intros k Hk. cbn zeta. apply Vps. auto.
    Qed.

    Lemma scalar_reduces A : (forall m m' i j, m < nsub g -> m' < nsub g -> val (A m m') i j = (ind (m =? m') (diag_val nu g enf dom int bd m i j) + rsum (List.length (g_ports g)) (fun k =>
          rsum 2 (fun s => rsum 2 (fun t => ind ((side_mesh (port_of g k) s =? m) && (side_mesh (port_of g k) t =? m')) (val (P (ref_of g k) s t) i j)))))%R) ->
      exists el Bm, scalar_elems nu s g cfes ts it = Ok el /\ assemble_rom_mat (bup_asm s g types bdr el) = Ok Bm /\
        reduces s dim (fun m _ m' _ => val (A m m')) Bm.
    Proof.
      intros VA. destruct scalar_elems_ok as (cs & bs & ps & E & L1 & L2 & L3 & V1 & V2 & V3). destruct SB as (B & Nv & Et & Ec & En & Dm).
      pose proof scalar_nbk as NB. pose proof scalar_ref as SR. unfold h in NB, SR. rewrite NB in SR.
      destruct (rom_reduces s dim g types bdr cs bs ps B G Et Ec En Sz (fun c _ _ => okM (comp_matrix nu g cfes cfes ts c)) (fun c b _ _ => okM (bdr_matrix nu g cfes cfes ts c b))
        (fun k i j _ _ => P (nth k (g_refs g) (ItfPort 0 0 [])) i j) L1 L2 L3) with (enf := enf) as (Bm & EB & RB); auto.
      - rewrite NB. intros c Hc. destruct (V1 c Hc) as (X & -> & PX). cbn [one_block mb_r mb_c mb_get]. split; [auto|]. split; [auto|]. intros v v' Hv Hv'. rewrite !SR by auto.
        destruct v; [|lia]. destruct v'; [|lia]. exact PX.
      - rewrite NB. intros c Hc. destruct (V2 c Hc) as (Lb & Vb). split; [auto|]. intros b Hb. cbn zeta. destruct (Vb b Hb) as (X & -> & PX). cbn [one_block mb_r mb_c mb_get]. split; [auto|]. split; [auto|].
        intros v v' Hv Hv'. rewrite !SR by auto. destruct v; [|lia]. destruct v'; [|lia]. exact PX.
      - rewrite NB. intros k Hk. cbn zeta. destruct (V3 k Hk) as (Q1 & Q2 & Q3). split; [lia|]. split; [lia|]. intros i j v v' Hi Hj Hv Hv'. rewrite !SR by auto. replace (i * 1 + v) with i by lia. replace (j * 1 + v') with j by lia. apply Q3; auto.
      - exists (cs, bs, ps), Bm. split; [exact E|]. split; [exact EB|]. refine (reduces_ext _ _ _ _ _ RB _). intros m v m' v' i j U U' _ _. unfold elem_entry.
        destruct U as (U1 & _), U' as (U2 & _). rewrite En in U1, U2. rewrite VA by auto. rewrite (copy_diag cfes cfes ts) by (auto; apply I). f_equal.
    Qed.

    Lemma scalar_project_ok A Bm : mats_fit (sub_spaces g cfes) (sub_spaces g cfes) A -> reduces s dim (fun m _ m' _ => val (A m m')) Bm ->
      exists out, scalar_project s (nsub g) A = Ok out /\ forall m m' p q, m < nsub g -> m' < nsub g -> p < basis_size h m 0 -> q < basis_size h m' 0 ->
        sm_val (smat_at out (place h m 0) (place h m' 0)) p q = val (Bm (place h m 0) (place h m' 0)) p q.
    Proof.
      intros (_ & MF) RB. destruct SB as (B & Nv & Et & Ec & En & Dm). rewrite (sub_spaces_len g cfes) in MF.
      pose proof scalar_nbk as NB. pose proof scalar_ref as SR. rewrite NB in SR.
      assert (PL : forall m v, unknown h m v -> place h m v = m /\ v = 0 /\ m < nsub g).
      { intros m v (U1 & U2). unfold place. fold h in Nv, En. rewrite En in U1. rewrite Nv in U2 |- *. destruct (rh_sep h), (rh_ord h); lia. }
      assert (UN : forall m, m < nsub g -> unknown h m 0). { intros m Hm. split; [unfold h; lia|]. unfold h. rewrite Nv. destruct (rh_sep (rs_h s)); lia. }
      assert (FS : forall m, m < nsub g -> full_size h dim m 0 = fe_size (fth (sub_spaces g cfes) m)).
      { intros m Hm. unfold full_size. rewrite SR by lia. unfold comp_of, h. rewrite Et. fold (type_of g m). rewrite sub_spaces_nth by auto. apply Dm. pose proof G as (_ & _ & _ & Ty & _). auto. }
      destruct (project_global_op_ok s dim (OpMat (nsub g) (nsub g) (fun i j => option_map fm_op (A i j))) B) as (out & E & _ & Ga).
      { cbn [om_r]. unfold blocks. fold h. rewrite NB. unfold h. lia. } { cbn [om_c]. unfold blocks. fold h. rewrite NB. unfold h. lia. }
      { fold h. intros m v m' v' U U'. destruct (PL m v U) as (-> & -> & Hm). destruct (PL m' v' U') as (-> & -> & Hm'). cbn [om_get]. destruct (MF m m' Hm Hm') as (M & -> & H1 & H2). cbn [option_map op_fits].
        rewrite !FS by auto. split; [exact H1|]. split; [exact H2|]. exists (fm_val M). apply fm_op_matrix. }
      exists out. split; [exact E|]. intros m m' p q Hm Hm' Hp Hq. fold h in Ga. specialize (Ga m 0 m' 0 (UN m Hm) (UN m' Hm')). destruct Ga as (_ & _ & Ga). unfold reduces in RB. cbn zeta in RB. fold h in RB. rewrite (RB m 0 m' 0 p q (UN m Hm) (UN m' Hm') Hp Hq).
      assert (W : forall m, m < nsub g -> dm_w (basis_of s m 0) = basis_size h m 0).
      { intros m0 Hm0. destruct B as (_ & (_ & _ & _ & Cm & Ln) & _ & Rb & _). unfold basis_of, basis_size. fold h. rewrite SR by lia. apply Rb. fold h. rewrite scalar_nb. unfold comp_of, h. rewrite Et. pose proof G as (_ & _ & _ & Ty & _). apply (Ty m0 Hm0). }
      cbn [om_get] in Ga. destruct (PL m 0 (UN m Hm)) as (E1 & _). destruct (PL m' 0 (UN m' Hm')) as (E2 & _). rewrite E1, E2 in Ga |- *. destruct (MF m m' Hm Hm') as (M & EM & H1 & H2). rewrite EM in Ga |- *. cbn [option_map val] in Ga |- *.
      rewrite (Ga (fm_val M) (fm_op_matrix M) p q) by (rewrite W by auto; auto). cbn [fm_op op_h op_w]. rewrite H1, H2, !FS by auto. reflexivity.
    Qed.
  End Scalar.

  (** the full-order matrix of a form and interfaces *)
  Lemma full_matrix ctest ctrial ts dom int bd it marks n : itf_ok nu g ctest ctrial it -> (forall m, m < nsub g -> ts m = Ok (dom, int, bd)) ->
    List.length marks = List.length (g_gattr g) -> (forall m a, m < nsub g -> In a (sub_attrs (smesh g m)) -> (a <= Z.of_nat n)%Z) ->
    (forall b, b < List.length (g_gattr g) -> exists mk, nth_error marks b = Some mk /\ List.length mk = n /\
        forall a, (0 < a <= Z.of_nat n)%Z -> nth (Z.to_nat a - 1) mk 0%Z = if (a =? nth b (g_gattr g) 0)%Z then 1%Z else 0%Z) ->
    exists A A' P, sub_matrices nu (map (smesh g) (seq 0 (nsub g))) (sub_spaces g ctest) (sub_spaces g ctrial) ts marks (BcSpec.terms (sattrs g) (g_gattr g) fv) = Ok A /\
      mixed_matrices (sub_spaces g ctest) (sub_spaces g ctrial) [nu_itf nu it] (g_ports g) A = Ok A' /\
      (sub_spaces g ctest = sub_spaces g ctrial -> itf_matrices (sub_spaces g ctest) [nu_itf nu it] (g_ports g) A = Ok A') /\
      mats_fit (sub_spaces g ctest) (sub_spaces g ctrial) A' /\
      (forall m m' i j, m < nsub g -> m' < nsub g -> val (A' m m') i j = full_entry nu g ctest ctrial dom int bd it enf m m' i j) /\
      (forall r, In r (g_refs g) -> port_matrix ctest ctrial [nu_itf nu it] (ip_m1 r) (ip_m2 r) (ip_faces r) = Ok (P r) /\
           forall i j, i < 2 -> j < 2 -> exists M, P r i j = Some M /\ fm_h M = fe_size (fth ctest (side_mesh r i)) /\ fm_w M = fe_size (fth ctrial (side_mesh r j))) /\
      forall m m' i j, m < nsub g -> m' < nsub g -> val (A' m m') i j = (ind (m =? m') (diag_val nu g enf dom int bd m i j) + rsum (List.length (g_ports g)) (fun k =>
          rsum 2 (fun s => rsum 2 (fun t => ind ((side_mesh (port_of g k) s =? m) && (side_mesh (port_of g k) t =? m')) (val (P (ref_of g k) s t) i j)))))%R.
  Proof.
    intros I T L U V. pose proof I as (L1 & L2 & _).
    destruct (sub_matrices_ok nu g G fv enf Enf ctest ctrial ts dom int bd L1 L2 T marks n L U V) as (A & EA & MF & VA).
    destruct (full_ok nu g G enf ctest ctrial dom int bd L1 L2 it I A MF VA) as (A' & P & R). exists A, A', P. split; [exact EA|]. exact R.
  Qed.
End Solver.

Lemma weak_fv g types bdr a : weak g types bdr a <-> exists b, nth_error (g_gattr g) b = Some a /\ option_map (fun _ => tt) (BcSpec.enforced types bdr b) <> None.
Proof.
  unfold weak, BcSpec.enforced. split; intros (b & E & H); exists b; (split; [exact E|]).
  - destruct H as (H1 & H2). destruct (nth b types BNone), (nth b bdr None); cbn; congruence.
  - destruct (nth b types BNone), (nth b bdr None); cbn in H; split; congruence.
Qed.
Lemma displaces_fv g full_dg ls a : displaces g full_dg ls a <-> exists b, nth_error (g_gattr g) b = Some a /\ (if full_dg then BcSpec.displaced (lterm_at ls b) else None) <> None.
Proof.
  unfold displaces, lterm_at. split.
  - intros (-> & b & E & H1 & H2). exists b. split; [exact E|]. rewrite H2. destruct (nth b (le_bdr ls) None); cbn; congruence.
  - intros (b & E & H). destruct full_dg; [|congruence]. split; [auto|]. exists b. split; [exact E|]. destruct (nth b (le_bdr ls) None); cbn in H; [|congruence]. destruct (nth b (le_types ls) BNone); cbn in H; split; congruence.
Qed.
Lemma terms_none {A} ms gattr : BcSpec.terms ms gattr (fun _ => @None A) = [].
Proof.
  unfold BcSpec.terms. induction (seq 0 (List.length ms)) as [|m l IH]; [reflexivity|]. cbn [flat_map]. rewrite IH, app_nil_r. clear IH.
  induction (seq 0 (List.length gattr)) as [|b k IHk]; [reflexivity|]. cbn [flat_map]. rewrite IHk, app_nil_r. destruct (existsb (Z.eqb (nth b gattr 0%Z)) (nth m ms [])); reflexivity.
Qed.
Lemma elast_domain full_dg ms gattr ls : BcSpec.sized gattr (le_types ls) (le_bdr ls) ->
  linelast_domain full_dg ms gattr ls = Ok (BcSpec.terms ms gattr (fun b => if full_dg then BcSpec.displaced (lterm_at ls b) else None)).
Proof.
  intros Sz. destruct full_dg; [apply linelast_terms; auto|]. rewrite terms_none. reflexivity.
Qed.
