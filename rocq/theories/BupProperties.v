(** The reduced system from component elements and the full-order system of the linear solvers. *)
From Coq Require Import Reals List Bool Lia Lra Arith ZArith.
From Verif Require Import Outcome ListLemmas LaBase LinalgModel LinalgSpec BlockVec RomModel RomSpec RomProofs RomOpProofs MbModel MbSpec MbMiscProofs ItfModel ItfSpec ProbModel BcModel BcProofs BupModel BupSpec BupFormProofs BupFullProofs BupRomProofs BupAsmProofs BupSolverProofs BupStokesProofs BupExamples.
From Verif Require Import MbFlowProofs.
From Verif Require MbProperties BcSpec.
Import ListNotations.
Local Open Scope nat_scope.

(** Poisson: both ways exist, the full-order matrix has the entries of the form, the reduced one those of its projection. *)
Theorem C111_poisson : forall nu s dim g cfes (full_dg : bool) sigma kappa types bdr enf,
  let int := if full_dg then [IDGDiffusion sigma kappa] else [] in
  geo_ok g -> scalar_bases s g cfes dim -> BcSpec.sized (g_gattr g) types bdr -> (forall a, enf a = true <-> weak g types bdr a) ->
  copied nu g [IDiffusion] int (IDGDiffusion sigma kappa) -> itf_ok nu g cfes cfes (IItfDiffusion sigma kappa) ->
  exists A B out, poisson_full nu g cfes full_dg sigma kappa types bdr = Ok A /\ poisson_rom nu s g cfes full_dg sigma kappa types bdr = Ok B /\
    (forall m m' i j, m < nsub g -> m' < nsub g ->
       val (A m m') i j = full_entry nu g cfes cfes [IDiffusion] int (IDGDiffusion sigma kappa) (IItfDiffusion sigma kappa) enf m m' i j) /\
    reduces s dim (fun m _ m' _ => val (A m m')) B /\
    scalar_project s (nsub g) A = Ok out /\
    forall m m' p q, m < nsub g -> m' < nsub g -> p < basis_size (rs_h s) m 0 -> q < basis_size (rs_h s) m' 0 ->
      sm_val (smat_at out (place (rs_h s) m 0) (place (rs_h s) m' 0)) p q = val (B (place (rs_h s) m 0) (place (rs_h s) m' 0)) p q.
Proof.
  intros nu s dim g cfes full_dg sigma kappa types bdr enf int G SB Sz Ew C I. pose proof I as (L & _).
  destruct (setup_ok g G (fun ms => weak_domain ms (g_gattr g) types bdr) _ (proj2 (weak_ok (sattrs g) (g_gattr g) types bdr Sz))) as (marks & n & ES & Lm & U & V).
  set (fv := fun b => option_map (fun _ => tt) (BcSpec.enforced types bdr b)) in *.
  assert (Enf : forall a, enf a = true <-> exists b, nth_error (g_gattr g) b = Some a /\ fv b <> None) by (intros a; rewrite Ew; apply weak_fv).
  destruct (full_matrix nu g G fv enf Enf cfes cfes (poisson_terms full_dg sigma kappa) [IDiffusion] int (IDGDiffusion sigma kappa) (IItfDiffusion sigma kappa) marks n I) as (A & A' & P & EA & _ & EI & MF & VF & HP & VA); auto.
  destruct (scalar_reduces nu g G enf cfes (poisson_terms full_dg sigma kappa) [IDiffusion] int (IDGDiffusion sigma kappa) (IItfDiffusion sigma kappa) s dim types bdr (fun _ _ => eq_refl) C I SB Sz Ew P HP A' VA) as (el & Bm & Eel & EB & RB).
  destruct (scalar_project_ok g G cfes s dim SB A' Bm MF RB) as (out & EO & VO).
  exists A', Bm, out. split; [|split; [|split; [|split; [|split]]]]; auto.
  - unfold poisson_full. rewrite sub_fes_ok by auto. cbn [obind]. rewrite ES. cbn [obind]. rewrite EA. cbn [obind]. apply EI. reflexivity.
  - unfold poisson_rom. rewrite Eel. cbn [obind]. exact EB.
Qed.
Print Assumptions C111_poisson.

(** Stokes: velocity and divergence blocks; the reduced matrix is that of the saddle point system, for separate bases and for
    one basis of both variables. *)
Theorem C111_stokes : forall nu s dim g cu cp (full_dg : bool) vis sigma kappa types bdr enf,
  let im := if full_dg then [IDGVecDiffusion vis sigma kappa] else [] in
  let ib := if full_dg then [INormalFlux] else [] in
  geo_ok g -> stokes_bases s g cu cp dim -> BcSpec.sized (g_gattr g) types bdr -> (forall a, enf a = true <-> weak g types bdr a) ->
  copied nu g [IVecDiffusion vis] im (IDGVecDiffusion vis sigma kappa) -> copied nu g [IDivergence (-1)] ib INormalFlux ->
  itf_ok nu g cu cu (IItfVecDiffusion vis sigma kappa) -> itf_ok nu g cp cu IItfNormalFlux ->
  exists M B R, stokes_full nu g cu cp full_dg vis sigma kappa types bdr = Ok (M, B) /\ stokes_rom nu s g cu cp full_dg vis sigma kappa types bdr = Ok R /\
    (forall m m' i j, m < nsub g -> m' < nsub g ->
       val (M m m') i j = full_entry nu g cu cu [IVecDiffusion vis] im (IDGVecDiffusion vis sigma kappa) (IItfVecDiffusion vis sigma kappa) enf m m' i j /\
       val (B m m') i j = full_entry nu g cp cu [IDivergence (-1)] ib INormalFlux IItfNormalFlux enf m m' i j) /\
    reduces s dim (saddle_block M B (rh_sep (rs_h s)) (fun m => fe_size (fth cu (type_of g m)))) R.
Proof.
  intros nu s dim g cu cp full_dg vis sigma kappa types bdr enf im ib G SB Sz Ew Cm Cb Im Ib. pose proof Im as (Lu & _). pose proof Ib as (Lp & _).
  destruct (setup_ok g G (fun ms => weak_domain ms (g_gattr g) types bdr) _ (proj2 (weak_ok (sattrs g) (g_gattr g) types bdr Sz))) as (marks & n & ES & Lm & U & V).
  set (fv := fun b => option_map (fun _ => tt) (BcSpec.enforced types bdr b)) in *.
  assert (Enf : forall a, enf a = true <-> exists b, nth_error (g_gattr g) b = Some a /\ fv b <> None) by (intros a; rewrite Ew; apply weak_fv).
  destruct (full_matrix nu g G fv enf Enf cu cu (stokes_m_terms full_dg vis sigma kappa) [IVecDiffusion vis] im (IDGVecDiffusion vis sigma kappa) (IItfVecDiffusion vis sigma kappa) marks n Im) as (A & M & PM & EA & _ & EM & _ & VM & HM & WM); auto.
  destruct (full_matrix nu g G fv enf Enf cp cu (stokes_b_terms full_dg) [IDivergence (-1)] ib INormalFlux IItfNormalFlux marks n Ib) as (A2 & B & PB & EA2 & EB & _ & _ & VB & HB & WB); auto.
  destruct (stokes_reduces nu g G enf cu cp (stokes_m_terms full_dg vis sigma kappa) (stokes_b_terms full_dg) [IVecDiffusion vis] im [IDivergence (-1)] ib (IDGVecDiffusion vis sigma kappa) INormalFlux
    (IItfVecDiffusion vis sigma kappa) IItfNormalFlux s dim types bdr (fun _ _ => eq_refl) (fun _ _ => eq_refl) Cm Cb Im Ib SB Sz Ew PM PB HM HB M B WM WB) as (el & R & Eel & ER & RR).
  exists M, B, R. split; [|split; [|split]]; auto.
  - unfold stokes_full. rewrite !sub_fes_ok by auto. cbn [obind]. rewrite ES. cbn [obind]. rewrite EA. cbn [obind]. rewrite EA2. cbn [obind]. rewrite (EM eq_refl). cbn [obind]. rewrite EB. reflexivity.
  - unfold stokes_rom. change (stokes_elems nu s (rh_sep (rs_h s)) g cu cp full_dg vis sigma kappa) with (elems_fun nu g cu cp (stokes_m_terms full_dg vis sigma kappa) (stokes_b_terms full_dg) (IItfVecDiffusion vis sigma kappa) IItfNormalFlux s).
    rewrite Eel. cbn [obind]. exact ER.
Qed.
Print Assumptions C111_stokes.

(** Elasticity: the full-order matrix has boundary terms on displacement boundaries of the full DG form only; the reduced matrix
    is the projection of the one with boundary terms wherever there is a condition other than a traction. *)
Theorem C111_elasticity : forall nu s dim g cfes (full_dg : bool) alpha kappa ls ef er,
  let l := le_mat ls in
  let int := if full_dg then [IDGElasticity l alpha kappa] else [] in
  let entry := full_entry nu g cfes cfes [IElasticity l] int (IDGElasticity l alpha kappa) (IItfElasticity l alpha kappa) in
  geo_ok g -> ncomp g <= nsub g -> scalar_bases s g cfes dim -> BcSpec.sized (g_gattr g) (le_types ls) (le_bdr ls) ->
  (forall a, ef a = true <-> displaces g full_dg ls a) -> (forall a, er a = true <-> weak g (le_types ls) (le_bdr ls) a) ->
  copied nu g [IElasticity l] int (IDGElasticity l alpha kappa) -> itf_ok nu g cfes cfes (IItfElasticity l alpha kappa) ->
  exists A B, elast_full nu g cfes full_dg alpha kappa ls = Ok A /\ elast_rom nu s g cfes full_dg alpha kappa ls = Ok B /\
    (forall m m' i j, m < nsub g -> m' < nsub g -> val (A m m') i j = entry ef m m' i j) /\
    reduces s dim (fun m _ m' _ => entry er m m') B.
Proof.
  intros nu s dim g cfes full_dg alpha kappa ls ef er l int entry G Nc SB Sz Ef Er C I. pose proof I as (L & _).
  assert (TS : forall m, m < nsub g -> elast_terms full_dg (lame g ls) alpha kappa m = Ok ([IElasticity l], int, IDGElasticity l alpha kappa)).
  { intros m Hm. unfold elast_terms, lame. rewrite (oread_nth _ _ l) by (rewrite repeat_length; exact Hm). cbn [obind]. rewrite nth_repeat_lt by exact Hm. reflexivity. }
  assert (TI : elast_itf (lame g ls) alpha kappa = Ok (IItfElasticity l alpha kappa)).
  { unfold elast_itf, lame. destruct G as (Pn & _). rewrite (oread_nth _ _ l) by (rewrite repeat_length; exact Pn). cbn [obind]. rewrite nth_repeat_lt by exact Pn. reflexivity. }
  destruct (setup_ok g G (fun ms => linelast_domain full_dg ms (g_gattr g) ls) _ (elast_domain full_dg (sattrs g) (g_gattr g) ls Sz)) as (marks & n & ES & Lm & U & V).
  set (fv := fun b => if full_dg then BcSpec.displaced (lterm_at ls b) else None) in *.
  assert (Enf : forall a, ef a = true <-> exists b, nth_error (g_gattr g) b = Some a /\ fv b <> None) by (intros a; rewrite Ef; apply displaces_fv).
  destruct (full_matrix nu g G fv ef Enf cfes cfes (elast_terms full_dg (lame g ls) alpha kappa) [IElasticity l] int (IDGElasticity l alpha kappa) (IItfElasticity l alpha kappa) marks n I TS Lm U V) as (A & A' & P & EA & _ & EI & MF & VF & _).
  set (fw := fun b => option_map (fun _ => tt) (BcSpec.enforced (le_types ls) (le_bdr ls) b)).
  assert (Enw : forall a, er a = true <-> exists b, nth_error (g_gattr g) b = Some a /\ fw b <> None) by (intros a; rewrite Er; apply weak_fv).
  destruct (full_matrix nu g G fw er Enw cfes cfes (elast_terms full_dg (lame g ls) alpha kappa) [IElasticity l] int (IDGElasticity l alpha kappa) (IItfElasticity l alpha kappa) marks n I TS Lm U V) as (W & W' & Q & _ & _ & _ & _ & VW & HQ & VV).
  destruct (scalar_reduces nu g G er cfes (elast_terms full_dg (lame g ls) alpha kappa) [IElasticity l] int (IDGElasticity l alpha kappa) (IItfElasticity l alpha kappa) s dim (le_types ls) (le_bdr ls)
    (fun c Hc => TS c (Nat.lt_le_trans _ _ _ Hc Nc)) C I SB Sz Er Q HQ W' VV) as (el & Bm & Eel & EB & RB).
  exists A', Bm. split; [|split; [|split]]; auto.
  - unfold elast_full. rewrite sub_fes_ok by auto. cbn [obind]. rewrite ES. cbn [obind]. rewrite TI. cbn [obind]. rewrite EA. cbn [obind]. apply EI. reflexivity.
  - unfold elast_rom. rewrite TI. cbn [obind]. rewrite Eel. cbn [obind]. exact EB.
  - refine (reduces_ext _ _ _ _ _ RB _). intros m v m' v' i j (U1 & _) (U2 & _) _ _. destruct SB as (_ & _ & _ & _ & En & _). rewrite En in U1, U2. apply VW; auto.
Qed.
Print Assumptions C111_elasticity.

(** With the full DG form and conditions that are displacements or tractions, the two ways agree. *)
Theorem C111_elasticity_projection : forall nu s dim g cfes alpha kappa ls,
  let l := le_mat ls in
  geo_ok g -> ncomp g <= nsub g -> scalar_bases s g cfes dim -> BcSpec.sized (g_gattr g) (le_types ls) (le_bdr ls) ->
  (forall b, nth b (le_bdr ls) None <> None -> nth b (le_types ls) BNone = BDirichlet \/ nth b (le_types ls) BNone = BNeumann) ->
  copied nu g [IElasticity l] [IDGElasticity l alpha kappa] (IDGElasticity l alpha kappa) -> itf_ok nu g cfes cfes (IItfElasticity l alpha kappa) ->
  exists A B, elast_full nu g cfes true alpha kappa ls = Ok A /\ elast_rom nu s g cfes true alpha kappa ls = Ok B /\
    reduces s dim (fun m _ m' _ => val (A m m')) B.
Proof.
  intros nu s dim g cfes alpha kappa ls l G Nc SB Sz OK C I.
  set (e := fun a => existsb (fun b => (nth b (g_gattr g) 0 =? a)%Z && match nth b (le_bdr ls) None, nth b (le_types ls) BNone with Some _, BDirichlet => true | _, _ => false end) (seq 0 (List.length (g_gattr g)))).
  assert (Ed : forall a, e a = true <-> displaces g true ls a).
  { intros a. unfold e, displaces. rewrite existsb_exists. split.
    - intros (b & Hb & H). apply in_seq in Hb. apply andb_true_iff in H as (H1 & H2). apply Z.eqb_eq in H1. split; [auto|]. exists b. split; [rewrite (nth_error_nth' _ 0%Z) by lia; congruence|].
      destruct (nth b (le_bdr ls) None); [|discriminate]. destruct (nth b (le_types ls) BNone); try discriminate. split; congruence.
    - intros (_ & b & E & H1 & H2). assert (Hb : b < List.length (g_gattr g)) by (apply nth_error_Some; congruence). exists b. split; [apply in_seq; lia|].
      rewrite (nth_error_nth _ _ _ E), Z.eqb_refl, H2. destruct (nth b (le_bdr ls) None); [reflexivity|congruence]. }
  assert (Ew : forall a, e a = true <-> weak g (le_types ls) (le_bdr ls) a).
  { intros a. rewrite Ed. unfold displaces, weak. split.
    - intros (_ & b & E & H1 & H2). exists b. split; [auto|]. split; [auto|]. congruence.
    - intros (b & E & H1 & H2). split; [auto|]. exists b. split; [auto|]. split; [auto|]. destruct (OK b H1); congruence. }
  destruct (C111_elasticity nu s dim g cfes true alpha kappa ls e e G Nc SB Sz Ed Ew C I) as (A & B & EA & EB & VA & RB). exists A, B. split; [exact EA|]. split; [exact EB|].
  refine (reduces_ext _ _ _ _ _ RB _). intros m v m' v' i j (U1 & _) (U2 & _) _ _. destruct SB as (_ & _ & _ & _ & En & _). rewrite En in U1, U2. symmetry. apply VA; auto.
Qed.
Print Assumptions C111_elasticity_projection.

(** Without the full DG form (the default) they do not: the reduced matrix has boundary terms that the full-order one lacks. *)
Theorem C111_elasticity_refuted : exists nu s dim g cfes alpha kappa ls A B,
  geo_ok g /\ ncomp g <= nsub g /\ scalar_bases s g cfes dim /\ BcSpec.sized (g_gattr g) (le_types ls) (le_bdr ls) /\
  (forall b, nth b (le_bdr ls) None <> None -> nth b (le_types ls) BNone = BDirichlet \/ nth b (le_types ls) BNone = BNeumann) /\
  copied nu g [IElasticity (le_mat ls)] [] (IDGElasticity (le_mat ls) alpha kappa) /\ itf_ok nu g cfes cfes (IItfElasticity (le_mat ls) alpha kappa) /\
  elast_full nu g cfes false alpha kappa ls = Ok A /\ elast_rom nu s g cfes false alpha kappa ls = Ok B /\ ~ reduces s dim (fun m _ m' _ => val (A m m')) B.
Proof.
  destruct (C111_elasticity bx_nu (bx_st true ByDomain) (fun _ => 2) bx_g bx_fes false 1 1 bx_ls (fun _ => false) (fun a => (a =? 1)%Z) bx_geo ltac:(cbn; lia) (bx_bases _ _) bx_ls_sized
    bx_ls_nowhere bx_ls_weak (bx_copied _ _ _) (bx_itf _)) as (A & B & EA & EB & VA & RB).
  exists bx_nu, (bx_st true ByDomain), (fun _ => 2), bx_g, bx_fes, 1%R, 1%R, bx_ls, A, B.
  split; [apply bx_geo|]. split; [cbn; lia|]. split; [apply bx_bases|]. split; [apply bx_ls_sized|]. split; [|split; [apply bx_copied|]; split; [apply bx_itf|]; split; [exact EA|]; split; [exact EB|]].
  - intros [|[|[|[|b]]]] H; cbn in *; auto; congruence.
  - intros RA. assert (U : unknown (rs_h (bx_st true ByDomain)) 0 0) by (split; cbn; lia).
    specialize (RA 0 0 0 0 0 0 U U ltac:(cbn; lia) ltac:(cbn; lia)). specialize (RB 0 0 0 0 0 0 U U ltac:(cbn; lia) ltac:(cbn; lia)). rewrite RB in RA. clear RB.
    cbv beta in RA. unfold rap in RA. cbn [full_size rsum] in RA. rewrite !VA in RA by (cbn; lia). unfold full_entry, mget, vnth, mat_at in RA. cbn in RA. lra.
Qed.
Print Assumptions C111_elasticity_refuted.

(** Components without a subdomain: elements are built with coefficients that are not there. *)
Theorem C111_components_refuted : exists nu s dim g cfes alpha kappa ls A,
  geo_ok g /\ scalar_bases s g cfes dim /\ BcSpec.sized (g_gattr g) (le_types ls) (le_bdr ls) /\
  copied nu g [IElasticity (le_mat ls)] [IDGElasticity (le_mat ls) alpha kappa] (IDGElasticity (le_mat ls) alpha kappa) /\ itf_ok nu g cfes cfes (IItfElasticity (le_mat ls) alpha kappa) /\
  elast_full nu g cfes true alpha kappa ls = Ok A /\ elast_rom nu s g cfes true alpha kappa ls = UB.
Proof.
  exists bx_nu, bx_st3, (fun _ => 2), bx_g2, bx_fes2, 1%R, 1%R, bx_ls. eexists. split; [apply bx_geo2|]. split; [apply bx_bases3|]. split; [split; reflexivity|].
  split; [intros m e p q Hm; split; [reflexivity|]; split; reflexivity|]. split; [apply bx_itf2|]. split; vm_compute; reflexivity.
Qed.
Print Assumptions C111_components_refuted.
