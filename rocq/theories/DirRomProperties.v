(** C140 for reduced systems assembled from the elements of components. *)
From Coq Require Import Reals List Bool Lia Arith ZArith String.
From Verif Require Import Outcome LaBase LinalgModel LinalgSpec RomModel RomSpec RomProofs MbModel MbSpec ItfModel ItfSpec ProbModel BcModel BupModel BupSpec BupProperties DirRomSpec DirRomProofs.
From Verif Require DirModel DirSpec DirProperties BcSpec.
Import ListNotations.
Local Open Scope nat_scope.

(** C140: the projection of a symmetric system is symmetric, so its direct solve is exact with every accepted declaration. *)
Theorem C140_projected : forall s dim a B fes system ty, reduced_spaces (rs_h s) fes -> reduces s dim a B ->
  symmetric_full (rs_h s) dim a -> DirModel.rom_type (Some "direct"%string) system = Ok (Some ty) ->
  forall b x, DirModel.mumps_mult fes ty (bm_entry B) b x -> DirSpec.solves fes (bm_entry B) b x.
Proof.
  intros s dim a B fes system ty F Re Sa Ty. apply (proj2 (DirProperties.C140_reduced system ty fes (bm_entry B) Ty)).
  right. apply (reduced_symmetric s dim a); auto.
Qed.
Print Assumptions C140_projected.

(** Poisson: wherever the full-order matrix is symmetric, the direct solve of the reduced system is exact. *)
Theorem C140_reduced_poisson : forall nu s dim g cfes (full_dg : bool) sigma kappa types bdr enf fes system ty,
  geo_ok g -> scalar_bases s g cfes dim -> BcSpec.sized (g_gattr g) types bdr -> (forall a, enf a = true <-> weak g types bdr a) ->
  copied nu g [IDiffusion] (if full_dg then [IDGDiffusion sigma kappa] else []) (IDGDiffusion sigma kappa) ->
  itf_ok nu g cfes cfes (IItfDiffusion sigma kappa) ->
  reduced_spaces (rs_h s) fes -> DirModel.rom_type (Some "direct"%string) system = Ok (Some ty) ->
  exists A B, poisson_full nu g cfes full_dg sigma kappa types bdr = Ok A /\ poisson_rom nu s g cfes full_dg sigma kappa types bdr = Ok B /\
  (DirSpec.symmetric_on (sub_spaces g cfes) (bm_entry A) ->
   forall b x, DirModel.mumps_mult fes ty (bm_entry B) b x -> DirSpec.solves fes (bm_entry B) b x).
Proof.
  intros nu s dim g cfes full_dg sigma kappa types bdr enf fes system ty G SB Sz Ew C I F Ty.
  destruct (C111_poisson nu s dim g cfes full_dg sigma kappa types bdr enf G SB Sz Ew C I) as (A & B & out & EA & EB & _ & Re & _).
  exists A, B. split; [exact EA|]. split; [exact EB|]. intros Sa. apply (C140_projected s dim _ B fes system ty F Re); auto.
  apply (scalar_symmetric s dim g cfes A G SB Sa).
Qed.
Print Assumptions C140_reduced_poisson.

(** The same for linear elasticity in the full DG form. *)
Theorem C140_reduced_elasticity : forall nu s dim g cfes alpha kappa ls fes system ty, let l := le_mat ls in
  geo_ok g -> ncomp g <= nsub g -> scalar_bases s g cfes dim -> BcSpec.sized (g_gattr g) (le_types ls) (le_bdr ls) ->
  (forall b, nth b (le_bdr ls) None <> None -> nth b (le_types ls) BNone = BDirichlet \/ nth b (le_types ls) BNone = BNeumann) ->
  copied nu g [IElasticity l] [IDGElasticity l alpha kappa] (IDGElasticity l alpha kappa) -> itf_ok nu g cfes cfes (IItfElasticity l alpha kappa) ->
  reduced_spaces (rs_h s) fes -> DirModel.rom_type (Some "direct"%string) system = Ok (Some ty) ->
  exists A B, elast_full nu g cfes true alpha kappa ls = Ok A /\ elast_rom nu s g cfes true alpha kappa ls = Ok B /\
  (DirSpec.symmetric_on (sub_spaces g cfes) (bm_entry A) ->
   forall b x, DirModel.mumps_mult fes ty (bm_entry B) b x -> DirSpec.solves fes (bm_entry B) b x).
Proof.
  intros nu s dim g cfes alpha kappa ls fes system ty l G Nc SB Sz OK C I F Ty.
  destruct (C111_elasticity_projection nu s dim g cfes alpha kappa ls G Nc SB Sz OK C I) as (A & B & EA & EB & Re).
  exists A, B. split; [exact EA|]. split; [exact EB|]. intros Sa. apply (C140_projected s dim _ B fes system ty F Re); auto.
  apply (scalar_symmetric s dim g cfes A G SB Sa).
Qed.
Print Assumptions C140_reduced_elasticity.

(** Stokes, with separate bases or one for both variables: the velocity matrix has to be symmetric. *)
Theorem C140_reduced_stokes : forall nu s dim g cu cp (full_dg : bool) vis sigma kappa types bdr enf fes system ty,
  geo_ok g -> stokes_bases s g cu cp dim -> BcSpec.sized (g_gattr g) types bdr -> (forall a, enf a = true <-> weak g types bdr a) ->
  copied nu g [IVecDiffusion vis] (if full_dg then [IDGVecDiffusion vis sigma kappa] else []) (IDGVecDiffusion vis sigma kappa) ->
  copied nu g [IDivergence (-1)] (if full_dg then [INormalFlux] else []) INormalFlux ->
  itf_ok nu g cu cu (IItfVecDiffusion vis sigma kappa) -> itf_ok nu g cp cu IItfNormalFlux ->
  reduced_spaces (rs_h s) fes -> DirModel.rom_type (Some "direct"%string) system = Ok (Some ty) ->
  exists M B R, stokes_full nu g cu cp full_dg vis sigma kappa types bdr = Ok (M, B) /\ stokes_rom nu s g cu cp full_dg vis sigma kappa types bdr = Ok R /\
  (DirSpec.symmetric_on (sub_spaces g cu) (bm_entry M) ->
   forall b x, DirModel.mumps_mult fes ty (bm_entry R) b x -> DirSpec.solves fes (bm_entry R) b x).
Proof.
  intros nu s dim g cu cp full_dg vis sigma kappa types bdr enf fes system ty G SB Sz Ew Cm Cb Im Ib F Ty.
  destruct (C111_stokes nu s dim g cu cp full_dg vis sigma kappa types bdr enf G SB Sz Ew Cm Cb Im Ib) as (M & B & R & EA & ER & _ & Re).
  exists M, B, R. split; [exact EA|]. split; [exact ER|]. intros Sa. apply (C140_projected s dim _ R fes system ty F Re); auto.
  apply (stokes_symmetric s dim g cu cp M B G SB Sa).
Qed.
Print Assumptions C140_reduced_stokes.
