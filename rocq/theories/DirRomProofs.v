(** Projections of symmetric systems are symmetric. *)
From Coq Require Import Reals List Bool Lia Arith ZArith.
From Verif Require Import Outcome LaBase LinalgModel LinalgSpec RomModel RomSpec RomProofs MbModel MbSpec ItfModel ItfSpec BupModel BupSpec DirRomSpec.
From Verif Require DirSpec.
Import ListNotations.
Local Open Scope nat_scope.

Lemma rap_transpose p q r a b c i j : (forall k l, k < p -> l < q -> a k l = c l k) -> rap p q r a b i j = rap q p b c r j i.
Proof.
  intros H. unfold rap.
  transitivity (rsum p (fun k => rsum q (fun l => r k i * (a k l * b l j))%R)).
  { apply rsum_ext. intros k Hk. rewrite rsum_scal. reflexivity. }
  rewrite rsum_swap. apply rsum_ext. intros l Hl. rewrite <- rsum_scal. apply rsum_ext. intros k Hk. rewrite (H k l) by auto. ring.
Qed.

Lemma reduced_symmetric s dim a B fes : reduced_spaces (rs_h s) fes -> reduces s dim a B -> symmetric_full (rs_h s) dim a ->
  DirSpec.symmetric_on fes (bm_entry B).
Proof.
  intros (L & Z) Re Sa [x i] [y j] (Hx & Hi) (Hy & Hj). cbn [fst snd] in *. rewrite L in Hx, Hy.
  destruct (place_onto _ _ Hx) as (m & v & U & <-). destruct (place_onto _ _ Hy) as (m' & v' & U' & <-).
  rewrite Z in Hi, Hj by auto. unfold bm_entry. cbn [fst snd]. rewrite (Re m v m' v' i j), (Re m' v' m v j i) by auto.
  apply rap_transpose. intros k l Hk Hl. apply Sa; auto.
Qed.

Lemma saddle_symmetric h dim M B nf : rom_wf h ->
  (forall m m' i j, m < rh_nsub h -> m' < rh_nsub h -> i < nf m -> j < nf m' -> val (M m m') i j = val (M m' m) j i) ->
  (rh_sep h = true -> rh_nvar h = 2 /\ forall m, m < rh_nsub h -> full_size h dim m 0 = nf m) ->
  symmetric_full h dim (saddle_block M B (rh_sep h) nf).
Proof.
  intros W HM Hs m v m' v' i j (U & Uv) (U' & Uv') Hi Hj. unfold saddle_block.
  destruct (rh_sep h).
  - destruct (Hs eq_refl) as (Nv & Sz). rewrite Nv in Uv, Uv'.
    destruct v as [|[|v]]; [| |lia]; (destruct v' as [|[|v']]; [| |lia]); auto. rewrite Sz in Hi, Hj by auto. apply HM; auto.
  - destruct (Nat.ltb_spec i (nf m)), (Nat.ltb_spec j (nf m')); auto.
Qed.

Lemma sub_in_range g cfes m i : m < nsub g -> i < fe_size (fth cfes (type_of g m)) -> in_range (sub_spaces g cfes) (m, i).
Proof.
  intros Hm Hi. unfold in_range, sub_spaces. cbn [fst snd]. rewrite map_length. split; [exact Hm|].
  unfold fth at 1. rewrite (nth_indep _ _ (fth cfes 0)) by (rewrite map_length; exact Hm). rewrite map_nth. exact Hi.
Qed.

Lemma scalar_symmetric s dim g cfes A : geo_ok g -> scalar_bases s g cfes dim ->
  DirSpec.symmetric_on (sub_spaces g cfes) (bm_entry A) -> symmetric_full (rs_h s) dim (fun m _ m' _ => val (A m m')).
Proof.
  intros (_ & _ & _ & Ty & _) (_ & Nv & Et & _ & En & Dm) Sa m v m' v' i j (U & Uv) (U' & Uv') Hi Hj.
  assert (P : forall m v, m < rh_nsub (rs_h s) -> (if rh_sep (rs_h s) then v < rh_nvar (rs_h s) else v = 0) ->
    full_size (rs_h s) dim m v = fe_size (fth cfes (type_of g m))).
  { intros m0 v0 H0 V0. unfold full_size, comp_of. rewrite Et. fold (type_of g m0). rewrite <- Dm by (apply Ty; lia). f_equal.
    unfold ref_place. destruct (rh_sep (rs_h s)); [rewrite Nv in *; lia|reflexivity]. }
  rewrite P in Hi, Hj by auto. rewrite En in U, U'.
  apply (Sa (m, i) (m', j)); apply sub_in_range; auto.
Qed.

Lemma stokes_symmetric s dim g cu cp M B : geo_ok g -> stokes_bases s g cu cp dim ->
  DirSpec.symmetric_on (sub_spaces g cu) (bm_entry M) ->
  symmetric_full (rs_h s) dim (saddle_block M B (rh_sep (rs_h s)) (fun m => fe_size (fth cu (type_of g m)))).
Proof.
  intros (_ & _ & _ & Ty & _) ((_ & W & _) & Nv & Et & _ & En & Dm) Sa. apply saddle_symmetric; auto.
  - intros m m' i j Hm Hm' Hi Hj. rewrite En in Hm, Hm'. apply (Sa (m, i) (m', j)); apply sub_in_range; auto.
  - intros Sp. split; [exact Nv|]. intros m Hm. rewrite En in Hm. specialize (Dm (type_of g m) (Ty m Hm)). rewrite Sp in Dm.
    unfold full_size, comp_of, ref_place. rewrite Sp, Nv, Et. fold (type_of g m). destruct Dm as (<- & _). f_equal. lia.
Qed.
