(** Proofs about the warnings. *)
From Coq Require Import Reals List Bool Lia Arith ZArith.
From Verif Require Import Outcome LaBase MbModel ProbModel BcModel BcSpec BcProofs BcFlowProofs WarnModel WarnSpec.
Import ListNotations.
Local Open Scope nat_scope.

Lemma all_null_spec {A} (l : list (option A)) : all_null l = true <-> forall b, b < List.length l -> nth b l None = None.
Proof.
  unfold all_null. rewrite forallb_forall. split.
  - intros H b Hb. specialize (H _ (nth_In l None Hb)). destruct (nth b l None); [discriminate|reflexivity].
  - intros H x Hx. apply In_nth with (d := None) in Hx as (b & Hb & <-). rewrite H by auto. reflexivity.
Qed.

Lemma no_terms {A} ms gattr (f : nat -> option A) : covered ms gattr ->
  (terms ms gattr f = [] <-> forall b, b < List.length gattr -> f b = None).
Proof.
  intros Cv. unfold terms. split.
  - intros H b Hb. destruct (Cv (nth b gattr 0%Z) (nth_In _ _ Hb)) as (attrs & Ha & In_a).
    apply In_nth with (d := []) in Ha as (m & Hm & <-).
    destruct (f b) as [r|] eqn:E; [exfalso|reflexivity].
    assert (X : In (m, b, r) []).
    { rewrite <- H. apply in_flat_map. exists m. split; [apply in_seq; lia|]. apply in_flat_map. exists b. split; [apply in_seq; lia|].
      replace (existsb (Z.eqb (nth b gattr 0%Z)) (nth m ms [])) with true; [rewrite E; left; reflexivity|].
      symmetry. apply existsb_exists. exists (nth b gattr 0%Z). split; [exact In_a|apply Z.eqb_refl]. }
    exact X.
  - intros H. rewrite (flat_map_ext _ (fun _ => [])).
    { induction (seq 0 (List.length ms)); auto. }
    intros m. assert (X : forall l, (forall b, In b l -> b < List.length gattr) ->
      flat_map (fun b => if existsb (Z.eqb (nth b gattr 0%Z)) (nth m ms []) then match f b with Some r => [(m, b, r)] | None => [] end else []) l = []).
    { induction l as [|b l IH]; intros Hl; [reflexivity|]. cbn [flat_map]. rewrite (H b) by (apply Hl; left; auto).
      rewrite IH by (intros; apply Hl; right; auto). destruct existsb; reflexivity. }
    apply X. intros b Hb. apply in_seq in Hb. lia.
Qed.

Lemma null_iff gattr ms types bdr : covered ms gattr -> sized gattr types bdr ->
  (forall b, b < List.length gattr -> enforced types bdr b = nth b bdr None) ->
  (all_null bdr = true <-> weak_domain ms gattr types bdr = Ok []).
Proof.
  intros Cv Sz H. destruct (weak_ok ms gattr types bdr Sz) as (_ & W). rewrite W, all_null_spec. destruct Sz as (_ & L). rewrite L.
  assert (X : forall A (x y : A), Ok x = Ok y <-> x = y) by (intros; split; congruence).
  rewrite X, no_terms by exact Cv. split; intros G b Hb.
  - rewrite H, G by auto. reflexivity.
  - specialize (G b Hb). rewrite <- H by auto. destruct (enforced types bdr b); [discriminate|reflexivity].
Qed.

Lemma in_warn b w w' : In w (warn b w') <-> b = true /\ w = w'.
Proof. destruct b; cbn; intuition; congruence. Qed.

Lemma poisson_coefficients gattr p s : NoDup gattr -> 0 < List.length gattr -> (forall a, In a gattr -> (0 < a)%Z) -> complete p (pb_sbdr p) -> fresh_for p (po_types s) -> sized gattr (po_types s) (po_bdr s) ->
  exists s', poisson_set gattr p s = Ok s' /\ sized gattr (po_types s') (po_bdr s') /\ (exists c, po_rhs s' = [c]) /\
    forall b, b < List.length gattr -> enforced (po_types s') (po_bdr s') b = nth b (po_bdr s') None.
Proof.
  intros Ng Lg Pg C Fr (L1 & L2). destruct (types_ok gattr p (po_types s) L1 (proj1 C)) as (t' & Et & Lt). unfold poisson_set. rewrite Et. cbn [obind]. rewrite none_list, L2.
  destruct (puts_prescribed CScalar (pb_sbdr p) gattr p (poisson_case p) Ng Lg (fresh_for_form _ _ Fr)) as (bdr & E & L & V). { intros i Hi. apply poisson_case_ok; auto. }
  unfold puts in E. rewrite E. cbn [obind]. eexists. split; [reflexivity|]. cbn [po_types po_bdr po_rhs]. split; [split; auto|]. split; [eexists; reflexivity|].
  intros b Hb. pose proof (nth_gattr gattr b Hb) as Hn. rewrite (V b _ Hn).
  apply (enforced_prescribed CScalar (pb_sbdr p) gattr p (po_types s)); auto; [apply C|apply Pg; eapply nth_error_In; eauto].
Qed.

Lemma poisson_told gattr p s : NoDup gattr -> 0 < List.length gattr -> (forall a, In a gattr -> (0 < a)%Z) -> complete p (pb_sbdr p) -> fresh_for p (po_types s) -> sized gattr (po_types s) (po_bdr s) ->
  exists s', poisson_set gattr p s = Ok s' /\ forall ms, covered ms gattr -> truthful (poisson_check s') ms gattr (po_types s') (po_bdr s').
Proof.
  intros Ng Lg Pg C Fr Sz. destruct (poisson_coefficients gattr p s Ng Lg Pg C Fr Sz) as (s' & E & Sz' & (c & R) & V). exists s'. split; [exact E|].
  intros ms Cv. pose proof (null_iff gattr ms _ _ Cv Sz' V) as N. assert (K : poisson_check s' = warn (all_null (po_bdr s')) WNullBdr).
  { unfold poisson_check. rewrite R. destruct (po_bdr s'); [destruct Sz' as (_ & L); cbn in L; lia|reflexivity]. }
  rewrite K. split; [rewrite in_warn; tauto|]. intros w Hw. apply in_warn in Hw. apply Hw.
Qed.

Lemma stokes_told full_dg dim gattr meshes junk g p s s' : NoDup gattr -> 0 < List.length gattr -> (forall a, In a gattr -> (0 < a)%Z) -> complete p (pb_vbdr p) -> fresh_for p (so_types s) -> sized gattr (so_types s) (so_ud s) ->
  stokes_set full_dg dim gattr meshes junk g p s = Ok s' -> forall ms, covered ms gattr -> truthful (stokes_check s') ms gattr (so_types s') (so_ud s').
Proof.
  intros Ng Lg Pg C Fr Sz E ms Cv. destruct (stokes_conditions _ _ _ _ _ _ _ _ _ Ng Lg Pg C Fr Sz E) as (Sz' & V & R & _).
  assert (V' : forall b, b < List.length gattr -> enforced (so_types s') (so_ud s') b = nth b (so_ud s') None).
  { intros b Hb. destruct (V b _ (nth_gattr gattr b Hb)) as (-> & ->). reflexivity. }
  pose proof (null_iff gattr ms _ _ Cv Sz' V') as N. assert (K : stokes_check s' = warn (all_null (so_ud s')) WNullBdr).
  { unfold stokes_check. rewrite R. destruct (so_ud s'); [destruct Sz' as (_ & L); cbn in L; lia|reflexivity]. }
  rewrite K. split; [rewrite in_warn; tauto|]. intros w Hw. apply in_warn in Hw. apply Hw.
Qed.
