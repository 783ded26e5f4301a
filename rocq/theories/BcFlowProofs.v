(** Proofs about boundary conditions of flow problems. *)
From Coq Require Import Reals List Bool Lia Arith ZArith Ascii String Lra.
From Verif Require Import Outcome ListLemmas LaBase MbModel MbSpec MbMiscProofs ProbModel BcModel BcSpec BcProofs.
Import ListNotations.
Local Open Scope list_scope.

(** ** Whether the pressure is fixed *)

Lemma pressure_fixed_ok gattr ud : List.length ud = List.length gattr -> pressure_fixed gattr ud = Ok (existsb missing ud).
Proof.
  intros L. unfold pressure_fixed. rewrite <- L. match goal with |- ofor _ ?F _ = _ => destruct (ofor_inv (List.length ud) F (fun n r => r = existsb missing (firstn n ud)) false) as (r & E & ->); [reflexivity| |rewrite firstn_all in E; exact E] end.
  intros n r Hn ->. destruct (nth_error ud n) as [c|] eqn:Ec; [|apply nth_error_None in Ec; lia]. unfold oread. rewrite Ec. cbn [obind]. eexists. split; [reflexivity|].
  assert (firstn (S n) ud = firstn n ud ++ [c]) as ->.
  { clear - Ec. revert n Ec. induction ud; intros [|n] Ec; try discriminate; [cbn in Ec; injection Ec as ->; reflexivity|]. cbn [firstn app]. f_equal. apply IHud. exact Ec. }
  rewrite existsb_app. cbn [existsb]. rewrite orb_false_r. reflexivity.
Qed.

Lemma stokes_add_ok gattr ud pres c a s' : List.length ud = List.length gattr -> stokes_add gattr (ud, pres) c a = Ok s' ->
  add_bc gattr ud c a = Ok (fst s') /\ snd s' = (if effective gattr a then existsb missing (fst s') else pres) /\ (effective gattr a = false -> fst s' = ud).
Proof.
  intros L H. unfold stokes_add in H. apply obind_ok in H as (ud' & E & H). pose proof (add_bc_length _ _ _ _ _ E) as L'. unfold effective. unfold add_bc in E. rewrite oassert_ok in E. destruct E as (E0 & E).
  unfold add_bc. rewrite E0. cbn [oassert]. destruct (0 <? a)%Z.
  - destruct (attr_find gattr a 0).
    + rewrite pressure_fixed_ok in H by congruence. cbn [obind] in H. injection H as <-. cbn [fst snd]. split; auto. split; auto. discriminate.
    + injection H as <-. injection E as <-. auto.
  - rewrite pressure_fixed_ok in H by congruence. cbn [obind] in H. injection H as <-. cbn [fst snd]. split; auto. split; auto. discriminate.
Qed.
Lemma stokes_add_ex gattr ud pres c a ud' : List.length ud = List.length gattr -> add_bc gattr ud c a = Ok ud' -> exists pres', stokes_add gattr (ud, pres) c a = Ok (ud', pres').
Proof.
  intros L E. unfold stokes_add. rewrite E. cbn [obind]. destruct (if (0 <? a)%Z then attr_find gattr a 0 else Some 0); [|eauto]. rewrite pressure_fixed_ok by (rewrite (add_bc_length _ _ _ _ _ E); auto). cbn [obind]. eauto.
Qed.

(** Calls in turn *)
Lemma stokes_calls gattr calls : forall ud pres s', List.length ud = List.length gattr ->
  ofold (fun s (ca : coeff * Z) => stokes_add gattr s (fst ca) (snd ca)) calls (ud, pres) = Ok s' ->
  List.length (fst s') = List.length gattr /\ snd s' = (if existsb (fun ca => effective gattr (snd ca)) calls then existsb missing (fst s') else pres).
Proof.
  induction calls as [|[c a] l IH]; intros ud pres s' L H; [cbn in H; injection H as <-; auto|]. cbn [ofold fst snd] in H. apply obind_ok in H as ([ud1 p1] & E & H).
  pose proof (stokes_add_ok _ _ _ _ _ _ L E) as (Ea & Ep & Eu). cbn [fst snd] in Ea, Ep, Eu. assert (L1 : List.length ud1 = List.length gattr) by (rewrite (add_bc_length _ _ _ _ _ Ea); auto).
  destruct (IH _ _ _ L1 H) as (L2 & P2). split; auto. rewrite P2. cbn [existsb snd]. destruct (effective gattr a) eqn:Ee; [|rewrite Ep; reflexivity]. cbn [orb].
  destruct (existsb _ l) eqn:El; auto. rewrite Ep.
  assert (Same : forall l ud p s', List.length ud = List.length gattr -> existsb (fun ca : coeff * Z => effective gattr (snd ca)) l = false -> ofold (fun s (ca : coeff * Z) => stokes_add gattr s (fst ca) (snd ca)) l (ud, p) = Ok s' -> fst s' = ud).
  { clear. induction l as [|[c a] l IH]; intros ud p s' L Q H; [cbn in H; injection H as <-; auto|]. cbn [existsb snd] in Q. apply orb_false_iff in Q as (Q1 & Q2). cbn [ofold fst snd] in H. apply obind_ok in H as ([u1 p1] & E & H).
    pose proof (stokes_add_ok _ _ _ _ _ _ L E) as (_ & _ & Eu). specialize (Eu Q1). cbn [fst] in Eu. subst u1. eapply IH; eauto. }
  rewrite (Same _ _ _ _ L1 El H). reflexivity.
Qed.

(** The loop of [SetParameterizedProblem] *)
Definition sputs (gattr battr : list Z) (case : nat -> outcome (option coeff)) (n : nat) (s : list (option coeff) * bool) :=
  ofor n (fun s b => let* c := case b in let* a := oread battr b in match c with None => Ok s | Some c => stokes_add gattr s c a end) s.
Definition touches (gattr battr : list Z) (case : nat -> outcome (option coeff)) (b : nat) : bool :=
  match case b, nth_error battr b with Ok (Some _), Some a => effective gattr a | _, _ => false end.
Lemma sputs_step {A} n (f : A -> nat -> outcome A) s : ofor (S n) f s = obind (ofor n f s) (fun s => f s n).
Proof. unfold ofor. rewrite seq_S, ofold_app. cbn [ofold Nat.add]. destruct (ofold f (seq 0 n) s) as [x| |]; cbn [obind]; auto. destruct (f x n); reflexivity. Qed.
Lemma sputs_ok gattr battr case n : forall s s', List.length (fst s) = List.length gattr -> sputs gattr battr case n s = Ok s' ->
  puts gattr battr case n (fst s) = Ok (fst s') /\ snd s' = (if existsb (touches gattr battr case) (seq 0 n) then existsb missing (fst s') else snd s) /\
  (existsb (touches gattr battr case) (seq 0 n) = false -> fst s' = fst s).
Proof.
  induction n; intros s s' L H; [cbn in H; injection H as <-; auto|]. unfold sputs in H. rewrite sputs_step in H. apply obind_ok in H as (s1 & E & H). destruct (IHn _ _ L E) as (P1 & P2 & P3).
  unfold puts. rewrite sputs_step. unfold puts in P1. rewrite P1. cbn [obind]. rewrite seq_S, existsb_app. cbn [existsb Nat.add]. rewrite orb_false_r. unfold touches at 2 4. apply obind_ok in H as (c & Ec & H). apply obind_ok in H as (a & Ea & H).
  rewrite Ec, Ea. cbn [obind]. apply oread_ok in Ea. rewrite Ea. pose proof (puts_length gattr battr case n (fst s) (fst s1) P1) as L1. destruct c as [c|].
  - destruct s1 as [u1 p1]. cbn [fst snd] in *. destruct (stokes_add_ok gattr u1 p1 c a s' ltac:(congruence) H) as (Q1 & Q2 & Q3). split; [exact Q1|].
    destruct (effective gattr a) eqn:Ee.
    + rewrite orb_true_r. split; auto. discriminate.
    + rewrite orb_false_r. rewrite Q2, (Q3 eq_refl). auto.
  - injection H as <-. rewrite orb_false_r. auto.
Qed.
Lemma sputs_ex gattr battr case n : forall s ud', List.length (fst s) = List.length gattr -> puts gattr battr case n (fst s) = Ok ud' -> exists pres', sputs gattr battr case n s = Ok (ud', pres').
Proof.
  induction n; intros [ud pres] ud' L H; [cbn in H; injection H as <-; exists pres; reflexivity|]. unfold puts in H. rewrite sputs_step in H. apply obind_ok in H as (u1 & E & H). destruct (IHn (ud, pres) u1 L E) as (p1 & E1).
  unfold sputs. rewrite sputs_step. unfold sputs in E1. rewrite E1. cbn [obind]. apply obind_ok in H as (c & Ec & H). apply obind_ok in H as (a & Ea & H). rewrite Ec, Ea. cbn [obind]. destruct c as [c|].
  - apply stokes_add_ex; auto. rewrite (puts_length gattr battr case n _ _ E). auto.
  - injection H as <-. eauto.
Qed.

Lemma all_missing n : 0 < n -> existsb missing (repeat None n) = true.
Proof. destruct n; [lia|reflexivity]. Qed.
Lemma none_missing ud : forallb (fun c => negb (missing c)) ud = negb (existsb missing ud).
Proof. induction ud; cbn; auto. rewrite IHud. destruct (missing a), (existsb missing ud); reflexivity. Qed.

(** An accepted setting *)
Lemma stokes_set_inv full_dg dim gattr meshes junk g p s s' : List.length (so_ud s) = List.length gattr -> stokes_set full_dg dim gattr meshes junk g p s = Ok s' ->
  exists types ud, set_problem gattr (pb_battr p) (pb_types p) (so_types s) = Ok types /\ puts gattr (pb_battr p) (stokes_case p) (List.length (pb_battr p)) (repeat None (List.length gattr)) = Ok ud /\
    so_types s' = types /\ so_ud s' = ud /\ so_rhs s' = [match pb_vrhs p with Some f => CVector f | None => CZero end] /\ so_nu s' = g "flow_problem::nu"%string /\
    so_pres s' = (if existsb (touches gattr (pb_battr p) (stokes_case p)) (seq 0 (List.length (pb_battr p))) then existsb missing ud else so_pres s) /\
    (existsb (touches gattr (pb_battr p) (stokes_case p)) (seq 0 (List.length (pb_battr p))) = false -> ud = repeat None (List.length gattr)) /\
    (if so_pres s' then so_del s' = Some 0%R /\ so_x0 s' = resize dim (so_x0 s) junk
     else existsb missing ud = false /\ exists nz, nonzero_bdr gattr p = Ok nz /\ complementary_flux full_dg dim gattr meshes g ud nz = Ok (so_del s', so_x0 s')).
Proof.
  intros L H. unfold stokes_set in H. apply obind_ok in H as (t & Et & H). rewrite none_list, L in H. apply obind_ok in H as ([ud pres] & Eu & H).
  destruct (sputs_ok gattr (pb_battr p) (stokes_case p) (List.length (pb_battr p)) (repeat None (List.length gattr), so_pres s) (ud, pres) ltac:(apply repeat_length) Eu) as (P1 & P2 & P3). cbn [fst snd] in P1, P2, P3.
  exists t, ud. split; auto. split; auto. destruct pres.
  - injection H as <-. cbn [so_types so_ud so_rhs so_pres so_nu so_del so_x0]. repeat (split; [assumption||reflexivity|]). split; reflexivity.
  - apply obind_ok in H as (nz & En & H). apply obind_ok in H as ([d z] & Ec & H). injection H as <-. cbn [so_types so_ud so_rhs so_pres so_nu so_del so_x0]. repeat (split; [assumption||reflexivity|]).
    split; [|exists nz; auto]. unfold complementary_flux in Ec. rewrite !oassert_ok in Ec. destruct Ec as (_ & _ & Ec & _). rewrite none_missing in Ec. destruct (existsb missing ud); [discriminate|reflexivity].
Qed.
Lemma stokes_set_pressure full_dg dim gattr meshes junk g p s s' : 0 < List.length gattr -> List.length (so_ud s) = List.length gattr -> stokes_set full_dg dim gattr meshes junk g p s = Ok s' ->
  so_pres s' = existsb missing (so_ud s').
Proof.
  intros Lg L H. destruct (stokes_set_inv _ _ _ _ _ _ _ _ _ L H) as (t & ud & _ & _ & _ & -> & _ & _ & P & P0 & Q). destruct (existsb (touches _ _ _) _); auto. rewrite (P0 eq_refl) in *. rewrite all_missing in * by auto. destruct (so_pres s'); auto. destruct Q. discriminate.
Qed.
Lemma stokes_set_sized full_dg dim gattr meshes junk g p s s' : stokes_set full_dg dim gattr meshes junk g p s = Ok s' -> sized gattr (so_types s) (so_ud s) -> sized gattr (so_types s') (so_ud s').
Proof.
  intros H (L1 & L2). destruct (stokes_set_inv _ _ _ _ _ _ _ _ _ L2 H) as (t & ud & Et & Eu & -> & -> & _). split; [apply set_problem_length in Et; tauto|]. rewrite (puts_length _ _ _ _ _ _ Eu). apply repeat_length.
Qed.
Lemma stokes_new_sized gattr d z : sized gattr (so_types (stokes_new gattr d z)) (so_ud (stokes_new gattr d z)).
Proof. split; apply repeat_length. Qed.
Lemma stokes_sets_sized full_dg dim gattr meshes junk l : forall s s', stokes_sets full_dg dim gattr meshes junk l s = Ok s' -> sized gattr (so_types s) (so_ud s) -> sized gattr (so_types s') (so_ud s').
Proof.
  induction l as [|p l IH]; intros s s' H Hs; [cbn in H; injection H as <-; auto|]. unfold stokes_sets in H. cbn [ofold] in H. apply obind_ok in H as (s1 & E & H). eapply IH; [exact H|]. eapply stokes_set_sized; eauto.
Qed.

Lemma stokes_conditions full_dg dim gattr meshes junk g p s s' : NoDup gattr -> 0 < List.length gattr -> (forall a, In a gattr -> (0 < a)%Z) -> complete p (pb_vbdr p) -> fresh_for p (so_types s) -> sized gattr (so_types s) (so_ud s) ->
  stokes_set full_dg dim gattr meshes junk g p s = Ok s' ->
  sized gattr (so_types s') (so_ud s') /\ (forall b a, nth_error gattr b = Some a -> enforced (so_types s') (so_ud s') b = prescribed CVector (pb_vbdr p) p a /\ nth b (so_ud s') None = prescribed CVector (pb_vbdr p) p a) /\
  so_rhs s' = [match pb_vrhs p with Some f => CVector f | None => CZero end] /\ so_nu s' = g "flow_problem::nu"%string.
Proof.
  intros Ng Lg Pg C Fr (L1 & L2) H. pose proof (stokes_set_sized _ _ _ _ _ _ _ _ _ H (conj L1 L2)) as Sz. destruct (stokes_set_inv _ _ _ _ _ _ _ _ _ L2 H) as (t & ud & Et & Eu & Q1 & Q2 & Q3 & Q4 & _). split; auto. split; auto.
  destruct (puts_prescribed CVector (pb_vbdr p) gattr p (stokes_case p) Ng Lg (fresh_for_form _ _ Fr)) as (bdr & E & L & V). { intros i Hi. apply stokes_case_ok; auto. }
  rewrite Eu in E. injection E as <-. rewrite Q1, Q2. intros b a Hb. split; [|apply V; auto]. apply (enforced_prescribed CVector (pb_vbdr p) gattr p (so_types s)); auto; [apply C|apply Pg; eapply nth_error_In; eauto].
Qed.

(** Setting a problem again *)
Lemma stokes_again full_dg dim gattr meshes junk l g p d z s s1 : 0 < List.length gattr -> List.length (pb_types p) = List.length (pb_battr p) -> (forall a, In a (pb_battr p) -> (0 < a)%Z) ->
  stokes_sets full_dg dim gattr meshes junk l (stokes_new gattr d z) = Ok s -> stokes_set full_dg dim gattr meshes junk g p (stokes_new gattr d z) = Ok s1 ->
  exists s2, stokes_set full_dg dim gattr meshes junk g p s = Ok s2 /\ so_rhs s2 = so_rhs s1 /\ so_nu s2 = so_nu s1 /\ so_pres s2 = so_pres s1 /\ so_ud s2 = so_ud s1 /\ so_del s2 = so_del s1 /\
    (so_pres s1 = false -> so_x0 s2 = so_x0 s1) /\ forall b, b < List.length gattr -> enforced (so_types s2) (so_ud s2) b = enforced (so_types s1) (so_ud s1) b.
Proof.
  intros Lg Lp Pb Hl H1. pose proof (stokes_sets_sized _ _ _ _ _ _ _ _ Hl (stokes_new_sized gattr d z)) as (Ls1 & Ls2).
  destruct (stokes_set_inv _ _ _ _ _ _ _ _ _ (proj2 (stokes_new_sized gattr d z)) H1) as (t & ud & Et & Eu & Q1 & Q2 & Q3 & Q4 & Q5 & Q6 & Q7).
  destruct (types_ok gattr p (so_types s) Ls1 Lp) as (t2 & Et2 & Lt2).
  destruct (sputs_ex gattr (pb_battr p) (stokes_case p) (List.length (pb_battr p)) (repeat None (List.length gattr), so_pres s) ud ltac:(apply repeat_length) Eu) as (pres2 & E2).
  destruct (sputs_ok gattr (pb_battr p) (stokes_case p) (List.length (pb_battr p)) (repeat None (List.length gattr), so_pres s) (ud, pres2) ltac:(apply repeat_length) E2) as (_ & P2 & _). cbn [fst snd] in P2.
  assert (Touch : existsb (touches gattr (pb_battr p) (stokes_case p)) (seq 0 (List.length (pb_battr p))) = true).
  { destruct (existsb (touches _ _ _) _); auto. cbn [stokes_new so_pres] in Q5. rewrite Q5 in Q7. destruct Q7 as (Q7 & _). rewrite (Q6 eq_refl), all_missing in Q7 by auto. discriminate. }
  rewrite Touch in *. assert (pres2 = so_pres s1) by congruence. subst pres2.
  assert (En : forall t' types, t' = types -> set_problem gattr (pb_battr p) (pb_types p) (so_types s) = Ok types -> forall b, b < List.length gattr -> enforced t' ud b = enforced (so_types s1) ud b).
  { intros t' types -> E b Hb. unfold enforced. destruct (nth_error gattr b) as [a|] eqn:Ea; [|apply nth_error_None in Ea; lia]. rewrite Q1. destruct (in_dec Z.eq_dec a (pb_battr p)) as [I|N].
    - rewrite (set_same _ _ _ _ _ _ _ _ E Et Lp Ea I). reflexivity.
    - pose proof (puts_other gattr (pb_battr p) (stokes_case p) _ _ _ b a Pb Ea N Eu) as Q. assert (nth b ud None = None) as ->.
      { apply nth_error_nth. rewrite Q. rewrite nth_error_nth' with (d := None) by (rewrite repeat_length; auto). rewrite nth_none. reflexivity. }
      destruct (nth b types BNone), (nth b t BNone); reflexivity. }
  unfold stokes_set. rewrite Et2. cbn [obind]. rewrite none_list, Ls2. unfold sputs in E2. rewrite E2. cbn [obind]. rewrite <- Q5.
  destruct (so_pres s1) eqn:Ep.
  - eexists. split; [reflexivity|]. cbn [so_types so_ud so_rhs so_pres so_nu so_del so_x0]. rewrite Q2, Q3, Q4. destruct Q7 as (-> & _). repeat (split; [reflexivity|]). split; [discriminate|]. intros b Hb. apply (En t2 t2); auto.
  - destruct Q7 as (_ & nz & En1 & Ec). rewrite En1. cbn [obind]. rewrite Ec. cbn [obind]. eexists. split; [reflexivity|]. cbn [so_types so_ud so_rhs so_pres so_nu so_del so_x0]. rewrite Q2, Q3, Q4. repeat (split; [reflexivity|]). intros b Hb. apply (En t2 t2); auto.
Qed.

(** ** Boundaries that take part in the correction *)

Lemma nonzero_all gattr p : one_for_all p -> List.length (pb_types p) = 1 -> nonzero_bdr gattr p = Ok (map (fun a => negb (homogeneous p a)) gattr).
Proof.
  intros O L. unfold nonzero_bdr, homogeneous, item. unfold one_for_all in O. rewrite O. cbn [List.length ofor seq ofold nth Z.eqb Pos.eqb]. unfold ofor. cbn [seq ofold]. destruct (pb_types p) as [|t [|]]; try discriminate. cbn [oread nth_error obind nth].
  destruct t; cbn [obind oread nth_error Z.eqb Pos.eqb negb]; f_equal; clear; (induction gattr as [|a l IH]; [reflexivity|]); cbn [List.length repeat map] in *; rewrite IH; reflexivity.
Qed.
Lemma nonzero_listed gattr p : listed p -> NoDup gattr -> aligned gattr p -> List.length (pb_types p) = List.length (pb_battr p) -> nonzero_bdr gattr p = Ok (map (fun a => negb (homogeneous p a)) gattr).
Proof.
  intros (Nb & Pb) Ng Al L. unfold nonzero_bdr.
  match goal with |- context[ofor _ ?f ?s] => destruct (ofor_inv (List.length (pb_battr p)) f (fun n st => snd st = false /\ List.length (fst st) = List.length gattr /\
     forall b, b < List.length gattr -> nth b (fst st) false = negb (match nth_error (pb_types p) b with Some BZero => b <? n | _ => false end)) s) as ([nz stop] & E & S1 & S2 & S3) end.
  - cbn [fst snd]. rewrite repeat_length. split; auto. split; auto. intros b Hb. assert (nth b (repeat true (List.length gattr)) false = true) as ->. { apply nth_error_nth. rewrite nth_error_nth' with (d := true) by (rewrite repeat_length; auto). rewrite nth_repeat. reflexivity. }
    destruct (nth_error (pb_types p) b) as [[]|]; reflexivity.
  - intros n [nz stop] Hn (S1 & S2 & S3). cbn [fst snd] in *. subst stop. destruct (nth_error (pb_types p) n) as [t|] eqn:Et; [|apply nth_error_None in Et; lia]. unfold oread at 1. rewrite Et. cbn [obind].
    assert (Keep : t <> BZero -> forall b, b < List.length gattr -> nth b nz false = negb (match nth_error (pb_types p) b with Some BZero => b <? S n | _ => false end)).
    { intros Nt b Hb. rewrite (S3 b Hb). destruct (nth_error (pb_types p) b) as [[]|] eqn:Eb; auto. f_equal. destruct (Nat.eq_dec b n) as [->|]; [congruence|]. destruct (Nat.ltb_spec b n), (Nat.ltb_spec b (S n)); auto; lia. }
    destruct t; try (eexists; split; [reflexivity|]; cbn [fst snd]; split; [reflexivity|]; split; [exact S2|]; apply Keep; discriminate).
    destruct (nth_error (pb_battr p) n) as [a|] eqn:Ea; [|apply nth_error_None in Ea; lia]. unfold oread. rewrite Ea. cbn [obind]. assert (Pa : (0 < a)%Z) by (apply Pb; eapply nth_error_In; eauto).
    replace (a =? -1)%Z with false by (symmetry; apply Z.eqb_neq; lia). specialize (Al n Et). rewrite Ea in Al. assert (Hg : n < List.length gattr) by (apply nth_error_Some; congruence).
    assert (Ew : owrite nz n false = Ok (upd nz n false)) by (apply owrite_ok; split; [lia|reflexivity]). rewrite Ew. cbn [obind]. eexists. split; [reflexivity|]. cbn [fst snd]. split; auto. split; [rewrite upd_length; auto|]. intros b Hb. destruct (Nat.eq_dec b n) as [->|Nb'].
    + rewrite nth_upd_eq by lia. rewrite Et. replace (n <? S n) with true by (symmetry; apply Nat.ltb_lt; lia). reflexivity.
    + rewrite nth_upd_ne by auto. rewrite (S3 b Hb). destruct (nth_error (pb_types p) b) as [[]|]; auto. f_equal. destruct (Nat.ltb_spec b n), (Nat.ltb_spec b (S n)); auto; lia.
  - rewrite E. cbn [obind]. cbn [fst snd] in *. f_equal. apply nth_ext with (d := false) (d' := negb (homogeneous p 0%Z)); [rewrite map_length; auto|]. intros b Hb. rewrite S2 in Hb. rewrite (S3 b Hb). rewrite (map_nth (fun a => negb (homogeneous p a)) gattr 0%Z b).
    f_equal. unfold homogeneous, item. destruct (Z.eqb_spec (nth 0 (pb_battr p) 0%Z) (-1)) as [Q|_].
    { exfalso. destruct (pb_battr p) as [|x l0]; [discriminate|]. cbn in Q. specialize (Pb x (or_introl eq_refl)). lia. }
    destruct (nth_error gattr b) as [a|] eqn:Ea; [|apply nth_error_None in Ea; lia]. rewrite (nth_error_nth _ _ _ Ea).
    destruct (nth_error (pb_types p) b) as [t|] eqn:Et.
    + assert (Hb' : b < List.length (pb_types p)) by (apply nth_error_Some; congruence).
      destruct (attr_find (pb_battr p) a 0) as [i|] eqn:Ei.
      * destruct (nth_error (pb_types p) i) as [ti|] eqn:Eti; [|apply nth_error_None in Eti; apply find_lt in Ei; lia]. rewrite (nth_error_nth _ _ _ Eti). destruct (Nat.eq_dec i b) as [->|Nib].
        { assert (ti = t) by congruence. subst ti. destruct t; auto. apply Nat.ltb_lt. lia. }
        assert (ti <> BZero). { intros ->. pose proof (Al i Eti) as A. apply find_in in Ei. rewrite Ei in A. apply Nib. apply (NoDup_nth_error gattr); auto; [apply nth_error_Some; congruence|congruence]. }
        destruct t; destruct ti; auto; try congruence. all: exfalso; pose proof (Al b Et) as A; rewrite Ea in A; rewrite (find_at _ _ _ Nb (eq_sym A)) in Ei; congruence.
      * destruct t; auto. exfalso. pose proof (Al b Et) as A. rewrite Ea in A. apply (find_out _ _ Ei). eapply nth_error_In; eauto.
    + apply nth_error_None in Et. destruct (attr_find (pb_battr p) a 0) as [i|] eqn:Ei; auto. destruct (nth_error (pb_types p) i) as [ti|] eqn:Eti; [|apply nth_error_None in Eti; apply find_lt in Ei; lia]. rewrite (nth_error_nth _ _ _ Eti).
      destruct ti; auto. exfalso. pose proof (Al i Eti) as A. apply find_in in Ei. rewrite Ei in A. assert (i = b). { apply (NoDup_nth_error gattr); auto; [apply nth_error_Some; congruence|congruence]. } subst i. assert (b < List.length (pb_types p)) by (apply nth_error_Some; congruence). lia.
Qed.
