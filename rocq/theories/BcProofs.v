(** Proofs about boundary conditions of Poisson and elasticity problems. *)
From Coq Require Import Reals List Bool Lia Arith ZArith Ascii String Lra.
From Verif Require Import Outcome ListLemmas LaBase MbModel MbSpec MbMiscProofs ProbModel BcModel BcSpec.
From Verif Require CompProofs.
Import ListNotations.
Local Open Scope list_scope.

Lemma ofor_inv_ok {A} n (f : A -> nat -> outcome A) (I : nat -> A -> Prop) s s' : I 0 s -> (forall i a a', i < n -> I i a -> f a i = Ok a' -> I (S i) a') -> ofor n f s = Ok s' -> I n s'.
Proof.
  unfold ofor. revert s'. induction n; intros s' H0 H1 E; [cbn in E; congruence|]. rewrite seq_S, ofold_app in E. apply obind_ok in E as (a & E1 & E2). cbn in E2.
  apply obind_ok in E2 as (a' & E2 & E3). injection E3 as <-. apply (H1 n a a' ltac:(lia)); auto. apply IHn; auto. intros i b b' Hi. apply H1. lia.
Qed.

Lemma find_at gattr b a : NoDup gattr -> nth_error gattr b = Some a -> attr_find gattr a 0 = Some b.
Proof.
  intros N E. apply attr_find_some. split; auto. intros j Hj E'. assert (j = b); [|lia]. eapply NoDup_nth_error; eauto; [|congruence]. apply nth_error_Some. congruence.
Qed.
Lemma find_in l a i : attr_find l a 0 = Some i -> nth_error l i = Some a.
Proof. intros E. pose proof (attr_find_spec l a 0) as H. rewrite E in H. destruct H as (_ & H & _). rewrite Nat.sub_0_r in H. exact H. Qed.
Lemma find_lt l a i : attr_find l a 0 = Some i -> i < List.length l.
Proof. intros E. apply find_in in E. apply nth_error_Some. congruence. Qed.
Lemma find_out l a : attr_find l a 0 = None -> ~ In a l.
Proof. intros E. pose proof (attr_find_spec l a 0) as H. rewrite E in H. exact H. Qed.

(** ** Adding conditions *)

Definition puts (gattr battr : list Z) (case : nat -> outcome (option coeff)) (n : nat) (bdr : list (option coeff)) : outcome (list (option coeff)) :=
  ofor n (fun bdr b => let* c := case b in let* a := oread battr b in match c with None => Ok bdr | Some c => add_bc gattr bdr c a end) bdr.

Lemma add_bc_length gattr bdr c a bdr' : add_bc gattr bdr c a = Ok bdr' -> List.length bdr' = List.length bdr.
Proof.
  unfold add_bc. rewrite oassert_ok. intros (_ & H). destruct (0 <? a)%Z; [|injection H as <-; apply map_length]. destruct (attr_find gattr a 0); [|congruence].
  apply owrite_ok in H as (_ & ->). apply upd_length.
Qed.
Lemma puts_length gattr battr case n bdr bdr' : puts gattr battr case n bdr = Ok bdr' -> List.length bdr' = List.length bdr.
Proof.
  apply (ofor_inv_ok n _ (fun _ b => List.length b = List.length bdr)); auto. intros i b b' _ H E. apply obind_ok in E as (c & _ & E). apply obind_ok in E as (a & _ & E).
  destruct c; [rewrite (add_bc_length _ _ _ _ _ E); auto|congruence].
Qed.
(** a boundary the problem does not list keeps its condition *)
Lemma puts_other gattr battr case n bdr bdr' b a : (forall x, In x battr -> (0 < x)%Z) -> nth_error gattr b = Some a -> ~ In a battr -> puts gattr battr case n bdr = Ok bdr' -> nth_error bdr' b = nth_error bdr b.
Proof.
  intros P Eb N. apply (ofor_inv_ok n _ (fun _ x => nth_error x b = nth_error bdr b)); auto. intros i x x' _ H E. apply obind_ok in E as (c & _ & E). apply obind_ok in E as (a' & Ea & E).
  apply oread_ok in Ea. apply nth_error_In in Ea. destruct c; [|congruence]. unfold add_bc in E. rewrite oassert_ok in E. destruct E as (_ & E).
  replace (0 <? a')%Z with true in E by (symmetry; apply Z.ltb_lt; auto). destruct (attr_find gattr a' 0) as [j|] eqn:Ej; [|congruence]. apply owrite_ok in E as (_ & ->). rewrite nth_error_upd_ne; auto.
  intros ->. apply find_in in Ej. congruence.
Qed.

(** Conditions listed once each *)
Lemma puts_listed gattr battr case cs init : NoDup gattr -> (0 < List.length gattr) -> NoDup battr -> (forall a, In a battr -> (0 < a)%Z) ->
  (forall i, i < List.length battr -> case i = Ok (cs i)) -> List.length init = List.length gattr ->
  exists bdr, puts gattr battr case (List.length battr) init = Ok bdr /\ List.length bdr = List.length gattr /\
    forall b a, nth_error gattr b = Some a -> nth b bdr None = match attr_find battr a 0 with Some i => match cs i with Some c => Some c | None => nth b init None end | None => nth b init None end.
Proof.
  intros Ng Lg Nb Pb Hc Li. unfold puts.
  match goal with |- context[ofor _ ?f init] => destruct (ofor_inv (List.length battr) f (fun n bdr => List.length bdr = List.length gattr /\
     forall b a, nth_error gattr b = Some a -> nth b bdr None = match attr_find battr a 0 with Some i => if i <? n then match cs i with Some c => Some c | None => nth b init None end else nth b init None | None => nth b init None end) init) as (bdr & E & L & V) end.
  - split; auto. intros b a _. destruct (attr_find battr a 0); reflexivity.
  - intros n bdr Hn (L & V). rewrite (Hc n Hn). cbn [obind]. destruct (nth_error battr n) as [a|] eqn:Ea; [|apply nth_error_None in Ea; lia]. unfold oread at 1. rewrite Ea. cbn [obind].
    assert (Same : cs n = None -> forall b x, nth_error gattr b = Some x -> nth b bdr None = match attr_find battr x 0 with Some i => if i <? S n then match cs i with Some c => Some c | None => nth b init None end else nth b init None | None => nth b init None end).
    { intros C b x Hb. rewrite (V b x Hb). destruct (attr_find battr x 0) as [i|]; auto. destruct (Nat.ltb_spec i n), (Nat.ltb_spec i (S n)); auto; try lia. assert (i = n) by lia. subst i. rewrite C. reflexivity. }
    destruct (cs n) as [c|] eqn:C; [|eexists; split; [reflexivity|]; auto].
    unfold add_bc. rewrite L. replace (0 <? List.length gattr) with true by (symmetry; apply Nat.ltb_lt; auto). cbn [oassert].
    replace (0 <? a)%Z with true by (symmetry; apply Z.ltb_lt; apply Pb; eapply nth_error_In; eauto).
    assert (Fa : attr_find battr a 0 = Some n) by (apply find_at; auto).
    assert (Gen : forall b x, nth_error gattr b = Some x -> x <> a -> nth b bdr None = match attr_find battr x 0 with Some i => if i <? S n then match cs i with Some c => Some c | None => nth b init None end else nth b init None | None => nth b init None end).
    { intros b x Hb Nx. rewrite (V b x Hb). destruct (attr_find battr x 0) as [i|] eqn:Ei; auto. destruct (Nat.ltb_spec i n), (Nat.ltb_spec i (S n)); auto; try lia. assert (i = n) by lia. subst i. apply find_in in Ei. congruence. }
    destruct (attr_find gattr a 0) as [j|] eqn:Ej.
    + pose proof (find_lt _ _ _ Ej) as Lj. eexists. split; [apply owrite_ok; split; [lia|reflexivity]|]. split; [rewrite upd_length; auto|]. intros b x Hb. destruct (Z.eq_dec x a) as [->|Nx].
      * assert (b = j) by (rewrite (find_at _ _ _ Ng Hb) in Ej; congruence). subst b. rewrite nth_upd_eq by lia. rewrite Fa. replace (n <? S n) with true by (symmetry; apply Nat.ltb_lt; lia). rewrite C. reflexivity.
      * rewrite nth_upd_ne; [apply Gen; auto|]. intros ->. apply find_in in Ej. congruence.
    + eexists. split; [reflexivity|]. split; auto. intros b x Hb. destruct (Z.eq_dec x a) as [->|Nx]; [|apply Gen; auto]. exfalso. apply (find_out _ _ Ej). eapply nth_error_In; eauto.
  - exists bdr. split; [exact E|]. split; auto. intros b a Hb. rewrite (V b a Hb). destruct (attr_find battr a 0) as [i|] eqn:Ei; auto. apply find_lt in Ei. replace (i <? List.length battr) with true by (symmetry; apply Nat.ltb_lt; auto). reflexivity.
Qed.

(** One condition for all *)
Lemma puts_all gattr case c0 init : (0 < List.length gattr) -> case 0 = Ok c0 -> List.length init = List.length gattr ->
  exists bdr, puts gattr [-1]%Z case 1 init = Ok bdr /\ List.length bdr = List.length gattr /\ forall b, b < List.length gattr -> nth b bdr None = match c0 with Some c => Some c | None => nth b init None end.
Proof.
  intros Lg Hc Li. unfold puts, ofor. cbn [seq ofold]. rewrite Hc. cbn [obind oread nth_error]. destruct c0 as [c|].
  - unfold add_bc. rewrite Li. replace (0 <? List.length gattr) with true by (symmetry; apply Nat.ltb_lt; auto). cbn [oassert Z.ltb Z.compare obind]. eexists. split; [reflexivity|]. split; [rewrite map_length; auto|].
    intros b Hb. apply nth_error_nth. rewrite nth_error_map. rewrite (nth_error_nth' init None) by lia. reflexivity.
  - cbn [obind]. eexists. split; [reflexivity|]. split; auto.
Qed.

Lemma none_list {A B} (l : list A) : map (fun _ => @None B) l = repeat None (List.length l).
Proof. induction l; cbn; congruence. Qed.
Lemma nth_none {A} n b : nth b (repeat (@None A) n) None = None.
Proof. apply nth_repeat. Qed.

(** ** Types *)

Lemma types_listed gattr p types t' b a : List.length types = List.length gattr -> List.length (pb_types p) = List.length (pb_battr p) -> set_problem gattr (pb_battr p) (pb_types p) types = Ok t' ->
  nth_error gattr b = Some a -> List.length t' = List.length gattr /\ nth b t' BNone = match attr_find (pb_battr p) a 0 with Some i => nth i (pb_types p) BNone | None => nth b types BNone end.
Proof.
  intros L Lp E Hb. destruct (set_problem_ok gattr (pb_battr p) (pb_types p) types L ltac:(lia)) as (t & E' & Lt & V). rewrite E in E'. injection E' as <-. split; auto. destruct (V b a Hb) as (V1 & V2).
  destruct (attr_find (pb_battr p) a 0) as [i|] eqn:Ei.
  - pose proof (attr_find_spec (pb_battr p) a 0) as S. rewrite Ei in S. destruct S as (_ & S). rewrite Nat.sub_0_r in S. specialize (V1 i S). apply find_lt in Ei. rewrite <- Lp in Ei.
    apply nth_error_nth. rewrite V1. apply nth_error_nth'. auto.
  - specialize (V2 (find_out _ _ Ei)). assert (b < List.length gattr) by (apply nth_error_Some; congruence). apply nth_error_nth. rewrite V2. apply nth_error_nth'. lia.
Qed.
Lemma types_ok gattr p types : List.length types = List.length gattr -> List.length (pb_types p) = List.length (pb_battr p) -> exists t', set_problem gattr (pb_battr p) (pb_types p) types = Ok t' /\ List.length t' = List.length gattr.
Proof. intros L Lp. destruct (set_problem_ok gattr (pb_battr p) (pb_types p) types L ltac:(lia)) as (t & E & Lt & _). eauto. Qed.

(** ** Cases *)

Definition wants {F} (mk : F -> coeff) (fs : list (option F)) (p : problem) (i : nat) : option coeff :=
  match nth i (pb_types p) BNone with BDirichlet => option_map mk (nth i fs None) | BNeumann => None | _ => Some CZero end.
Lemma poisson_case_ok p i : complete p (pb_sbdr p) -> i < List.length (pb_battr p) -> poisson_case p i = Ok (wants CScalar (pb_sbdr p) p i).
Proof.
  intros (L1 & L2 & L3) Hi. unfold poisson_case, wants. destruct (nth_error (pb_types p) i) as [t|] eqn:Et; [|apply nth_error_None in Et; lia]. unfold oread at 1. rewrite Et. cbn [obind]. rewrite (nth_error_nth _ _ _ Et).
  destruct t; auto. specialize (L3 i Et). destruct (nth_error (pb_sbdr p) i) as [f|] eqn:Ef; [|apply nth_error_None in Ef; lia]. unfold oread. rewrite Ef. cbn [obind]. rewrite (nth_error_nth _ _ _ Ef). destruct f; [reflexivity|congruence].
Qed.
Lemma stokes_case_ok p i : complete p (pb_vbdr p) -> i < List.length (pb_battr p) -> stokes_case p i = Ok (wants CVector (pb_vbdr p) p i).
Proof.
  intros (L1 & L2 & L3) Hi. unfold stokes_case, wants. destruct (nth_error (pb_types p) i) as [t|] eqn:Et; [|apply nth_error_None in Et; lia]. unfold oread at 1. rewrite Et. cbn [obind]. rewrite (nth_error_nth _ _ _ Et).
  destruct t; auto. specialize (L3 i Et). destruct (nth_error (pb_vbdr p) i) as [f|] eqn:Ef; [|apply nth_error_None in Ef; lia]. unfold oread. rewrite Ef. cbn [obind]. rewrite (nth_error_nth _ _ _ Ef). destruct f; [reflexivity|congruence].
Qed.
Lemma linelast_case_ok p i : complete p (pb_vbdr p) -> i < List.length (pb_battr p) -> linelast_case p i = Ok (option_map CVector (nth i (pb_vbdr p) None)).
Proof.
  intros (L1 & L2 & L3) Hi. unfold linelast_case. destruct (nth_error (pb_types p) i) as [t|] eqn:Et; [|apply nth_error_None in Et; lia]. unfold oread at 1. rewrite Et. cbn [obind].
  specialize (L3 i). rewrite Et in L3. destruct (nth_error (pb_vbdr p) i) as [f|] eqn:Ef; [|apply nth_error_None in Ef; lia]. unfold oread. rewrite Ef. cbn [obind]. rewrite (nth_error_nth _ _ _ Ef). destruct t, f; auto. exfalso. apply L3; auto.
Qed.

(** The conditions that result, for problems of both forms *)
Lemma puts_prescribed {F} (mk : F -> coeff) fs gattr p case : NoDup gattr -> 0 < List.length gattr -> listed p \/ one_for_all p ->
  (forall i, i < List.length (pb_battr p) -> case i = Ok (wants mk fs p i)) ->
  exists bdr, puts gattr (pb_battr p) case (List.length (pb_battr p)) (repeat None (List.length gattr)) = Ok bdr /\ List.length bdr = List.length gattr /\
    forall b a, nth_error gattr b = Some a -> nth b bdr None = prescribed mk fs p a.
Proof.
  intros Ng Lg H Hc. destruct H as [(Nb & Pb)|O].
  - destruct (puts_listed gattr (pb_battr p) case (wants mk fs p) (repeat None (List.length gattr)) Ng Lg Nb Pb Hc ltac:(apply repeat_length)) as (bdr & E & L & V). exists bdr. split; auto. split; auto.
    intros b a Hb. rewrite (V b a Hb), nth_none. unfold prescribed, item. destruct (Z.eqb_spec (nth 0 (pb_battr p) 0%Z) (-1)) as [Q|_].
    + exfalso. destruct (pb_battr p) as [|x l]; [discriminate|]. cbn in Q. specialize (Pb x (or_introl eq_refl)). lia.
    + destruct (attr_find (pb_battr p) a 0) as [i|]; auto. fold (wants mk fs p i). destruct (wants mk fs p i); auto.
  - unfold one_for_all in O. rewrite O in *. destruct (puts_all gattr case (wants mk fs p 0) (repeat None (List.length gattr)) Lg (Hc 0 ltac:(cbn; lia)) ltac:(apply repeat_length)) as (bdr & E & L & V). exists bdr. split; auto. split; auto.
    intros b a Hb. rewrite V by (apply nth_error_Some; congruence). rewrite nth_none. unfold prescribed, item. rewrite O. cbn [nth Z.eqb Pos.eqb]. fold (wants mk fs p 0). destruct (wants mk fs p 0); auto.
Qed.

Lemma fresh_for_form p types : fresh_for p types -> listed p \/ one_for_all p.
Proof. unfold fresh_for. tauto. Qed.

Lemma enforced_prescribed {F} (mk : F -> coeff) fs gattr p types t' bdr b a : fresh_for p types -> List.length types = List.length gattr -> List.length (pb_types p) = List.length (pb_battr p) ->
  set_problem gattr (pb_battr p) (pb_types p) types = Ok t' -> nth_error gattr b = Some a -> (0 < a)%Z -> nth b bdr None = prescribed mk fs p a -> enforced t' bdr b = prescribed mk fs p a.
Proof.
  intros Fr L Lp E Hb Pa V. destruct (types_listed gattr p types t' b a L Lp E Hb) as (Lt & T). unfold enforced. rewrite T, V. unfold prescribed, item. destruct Fr as [(Nb & Pb)|(O & NN)].
  - destruct (Z.eqb_spec (nth 0 (pb_battr p) 0%Z) (-1)) as [Q|_].
    { exfalso. destruct (pb_battr p) as [|x l]; [discriminate|]. cbn in Q. specialize (Pb x (or_introl eq_refl)). lia. }
    destruct (attr_find (pb_battr p) a 0) as [i|]; [destruct (nth i (pb_types p) BNone); auto|]. destruct (nth b types BNone); auto.
  - unfold one_for_all in O. rewrite O. cbn [nth Z.eqb Pos.eqb]. cbn [attr_find]. replace (-1 =? a)%Z with false by (symmetry; apply Z.eqb_neq; lia).
    assert (nth b types BNone <> BNeumann). { intros Q. apply NN. rewrite <- Q. apply nth_In. rewrite L. apply nth_error_Some. congruence. }
    destruct (nth b types BNone); auto. congruence.
Qed.

(** ** Poisson *)

Lemma poisson_set_ok gattr p s : NoDup gattr -> 0 < List.length gattr -> (forall a, In a gattr -> (0 < a)%Z) -> complete p (pb_sbdr p) -> fresh_for p (po_types s) -> sized gattr (po_types s) (po_bdr s) ->
  exists s', poisson_set gattr p s = Ok s' /\ sized gattr (po_types s') (po_bdr s') /\
    (forall b a, nth_error gattr b = Some a -> enforced (po_types s') (po_bdr s') b = prescribed CScalar (pb_sbdr p) p a) /\
    po_rhs s' = [match pb_srhs p with Some f => CScalar f | None => CZero end].
Proof.
  intros Ng Lg Pg C Fr (L1 & L2). destruct (types_ok gattr p (po_types s) L1 (proj1 C)) as (t' & Et & Lt). unfold poisson_set. rewrite Et. cbn [obind]. rewrite none_list, L2.
  destruct (puts_prescribed CScalar (pb_sbdr p) gattr p (poisson_case p) Ng Lg (fresh_for_form _ _ Fr)) as (bdr & E & L & V). { intros i Hi. apply poisson_case_ok; auto. }
  unfold puts in E. rewrite E. cbn [obind]. eexists. split; [reflexivity|]. cbn [po_types po_bdr po_rhs]. split; [split; auto|]. split; [|reflexivity].
  intros b a Hb. apply (enforced_prescribed CScalar (pb_sbdr p) gattr p (po_types s)); auto; [apply C|apply Pg; eapply nth_error_In; eauto].
Qed.

Lemma set_problem_length gattr battr ptypes types t' : set_problem gattr battr ptypes types = Ok t' -> List.length types = List.length gattr /\ List.length t' = List.length gattr.
Proof.
  unfold set_problem. rewrite oassert_ok. intros (L & H). apply Nat.eqb_eq in L. split; auto. revert H. apply (ofor_inv_ok _ _ (fun _ t => List.length t = List.length gattr)); auto.
  intros i t t1 _ Ht E. apply obind_ok in E as (a & _ & E). destruct (attr_find battr a 0); [|congruence]. apply obind_ok in E as (x & _ & E). apply owrite_ok in E as (_ & ->). rewrite upd_length. auto.
Qed.
Lemma poisson_set_sized gattr p s s' : poisson_set gattr p s = Ok s' -> sized gattr (po_types s) (po_bdr s) -> sized gattr (po_types s') (po_bdr s').
Proof.
  unfold poisson_set. intros H (L1 & L2). apply obind_ok in H as (t & Et & H). apply obind_ok in H as (bdr & Eb & H). injection H as <-. cbn [po_types po_bdr]. apply set_problem_length in Et.
  apply (puts_length gattr (pb_battr p) (poisson_case p)) in Eb. rewrite map_length in Eb. split; [tauto|congruence].
Qed.
Lemma poisson_sets_sized gattr l : forall s s', ofold (fun s p => poisson_set gattr p s) l s = Ok s' -> sized gattr (po_types s) (po_bdr s) -> sized gattr (po_types s') (po_bdr s').
Proof.
  induction l as [|p l IH]; intros s s' H Hs; [cbn in H; injection H as <-; auto|]. cbn [ofold] in H. apply obind_ok in H as (s1 & E & H). eapply IH; eauto. eapply poisson_set_sized; eauto.
Qed.
Lemma poisson_new_sized gattr : sized gattr (po_types (poisson_new gattr)) (po_bdr (poisson_new gattr)).
Proof. split; apply repeat_length. Qed.

Lemma set_same gattr p t1 t2 r1 r2 b a : set_problem gattr (pb_battr p) (pb_types p) t1 = Ok r1 -> set_problem gattr (pb_battr p) (pb_types p) t2 = Ok r2 -> List.length (pb_types p) = List.length (pb_battr p) ->
  nth_error gattr b = Some a -> In a (pb_battr p) -> nth b r1 BNone = nth b r2 BNone.
Proof.
  intros E1 E2 Lp Hb Ha. destruct (set_problem_length _ _ _ _ _ E1) as (L1 & _). destruct (set_problem_length _ _ _ _ _ E2) as (L2 & _).
  destruct (types_listed gattr p t1 r1 b a L1 Lp E1 Hb) as (_ & ->). destruct (types_listed gattr p t2 r2 b a L2 Lp E2 Hb) as (_ & ->).
  destruct (attr_find (pb_battr p) a 0) eqn:E; auto. exfalso. exact (find_out _ _ E Ha).
Qed.

(** Setting [p] after others *)
Lemma poisson_again gattr l p s s1 : ofold (fun s p => poisson_set gattr p s) l (poisson_new gattr) = Ok s -> poisson_set gattr p (poisson_new gattr) = Ok s1 ->
  List.length (pb_types p) = List.length (pb_battr p) -> (forall a, In a (pb_battr p) -> (0 < a)%Z) ->
  exists s2, poisson_set gattr p s = Ok s2 /\ po_rhs s2 = po_rhs s1 /\ po_bdr s2 = po_bdr s1 /\ forall b, b < List.length gattr -> enforced (po_types s2) (po_bdr s2) b = enforced (po_types s1) (po_bdr s1) b.
Proof.
  intros E1 H' Lp Pb. pose proof (poisson_sets_sized _ _ _ _ E1 (poisson_new_sized gattr)) as (L0 & L1). destruct (types_ok gattr p (po_types s) L0 Lp) as (t & Et & Lt).
  unfold poisson_set in *. apply obind_ok in H' as (t' & Et' & H'). apply obind_ok in H' as (bdr' & Eb' & H'). injection H' as <-.
  cbn [po_bdr poisson_new] in Eb'. rewrite none_list, repeat_length in Eb'. rewrite Et. cbn [obind]. rewrite none_list, L1. rewrite Eb'. cbn [obind].
  eexists. split; [reflexivity|]. cbn [po_rhs po_types po_bdr]. split; auto. split; auto.
  intros b Hb. unfold enforced. destruct (nth_error gattr b) as [a|] eqn:Ea; [|apply nth_error_None in Ea; lia]. destruct (in_dec Z.eq_dec a (pb_battr p)) as [I|N].
  - rewrite (set_same _ _ _ _ _ _ _ _ Et Et' Lp Ea I). reflexivity.
  - pose proof (puts_other gattr (pb_battr p) (poisson_case p) _ _ _ b a Pb Ea N Eb') as Q. assert (nth b bdr' None = None) as ->.
    { apply nth_error_nth. rewrite Q. rewrite nth_error_nth' with (d := None) by (rewrite repeat_length; auto). rewrite nth_none. reflexivity. }
    destruct (nth b t BNone), (nth b t' BNone); reflexivity.
Qed.

(** ** Integrators *)

Lemma terms_inner {A} (f : nat -> outcome (option A)) (fv : nat -> option A) gattr attrs m (acc : list (nat * nat * A)) : (forall b, b < List.length gattr -> f b = Ok (fv b)) ->
  ofor (List.length gattr) (fun acc b => let* a := oread gattr b in match attr_find attrs a 0 with None => Ok acc | Some _ => let* r := f b in match r with None => Ok acc | Some r => Ok (acc ++ [(m, b, r)]) end end) acc
  = Ok (acc ++ flat_map (fun b => if existsb (Z.eqb (nth b gattr 0%Z)) attrs then match fv b with Some r => [(m, b, r)] | None => [] end else []) (seq 0 (List.length gattr))).
Proof.
  intros Hf. match goal with |- ofor _ ?F _ = _ => destruct (ofor_inv (List.length gattr) F (fun n x => x = acc ++ flat_map (fun b => if existsb (Z.eqb (nth b gattr 0%Z)) attrs then match fv b with Some r => [(m, b, r)] | None => [] end else []) (seq 0 n)) acc) as (x & E & ->); [cbn; rewrite app_nil_r; auto| |exact E] end.
  intros n x Hn ->. destruct (nth_error gattr n) as [a|] eqn:Ea; [|apply nth_error_None in Ea; lia]. unfold oread. rewrite Ea. cbn [obind]. rewrite seq_S, flat_map_app, app_assoc. cbn [flat_map Nat.add]. rewrite app_nil_r.
  rewrite (nth_error_nth _ _ _ Ea). rewrite Hf by auto. cbn [obind].
  destruct (attr_find attrs a 0) as [i|] eqn:Ei.
  - replace (existsb (Z.eqb a) attrs) with true. 2:{ symmetry. apply existsb_exists. exists a. split; [|apply Z.eqb_refl]. eapply nth_error_In. eapply find_in. eauto. }
    destruct (fv n); eexists; (split; [reflexivity|]); rewrite ?app_nil_r; reflexivity.
  - replace (existsb (Z.eqb a) attrs) with false. 2:{ symmetry. apply not_true_iff_false. intros Q. apply existsb_exists in Q as (y & Hy & Q). apply Z.eqb_eq in Q. subst y. exact (find_out _ _ Ei Hy). }
    eexists. split; [reflexivity|]. rewrite app_nil_r. reflexivity.
Qed.
Lemma bc_loop_ok {A} ms gattr (f : nat -> outcome (option A)) (fv : nat -> option A) : (forall b, b < List.length gattr -> f b = Ok (fv b)) -> bc_loop ms gattr f = Ok (terms ms gattr fv).
Proof.
  intros Hf. unfold bc_loop, terms. match goal with |- ofor _ ?F _ = Ok (flat_map ?G _) => destruct (ofor_inv (List.length ms) F (fun n x => x = flat_map G (seq 0 n)) []) as (x & E & ->); [reflexivity| |exact E] end.
  intros n x Hn ->. destruct (nth_error ms n) as [attrs|] eqn:Em; [|apply nth_error_None in Em; lia]. unfold oread at 1. rewrite Em. cbn [obind]. rewrite (terms_inner f fv) by auto. eexists. split; [reflexivity|].
  rewrite seq_S, flat_map_app. cbn [flat_map Nat.add]. rewrite app_nil_r. rewrite (nth_error_nth _ _ _ Em). reflexivity.
Qed.

Lemma bc_at_ok gattr bdr b : List.length bdr = List.length gattr -> b < List.length gattr -> bc_at gattr bdr b = Ok (nth b bdr None).
Proof.
  intros L H. unfold bc_at. replace (b <? List.length gattr) with true by (symmetry; apply Nat.ltb_lt; auto). rewrite L, Nat.eqb_refl. cbn [oassert]. unfold oread. rewrite nth_error_nth' with (d := None) by lia. reflexivity.
Qed.
Lemma weak_ok ms gattr types bdr : sized gattr types bdr ->
  weak_rhs ms gattr types bdr = Ok (terms ms gattr (enforced types bdr)) /\ weak_domain ms gattr types bdr = Ok (terms ms gattr (fun b => option_map (fun _ => tt) (enforced types bdr b))).
Proof.
  intros (L1 & L2). unfold weak_rhs, weak_domain. split; apply bc_loop_ok; intros b Hb; rewrite bc_at_ok by auto; cbn [obind]; unfold enforced;
  (destruct (nth b bdr None); [|destruct (nth b types BNone); reflexivity]); unfold oread; rewrite nth_error_nth' with (d := BNone) by lia; cbn [obind]; destruct (nth b types BNone); reflexivity.
Qed.
Lemma terms_ext {A} ms gattr (f g : nat -> option A) : (forall b, b < List.length gattr -> f b = g b) -> terms ms gattr f = terms ms gattr g.
Proof.
  intros H. unfold terms. rewrite !flat_map_concat_map. f_equal. apply map_ext. intros m. rewrite !flat_map_concat_map. f_equal. apply map_ext_in. intros b Hb. apply in_seq in Hb. rewrite H by lia. reflexivity.
Qed.
Lemma nth_gattr (gattr : list Z) b : b < List.length gattr -> nth_error gattr b = Some (nth b gattr 0%Z).
Proof. intros H. apply nth_error_nth'. auto. Qed.

(** ** Elasticity *)

Lemma linelast_set_ok gattr p : NoDup gattr -> 0 < List.length gattr -> listed p -> complete p (pb_vbdr p) -> forall s la mu ic, sized gattr (le_types s) (le_bdr s) ->
  nth_error (pb_gs p) 0 = Some la -> nth_error (pb_gs p) 1 = Some mu -> nth_error (pb_gv p) 0 = Some ic ->
  exists s', linelast_set gattr p s = Ok s' /\ sized gattr (le_types s') (le_bdr s') /\ le_mat s' = Some (la, mu) /\ le_rhs s' = le_rhs s ++ match pb_vrhs p with Some f => [CVector f] | None => [] end /\
    forall b a, nth_error gattr b = Some a ->
      nth b (le_types s') BNone = match attr_find (pb_battr p) a 0 with Some i => nth i (pb_types p) BNone | None => nth b (le_types s) BNone end /\
      nth b (le_bdr s') None = match attr_find (pb_battr p) a 0 with Some i => match nth i (pb_vbdr p) None with Some f => Some (CVector f) | None => nth b (le_bdr s) None end | None => nth b (le_bdr s) None end.
Proof.
  intros Ng Lg (Nb & Pb) C s la mu ic (L1 & L2) E0 E1 Ei. destruct (types_ok gattr p (le_types s) L1 (proj1 C)) as (t' & Et & Lt). unfold linelast_set. rewrite Et. cbn [obind]. unfold oread at 1. rewrite E0. cbn [obind]. unfold oread at 1. rewrite E1. cbn [obind].
  destruct (puts_listed gattr (pb_battr p) (linelast_case p) (fun i => option_map CVector (nth i (pb_vbdr p) None)) (le_bdr s) Ng Lg Nb Pb) as (bdr & E & L & V); [intros i Hi; apply linelast_case_ok; auto|auto|].
  unfold puts in E. rewrite E. cbn [obind]. unfold oread at 1. rewrite Ei. cbn [obind]. eexists. split; [reflexivity|]. cbn [le_types le_bdr le_mat le_rhs]. split; [split; auto|]. split; auto. split; [destruct (pb_vrhs p); [reflexivity|rewrite app_nil_r; reflexivity]|].
  intros b a Hb. split; [apply (types_listed gattr p (le_types s) t' b a L1 (proj1 C) Et Hb)|]. rewrite (V b a Hb). destruct (attr_find (pb_battr p) a 0) as [i|]; auto. destruct (nth i (pb_vbdr p) None); reflexivity.
Qed.
Definition lterm_at (s : lsolver) (b : nat) : option lterm :=
  match nth b (le_bdr s) None with None => None | Some c => match nth b (le_types s) BNone with BDirichlet => Some (LDirichlet c) | BNeumann => Some (LTraction c) | _ => None end end.
Lemma linelast_terms ms gattr s : sized gattr (le_types s) (le_bdr s) ->
  linelast_rhs ms gattr s = Ok (terms ms gattr (lterm_at s)) /\ linelast_domain true ms gattr s = Ok (terms ms gattr (fun b => displaced (lterm_at s b))).
Proof.
  intros (L1 & L2). unfold linelast_rhs, linelast_domain. split; apply bc_loop_ok; intros b Hb; rewrite bc_at_ok by auto; cbn [obind]; unfold lterm_at;
  (destruct (nth b (le_bdr s) None); [|reflexivity]); unfold oread; rewrite nth_error_nth' with (d := BNone) by lia; cbn [obind]; destruct (nth b (le_types s) BNone); reflexivity.
Qed.
Lemma linelast_new_sized gattr : sized gattr (le_types (linelast_new gattr)) (le_bdr (linelast_new gattr)).
Proof. split; apply repeat_length. Qed.
Lemma item_listed p a : listed p -> item p a = attr_find (pb_battr p) a 0.
Proof.
  intros (_ & Pb). unfold item. destruct (Z.eqb_spec (nth 0 (pb_battr p) 0%Z) (-1)) as [Q|_]; auto. exfalso. destruct (pb_battr p) as [|x l]; [discriminate|]. cbn in Q. specialize (Pb x (or_introl eq_refl)). lia.
Qed.
Lemma linelast_new_terms gattr p s b a : listed p -> nth_error gattr b = Some a ->
  nth b (le_types s) BNone = match attr_find (pb_battr p) a 0 with Some i => nth i (pb_types p) BNone | None => nth b (le_types (linelast_new gattr)) BNone end ->
  nth b (le_bdr s) None = match attr_find (pb_battr p) a 0 with Some i => match nth i (pb_vbdr p) None with Some f => Some (CVector f) | None => nth b (le_bdr (linelast_new gattr)) None end | None => nth b (le_bdr (linelast_new gattr)) None end ->
  lterm_at s b = elastic_prescribed p a.
Proof.
  intros Lp Hb Q1 Q2. unfold lterm_at, elastic_prescribed. rewrite Q1, Q2, item_listed by auto. cbn [linelast_new le_types le_bdr]. rewrite nth_none. destruct (attr_find (pb_battr p) a 0) as [i|]; auto. destruct (nth i (pb_vbdr p) None), (nth i (pb_types p) BNone); reflexivity.
Qed.
