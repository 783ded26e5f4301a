(** Setting parameters of predefined problems. *)
From Coq Require Import Reals List Bool Lia Arith ZArith Ascii String Lra.
From Verif Require Import Outcome ListLemmas ConfigModel CompModel CompPortProofs LaBase MbModel ProbModel ProbSpec.
Import ListNotations.
Local Open Scope string_scope.
Local Open Scope list_scope.
Local Open Scope R_scope.

(** ** The problems as constructed *)

Definition proto (n : string) : problem := match init_problem n (fun _ => 0) with Ok (p, _) => p | _ => base_problem n end.

Fixpoint nodup_s (l : list string) : bool := match l with [] => true | x :: t => negb (existsb (String.eqb x) t) && nodup_s t end.
Lemma nodup_s_ok l : nodup_s l = true -> NoDup l.
Proof.
  induction l as [|x l IH]; cbn; intros H; [constructor|]. apply andb_prop in H as (A & B). constructor; auto.
  intros Hi. apply negb_true_iff in A. enough (existsb (String.eqb x) l = true) by congruence. apply existsb_exists. exists x. split; auto. apply String.eqb_refl.
Qed.

Definition checked (keys : list string) (p : problem) : bool :=
  nodup_s keys && nodup_s (pb_ptr p) && negb (existsb (String.eqb "") (pb_ptr p)) && (List.length (pb_ptr p) =? List.length keys)%nat
  && forallb (fun j => match slookup (pb_map p) (nth j keys "") with Some i => (i =? Z.of_nat j)%Z | None => false end) (seq 0 (List.length keys))
  && forallb (fun kv => existsb (String.eqb (fst kv)) keys) (pb_map p)
  && match pb_num p with None => true | Some m => (m =? List.length keys)%nat end.

Record wf (n : string) (p : problem) : Prop := Wf {
  wf_keys : NoDup (map fst (table n));
  wf_ptr : NoDup (pb_ptr p);
  wf_real : ~ In "" (pb_ptr p);
  wf_len : List.length (pb_ptr p) = List.length (table n);
  wf_map : forall k i, slookup (pb_map p) k = Some i <-> exists j d, i = Z.of_nat j /\ nth_error (table n) j = Some (k, d);
  wf_num : pb_num p = None \/ pb_num p = Some (List.length (table n)) }.

Lemma slookup_in m k i : slookup m k = Some i -> In k (map fst m).
Proof.
  induction m as [|[k' v] m IH]; cbn; [discriminate|]. destruct (String.eqb_spec k' k); auto.
Qed.
Lemma checked_wf n p : checked (map fst (table n)) p = true -> wf n p.
Proof.
  unfold checked. rewrite map_length. rewrite !andb_true_iff. intros ((((((A & B) & C) & D) & E) & F) & G).
  apply nodup_s_ok in A. apply nodup_s_ok in B. apply Nat.eqb_eq in D.
  assert (Hj : forall j k d, nth_error (table n) j = Some (k, d) -> slookup (pb_map p) k = Some (Z.of_nat j)).
  { intros j k d H. rewrite forallb_forall in E. assert (Lt : (j < List.length (table n))%nat) by (apply nth_error_Some; congruence).
    assert (Hs : In j (seq 0 (List.length (table n)))) by (apply in_seq; lia). specialize (E j Hs).
    assert (nth j (map fst (table n)) "" = k) by (apply nth_error_nth; rewrite nth_error_map, H; reflexivity). rewrite H0 in E.
    destruct (slookup (pb_map p) k); [|discriminate]. apply Z.eqb_eq in E. congruence. }
  split; auto.
  - intros Hi. apply negb_true_iff in C. enough (existsb (String.eqb "") (pb_ptr p) = true) by congruence. apply existsb_exists. exists "". split; auto.
  - intros k i. split; [|intros (j & d & -> & H); eauto]. intros H. rewrite forallb_forall in F. pose proof (slookup_in _ _ _ H) as Hi. apply in_map_iff in Hi as ([k' v] & Ek & Hi). cbn in Ek. subst k'.
    specialize (F _ Hi). cbn in F. apply existsb_exists in F as (k' & Hk & E'). apply String.eqb_eq in E'. subst k'.
    apply In_nth_error in Hk as (j & Hk). rewrite nth_error_map in Hk. destruct (nth_error (table n) j) as [[k' d]|] eqn:Ej; [|discriminate]. injection Hk as ->.
    rewrite (Hj _ _ _ Ej) in H. injection H as <-. eauto.
  - destruct (pb_num p); auto. apply Nat.eqb_eq in G. right. congruence.
Qed.

Definition init_check (n : string) (g : gvars) : Prop :=
  match init_problem n g with
  | Ok (p, g0) => p = proto n /\ checked (map fst (table n)) p = true /\ Forall2 (fun a kd => g0 a = snd kd) (pb_ptr p) (table n)
  | _ => False
  end.
Lemma init_checks n g : In n (map fst tables) -> init_check n g.
Proof.
  intros H. cbn in H. repeat (destruct H as [<-|H]; [vm_compute; repeat constructor|]). destruct H.
Qed.
Lemma init_names n g s : init_problem n g = Ok s -> In n (map fst tables).
Proof.
  unfold init_problem. cbn [map fst tables]. intros H.
  repeat match type of H with (if String.eqb n ?s then _ else _) = _ => destruct (String.eqb_spec n s) as [->|]; [cbn; tauto|] end. discriminate.
Qed.
Lemma init_ok n g s : init_problem n g = Ok s -> fst s = proto n /\ wf n (proto n) /\ Forall2 (fun a kd => snd s a = snd kd) (pb_ptr (proto n)) (table n).
Proof.
  intros H. pose proof (init_checks n g (init_names _ _ _ H)) as C. unfold init_check in C. rewrite H in C. destruct s as [p g0]. destruct C as (E & C1 & C2).
  subst p. cbn [fst snd]. split; auto. split; auto. apply checked_wf; auto.
Qed.

(** ** Values *)

Definition vals_of (l : list (string * R)) (k : string) (d : R) : R := fold_left (fun v kv => if String.eqb (fst kv) k then snd kv else v) l d.
Lemma vals_snoc l k v k' d : vals_of (l ++ [(k, v)]) k' d = if String.eqb k k' then v else vals_of l k' d.
Proof. unfold vals_of. rewrite fold_left_app. reflexivity. Qed.

Definition holds (n : string) (p : problem) (g : gvars) (l : list (string * R)) : Prop :=
  forall j a k d, nth_error (pb_ptr p) j = Some a -> nth_error (table n) j = Some (k, d) -> g a = vals_of l k d.

(** Same problem up to boundary attributes and types. *)
Definition frame (p q : problem) : Prop := exists battr types flow, q = with_types (with_bdr p battr types (pb_sbdr p) (pb_vbdr p)) types flow.
Lemma frame_refl p : frame p p.
Proof. destruct p. eexists _, _, _. reflexivity. Qed.
Lemma frame_trans p q r : frame p q -> frame q r -> frame p r.
Proof. intros (a & b & c & ->) (a' & b' & c' & ->). exists a', b', c'. reflexivity. Qed.
Lemma frame_set p g q : set_battr p g = Ok q -> frame p q.
Proof.
  unfold set_battr. destruct (pb_kind p) eqn:K.
  - intros H. injection H as <-. apply frame_refl.
  - destruct (Rle_dec 0 _).
    + rewrite oguard_ok, oassert_ok. intros (_ & _ & H). injection H as <-. exists [(1 + Int_part (g "poisson_component::bdr_idx"))%Z], (pb_types p), (pb_flow p). destruct p; reflexivity.
    + intros H. injection H as <-. exists [(-1)%Z], (pb_types p), (pb_flow p). destruct p; reflexivity.
  - rewrite obind_ok. intros (t & _ & H). injection H as <-. exists (pb_battr p), t, (pb_flow p). destruct p; reflexivity.
  - rewrite obind_ok. intros (t & _ & H). rewrite obind_ok in H. destruct H as (f & _ & H). injection H as <-. exists (pb_battr p), t, f. destruct p; reflexivity.
Qed.
Lemma frame_wf n p q : frame p q -> wf n p -> wf n q.
Proof. intros (a & b & c & ->) [A B C D E F]. split; auto. Qed.
Lemma frame_holds n p q g l : frame p q -> holds n p g l -> holds n q g l.
Proof. intros (a & b & c & ->) H. exact H. Qed.

Lemma assign_ok n p g l i v : wf n p -> holds n p g l -> (0 <= i < Z.of_nat (List.length (table n)))%Z ->
  exists g', assign p g i v = Ok g' /\ holds n p g' (l ++ [(key_of n i, v)]).
Proof.
  intros W H Hi. unfold assign. replace (0 <=? i)%Z with true by (symmetry; apply Z.leb_le; lia). unfold oguard.
  destruct (nth_error (pb_ptr p) (Z.to_nat i)) as [a|] eqn:E; [|exfalso; apply nth_error_None in E; rewrite (wf_len _ _ W) in E; lia].
  unfold oread. rewrite E. cbn [obind].
  replace (negb (String.eqb a "")) with true. 2:{ symmetry. apply negb_true_iff. apply String.eqb_neq. intros ->. apply (wf_real _ _ W). eapply nth_error_In; eauto. }
  eexists. split; [reflexivity|]. intros j b k d Hb Hk. rewrite vals_snoc. unfold gset.
  destruct (String.eqb_spec a b) as [<-|N].
  - assert (j = Z.to_nat i). { eapply NoDup_nth_error; [apply (wf_ptr _ _ W)| |congruence]. apply nth_error_Some. congruence. }
    subst j. unfold key_of. rewrite (nth_error_nth _ _ _ Hk). cbn. rewrite String.eqb_refl. reflexivity.
  - destruct (String.eqb_spec (key_of n i) k) as [Ek|_]; [|eauto]. exfalso. apply N.
    assert (j = Z.to_nat i). { eapply NoDup_nth_error; [apply (wf_keys _ _ W)| |]. { rewrite map_length. apply nth_error_Some. congruence. }
      rewrite nth_error_map, Hk. cbn. unfold key_of in Ek. rewrite nth_error_map. destruct (nth_error (table n) (Z.to_nat i)) as [[k' d']|] eqn:E'.
      - rewrite (nth_error_nth _ _ _ E') in Ek. cbn in *. congruence.
      - apply nth_error_None in E'. lia. }
    subst j. congruence.
Qed.
Lemma assign_bad p g i v g' : assign p g i v = Ok g' -> (0 <= i < Z.of_nat (List.length (pb_ptr p)))%Z.
Proof.
  unfold assign. rewrite oguard_ok, obind_ok. intros (A & a & B & _). apply oread_ok in B. apply Z.leb_le in A.
  assert (Z.to_nat i < List.length (pb_ptr p))%nat by (apply nth_error_Some; congruence). lia.
Qed.

Lemma param_ok n p g l k v : wf n p -> holds n p g l -> In k (map fst (table n)) ->
  exists i g', slookup (pb_map p) k = Some i /\ assign p g i v = Ok g' /\ holds n p g' (l ++ [(k, v)]).
Proof.
  intros W H Hk. apply In_nth_error in Hk as (j & Hj). rewrite nth_error_map in Hj. destruct (nth_error (table n) j) as [[k' d]|] eqn:E; [|discriminate]. injection Hj as ->.
  assert (j < List.length (table n))%nat by (apply nth_error_Some; congruence).
  destruct (assign_ok n p g l (Z.of_nat j) v W H ltac:(lia)) as (g' & A & B). exists (Z.of_nat j), g'. split; [apply (wf_map _ _ W); eauto|]. split; auto.
  unfold key_of in B. rewrite Nat2Z.id, (nth_error_nth _ _ _ E) in B. exact B.
Qed.

Lemma assigns_ok n p : wf n p -> forall iv g l, holds n p g l -> (forall i v, In (i, v) iv -> (0 <= i < Z.of_nat (List.length (table n)))%Z) ->
  exists g', ofold (fun g iv => assign p g (fst iv) (snd iv)) iv g = Ok g' /\ holds n p g' (l ++ map (fun iv => (key_of n (fst iv), snd iv)) iv).
Proof.
  intros W. induction iv as [|[i v] iv IH]; intros g l H Hi.
  - exists g. rewrite app_nil_r. split; auto.
  - destruct (assign_ok n p g l i v W H (Hi i v (or_introl eq_refl))) as (g1 & A & B). cbn [ofold fst snd]. rewrite A. cbn [obind].
    destruct (IH g1 _ B) as (g' & C & D). { intros i' v' H'. apply (Hi i' v'). right. auto. } exists g'. split; auto. rewrite <- app_assoc in D. exact D.
Qed.
Lemma assigns_bad p : forall iv g g', ofold (fun g iv => assign p g (fst iv) (snd iv)) iv g = Ok g' -> forall i v, In (i, v) iv -> (0 <= i < Z.of_nat (List.length (pb_ptr p)))%Z.
Proof.
  induction iv as [|[j w] iv IH]; intros g g' H i v Hi; [destruct Hi|]. cbn [ofold fst snd] in H. apply obind_ok in H as (g1 & A & B).
  destruct Hi as [Hi|Hi]; [injection Hi as -> ->; eapply assign_bad; eauto|eauto].
Qed.
Lemma combine_keys n idx : forall vals : vec, map (fun iv : Z * R => (key_of n (fst iv), snd iv)) (combine idx vals) = combine (map (key_of n) idx) vals.
Proof. induction idx as [|i idx IH]; intros [|v vals]; cbn; auto. rewrite IH. reflexivity. Qed.

(** ** Settings *)

Lemma flow_types_ok g t : (4 <= List.length t)%nat -> exists t', flow_types g t = Ok t'.
Proof.
  intros H. destruct t as [|a [|b [|c [|d t]]]]; cbn in H; try lia. unfold flow_types.
  destruct (Rlt_dec _ _), (Rlt_dec _ _); eexists; reflexivity.
Qed.
Lemma flow_types_absorb g1 g2 t t1 : flow_types g1 t = Ok t1 -> flow_types g2 t1 = flow_types g2 t.
Proof.
  intros H. destruct t as [|a [|b [|c [|d t]]]].
  1-4: exfalso; revert H; unfold flow_types; destruct (Rlt_dec _ _), (Rlt_dec _ _); cbn; discriminate.
  unfold flow_types in *. destruct (Rlt_dec 0 (g1 _)), (Rlt_dec 0 (g1 _)); cbn in H; injection H as <-; destruct (Rlt_dec 0 (g2 _)), (Rlt_dec 0 (g2 _)); reflexivity.
Qed.

Lemma set_battr_absorb p g1 g2 q : set_battr p g1 = Ok q -> set_battr q g2 = set_battr p g2.
Proof.
  intros H. pose proof (frame_set _ _ _ H) as F. unfold set_battr in *. assert (K : pb_kind q = pb_kind p) by (destruct F as (a & b & c & ->); reflexivity). rewrite K.
  destruct (pb_kind p) eqn:Kp.
  - injection H as <-. reflexivity.
  - assert (exists a, q = with_bdr p a (pb_types p) (pb_sbdr p) (pb_vbdr p)) as (a & ->).
    { destruct (Rle_dec 0 _); [rewrite oguard_ok, oassert_ok in H; destruct H as (_ & _ & H)|]; injection H as <-; eauto. }
    reflexivity.
  - apply obind_ok in H as (t & A & H). injection H as <-. cbn [pb_types with_types pb_flow]. rewrite (flow_types_absorb _ _ _ _ A). reflexivity.
  - apply obind_ok in H as (t & A & H). apply obind_ok in H as (f & B & H). injection H as <-. cbn [pb_types with_types pb_flow].
    rewrite (flow_types_absorb _ _ _ _ A), (flow_types_absorb _ _ _ _ B). reflexivity.
Qed.

(** One setting: what is known after it. *)
Lemma apply_inv n p g l x p' g' : wf n p -> holds n p g l -> apply (p, g) x = Ok (p', g') ->
  frame p p' /\ holds n p' g' (l ++ named n x) /\ set_battr p g' = Ok p' /\ (match x with ByName k _ => In k (map fst (table n)) | ByIndex idx vals => known n x end).
Proof.
  intros W H E. destruct x as [k v|idx vals]; cbn [apply fst snd named] in *.
  - unfold set_param in E. destruct (slookup (pb_map p) k) as [i|] eqn:L; [|discriminate]. apply obind_ok in E as (g1 & A & E). apply obind_ok in E as (p1 & B & E). injection E as <- <-.
    pose proof (frame_set _ _ _ B) as F. assert (Hk : In k (map fst (table n))). { apply (wf_map _ _ W) in L as (j & d & _ & L). apply nth_error_In in L. apply (in_map fst) in L. exact L. }
    split; auto. split; [|auto]. destruct (param_ok n p g l k v W H Hk) as (i' & g'' & L' & A' & H'). replace i' with i in * by congruence. rewrite A in A'. injection A' as <-. eapply frame_holds; eauto.
  - unfold set_params in E. destruct (wf_num _ _ W) as [N|N]; rewrite N in E; [discriminate|]. rewrite !oassert_ok in E. destruct E as (L1 & L2 & E). apply Nat.leb_le in L1. apply Nat.eqb_eq in L2.
    apply obind_ok in E as (g1 & A & E). apply obind_ok in E as (p1 & B & E). injection E as <- <-. pose proof (frame_set _ _ _ B) as F. split; auto.
    assert (Hi : forall i v, In (i, v) (combine idx vals) -> (0 <= i < Z.of_nat (List.length (table n)))%Z) by (rewrite <- (wf_len _ _ W); eapply assigns_bad; eauto).
    destruct (assigns_ok n p W (combine idx vals) g l H Hi) as (g'' & A' & H'). rewrite A in A'. injection A' as <-. rewrite combine_keys in H'. split; [eapply frame_holds; eauto|]. split; auto.
    split; auto. split; auto. intros i Hx. apply In_nth_error in Hx as (j & Hj).
    assert (exists v, nth_error vals j = Some v) as (v & Hv). { destruct (nth_error vals j) eqn:Q; eauto. apply nth_error_None in Q. assert (j < List.length idx)%nat by (apply nth_error_Some; congruence). lia. }
    apply (Hi i v). clear -Hj Hv. revert j vals Hj Hv. induction idx as [|a idx IH]; intros [|j] [|b vals]; cbn; intros A B; try discriminate; [injection A as ->; injection B as ->; auto|right; eauto].
Qed.

Lemma applies_inv n : forall l p g l0 p' g', wf n p -> holds n p g l0 -> ofold apply l (p, g) = Ok (p', g') ->
  frame p p' /\ holds n p' g' (l0 ++ flat_map (named n) l) /\ (l <> [] -> set_battr p g' = Ok p') /\ (forall x, In x l -> known n x).
Proof.
  induction l as [|x l IH]; intros p g l0 p' g' W H E; cbn [ofold] in E.
  - injection E as <- <-. cbn. rewrite app_nil_r. split; [apply frame_refl|]. split; auto. split; [congruence|tauto].
  - apply obind_ok in E as ([p1 g1] & A & E). destruct (apply_inv n p g l0 x p1 g1 W H A) as (F & H1 & B & K). destruct (IH p1 g1 _ p' g' (frame_wf _ _ _ F W) H1 E) as (F' & H' & B' & K').
    split; [eapply frame_trans; eauto|]. split; [cbn [flat_map]; rewrite app_assoc; exact H'|]. split.
    + intros _. destruct l as [|y l]; [cbn in E; injection E as <- <-; exact B|]. rewrite <- (set_battr_absorb _ _ _ _ B). apply B'. discriminate.
    + intros y [<-|Hy]; auto. destruct x; auto.
Qed.

(** Everything about a configured problem. *)
Lemma configured_ok n g l p g' : configured n g l p g' ->
  In n (map fst tables) /\ wf n (proto n) /\ frame (proto n) p /\ holds n (proto n) g' (flat_map (named n) l) /\ (l <> [] -> set_battr (proto n) g' = Ok p) /\
  (l = [] -> p = proto n) /\ (forall x, In x l -> known n x).
Proof.
  intros ([p0 g0] & E & A). pose proof (init_names _ _ _ E) as Hn. destruct (init_ok _ _ _ E) as (Ep & W & F2). cbn [fst snd] in *. subst p0.
  assert (H0 : holds n (proto n) g0 []). { intros j a k d Ha Hk. clear -F2 Ha Hk. revert j Ha Hk. induction F2 as [|a' kd l1 l2 X F IH]; intros [|j] Ha Hk; cbn in *; try discriminate; [|eauto]. injection Ha as ->. injection Hk as ->. exact X. }
  destruct (applies_inv n l (proto n) g0 [] p g' W H0 A) as (F & H & B & K). split; auto. split; auto. split; auto.
  split; [destruct F as (a & b & c & ->); exact H|]. split; auto. split; auto. intros ->. cbn in A. congruence.
Qed.

Lemma assoc_nth {A} (t : list (string * A)) : NoDup (map fst t) -> forall j k d, nth_error t j = Some (k, d) -> assoc t k = Some d.
Proof.
  induction t as [|[k' d'] t IH]; intros N j k d H; [destruct j; discriminate|]. cbn in N. inversion N as [|? ? X Y]; subst. destruct j; cbn in H.
  - injection H as -> ->. cbn. rewrite String.eqb_refl. reflexivity.
  - cbn. destruct (String.eqb_spec k' k) as [->|]; [|eauto]. exfalso. apply X. apply nth_error_In in H. apply (in_map fst) in H. exact H.
Qed.
Lemma at_index n g l p g' : configured n g l p g' -> forall j a k d, nth_error (pb_ptr (proto n)) j = Some a -> nth_error (table n) j = Some (k, d) -> g' a = value n l k.
Proof.
  intros C j a k d Ha Hk. destruct (configured_ok _ _ _ _ _ C) as (_ & W & _ & H & _). rewrite (H j a k d Ha Hk). unfold value, vals_of. rewrite (assoc_nth _ (wf_keys _ _ W) _ _ _ Hk). reflexivity.
Qed.

(** ** Acceptance *)

Definition accepts (n : string) (l : list setting) : Prop :=
  n = "poisson_component" -> forall l1 l2, l = l1 ++ l2 -> value n l1 "bdr_idx" < 4.

Lemma proto_kind n : In n (map fst tables) -> pb_kind (proto n) =
  if String.eqb n "poisson_component" then KPoissonComp else if String.eqb n "flow_past_array" then KFlowArray else if String.eqb n "advdiff_flow_past_array" then KAdvDiff else KPlain.
Proof. intros H. cbn in H. repeat (destruct H as [<-|H]; [reflexivity|]). destruct H. Qed.
Lemma proto_num n : In n (map fst tables) -> pb_num (proto n) = if existsb (String.eqb n) elastic then None else Some (List.length (table n)).
Proof. intros H. cbn in H. repeat (destruct H as [<-|H]; [reflexivity|]). destruct H. Qed.
Lemma proto_types n : In n (map fst tables) -> pb_kind (proto n) <> KPlain -> pb_kind (proto n) <> KPoissonComp ->
  List.length (pb_types (proto n)) = 5%nat /\ (pb_kind (proto n) = KAdvDiff -> List.length (pb_flow (proto n)) = 5%nat).
Proof. intros H. cbn in H. repeat (destruct H as [<-|H]; [vm_compute; intuition congruence|]). destruct H. Qed.

Lemma floor_bounds b z : 0 <= b -> (Int_part b <= z)%Z <-> b < IZR (z + 1).
Proof.
  intros Hb. destruct (base_Int_part b) as (A & B). split; intros H.
  - apply IZR_le in H. rewrite plus_IZR. lra.
  - assert (IZR (Int_part b) < IZR (z + 1)) by lra. apply lt_IZR in H0. lia.
Qed.
Lemma floor_nonneg b : 0 <= b -> (0 <= Int_part b)%Z.
Proof. intros Hb. destruct (base_Int_part b) as (A & B). assert (-1 < IZR (Int_part b)) by lra. apply lt_IZR in H. lia. Qed.

Lemma set_battr_comp p g : pb_kind p = KPoissonComp -> (exists q, set_battr p g = Ok q) <-> g "poisson_component::bdr_idx" < 4.
Proof.
  intros K. unfold set_battr. rewrite K. set (b := g "poisson_component::bdr_idx"). destruct (Rle_dec 0 b) as [L|L].
  - pose proof (floor_nonneg b L) as P. split.
    + intros (q & H). rewrite oguard_ok, oassert_ok in H. destruct H as (_ & H & _). apply andb_prop in H as (_ & H). apply Z.leb_le in H. apply (floor_bounds b 3 L). lia.
    + intros H. apply (floor_bounds b 3 L) in H. replace (1 + Int_part b <=? 2147483647)%Z with true by (symmetry; apply Z.leb_le; lia).
      replace ((1 <=? 1 + Int_part b) && (1 + Int_part b <=? 4))%Z with true by (symmetry; apply andb_true_intro; split; apply Z.leb_le; lia). eexists. reflexivity.
  - split; [intros _; lra|intros _; eexists; reflexivity].
Qed.
Lemma set_battr_total n g : In n (map fst tables) -> n <> "poisson_component" -> exists q, set_battr (proto n) g = Ok q.
Proof.
  intros Hn N. pose proof (proto_types n Hn) as T. unfold set_battr. destruct (pb_kind (proto n)) eqn:K; [eauto| | |].
  - rewrite (proto_kind n Hn) in K. destruct (String.eqb_spec n "poisson_component"); [congruence|]. destruct (String.eqb n "flow_past_array"), (String.eqb n "advdiff_flow_past_array"); discriminate.
  - destruct T as (T & _); try discriminate. destruct (flow_types_ok g (pb_types (proto n)) ltac:(rewrite T; lia)) as (t & ->). eexists. reflexivity.
  - destruct T as (T & T'); try discriminate. destruct (flow_types_ok g (pb_types (proto n)) ltac:(rewrite T; lia)) as (t & ->).
    cbn [obind]. destruct (flow_types_ok g (pb_flow (proto n))) as (f & ->); [rewrite T'; auto|]. eexists. reflexivity.
Qed.

Lemma configured_snoc n g l x p g1 s : configured n g l p g1 -> apply (p, g1) x = Ok s -> configured n g (l ++ [x]) (fst s) (snd s).
Proof.
  intros (s0 & A & B) E. exists s0. split; auto. rewrite ofold_app, B. cbn [obind ofold]. rewrite E. destruct s; reflexivity.
Qed.
Lemma configured_unsnoc n g l x p g' : configured n g (l ++ [x]) p g' -> exists p1 g1, configured n g l p1 g1 /\ apply (p1, g1) x = Ok (p, g').
Proof.
  intros (s0 & A & B). rewrite ofold_app in B. apply obind_ok in B as ([p1 g1] & B & E). exists p1, g1. split; [exists s0; auto|].
  cbn [ofold] in E. apply obind_ok in E as (s & E & Q). injection Q as ->. exact E.
Qed.

Lemma battr_of_proto n g l p g' g2 : configured n g l p g' -> set_battr p g2 = set_battr (proto n) g2.
Proof.
  intros C. destruct (configured_ok _ _ _ _ _ C) as (_ & _ & _ & _ & B & Z & _). destruct l; [rewrite Z; auto|]. apply (set_battr_absorb _ _ _ _ (B ltac:(discriminate))).
Qed.

Lemma comp_ptr : nth_error (pb_ptr (proto "poisson_component")) 8 = Some "poisson_component::bdr_idx" /\ nth_error (table "poisson_component") 8 = Some ("bdr_idx", -1).
Proof. split; reflexivity. Qed.

Lemma accepted n g l : In n (map fst tables) -> (forall x, In x l -> known n x /\ (In n elastic -> exists k v, x = ByName k v)) -> accepts n l -> exists p g', configured n g l p g'.
Proof.
  intros Hn. induction l as [|x l IH] using rev_ind; intros K Ac.
  - pose proof (init_checks n g Hn) as C. unfold init_check in C. destruct (init_problem n g) as [[p g0]| |] eqn:E; try tauto. exists p, g0, (p, g0). split; auto.
  - destruct IH as (p & g1 & C). { intros y Hy. apply K. apply in_or_app. auto. } { intros En l1 l2 El. apply (Ac En l1 (l2 ++ [x])). rewrite El, app_assoc. reflexivity. }
    destruct (configured_ok _ _ _ _ _ C) as (_ & W & F & H & _). pose proof (frame_wf _ _ _ F W) as Wp. pose proof (frame_holds _ _ _ _ _ F H) as Hp.
    destruct (K x (in_elt x l [])) as (Kx & Ki).
    assert (Num : pb_num p = pb_num (proto n)) by (destruct F as (a & b & c & ->); reflexivity).
    enough (exists g2, holds n p g2 (flat_map (named n) (l ++ [x])) /\ forall q, set_battr p g2 = Ok q -> apply (p, g1) x = Ok (q, g2)) as (g2 & H2 & Ap).
    { assert (exists q, set_battr p g2 = Ok q) as (q & Q).
      { rewrite (battr_of_proto _ _ _ _ _ g2 C). destruct (String.eqb_spec n "poisson_component") as [->|N]; [|apply set_battr_total; auto].
        apply set_battr_comp; [reflexivity|]. destruct comp_ptr as (P1 & P2). assert (Pp : pb_ptr p = pb_ptr (proto "poisson_component")) by (destruct F as (a & b & c & ->); reflexivity).
        rewrite <- Pp in P1. rewrite (H2 8%nat _ _ _ P1 P2). change (value "poisson_component" (l ++ [x]) "bdr_idx" < 4). apply (Ac eq_refl _ []). rewrite app_nil_r. reflexivity. }
      exists q, g2. exact (configured_snoc _ _ _ _ _ _ _ C (Ap q Q)). }
    rewrite flat_map_app. cbn [flat_map]. rewrite app_nil_r. destruct x as [k v|idx vals]; cbn [known named] in *.
    + destruct (param_ok n p g1 _ k v Wp Hp Kx) as (i & g2 & L & A & H2). exists g2. split; auto. intros q Q. cbn [apply fst snd]. unfold set_param. rewrite L, A. cbn [obind]. rewrite Q. reflexivity.
    + destruct Kx as (L1 & L2 & L3). destruct (assigns_ok n p Wp (combine idx vals) g1 _ Hp) as (g2 & A & H2). { intros i v Hi. apply in_combine_l in Hi. auto. }
      rewrite combine_keys in H2. exists g2. split; auto. intros q Q. cbn [apply fst snd]. unfold set_params. rewrite Num, (proto_num n Hn).
      destruct (existsb (String.eqb n) elastic) eqn:Ex. { apply existsb_exists in Ex as (n' & Hn' & E'). apply String.eqb_eq in E'. subst n'. destruct (Ki Hn') as (? & ? & ?). discriminate. }
      replace (List.length idx <=? List.length (table n))%nat with true by (symmetry; apply Nat.leb_le; auto). replace (List.length idx =? List.length vals)%nat with true by (symmetry; apply Nat.eqb_eq; auto).
      cbn [oassert]. rewrite A. cbn [obind]. rewrite Q. reflexivity.
Qed.

Lemma rejected n g l p g' : configured n g l p g' -> (forall x, In x l -> known n x /\ (In n elastic -> exists k v, x = ByName k v)) /\ (l <> [] -> n = "poisson_component" -> value n l "bdr_idx" < 4).
Proof.
  intros C. destruct (configured_ok _ _ _ _ _ C) as (Hn & W & F & H & B & Z & K). split.
  - intros x Hx. split; auto. intros El. destruct x as [k v|idx vals]; eauto. exfalso. apply in_split in Hx as (l1 & l2 & ->).
    destruct C as (s0 & C1 & C2). rewrite ofold_app in C2. apply obind_ok in C2 as ([p1 g1] & C2 & C3). cbn [ofold] in C3. apply obind_ok in C3 as (s & C3 & _). cbn [apply fst snd] in C3.
    assert (C' : configured n g l1 p1 g1) by (exists s0; auto). destruct (configured_ok _ _ _ _ _ C') as (_ & _ & F' & _).
    assert (Num : pb_num p1 = pb_num (proto n)) by (destruct F' as (a & b & c & ->); reflexivity). unfold set_params in C3. rewrite Num, (proto_num n Hn) in C3.
    replace (existsb (String.eqb n) elastic) with true in C3; [discriminate|]. symmetry. apply existsb_exists. exists n. split; auto. apply String.eqb_refl.
  - intros N ->. destruct comp_ptr as (P1 & P2). rewrite <- (at_index _ _ _ _ _ C 8%nat _ _ _ P1 P2). apply (set_battr_comp (proto "poisson_component")); [reflexivity|]. eauto.
Qed.

(** By index as by name. *)
Lemma by_index_ok n g l p g1 idx vals s : configured n g l p g1 -> ~ In n elastic -> known n (ByIndex idx vals) -> idx <> [] ->
  ofold apply (map (fun kv => ByName (fst kv) (snd kv)) (named n (ByIndex idx vals))) (p, g1) = Ok s -> set_params p g1 idx vals = Ok s.
Proof.
  intros C Ne (L1 & L2 & L3) Ni E. destruct (configured_ok _ _ _ _ _ C) as (Hn & W & F & H & _). pose proof (frame_wf _ _ _ F W) as Wp.
  assert (Num : pb_num p = Some (List.length (table n))).
  { transitivity (pb_num (proto n)); [destruct F as (a & b & c & ->); reflexivity|]. rewrite (proto_num n Hn). destruct (existsb (String.eqb n) elastic) eqn:Ex; auto.
    apply existsb_exists in Ex as (n' & Hn' & E'). apply String.eqb_eq in E'. subst n'. contradiction. }
  unfold set_params. rewrite Num. replace (List.length idx <=? List.length (table n))%nat with true by (symmetry; apply Nat.leb_le; auto). replace (List.length idx =? List.length vals)%nat with true by (symmetry; apply Nat.eqb_eq; auto).
  cbn [oassert].
  enough (G : forall idx vals q g1, frame p q -> (forall g2, set_battr q g2 = set_battr p g2) -> List.length idx = List.length vals -> (forall i, In i idx -> (0 <= i < Z.of_nat (List.length (table n)))%Z) ->
    ofold apply (map (fun kv => ByName (fst kv) (snd kv)) (named n (ByIndex idx vals))) (q, g1) = Ok s ->
    ofold (fun g iv => assign p g (fst iv) (snd iv)) (combine idx vals) g1 = Ok (snd s) /\ (idx <> [] -> set_battr p (snd s) = Ok (fst s))).
  { destruct (G idx vals p g1 (frame_refl p) (fun _ => eq_refl) L1 L3 E) as (A & B). rewrite A. cbn [obind]. rewrite (B Ni). cbn [obind]. destruct s; reflexivity. }
  clear C E L1 L2 L3 Ni idx vals H g1. induction idx as [|i idx IH]; intros [|v vals] q g1 Fq Aq L Hi E; try discriminate.
  - cbn in E. injection E as <-. split; [reflexivity|congruence].
  - cbn [named map combine ofold fst snd apply] in E. unfold set_param in E.
    assert (Hj : exists d, nth_error (table n) (Z.to_nat i) = Some (key_of n i, d)).
    { specialize (Hi i (or_introl eq_refl)). destruct (nth_error (table n) (Z.to_nat i)) as [[k d]|] eqn:Q; [|apply nth_error_None in Q; lia]. unfold key_of. rewrite (nth_error_nth _ _ _ Q). eauto. }
    destruct Hj as (d & Hj). assert (Lk : slookup (pb_map q) (key_of n i) = Some i).
    { apply (wf_map _ _ (frame_wf _ _ _ Fq Wp)). exists (Z.to_nat i), d. split; auto. specialize (Hi i (or_introl eq_refl)). lia. }
    rewrite Lk in E. apply obind_ok in E as (s1 & E1 & E2). apply obind_ok in E1 as (g2 & A & E1). apply obind_ok in E1 as (q1 & B & E1). injection E1 as <-.
    assert (A' : assign p g1 i v = Ok g2) by (destruct Fq as (x & y & z & ->); exact A). cbn [combine ofold fst snd]. rewrite A'. cbn [obind].
    assert (F1 : frame p q1) by (eapply frame_trans; [exact Fq|exact (frame_set _ _ _ B)]).
    assert (Aq1 : forall g3, set_battr q1 g3 = set_battr p g3) by (intros g3; rewrite (set_battr_absorb _ _ _ _ B); auto).
    destruct (IH vals q1 g2 F1 Aq1 ltac:(cbn in L; lia) (fun i' H' => Hi i' (or_intror H')) E2) as (R1 & R2). split; auto.
    intros _. destruct idx as [|i' idx]; [|apply R2; discriminate]. destruct vals; [|discriminate]. cbn in E2. injection E2 as <-. cbn [fst snd]. rewrite <- Aq. exact B.
Qed.
