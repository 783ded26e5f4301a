From Coq Require Import ZArith List Bool String Ascii NArith Lia ZifyBool.
From Verif Require Import TagsModel TagsSpec.
Import ListNotations.
Open Scope string_scope.

Lemma ascii_N_inj x y : N_of_ascii x = N_of_ascii y -> x = y.
Proof. intros H. rewrite <- (ascii_N_embedding x), <- (ascii_N_embedding y), H. reflexivity. Qed.

Lemma str_lt_sto : strict_total_order str_ltb.
Proof.
  constructor.
  - induction a as [|x a IH]; simpl; auto. rewrite N.ltb_irrefl. exact IH.
  - induction a as [|x a IH]; intros [|y b] [|z c]; simpl; intros H1 H2; try discriminate; auto.
    destruct (N.ltb_spec (N_of_ascii x) (N_of_ascii y));
    destruct (N.ltb_spec (N_of_ascii y) (N_of_ascii z));
    destruct (N.ltb_spec (N_of_ascii x) (N_of_ascii z)); auto; try lia;
    destruct (N.ltb_spec (N_of_ascii y) (N_of_ascii x)); try discriminate; try lia;
    destruct (N.ltb_spec (N_of_ascii z) (N_of_ascii y)); try discriminate; try lia;
    destruct (N.ltb_spec (N_of_ascii z) (N_of_ascii x)); try lia; eauto.
  - induction a as [|x a IH]; intros [|y b]; simpl; intros H1 H2; try discriminate; auto.
    destruct (N.ltb_spec (N_of_ascii x) (N_of_ascii y)); try discriminate.
    destruct (N.ltb_spec (N_of_ascii y) (N_of_ascii x)); try discriminate.
    f_equal; [apply ascii_N_inj; lia|auto].
Qed.

Lemma str_ltb_irrefl a : str_ltb a a = false.
Proof. apply (sto_irrefl _ str_lt_sto). Qed.
Lemma str_ltb_asym a b : str_ltb a b = true -> str_ltb b a = false.
Proof.
  intros H. destruct (str_ltb b a) eqn:E; auto.
  pose proof (sto_trans _ str_lt_sto _ _ _ H E) as H1. rewrite str_ltb_irrefl in H1. discriminate.
Qed.

Lemma port_tag_lt_sto : strict_total_order port_tag_lt.
Proof.
  constructor.
  - intros [a b c d]. unfold port_tag_lt; simpl. rewrite !String.eqb_refl, Z.eqb_refl. simpl.
    rewrite Z.eqb_refl. auto.
  - intros [a1 b1 c1 d1] [a2 b2 c2 d2] [a3 b3 c3 d3]. unfold port_tag_lt; simpl. intros H1 H2.
    destruct (String.eqb_spec a1 a2) as [->|Ha12]; destruct (String.eqb_spec a2 a3) as [->|Ha23];
      cbn [negb] in *.
    + rewrite ?String.eqb_refl. cbn [negb].
      destruct (String.eqb_spec b1 b2) as [->|Hb12]; destruct (String.eqb_spec b2 b3) as [->|Hb23];
        cbn [negb] in *.
      * rewrite ?String.eqb_refl. cbn [negb].
        destruct (Z.eqb_spec c1 c2), (Z.eqb_spec c2 c3), (Z.eqb_spec c1 c3); cbn [negb] in *; try lia;
          destruct (Z.eqb_spec d1 d2), (Z.eqb_spec d2 d3), (Z.eqb_spec d1 d3); try discriminate; lia.
      * destruct (String.eqb_spec b2 b3); [contradiction|]. cbn [negb]. auto.
      * destruct (String.eqb_spec b1 b3) as [->|]; [contradiction|]. cbn [negb]. auto.
      * pose proof (sto_trans _ str_lt_sto _ _ _ H1 H2) as H3.
        destruct (String.eqb_spec b1 b3) as [->|]; cbn [negb]; auto.
        rewrite str_ltb_irrefl in H3; discriminate.
    + destruct (String.eqb_spec a2 a3); [contradiction|]. cbn [negb]. auto.
    + destruct (String.eqb_spec a1 a3) as [->|]; [contradiction|]. cbn [negb]. auto.
    + pose proof (sto_trans _ str_lt_sto _ _ _ H1 H2) as H3.
      destruct (String.eqb_spec a1 a3) as [->|]; cbn [negb]; auto.
      rewrite str_ltb_irrefl in H3; discriminate.
  - intros [a1 b1 c1 d1] [a2 b2 c2 d2]. unfold port_tag_lt; simpl. intros H1 H2.
    rewrite (String.eqb_sym a2 a1) in H2. destruct (String.eqb_spec a1 a2) as [->|Ha]; cbn [negb] in *.
    2:{ pose proof (sto_total _ str_lt_sto _ _ H1 H2); contradiction. }
    rewrite (String.eqb_sym b2 b1) in H2. destruct (String.eqb_spec b1 b2) as [->|Hb]; cbn [negb] in *.
    2:{ pose proof (sto_total _ str_lt_sto _ _ H1 H2); contradiction. }
    rewrite (Z.eqb_sym c2 c1) in H2. destruct (Z.eqb_spec c1 c2) as [->|Hc]; cbn [negb] in *; [|lia].
    rewrite (Z.eqb_sym d2 d1) in H2. destruct (Z.eqb_spec d1 d2) as [->|Hd]; [auto|lia].
Qed.

Lemma basis_tag_lt_sto : strict_total_order basis_tag_lt.
Proof.
  constructor.
  - intros [a b]. unfold basis_tag_lt; simpl. rewrite String.eqb_refl. apply str_ltb_irrefl.
  - intros [a1 b1] [a2 b2] [a3 b3]. unfold basis_tag_lt; simpl. intros H1 H2.
    destruct (String.eqb_spec a1 a2) as [->|Ha12]; destruct (String.eqb_spec a2 a3) as [->|Ha23].
    + rewrite ?String.eqb_refl. apply (sto_trans _ str_lt_sto _ _ _ H1 H2).
    + destruct (String.eqb_spec a2 a3); [contradiction|]. auto.
    + destruct (String.eqb_spec a1 a3) as [->|]; [contradiction|]. auto.
    + pose proof (sto_trans _ str_lt_sto _ _ _ H1 H2) as H3.
      destruct (String.eqb_spec a1 a3) as [->|]; auto. rewrite str_ltb_irrefl in H3; discriminate.
  - intros [a1 b1] [a2 b2]. unfold basis_tag_lt; simpl. intros H1 H2.
    rewrite (String.eqb_sym a2 a1) in H2. destruct (String.eqb_spec a1 a2) as [->|Ha].
    + f_equal. apply (sto_total _ str_lt_sto); auto.
    + pose proof (sto_total _ str_lt_sto _ _ H1 H2); contradiction.
Qed.

Lemma basis_tag_eqb_eq t1 t2 : basis_tag_eqb t1 t2 = true <-> t1 = t2.
Proof.
  destruct t1 as [a1 b1], t2 as [a2 b2]. unfold basis_tag_eqb; simpl.
  rewrite andb_true_iff, !String.eqb_eq. split; [intros [-> ->]; auto|intros H; inversion H; auto].
Qed.

Section MapLaws.
  Context {K V : Type} (lt : K -> K -> bool) (Hlt : strict_total_order lt).

  Lemma equiv_iff a b : equiv lt a b = true <-> a = b.
  Proof.
    unfold equiv. rewrite andb_true_iff, !negb_true_iff. split.
    - intros [H1 H2]. apply (sto_total _ Hlt); auto.
    - intros ->. rewrite (sto_irrefl _ Hlt). auto.
  Qed.

  Lemma map_find_set_eq (m : list (K * V)) k v : map_find lt (map_set lt m k v) k = Some v.
  Proof.
    induction m as [|[k' v'] m IH]; simpl.
    - rewrite (proj2 (equiv_iff k k) eq_refl). auto.
    - destruct (equiv lt k' k) eqn:E; simpl; rewrite E; auto.
  Qed.

  Lemma map_find_set_ne (m : list (K * V)) k v k1 : k1 <> k ->
    map_find lt (map_set lt m k v) k1 = map_find lt m k1.
  Proof.
    intros Hne. induction m as [|[k' v'] m IH]; simpl.
    - destruct (equiv lt k k1) eqn:E; auto. apply equiv_iff in E. congruence.
    - destruct (equiv lt k' k) eqn:E; simpl.
      + apply equiv_iff in E; subst k'.
        destruct (equiv lt k k1) eqn:E1; auto. apply equiv_iff in E1. congruence.
      + destruct (equiv lt k' k1); auto.
  Qed.

  Lemma map_count_iff (m : list (K * V)) k : map_count lt m k = true <-> In k (map fst m).
  Proof.
    unfold map_count. induction m as [|[k' v'] m IH]; simpl.
    - split; [discriminate|contradiction].
    - destruct (equiv lt k' k) eqn:E.
      + apply equiv_iff in E. split; auto.
      + rewrite IH. split; auto. intros [->|H]; auto.
        rewrite (proj2 (equiv_iff k k) eq_refl) in E. discriminate.
  Qed.

  Lemma map_laws (m : list (K * V)) k v :
    map_find lt (map_set lt m k v) k = Some v /\
    (forall k1, k1 <> k -> map_find lt (map_set lt m k v) k1 = map_find lt m k1) /\
    (forall k1, map_count lt m k1 = true <-> In k1 (map fst m)).
  Proof.
    split; [apply map_find_set_eq|]. split; [intros; apply map_find_set_ne; auto|].
    intros; apply map_count_iff.
  Qed.
End MapLaws.

(** ** print *)

Lemma app_underscore_inj a1 a2 b1 b2 :
  no_char "_" a1 -> no_char "_" a2 -> a1 ++ ("_" ++ b1) = a2 ++ ("_" ++ b2) -> a1 = a2 /\ b1 = b2.
Proof.
  revert a2. induction a1 as [|x a1 IH]; intros [|y a2] H1 H2 E; simpl in *.
  - inversion E; auto.
  - destruct H2 as [H2 _]. inversion E; subst; congruence.
  - destruct H1 as [H1 _]. inversion E; subst; congruence.
  - destruct H1, H2. inversion E; subst. destruct (IH a2) as [-> ->]; auto.
Qed.

Lemma no_char_app_underscore a b : no_char "_" (a ++ ("_" ++ b)) -> False.
Proof. induction a as [|x a IH]; simpl; [intros [H _]; congruence|intros [_ H]; auto]. Qed.

Lemma print_inj t1 t2 : no_char "_" (comp t1) -> no_char "_" (comp t2) ->
  print_tag t1 = print_tag t2 -> t1 = t2.
Proof.
  destruct t1 as [c1 v1], t2 as [c2 v2]; unfold print_tag; simpl. intros H1 H2 E.
  destruct (String.eqb_spec v1 "") as [->|Hv1]; destruct (String.eqb_spec v2 "") as [->|Hv2].
  - congruence.
  - exfalso. rewrite E in H1. exact (no_char_app_underscore _ _ H1).
  - exfalso. rewrite <- E in H2. exact (no_char_app_underscore _ _ H2).
  - apply app_underscore_inj in E as [-> ->]; auto.
Qed.

Lemma app_underscore_inj_r a1 a2 b1 b2 :
  no_char "_" b1 -> no_char "_" b2 -> a1 ++ ("_" ++ b1) = a2 ++ ("_" ++ b2) -> a1 = a2 /\ b1 = b2.
Proof.
  revert a2. induction a1 as [|x a1 IH]; intros [|y a2] H1 H2 E; simpl in *.
  - inversion E; auto.
  - inversion E; subst. exfalso. exact (no_char_app_underscore _ _ H1).
  - inversion E; subst. exfalso. exact (no_char_app_underscore _ _ H2).
  - inversion E; subst. destruct (IH a2) as [-> ->]; auto.
Qed.

(** The variable names the solvers use: none, or several without '_'. *)
Lemma print_inj_vars t1 t2 :
  (var t1 = "" /\ var t2 = "") \/
  (var t1 <> "" /\ var t2 <> "" /\ no_char "_" (var t1) /\ no_char "_" (var t2)) ->
  print_tag t1 = print_tag t2 -> t1 = t2.
Proof.
  destruct t1 as [c1 v1], t2 as [c2 v2]; unfold print_tag; simpl.
  intros [[-> ->]|(H1 & H2 & H3 & H4)] E; simpl in E; [congruence|].
  destruct (String.eqb_spec v1 ""); [contradiction|]. destruct (String.eqb_spec v2 ""); [contradiction|].
  apply app_underscore_inj_r in E as [-> ->]; auto.
Qed.
