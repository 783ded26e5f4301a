(** Proofs about the HDF5 round trips. *)
From Coq Require Import ZArith List Bool String Ascii Lia DecimalString.
From Verif Require Import Outcome ListLemmas ConfigModel ConfigProofs TagsSpec TagsProofs HdfModel HdfSpec.
Import ListNotations.
Open Scope list_scope.

Local Arguments index_key : simpl never.
Local Arguments block_name : simpl never.
Local Arguments Nat.mul : simpl never.
Local Arguments Z.of_nat : simpl never.
Local Arguments Z.to_nat : simpl never.
Local Arguments Z.add : simpl never.

Section P.
  Context {D : Type}.
  Implicit Types (g : hgroup D) (name : string).

  Lemma find_name_none {X} (l : list (string * X)) k : find_name l k = None <-> ~ In k (map fst l).
  Proof.
    induction l as [|[k' x] t IH]; simpl; [tauto|].
    destruct (String.eqb_spec k' k) as [->|H]; split; intros E; try discriminate.
    - exfalso; auto.
    - intros [F|F]; [auto|]. apply IH in E; auto.
    - apply IH; auto.
  Qed.

  Lemma create_fresh g name o : fresh g name ->
    h5_create g name o = Ok {| attrs := attrs g; links := (name, o) :: links g |}.
  Proof. intros H. unfold h5_create. rewrite (proj2 (find_name_none _ _) H). reflexivity. Qed.

  Lemma create_adds g name o : adds g name o {| attrs := attrs g; links := (name, o) :: links g |}.
  Proof.
    split; [reflexivity|]. intros n x; simpl. split; intros [H|H]; auto.
    - inversion H; auto.
    - destruct H; subst; auto.
  Qed.

  Lemma open_head g name dims d a :
    h5_open_dset {| attrs := a; links := (name, Dset dims d) :: links g |} name = Ok (dims, d).
  Proof. unfold h5_open_dset; simpl. rewrite String.eqb_refl. reflexivity. Qed.

  Lemma firstn_nth_error {A} n (l : list A) i : i < n -> nth_error (firstn n l) i = nth_error l i.
  Proof.
    revert l i; induction n as [|n IH]; intros l i H; [lia|].
    destruct l; destruct i; simpl; auto. apply IH; lia.
  Qed.

  (** Arrays *)
  Definition lawful {T} (e : elem D T) : Prop := forall l, unpack _ e (pack _ e l) = Ok l.
  Lemma e_int_lawful : lawful e_int. Proof. intros l; reflexivity. Qed.
  Lemma e_dbl_lawful : lawful e_dbl. Proof. intros l; reflexivity. Qed.
  Lemma e_bool_lawful : lawful e_bool. Proof. intros l; reflexivity. Qed.

  Lemma array_rt {T} (e : elem D T) g name v : lawful e -> fresh g name ->
    exists g', write_array e g name v = Ok g' /\ adds g name (Dset [List.length v] (pack _ e v)) g' /\
               read_array e g' name = Ok v.
  Proof.
    intros He Hf. unfold write_array. rewrite create_fresh by auto.
    eexists; split; [reflexivity|]. split; [apply create_adds|].
    unfold read_array. rewrite open_head. simpl.
    destruct (Nat.ltb_spec 0 (List.length v)); [apply He|].
    destruct v; simpl in *; [auto|lia].
  Qed.

  Lemma array2d_rt {T} (e : elem D T) g name (v : array2d T) :
    lawful e -> fresh g name -> array2d_ok v -> 0 < a2_nr v -> 0 < a2_nc v ->
    exists l g', write_array2d e g name v = Ok g' /\ adds g name (Dset [a2_nr v; a2_nc v] (pack _ e l)) g' /\
      (forall i j, i < a2_nr v -> j < a2_nc v -> stored l [a2_nr v; a2_nc v] [i; j] = array2d_at v i j) /\
      exists v', read_array2d e g' name = Ok v' /\ a2_nr v' = a2_nr v /\ a2_nc v' = a2_nc v /\
        forall i j, i < a2_nr v -> j < a2_nc v -> array2d_at v' i j = array2d_at v i j.
  Proof.
    intros He Hf Hok Hr Hc. unfold array2d_ok in Hok.
    exists (firstn (a2_nr v * a2_nc v) (a2_data v)).
    unfold write_array2d.
    destruct (a2_data v) as [|x t] eqn:Ed; [simpl in Hok; nia|].
    cbn [oread nth_error obind]. rewrite (proj2 (Nat.leb_le _ _) Hok). cbn [oguard].
    rewrite create_fresh by auto.
    eexists; split; [reflexivity|]. split; [apply create_adds|].
    split.
    - intros i j Hi Hj. unfold stored, flat, array2d_at. cbn [fold_right].
      rewrite Nat.mul_1_r, Nat.add_0_r. rewrite Ed.
      rewrite Nat.mul_1_r. apply firstn_nth_error. nia.
    - unfold read_array2d. rewrite open_head. cbn [obind].
      destruct (Nat.eqb_spec (a2_nr v) 0); [lia|]. destruct (Nat.eqb_spec (a2_nc v) 0); [lia|]. cbn [orb].
      rewrite He. cbn [obind]. eexists; split; [reflexivity|]. cbn [a2_nr a2_nc]. split; [auto|]. split; [auto|].
      intros i j Hi Hj. unfold array2d_at. cbn [a2_nc a2_data]. rewrite Ed. apply firstn_nth_error. nia.
  Qed.

  Lemma array2d_empty {T} (e : elem D T) g name (v : array2d T) : a2_data v = [] ->
    write_array2d e g name v = UB.
  Proof. intros H. unfold write_array2d. rewrite H. reflexivity. Qed.

  Lemma vector_rt g name (v : list D) : fresh g name -> v <> [] ->
    exists g', write_vector g name v = Ok g' /\ adds g name (Dset [List.length v] (HDbl v)) g' /\
               read_vector g' name = Ok v.
  Proof.
    intros Hf Hv. unfold write_vector. destruct v as [|x t]; [congruence|].
    cbn [List.length Nat.ltb Nat.leb oassert]. rewrite create_fresh by auto.
    eexists; split; [reflexivity|]. split; [apply create_adds|].
    unfold read_vector. rewrite open_head. reflexivity.
  Qed.

  Lemma dense_rt g name (m : dense D) : fresh g name -> dense_ok m -> 0 < dm_h m -> 0 < dm_w m ->
    exists l g', write_dense g name m = Ok g' /\ adds g name (Dset [dm_w m; dm_h m] (HDbl l)) g' /\
      (forall i j, i < dm_h m -> j < dm_w m -> stored l [dm_w m; dm_h m] [j; i] = dense_at m i j) /\
      exists m', read_dense g' name = Ok m' /\ dm_h m' = dm_h m /\ dm_w m' = dm_w m /\
        forall i j, i < dm_h m -> j < dm_w m -> dense_at m' i j = dense_at m i j.
  Proof.
    intros Hf Hok Hh Hw. unfold dense_ok in Hok.
    exists (firstn (dm_w m * dm_h m) (dm_data m)).
    unfold write_dense. rewrite Nat.mul_comm in Hok.
    destruct (dm_data m) as [|x t] eqn:Ed; [simpl in Hok; nia|].
    cbn [oread nth_error obind]. rewrite (proj2 (Nat.leb_le _ _) Hok). cbn [oguard].
    rewrite create_fresh by auto.
    eexists; split; [reflexivity|]. split; [apply create_adds|].
    split.
    - intros i j Hi Hj. unfold stored, flat, dense_at. cbn [fold_right].
      rewrite !Nat.mul_1_r, Nat.add_0_r, Ed. rewrite (Nat.add_comm i). apply firstn_nth_error. nia.
    - unfold read_dense. rewrite open_head. cbn [obind].
      rewrite (proj2 (Nat.ltb_lt _ _)) by nia. cbn [oguard unpack e_dbl obind].
      eexists; split; [reflexivity|]. cbn [dm_h dm_w]. split; [auto|]. split; [auto|].
      intros i j Hi Hj. unfold dense_at. cbn [dm_h dm_data]. rewrite Ed. apply firstn_nth_error. nia.
  Qed.

  Lemma dense_empty g name (m : dense D) : dm_data m = [] -> write_dense g name m = UB.
  Proof. intros H. unfold write_dense. rewrite H. reflexivity. Qed.

  Lemma tensor_rt g name (t : tensor D) : fresh g name -> tensor_ok t -> 0 < dt_i t -> 0 < dt_j t -> 0 < dt_k t ->
    exists l g', write_tensor g name t = Ok g' /\ adds g name (Dset [dt_k t; dt_j t; dt_i t] (HDbl l)) g' /\
      (forall i j k, i < dt_i t -> j < dt_j t -> k < dt_k t ->
         stored l [dt_k t; dt_j t; dt_i t] [k; j; i] = tensor_at t i j k) /\
      exists t', read_tensor g' name = Ok t' /\ dt_i t' = dt_i t /\ dt_j t' = dt_j t /\ dt_k t' = dt_k t /\
        forall i j k, i < dt_i t -> j < dt_j t -> k < dt_k t -> tensor_at t' i j k = tensor_at t i j k.
  Proof.
    intros Hf Hok Hi0 Hj0 Hk0. unfold tensor_ok in Hok.
    exists (firstn (dt_k t * dt_j t * dt_i t) (dt_data t)).
    unfold write_tensor.
    replace (dt_i t * dt_j t * dt_k t) with (dt_k t * dt_j t * dt_i t) in Hok by lia.
    assert (Hpos : 0 < dt_k t * dt_j t * dt_i t) by (repeat apply Nat.mul_pos_pos; auto).
    destruct (dt_data t) as [|x tl] eqn:Ed; [simpl in Hok; lia|].
    cbn [oread nth_error obind]. rewrite (proj2 (Nat.leb_le _ _) Hok). cbn [oguard].
    rewrite create_fresh by auto.
    assert (Hb : forall i j k, i < dt_i t -> j < dt_j t -> k < dt_k t ->
               i + dt_i t * (j + dt_j t * k) < dt_k t * dt_j t * dt_i t).
    { intros i j k Hi Hj Hk.
      assert (j + dt_j t * k + 1 <= dt_k t * dt_j t) by nia. nia. }
    eexists; split; [reflexivity|]. split; [apply create_adds|].
    split.
    - intros i j k Hi Hj Hk. unfold stored, flat, tensor_at. cbn [fold_right].
      rewrite !Nat.mul_1_r, Nat.add_0_r, Ed.
      replace (k * (dt_j t * dt_i t) + (j * dt_i t + i)) with (i + dt_i t * (j + dt_j t * k)) by lia.
      apply firstn_nth_error. auto.
    - unfold read_tensor. rewrite open_head. cbn [obind].
      rewrite (proj2 (Nat.ltb_lt _ _)) by auto. cbn [oguard unpack e_dbl obind].
      eexists; split; [reflexivity|]. cbn [dt_i dt_j dt_k]. repeat (split; [reflexivity|]).
      intros i j k Hi Hj Hk. unfold tensor_at. cbn [dt_i dt_j dt_data]. rewrite Ed. apply firstn_nth_error. auto.
  Qed.
  Lemma tensor_empty g name (t : tensor D) : dt_data t = [] -> write_tensor g name t = UB.
  Proof. intros H. unfold write_tensor. rewrite H. reflexivity. Qed.

  (** Sparse matrices *)
  Lemma csr_mono_le (s : sparse D) : csr_ok s -> forall i j, i <= j -> j <= sp_h s ->
    (nth i (sp_I s) 0 <= nth j (sp_I s) 0)%Z.
  Proof.
    intros H i j Hij. induction Hij as [|j Hij IH]; intros Hj; [lia|].
    specialize (IH ltac:(lia)). pose proof (csr_mono _ H j ltac:(lia)).
    replace (j + 1) with (S j) in * by lia. lia.
  Qed.
  Lemma csr_nonneg (s : sparse D) i : csr_ok s -> i <= sp_h s -> (0 <= nth i (sp_I s) 0)%Z.
  Proof.
    intros H Hi. pose proof (csr_zero _ H) as E. pose proof (csr_mono_le _ H 0 i ltac:(lia) Hi). lia.
  Qed.

  Lemma nnz_ok (s : sparse D) : csr_ok s -> sp_nnz s = Ok (entries s).
  Proof.
    intros H. unfold sp_nnz, oread, entries.
    rewrite (nth_error_nth' _ 0%Z); auto. rewrite (csr_len _ H). lia.
  Qed.

  Lemma take_ref_ok {A} (l : list A) z : (0 <= z <= Z.of_nat (List.length l))%Z ->
    take_ref l z = Ok (firstn (Z.to_nat z) l).
  Proof.
    intros H. unfold take_ref. rewrite (proj2 (Z.leb_le _ _)), (proj2 (Nat.leb_le _ _)) by lia. reflexivity.
  Qed.

  Lemma take_all_I (s : sparse D) : csr_ok s -> take_ref (sp_I s) (Z.of_nat (sp_h s) + 1) = Ok (sp_I s).
  Proof.
    intros H. pose proof (csr_len _ H). rewrite take_ref_ok by lia. f_equal. apply firstn_all2. lia.
  Qed.

  Definition trimmed (s : sparse D) : sparse D :=
    {| sp_h := sp_h s; sp_w := sp_w s; sp_I := sp_I s;
       sp_J := firstn (Z.to_nat (entries s)) (sp_J s); sp_A := firstn (Z.to_nat (entries s)) (sp_A s);
       sp_fin := Z.ltb 0 (entries s) |}.

  Lemma firstn_firstn_skipn {A} a k n (l : list A) : a + k <= n ->
    firstn k (skipn a (firstn n l)) = firstn k (skipn a l).
  Proof.
    revert n l; induction a as [|a IH]; intros n l H.
    - simpl. rewrite firstn_firstn. f_equal. lia.
    - destruct n; [lia|]. destruct l; simpl; auto. apply IH. lia.
  Qed.

  Lemma combine_firstn2 {A B} n (l1 : list A) (l2 : list B) :
    combine (firstn n l1) (firstn n l2) = firstn n (combine l1 l2).
  Proof. revert l1 l2; induction n; intros [|] [|]; simpl; auto. f_equal; auto. Qed.

  Lemma nth_firstn {A} n (l : list A) k d : k < n -> nth k (firstn n l) d = nth k l d.
  Proof. revert l k; induction n; intros [|] [|]; simpl; intros; auto; try lia. apply IHn; lia. Qed.

  Lemma trimmed_same (s : sparse D) : csr_ok s -> same_matrix s (trimmed s).
  Proof.
    intros H. split; [reflexivity|]. split; [reflexivity|]. intros i Hi. unfold row. cbn.
    rewrite combine_firstn2. apply firstn_firstn_skipn.
    pose proof (csr_mono_le _ H i (i + 1) ltac:(lia) ltac:(lia)).
    pose proof (csr_mono_le _ H (i + 1) (sp_h s) ltac:(lia) ltac:(lia)).
    pose proof (csr_nonneg _ i H ltac:(lia)). unfold entries. lia.
  Qed.

  Lemma trimmed_ok (s : sparse D) : csr_ok s -> csr_ok (trimmed s).
  Proof.
    intros H. pose proof (csr_nonneg _ (sp_h s) H ltac:(lia)).
    pose proof (csr_J _ H); pose proof (csr_A _ H).
    constructor; cbn.
    - apply H.
    - apply H.
    - apply H.
    - rewrite firstn_length. unfold entries. lia.
    - rewrite firstn_length. unfold entries. lia.
    - intros k Hk. rewrite nth_firstn by (unfold entries; lia). apply (csr_col _ H). auto.
  Qed.

  Definition sparse_group (s : sparse D) : hobj D :=
    Grp [] [("size", Dset [2] (HInt [Z.of_nat (sp_h s); Z.of_nat (sp_w s)]));
            ("data", Dset [List.length (sp_A (trimmed s))] (HDbl (sp_A (trimmed s))));
            ("J", Dset [List.length (sp_J (trimmed s))] (HInt (sp_J (trimmed s))));
            ("I", Dset [List.length (sp_I s)] (HInt (sp_I s)))]%string.

  Lemma write_sparse_eq g name (s : sparse D) : csr_ok s -> sp_fin s = true ->
    write_sparse g name s = h5_create g name (sparse_group s).
  Proof.
    intros H Hf. unfold write_sparse. rewrite Hf. cbn [oassert].
    rewrite nnz_ok by auto. cbn [obind]. rewrite take_all_I by auto. cbn [obind].
    pose proof (csr_nonneg _ (sp_h s) H ltac:(lia)). pose proof (csr_J _ H); pose proof (csr_A _ H).
    unfold entries. rewrite !take_ref_ok by lia. cbn [obind].
    reflexivity.
  Qed.

  Lemma read_dset {T} (e : elem D T) g name (l : list T) : lawful e ->
    find_name (links g) name = Some (Dset [List.length l] (pack _ e l)) -> read_array e g name = Ok l.
  Proof.
    intros He H. unfold read_array, h5_open_dset. rewrite H. cbn [obind].
    destruct (Nat.ltb_spec 0 (List.length l)); [apply He|]. destruct l; simpl in *; [auto|lia].
  Qed.

  Lemma read_sparse_eq g name (s : sparse D) : csr_ok s -> 0 < sp_h s -> 0 < sp_w s ->
    find_name (links g) name = Some (sparse_group s) -> read_sparse g name = Ok (trimmed s).
  Proof.
    intros H Hh Hw Hg. unfold read_sparse, h5_open_group. rewrite Hg. unfold sparse_group. cbn [obind].
    pose proof (csr_nonneg _ (sp_h s) H ltac:(lia)). pose proof (csr_J _ H); pose proof (csr_A _ H).
    rewrite (read_dset e_int _ _ (sp_I s)) by (auto using e_int_lawful). cbn [obind].
    rewrite (read_dset e_int _ _ (sp_J (trimmed s))) by (auto using e_int_lawful). cbn [obind].
    rewrite (read_dset e_int _ _ [Z.of_nat (sp_h s); Z.of_nat (sp_w s)]) by (auto using e_int_lawful). cbn [obind].
    rewrite (read_dset e_dbl _ _ (sp_A (trimmed s))) by (auto using e_dbl_lawful). cbn [obind].
    cbn [List.length Nat.eqb oassert zread]. unfold zread at 1 2. cbn [Z.ltb Z.compare Z.to_nat oread nth_error].
    change (Z.to_nat 0) with 0. change (Z.to_nat 1) with 1. cbn [oread nth_error obind].
    rewrite !(proj2 (Z.ltb_lt _ _)) by lia. cbn [andb oassert].
    rewrite (proj2 (Z.eqb_eq _ _)) by (rewrite (csr_len _ H); lia). cbn [oassert].
    unfold zread. rewrite (proj2 (Z.ltb_ge _ _)) by lia. rewrite Nat2Z.id.
    pose proof (nnz_ok s H) as Hn. unfold sp_nnz in Hn. rewrite Hn. cbn [obind].
    assert (E1 : Z.of_nat (List.length (sp_J (trimmed s))) = entries s).
    { cbn. rewrite firstn_length. unfold entries. lia. }
    assert (E2 : Z.of_nat (List.length (sp_A (trimmed s))) = entries s).
    { cbn. rewrite firstn_length. unfold entries. lia. }
    assert (E3 : Nat.ltb 0 (List.length (sp_A (trimmed s))) = Z.ltb 0 (entries s)).
    { destruct (Nat.ltb_spec 0 (List.length (sp_A (trimmed s)))), (Z.ltb_spec 0 (entries s)); auto; lia. }
    rewrite E1, E2, E3, Z.eqb_refl. cbn [oassert]. rewrite !Nat2Z.id. reflexivity.
  Qed.

  Lemma sparse_rt g name (s : sparse D) :
    fresh g name -> csr_ok s -> sp_fin s = true -> 0 < sp_h s -> 0 < sp_w s ->
    exists o g', write_sparse g name s = Ok g' /\ adds g name o g' /\
      exists s', read_sparse g' name = Ok s' /\ same_matrix s s' /\ csr_ok s' /\
                 (sp_fin s' = true <-> (0 < entries s)%Z).
  Proof.
    intros Hf H Hfin Hh Hw. exists (sparse_group s). rewrite write_sparse_eq, create_fresh by auto.
    eexists; split; [reflexivity|]. split; [apply create_adds|].
    exists (trimmed s). split; [|split; [apply trimmed_same; auto|split; [apply trimmed_ok; auto|]]].
    - apply read_sparse_eq; auto. cbn. rewrite String.eqb_refl. reflexivity.
    - cbn. apply Z.ltb_lt.
  Qed.

  Lemma entries_pos_size (s : sparse D) : csr_ok s -> entries s <> 0%Z -> 0 < sp_h s /\ 0 < sp_w s.
  Proof.
    intros H Hn. pose proof (csr_nonneg _ (sp_h s) H ltac:(lia)). unfold entries in *. split.
    - destruct (sp_h s) eqn:E; [|lia]. exfalso. apply Hn. apply (csr_zero _ H).
    - pose proof (csr_col _ H 0 ltac:(lia)). lia.
  Qed.
End P.

(** Block names *)
Lemma no_underscore_uint u : no_char "_"%char (NilEmpty.string_of_uint u).
Proof. induction u; simpl; auto; split; auto; discriminate. Qed.
Lemma index_key_no_underscore n : no_char "_"%char (index_key n).
Proof. apply no_underscore_uint. Qed.

Lemma block_name_inj i j i' j' : block_name i j = block_name i' j' -> i = i' /\ j = j'.
Proof.
  unfold block_name. intros H. simpl in H. injection H as H.
  destruct (app_underscore_inj _ _ _ _ (index_key_no_underscore i) (index_key_no_underscore i') H) as [E1 E2].
  split; apply index_key_inj; auto.
Qed.

(** Row-major enumeration of index pairs *)
Lemma pairs_aux_nth a nr nc i j : i < nr -> j < nc ->
  nth_error (list_prod (seq a nr) (seq 0 nc)) (i * nc + j) = Some (a + i, j).
Proof.
  revert a i; induction nr as [|nr IH]; intros a i Hi Hj; [lia|].
  cbn [seq list_prod]. destruct i as [|i].
  - rewrite Nat.mul_0_l, Nat.add_0_l. rewrite nth_error_app1 by (rewrite map_length, seq_length; auto).
    rewrite nth_error_map_seq by auto. rewrite Nat.add_0_r. reflexivity.
  - rewrite nth_error_app2 by (rewrite map_length, seq_length; nia).
    rewrite map_length, seq_length. replace (S i * nc + j - nc) with (i * nc + j) by nia.
    rewrite IH by lia. f_equal. f_equal. lia.
Qed.
Lemma pairs_nth nr nc i j : i < nr -> j < nc -> nth_error (pairs nr nc) (i * nc + j) = Some (i, j).
Proof. intros. unfold pairs. rewrite pairs_aux_nth; auto. Qed.
Lemma pairs_length nr nc : List.length (pairs nr nc) = nr * nc.
Proof. unfold pairs. rewrite prod_length, !seq_length. reflexivity. Qed.
Lemma pairs_in nr nc p : In p (pairs nr nc) <-> fst p < nr /\ snd p < nc.
Proof.
  destruct p as [i j]. unfold pairs. rewrite in_prod_iff, !in_seq. simpl. lia.
Qed.
Lemma pairs_NoDup nr nc : NoDup (pairs nr nc).
Proof.
  apply NoDup_nth_error. intros k1 k2 H1 E. rewrite pairs_length in H1.
  assert (Hn : 0 < nc) by nia. revert Hn H1 E. generalize nc as n. intros n Hn H1 E.
  assert (Hk : forall k, k < nr * n -> nth_error (pairs nr n) k = Some (k / n, k mod n)).
  { intros k Hk. rewrite (Nat.div_mod k n) at 1 by (lia). rewrite (Nat.mul_comm n).
    apply pairs_nth.
    - apply Nat.div_lt_upper_bound; lia.
    - apply Nat.mod_upper_bound; lia. }
  rewrite Hk in E by auto.
  assert (H2 : k2 < nr * n).
  { rewrite <- pairs_length. apply nth_error_Some. congruence. }
  rewrite Hk in E by auto. injection E as E1 E2.
  rewrite (Nat.div_mod k1 n), (Nat.div_mod k2 n) by (lia). rewrite E1, E2. reflexivity.
Qed.

Lemma omap_spec {A B} (f : A -> outcome B) (P : A -> B -> Prop) l :
  (forall a, In a l -> exists b, f a = Ok b /\ P a b) ->
  exists bs, omap f l = Ok bs /\ Forall2 P l bs.
Proof.
  induction l as [|a l IH]; intros H; simpl; [eauto|].
  destruct (H a) as (b & E & Hp); [left; auto|]. rewrite E. simpl.
  destruct IH as (bs & E' & Hb); [intros; apply H; right; auto|]. rewrite E'. simpl. eauto.
Qed.
Lemma Forall2_nth {A B} (P : A -> B -> Prop) l l' i a : Forall2 P l l' -> nth_error l i = Some a ->
  exists b, nth_error l' i = Some b /\ P a b.
Proof.
  intros H; revert i; induction H; intros [|i] E; simpl in *; try discriminate; eauto.
  injection E as ->; eauto.
Qed.

Section Blocks.
  Context {D : Type}.
  Implicit Types (g : hgroup D) (bl : list (option (sparse D))).

  Definition is_zero (b : option (sparse D)) : bool :=
    match b with None => true | Some s => Z.eqb (entries s) 0 end.

  Lemma zero_blocks_eq bl : Forall block_ok bl -> omap zero_block bl = Ok (map is_zero bl).
  Proof.
    induction 1 as [|b bl Hb _ IH]; [reflexivity|]. cbn [omap map].
    assert (E : zero_block b = Ok (is_zero b)).
    { destruct b as [s|]; [|reflexivity]. destruct Hb. cbn. rewrite nnz_ok by auto. reflexivity. }
    rewrite E. cbn [obind]. rewrite IH. reflexivity.
  Qed.

  Notation bn p := (block_name (fst p) (snd p)).

  Lemma write_blocks_loop nc bl L : Forall block_ok bl -> forall g,
    NoDup L -> (forall p, In p L -> find_name (links g) (bn p) = None) ->
    (forall p, In p L -> fst p * nc + snd p < List.length bl) ->
    exists g', ofold (fun g '(i, j) =>
             let* z := oread (map is_zero bl) (i * nc + j) in
             if z then Ok g
             else let* b := oread bl (i * nc + j) in
                  match b with
                  | None => UB
                  | Some s => write_sparse g (block_name i j) s
                  end) L g = Ok g' /\
      attrs g' = attrs g /\
      (forall n, (forall p, In p L -> n <> bn p) -> find_name (links g') n = find_name (links g) n) /\
      (forall p s, In p L -> nth_error bl (fst p * nc + snd p) = Some (Some s) -> entries s <> 0%Z ->
         find_name (links g') (bn p) = Some (sparse_group s)).
  Proof.
    intros Hok. induction L as [|[i j] L IH]; intros g Hnd Hfree Hlen.
    - simpl. exists g. repeat split; auto. simpl; tauto.
    - cbn [ofold]. inversion Hnd as [|? ? Hni Hnd']; subst.
      assert (Hl : i * nc + j < List.length bl) by (apply (Hlen (i, j)); left; auto).
      destruct (nth_error bl (i * nc + j)) as [b|] eqn:Eb; [|apply nth_error_None in Eb; lia].
      unfold oread at 1. rewrite nth_error_map, Eb. cbn [option_map obind].
      assert (Hb : block_ok b) by (rewrite Forall_forall in Hok; apply Hok; eapply nth_error_In; eauto).
      assert (Hbn : forall p, In p L -> bn p <> block_name i j).
      { intros [i' j'] Hp E. cbn [fst snd] in E. apply block_name_inj in E as [-> ->]. auto. }
      destruct (is_zero b) eqn:Ez.
      + cbn [obind].
        destruct (IH g) as (g' & E & Ha & Hother & Hfind); auto.
        { intros; apply Hfree; right; auto. } { intros; apply Hlen; right; auto. }
        exists g'. split; [exact E|]. split; [exact Ha|]. split.
        * intros n Hn. apply Hother. intros; apply Hn; right; auto.
        * intros p s [<-|Hp] Es Hne; [|eauto]. cbn [fst snd] in Es. rewrite Eb in Es. injection Es as ->.
          cbn in Ez. apply Z.eqb_eq in Ez. congruence.
      + destruct b as [s|]; [|discriminate]. destruct Hb as [Hc Hf]. unfold oread at 1. rewrite Eb. cbn [obind].
        rewrite write_sparse_eq by auto. rewrite create_fresh.
        2:{ unfold fresh. apply find_name_none. apply (Hfree (i, j)). left; auto. }
        cbn [obind].
        edestruct (IH {| attrs := attrs g; links := (block_name i j, sparse_group s) :: links g |})
          as (g' & E & Ha & Hother & Hfind); auto.
        { intros p Hp. cbn [links find_name]. destruct (String.eqb_spec (block_name i j) (bn p)) as [E|_].
          - exfalso. apply (Hbn p Hp). auto.
          - apply Hfree. right; auto. }
        { intros; apply Hlen; right; auto. }
        exists g'. split; [exact E|]. split; [exact Ha|]. split.
        * intros n Hn. rewrite Hother by (intros; apply Hn; right; auto). cbn [links find_name].
          destruct (String.eqb_spec (block_name i j) n) as [F|_]; auto.
          exfalso. apply (Hn (i, j)); [left|]; auto.
        * intros p s' [<-|Hp] Es Hne; [|eauto]. cbn [fst snd] in *. rewrite Eb in Es. injection Es as <-.
          rewrite Hother.
          -- cbn [links find_name]. rewrite String.eqb_refl. reflexivity.
          -- intros p Hp F. apply (Hbn p Hp). auto.
  Qed.

  Lemma read_blocks_ok nr nc bl g : Forall block_ok bl -> List.length bl = nr * nc ->
    (forall i j s, i < nr -> j < nc -> nth_error bl (i * nc + j) = Some (Some s) -> entries s <> 0%Z ->
       find_name (links g) (block_name i j) = Some (sparse_group s)) ->
    exists bl', read_blocks nr nc (map is_zero bl) g = Ok bl' /\
      forall i j, i < nr -> j < nc -> exists b b', block_at nc bl i j = Some b /\ block_at nc bl' i j = Some b' /\
        same_block b b'.
  Proof.
    intros Hok Hlen Hfind. unfold read_blocks.
    destruct (omap_spec (fun '(i, j) => let* z := oread (map is_zero bl) (i * nc + j) in
                           if z then Ok None else let* s := read_sparse g (block_name i j) in Ok (Some s))
                (fun p b' => forall b, nth_error bl (fst p * nc + snd p) = Some b -> same_block b b') (pairs nr nc))
      as (bs & E & HF).
    { intros [i j] Hp. apply pairs_in in Hp as [Hi Hj]. cbn [fst snd] in *.
      destruct (nth_error bl (i * nc + j)) as [b|] eqn:Eb; [|apply nth_error_None in Eb; nia].
      unfold oread. rewrite nth_error_map, Eb. cbn [option_map obind].
      assert (Hb : block_ok b) by (rewrite Forall_forall in Hok; apply Hok; eapply nth_error_In; eauto).
      destruct (is_zero b) eqn:Ez.
      - exists None. split; auto. intros b0 F. injection F as <-.
        destruct b as [s|]; cbn in *; [rewrite Ez|]; auto.
      - destruct b as [s|]; [|discriminate]. cbn in Ez. destruct Hb as [Hc Hf].
        apply Z.eqb_neq in Ez. destruct (entries_pos_size s Hc Ez).
        rewrite (read_sparse_eq g _ s); auto. cbn [obind].
        eexists; split; [reflexivity|]. intros b0 F. injection F as <-. cbn.
        rewrite (proj2 (Z.eqb_neq _ _) Ez). exists (trimmed s). split; auto. split; [apply trimmed_same; auto|].
        split; [apply trimmed_ok; auto|]. cbn. apply Z.ltb_lt.
        pose proof (csr_nonneg s (sp_h s) Hc ltac:(lia)). unfold entries in *. lia. }
    exists bs. split; [exact E|]. intros i j Hi Hj.
    destruct (Forall2_nth _ _ _ _ _ HF (pairs_nth nr nc i j Hi Hj)) as (b' & Eb' & Hs). cbn [fst snd] in Hs.
    destruct (nth_error bl (i * nc + j)) as [b|] eqn:Eb; [|apply nth_error_None in Eb; nia].
    exists b, b'. unfold block_at. split; [exact Eb|]. split; [exact Eb'|]. apply Hs; auto.
  Qed.

  Lemma map_zero_head nr nc bl : List.length bl = nr * nc -> 0 < nr -> 0 < nc ->
    exists z, nth_error (map is_zero bl) 0 = Some z.
  Proof.
    intros H Hr Hc. destruct bl; [simpl in H; nia|]. simpl; eauto.
  Qed.

  Lemma mblocks_rt g name (v : mblocks D) :
    fresh g name -> List.length (mb_blocks v) = mb_nr v * mb_nc v -> 0 < mb_nr v -> 0 < mb_nc v ->
    Forall block_ok (mb_blocks v) ->
    exists o g', write_mblocks g name v = Ok g' /\ adds g name o g' /\
      exists v', read_mblocks g' name = Ok v' /\ mb_nr v' = mb_nr v /\ mb_nc v' = mb_nc v /\
        forall i j, i < mb_nr v -> j < mb_nc v ->
          exists b b', block_at (mb_nc v) (mb_blocks v) i j = Some b /\
                       block_at (mb_nc v) (mb_blocks v') i j = Some b' /\ same_block b b'.
  Proof.
    intros Hf Hlen Hr Hc Hok. unfold write_mblocks.
    cbn [h5_create_attr empty_group attrs find_name links obind String.eqb Ascii.eqb Bool.eqb].
    change ("nrows" =? "ncols")%string with false. cbn iota beta.
    rewrite zero_blocks_eq by auto. cbn [obind].
    unfold write_array2d at 1. cbn [a2_nr a2_nc a2_data].
    destruct (map_zero_head _ _ _ Hlen Hr Hc) as (z & Ez).
    unfold oread at 1. rewrite Ez. cbn [obind].
    rewrite (proj2 (Nat.leb_le _ _)) by (rewrite map_length; lia). cbn [oguard].
    rewrite create_fresh by (intros []).
    cbn [obind]. unfold write_blocks.
    edestruct (write_blocks_loop (mb_nc v) (mb_blocks v) (pairs (mb_nr v) (mb_nc v)) Hok)
      as (grp & E & Ha & Hother & Hfind).
    { apply pairs_NoDup. }
    2:{ intros p Hp. apply pairs_in in Hp as [? ?]. rewrite Hlen. nia. }
    2:{ rewrite E. cbn [obind]. rewrite create_fresh by auto.
        eexists; eexists; split; [reflexivity|]. split; [apply create_adds|].
        unfold read_mblocks, h5_open_group. cbn [links find_name]. rewrite String.eqb_refl. cbn [obind].
        unfold h5_read_attr. cbn [attrs]. rewrite Ha. cbn [attrs find_name].
        change ("nrows" =? "nrows")%string with true. change ("ncols" =? "nrows")%string with false.
        change ("ncols" =? "ncols")%string with true. cbn iota. cbn [obind].
        unfold read_array2d, h5_open_dset. cbn [links].
        rewrite (Hother "zero_blocks"%string).
        2:{ intros [i j] _ F. discriminate F. }
        cbn [links find_name]. rewrite String.eqb_refl. cbn [obind].
        rewrite (proj2 (Nat.eqb_neq _ _)), (proj2 (Nat.eqb_neq _ _)) by lia. cbn [orb unpack pack e_bool obind a2_nr a2_nc a2_data].
        rewrite !Z.eqb_refl. cbn [oassert]. rewrite !Nat2Z.id.
        rewrite firstn_all2 by (rewrite map_length; lia).
        edestruct (read_blocks_ok (mb_nr v) (mb_nc v) (mb_blocks v) {| attrs := attrs grp; links := links grp |})
          as (bl' & E' & Hsame); auto.
        { intros i j s Hi Hj Es Hne. cbn [links]. apply (Hfind (i, j) s); auto. apply pairs_in; auto. }
        rewrite Ha in E'. cbn [attrs] in E'. rewrite E'. cbn [obind].
        eexists; split; [reflexivity|]. cbn. auto. }
    { intros [i j] _. reflexivity. }
  Qed.

  Lemma zlist_eqb_refl l : zlist_eqb l l = true.
  Proof. induction l; simpl; auto. rewrite Z.eqb_refl; auto. Qed.
  Lemma zlist_eqb_eq a b : zlist_eqb a b = true <-> a = b.
  Proof.
    revert b; induction a as [|x a IH]; intros [|y b]; simpl; split; intros H; try discriminate; auto.
    - apply andb_true_iff in H as [H1 H2]. apply Z.eqb_eq in H1. apply IH in H2. congruence.
    - injection H as -> ->. rewrite Z.eqb_refl. apply IH; auto.
  Qed.

  Definition bm_written (v : bmatrix D) (grp : hgroup D) : Prop :=
    (forall i j s, i < bm_nr v -> j < bm_nc v -> nth_error (bm_blocks v) (i * bm_nc v + j) = Some (Some s) ->
       entries s <> 0%Z -> find_name (links grp) (block_name i j) = Some (sparse_group s)) /\
    find_name (links grp) "size" = Some (Dset [2] (HInt [Z.of_nat (bm_nr v); Z.of_nat (bm_nc v)])) /\
    find_name (links grp) "row_offsets" = Some (Dset [List.length (bm_roff v)] (HInt (bm_roff v))) /\
    find_name (links grp) "col_offsets" = Some (Dset [List.length (bm_coff v)] (HInt (bm_coff v))) /\
    find_name (links grp) "zero_blocks" = Some (Dset [bm_nr v; bm_nc v] (HBool (map is_zero (bm_blocks v)))).

  Lemma write_bmatrix_eq g name (v : bmatrix D) :
    fresh g name -> List.length (bm_blocks v) = bm_nr v * bm_nc v -> 0 < bm_nr v -> 0 < bm_nc v ->
    Forall block_ok (bm_blocks v) ->
    exists grp, write_bmatrix g name v = Ok {| attrs := attrs g; links := (name, Grp (attrs grp) (links grp)) :: links g |}
                /\ bm_written v grp.
  Proof.
    intros Hf Hlen Hr Hc Hok. unfold write_bmatrix.
    unfold write_array. cbn [pack e_int List.length].
    rewrite create_fresh by (intros []). cbn [obind].
    rewrite create_fresh by (unfold fresh; cbn; intuition discriminate). cbn [obind].
    rewrite create_fresh by (unfold fresh; cbn; intuition discriminate). cbn [obind].
    rewrite zero_blocks_eq by auto. cbn [obind].
    unfold write_array2d at 1. cbn [a2_nr a2_nc a2_data].
    destruct (map_zero_head _ _ _ Hlen Hr Hc) as (z & Ez).
    unfold oread at 1. rewrite Ez. cbn [obind].
    rewrite (proj2 (Nat.leb_le _ _)) by (rewrite map_length; lia). cbn [oguard].
    rewrite create_fresh by (unfold fresh; cbn; intuition discriminate).
    cbn [obind]. unfold write_blocks.
    rewrite firstn_all2 by (rewrite map_length; lia).
    edestruct (write_blocks_loop (bm_nc v) (bm_blocks v) (pairs (bm_nr v) (bm_nc v)) Hok)
      as (grp & E & Ha & Hother & Hfind).
    { apply pairs_NoDup. }
    2:{ intros p Hp. apply pairs_in in Hp as [? ?]. rewrite Hlen. nia. }
    2:{ rewrite E. cbn [obind]. rewrite create_fresh by auto.
        exists grp. split; [reflexivity|]. split; [|repeat split].
        - intros i j s Hi Hj. apply (Hfind (i, j)). apply pairs_in; auto.
        - rewrite Hother by (intros [i j] _ F; discriminate F). reflexivity.
        - rewrite Hother by (intros [i j] _ F; discriminate F). reflexivity.
        - rewrite Hother by (intros [i j] _ F; discriminate F). reflexivity.
        - rewrite Hother by (intros [i j] _ F; discriminate F). reflexivity. }
    { intros [i j] _. reflexivity. }
  Qed.

  Lemma read_bmatrix_written name (v : bmatrix D) grp g' offs :
    find_name (links g') name = Some (Grp (attrs grp) (links grp)) -> bm_written v grp ->
    0 < bm_nr v -> 0 < bm_nc v -> List.length (bm_blocks v) = bm_nr v * bm_nc v ->
    Forall block_ok (bm_blocks v) ->
    read_bmatrix g' name offs =
      if zlist_eqb (bm_roff v) offs && zlist_eqb (bm_coff v) offs
      then let* bl := read_blocks (bm_nr v) (bm_nc v) (map is_zero (bm_blocks v)) {| attrs := attrs grp; links := links grp |} in
           Ok {| bm_roff := offs; bm_coff := offs; bm_blocks := bl |}
      else Abort.
  Proof.
    intros Hg (Hb & Hs & Hro & Hco & Hz) Hr Hc Hlen Hok.
    unfold read_bmatrix, h5_open_group. rewrite Hg. cbn [obind].
    set (G := {| attrs := attrs grp; links := links grp |}).
    rewrite (read_dset e_int G "size" [Z.of_nat (bm_nr v); Z.of_nat (bm_nc v)]) by (auto using e_int_lawful).
    cbn [obind]. rewrite (read_dset e_int G "row_offsets" (bm_roff v)) by (auto using e_int_lawful).
    cbn [obind]. rewrite (read_dset e_int G "col_offsets" (bm_coff v)) by (auto using e_int_lawful).
    cbn [obind]. unfold read_array2d, h5_open_dset. cbn [links G]. rewrite Hz. cbn [obind].
    rewrite (proj2 (Nat.eqb_neq _ _)), (proj2 (Nat.eqb_neq _ _)) by lia.
    cbn [orb unpack e_bool obind a2_nr a2_nc a2_data].
    cbn [List.length Nat.eqb oassert]. unfold zread at 1 2. cbn [Z.ltb Z.compare].
    change (Z.to_nat 0) with 0. change (Z.to_nat 1) with 1. cbn [oread nth_error obind].
    unfold bm_nr, bm_nc in *.
    rewrite (proj2 (Z.eqb_eq (Z.of_nat (List.length (bm_roff v))) _)) by lia.
    rewrite (proj2 (Z.eqb_eq (Z.of_nat (List.length (bm_coff v))) _)) by lia.
    rewrite !Z.eqb_refl. cbn [oassert]. rewrite !Nat2Z.id. reflexivity.
  Qed.

  Lemma bmatrix_rt g name (v : bmatrix D) offs :
    fresh g name -> bm_roff v = offs -> bm_coff v = offs ->
    List.length (bm_blocks v) = bm_nr v * bm_nc v -> 0 < bm_nr v -> Forall block_ok (bm_blocks v) ->
    exists o g', write_bmatrix g name v = Ok g' /\ adds g name o g' /\
      exists v', read_bmatrix g' name offs = Ok v' /\ bm_roff v' = offs /\ bm_coff v' = offs /\
        forall i j, i < bm_nr v -> j < bm_nc v ->
          exists b b', block_at (bm_nc v) (bm_blocks v) i j = Some b /\
                       block_at (bm_nc v) (bm_blocks v') i j = Some b' /\ same_block b b'.
  Proof.
    intros Hf Ero Eco Hlen Hr Hok.
    assert (Hc : 0 < bm_nc v) by (unfold bm_nc, bm_nr in *; rewrite Eco; rewrite Ero in Hr; auto).
    destruct (write_bmatrix_eq g name v Hf Hlen Hr Hc Hok) as (grp & E & Hw).
    exists (Grp (attrs grp) (links grp)). rewrite E. eexists; split; [reflexivity|]. split; [apply create_adds|].
    rewrite (read_bmatrix_written name v grp) with (offs := offs); auto.
    2:{ cbn. rewrite String.eqb_refl. reflexivity. }
    rewrite Ero, Eco, zlist_eqb_refl. cbn [andb].
    edestruct (read_blocks_ok (bm_nr v) (bm_nc v) (bm_blocks v) {| attrs := attrs grp; links := links grp |})
      as (bl' & E' & Hsame); auto.
    { apply (proj1 Hw). }
    rewrite E'. cbn [obind]. eexists; split; [reflexivity|]. cbn. auto.
  Qed.

  (** A block matrix with other offsets (in particular a rectangular one) is rejected. *)
  Lemma bmatrix_mismatch g name (v : bmatrix D) offs :
    fresh g name -> bm_roff v <> offs \/ bm_coff v <> offs ->
    List.length (bm_blocks v) = bm_nr v * bm_nc v -> 0 < bm_nr v -> 0 < bm_nc v -> Forall block_ok (bm_blocks v) ->
    exists g', write_bmatrix g name v = Ok g' /\ read_bmatrix g' name offs = Abort.
  Proof.
    intros Hf Hne Hlen Hr Hc Hok.
    destruct (write_bmatrix_eq g name v Hf Hlen Hr Hc Hok) as (grp & E & Hw).
    rewrite E. eexists; split; [reflexivity|].
    rewrite (read_bmatrix_written name v grp) with (offs := offs); auto.
    2:{ cbn. rewrite String.eqb_refl. reflexivity. }
    destruct (zlist_eqb (bm_roff v) offs) eqn:E1; [|reflexivity].
    destruct (zlist_eqb (bm_coff v) offs) eqn:E2; [|reflexivity].
    apply zlist_eqb_eq in E1, E2. tauto.
  Qed.

  (** CSR files *)
  Lemma write_csr_eq (s : sparse D) : csr_ok s -> sp_fin s = true -> (0 < entries s)%Z ->
    write_csr s = Ok {| attrs := []; links := match sparse_group s with Grp _ l => l | _ => [] end |}.
  Proof.
    intros H Hf Hn. unfold write_csr. rewrite Hf. cbn [oassert].
    rewrite nnz_ok by auto. cbn [obind]. rewrite take_all_I by auto. cbn [obind].
    pose proof (csr_nonneg _ (sp_h s) H ltac:(lia)). pose proof (csr_J _ H); pose proof (csr_A _ H).
    rewrite !take_ref_ok by (unfold entries; lia). cbn [obind].
    unfold db_put.
    rewrite (proj2 (Nat.ltb_lt 0 (List.length (sp_I s)))) by (rewrite (csr_len _ H); lia). cbn [oassert].
    unfold write_array at 1. rewrite create_fresh by (intros []). cbn [obind].
    rewrite (proj2 (Nat.ltb_lt 0 (List.length (firstn _ (sp_J s))))) by (rewrite firstn_length; unfold entries in *; lia).
    cbn [oassert]. unfold write_array at 1. rewrite create_fresh by (unfold fresh; cbn; intuition discriminate). cbn [obind].
    rewrite (proj2 (Nat.ltb_lt 0 (List.length (firstn _ (sp_A s))))) by (rewrite firstn_length; unfold entries in *; lia).
    cbn [oassert]. unfold write_array at 1. rewrite create_fresh by (unfold fresh; cbn; intuition discriminate). cbn [obind].
    cbn [List.length Nat.ltb Nat.leb oassert]. unfold write_array. rewrite create_fresh by (unfold fresh; cbn; intuition discriminate).
    reflexivity.
  Qed.

  Lemma db_get_ok {T} (e : elem D T) g key cap (l : list T) : lawful e ->
    find_name (links g) key = Some (Dset [List.length l] (pack _ e l)) -> 0 < List.length l ->
    db_get e g key cap (Z.of_nat (List.length l)) = if Nat.leb (List.length l) cap then Ok l else UB.
  Proof.
    intros He Hf Hl. unfold db_get. rewrite (proj2 (Z.eqb_neq _ _)) by lia.
    unfold h5_open_dset. rewrite Hf. cbn [obind]. rewrite Z.eqb_refl. cbn [oassert].
    destruct (Nat.leb _ _); cbn [oguard]; auto.
  Qed.

  Lemma read_csr_eq (s : sparse D) f : csr_ok s -> sp_fin s = true -> (0 < entries s)%Z -> write_csr s = Ok f ->
    read_csr f = if Z.leb (Z.of_nat (sp_h s) + 1) (entries s) then Ok (trimmed s) else UB.
  Proof.
    intros H Hf Hn E. rewrite write_csr_eq in E by auto. injection E as <-.
    pose proof (csr_nonneg _ (sp_h s) H ltac:(lia)). pose proof (csr_J _ H); pose proof (csr_A _ H).
    pose proof (csr_len _ H) as HI.
    assert (E1 : Z.of_nat (List.length (sp_J (trimmed s))) = entries s).
    { cbn. rewrite firstn_length. unfold entries in *. lia. }
    assert (E2 : Z.of_nat (List.length (sp_A (trimmed s))) = entries s).
    { cbn. rewrite firstn_length. unfold entries in *. lia. }
    unfold read_csr. set (F := {| attrs := []; links := _ |}).
    change (db_get e_int F "size" 2 2) with
      (db_get e_int F "size" 2 (Z.of_nat (List.length [Z.of_nat (sp_h s); Z.of_nat (sp_w s)]))).
    rewrite (db_get_ok e_int F "size" 2 [Z.of_nat (sp_h s); Z.of_nat (sp_w s)]) by (cbn; auto using e_int_lawful).
    cbn [List.length Nat.leb obind]. unfold db_size, h5_open_dset.
    replace (find_name (links F) "data"%string) with (Some (Dset [List.length (sp_A (trimmed s))] (HDbl (sp_A (trimmed s)))))
      by reflexivity.
    cbn [obind]. unfold zread at 1 2. cbn [Z.ltb Z.compare].
    change (Z.to_nat 0) with 0. change (Z.to_nat 1) with 1. cbn [oread nth_error obind].
    replace (Z.of_nat (sp_h s) + 1)%Z with (Z.of_nat (List.length (sp_I s))) by lia.
    rewrite (db_get_ok e_int F "I") by (auto using e_int_lawful; lia).
    destruct (Z.leb_spec (Z.of_nat (List.length (sp_I s))) (entries s)) as [Hle|Hgt].
    - rewrite (proj2 (Nat.leb_le _ _)) by lia. cbn [obind].
      unfold zread. rewrite (proj2 (Z.ltb_ge _ _)) by lia. rewrite Nat2Z.id.
      pose proof (nnz_ok s H) as Hz. unfold sp_nnz in Hz. rewrite Hz. cbn [obind].
      rewrite <- E1 at 1. rewrite (db_get_ok e_int F "J") by (auto using e_int_lawful; lia).
      rewrite (proj2 (Nat.leb_le _ _)) by lia. cbn [obind].
      rewrite <- E2 at 1. rewrite (db_get_ok e_dbl F "data") by (auto using e_dbl_lawful; lia).
      rewrite (proj2 (Nat.leb_le _ _)) by lia. cbn [obind].
      rewrite !Nat2Z.id. do 2 f_equal. destruct (Nat.ltb_spec 0 (List.length (sp_A (trimmed s)))); [|lia].
      unfold trimmed. cbn. f_equal. symmetry. apply Z.ltb_lt. auto.
    - rewrite (proj2 (Nat.leb_gt _ _)) by lia. reflexivity.
  Qed.

  Lemma csr_rt (s : sparse D) : csr_ok s -> sp_fin s = true -> (Z.of_nat (sp_h s) + 1 <= entries s)%Z ->
    exists f s', write_csr s = Ok f /\ read_csr f = Ok s' /\ same_matrix s s' /\ csr_ok s' /\ sp_fin s' = true.
  Proof.
    intros H Hf Hn. eexists; exists (trimmed s). split; [apply write_csr_eq; auto; lia|].
    split. { rewrite (read_csr_eq s) by (auto; try lia; apply write_csr_eq; auto; lia).
             rewrite (proj2 (Z.leb_le _ _)) by auto. reflexivity. }
    split; [apply trimmed_same; auto|]. split; [apply trimmed_ok; auto|]. cbn. apply Z.ltb_lt. lia.
  Qed.

  Lemma csr_overflow (s : sparse D) : csr_ok s -> sp_fin s = true ->
    (0 < entries s)%Z -> (entries s < Z.of_nat (sp_h s) + 1)%Z ->
    exists f, write_csr s = Ok f /\ read_csr f = UB.
  Proof.
    intros H Hf Hn Hl. eexists. split; [apply write_csr_eq; auto; lia|].
    rewrite (read_csr_eq s) by (auto; try lia; apply write_csr_eq; auto; lia).
    rewrite (proj2 (Z.leb_gt _ _)) by auto. reflexivity.
  Qed.

  (** Sample points *)
  Lemma eldset_inj t t' : eldset t = eldset t' -> t = t'.
  Proof. destruct t, t'; simpl; intros; auto; discriminate. Qed.

  Definition sample_group (t : itype) (l : list (sinfo D)) : hobj D :=
    Grp [] [("quad-wt", Dset [List.length l] (HDbl (map si_qw l)));
            ("quad-pt", Dset [List.length l] (HInt (map si_qp l)));
            (eldset t, Dset [List.length l] (HInt (map si_el l)))]%string.

  Lemma write_samples_eq g name t (l : list (sinfo D)) :
    write_samples g name t l = h5_create g name (sample_group t l).
  Proof.
    unfold write_samples, write_array. rewrite create_fresh by (intros []). cbn [obind].
    rewrite create_fresh by (unfold fresh; destruct t; cbn; intuition discriminate). cbn [obind].
    rewrite create_fresh by (unfold fresh; destruct t; cbn; intuition discriminate). cbn [obind attrs links empty_group pack e_int e_dbl].
    rewrite !map_length. reflexivity.
  Qed.

  Lemma omap_seq_ok {B} (f : nat -> outcome B) (l : list B) a :
    (forall k b, nth_error l k = Some b -> f (a + k) = Ok b) -> omap f (seq a (List.length l)) = Ok l.
  Proof.
    revert a; induction l as [|b l IH]; intros a H; simpl; auto.
    rewrite <- (Nat.add_0_r a) at 1. rewrite (H 0 b) by auto. simpl.
    rewrite IH; auto. intros k x Hk. rewrite <- (H (S k) x Hk). f_equal. lia.
  Qed.

  Lemma samples_rt g name t (l : list (sinfo D)) : fresh g name ->
    exists o g', write_samples g name t l = Ok g' /\ adds g name o g' /\ read_samples g' name t = Ok l /\
                 forall t', t' <> t -> read_samples g' name t' = Abort.
  Proof.
    intros Hf. exists (sample_group t l). rewrite write_samples_eq, create_fresh by auto.
    eexists; split; [reflexivity|]. split; [apply create_adds|].
    unfold read_samples, h5_open_group. cbn [links find_name]. rewrite String.eqb_refl. cbn [obind sample_group].
    split.
    - set (G := {| attrs := _; links := _ |}).
      rewrite (read_dset e_int G (eldset t) (map si_el l)).
      2: exact e_int_lawful. 2: { rewrite map_length. destruct t; reflexivity. } cbn [obind].
      rewrite (read_dset e_int G "quad-pt" (map si_qp l)).
      2: exact e_int_lawful. 2: { rewrite map_length. reflexivity. } cbn [obind].
      rewrite (read_dset e_dbl G "quad-wt" (map si_qw l)).
      2: exact e_dbl_lawful. 2: { rewrite map_length. reflexivity. } cbn [obind].
      rewrite map_length. apply omap_seq_ok. intros k b Hk. simpl.
      unfold oread. rewrite !nth_error_map, Hk. cbn. destruct b; reflexivity.
    - intros t' Hne. unfold read_array at 1, h5_open_dset.
      replace (find_name _ (eldset t')) with (@None (hobj D)); [reflexivity|].
      symmetry. apply find_name_none. intros Hin. cbn in Hin.
      destruct t', t; simpl in Hin; try congruence; intuition discriminate.
  Qed.

  (** A file whose arrays disagree in length is not detected. *)
  Lemma samples_short_ub g name t el qp qw (o : list (string * Z)) :
    find_name (links g) name = Some (Grp o
      [(eldset t, Dset [List.length el] (HInt el)); ("quad-pt", Dset [List.length qp] (HInt qp));
       ("quad-wt", Dset [List.length qw] (HDbl qw))]%string) ->
    List.length qp < List.length el \/ List.length qw < List.length el -> read_samples g name t = UB.
  Proof.
    intros Hg Hs. unfold read_samples, h5_open_group. rewrite Hg. cbn [obind].
    set (G := {| attrs := _; links := _ |}).
    rewrite (read_dset e_int G (eldset t) el).
    2: exact e_int_lawful. 2: { unfold G; cbn. rewrite String.eqb_refl; reflexivity. } cbn [obind].
    rewrite (read_dset e_int G "quad-pt" qp).
    2: exact e_int_lawful. 2: { destruct t; reflexivity. } cbn [obind].
    rewrite (read_dset e_dbl G "quad-wt" qw).
    2: exact e_dbl_lawful. 2: { destruct t; reflexivity. } cbn [obind].
    assert (Hgen : forall n a, a + n = List.length el -> (a <= List.length qp /\ a <= List.length qw) ->
      omap (fun k => let* p := oread qp k in let* w := oread qw k in let* e := oread el k in
                     Ok {| si_el := e; si_qp := p; si_qw := w |}) (seq a n) = UB).
    { induction n as [|n IH]; intros a Ha [H1 H2]; [exfalso; lia|]. cbn [seq omap].
      unfold oread at 1. destruct (nth_error qp a) as [p|] eqn:Ep; [|reflexivity]. cbn [obind].
      unfold oread at 1. destruct (nth_error qw a) as [w|] eqn:Ew; [|reflexivity]. cbn [obind].
      unfold oread at 1. destruct (nth_error el a) as [x|] eqn:Ex; [|apply nth_error_None in Ex; lia]. cbn [obind].
      rewrite IH; [reflexivity|lia|].
      assert (a < List.length qp) by (apply nth_error_Some; congruence).
      assert (a < List.length qw) by (apply nth_error_Some; congruence). lia. }
    apply Hgen; lia.
  Qed.
End Blocks.
