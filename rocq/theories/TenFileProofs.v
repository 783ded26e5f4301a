(** Files of convection tensors. *)
From Coq Require Import ZArith List Bool String Lia.
From Verif Require Import Outcome ConfigModel ConfigProofs HdfModel HdfSpec HdfProofs LaBase TenModel TenSpec TenProofs.
Import ListNotations.
Local Open Scope nat_scope.
Local Open Scope list_scope.

Section P.
  Context {D M : Type}.
  Notation solver := (solver D M).
  Notation disk := (disk D M).

  Lemma fresh_empty name : fresh (@empty_group D) name.
  Proof. intros []. Qed.

  Lemma write_read (g : hgroup D) name t : fresh g name -> good_tensor t ->
    exists o t', write_tensor g name t = Ok {| attrs := attrs g; links := (name, o) :: links g |} /\ same_tensor t t' /\
      forall g', find_name (links g') name = Some o -> read_tensor g' name = Ok t'.
  Proof.
    intros Hf (H1 & H2 & H3 & H4).
    destruct (tensor_rt g name t Hf H1 H2 H3 H4) as (l & g' & E & A & _ & t' & R & S1 & S2 & S3 & S4).
    unfold write_tensor in E. apply obind_ok in E as (x & E0 & E). cbv zeta in E. apply oguard_ok in E as (G & E).
    rewrite create_fresh in E by auto. injection E as <-.
    eexists. exists t'. split; [|split].
    - unfold write_tensor. rewrite E0. cbn [obind]. cbv zeta. rewrite G. cbn [oguard]. rewrite create_fresh by auto. reflexivity.
    - repeat split; auto.
    - intros g' Hg. unfold read_tensor, h5_open_dset in *. rewrite Hg. cbn [find_name links] in R. rewrite String.eqb_refl in R. exact R.
  Qed.

  Lemma find_cons {X} n n' (x : X) l : find_name ((n, x) :: l) n' = if String.eqb n n' then Some x else find_name l n'.
  Proof. reflexivity. Qed.

  Lemma find_fresh (g : hgroup D) n : find_name (links g) n = None -> fresh g n.
  Proof. intros H. apply find_name_none. auto. Qed.

  Lemma ofold_cons {A B} (f : A -> B -> outcome A) x l a : ofold f (x :: l) a = let* a' := f a x in ofold f l a'.
  Proof. reflexivity. Qed.

  Ltac nxt := cbn [obind v_heap v_ct v_st v_ce v_se v_itf v_handler v_basis v_mat new_ns]; rewrite ofold_cons; cbn [step].

  Section Setup.
    Variable c : setup.
    Variable red : nat -> tensor D.
    Variable red_sub : nat -> tensor D.
    Variable proj : M.

    (** Groups with one tensor for each name. *)
    Definition tensors_in (names : list string) (r : nat -> tensor D) (n : nat) (g : hgroup D) : Prop :=
      (forall j nm, j < n -> nth_error names j = Some nm -> exists cg t', h5_open_group g nm = Ok cg /\ read_tensor cg "tensor" = Ok t' /\ same_tensor (r j) t') /\
      (forall nm, find_name (links g) nm <> None -> exists j, j < n /\ nth_error names j = Some nm).

    Lemma save_loop (s : solver) h0 : v_ct s = map Some (seq h0 (num_comp c)) ->
      (forall i, i < num_comp c -> nth_error (v_heap s) (h0 + i) = Some (OTensor (red i))) ->
      (forall i, i < num_comp c -> good_tensor (red i)) -> NoDup (s_names c) ->
      exists g, ofor (num_comp c) (save_component c s) empty_group = Ok g /\ tensors_in (s_names c) red (num_comp c) g.
    Proof.
      intros Hc Hh Hg Nd. apply (ofor_inv _ _ (fun i g => tensors_in (s_names c) red i g)).
      - split; [intros; lia|]. cbn. congruence.
      - intros i g Hi (I1 & I2). unfold save_component. rewrite Hc. unfold oread at 1.
        rewrite nth_error_map, (nth_error_nth' _ 0) by (rewrite seq_length; auto). rewrite seq_nth by auto. cbn [option_map obind oassert].
        destruct (nth_error (s_names c) i) as [nm|] eqn:En; [|apply nth_error_None in En; unfold num_comp in Hi; lia].
        unfold oread at 1. rewrite En. cbn [obind]. unfold deref, oread. rewrite Hh by auto. cbn [obind].
        destruct (write_read empty_group "tensor" (red i) (fresh_empty _) (Hg i Hi)) as (o & t' & E & St & R). rewrite E. cbn [obind attrs links].
        assert (Fr : fresh g nm).
        { apply find_fresh. destruct (find_name (links g) nm) eqn:F; auto. destruct (I2 nm) as (j & Hj & Ej); [congruence|].
          rewrite NoDup_nth_error in Nd. assert (i = j); [|lia]. apply Nd; [unfold num_comp in Hi; auto|congruence]. }
        rewrite create_fresh by auto. eexists. split; [reflexivity|]. split.
        + intros j nm' Hj Ej. unfold h5_open_group. cbn [links]. rewrite find_cons. destruct (String.eqb_spec nm nm') as [->|Hn].
          * assert (j = i) as ->. { rewrite NoDup_nth_error in Nd. apply Nd; [apply nth_error_Some; congruence|congruence]. }
            eexists. exists t'. split; [reflexivity|]. split; [apply R; cbn; auto|auto].
          * assert (j <> i) by (intros ->; congruence). apply (I1 j nm'); auto. lia.
        + cbn [links]. intros nm' F. rewrite find_cons in F. destruct (String.eqb_spec nm nm') as [->|Hn].
          * exists i. split; [lia|auto].
          * destruct (I2 nm' F) as (j & Hj & Ej). exists j. split; [lia|auto].
    Qed.

    (** A file with the tensors [r] of the components [names]. *)
    Definition tensor_disk (d : disk) (file : string) (names : list string) (r : nat -> tensor D) : Prop :=
      exists f g, d file = Some (FGroups f) /\ h5_open_group f "components" = Ok g /\ tensors_in names r (List.length names) g.

    Lemma put_same (d : disk) n f : put d n f n = Some f.
    Proof. unfold put. rewrite String.eqb_refl. auto. Qed.

    Lemma omap_total {A B} (f : A -> outcome B) l : (forall x, In x l -> exists y, f x = Ok y) -> exists ys, omap f l = Ok ys.
    Proof.
      induction l as [|x l IH]; intros H; [cbn; eauto|]. cbn. destruct (H x) as (y & ->); [cbn; auto|]. cbn.
      destruct IH as (ys & ->); [intros; apply H; cbn; auto|]. cbn. eauto.
    Qed.

    Lemma omap_const {A B} (f : A -> B) l : omap (fun x => Ok (f x)) l = Ok (map f l).
    Proof. induction l as [|x l IH]; cbn; auto. rewrite IH. reflexivity. Qed.

    Lemma build_run prefix d : by_tensors c -> NoDup (s_names c) -> (forall i, i < num_comp c -> good_tensor (red i)) ->
      exists s d', run c red red_sub proj (build_component prefix) d = Ok (s, d') /\ tensor_disk d' (tensor_file prefix) (s_names c) red /\
        (forall n, n <> tensor_file prefix -> d' n = d n).
    Proof.
      intros (Hb & Hl & Hn) Nd Hg. unfold run, build_component. rewrite ofold_cons; cbn [step].
      unfold init_rom_handler. rewrite Hn, Hl. cbn [oassert oguard negb orb obind]. nxt.
      unfold load_basis. cbn [v_handler oguard obind]. nxt. unfold allocate. rewrite Hn. cbn [v_handler oguard obind v_heap v_ct v_st v_ce v_se v_itf v_basis v_mat]. nxt.
      unfold build_tensors. rewrite Hb. cbn [oassert oguard v_handler v_basis v_ct v_heap]. rewrite nulls_length, Nat.eqb_refl. cbn [oassert].
      rewrite fill_full by apply nulls_length.
      assert (Er : omap (reduced_tensor c red) (seq 0 (num_comp c)) = Ok (map (fun i => OTensor (red i)) (seq 0 (num_comp c)))).
      { unfold reduced_tensor. rewrite Hl. cbn [oassert negb]. apply (omap_const (fun i => OTensor (red i))). }
      rewrite Er. cbn [obind app v_st v_ce v_se v_itf v_handler v_basis v_mat List.length].
      nxt. set (s := Solver _ _ _ _ _ _ _ _ _). unfold save_elems. rewrite Hn. change (v_handler s) with true. cbn [oguard]. unfold save_tensors. rewrite Hb. cbn [oassert].
      change (v_ct s) with (map (@Some nat) (seq 0 (num_comp c))). rewrite map_length, seq_length, Nat.eqb_refl. cbn [oassert].
      destruct (save_loop s 0) as (g & E & Hgr); auto.
      { intros i Hi. cbn. rewrite nth_error_map, (nth_error_nth' _ 0) by (rewrite seq_length; auto). rewrite seq_nth by auto. reflexivity. }
      rewrite E. cbn [obind]. rewrite create_fresh by apply fresh_empty. cbn [obind ofold].
      eexists. eexists. split; [reflexivity|]. split.
      - eexists. exists g. split; [apply put_same|]. split; [|exact Hgr]. unfold h5_open_group. cbn. destruct g; reflexivity.
      - intros n Hn'. unfold put. destruct (String.eqb_spec n (tensor_file prefix)); [contradiction|auto].
    Qed.

    (** ** Assembling *)
    Lemma assemble_loop (ct : list (option nat)) : (forall t, In t (s_types c) -> t < List.length ct) ->
      exists a, ofor (num_sub c) (fun a m => let* t := oread (s_types c) m in let* p := oread ct t in owrite a m p) (nulls (num_sub c)) = Ok a /\
        List.length a = num_sub c /\ forall m t, nth_error (s_types c) m = Some t -> nth_error a m = nth_error ct t.
    Proof.
      intros H.
      destruct (ofor_inv (num_sub c) (fun a m => let* t := oread (s_types c) m in let* p := oread ct t in owrite a m p)
        (fun i a => List.length a = num_sub c /\ forall m t, m < i -> nth_error (s_types c) m = Some t -> nth_error a m = nth_error ct t) (nulls (num_sub c))) as (a & E & La & Ha).
      - split; [apply nulls_length|lia].
      - intros i a Hi (La & Ha). destruct (nth_error (s_types c) i) as [t|] eqn:Et; [|apply nth_error_None in Et; unfold num_sub in Hi; lia].
        assert (Ht : t < List.length ct) by (apply H; eapply nth_error_In; eauto).
        destruct (nth_error ct t) as [p|] eqn:Ep; [|apply nth_error_None in Ep; lia].
        unfold oread. rewrite Et. cbn [obind]. rewrite Ep. cbn [obind]. rewrite owrite_vec by lia. eexists. split; [reflexivity|].
        split; [rewrite upd_len; auto|]. intros m t' Hm Em. destruct (Nat.eq_dec i m) as [->|Hne].
        + rewrite nth_upd_same by lia. congruence.
        + rewrite nth_upd_other by auto. apply Ha; auto. lia.
      - exists a. split; [auto|]. split; [auto|]. intros m t Et. apply Ha; auto. unfold num_sub. apply nth_error_Some. congruence.
    Qed.

    Lemma load_run prefix d namesA redA : by_tensors c -> (forall t, In t (s_types c) -> t < num_comp c) ->
      tensor_disk d (tensor_file prefix) namesA redA -> (forall nm, In nm (s_names c) -> In nm namesA) ->
      exists s ts, run c red red_sub proj (run_component prefix) d = Ok (s, d) /\ solve_tensors c s = Ok ts /\ List.length ts = num_sub c /\
        forall m nm j, instance_of c m nm -> nth_error namesA j = Some nm -> NoDup namesA -> exists t, nth_error ts m = Some t /\ same_tensor (redA j) t.
    Proof.
      intros (Hb & Hl & Hn) Ht (f & g & Ef & Eg & I1 & I2) Hsub. unfold run, run_component. rewrite ofold_cons; cbn [step].
      unfold init_rom_handler. rewrite Hn, Hl. cbn [oassert oguard negb orb obind]. nxt.
      unfold load_basis. cbn [v_handler oguard obind]. nxt. unfold allocate. rewrite Hn. cbn [v_handler oguard obind v_heap v_ct v_st v_ce v_se v_itf v_basis v_mat]. nxt.
      unfold load_elems. rewrite Hn. cbn [v_handler oguard]. unfold load_tensors, get_groups. rewrite Hb, Ef. cbn [oassert obind v_ct v_heap].
      rewrite nulls_length, Nat.eqb_refl. cbn [oassert]. rewrite Eg. cbn [obind]. rewrite fill_full by apply nulls_length.
      destruct (omap_total (load_component c g) (seq 0 (num_comp c))) as (os & Eo).
      { intros i Hi. apply in_seq in Hi. destruct (nth_error (s_names c) i) as [nm|] eqn:En; [|apply nth_error_None in En; unfold num_comp in Hi; lia].
        unfold load_component, oread. rewrite En. cbn [obind]. destruct (In_nth_error namesA nm) as (j & Ej); [apply Hsub; eapply nth_error_In; eauto|].
        destruct (I1 j nm) as (cg & t' & E1 & E2 & _); [apply nth_error_Some; congruence|auto|]. rewrite E1. cbn. rewrite E2. cbn. eauto. }
      rewrite Eo. cbn [obind app v_st v_ce v_se v_itf v_handler v_basis v_mat List.length]. nxt. unfold assemble. rewrite Hn. cbn [v_handler oguard].
      unfold assemble_tensors. rewrite Hb. cbn [oassert v_ct]. rewrite map_length, seq_length, Nat.eqb_refl. cbn [oassert v_heap].
      destruct (assemble_loop (map Some (seq 0 (num_comp c)))) as (a & Ea & La & Ha).
      { intros t Hin. rewrite map_length, seq_length. auto. }
      rewrite Ea. cbn [obind v_ce v_se v_itf v_handler v_basis v_mat ofold].
      set (s := Solver _ _ _ _ _ _ _ _ _).
      pose proof (omap_length _ _ _ Eo) as Lo. rewrite seq_length in Lo.
      assert (Hp : forall m, m < num_sub c -> exists t o, nth_error (s_types c) m = Some t /\ t < num_comp c /\ nth_error a m = Some (Some t) /\ nth_error os t = Some (OTensor o) /\ load_component c g t = Ok (OTensor o)).
      { intros m Hm. destruct (nth_error (s_types c) m) as [t|] eqn:Et; [|apply nth_error_None in Et; unfold num_sub in Hm; lia].
        assert (Ht' : t < num_comp c) by (apply Ht; eapply nth_error_In; eauto).
        destruct (omap_at _ _ _ t t Eo) as (o & Eo2 & Eo3). { rewrite (nth_error_nth' _ 0) by (rewrite seq_length; auto). rewrite seq_nth by auto. auto. }
        pose proof Eo3 as Eo4. unfold load_component in Eo4. do 3 apply obind_ok in Eo4 as (? & _ & Eo4). injection Eo4 as <-.
        exists t, x1. split; [auto|]. split; [auto|]. rewrite (Ha m t Et), nth_error_map, (nth_error_nth' _ 0) by (rewrite seq_length; auto). rewrite seq_nth by auto. auto. }
      destruct (omap_total (deref s) a) as (ts & Ets).
      { intros p Hin. destruct (In_nth_error _ _ Hin) as (m & Em). destruct (Hp m) as (t & o & _ & _ & E1 & E2 & _); [rewrite <- La; apply nth_error_Some; congruence|].
        assert (p = Some t) by congruence. subst p. unfold deref, oread. cbn [v_heap s]. rewrite E2. cbn. eauto. }
      exists s, ts. split; [reflexivity|]. split; [|split].
      - unfold solve_tensors. cbn [v_st s]. rewrite La, Nat.eqb_refl. cbn [oassert].
        replace (forallb _ a) with true; [exact Ets|]. symmetry. apply forallb_forall. intros p Hin. destruct (In_nth_error _ _ Hin) as (m & Em).
        destruct (Hp m) as (t & o & _ & _ & E1 & _); [rewrite <- La; apply nth_error_Some; congruence|]. assert (p = Some t) by congruence. subst p. auto.
      - rewrite (omap_length _ _ _ Ets). auto.
      - intros m nm j (k & Ek & Ekn) Ej Nd. destruct (Hp m) as (t & o & E0 & Hlt & E1 & E2 & E3); [unfold num_sub; apply nth_error_Some; congruence|].
        assert (k = t) by congruence. subst k. destruct (omap_at _ _ _ m _ Ets E1) as (tt & Et1 & Et2).
        unfold deref, oread in Et2. cbn [v_heap s] in Et2. rewrite E2 in Et2. cbn in Et2. injection Et2 as <-. exists o. split; [auto|].
        destruct (I1 j nm) as (cg & t' & F1 & F2 & F3); [apply nth_error_Some; congruence|auto|].
        unfold load_component, oread in E3. rewrite Ekn in E3. cbn [obind] in E3. rewrite F1 in E3. cbn [obind] in E3. rewrite F2 in E3. cbn in E3. injection E3 as <-. auto.
    Qed.

    Lemma omap_abort {A B} (f : A -> outcome B) l x : In x l -> f x = Abort -> (forall y, In y l -> f y <> UB) -> omap f l = Abort.
    Proof.
      induction l as [|y l IH]; intros Hin Hx Hu; [contradiction|]. cbn. destruct (f y) eqn:Ey; cbn; auto.
      - destruct Hin as [->|Hin]; [congruence|]. rewrite IH; auto. intros z Hz. apply Hu. cbn. auto.
      - exfalso. apply (Hu y); cbn; auto.
    Qed.

    Lemma load_missing prefix d namesA redA nm : by_tensors c -> tensor_disk d (tensor_file prefix) namesA redA ->
      In nm (s_names c) -> ~ In nm namesA -> run c red red_sub proj (run_component prefix) d = Abort.
    Proof.
      intros (Hb & Hl & Hn) (f & g & Ef & Eg & I1 & I2) Hin Hnot. unfold run, run_component. rewrite ofold_cons; cbn [step].
      unfold init_rom_handler. rewrite Hn, Hl. cbn [oassert oguard negb orb obind]. nxt.
      unfold load_basis. cbn [v_handler oguard obind]. nxt. unfold allocate. rewrite Hn. cbn [v_handler oguard obind v_heap v_ct v_st v_ce v_se v_itf v_basis v_mat]. nxt.
      unfold load_elems. rewrite Hn. cbn [v_handler oguard]. unfold load_tensors, get_groups. rewrite Hb, Ef. cbn [oassert obind v_ct v_heap].
      rewrite nulls_length, Nat.eqb_refl. cbn [oassert]. rewrite Eg. cbn [obind]. rewrite fill_full by apply nulls_length.
      destruct (In_nth_error _ _ Hin) as (i & Ei). assert (Hi : i < num_comp c) by (apply nth_error_Some; congruence).
      rewrite (omap_abort _ _ i); [reflexivity|apply in_seq; lia| |].
      - unfold load_component, oread. rewrite Ei. cbn [obind]. unfold h5_open_group. destruct (find_name (links g) nm) eqn:F; [|reflexivity].
        exfalso. destruct (I2 nm) as (j & _ & Ej); [congruence|]. apply Hnot. eapply nth_error_In; eauto.
      - intros j Hj. apply in_seq in Hj. unfold load_component, oread. destruct (nth_error (s_names c) j) as [n|] eqn:En; [|apply nth_error_None in En; unfold num_comp in Hj; lia].
        cbn [obind]. destruct (find_name (links g) n) eqn:F.
        + destruct (I2 n) as (k & Hk & Ek); [congruence|]. destruct (I1 k n Hk Ek) as (cg & t' & E1 & E2 & _). rewrite E1. cbn. rewrite E2. cbn. discriminate.
        + unfold h5_open_group. rewrite F. cbn. discriminate.
    Qed.

    (** ** The operators of all subdomains *)
    Lemma sub_name_inj i j : sub_name i = sub_name j -> i = j.
    Proof. unfold sub_name. cbn. intros E. injection E as E. apply index_key_inj. auto. Qed.

    Definition subs_in (r : nat -> tensor D) (n : nat) (g : hgroup D) : Prop :=
      (forall j, j < n -> exists t', read_tensor g (sub_name j) = Ok t' /\ same_tensor (r j) t') /\
      (forall nm, find_name (links g) nm <> None -> exists j, j < n /\ nm = sub_name j).

    Lemma save_sub_loop (s : solver) h0 : v_st s = map Some (seq h0 (num_sub c)) ->
      (forall i, i < num_sub c -> nth_error (v_heap s) (h0 + i) = Some (OTensor (red_sub i))) ->
      (forall i, i < num_sub c -> good_tensor (red_sub i)) ->
      exists g, ofor (num_sub c) (fun g i => let* p := oread (v_st s) i in let* t := deref s p in write_tensor g (sub_name i) t) empty_group = Ok g /\
        subs_in red_sub (num_sub c) g.
    Proof.
      intros Hc Hh Hg. apply (ofor_inv _ _ (fun i g => subs_in red_sub i g)).
      - split; [intros; lia|]. cbn. congruence.
      - intros i g Hi (I1 & I2). rewrite Hc. unfold oread at 1.
        rewrite nth_error_map, (nth_error_nth' _ 0) by (rewrite seq_length; auto). rewrite seq_nth by auto. cbn [option_map obind].
        unfold deref, oread. rewrite Hh by auto. cbn [obind].
        assert (Fr : fresh g (sub_name i)).
        { apply find_fresh. destruct (find_name (links g) (sub_name i)) eqn:F; auto. destruct (I2 (sub_name i)) as (j & Hj & Ej); [congruence|].
          apply sub_name_inj in Ej. lia. }
        destruct (write_read g (sub_name i) (red_sub i) Fr (Hg i Hi)) as (o & t' & E & St & R). rewrite E. eexists. split; [reflexivity|]. split.
        + intros j Hj. destruct (Nat.eq_dec j i) as [->|Hne].
          * exists t'. split; auto. apply R. cbn [links]. rewrite find_cons, String.eqb_refl. auto.
          * destruct (I1 j ltac:(lia)) as (t2 & E2 & S2). exists t2. split; auto. unfold read_tensor, h5_open_dset in *. cbn [links]. rewrite find_cons.
            destruct (String.eqb_spec (sub_name i) (sub_name j)) as [K|_]; [apply sub_name_inj in K; lia|auto].
        + cbn [links]. intros nm F. rewrite find_cons in F. destruct (String.eqb_spec (sub_name i) nm) as [E3|E3]; [exists i; split; [lia|auto]|].
          destruct (I2 nm F) as (j & Hj & Ej). exists j. split; [lia|auto].
    Qed.

    Lemma build_global_run name d : by_tensors c -> s_level c = LevGlobal -> name <> tensor_file (s_prefix c) ->
      (forall i, i < num_sub c -> good_tensor (red_sub i)) ->
      exists s d', run c red red_sub proj (build_global name) d = Ok (s, d') /\ d' name = Some (FMatrix proj) /\
        (exists f g, d' (tensor_file (s_prefix c)) = Some (FGroups f) /\ h5_open_group f "ROM_tensors" = Ok g /\ subs_in red_sub (num_sub c) g) /\
        (forall n, n <> name -> n <> tensor_file (s_prefix c) -> d' n = d n).
    Proof.
      intros (Hb & Hl & Hn) Lv Hne Hg. unfold run, build_global. rewrite ofold_cons; cbn [step].
      unfold init_rom_handler. rewrite Hn, Hl. cbn [oassert oguard negb orb obind]. nxt.
      unfold load_basis. cbn [v_handler oguard obind]. nxt. unfold allocate. rewrite Hn. cbn [v_handler oguard obind v_heap v_ct v_st v_ce v_se v_itf v_basis v_mat]. nxt.
      unfold project. rewrite Hn. cbn [oassert oguard v_handler v_basis v_heap]. rewrite fill_full by apply nulls_length.
      assert (Er : omap (reduced_tensor c red_sub) (seq 0 (num_sub c)) = Ok (map (fun i => OTensor (red_sub i)) (seq 0 (num_sub c)))).
      { unfold reduced_tensor. rewrite Hl. cbn [oassert negb]. apply (omap_const (fun i => OTensor (red_sub i))). }
      rewrite Er. cbn [obind app v_st v_ct v_ce v_se v_itf v_handler v_basis v_mat List.length].
      nxt. set (s := Solver _ _ _ _ _ _ _ _ _). unfold save_operator. rewrite Hn, Lv. change (v_handler s) with true. cbn [oguard oassert is_global].
      change (v_mat s) with (Some proj). cbv zeta beta iota.
      destruct (save_sub_loop s 0) as (g & E & Hgr); auto.
      { intros i Hi. cbn. rewrite nth_error_map, (nth_error_nth' _ 0) by (rewrite seq_length; auto). rewrite seq_nth by auto. reflexivity. }
      rewrite E. cbn [obind]. rewrite create_fresh by apply fresh_empty. cbn [obind ofold].
      eexists. eexists. split; [reflexivity|]. split; [|split].
      - unfold put. destruct (String.eqb_spec name (tensor_file (s_prefix c))); [contradiction|]. rewrite String.eqb_refl. auto.
      - eexists. exists g. split; [apply put_same|]. split; [|exact Hgr]. unfold h5_open_group. cbn. destruct g; reflexivity.
      - intros n H1 H2. unfold put. destruct (String.eqb_spec n (tensor_file (s_prefix c))); [contradiction|].
        destruct (String.eqb_spec n name); [contradiction|auto].
    Qed.

    Lemma load_global_run name d m r n : by_tensors c -> s_level c = LevGlobal -> d name = Some (FMatrix m) ->
      (exists f g, d (tensor_file (s_prefix c)) = Some (FGroups f) /\ h5_open_group f "ROM_tensors" = Ok g /\ subs_in r n g) -> num_sub c <= n ->
      exists s ts, run c red red_sub proj (run_global name) d = Ok (s, d) /\ v_mat s = Some m /\ solve_tensors c s = Ok ts /\ List.length ts = num_sub c /\
        forall i, i < num_sub c -> exists t, nth_error ts i = Some t /\ same_tensor (r i) t.
    Proof.
      intros (Hb & Hl & Hn) Lv Em (f & g & Ef & Eg & I1 & _) Hle. unfold run, run_global. rewrite ofold_cons; cbn [step].
      unfold init_rom_handler. rewrite Hn, Hl. cbn [oassert oguard negb orb obind]. nxt.
      unfold load_basis. cbn [v_handler oguard obind]. nxt. unfold allocate. rewrite Hn. cbn [v_handler oguard obind v_heap v_ct v_st v_ce v_se v_itf v_basis v_mat]. nxt.
      unfold load_operator, get_matrix, get_groups. rewrite Hn, Lv, Em. cbn [v_handler oguard oassert is_global obind]. rewrite Ef. cbn [obind]. rewrite Eg. cbn [obind].
      rewrite fill_full by apply nulls_length. cbn [v_heap].
      set (ld := fun i => let* t := read_tensor g (sub_name i) in Ok (OTensor t)).
      destruct (omap_total ld (seq 0 (num_sub c))) as (os & Eo).
      { intros i Hi. apply in_seq in Hi. destruct (I1 i ltac:(lia)) as (t' & E & _). unfold ld. rewrite E. cbn. eauto. }
      rewrite Eo. cbn [obind app v_ct v_ce v_se v_itf v_handler v_basis ofold List.length].
      set (s := Solver _ _ _ _ _ _ _ _ _).
      assert (Hp : forall i, i < num_sub c -> exists t, nth_error os i = Some (OTensor t) /\ same_tensor (r i) t).
      { intros i Hi. destruct (I1 i ltac:(lia)) as (t' & E & S). destruct (omap_at _ _ _ i i Eo) as (o & E1 & E2). { rewrite (nth_error_nth' _ 0) by (rewrite seq_length; auto). rewrite seq_nth by auto. auto. }
        unfold ld in E2. rewrite E in E2. cbn in E2. injection E2 as <-. eauto. }
      assert (Hst : forall p, In p (v_st s) -> exists i, i < num_sub c /\ p = Some i).
      { intros p Hin. change (v_st s) with (map (@Some nat) (seq 0 (num_sub c))) in Hin. apply in_map_iff in Hin as (i & <- & Hi). apply in_seq in Hi. exists i. split; [lia|auto]. }
      destruct (omap_total (deref s) (v_st s)) as (ts & Ets).
      { intros p Hin. destruct (Hst p Hin) as (i & Hi & ->). destruct (Hp i Hi) as (t & E & _). unfold deref, oread. cbn [v_heap s]. rewrite E. cbn. eauto. }
      assert (Ls : List.length (v_st s) = num_sub c) by (cbn; rewrite map_length, seq_length; auto).
      exists s, ts. split; [reflexivity|]. split; [reflexivity|]. split; [|split].
      - unfold solve_tensors. rewrite Ls, Nat.eqb_refl. cbn [oassert]. replace (forallb _ (v_st s)) with true; [exact Ets|].
        symmetry. apply forallb_forall. intros p Hin. destruct (Hst p Hin) as (i & _ & ->). auto.
      - rewrite (omap_length _ _ _ Ets). auto.
      - intros i Hi. destruct (Hp i Hi) as (t & E & S). destruct (omap_at _ _ _ i (Some i) Ets) as (t2 & E1 & E2).
        { cbn. rewrite nth_error_map, (nth_error_nth' _ 0) by (rewrite seq_length; auto). rewrite seq_nth by auto. auto. }
        unfold deref, oread in E2. cbn [v_heap s] in E2. rewrite E in E2. cbn in E2. injection E2 as <-. eauto.
    Qed.
  End Setup.
End P.
