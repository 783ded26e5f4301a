(** Proofs about the files of the hyper-reduced nonlinear term of the Navier-Stokes solver. *)
From Coq Require Import Reals List Bool Lia Arith ZArith Ascii String Permutation Lra.
From Verif Require Import Outcome ListLemmas ConfigModel ConfigSpec HdfModel HdfSpec LaBase LinalgModel BlockVec RomModel MbModel MbSpec EqpSpec ItfModel ItfSpec ProbModel BcModel BupModel BupSpec EqpModel NeqModel NeqSpec.
From Verif Require Import RomProofs NeqProofs.
From Verif Require MbMiscProofs HdfProofs ConfigProofs BupAsmProofs TagsSpec.
Import ListNotations.
Local Open Scope nat_scope.

(** ** Writing and reading named rules *)

Definition entry := (string * (itype * list (sinfo R)))%type.
Definition write_all (l : list entry) (g : hgroup R) : outcome (hgroup R) := ofold (fun g e => write_samples g (fst e) (fst (snd e)) (snd (snd e))) l g.

Lemma write_all_ok l : forall g, NoDup (map fst l) -> (forall e, In e l -> fresh g (fst e)) ->
  exists g', write_all l g = Ok g' /\ attrs g' = attrs g /\ forall n t s, In (n, (t, s)) l -> find_name (links g') n = Some (HdfProofs.sample_group t s).
Proof.
  assert (W : forall g, NoDup (map fst l) -> (forall e, In e l -> fresh g (fst e)) -> exists g', write_all l g = Ok g' /\ attrs g' = attrs g /\
    (forall n t s, In (n, (t, s)) l -> find_name (links g') n = Some (HdfProofs.sample_group t s)) /\ forall n, ~ In n (map fst l) -> find_name (links g') n = find_name (links g) n).
  2: { intros g N F. destruct (W g N F) as (g' & H1 & H2 & H3 & _). eauto. }
  induction l as [|[n [t s]] l IH]; intros g N F.
  - exists g. split; [reflexivity|]. split; [auto|]. split; [intros n t s []|auto].
  - unfold write_all. cbn [ofold fst snd]. rewrite HdfProofs.write_samples_eq, HdfProofs.create_fresh by (apply (F (n, (t, s))); left; auto). cbn [obind].
    inversion N as [|? ? Nn Nl]; subst. destruct (IH {| attrs := attrs g; links := (n, HdfProofs.sample_group t s) :: links g |} Nl) as (g' & E & A & V & O).
    + intros e He. unfold fresh. cbn [links map fst]. intros [Q|Q]; [apply Nn; rewrite Q; apply in_map; auto|]. apply (F e); [right; auto|auto].
    + exists g'. split; [exact E|]. split; [exact A|]. split.
      * intros n' t' s' [Q|Q]; [|apply V; auto]. injection Q as -> -> ->. rewrite O by auto. cbn [links find_name]. rewrite String.eqb_refl. auto.
      * intros n' Hn. rewrite O by (intros Q; apply Hn; right; auto). cbn [links find_name]. destruct (String.eqb_spec n n') as [->|]; [exfalso; apply Hn; left; auto|auto].
Qed.

Lemma write_all_dup l : forall g, ~ NoDup (map fst l) \/ (exists e, In e l /\ ~ fresh g (fst e)) -> write_all l g = Abort.
Proof.
  induction l as [|[n [t s]] l IH]; intros g H.
  - destruct H as [H|(e & [] & _)]. exfalso. apply H. constructor.
  - unfold write_all. cbn [ofold fst snd]. rewrite HdfProofs.write_samples_eq. unfold h5_create. destruct (find_name (links g) n) as [x|] eqn:Fn; [reflexivity|].
    cbn [obind]. apply IH. destruct H as [H|(e & [<-|He] & Hf)].
    + destruct (in_dec string_dec n (map fst l)) as [Hi|Hi].
      * right. apply in_map_iff in Hi as (e & Q & He). exists e. split; [auto|]. intros Fr. apply Fr. cbn [links map fst]. left. auto.
      * left. intros N. apply H. constructor; auto.
    + exfalso. apply Hf. cbn [fst]. unfold fresh. apply HdfProofs.find_name_none. auto.
    + right. exists e. split; [auto|]. intros Fr. apply Hf. intros Q. apply Fr. right. auto.
Qed.

Lemma read_found g n t (l : list (sinfo R)) : find_name (links g) n = Some (HdfProofs.sample_group t l) -> read_samples g n t = Ok l.
Proof.
  intros H. destruct (HdfProofs.samples_rt (@empty_group R) n t l) as (x & g' & E & _ & V & _); [intros []|]. rewrite HdfProofs.write_samples_eq, HdfProofs.create_fresh in E by (intros []).
  injection E as <-. rewrite <- V. unfold read_samples, h5_open_group. rewrite H. cbn [links find_name]. rewrite String.eqb_refl. reflexivity.
Qed.

Lemma write_for (f : hgroup R -> nat -> outcome (hgroup R)) (en : nat -> list entry) n g :
  (forall c g, c < n -> f g c = write_all (en c) g) -> ofor n f g = write_all (flat_map en (seq 0 n)) g.
Proof.
  unfold ofor. intros H. assert (Q : forall l, (forall c, In c l -> c < n) -> forall g, ofold f l g = write_all (flat_map en l) g).
  { induction l as [|c l IH]; intros Hl g0; [reflexivity|]. cbn [ofold flat_map]. unfold write_all. rewrite ofold_app. rewrite (H c g0) by (apply Hl; left; auto).
    fold (write_all (en c) g0). destruct (write_all (en c) g0); cbn [obind]; auto. apply IH. intros c' Hc. apply Hl. right. auto. }
  apply Q. intros c Hc. apply in_seq in Hc. lia.
Qed.

(** ** Names *)

Lemma keys_names o full_dg name nb t i nm : In (t, i, nm) (rule_keys o full_dg name nb) <->
  owned o full_dg nb t i /\ exists s, nm = (name ++ String "_"%char s)%string /\ TagsSpec.no_char "_"%char s /\
    ((t = Domain /\ s = "integ0") \/ (t = InteriorFace /\ s = "integ1") \/ (t = BdrFace /\ exists b, (i = 2 * b /\ s = "bdr" ++ index_key b \/ i = 2 * b + 1 /\ s = "zero" ++ index_key b)))%string.
Proof.
  assert (Nk : forall b, TagsSpec.no_char "_"%char (index_key b)) by (intros b; apply HdfProofs.index_key_no_underscore).
  unfold rule_keys, owned. cbn [In]. split.
  - intros [Q|Q].
    + injection Q as <- <- <-. split; [auto|]. exists "integ0"%string. split; [reflexivity|]. split; [cbn; repeat split; discriminate|]. auto.
    + destruct o; [destruct Q|]. apply in_app_or in Q as [Q|Q].
      * destruct full_dg; [|destruct Q]. destruct Q as [Q|[]]. injection Q as <- <- <-. split; [right; auto|]. exists "integ1"%string. split; [reflexivity|]. split; [cbn; repeat split; discriminate|]. auto.
      * apply in_flat_map in Q as (b & Hb & [Q|[Q|[]]]); apply in_seq in Hb; injection Q as <- <- <-; (split; [right; split; [auto|]; right; split; [auto|lia]|]).
        -- exists ("bdr" ++ index_key b)%string. split; [reflexivity|]. split; [cbn; repeat split; try discriminate; auto|]. right. right. split; [auto|]. exists b. auto.
        -- exists ("zero" ++ index_key b)%string. split; [reflexivity|]. split; [cbn; repeat split; try discriminate; auto|]. right. right. split; [auto|]. exists b. right. split; [lia|auto].
  - intros (Ow & s & -> & _ & V). destruct Ow as [(-> & ->)|(-> & [(-> & -> & ->)|(-> & Hi)])].
    + destruct V as [(_ & ->)|[(? & _)|(? & _)]]; try discriminate. left. reflexivity.
    + destruct V as [(? & _)|[(_ & ->)|(? & _)]]; try discriminate. right. left. reflexivity.
    + destruct V as [(? & _)|[(? & _)|(_ & b & V)]]; try discriminate. right. apply in_or_app. right. apply in_flat_map. exists b.
      destruct V as [(-> & ->)|(-> & ->)]; (split; [apply in_seq; lia|]); cbn [In]; [left|right; left]; reflexivity.
Qed.

Lemma owned_key o full_dg name nb t i : owned o full_dg nb t i -> exists nm, In (t, i, nm) (rule_keys o full_dg name nb).
Proof.
  intros Ow. pose proof Ow as [(-> & ->)|(-> & [(-> & -> & ->)|(-> & Hi)])].
  - eexists. left. reflexivity.
  - eexists. right. left. reflexivity.
  - pose proof (Nat.div_mod_eq i 2) as D. pose proof (Nat.mod_upper_bound i 2). destruct (i mod 2) as [|[|r]] eqn:M; [| |lia].
    + exists (name ++ "_bdr" ++ index_key (i / 2))%string. right. apply in_or_app. right. apply in_flat_map. exists (i / 2). split; [apply in_seq; lia|]. left. do 2 f_equal. lia.
    + exists (name ++ "_zero" ++ index_key (i / 2))%string. right. apply in_or_app. right. apply in_flat_map. exists (i / 2). split; [apply in_seq; lia|]. right. left. do 2 f_equal. lia.
Qed.

Lemma keys_inj o full_dg name name' nb nb' t i t' i' nm : In (t, i, nm) (rule_keys o full_dg name nb) -> In (t', i', nm) (rule_keys o full_dg name' nb') -> name = name' /\ t = t' /\ i = i'.
Proof.
  intros H H'. apply keys_names in H as (Ow & s & -> & Ns & V). apply keys_names in H' as (Ow' & s' & E & Ns' & V'). apply MbMiscProofs.app_char_inj_r in E as (-> & ->); auto. split; [auto|].
  assert (D : forall T I, owned o full_dg nb T I \/ owned o full_dg nb' T I -> T = Domain \/ T = InteriorFace -> I = 0) by (unfold owned; intros T I HO HT; intuition (subst; auto; try discriminate)).
  destruct V as [(-> & Es)|[(-> & Es)|(-> & b & [(-> & Es)|(-> & Es)])]], V' as [(-> & Es')|[(-> & Es')|(-> & b' & [(-> & Es')|(-> & Es')])]]; rewrite Es in Es'; try discriminate.
  - split; [auto|]. rewrite (D Domain i), (D Domain i'); auto.
  - split; [auto|]. rewrite (D InteriorFace i), (D InteriorFace i'); auto.
  - cbn in Es'. injection Es' as Es'. apply ConfigProofs.index_key_inj in Es'. auto.
  - cbn in Es'. injection Es' as Es'. apply ConfigProofs.index_key_inj in Es'. auto.
Qed.

Lemma keys_fun o full_dg name nb t i nm nm' : In (t, i, nm) (rule_keys o full_dg name nb) -> In (t, i, nm') (rule_keys o full_dg name nb) -> nm = nm'.
Proof.
  intros H H'. apply keys_names in H as (_ & s & -> & _ & V). apply keys_names in H' as (_ & s' & -> & _ & V'). do 2 f_equal.
  destruct V as [(-> & ->)|[(-> & ->)|(-> & b & V)]], V' as [(? & ->)|[(? & ->)|(? & b' & V')]]; try discriminate; auto.
  destruct V as [(-> & ->)|(-> & ->)], V' as [(Q & ->)|(Q & ->)]; try (exfalso; lia); do 2 f_equal; lia.
Qed.

Lemma nodup_app {A} (l l' : list A) : NoDup l -> NoDup l' -> (forall x, In x l -> In x l' -> False) -> NoDup (l ++ l').
Proof. induction l as [|a l IH]; intros N N' D; [auto|]. inversion N; subst. cbn [app]. constructor; [intros Q; apply in_app_or in Q as [Q|Q]; [auto|apply (D a); [left|]; auto]|]. apply IH; auto. intros x Hx. apply D. right. auto. Qed.
Lemma nodup_flat {A B} (h : A -> list B) l : NoDup l -> (forall a, In a l -> NoDup (h a)) -> (forall a a' b, In a l -> In a' l -> In b (h a) -> In b (h a') -> a = a') -> NoDup (flat_map h l).
Proof.
  induction l as [|a l IH]; intros N H1 H2; cbn [flat_map]; [constructor|]. inversion N as [|? ? Na Nl]; subst. apply nodup_app.
  - apply H1. left. auto.
  - apply IH; auto; intros; [apply H1; right; auto|]. eapply H2; try (right; eassumption); eauto.
  - intros x Hx Q. apply in_flat_map in Q as (a' & Ha & Hx'). apply Na. rewrite (H2 a a' x); auto; [left|right]; auto.
Qed.
Lemma nodup_map {A B} (f : A -> B) l : NoDup l -> (forall a b, In a l -> In b l -> f a = f b -> a = b) -> NoDup (map f l).
Proof.
  induction l as [|a l IH]; intros N H; cbn [map]; [constructor|]. inversion N as [|? ? Na Nl]; subst. constructor.
  - intros Q. apply in_map_iff in Q as (b & Q & Hb). apply Na. rewrite (H a b); auto; [left|right]; auto.
  - apply IH; auto. intros; apply H; auto; right; auto.
Qed.

Lemma keys_nodup o full_dg name nb : NoDup (rule_keys o full_dg name nb).
Proof.
  unfold rule_keys. constructor.
  - destruct o; [intros []|]. intros Q. apply in_app_or in Q as [Q|Q]; [destruct full_dg; [destruct Q as [Q|[]]; discriminate|destruct Q]|]. apply in_flat_map in Q as (b & _ & [Q|[Q|[]]]); discriminate.
  - destruct o; [constructor|]. apply nodup_app.
    + destruct full_dg; repeat constructor. intros [].
    + apply nodup_flat; [apply seq_NoDup| |].
      * intros b _. repeat constructor; [|intros []]. intros [Q|[]]. injection Q as Q. lia.
      * intros a a' x _ _ [<-|[<-|[]]] [Q|[Q|[]]]; injection Q as Q _; lia.
    + intros x Hx Q. apply in_flat_map in Q as (b & _ & [<-|[<-|[]]]); destruct full_dg; try (destruct Hx as [Q|[]]; discriminate); destruct Hx.
Qed.

(** ** Components *)

Definition rule_at (F : eform) (t : itype) (i : nat) : list (sinfo R) := match get_rule F t i with Ok (Some l) => l | _ => [] end.
Definition entries (o : oper) (full_dg : bool) (nm : string) (nb : nat) (F : eform) : list entry :=
  map (fun k => (snd k, (fst (fst k), rule_at F (fst (fst k)) (snd (fst k))))) (rule_keys o full_dg nm nb).

Lemma save_comp o full_dg nm nb F g : has_rules o full_dg nb F -> ofold (save_rule F) (rule_keys o full_dg nm nb) g = write_all (entries o full_dg nm nb F) g.
Proof.
  intros H. unfold write_all, entries. assert (Q : forall l, incl l (rule_keys o full_dg nm nb) -> forall g, ofold (save_rule F) l g =
    ofold (fun g e => write_samples g (fst e) (fst (snd e)) (snd (snd e))) (map (fun k => (snd k, (fst (fst k), rule_at F (fst (fst k)) (snd (fst k))))) l) g).
  { induction l as [|[[t i] n] l IH]; intros Hl g0; [reflexivity|]. cbn [ofold map fst snd]. unfold save_rule at 1.
    assert (Ho : owned o full_dg nb t i) by (apply (keys_names o full_dg nm nb t i n), Hl; left; auto). unfold rule_at at 1.
    destruct (H t i Ho) as (s & E). rewrite E. cbn [obind]. destruct (write_samples g0 n t s); cbn [obind]; auto. apply IH. intros x Hx. apply Hl. right. auto. }
  apply Q. apply incl_refl.
Qed.

(** Loading the rules found in the group. *)
Lemma load_comp o full_dg nm nb g (src : itype -> nat -> list (sinfo R)) F : has_integs o full_dg nb F ->
  (forall t i n, In (t, i, n) (rule_keys o full_dg nm nb) -> read_samples g n t = Ok (src t i)) ->
  exists F', ofold (load_rule g) (rule_keys o full_dg nm nb) F = Ok F' /\ skel F' = skel F /\ forall t i, owned o full_dg nb t i -> get_rule F' t i = Ok (Some (src t i)).
Proof.
  intros HI HR. assert (Len : forall G t i, skel G = skel F -> owned o full_dg nb t i -> i < List.length (rules G t)).
  { intros G t i Sk Ow. rewrite (skel_len _ _ t Sk). destruct (HI t i Ow) as (r & E). destruct t; cbn [get_rule rules] in *; rewrite ?map_length; try discriminate;
      match goal with |- i < ?n => destruct (Nat.ltb_spec i n); [auto|discriminate] end. }
  destruct (ofold_inv (load_rule g) (fun p F' => skel F' = skel F /\ forall t i n, In (t, i, n) p -> get_rule F' t i = Ok (Some (src t i))) (rule_keys o full_dg nm nb) F) as (F' & E & Sk & V).
  - split; [auto|]. intros t i n [].
  - intros p [[t i] n] q G El (Sk & V). assert (Hin : In (t, i, n) (rule_keys o full_dg nm nb)) by (rewrite El; apply in_or_app; right; left; auto).
    assert (Ow : owned o full_dg nb t i) by (apply (keys_names _ _ _ _ _ _ _) in Hin; tauto). pose proof (Len G t i Sk Ow) as Li. unfold load_rule. rewrite (get_rule_ok G t i Li). cbn [obind].
    rewrite (HR t i n Hin). cbn [obind]. destruct (put_rule_ok G t i (Some (src t i)) Li) as (G' & EG & SG & RG). exists G'. split; [exact EG|]. split; [congruence|].
    intros t' i' n' Hp. assert (Hin' : In (t', i', n') (rule_keys o full_dg nm nb)). { rewrite El. apply in_app_or in Hp as [Hp|[Hp|[]]]; apply in_or_app; [left; auto|right; left; auto]. }
    assert (Ow' : owned o full_dg nb t' i') by (apply (keys_names _ _ _ _ _ _ _) in Hin'; tauto).
    rewrite get_rule_ok by (apply Len; [congruence|auto]). rewrite RG. apply in_app_or in Hp as [Hp|[Hp|[]]].
    + pose proof (V t' i' n' Hp) as Q. rewrite (get_rule_ok G t' i') in Q by (apply Len; auto). injection Q as Q.
      destruct (teqb t' t) eqn:T; [|rewrite Q; auto]. assert (t' = t) by (destruct t', t; auto; discriminate). subst t'.
      destruct (Nat.eq_dec i i') as [->|Ne]; [rewrite nth_upd_eq by auto; auto|rewrite nth_upd_ne by auto; rewrite Q; auto].
    + injection Hp as <- <- <-. replace (teqb t t) with true by (destruct t; auto). rewrite nth_upd_eq by auto. auto.
  - exists F'. split; [auto|]. split; [auto|]. intros t i Ow. destruct (owned_key o full_dg nm nb t i Ow) as (n & Hn). eapply V; eauto.
Qed.

(** ** The file *)

Definition dform : eform := EForm 0 [] [] [] None.
Definition comp_entries o full_dg names nbs (E : list eform) (c : nat) : list entry := entries o full_dg (nth c names ""%string) (nth c nbs 0) (nth c E dform).
Definition pname (names : list string) (p : nat * nat * nat * nat) : string := let '(c1, c2, a1, a2) := p in port_name (nth c1 names ""%string) (nth c2 names ""%string) a1 a2.
Definition port_entries names refs (rs : list rule) (p : nat) : list entry :=
  [(pname names (nth p refs (0, 0, 0, 0)), (Interface, match nth p rs None with Some l => l | None => [] end))].

Lemma ref_name_ok names p : ref_ok names p -> ref_name names p = Ok (pname names p).
Proof. destruct p as [[[c1 c2] a1] a2]. intros (H1 & H2). unfold ref_name. rewrite (oread_nth names c1 ""%string), (oread_nth names c2 ""%string) by auto. reflexivity. Qed.

Lemma pname_inj names p p' : NoDup names -> (forall n, In n names -> TagsSpec.no_char ":"%char n) -> ref_ok names p -> ref_ok names p' -> pname names p = pname names p' -> p = p'.
Proof.
  destruct p as [[[c1 c2] a1] a2], p' as [[[d1 d2] b1] b2]. intros N NC (H1 & H2) (H3 & H4) E. apply MbMiscProofs.port_name_inj in E as (E1 & E2 & -> & ->); try (apply NC, nth_In; auto).
  rewrite NoDup_nth in N. rewrite (N c1 d1 H1 H3 E1), (N c2 d2 H2 H4 E2). auto.
Qed.

Lemma same_pname names names' p p' : ref_ok names p -> ref_ok names' p' -> same_port names names' p p' -> pname names p = pname names' p'.
Proof.
  destruct p as [[[c1 c2] a1] a2], p' as [[[d1 d2] b1] b2]. intros (H1 & H2) (H3 & H4) (E1 & E2 & -> & ->). cbn [pname].
  rewrite (nth_error_nth' names ""%string H1), (nth_error_nth' names' ""%string H3) in E1. rewrite (nth_error_nth' names ""%string H2), (nth_error_nth' names' ""%string H4) in E2.
  injection E1 as ->. injection E2 as ->. auto.
Qed.

Lemma save_eq o full_dg names nbs refs E rs : can_save o full_dg names nbs refs E rs ->
  save_eqps o full_dg names nbs refs E rs =
    let* grp := write_all (flat_map (comp_entries o full_dg names nbs E) (seq 0 (List.length names))) {| attrs := [("number_of_components"%string, Z.of_nat (List.length names))]; links := [] |} in
    match o with
    | OBase => Ok {| attrs := []; links := [("components"%string, Grp (attrs grp) (links grp))] |}
    | OLax => let* ig := write_all (flat_map (port_entries names refs rs) (seq 0 (List.length refs))) empty_group in
        Ok {| attrs := []; links := [("interface_integ0"%string, Grp (attrs ig) (links ig)); ("components"%string, Grp (attrs grp) (links grp))] |}
    end.
Proof.
  intros (LE & Ln & HR & HP). unfold save_eqps. rewrite LE, Nat.eqb_refl. cbn [oassert]. change (h5_create_attr empty_group "number_of_components" (Z.of_nat (List.length names)))
    with (Ok {| attrs := [("number_of_components"%string, Z.of_nat (List.length names))]; links := ([] : list (string * hobj R)) |}). cbn [obind].
  rewrite (write_for _ (comp_entries o full_dg names nbs E)).
  2: { intros c g Hc. rewrite (oread_nth E c dform), (oread_nth names c ""%string), (oread_nth nbs c 0) by lia. cbn [obind]. apply save_comp. apply (HR c); apply nth_error_nth'; lia. }
  destruct (write_all _ _) as [grp| |]; cbn [obind]; auto. change (h5_create empty_group "components" (Grp (attrs grp) (links grp)))
    with (Ok {| attrs := []; links := [("components"%string, Grp (attrs grp) (links grp))] |}). cbn [obind]. destruct o; [auto|]. destruct (HP eq_refl) as (_ & Hr & _ & Lr & Nr).
  unfold save_itf. rewrite (write_for _ (port_entries names refs rs)).
  2: { intros p g Hp. rewrite (oread_nth refs p (0, 0, 0, 0)) by auto. cbn [obind]. rewrite ref_name_ok by (apply Hr, nth_In; auto). cbn [obind]. rewrite (oread_nth rs p None) by lia. cbn [obind].
    unfold port_entries. destruct (nth p rs None) as [l|] eqn:El.
    - unfold write_all. cbn [ofold fst snd]. destruct (write_samples g _ Interface l); reflexivity.
    - exfalso. apply Nr. rewrite <- El. apply nth_In. lia. }
  destruct (write_all (flat_map (port_entries names refs rs) _) _) as [ig| |]; cbn [obind]; auto.
Qed.

Lemma comp_nodup o full_dg names nbs E : NoDup names -> NoDup (map fst (flat_map (comp_entries o full_dg names nbs E) (seq 0 (List.length names)))).
Proof.
  intros N. rewrite flat_map_concat_map, concat_map, map_map, <- flat_map_concat_map. apply nodup_flat; [apply seq_NoDup| |].
  - intros c _. unfold comp_entries, entries. rewrite map_map. apply nodup_map; [apply keys_nodup|]. intros [[t i] n] [[t' i'] n'] H H' Q. cbn [fst snd] in Q. subst n'. destruct (keys_inj _ _ _ _ _ _ _ _ _ _ _ H H') as (_ & -> & ->). auto.
  - intros c c' n Hc Hc' H H'. unfold comp_entries, entries in H, H'. rewrite map_map in H, H'. cbn [fst] in H, H'. apply in_map_iff in H as ([[t i] x] & Q & H). apply in_map_iff in H' as ([[t' i'] x'] & Q' & H').
    cbn [snd] in Q, Q'. subst x x'. destruct (keys_inj _ _ _ _ _ _ _ _ _ _ _ H H') as (Q & _). rewrite NoDup_nth in N. apply in_seq in Hc, Hc'. apply (N c c'); [lia|lia|exact Q].
Qed.

Lemma port_nodup names refs rs : NoDup names -> NoDup refs -> (forall p, In p refs -> ref_ok names p) -> (forall n, In n names -> TagsSpec.no_char ":"%char n) ->
  NoDup (map fst (flat_map (port_entries names refs rs) (seq 0 (List.length refs)))).
Proof.
  intros N Nr Hr NC. rewrite flat_map_concat_map, concat_map, map_map, <- flat_map_concat_map. apply nodup_flat; [apply seq_NoDup| |].
  - intros p _. cbn. repeat constructor. intros [].
  - intros p p' n Hp Hp' [<-|[]] [Q|[]]. apply in_seq in Hp, Hp'. cbn [fst] in Q. apply pname_inj in Q; auto; try (apply Hr, nth_In; lia). rewrite NoDup_nth in Nr. symmetry in Q. revert Q. apply Nr; lia.
Qed.

Theorem files_ok o full_dg names nbs refs E rs names' nbs' refs' E' rs' : NoDup names -> can_save o full_dg names nbs refs E rs ->
  can_load o full_dg names nbs refs names' nbs' refs' E' rs' ->
  exists file E2 rs2, save_eqps o full_dg names nbs refs E rs = Ok file /\ load_eqps o full_dg names' nbs' refs' file E' rs' = Ok (E2, rs2) /\
    List.length E2 = List.length names' /\
    (forall c' c n nb F F' F2, nth_error names' c' = Some n -> nth_error names c = Some n -> nth_error nbs' c' = Some nb ->
       nth_error E c = Some F -> nth_error E' c' = Some F' -> nth_error E2 c' = Some F2 ->
       same_shape F2 F' /\ forall t i, owned o full_dg nb t i -> get_rule F2 t i = get_rule F t i) /\
    (o = OBase -> rs2 = rs') /\
    (o = OLax -> List.length rs2 = List.length refs' /\
       forall p' p q' q, nth_error refs' p' = Some q' -> nth_error refs p = Some q -> same_port names names' q q' -> nth_error rs2 p' = nth_error rs p).
Proof.
  intros N CS (Ll & LE' & Ln' & HC & HI & HP'). rewrite (save_eq _ _ _ _ _ _ _ CS). destruct CS as (LE & Ln & HR & HP).
  destruct (write_all_ok (flat_map (comp_entries o full_dg names nbs E) (seq 0 (List.length names))) {| attrs := [("number_of_components"%string, Z.of_nat (List.length names))]; links := [] |}
    (comp_nodup o full_dg names nbs E N)) as (grp & Eg & Ag & Vg); [intros e _ []|]. rewrite Eg. cbn [obind].
  assert (Idx : forall c c', c < List.length names -> c' < List.length names -> nth c names ""%string = nth c' names ""%string -> c = c') by (rewrite NoDup_nth in N; apply N).
  (* the components *)
  assert (LC : exists E2, omap (fun c => let* F := oread E' c in let* nm := oread names' c in let* nb := oread nbs' c in ofold (load_rule grp) (rule_keys o full_dg nm nb) F) (seq 0 (List.length names')) = Ok E2 /\
    List.length E2 = List.length names' /\ forall c' c n nb F F' F2, nth_error names' c' = Some n -> nth_error names c = Some n -> nth_error nbs' c' = Some nb ->
       nth_error E c = Some F -> nth_error E' c' = Some F' -> nth_error E2 c' = Some F2 -> same_shape F2 F' /\ forall t i, owned o full_dg nb t i -> get_rule F2 t i = get_rule F t i).
  { destruct (BupAsmProofs.omap_seq_Q (fun c => let* F := oread E' c in let* nm := oread names' c in let* nb := oread nbs' c in ofold (load_rule grp) (rule_keys o full_dg nm nb) F)
      (fun c' F2 => skel F2 = skel (nth c' E' dform) /\ exists c, c < List.length names /\ nth c names ""%string = nth c' names' ""%string /\
         forall t i, owned o full_dg (nth c' nbs' 0) t i -> get_rule F2 t i = get_rule (nth c E dform) t i) (List.length names')) as (E2 & EE & L2 & V).
    - intros c' Hc'. rewrite (oread_nth E' c' dform), (oread_nth names' c' ""%string), (oread_nth nbs' c' 0) by lia. cbn [obind].
      destruct (HC c' (nth c' names' ""%string) (nth c' nbs' 0)) as (c & nb & E1 & E2 & Hle); [apply nth_error_nth'; lia|apply nth_error_nth'; lia|].
      assert (Hc : c < List.length names) by (apply nth_error_Some; congruence).
      destruct (load_comp o full_dg (nth c' names' ""%string) (nth c' nbs' 0) grp (rule_at (nth c E dform)) (nth c' E' dform)) as (F2 & EF & Sk & VF).
      + apply (HI c'); apply nth_error_nth'; lia.
      + intros t i n Hk. apply read_found. apply Vg. apply in_flat_map. exists c. split; [apply in_seq; lia|]. unfold comp_entries, entries. apply in_map_iff. exists (t, i, n). split; [reflexivity|].
        rewrite (nth_error_nth _ _ ""%string E1), (nth_error_nth _ _ 0 E2). apply keys_names in Hk as (Ow & Hs). apply keys_names. split; [|exact Hs].
        unfold owned in *. intuition lia.
      + exists F2. split; [exact EF|]. split; [exact Sk|]. exists c. split; [auto|]. split; [apply nth_error_nth; auto|]. intros t i Ow. rewrite VF by auto. unfold rule_at.
        destruct (HR c (nth c E dform) nb) with (t := t) (i := i) as (l & El); [apply nth_error_nth'; lia|auto|unfold owned in *; intuition lia|]. rewrite El. auto.
    - exists E2. split; [exact EE|]. split; [auto|]. intros c' c n nb F F' F2 H1 H2 H3 H4 H5 H6. assert (Hc' : c' < List.length names') by (apply nth_error_Some; congruence).
      destruct (V c' dform Hc') as (Sk & c0 & Hc0 & En & Vr). rewrite (nth_error_nth _ _ dform H6) in *. rewrite (nth_error_nth _ _ dform H5) in Sk. rewrite (nth_error_nth _ _ ""%string H1) in En. rewrite (nth_error_nth _ _ 0 H3) in Vr.
      assert (c0 = c). { apply Idx; auto; [apply nth_error_Some; congruence|]. rewrite En, (nth_error_nth _ _ ""%string H2). auto. } subst c0. rewrite (nth_error_nth _ _ dform H4) in Vr. split; [|exact Vr].
      unfold skel in Sk. injection Sk as S1 S2 S3 S4 S5. unfold same_shape. auto. }
  destruct LC as (E2 & EL & L2 & V2). unfold load_eqps. destruct grp as [ga gl]. cbn [HdfModel.attrs] in Ag. subst ga.
  destruct o.
  - eexists. exists E2, rs'. split; [reflexivity|]. unfold h5_open_group at 1. cbn [links find_name String.eqb Ascii.eqb Bool.eqb obind]. unfold h5_read_attr. cbn [attrs find_name String.eqb Ascii.eqb Bool.eqb obind].
    rewrite (proj2 (Z.leb_le _ _)) by lia. cbn [oassert]. rewrite LE', Nat.eqb_refl. cbn [oassert]. cbn [HdfModel.attrs HdfModel.links] in *. rewrite EL. cbn [obind]. split; [auto|]. split; [auto|]. split; [exact V2|]. split; [auto|discriminate].
  - destruct (HP eq_refl) as (Nr & Hr & NC & Lr & Nn). destruct (HP' eq_refl) as (Lr' & Hr').
    destruct (write_all_ok (flat_map (port_entries names refs rs) (seq 0 (List.length refs))) empty_group (port_nodup names refs rs N Nr Hr NC)) as (ig & Ei & _ & Vi); [intros e _ []|]. rewrite Ei. cbn [obind].
    assert (LI : exists rs2, load_itf names' refs' ig rs' = Ok rs2 /\ List.length rs2 = List.length refs' /\
      forall p' p q' q, nth_error refs' p' = Some q' -> nth_error refs p = Some q -> same_port names names' q q' -> nth_error rs2 p' = nth_error rs p).
    { unfold load_itf. match goal with |- context [ofor ?n ?f ?x] => destruct (ofor_inv n f (fun i r => List.length r = List.length refs' /\
        forall p' p q' q, p' < i -> nth_error refs' p' = Some q' -> nth_error refs p = Some q -> same_port names names' q q' -> nth_error r p' = nth_error rs p) x) as (r & Er & Lr2 & Vr) end.
      - split; [auto|]. intros; lia.
      - intros i r Hi (Lq & V). rewrite (oread_nth refs' i (0, 0, 0, 0)) by auto. cbn [obind]. set (q0' := nth i refs' (0, 0, 0, 0)). destruct (Hr' q0') as (Rq' & q0 & Hq0 & Sq); [apply nth_In; auto|].
        rewrite ref_name_ok by auto. cbn [obind]. destruct (In_nth _ _ (0, 0, 0, 0) Hq0) as (p0 & Hp0 & Ep0).
        assert (Rd : read_samples ig (pname names' q0') Interface = Ok (match nth p0 rs None with Some l => l | None => [] end)).
        { apply read_found, Vi. apply in_flat_map. exists p0. split; [apply in_seq; lia|]. unfold port_entries. left. rewrite Ep0, (same_pname names names' q0 q0'); auto. }
        rewrite Rd. cbn [obind]. unfold owrite. rewrite (proj2 (Nat.ltb_lt _ _)) by lia. eexists. split; [reflexivity|]. split; [rewrite upd_length; auto|].
        intros p' p q' q Hp' E1 E2' S. destruct (Nat.eq_dec p' i) as [->|Ne].
        + rewrite nth_error_upd_eq by lia. assert (q' = q0') by (unfold q0'; rewrite (nth_error_nth _ _ _ E1); auto). subst q'.
          assert (Q : q = q0). { apply (pname_inj names); auto; [apply Hr; eapply nth_error_In; eauto|]. rewrite (same_pname names names' q q0'), (same_pname names names' q0 q0'); auto. apply Hr. eapply nth_error_In; eauto. }
          subst q. assert (p = p0). { rewrite NoDup_nth in Nr. apply (Nr p p0); auto; [apply nth_error_Some; congruence|]. rewrite Ep0. rewrite (nth_error_nth _ _ _ E2'). auto. } subst p0.
          rewrite (nth_error_nth' rs None) by lia. destruct (nth p rs None) as [l|] eqn:El; [auto|]. exfalso. apply Nn. rewrite <- El. apply nth_In. lia.
        + rewrite nth_error_upd_ne by auto. apply (V p' p q' q); auto. lia.
      - exists r. split; [exact Er|]. split; [auto|]. intros p' p q' q E1. apply Vr; auto. apply nth_error_Some. congruence. }
    destruct LI as (rs2 & El & Lr2 & Vr). eexists. exists E2, rs2. split; [reflexivity|]. unfold h5_open_group. cbn [links find_name String.eqb Ascii.eqb Bool.eqb obind]. unfold h5_read_attr. cbn [attrs find_name String.eqb Ascii.eqb Bool.eqb obind].
    rewrite (proj2 (Z.leb_le _ _)) by lia. cbn [oassert]. rewrite LE', Nat.eqb_refl. cbn [oassert]. destruct ig as [ia il]. cbn [HdfModel.attrs HdfModel.links] in *. rewrite EL. cbn [obind]. rewrite El. cbn [obind].
    split; [auto|]. split; [auto|]. split; [exact V2|]. split; [discriminate|]. intros _. split; [exact Lr2|exact Vr].
Qed.

Lemma nodup_app_r {A} (l l' : list A) : NoDup (l ++ l') -> NoDup l'.
Proof. induction l; cbn [app]; intros H; [auto|]. inversion H; auto. Qed.

(** Two components of the same name. *)
Theorem duplicate_abort o full_dg names nbs refs E rs : ~ NoDup names -> can_save o full_dg names nbs refs E rs -> save_eqps o full_dg names nbs refs E rs = Abort.
Proof.
  intros N CS. rewrite (save_eq _ _ _ _ _ _ _ CS). rewrite write_all_dup; [reflexivity|]. left. intros ND. apply N. apply NoDup_nth with (d := ""%string). intros c c' Hc Hc' Q.
  destruct (Nat.eq_dec c c') as [|Ne]; [auto|]. exfalso.
  assert (Two : forall l, NoDup (map fst (flat_map (comp_entries o full_dg names nbs E) l)) -> NoDup l -> In c l -> In c' l -> False).
  { assert (First : forall c, In (nth c names ""%string ++ "_integ0")%string (map fst (comp_entries o full_dg names nbs E c))) by (intros k; left; reflexivity).
    assert (App : forall (a b : list string), NoDup (a ++ b) -> forall x, In x a -> In x b -> False).
    { induction a as [|y a IH]; intros b Nb x Hx Hb; [destruct Hx|]. inversion Nb; subst. destruct Hx as [->|Hx]; [apply H1; apply in_or_app; auto|eapply IH; eauto]. }
    induction l as [|k l IH]; intros Nd Nl H H'; [destruct H|]. cbn [flat_map] in Nd. rewrite map_app in Nd. inversion Nl; subst.
    assert (Sub : forall j, In j l -> In (nth j names ""%string ++ "_integ0")%string (map fst (flat_map (comp_entries o full_dg names nbs E) l))).
    { intros j Hj. rewrite flat_map_concat_map, concat_map, map_map, <- flat_map_concat_map. apply in_flat_map. exists j. split; [auto|apply First]. }
    destruct H as [->|H], H' as [->|H']; auto.
    - apply (App _ _ Nd (nth c' names ""%string ++ "_integ0")%string); [rewrite <- Q; apply First|apply Sub; auto].
    - apply (App _ _ Nd (nth c' names ""%string ++ "_integ0")%string); [apply First|rewrite <- Q; apply Sub; auto].
    - apply IH; auto. exact (nodup_app_r _ _ Nd). }
  apply (Two (seq 0 (List.length names)) ND (seq_NoDup _ _)); apply in_seq; lia.
Qed.

(** ** Another run of the same problem *)

Lemma again_ok g o full_dg s cu cp dim tr names refs rs rs' E0 E : geo_ok g -> stokes_bases s g cu cp dim -> List.length cu = ncomp g ->
  alloc_eqps g o full_dg s cu = Ok E0 -> train_eqps tr E0 = Ok E -> NoDup names -> List.length names = ncomp g ->
  (o = OLax -> NoDup refs /\ (forall p, In p refs -> ref_ok names p) /\ (forall n, In n names -> TagsSpec.no_char ":"%char n) /\ List.length rs = List.length refs /\ ~ In None rs) ->
  List.length rs' = List.length refs ->
  exists file rs2, save_eqps o full_dg names (map (@List.length Z) (g_attrs g)) refs E rs = Ok file /\
    load_eqps o full_dg names (map (@List.length Z) (g_attrs g)) refs file E0 rs' = Ok (E, rs2) /\ (o = OLax -> rs2 = rs).
Proof.
  intros G SB Lu Ea Et N Ln HP Lr'. destruct (alloc_ok g s cu cp dim G SB Lu o full_dg) as (E0' & Ea' & La & Fr). assert (E0' = E0) by congruence. subst E0'. clear Ea'.
  assert (Lg : List.length (g_attrs g) = ncomp g) by (destruct G as (_ & H & _); auto).
  assert (TE : List.length E = ncomp g /\ forall c, c < ncomp g -> exists F F', nth_error E0 c = Some F /\ fresh_form g s cu o full_dg c F /\ nth_error E c = Some F' /\ train_form (tr c) F = Ok F').
  { unfold train_eqps in Et. rewrite La in Et.
    destruct (BupAsmProofs.omap_seq_Q (fun c => let* F := oread E0 c in train_form (tr c) F) (fun c F' => exists F, nth_error E0 c = Some F /\ fresh_form g s cu o full_dg c F /\ train_form (tr c) F = Ok F') (ncomp g)) as (E' & EE & LE & V).
    - intros c Hc. destruct (Fr c Hc) as (F & EF & FF). unfold oread. rewrite EF. cbn [obind]. destruct (trained_ok g s cu o full_dg (tr c) c F FF) as (F' & E' & _). exists F'. split; [auto|]. exists F. auto.
    - assert (E' = E) by congruence. subst E'. split; [auto|]. intros c Hc. destruct (V c (EForm 0 [] [] [] None) Hc) as (F & H1 & H2 & H3). exists F, (nth c E (EForm 0 [] [] [] None)).
      split; [auto|]. split; [auto|]. split; [apply nth_error_nth'; lia|auto]. }
  destruct TE as (LE & TE).
  assert (Nb : forall c nb, nth_error (map (@List.length Z) (g_attrs g)) c = Some nb -> c < ncomp g /\ nb = List.length (attrs_of g c)).
  { intros c nb H. assert (Hc : c < ncomp g) by (rewrite <- Lg, <- (map_length (@List.length Z)); apply nth_error_Some; congruence). split; [auto|].
    rewrite nth_error_map in H. rewrite (nth_error_nth' (g_attrs g) []) in H by lia. injection H as <-. reflexivity. }
  assert (Own : forall c t i F, c < ncomp g -> fresh_form g s cu o full_dg c F -> owned o full_dg (List.length (attrs_of g c)) t i <-> (t <> Interface /\ i < List.length (rules F t))).
  { intros c t i F Hc FF. destruct (fresh_rules g s cu o full_dg c F FF) as (L1 & L2 & L3). unfold ints, nbdr in *. unfold owned.
    destruct t; rewrite ?L1, ?L2, ?L3; (split; [intros [(? & ?)|(? & [(? & ? & ?)|(? & ?)])]; try discriminate; subst; cbn; (split; [discriminate|lia])|]); intros (Hn & Hi); try (destruct Hn; reflexivity).
    - left. split; [auto|lia].
    - right. destruct o; [cbn in Hi; lia|]. destruct full_dg; cbn in Hi; [|lia]. split; [auto|]. left. split; [auto|]. split; [auto|lia].
    - right. destruct o; [cbn in Hi; lia|]. split; [auto|]. right. split; [auto|lia]. }
  assert (Get : forall c F F' t i, c < ncomp g -> fresh_form g s cu o full_dg c F -> train_form (tr c) F = Ok F' -> owned o full_dg (List.length (attrs_of g c)) t i -> get_rule F' t i = Ok (Some (tr c t i))).
  { intros c F F' t i Hc FF ET Ow. destruct (trained_ok g s cu o full_dg (tr c) c F FF) as (F'' & E'' & _ & Q1 & Q2 & Q3). assert (F'' = F') by congruence. subst F''.
    destruct Ow as [(-> & ->)|(-> & [(-> & -> & ->)|(-> & Hi)])]; auto. pose proof (Nat.div_mod_eq i 2) as D. pose proof (Nat.mod_upper_bound i 2). rewrite D. apply Q3; [auto| |auto]. apply Nat.div_lt_upper_bound; lia. }
  destruct (files_ok o full_dg names (map (@List.length Z) (g_attrs g)) refs E rs names (map (@List.length Z) (g_attrs g)) refs E0 rs' N) as (file & E2 & rs2 & Es & El & L2 & V & VB & VL).
  - split; [congruence|]. split; [rewrite map_length; congruence|]. split; [|exact HP]. intros c F nb HF Hn t i Ow. destruct (Nb c nb Hn) as (Hc & ->).
    destruct (TE c Hc) as (F0 & F' & H1 & H2 & H3 & H4). assert (F' = F) by congruence. subst F'. exists (tr c t i). eapply Get; eauto.
  - split; [auto|]. split; [congruence|]. split; [rewrite map_length; congruence|]. split; [|split].
    + intros c n nb H1 H2. exists c, nb. auto.
    + intros c F nb HF Hn t i Ow. destruct (Nb c nb Hn) as (Hc & ->). destruct (Fr c Hc) as (F0 & H1 & H2). assert (F0 = F) by congruence. subst F0. eexists. apply get_rule_ok. apply (Own c t i F Hc H2). auto.
    + intros ->. destruct (HP eq_refl) as (_ & Hr & _). split; [auto|]. intros p Hp. split; [auto|]. exists p. split; [auto|]. destruct p as [[[c1 c2] a1] a2]. repeat split.
  - exists file, rs2. split; [exact Es|]. split.
    + rewrite El. do 2 f_equal. apply nth_ext with (d := dform) (d' := dform); [congruence|]. intros c Hc. rewrite L2, Ln in Hc. destruct (TE c Hc) as (F & F' & H1 & H2 & H3 & H4).
      destruct (V c c (nth c names ""%string) (List.length (attrs_of g c)) F' F (nth c E2 dform)) as (Sh & Rl); try (apply nth_error_nth'; lia); auto.
      { rewrite nth_error_map, (nth_error_nth' (g_attrs g) []) by lia. reflexivity. }
      rewrite (nth_error_nth _ _ dform H3). destruct (trained_ok g s cu o full_dg (tr c) c F H2) as (F'' & E'' & Sk & _). assert (F'' = F') by congruence. subst F''.
      assert (Sk2 : skel (nth c E2 dform) = skel F') by (rewrite Sk; destruct Sh as (S1 & S2 & S3 & S4 & S5); unfold skel; congruence). apply eform_eq; [exact Sk2|].
      intros t. pose proof (skel_len _ _ t Sk2) as Lt. apply nth_ext with (d := None) (d' := None); [exact Lt|]. intros i Hi. assert (Hn : t <> Interface) by (intros ->; cbn in Hi; lia).
      assert (Ow : owned o full_dg (List.length (attrs_of g c)) t i) by (apply (Own c t i F Hc H2); split; [auto|]; rewrite <- (skel_len _ _ t Sk), <- Lt; exact Hi).
      pose proof (Rl t i Ow) as Q. rewrite (get_rule_ok _ t i Hi), (get_rule_ok F' t i) in Q by (rewrite <- Lt; exact Hi). injection Q as Q. exact Q.
    + intros ->. destruct (VL eq_refl) as (Lq & Vq). destruct (HP eq_refl) as (_ & Hr & _ & Lr & Nn). apply nth_ext with (d := None) (d' := None); [etransitivity; [exact Lq|symmetry; exact Lr]|]. intros p Hp. assert (Hp2 : p < List.length refs) by (rewrite <- Lq; exact Hp).
      assert (Q : nth_error rs2 p = nth_error rs p). { apply (Vq p p (nth p refs (0, 0, 0, 0)) (nth p refs (0, 0, 0, 0))); try (apply nth_error_nth'; auto). destruct (nth p refs (0, 0, 0, 0)) as [[[? ?] ?] ?]. repeat split. }
      rewrite (nth_error_nth' rs2 None Hp), (nth_error_nth' rs None) in Q by (rewrite Lr; exact Hp2). injection Q as Q. exact Q.
Qed.

(** Files of the other operator. *)
Lemma base_file full_dg names nbs refs E rs file full_dg' names' nbs' refs' E' rs' : save_eqps OBase full_dg names nbs refs E rs = Ok file ->
  forall r, load_eqps OLax full_dg' names' nbs' refs' file E' rs' <> Ok r.
Proof.
  unfold save_eqps. intros H r Q. apply oassert_ok in H as (_ & H). apply obind_ok in H as (g1 & _ & H). apply obind_ok in H as (g2 & _ & H). change (h5_create empty_group "components" (Grp (attrs g2) (links g2)))
    with (Ok {| attrs := []; links := [("components"%string, Grp (attrs g2) (links g2))] |}) in H. cbn [obind] in H. injection H as <-. unfold load_eqps in Q.
  apply obind_ok in Q as (g3 & _ & Q). apply obind_ok in Q as (n & _ & Q). apply oassert_ok in Q as (_ & Q). apply oassert_ok in Q as (_ & Q). apply obind_ok in Q as (E2 & _ & Q). apply obind_ok in Q as (ig & Q & _).
  unfold h5_open_group in Q. cbn in Q. discriminate.
Qed.
