(** Proofs about the ownership of sample lists. *)
From Coq Require Import List Bool Lia Arith ZArith FinFun.
From Verif Require Import Outcome ListLemmas LaBase EqpOwnModel EqpOwnSpec.
Import ListNotations.
Local Open Scope nat_scope.

(** ** Owners of heap cells *)

Definition deref {A} (h : heap A) (o : option nat) : option A := match o with None => None | Some p => nth p h None end.

Section Own.
  Context {A K : Type} (Kdec : forall a b : K, {a = b} + {a <> b}).

  (** Owned cells are live, have one owner, and every live cell is owned. *)
  Definition own_ok (h : heap A) (own : K -> option nat) : Prop :=
    (forall k p, own k = Some p -> exists a, nth_error h p = Some (Some a)) /\
    (forall k k' p, own k = Some p -> own k' = Some p -> k = k') /\
    (forall p a, nth_error h p = Some (Some a) -> exists k, own k = Some p).

  Lemma own_ext h own own' : own_ok h own -> (forall k, own' k = own k) -> own_ok h own'.
  Proof.
    intros (H1 & H2 & H3) E. split; [|split].
    - intros k p. rewrite E. apply H1.
    - intros k k' p. rewrite !E. apply H2.
    - intros p a H. destruct (H3 p a H) as (k & Hk). exists k. rewrite E. auto.
  Qed.

  Lemma own_delete h own own' k : own_ok h own -> own' k = None -> (forall k', k' <> k -> own' k' = own k') ->
    exists h', hdelete h (own k) = Ok h' /\ own_ok h' own' /\ forall k', k' <> k -> deref h' (own k') = deref h (own k').
  Proof.
    intros (H1 & H2 & H3) N E. destruct (own k) as [p|] eqn:Ek.
    - destruct (H1 k p Ek) as (a & Ha). cbn [hdelete]. unfold hfree. rewrite Ha. exists (upd h p None). split; [reflexivity|].
      assert (Hp : p < List.length h) by (apply nth_error_Some; congruence). split; [split; [|split]|].
      + intros k' q Hq. destruct (Kdec k' k) as [->|Nk]; [congruence|]. rewrite E in Hq by auto. assert (Nq : p <> q) by (intros ->; apply Nk; eapply H2; eauto).
        rewrite nth_error_upd_ne by auto. eauto.
      + intros k1 k2 q Q1 Q2. destruct (Kdec k1 k) as [->|N1]; [congruence|]. destruct (Kdec k2 k) as [->|N2]; [congruence|]. rewrite E in Q1, Q2 by auto. eapply H2; eauto.
      + intros q b Hq. destruct (Nat.eq_dec p q) as [->|Nq]; [rewrite nth_error_upd_eq in Hq by auto; discriminate|]. rewrite nth_error_upd_ne in Hq by auto.
        destruct (H3 q b Hq) as (k' & Hk'). exists k'. rewrite E; auto. intros ->. congruence.
      + intros k' Nk. destruct (own k') as [q|] eqn:Eq; auto. unfold deref. rewrite nth_upd_ne; auto. intros ->. apply Nk. eapply H2; eauto.
    - exists h. split; [reflexivity|]. split; [|auto]. apply own_ext with own; [repeat split; auto|]. intros k'. destruct (Kdec k' k) as [->|Nk]; [congruence|auto].
  Qed.

  Lemma own_alloc h own own' k a : own_ok h own -> own k = None -> own' k = Some (List.length h) -> (forall k', k' <> k -> own' k' = own k') ->
    own_ok (fst (halloc h a)) own' /\ deref (fst (halloc h a)) (own' k) = Some a /\ forall k', k' <> k -> deref (fst (halloc h a)) (own k') = deref h (own k').
  Proof.
    intros (H1 & H2 & H3) N E0 E. cbn [halloc fst]. split; [split; [|split]|split].
    - intros k' q Hq. destruct (Kdec k' k) as [->|Nk].
      + rewrite E0 in Hq. injection Hq as <-. exists a. rewrite nth_error_app2, Nat.sub_diag by auto. reflexivity.
      + rewrite E in Hq by auto. destruct (H1 k' q Hq) as (b & Hb). exists b. rewrite nth_error_app1; auto. apply nth_error_Some. congruence.
    - assert (Lt : forall k' q, own k' = Some q -> q < List.length h) by (intros k' q Hq; destruct (H1 k' q Hq) as (b & Hb); apply nth_error_Some; congruence).
      intros k1 k2 q Q1 Q2. destruct (Kdec k1 k) as [->|N1], (Kdec k2 k) as [->|N2]; auto.
      + rewrite E in Q2 by auto. rewrite E0 in Q1. injection Q1 as <-. apply Lt in Q2. lia.
      + rewrite E in Q1 by auto. rewrite E0 in Q2. injection Q2 as <-. apply Lt in Q1. lia.
      + rewrite E in Q1, Q2 by auto. eapply H2; eauto.
    - intros q b Hq. destruct (Nat.lt_ge_cases q (List.length h)) as [L|L].
      + rewrite nth_error_app1 in Hq by auto. destruct (H3 q b Hq) as (k' & Hk'). exists k'. rewrite E; auto. intros ->. congruence.
      + exists k. rewrite E0. f_equal. assert (q < List.length (h ++ [Some a])) by (apply nth_error_Some; congruence). rewrite app_length in H. cbn in H. lia.
    - rewrite E0. unfold deref. rewrite app_nth2, Nat.sub_diag by auto. reflexivity.
    - intros k' Nk. destruct (own k') as [q|] eqn:Eq; auto. unfold deref. destruct (H1 k' q Eq) as (b & Hb). rewrite app_nth1; auto. apply nth_error_Some. congruence.
  Qed.

  Lemma own_replace h own own' k a sl i : own_ok h own -> i < List.length sl -> nth i sl None = own k -> own' k = Some (List.length h) -> (forall k', k' <> k -> own' k' = own k') ->
    exists h', replace_slot h sl i a = Ok (h', upd sl i (Some (List.length h))) /\ own_ok h' own' /\ deref h' (own' k) = Some a /\
      (forall k', k' <> k -> deref h' (own k') = deref h (own k')) /\ List.length h' = S (List.length h).
  Proof.
    intros W Hi Es E0 E.
    destruct (own_delete h own (fun k' => if Kdec k' k then None else own k') k W) as (h1 & D & W1 & V1).
    { destruct (Kdec k k); [auto|congruence]. } { intros k' N. destruct (Kdec k' k); [congruence|auto]. }
    assert (L1 : List.length h1 = List.length h).
    { unfold hdelete in D. destruct (own k) as [p|]; [|injection D as <-; auto]. unfold hfree in D. destruct (nth_error h p) as [[x|]|]; try discriminate. injection D as <-. apply upd_length. }
    destruct (own_alloc h1 _ own' k a W1) as (W2 & V2 & V3).
    { destruct (Kdec k k); [auto|congruence]. } { rewrite L1. auto. } { intros k' N. destruct (Kdec k' k); [congruence|auto]. }
    exists (fst (halloc h1 a)). split.
    - unfold replace_slot, oread. rewrite (nth_error_nth' sl None Hi), Es. cbn [obind]. rewrite D. cbn [obind halloc fst]. unfold owrite. rewrite (proj2 (Nat.ltb_lt _ _) Hi). cbn [obind].
      rewrite L1. reflexivity.
    - split; [auto|]. split; [auto|]. split.
      + intros k' N. specialize (V3 k' N). destruct (Kdec k' k); [congruence|]. rewrite V3. auto.
      + cbn [halloc fst]. rewrite app_length, L1. cbn. lia.
  Qed.

  (** Deleting a list of owned cells *)
  Lemma own_delete_all ks : forall h own own', own_ok h own -> NoDup ks -> (forall k, In k ks -> own' k = None) -> (forall k, ~ In k ks -> own' k = own k) ->
    exists h', delete_all h (map own ks) = Ok h' /\ own_ok h' own' /\ forall k, ~ In k ks -> deref h' (own k) = deref h (own k).
  Proof.
    induction ks as [|k ks IH]; intros h own own' W ND E0 E; cbn [map].
    - exists h. split; [reflexivity|]. split; [|auto]. apply own_ext with own; auto.
    - inversion ND; subst. destruct (own_delete h own (fun k' => if Kdec k' k then None else own k') k W) as (h1 & D & W1 & V1).
      { destruct (Kdec k k); [auto|congruence]. } { intros k' N. destruct (Kdec k' k); [congruence|auto]. }
      destruct (IH h1 _ own' W1 H2) as (h2 & D2 & W2 & V2).
      { intros k' Hk. apply E0. right. auto. }
      { intros k' Hk. destruct (Kdec k' k) as [->|N]; [apply E0; left; auto|]. apply E. intros [Q|Q]; auto. }
      exists h2. unfold delete_all in *. cbn [ofold]. rewrite D. cbn [obind]. split; [|split; [auto|]].
      + rewrite <- D2. f_equal. apply map_ext_in. intros k' Hk. destruct (Kdec k' k) as [->|N]; [contradiction|auto].
      + intros k' Hk. assert (N : k' <> k) by (intros ->; apply Hk; left; auto). specialize (V2 k' (fun Q => Hk (or_intror Q))). destruct (Kdec k' k); [congruence|]. rewrite V2. auto.
  Qed.
End Own.

(** ** Forms on domains *)

Lemma kind_eqb_spec a b : reflect (a = b) (kind_eqb a b).
Proof. destruct a, b; constructor; congruence. Qed.

Definition wkey := (nat * kind * nat)%type.
Definition wkey_dec : forall a b : wkey, {a = b} + {a <> b}.
Proof. repeat decide equality. Defined.

Definition wown {A} (w : world A) (q : wkey) : option nat :=
  let '(f, k, i) := q in
  match nth_error (w_forms w) f with Some (Some F) => if rf_ref F then nth i (rf_slots F k) None else None | _ => None end.

Definition winv {A} (ops : list (wop A)) (w : world A) : Prop :=
  map (option_map rf_ref) (w_forms w) = alive ops /\ own_ok (w_heap w) (wown w) /\
  (forall f F k i, nth_error (w_forms w) f = Some (Some F) -> rf_ref F = true -> last_update ops f k i = deref (w_heap w) (nth i (rf_slots F k) None)) /\
  (forall f k i, List.length (w_forms w) <= f -> last_update ops f k i = None).

Lemma alive_snoc {A} (ops : list (wop A)) o : alive (ops ++ [o]) = alive_step (alive ops) o.
Proof. unfold alive. rewrite fold_left_app. reflexivity. Qed.

Lemma script_snoc {A} (ops : list (wop A)) o : script (ops ++ [o]) -> script ops /\ on_alive (alive ops) o.
Proof.
  intros H. split; [|apply (H ops o [] eq_refl)]. intros p x q E. apply (H p x (q ++ [o])). rewrite E, <- app_assoc. reflexivity.
Qed.

Lemma last_update_snoc {A} (ops : list (wop A)) o f k i : last_update (ops ++ [o]) f k i =
  match o with WUpdate f' k' i' a => if (f' =? f) && kind_eqb k' k && (i' =? i) then Some a else last_update ops f k i | _ => last_update ops f k i end.
Proof. unfold last_update. rewrite fold_left_app. reflexivity. Qed.

Lemma get_form_alive {A} (w : world A) (ops : list (wop A)) f r : map (option_map rf_ref) (w_forms w) = alive ops -> nth_error (alive ops) f = Some (Some r) ->
  exists F, get_form w f = Ok F /\ nth_error (w_forms w) f = Some (Some F) /\ rf_ref F = r.
Proof.
  intros E H. rewrite <- E, nth_error_map in H. unfold get_form. destruct (nth_error (w_forms w) f) as [[F|]|]; try discriminate. cbn in H. injection H as <-. exists F. auto.
Qed.

Lemma map_upd {A B} (g : A -> B) l i a : map g (upd l i a) = upd (map g l) i (g a).
Proof. revert i. induction l; intros [|i]; cbn [upd map]; auto. f_equal. auto. Qed.

Lemma upd_same {A} (l : list A) i a : nth_error l i = Some a -> upd l i a = l.
Proof. revert i. induction l; intros [|i] H; cbn [upd] in *; try discriminate; auto; cbn in H; [congruence|]. f_equal. auto. Qed.

Lemma put_form_ok {A} (w : world A) f F0 F : nth_error (w_forms w) f = Some F0 -> put_form w f F = Ok (World (w_heap w) (upd (w_forms w) f F)).
Proof. intros H. unfold put_form, owrite. rewrite (proj2 (Nat.ltb_lt _ _)); [reflexivity|]. apply nth_error_Some. congruence. Qed.

Lemma nth_snoc_none {A} (l : list (option A)) i : nth i (l ++ [None]) None = nth i l None.
Proof.
  destruct (Nat.lt_ge_cases i (List.length l)) as [L|L]; [rewrite app_nth1; auto|]. rewrite app_nth2 by auto. rewrite (nth_overflow l) by auto.
  destruct (i - List.length l) as [|[|x]]; reflexivity.
Qed.

Lemma map_nth_seq {A} (l : list A) d : map (fun i => nth i l d) (seq 0 (List.length l)) = l.
Proof. apply (nth_ext _ _ d d); [rewrite map_length, seq_length; auto|]. intros i Hi. rewrite map_length, seq_length in Hi. rewrite nth_map_seq by auto. reflexivity. Qed.

Definition step_ok {A} (ops : list (wop A)) (o : wop A) (r : outcome (world A)) : Prop :=
  r <> UB /\ forall w, r = Ok w -> winv (ops ++ [o]) w.

Lemma wstep_ok {A} ops (o : wop A) w : winv ops w -> on_alive (alive ops) o -> step_ok ops o (wstep w o).
Proof.
  intros (Ea & W & U & U0) On. destruct o as [r|f k|f k i a|v kv iv r kr ir|f]; cbn [wstep on_alive] in *.
  - split; [discriminate|]. intros w' E. injection E as <-. red. cbn [w_forms w_heap]. rewrite alive_snoc, <- Ea, map_app. split; [reflexivity|].
    assert (Ow : forall q, wown (World (w_heap w) (w_forms w ++ [Some (RForm r (fun _ : kind => []))])) q = wown w q).
    { intros ((f, k), i). unfold wown. cbn [w_forms]. destruct (Nat.lt_ge_cases f (List.length (w_forms w))) as [L|L]; [rewrite nth_error_app1; auto|].
      rewrite nth_error_app2 by auto. rewrite (proj2 (nth_error_None (w_forms w) f) L). destruct (f - List.length (w_forms w)) as [|[|x]]; cbn; auto. destruct i, r; auto. }
    split; [eapply own_ext; eauto|]. split.
    + intros f F k i Hf Hr. rewrite last_update_snoc. destruct (Nat.lt_ge_cases f (List.length (w_forms w))) as [L|L]; [rewrite nth_error_app1 in Hf by auto; auto|].
      rewrite nth_error_app2 in Hf by auto. rewrite U0 by auto. destruct (f - List.length (w_forms w)) as [|[|x]]; cbn in Hf; try discriminate. injection Hf as <-. cbn [rf_slots]. destruct i; reflexivity.
    + intros f k i Hf. rewrite app_length in Hf. cbn in Hf. rewrite last_update_snoc. apply U0. lia.
  - destruct On as (r & Hr). destruct (get_form_alive w ops f r Ea Hr) as (F & Eg & Ef & Er). rewrite Eg. cbn [obind]. rewrite (put_form_ok w f (Some F)) by auto.
    split; [discriminate|]. intros w' E. injection E as <-. red. cbn [w_forms w_heap]. assert (Hf : f < List.length (w_forms w)) by (apply nth_error_Some; congruence). split; [|split; [|split]].
    + rewrite alive_snoc, <- Ea, map_upd. cbn [option_map set_slots rf_ref alive_step]. apply upd_same. rewrite nth_error_map, Ef. reflexivity.
    + eapply own_ext; [exact W|]. intros ((f', k'), i). unfold wown. cbn [w_forms]. destruct (Nat.eq_dec f f') as [<-|N]; [|rewrite nth_error_upd_ne; auto].
      rewrite nth_error_upd_eq, Ef by auto. cbn [set_slots rf_ref rf_slots]. destruct (kind_eqb_spec k' k) as [->|]; [|auto]. rewrite nth_snoc_none. auto.
    + intros f' F' k' i Hf' Hr'. rewrite last_update_snoc. destruct (Nat.eq_dec f f') as [<-|N]; [|rewrite nth_error_upd_ne in Hf' by auto; auto].
      rewrite nth_error_upd_eq in Hf' by auto. injection Hf' as <-. cbn [set_slots rf_ref rf_slots] in *. rewrite (U f F) by auto. destruct (kind_eqb_spec k' k) as [->|]; [|auto]. rewrite nth_snoc_none. auto.
    + intros f' k' i Hf'. rewrite upd_length in Hf'. rewrite last_update_snoc. auto.
  - destruct On as (r & Hr). destruct (get_form_alive w ops f r Ea Hr) as (F & Eg & Ef & Er). rewrite Eg. cbn [obind]. destruct (rf_ref F) eqn:RF; cbn [oassert]; [|split; discriminate].
    destruct (Nat.ltb_spec i (List.length (rf_slots F k))) as [Hi|]; cbn [oassert]; [|split; discriminate].
    assert (Hf : f < List.length (w_forms w)) by (apply nth_error_Some; congruence).
    set (F' := set_slots F k (upd (rf_slots F k) i (Some (List.length (w_heap w))))).
    assert (OwF : forall h : heap A, wown (World h (upd (w_forms w) f (Some F'))) (f, k, i) = Some (List.length (w_heap w))).
    { intros h. unfold wown. cbn [w_forms]. rewrite nth_error_upd_eq by auto. unfold F'. cbn [set_slots rf_ref rf_slots]. rewrite RF. destruct (kind_eqb_spec k k); [|congruence]. rewrite nth_upd_eq by auto. reflexivity. }
    assert (OwN : forall (h : heap A) q, q <> (f, k, i) -> wown (World h (upd (w_forms w) f (Some F'))) q = wown w q).
    { intros h ((f', k'), i') N. unfold wown. cbn [w_forms]. destruct (Nat.eq_dec f f') as [<-|Nf]; [|rewrite nth_error_upd_ne; auto]. rewrite nth_error_upd_eq, Ef by auto. unfold F'. cbn [set_slots rf_ref rf_slots]. rewrite RF.
      destruct (kind_eqb_spec k' k) as [->|]; [|auto]. rewrite nth_upd_ne; [auto|congruence]. }
    destruct (own_replace wkey_dec (w_heap w) (wown w) (wown (World (w_heap w) (upd (w_forms w) f (Some F')))) (f, k, i) a (rf_slots F k) i) as (h' & R & W' & D1 & D2 & _); auto.
    { unfold wown. rewrite Ef, RF. auto. }
    rewrite R. cbn [obind]. rewrite (put_form_ok (World h' (w_forms w)) f (Some F)) by auto. split; [discriminate|]. intros w' E. injection E as <-. red. cbn [w_forms w_heap]. fold F'. split; [|split; [|split]].
    + rewrite alive_snoc, <- Ea, map_upd. cbn [option_map alive_step]. apply upd_same. rewrite nth_error_map, Ef. reflexivity.
    + eapply own_ext; [exact W'|]. intros ((f', k'), i'). reflexivity.
    + intros f' G k' i' Hg Rg. rewrite last_update_snoc.
      assert (Eo : nth i' (rf_slots G k') None = wown (World (w_heap w) (upd (w_forms w) f (Some F'))) (f', k', i')) by (unfold wown; cbn [w_forms]; rewrite Hg, Rg; auto).
      rewrite Eo. destruct (wkey_dec (f', k', i') (f, k, i)) as [Q|Q].
      * injection Q as -> -> ->. rewrite D1, !Nat.eqb_refl. destruct (kind_eqb_spec k k); [reflexivity|congruence].
      * rewrite OwN, D2 by auto. destruct (Nat.eqb_spec f f') as [<-|Nf].
        -- rewrite nth_error_upd_eq in Hg by auto. injection Hg as <-. unfold wown. rewrite Ef, RF. destruct (kind_eqb_spec k k') as [<-|]; cbn [andb]; [|apply U; auto]. destruct (Nat.eqb_spec i i') as [<-|]; [congruence|apply U; auto].
        -- cbn [andb]. rewrite nth_error_upd_ne in Hg by auto. unfold wown. rewrite Hg, Rg. apply U; auto.
    + intros f' k' i' Hf'. rewrite upd_length in Hf'. rewrite last_update_snoc. destruct (Nat.eqb_spec f f') as [<-|]; [lia|]. cbn [andb]. auto.
  - destruct On as ((x & Hv) & (y & Hr)). destruct (get_form_alive w ops r y Ea Hr) as (R & Eg & Ef & Er). rewrite Eg. cbn [obind].
    destruct (Nat.ltb_spec ir (List.length (rf_slots R kr))) as [Hir|]; cbn [oassert]; [|split; discriminate].
    unfold oread. rewrite (nth_error_nth' _ None Hir). cbn [obind]. destruct (get_form_alive w ops v x Ea Hv) as (V & Evg & Evf & Evr). rewrite Evg. cbn [obind].
    destruct (rf_ref V) eqn:RV; cbn [negb oassert]; [split; discriminate|]. destruct (Nat.ltb_spec iv (List.length (rf_slots V kv))) as [Hiv|]; cbn [oassert]; [|split; discriminate].
    unfold owrite. rewrite (proj2 (Nat.ltb_lt _ _) Hiv). cbn [obind]. rewrite (put_form_ok w v (Some V)) by auto. assert (Hf : v < List.length (w_forms w)) by (apply nth_error_Some; congruence).
    split; [discriminate|]. intros w' E. injection E as <-. red. cbn [w_forms w_heap]. split; [|split; [|split]].
    + rewrite alive_snoc, <- Ea, map_upd. cbn [option_map set_slots rf_ref alive_step]. apply upd_same. rewrite nth_error_map, Evf. reflexivity.
    + eapply own_ext; [exact W|]. intros ((f', k'), i'). unfold wown. cbn [w_forms]. destruct (Nat.eq_dec v f') as [<-|N]; [|rewrite nth_error_upd_ne; auto].
      rewrite nth_error_upd_eq, Evf by auto. cbn [set_slots rf_ref]. rewrite RV. auto.
    + intros f' F' k' i' Hf' Hr'. rewrite last_update_snoc. destruct (Nat.eq_dec v f') as [<-|N]; [|rewrite nth_error_upd_ne in Hf' by auto; auto].
      rewrite nth_error_upd_eq in Hf' by auto. injection Hf' as <-. cbn [set_slots rf_ref] in Hr'. congruence.
    + intros f' k' i' Hf'. rewrite upd_length in Hf'. rewrite last_update_snoc. auto.
  - destruct On as (r & Hr). destruct (get_form_alive w ops f r Ea Hr) as (F & Eg & Ef & Er). rewrite Eg. cbn [obind]. assert (Hf : f < List.length (w_forms w)) by (apply nth_error_Some; congruence).
    set (w1 := fun h : heap A => World h (upd (w_forms w) f (@None rform))).
    assert (OwN : forall h f' k' i', f' <> f -> wown (w1 h) (f', k', i') = wown w (f', k', i')) by (intros; unfold wown, w1; cbn [w_forms]; rewrite nth_error_upd_ne; auto).
    assert (OwF : forall h k' i', wown (w1 h) (f, k', i') = None) by (intros; unfold wown, w1; cbn [w_forms]; rewrite nth_error_upd_eq by auto; auto).
    assert (Hh : exists h, (if rf_ref F then let* h := delete_all (w_heap w) (rf_slots F KDomain) in let* h := delete_all h (rf_slots F KInterior) in delete_all h (rf_slots F KBdr) else Ok (w_heap w)) = Ok h /\
      own_ok h (wown (w1 h)) /\ forall f' k' i', f' <> f -> deref h (wown w (f', k', i')) = deref (w_heap w) (wown w (f', k', i'))).
    { destruct (rf_ref F) eqn:RF.
      - set (ks := map (fun i => (f, KDomain, i)) (seq 0 (List.length (rf_slots F KDomain))) ++ map (fun i => (f, KInterior, i)) (seq 0 (List.length (rf_slots F KInterior))) ++ map (fun i => (f, KBdr, i)) (seq 0 (List.length (rf_slots F KBdr)))).
        assert (Ik : forall k i, In (f, k, i) ks <-> i < List.length (rf_slots F k)).
        { intros k i. unfold ks. rewrite !in_app_iff, !in_map_iff. split.
          - intros [(j & Q & Hj)|[(j & Q & Hj)|(j & Q & Hj)]]; injection Q as <- <-; apply in_seq in Hj; lia.
          - intros H. destruct k; [left|right; left|right; right]; exists i; (split; [auto|apply in_seq; lia]). }
        assert (If : forall q, In q ks -> fst (fst q) = f) by (intros q; unfold ks; rewrite !in_app_iff, !in_map_iff; intros [(j & <- & _)|[(j & <- & _)|(j & <- & _)]]; auto).
        assert (Mk : forall k, map (wown w) (map (fun i => (f, k, i)) (seq 0 (List.length (rf_slots F k)))) = rf_slots F k).
        { intros k. rewrite map_map. rewrite <- (map_nth_seq (rf_slots F k) None) at 2. apply map_ext. intros i. unfold wown. rewrite Ef, RF. auto. }
        destruct (own_delete_all wkey_dec ks (w_heap w) (wown w) (wown (w1 []))) as (h & D & W' & V); auto.
        + unfold ks. assert (Nd : forall k, NoDup (map (fun i => (f, k, i)) (seq 0 (List.length (rf_slots F k))))).
          { intros k. apply Injective_map_NoDup; [intros a b Q; congruence|apply seq_NoDup]. }
          assert (Dj : forall k k' q, k <> k' -> In q (map (fun i => (f, k, i)) (seq 0 (List.length (rf_slots F k)))) -> ~ In q (map (fun i => (f, k', i)) (seq 0 (List.length (rf_slots F k'))))).
          { intros k k' q Nk Hq Hq'. apply in_map_iff in Hq, Hq'. destruct Hq as (j & <- & _), Hq' as (j' & Q & _). congruence. }
          assert (App : forall (l1 l2 : list wkey), NoDup l1 -> NoDup l2 -> (forall q, In q l1 -> ~ In q l2) -> NoDup (l1 ++ l2)).
          { induction l1 as [|z l1 IH]; intros l2 N1 N2 H; cbn [app]; auto. inversion N1; subst. constructor.
            - rewrite in_app_iff. intros [Q|Q]; [auto|]. exact (H z (or_introl eq_refl) Q).
            - apply IH; auto. intros q Q. apply H. right. auto. }
          apply App; [apply Nd|apply App; [apply Nd|apply Nd|intros q; apply Dj; discriminate]|].
          intros q Hq. rewrite in_app_iff. intros [Q|Q]; revert Hq Q; apply Dj; discriminate.
        + intros ((f', k'), i') Hq. pose proof (If _ Hq) as Q. cbn in Q. subst f'. apply OwF.
        + intros ((f', k'), i') Hq. destruct (Nat.eq_dec f' f) as [->|N]; [|apply OwN; auto]. rewrite OwF. unfold wown. rewrite Ef, RF. rewrite nth_overflow; auto.
          rewrite Ik in Hq. lia.
        + exists h. split; [|split].
          * unfold ks in D. rewrite !map_app, !Mk in D. unfold delete_all in *. rewrite ofold_app in D. destruct (ofold hdelete (rf_slots F KDomain) (w_heap w)) as [h1| |]; try discriminate. cbn [obind] in *.
            rewrite ofold_app in D. exact D.
          * eapply own_ext; [exact W'|]. intros q. reflexivity.
          * intros f' k' i' N. apply V. intros Q. apply If in Q. cbn in Q. congruence.
      - exists (w_heap w). split; [reflexivity|]. split; [|auto]. eapply own_ext; [exact W|]. intros ((f', k'), i'). destruct (Nat.eq_dec f' f) as [->|N]; [|apply OwN; auto].
        rewrite OwF. unfold wown. rewrite Ef, RF. auto. }
    destruct Hh as (h & Eh & Wh & Vh). rewrite Eh. cbn [obind]. rewrite (put_form_ok (World h (w_forms w)) f (Some F)) by auto. split; [discriminate|]. intros w' E. injection E as <-.
    red. cbn [w_forms w_heap]. split; [|split; [exact Wh|split]].
    + rewrite alive_snoc, <- Ea, map_upd. reflexivity.
    + intros f' F' k' i' Hf' Hr'. rewrite last_update_snoc. destruct (Nat.eq_dec f' f) as [->|N]; [rewrite nth_error_upd_eq in Hf' by auto; discriminate|]. rewrite nth_error_upd_ne in Hf' by auto.
      specialize (Vh f' k' i' N). unfold wown in Vh. rewrite Hf', Hr' in Vh. rewrite Vh. auto.
    + intros f' k' i' Hf'. rewrite upd_length in Hf'. rewrite last_update_snoc. auto.
Qed.

Theorem wrun_ok {A} (ops : list (wop A)) : script ops -> wrun ops <> UB /\ forall w, wrun ops = Ok w -> winv ops w.
Proof.
  unfold wrun. induction ops as [|o ops IH] using rev_ind; intros S.
  - split; [discriminate|]. intros w E. injection E as <-. split; [reflexivity|]. split; [|split].
    + split; [|split].
      * intros ((f, k), i) p. cbn. destruct f; discriminate.
      * intros ((f, k), i) q p. cbn. destruct f; discriminate.
      * intros p a. destruct p; discriminate.
    + intros f F k i H. destruct f; discriminate.
    + reflexivity.
  - apply script_snoc in S. destruct S as (S & On). destruct (IH S) as (NU & Inv). rewrite ofold_app. destruct (ofold wstep ops (World [] [])) as [w| |] eqn:E; cbn [obind ofold].
    + destruct (wstep_ok ops o w (Inv w eq_refl) On) as (N1 & I1). destruct (wstep w o) as [w1| |]; cbn [obind] in *; [split; [discriminate|]; intros w' Q; injection Q as <-; auto|split; congruence|congruence].
    + split; congruence.
    + congruence.
Qed.

(** Reference forms always use the samples most recently given to them. *)
Theorem reference_use {A} (ops : list (wop A)) w f k i : script ops -> wrun ops = Ok w -> nth_error (alive ops) f = Some (Some true) ->
  (exists F, nth_error (w_forms w) f = Some (Some F) /\ i < List.length (rf_slots F k)) ->
  wuse w f k i = match last_update ops f k i with Some a => Ok a | None => Abort end.
Proof.
  intros S E Hf (F & EF & Hi). destruct (wrun_ok ops S) as (_ & Inv). destruct (Inv w E) as (Ea & (W1 & _) & U & _).
  assert (RF : rf_ref F = true). { rewrite <- Ea, nth_error_map, EF in Hf. cbn in Hf. congruence. }
  unfold wuse, get_form. rewrite EF. cbn [obind]. unfold oread. rewrite (nth_error_nth' _ None Hi). cbn [obind]. rewrite (U f F k i EF RF). destruct (nth i (rf_slots F k) None) as [p|] eqn:Ep; [|reflexivity].
  destruct (W1 (f, k, i) p) as (a & Ha); [unfold wown; rewrite EF, RF; auto|]. unfold hread, deref. rewrite Ha, (nth_error_nth _ _ None Ha). reflexivity.
Qed.

(** When every form has been deleted nothing is left. *)
Theorem all_freed {A} (ops : list (wop A)) w : script ops -> wrun ops = Ok w -> (forall f r, nth_error (alive ops) f <> Some (Some r)) ->
  forall p, p < List.length (w_heap w) -> nth p (w_heap w) None = None.
Proof.
  intros S E Hd p Hp. destruct (wrun_ok ops S) as (_ & Inv). destruct (Inv w E) as (Ea & (_ & _ & W3) & _).
  destruct (nth p (w_heap w) None) as [a|] eqn:En; auto. exfalso. destruct (W3 p a) as (((f, k), i) & O).
  - rewrite <- En. apply nth_error_nth'. auto.
  - unfold wown in O. destruct (nth_error (w_forms w) f) as [[F|]|] eqn:EF; try discriminate. apply (Hd f (rf_ref F)). rewrite <- Ea, nth_error_map, EF. reflexivity.
Qed.

(** ** Views *)

Definition vinv {A} (ops2 : list (wop A)) (w : world A) : Prop :=
  forall v V k i, nth_error (w_forms w) v = Some (Some V) -> rf_ref V = false ->
    match last_share ops2 v k i with
    | None => nth i (rf_slots V k) None = None
    | Some (r, kr, ir) => exists R, nth_error (w_forms w) r = Some (Some R) /\ rf_ref R = true /\ ir < List.length (rf_slots R kr) /\ nth i (rf_slots V k) None = nth ir (rf_slots R kr) None
    end.

Lemma last_share_snoc {A} (ops : list (wop A)) o v k i : last_share (ops ++ [o]) v k i =
  match o with WShare v' k' i' r kr ir => if (v' =? v) && kind_eqb k' k && (i' =? i) then Some (r, kr, ir) else last_share ops v k i | _ => last_share ops v k i end.
Proof. unfold last_share. rewrite fold_left_app. reflexivity. Qed.

(** Without sharing, views point nowhere. *)
Lemma no_share_views {A} (ops : list (wop A)) : script ops -> (forall o, In o ops -> no_share o) -> forall w, wrun ops = Ok w -> vinv [] w.
Proof.
  induction ops as [|o ops IH] using rev_ind; intros S N w E.
  - injection E as <-. intros v V k i H. destruct v; discriminate.
  - apply script_snoc in S. destruct S as (S & On). unfold wrun in E. rewrite ofold_app in E. destruct (ofold wstep ops (World [] [])) as [w0| |] eqn:E0; try discriminate. cbn [obind ofold] in E.
    specialize (IH S (fun o Ho => N o (in_or_app _ _ _ (or_introl Ho))) w0 E0). destruct (wrun_ok ops S) as (_ & Inv). destruct (Inv w0 E0) as (Ea & _).
    assert (No : no_share o) by (apply N, in_or_app; right; left; auto). destruct (wstep w0 o) as [w1| |] eqn:E1; try discriminate. injection E as ->.
    intros v V k i Hv RV. cbn. destruct o as [r|f k0|f k0 i0 a|vv kv iv r kr ir|f]; cbn [wstep on_alive no_share] in *; try contradiction.
    + injection E1 as <-. cbn [w_forms] in Hv. destruct (Nat.lt_ge_cases v (List.length (w_forms w0))) as [L|L]; [rewrite nth_error_app1 in Hv by auto; apply (IH v V k i Hv RV)|].
      rewrite nth_error_app2 in Hv by auto. destruct (v - List.length (w_forms w0)) as [|[|x]]; cbn in Hv; try discriminate. injection Hv as <-. cbn. destruct i; auto.
    + destruct On as (r & Hr). destruct (get_form_alive w0 ops f r Ea Hr) as (F & Eg & Ef & Er). rewrite Eg in E1. cbn [obind] in E1. rewrite (put_form_ok w0 f (Some F)) in E1 by auto. injection E1 as <-. cbn [w_forms] in Hv.
      assert (Hf : f < List.length (w_forms w0)) by (apply nth_error_Some; congruence). destruct (Nat.eq_dec f v) as [<-|Nf]; [|rewrite nth_error_upd_ne in Hv by auto; apply (IH v V k i Hv RV)].
      rewrite nth_error_upd_eq in Hv by auto. injection Hv as <-. cbn [set_slots rf_ref rf_slots] in *. destruct (kind_eqb_spec k k0) as [->|]; [rewrite nth_snoc_none|]; apply (IH f F _ i Ef RV).
    + destruct On as (r & Hr). destruct (get_form_alive w0 ops f r Ea Hr) as (F & Eg & Ef & Er). rewrite Eg in E1. cbn [obind] in E1. destruct (rf_ref F) eqn:RF; [|discriminate]. cbn [oassert] in E1.
      destruct (i0 <? List.length (rf_slots F k0)); [|discriminate]. cbn [oassert] in E1. destruct (replace_slot (w_heap w0) (rf_slots F k0) i0 a) as [(h', sl)| |]; try discriminate. cbn [obind] in E1.
      rewrite (put_form_ok (World h' (w_forms w0)) f (Some F)) in E1 by auto. injection E1 as <-. cbn [w_forms] in Hv. assert (Hf : f < List.length (w_forms w0)) by (apply nth_error_Some; congruence).
      destruct (Nat.eq_dec f v) as [<-|Nf]; [|rewrite nth_error_upd_ne in Hv by auto; apply (IH v V k i Hv RV)]. rewrite nth_error_upd_eq in Hv by auto. injection Hv as <-. cbn [set_slots rf_ref] in RV. congruence.
    + destruct On as (r & Hr). destruct (get_form_alive w0 ops f r Ea Hr) as (F & Eg & Ef & Er). rewrite Eg in E1. cbn [obind] in E1.
      match type of E1 with context[let* h := ?e in _] => destruct e as [h| |]; try discriminate end. cbn [obind] in E1. rewrite (put_form_ok (World h (w_forms w0)) f (Some F)) in E1 by auto. injection E1 as <-. cbn [w_forms] in Hv.
      assert (Hf : f < List.length (w_forms w0)) by (apply nth_error_Some; congruence). destruct (Nat.eq_dec f v) as [<-|Nf]; [rewrite nth_error_upd_eq in Hv by auto; discriminate|rewrite nth_error_upd_ne in Hv by auto; apply (IH v V k i Hv RV)].
Qed.

Lemma phase2_snoc {A} (pre ops : list (wop A)) o : phase2 pre (ops ++ [o]) -> phase2 pre ops /\ keeps_refs (alive (pre ++ ops)) o.
Proof.
  intros H. split; [|apply (H ops o [] eq_refl)]. intros p x q E. apply (H p x (q ++ [o])). rewrite E, <- app_assoc. reflexivity.
Qed.

Lemma phase2_views {A} (pre ops : list (wop A)) : script (pre ++ ops) -> (forall o, In o pre -> no_share o) -> phase2 pre ops -> forall w, wrun (pre ++ ops) = Ok w -> vinv ops w.
Proof.
  induction ops as [|o ops IH] using rev_ind; intros S N P w E.
  - rewrite app_nil_r in *. eapply no_share_views; eauto.
  - apply phase2_snoc in P. destruct P as (P & Ko). rewrite app_assoc in S, E. apply script_snoc in S. destruct S as (S & On). unfold wrun in E. rewrite ofold_app in E.
    destruct (ofold wstep (pre ++ ops) (World [] [])) as [w0| |] eqn:E0; try discriminate. cbn [obind ofold] in E.
    specialize (IH S N P w0 E0). destruct (wrun_ok (pre ++ ops) S) as (_ & Inv). destruct (Inv w0 E0) as (Ea & _).
    destruct (wstep w0 o) as [w1| |] eqn:E1; try discriminate. injection E as ->.
    intros v V k i Hv RV. rewrite last_share_snoc. destruct o as [r|f k0|f k0 i0 a|vv kv iv r kr ir|f]; cbn [wstep on_alive keeps_refs] in *; try contradiction.
    + injection E1 as <-. cbn [w_forms] in *. destruct (Nat.lt_ge_cases v (List.length (w_forms w0))) as [L|L].
      * rewrite nth_error_app1 in Hv by auto. specialize (IH v V k i Hv RV). destruct (last_share ops v k i) as [((r0, kr), ir)|]; auto.
        destruct IH as (R & ER & H). exists R. split; [|exact H]. rewrite nth_error_app1; auto. apply nth_error_Some. congruence.
      * assert (LN : last_share ops v k i = None).
        { assert (Q : forall l, (forall o, In o l -> match o with WShare v' _ _ _ _ _ => v' <> v | _ => True end) -> last_share (A := A) l v k i = None).
          { clear. induction l as [|o l IH] using rev_ind; intros H; [reflexivity|]. rewrite last_share_snoc. assert (Ho : In o (l ++ [o])) by (apply in_or_app; right; left; auto); apply H in Ho.
            specialize (IH (fun o Ho => H o (in_or_app _ _ _ (or_introl Ho)))). destruct o; auto. destruct (Nat.eqb_spec v0 v); [contradiction|]. auto. }
          apply Q. intros o Ho. destruct o as [ | | |v' k' i' r' kr' ir'| ]; auto. intros ->. apply in_split in Ho. destruct Ho as (l1 & l2 & ->).
          pose proof (S (pre ++ l1) _ l2 (eq_sym (eq_trans (eq_sym (app_assoc pre l1 _)) eq_refl))) as ((x & Hx) & _).
          assert (Mono : forall l l' : list (wop A), List.length (alive l) <= List.length (alive (l ++ l'))).
          { clear. intros l l'. induction l' as [|o l' IH] using rev_ind; [rewrite app_nil_r; auto|]. rewrite app_assoc, alive_snoc. destruct o; cbn [alive_step]; auto; [rewrite app_length; lia|rewrite upd_length; auto]. }
          specialize (Mono (pre ++ l1) (WShare v k' i' r' kr' ir' :: l2)). rewrite <- app_assoc, <- Ea, map_length in Mono.
          assert (v < List.length (alive (pre ++ l1))) by (apply nth_error_Some; congruence). lia. }
        rewrite LN. rewrite nth_error_app2 in Hv by auto. destruct (v - List.length (w_forms w0)) as [|[|x]]; cbn in Hv; try discriminate. injection Hv as <-. cbn. destruct i; auto.
    + destruct On as (r & Hr). destruct (get_form_alive w0 _ f r Ea Hr) as (F & Eg & Ef & Er). rewrite Eg in E1. cbn [obind] in E1. rewrite (put_form_ok w0 f (Some F)) in E1 by auto. injection E1 as <-. cbn [w_forms] in *.
      assert (Hf : f < List.length (w_forms w0)) by (apply nth_error_Some; congruence).
      assert (V0 : exists V0, nth_error (w_forms w0) v = Some (Some V0) /\ rf_ref V0 = false /\ nth i (rf_slots V0 k) None = nth i (rf_slots V k) None).
      { destruct (Nat.eq_dec f v) as [<-|Nf]; [|rewrite nth_error_upd_ne in Hv by auto; exists V; auto]. rewrite nth_error_upd_eq in Hv by auto. injection Hv as <-. exists F. split; [auto|]. split; [auto|].
        cbn [set_slots rf_slots]. destruct (kind_eqb_spec k k0) as [->|]; [rewrite nth_snoc_none|]; auto. }
      destruct V0 as (V0 & Hv0 & RV0 & Es). specialize (IH v V0 k i Hv0 RV0). destruct (last_share ops v k i) as [((r0, kr), ir)|]; [|congruence].
      destruct IH as (R & ER & H1 & H2 & H3). destruct (Nat.eq_dec f r0) as [->|Nf]; [|exists R; rewrite nth_error_upd_ne by auto; split; [auto|]; split; [auto|]; split; [auto|congruence]].
      rewrite Ef in ER. injection ER as ->. rewrite nth_error_upd_eq by auto. eexists. split; [reflexivity|]. cbn [set_slots rf_ref rf_slots]. split; [auto|].
      destruct (kind_eqb_spec kr k0) as [->|]; [rewrite nth_snoc_none, app_length; cbn [List.length]; split; [lia|congruence]|split; [auto|congruence]].
    + destruct On as ((x & Hvv) & _). destruct (get_form_alive w0 _ r true Ea Ko) as (R & Eg & Ef & Er). rewrite Eg in E1. cbn [obind] in E1.
      destruct (Nat.ltb_spec ir (List.length (rf_slots R kr))) as [Hir|]; [|discriminate]. cbn [oassert] in E1. unfold oread in E1. rewrite (nth_error_nth' _ None Hir) in E1. cbn [obind] in E1.
      destruct (get_form_alive w0 _ vv x Ea Hvv) as (VV & Evg & Evf & Evr). rewrite Evg in E1. cbn [obind] in E1. destruct (rf_ref VV) eqn:RVV; [discriminate|]. cbn [negb oassert] in E1.
      destruct (Nat.ltb_spec iv (List.length (rf_slots VV kv))) as [Hiv|]; [|discriminate]. cbn [oassert] in E1. unfold owrite in E1. rewrite (proj2 (Nat.ltb_lt _ _) Hiv) in E1. cbn [obind] in E1.
      rewrite (put_form_ok w0 vv (Some VV)) in E1 by auto. injection E1 as <-. cbn [w_forms] in *. assert (Hf : vv < List.length (w_forms w0)) by (apply nth_error_Some; congruence).
      assert (Keep : forall r0 R0, nth_error (w_forms w0) r0 = Some (Some R0) -> rf_ref R0 = true -> nth_error (upd (w_forms w0) vv (Some (set_slots VV kv (upd (rf_slots VV kv) iv (nth ir (rf_slots R kr) None))))) r0 = Some (Some R0)).
      { intros r0 R0 H1 H2. rewrite nth_error_upd_ne; auto. intros ->. congruence. }
      destruct (Nat.eqb_spec vv v) as [<-|Nv].
      * rewrite nth_error_upd_eq in Hv by auto. injection Hv as <-. cbn [set_slots rf_slots rf_ref] in *. destruct (kind_eqb_spec kv k) as [<-|Nk]; cbn [andb].
        -- destruct (kind_eqb_spec kv kv); [|congruence]. destruct (Nat.eqb_spec iv i) as [<-|Ni].
           ++ exists R. split; [apply Keep; auto|]. split; [auto|]. split; [auto|]. rewrite nth_upd_eq; auto.
           ++ rewrite nth_upd_ne by auto. specialize (IH vv VV kv i Evf RVV). destruct (last_share ops vv kv i) as [((r0, kr0), ir0)|]; auto. destruct IH as (R0 & ER & H1 & H2). exists R0. split; [apply Keep; auto|auto].
        -- destruct (kind_eqb_spec k kv); [congruence|]. specialize (IH vv VV k i Evf RVV). destruct (last_share ops vv k i) as [((r0, kr0), ir0)|]; auto. destruct IH as (R0 & ER & H1 & H2). exists R0. split; [apply Keep; auto|auto].
      * cbn [andb]. rewrite nth_error_upd_ne in Hv by auto. specialize (IH v V k i Hv RV). destruct (last_share ops v k i) as [((r0, kr0), ir0)|]; auto. destruct IH as (R0 & ER & H1 & H2). exists R0. split; [apply Keep; auto|auto].
    + destruct (get_form_alive w0 _ f false Ea Ko) as (F & Eg & Ef & Er). rewrite Eg in E1. cbn [obind] in E1. rewrite Er in E1. cbn [obind] in E1.
      rewrite (put_form_ok (World (w_heap w0) (w_forms w0)) f (Some F)) in E1 by auto. injection E1 as <-. cbn [w_forms] in *.
      assert (Hf : f < List.length (w_forms w0)) by (apply nth_error_Some; congruence). destruct (Nat.eq_dec f v) as [<-|Nf]; [rewrite nth_error_upd_eq in Hv by auto; discriminate|]. rewrite nth_error_upd_ne in Hv by auto.
      specialize (IH v V k i Hv RV). destruct (last_share ops v k i) as [((r0, kr0), ir0)|]; auto. destruct IH as (R0 & ER & H1 & H2). exists R0. split; [|auto]. rewrite nth_error_upd_ne; auto. intros ->. congruence.
Qed.

(** Views use the samples of the form they were pointed to. *)
Theorem view_use {A} (pre ops : list (wop A)) w v V k i : script (pre ++ ops) -> (forall o, In o pre -> no_share o) -> phase2 pre ops -> wrun (pre ++ ops) = Ok w ->
  nth_error (w_forms w) v = Some (Some V) -> rf_ref V = false -> i < List.length (rf_slots V k) ->
  wuse w v k i = match last_share ops v k i with
    | None => Abort
    | Some (r, kr, ir) => match last_update (pre ++ ops) r kr ir with Some a => Ok a | None => Abort end
    end.
Proof.
  intros S N P E Hv RV Hi. pose proof (phase2_views pre ops S N P w E v V k i Hv RV) as I.
  destruct (last_share ops v k i) as [((r, kr), ir)|].
  - destruct I as (R & ER & RR & Hir & Es). assert (Al : nth_error (alive (pre ++ ops)) r = Some (Some true)).
    { destruct (wrun_ok _ S) as (_ & Inv). destruct (Inv w E) as (Ea & _). rewrite <- Ea, nth_error_map, ER. cbn. congruence. }
    rewrite <- (reference_use (pre ++ ops) w r kr ir S E Al (ex_intro _ R (conj ER Hir))). unfold wuse, get_form. rewrite Hv, ER. cbn [obind]. unfold oread. rewrite (nth_error_nth' _ None Hi), (nth_error_nth' _ None Hir), Es. reflexivity.
  - unfold wuse, get_form. rewrite Hv. cbn [obind]. unfold oread. rewrite (nth_error_nth' _ None Hi), I. reflexivity.
Qed.
