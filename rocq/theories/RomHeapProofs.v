(** Ownership of the ROM operators. *)
From Coq Require Import List Bool Lia Arith.
From Verif Require Import Outcome RomModel.
Import ListNotations.

Definition ptr (s : hp) (x : nat) : option nat :=
  match x with 0 => hp_mat s | 1 => hp_mono s | 2 => hp_hypre s | 3 => hp_mumps s | 4 => hp_sol s | _ => None end.

(** Every pointer owns a live object of its own. *)
Record hinv (direct : bool) (s : hp) : Prop := {
  hi_lt : forall a, In a (hp_live s) -> a < hp_next s;
  hi_live : forall x a, ptr s x = Some a -> In a (hp_live s);
  hi_inj : forall x y a, ptr s x = Some a -> ptr s y = Some a -> x = y;
  hi_mat : hp_mat s <> None;
  hi_loaded : hp_loaded s = true -> (if direct then hp_mumps s else hp_mono s) <> None;
  hi_mumps : direct = false -> hp_mumps s = None
}.

Lemma h_del_ok live p : (forall a, p = Some a -> In a live) ->
  exists live', h_del live p = Ok live' /\ forall b, In b live' <-> In b live /\ p <> Some b.
Proof.
  intros H. destruct p as [a|]; cbn [h_del].
  - assert (E : existsb (Nat.eqb a) live = true) by (apply existsb_exists; exists a; split; [auto|apply Nat.eqb_refl]).
    rewrite E. cbn [oguard]. eexists. split; [reflexivity|]. intros b. rewrite filter_In.
    destruct (Nat.eqb_spec b a); cbn [negb]; split; intros (A & B); split; auto; congruence.
  - exists live. split; auto. intros b. split; [intros; split; auto; discriminate|tauto].
Qed.
Lemma h_use_ok live p : p <> None -> (forall a, p = Some a -> In a live) -> h_use live p = Ok tt.
Proof.
  intros N H. destruct p as [a|]; [|congruence]. cbn [h_use].
  assert (E : existsb (Nat.eqb a) live = true) by (apply existsb_exists; exists a; split; [auto|apply Nat.eqb_refl]).
  rewrite E. reflexivity.
Qed.

Lemma hinv_init direct : hinv direct hp_init.
Proof.
  constructor; cbn; try tauto; try congruence.
  - intros a [<-|[]]. lia.
  - intros [|[|[|[|[|x]]]]] a; cbn; intros [= <-]; auto.
  - intros [|[|[|[|[|x]]]]] [|[|[|[|[|y]]]]] a; cbn; congruence.
Qed.

(** What holds between the deletions of [SetRomMat]: pointers except the given one are intact. *)
Ltac ptrs := repeat match goal with
  | H : forall x a, ptr ?s x = Some a -> _ |- _ =>
      pose proof (H 0); pose proof (H 1); pose proof (H 2); pose proof (H 3); pose proof (H 4); clear H
  end.

Definition creator (c : rom_call) : bool := match c with CLoad | CSet _ => true | _ => false end.
Definition makes_mono (c : rom_call) : bool := match c with CSolve => false | _ => true end.
Definition is_solve (c : rom_call) : bool := match c with CSolve => true | _ => false end.

(** No leak so far: what lives is owned. *)
Definition owned (s : hp) : Prop := forall a, In a (hp_live s) -> exists x, ptr s x = Some a.

(** ** SetRomMat *)

(** [SetRomMat] on the current matrix, the old monolithic one being [mono]. *)
Lemma set_core direct s : hinv direct s -> hp_mono s = None ->
  exists s', hp_set direct false s = Ok s' /\ hinv direct s' /\ hp_mono s' <> None /\ hp_sol s' = hp_sol s /\
    (direct = true -> hp_mumps s' <> None) /\
    (owned s -> direct = false \/ hp_mumps s = None -> owned s').
Proof.
  intros [Lt Lv Inj Mt Ld Mp] Mono. unfold hp_set. cbn [obind]. rewrite Mono. cbn [h_del obind].
  rewrite h_use_ok by (auto; intros a E; apply (Lv 0); auto). cbn [obind h_new].
  assert (Fr : forall x a, ptr s x = Some a -> a < hp_next s) by (intros; eauto).
  destruct direct.
  - destruct (h_del_ok (hp_next s :: hp_live s) (hp_hypre s)) as (l & E & Hl); [intros a Ea; right; apply (Lv 2); auto|].
    rewrite E. cbn [obind]. eexists. split; [reflexivity|]. split; [|cbn; repeat split; auto; try congruence].
    + constructor; cbn [hp_live hp_next hp_mat hp_loaded hp_mumps]; auto; try congruence.
      * intros a [<-|[<-|Ha]]; try lia. apply Hl in Ha. destruct Ha as ([<-|Ha] & _); [lia|]. specialize (Lt _ Ha). lia.
      * intros [|[|[|[|[|x]]]]] a; cbn; intros Ea; try discriminate; try (injection Ea as <-).
        -- right. right. apply Hl. split; [right; apply (Lv 0); auto|]. intros C. pose proof (Inj 0 2 a Ea C). lia.
        -- right. right. apply Hl. split; [left; auto|]. intros C. pose proof (Fr 2 _ C). lia.
        -- right. left. auto.
        -- left. auto.
        -- right. right. apply Hl. split; [right; apply (Lv 4); auto|]. intros C. pose proof (Inj 4 2 a Ea C). lia.
      * intros [|[|[|[|[|x]]]]] [|[|[|[|[|y]]]]] a; cbn; intros Ea Eb; try discriminate; auto; exfalso;
        try (pose proof (Fr 0 _ Ea)); try (pose proof (Fr 0 _ Eb)); try (pose proof (Fr 4 _ Ea)); try (pose proof (Fr 4 _ Eb));
        try (injection Ea as Ea); try (injection Eb as Eb); try lia.
        -- pose proof (Inj 0 4 a Ea Eb). lia.
        -- pose proof (Inj 4 0 a Ea Eb). lia.
    + intros Ow [C|C] a Ha; [discriminate|]. cbn [hp_live] in Ha. destruct Ha as [<-|[<-|Ha]]; [exists 3; auto|exists 2; auto|].
      apply Hl in Ha. destruct Ha as ([<-|Ha] & Hn); [exists 1; auto|]. destruct (Ow a Ha) as ([|[|[|[|[|x]]]]] & Hx); cbn in Hx; try congruence.
      * exists 0. auto.
      * exists 4. auto.
  - eexists. split; [reflexivity|]. split; [|cbn; repeat split; auto; try congruence].
    + constructor; cbn [hp_live hp_next hp_mat hp_loaded hp_mumps hp_mono]; auto; try congruence.
      * intros a [<-|Ha]; [lia|]. specialize (Lt _ Ha). lia.
      * intros [|[|[|[|[|x]]]]] a; cbn; intros Ea; try discriminate; try (injection Ea as <-); auto; right.
        -- apply (Lv 0); auto.
        -- apply (Lv 2); auto.
        -- apply (Lv 3); auto.
        -- apply (Lv 4); auto.
      * intros [|[|[|[|[|x]]]]] [|[|[|[|[|y]]]]] a; cbn; intros Ea Eb; try discriminate; auto; exfalso;
        try (pose proof (Fr 0 _ Ea)); try (pose proof (Fr 0 _ Eb)); try (pose proof (Fr 4 _ Ea)); try (pose proof (Fr 4 _ Eb));
        try (pose proof (Fr 2 _ Ea)); try (pose proof (Fr 2 _ Eb)); try (pose proof (Fr 3 _ Ea)); try (pose proof (Fr 3 _ Eb));
        try (injection Ea as Ea); try (injection Eb as Eb); try lia.
        all: first [pose proof (Inj 0 2 a Ea Eb) | pose proof (Inj 0 3 a Ea Eb) | pose proof (Inj 0 4 a Ea Eb)
          | pose proof (Inj 2 0 a Ea Eb) | pose proof (Inj 2 3 a Ea Eb) | pose proof (Inj 2 4 a Ea Eb)
          | pose proof (Inj 3 0 a Ea Eb) | pose proof (Inj 3 2 a Ea Eb) | pose proof (Inj 3 4 a Ea Eb)
          | pose proof (Inj 4 0 a Ea Eb) | pose proof (Inj 4 2 a Ea Eb) | pose proof (Inj 4 3 a Ea Eb)]; lia.
    + intros Ow _ a Ha. cbn [hp_live] in Ha. destruct Ha as [<-|Ha]; [exists 1; auto|].
      destruct (Ow a Ha) as ([|[|[|[|[|x]]]]] & Hx); cbn in Hx; try congruence; [exists 0|exists 2|exists 3|exists 4]; auto.
Qed.

(** Dropping the pointer [x0] together with its object. *)
Lemma set_reduce direct (fresh : bool) s : hinv direct s ->
  exists s0, hinv direct s0 /\ hp_mono s0 = None /\ hp_set direct fresh s = hp_set direct false s0 /\
    hp_sol s0 = hp_sol s /\ hp_mumps s0 = hp_mumps s /\ (owned s -> owned s0).
Proof.
  intros [Lt Lv Inj Mt Ld Mp]. assert (Fr : forall x a, ptr s x = Some a -> a < hp_next s) by (intros; eauto).
  assert (Step : forall s1, hinv direct s1 -> exists l, h_del (hp_live s1) (hp_mono s1) = Ok l /\
     let s0 := Hp l (hp_next s1) (hp_mat s1) None (hp_hypre s1) (hp_mumps s1) (hp_sol s1) false in
     hinv direct s0 /\ (owned s1 -> owned s0)).
  { clear. intros s1 [Lt Lv Inj Mt Ld Mp]. destruct (h_del_ok (hp_live s1) (hp_mono s1)) as (l & E & Hl); [intros a; apply (Lv 1)|].
    exists l. split; [auto|]. cbv zeta. split.
    - constructor; cbn [hp_live hp_next hp_mat hp_loaded hp_mumps hp_mono]; auto; try congruence.
      + intros a Ha. apply Hl in Ha. apply Lt. tauto.
      + intros [|[|[|[|[|x]]]]] a; cbn; intros Ea; try discriminate; apply Hl; (split; [|intros C]).
        * apply (Lv 0); auto.
        * pose proof (Inj 0 1 a Ea C). lia.
        * apply (Lv 2); auto.
        * pose proof (Inj 2 1 a Ea C). lia.
        * apply (Lv 3); auto.
        * pose proof (Inj 3 1 a Ea C). lia.
        * apply (Lv 4); auto.
        * pose proof (Inj 4 1 a Ea C). lia.
      + intros x y a Ea Eb. apply (Inj x y a).
        * destruct x as [|[|[|[|[|x]]]]]; cbn in *; auto; discriminate.
        * destruct y as [|[|[|[|[|y]]]]]; cbn in *; auto; discriminate.
    - intros Ow a Ha. cbn [hp_live] in Ha. apply Hl in Ha. destruct Ha as (Ha & Hn).
      destruct (Ow a Ha) as ([|[|[|[|[|x]]]]] & Hx); cbn in Hx; try congruence; [exists 0|exists 2|exists 3|exists 4]; auto. }
  assert (Same : forall s1 l, h_del (hp_live s1) (hp_mono s1) = Ok l ->
     hp_set direct false s1 = hp_set direct false (Hp l (hp_next s1) (hp_mat s1) None (hp_hypre s1) (hp_mumps s1) (hp_sol s1) false)).
  { clear. intros s1 l E. unfold hp_set. cbn [obind hp_live hp_next hp_mat hp_mono hp_hypre hp_mumps hp_sol]. rewrite E. cbn [obind h_del]. auto. }
  destruct fresh.
  - destruct (h_del_ok (hp_next s :: hp_live s) (hp_mat s)) as (l & E & Hl); [intros a Ea; right; apply (Lv 0); auto|].
    set (s1 := Hp l (S (hp_next s)) (Some (hp_next s)) (hp_mono s) (hp_hypre s) (hp_mumps s) (hp_sol s) false).
    assert (E1 : hp_set direct true s = hp_set direct false s1).
    { unfold hp_set, h_new. rewrite E. cbn [obind hp_live hp_next hp_mat hp_mono hp_hypre hp_mumps hp_sol s1]. auto. }
    assert (H1 : hinv direct s1).
    { constructor; unfold s1; cbn [hp_live hp_next hp_mat hp_loaded hp_mumps hp_mono]; auto; try congruence.
      - intros a Ha. apply Hl in Ha. destruct Ha as ([<-|Ha] & _); [lia|]. specialize (Lt _ Ha). lia.
      - intros [|[|[|[|[|x]]]]] a; cbn; intros Ea; try discriminate; try (injection Ea as <-); apply Hl; (split; [|intros C]); auto.
        + left. auto.
        + pose proof (Fr 0 _ C). lia.
        + right. apply (Lv 1); auto.
        + pose proof (Inj 1 0 a Ea C). lia.
        + right. apply (Lv 2); auto.
        + pose proof (Inj 2 0 a Ea C). lia.
        + right. apply (Lv 3); auto.
        + pose proof (Inj 3 0 a Ea C). lia.
        + right. apply (Lv 4); auto.
        + pose proof (Inj 4 0 a Ea C). lia.
      - intros x y a Ea Eb. destruct x as [|x], y as [|y]; auto.
        + cbn in Ea. injection Ea as <-. exfalso. assert (H : ptr s (S y) = Some (hp_next s)) by (destruct y as [|[|[|[|y]]]]; exact Eb). specialize (Fr _ _ H). lia.
        + cbn in Eb. injection Eb as <-. exfalso. assert (H : ptr s (S x) = Some (hp_next s)) by (destruct x as [|[|[|[|x]]]]; exact Ea). specialize (Fr _ _ H). lia.
        + apply (Inj (S x) (S y) a); [destruct x as [|[|[|[|x]]]]; exact Ea|destruct y as [|[|[|[|y]]]]; exact Eb]. }
    destruct (Step s1 H1) as (l' & E' & H0 & O0). eexists. split; [exact H0|]. split; [reflexivity|]. split; [rewrite E1; apply Same; auto|].
    split; [reflexivity|]. split; [reflexivity|]. intros Ow. apply O0. intros a Ha. unfold s1 in Ha. cbn [hp_live] in Ha. apply Hl in Ha.
    destruct Ha as ([<-|Ha] & Hn); [exists 0; auto|].
    destruct (Ow a Ha) as ([|[|[|[|[|x]]]]] & Hx); cbn in Hx; try congruence; [exists 1|exists 2|exists 3|exists 4]; auto.
  - assert (H1 : hinv direct s) by (constructor; auto).
    destruct (Step s H1) as (l' & E' & H0 & O0). eexists. split; [exact H0|]. split; [reflexivity|]. split; [apply Same; auto|].
    split; [reflexivity|]. split; [reflexivity|]. auto.
Qed.

Lemma set_ok direct fresh s : hinv direct s ->
  exists s', hp_set direct fresh s = Ok s' /\ hinv direct s' /\ hp_mono s' <> None /\ hp_sol s' = hp_sol s /\
    (direct = true -> hp_mumps s' <> None) /\ (owned s -> direct = false \/ hp_mumps s = None -> owned s').
Proof.
  intros H. destruct (set_reduce direct fresh s H) as (s0 & H0 & M0 & E & S0 & U0 & O0).
  destruct (set_core direct s0 H0 M0) as (s' & E' & H' & M' & S' & U' & O'). exists s'. rewrite E. split; [auto|]. split; [auto|].
  split; [auto|]. split; [congruence|]. split; [auto|]. intros Ow C. apply O'; auto. rewrite U0. auto.
Qed.

Lemma load_first direct s : hinv direct s -> hp_mono s = None ->
  exists s', hp_load direct s = Ok s' /\ hinv direct s' /\ hp_mono s' <> None /\ hp_sol s' = hp_sol s /\
    (direct = true -> hp_mumps s' <> None) /\ (owned s -> direct = false \/ hp_mumps s = None -> owned s').
Proof.
  intros H M. pose proof H as [Lt Lv Inj Mt Ld Mp].
  assert (Fr : forall x a, ptr s x = Some a -> a < hp_next s) by (intros; eauto).
  unfold hp_load. destruct (h_del_ok (hp_live s) (hp_mat s)) as (l & E & Hl); [intros a; apply (Lv 0)|].
  rewrite E, M. cbn [obind h_del h_new].
  set (s1 := Hp (hp_next s :: l) (S (hp_next s)) (Some (hp_next s)) None (hp_hypre s) (hp_mumps s) (hp_sol s) (hp_loaded s)).
  assert (H1 : hinv direct s1).
  { constructor; unfold s1; cbn [hp_live hp_next hp_mat hp_loaded hp_mumps hp_mono]; auto; try congruence.
    - intros a [<-|Ha]; [lia|]. apply Hl in Ha. destruct Ha as (Ha & _). specialize (Lt _ Ha). lia.
    - intros [|[|[|[|[|x]]]]] a; cbn; intros Ea; try discriminate; try (injection Ea as <-); auto; right; apply Hl; (split; [|intros C]); auto.
      + apply (Lv 2); auto.
      + pose proof (Inj 2 0 a Ea C). lia.
      + apply (Lv 3); auto.
      + pose proof (Inj 3 0 a Ea C). lia.
      + apply (Lv 4); auto.
      + pose proof (Inj 4 0 a Ea C). lia.
    - intros x y a Ea Eb. destruct x as [|[|x]], y as [|[|y]]; auto; try discriminate.
      + cbn in Ea. injection Ea as <-. exfalso. assert (Hy : ptr s (S (S y)) = Some (hp_next s)) by (destruct y as [|[|[|y]]]; exact Eb). specialize (Fr _ _ Hy). lia.
      + cbn in Eb. injection Eb as <-. exfalso. assert (Hx : ptr s (S (S x)) = Some (hp_next s)) by (destruct x as [|[|[|x]]]; exact Ea). specialize (Fr _ _ Hx). lia.
      + apply (Inj (S (S x)) (S (S y)) a); [destruct x as [|[|[|x]]]; exact Ea|destruct y as [|[|[|y]]]; exact Eb].
    - intros E1. specialize (Ld E1). destruct direct; auto; congruence. }
  destruct (set_core direct s1 H1 eq_refl) as (s' & E' & H' & M' & S' & U' & O'). exists s'. split; [exact E'|]. split; [auto|].
  split; [auto|]. split; [auto|]. split; [auto|]. intros Ow C. apply O'; auto. intros a Ha. cbn [s1 hp_live] in Ha.
  destruct Ha as [<-|Ha]; [exists 0; auto|]. apply Hl in Ha. destruct Ha as (Ha & Hn).
  destruct (Ow a Ha) as ([|[|[|[|[|x]]]]] & Hx); cbn in Hx; try congruence; [exists 2|exists 3|exists 4]; auto.
Qed.

(** Loading over an existing operator frees the monolithic matrix twice. *)
Lemma load_again direct s : hinv direct s -> hp_mono s <> None -> hp_load direct s = UB.
Proof.
  intros H M. pose proof H as [Lt Lv Inj Mt Ld Mp].
  assert (Fr : forall x a, ptr s x = Some a -> a < hp_next s) by (intros; eauto).
  unfold hp_load. destruct (h_del_ok (hp_live s) (hp_mat s)) as (l & E & Hl); [intros a; apply (Lv 0)|]. rewrite E. cbn [obind].
  destruct (h_del_ok l (hp_mono s)) as (l' & E' & Hl').
  { intros a Ea. apply Hl. split; [apply (Lv 1); auto|]. intros C. pose proof (Inj 1 0 a Ea C). lia. }
  rewrite E'. cbn [obind h_new]. unfold hp_set. cbn [obind hp_live hp_next hp_mat hp_mono].
  destruct (hp_mono s) as [a|] eqn:Em; [|congruence]. cbn [h_del].
  destruct (existsb (Nat.eqb a) (hp_next s :: l')) eqn:Ex; [|reflexivity]. exfalso.
  apply existsb_exists in Ex. destruct Ex as (b & Hb & Eb). apply Nat.eqb_eq in Eb. subst b. destruct Hb as [Hb|Hb].
  - pose proof (Fr 1 a Em). lia.
  - apply Hl' in Hb. destruct Hb as (_ & Hb). apply Hb. auto.
Qed.

Lemma solve_ok direct s s' : hinv direct s -> hp_solve direct s <> UB /\
  (hp_solve direct s = Ok s' -> hinv direct s' /\ hp_mono s' = hp_mono s /\ hp_mumps s' = hp_mumps s /\ hp_sol s' <> None /\
     (owned s -> hp_sol s = None -> owned s')).
Proof.
  intros [Lt Lv Inj Mt Ld Mp]. assert (Fr : forall x a, ptr s x = Some a -> a < hp_next s) by (intros; eauto).
  unfold hp_solve. destruct (hp_loaded s) eqn:El; cbn [oassert]; [|split; discriminate]. specialize (Ld eq_refl).
  cbn [h_new]. rewrite h_use_ok.
  2:{ exact Ld. }
  2:{ intros a Ea. right. destruct direct; [apply (Lv 3)|apply (Lv 1)]; auto. }
  cbn [obind]. split; [discriminate|]. intros E. injection E as E. subst s'. split; [|cbn; repeat split; auto; try congruence].
  - constructor; cbn [hp_live hp_next hp_mat hp_loaded hp_mumps hp_mono]; auto.
    + intros a [<-|Ha]; [lia|]. specialize (Lt _ Ha). lia.
    + intros [|[|[|[|[|x]]]]] a; cbn; intros Ea; try discriminate; try (injection Ea as <-); auto; right.
      * apply (Lv 0); auto.
      * apply (Lv 1); auto.
      * apply (Lv 2); auto.
      * apply (Lv 3); auto.
    + assert (Pt : forall x, x <> 4 -> ptr (Hp (hp_next s :: hp_live s) (S (hp_next s)) (hp_mat s) (hp_mono s) (hp_hypre s) (hp_mumps s) (Some (hp_next s)) true) x = ptr s x)
        by (intros [|[|[|[|[|x]]]]] Hx; auto; lia).
      intros x y a Ea Eb. destruct (Nat.eq_dec x 4) as [->|Nx], (Nat.eq_dec y 4) as [->|Ny]; auto.
      * cbn in Ea. injection Ea as <-. rewrite Pt in Eb by auto. specialize (Fr _ _ Eb). lia.
      * cbn in Eb. injection Eb as <-. rewrite Pt in Ea by auto. specialize (Fr _ _ Ea). lia.
      * rewrite Pt in Ea, Eb by auto. eauto.
  - intros Ow Sn a Ha. cbn [hp_live] in Ha. destruct Ha as [<-|Ha]; [exists 4; auto|].
    destruct (Ow a Ha) as ([|[|[|[|[|x]]]]] & Hx); cbn in Hx; try congruence; [exists 0|exists 1|exists 2|exists 3]; auto.
Qed.

Lemma save_ok direct s s' : hinv direct s -> hp_save s <> UB /\
  (hp_save s = Ok s' -> hinv direct s' /\ hp_mono s' <> None /\ hp_mumps s' = hp_mumps s /\ hp_sol s' = hp_sol s /\ (owned s -> owned s')).
Proof.
  intros H. pose proof H as [Lt Lv Inj Mt Ld Mp]. assert (Fr : forall x a, ptr s x = Some a -> a < hp_next s) by (intros; eauto).
  unfold hp_save. destruct (hp_mono s) as [a0|] eqn:Em.
  - cbn [obind]. destruct (hp_sol s) eqn:Es; cbn [oassert]; [|split; discriminate].
    rewrite h_use_ok by (try congruence; intros a Ea; apply (Lv 1); auto). cbn [obind]. split; [discriminate|]. intros [= <-].
    split; [auto|]. split; [congruence|]. auto.
  - rewrite h_use_ok by (auto; intros a Ea; apply (Lv 0); auto). cbn [obind h_new hp_sol hp_live hp_mono].
    destruct (hp_sol s) eqn:Es; cbn [oassert]; [|split; discriminate].
    rewrite h_use_ok by (try congruence; intros a Ea; injection Ea as <-; left; auto). cbn [obind]. split; [discriminate|]. intros E. injection E as E. subst s'.
    split; [|cbn; repeat split; auto; try congruence].
    + constructor; cbn [hp_live hp_next hp_mat hp_loaded hp_mumps hp_mono]; auto.
      * intros a [<-|Ha]; [lia|]. specialize (Lt _ Ha). lia.
      * intros [|[|[|[|[|x]]]]] a; cbn; intros Ea; try discriminate; try (injection Ea as <-); auto; right.
        -- apply (Lv 0); auto.
        -- apply (Lv 2); auto.
        -- apply (Lv 3); auto.
        -- apply (Lv 4). cbn. congruence.
      * set (s1 := Hp (hp_next s :: hp_live s) (S (hp_next s)) (hp_mat s) (Some (hp_next s)) (hp_hypre s) (hp_mumps s) (Some n) (hp_loaded s)).
        assert (Pt : forall x, x <> 1 -> ptr s1 x = ptr s x)
          by (intros [|[|[|[|[|x]]]]] Hx; auto; lia).
        intros x y a Ea Eb. destruct (Nat.eq_dec x 1) as [->|Nx], (Nat.eq_dec y 1) as [->|Ny]; auto.
        -- cbn in Ea. injection Ea as <-. rewrite Pt in Eb by auto. specialize (Fr _ _ Eb). lia.
        -- cbn in Eb. injection Eb as <-. rewrite Pt in Ea by auto. specialize (Fr _ _ Ea). lia.
        -- rewrite Pt in Ea, Eb by auto. eauto.
      * intros E1. destruct direct; [auto|discriminate].
    + intros Ow a Ha. cbn [hp_live] in Ha. destruct Ha as [<-|Ha]; [exists 1; auto|].
      destruct (Ow a Ha) as ([|[|[|[|[|x]]]]] & Hx); cbn in Hx; try congruence; [exists 0|exists 2|exists 3|exists 4]; auto. cbn. congruence.
Qed.

Lemma destroy_ok direct s : hinv direct s ->
  exists l, hp_destroy s = Ok l /\ forall a, In a l <-> In a (hp_live s) /\ forall x, ptr s x <> Some a.
Proof.
  intros [Lt Lv Inj Mt Ld Mp]. unfold hp_destroy.
  destruct (h_del_ok (hp_live s) (hp_mat s)) as (l0 & E0 & H0); [intros a; apply (Lv 0)|]. rewrite E0. cbn [obind].
  destruct (h_del_ok l0 (hp_mono s)) as (l1 & E1 & H1).
  { intros a Ea. apply H0. split; [apply (Lv 1); auto|]. intros C. pose proof (Inj 1 0 a Ea C). lia. }
  rewrite E1. cbn [obind].
  destruct (h_del_ok l1 (hp_hypre s)) as (l2 & E2 & H2).
  { intros a Ea. apply H1. split; [apply H0; split; [apply (Lv 2); auto|]|]; intros C; [pose proof (Inj 2 0 a Ea C)|pose proof (Inj 2 1 a Ea C)]; lia. }
  rewrite E2. cbn [obind].
  destruct (h_del_ok l2 (hp_mumps s)) as (l3 & E3 & H3).
  { intros a Ea. apply H2. split; [apply H1; split; [apply H0; split; [apply (Lv 3); auto|]|]|]; intros C;
    [pose proof (Inj 3 0 a Ea C)|pose proof (Inj 3 1 a Ea C)|pose proof (Inj 3 2 a Ea C)]; lia. }
  rewrite E3. cbn [obind].
  destruct (h_del_ok l3 (hp_sol s)) as (l4 & E4 & H4).
  { intros a Ea. apply H3. split; [apply H2; split; [apply H1; split; [apply H0; split; [apply (Lv 4); auto|]|]|]|]; intros C;
    [pose proof (Inj 4 0 a Ea C)|pose proof (Inj 4 1 a Ea C)|pose proof (Inj 4 2 a Ea C)|pose proof (Inj 4 3 a Ea C)]; lia. }
  exists l4. split; [auto|]. intros a. rewrite H4, H3, H2, H1, H0. split.
  - intros (((((A & B) & C) & D) & F) & G). split; [auto|]. intros [|[|[|[|[|x]]]]]; auto. discriminate.
  - intros (A & B). pose proof (B 0). pose proof (B 1). pose proof (B 2). pose proof (B 3). pose proof (B 4). cbn [ptr] in *. tauto.
Qed.

(** ** Sequences of calls *)

(** A load comes only before any call that creates the monolithic matrix. *)
Definition load_first_only (cs : list rom_call) : Prop :=
  forall pre post, cs = pre ++ CLoad :: post -> forall c, In c pre -> makes_mono c = false.

Lemma run_inv direct cs : forall s, hinv direct s ->
  (forall pre post, cs = pre ++ CLoad :: post -> hp_mono s = None /\ forall c, In c pre -> makes_mono c = false) ->
  ofold (hp_step direct) cs s <> UB /\ forall s', ofold (hp_step direct) cs s = Ok s' -> hinv direct s'.
Proof.
  induction cs as [|c cs IH]; intros s H Lf; cbn [ofold].
  - split; [discriminate|]. intros s' [= <-]. auto.
  - assert (Next : forall s1, hinv direct s1 -> (makes_mono c = false -> hp_mono s1 = hp_mono s) ->
       ofold (hp_step direct) cs s1 <> UB /\ forall s', ofold (hp_step direct) cs s1 = Ok s' -> hinv direct s').
    { intros s1 H1 M1. apply IH; auto. intros pre post E. destruct (Lf (c :: pre) post) as (A & B); [cbn; congruence|].
      rewrite M1 by (apply B; left; auto). split; auto. intros. apply B. right. auto. }
    destruct c as [|f| |]; cbn [hp_step].
    + destruct (load_first direct s H) as (s1 & E & H1 & _); [apply (Lf [] cs); auto|]. rewrite E. cbn [obind]. apply Next; auto. discriminate.
    + destruct (set_ok direct f s H) as (s1 & E & H1 & _). rewrite E. cbn [obind]. apply Next; auto. discriminate.
    + destruct (hp_solve direct s) as [s1| |] eqn:E; cbn [obind].
      * destruct (solve_ok direct s s1 H) as (_ & Q). destruct (Q E) as (H1 & M1 & _). apply Next; auto.
      * split; discriminate.
      * exfalso. apply (proj1 (solve_ok direct s s H)). auto.
    + destruct (hp_save s) as [s1| |] eqn:E; cbn [obind].
      * destruct (save_ok direct s s1 H) as (_ & Q). destruct (Q E) as (H1 & _). apply Next; auto. discriminate.
      * split; discriminate.
      * exfalso. apply (proj1 (save_ok direct s s H)). auto.
Qed.

Lemma run_safe direct cs : load_first_only cs -> hp_run direct cs <> UB.
Proof.
  intros Lf. destruct (run_inv direct cs hp_init (hinv_init direct)) as (N & Q).
  - intros pre post E. split; [reflexivity|]. eapply Lf; eauto.
  - unfold hp_run. destruct (ofold (hp_step direct) cs hp_init) as [s| |]; cbn [obind]; try congruence.
    destruct (destroy_ok direct s (Q s eq_refl)) as (l & -> & _). discriminate.
Qed.

Lemma mono_kept direct cs : forall s s', ofold (hp_step direct) cs s = Ok s' -> hinv direct s ->
  hinv direct s' /\ (hp_mono s <> None \/ (exists c, In c cs /\ makes_mono c = true) -> hp_mono s' <> None).
Proof.
  induction cs as [|c cs IH]; intros s s' E H; cbn [ofold] in E.
  - injection E as <-. split; [auto|]. intros [C|(c & [] & _)]; auto.
  - apply obind_ok in E. destruct E as (s1 & E1 & E).
    assert (Q : hinv direct s1 /\ (hp_mono s <> None \/ makes_mono c = true -> hp_mono s1 <> None)).
    { destruct c as [|f| |]; cbn [hp_step] in E1.
      - destruct (hp_mono s) as [a|] eqn:Em.
        + rewrite load_again in E1 by (auto; congruence). discriminate.
        + destruct (load_first direct s H Em) as (s2 & E2 & H2 & M2 & _). rewrite E1 in E2. injection E2 as <-. split; auto.
      - destruct (set_ok direct f s H) as (s2 & E2 & H2 & M2 & _). rewrite E1 in E2. injection E2 as <-. split; auto.
      - destruct (proj2 (solve_ok direct s s1 H) E1) as (H1 & M1 & _). split; auto. rewrite M1. intros [C|C]; [auto|discriminate].
      - destruct (proj2 (save_ok direct s s1 H) E1) as (H1 & M1 & _). split; auto. }
    destruct Q as (H1 & M1). destruct (IH s1 s' E H1) as (H2 & M2). split; [auto|]. intros C. apply M2.
    destruct C as [C|(c' & [<-|Hc] & Hm)]; [left; auto|left; auto|right; exists c'; auto].
Qed.

(** A load after a call that has created the operator is a double free, whatever follows. *)
Lemma load_after_operator direct pre post s : ofold (hp_step direct) pre hp_init = Ok s ->
  (exists c, In c pre /\ makes_mono c = true) -> hp_run direct (pre ++ CLoad :: post) = UB.
Proof.
  intros E C. destruct (mono_kept direct pre hp_init s E (hinv_init direct)) as (H & M). unfold hp_run.
  rewrite ofold_app, E. cbn [obind ofold hp_step]. rewrite load_again by auto. reflexivity.
Qed.

(** ** Leaks *)

Definition count (f : rom_call -> bool) (cs : list rom_call) : nat := List.length (filter f cs).

Lemma run_owned direct cs : forall s s', ofold (hp_step direct) cs s = Ok s' -> hinv direct s -> owned s ->
  count is_solve cs + (match hp_sol s with None => 0 | Some _ => 1 end) <= 1 ->
  (direct = true -> count creator cs + (match hp_mumps s with None => 0 | Some _ => 1 end) <= 1) -> owned s'.
Proof.
  induction cs as [|c cs IH]; intros s s' E H Ow Cs Cc; cbn [ofold] in E.
  - injection E as <-. auto.
  - apply obind_ok in E. destruct E as (s1 & E1 & E). unfold count in *. cbn [filter] in Cs, Cc.
    assert (Mn : direct = false \/ (creator c = true -> hp_mumps s = None)).
    { destruct direct; [right|left; auto]. intros Hc. rewrite Hc in Cc. specialize (Cc eq_refl). cbn [List.length] in Cc.
      destruct (hp_mumps s); auto. lia. }
    destruct c as [|f| |]; cbn [hp_step is_solve creator] in *.
    + destruct (hp_mono s) as [a|] eqn:Em; [rewrite load_again in E1 by (auto; congruence); discriminate|].
      destruct (load_first direct s H Em) as (s2 & E2 & H2 & M2 & S2 & U2 & O2). rewrite E1 in E2. injection E2 as <-.
      apply (IH s1 s' E H2).
      * apply O2; auto. tauto.
      * rewrite S2. auto.
      * intros D. specialize (Cc D). cbn [List.length] in Cc. destruct (hp_mumps s1); [|exfalso; apply (U2 D); auto]. destruct (hp_mumps s); lia.
    + destruct (set_ok direct f s H) as (s2 & E2 & H2 & M2 & S2 & U2 & O2). rewrite E1 in E2. injection E2 as <-.
      apply (IH s1 s' E H2).
      * apply O2; auto. tauto.
      * rewrite S2. auto.
      * intros D. specialize (Cc D). cbn [List.length] in Cc. destruct (hp_mumps s1); [|exfalso; apply (U2 D); auto]. destruct (hp_mumps s); lia.
    + destruct (proj2 (solve_ok direct s s1 H) E1) as (H1 & M1 & U1 & S1 & O1). cbn [List.length] in Cs.
      destruct (hp_sol s) eqn:Es; [lia|]. apply (IH s1 s' E H1); auto.
      * destruct (hp_sol s1); lia.
      * rewrite U1. auto.
    + destruct (proj2 (save_ok direct s s1 H) E1) as (H1 & M1 & U1 & S1 & O1). apply (IH s1 s' E H1); auto.
      * rewrite S1. auto.
      * rewrite U1. auto.
Qed.

Lemma run_no_leak direct cs l : hp_run direct cs = Ok l -> count is_solve cs <= 1 -> (direct = true -> count creator cs <= 1) -> l = [].
Proof.
  intros E Cs Cc. unfold hp_run in E. apply obind_ok in E. destruct E as (s & E & D).
  destruct (mono_kept direct cs hp_init s E (hinv_init direct)) as (H & _).
  assert (Ow : owned s).
  { apply (run_owned direct cs hp_init s E (hinv_init direct)); cbn; try lia; [|intros Dr; specialize (Cc Dr); lia].
    intros a [<-|[]]. exists 0. auto. }
  destruct (destroy_ok direct s H) as (l' & E' & Hl). rewrite D in E'. injection E' as <-.
  destruct l as [|a l]; auto. exfalso. destruct (proj1 (Hl a)) as (A & B); [left; auto|]. destruct (Ow a A) as (x & Hx). eapply B; eauto.
Qed.
