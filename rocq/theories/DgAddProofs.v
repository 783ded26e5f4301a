(** Loops that add to a matrix, and the final in-place step of the discontinuous Galerkin integrators. *)
From Coq Require Import Reals List Bool Lia Lra Arith ZArith.
From Verif Require Import Outcome ListLemmas LaBase EqpSpec IntegModel IntegProofs DgModel.
Import ListNotations.
Local Open Scope R_scope.

(** ** Adding *)

Definition adds (h w : nat) (f : smat -> outcome smat) (F : fm) : Prop := forall m, s_h m = h -> s_w m = w ->
  exists m', f m = Ok m' /\ s_h m' = h /\ s_w m' = w /\ forall i j, s_at m' i j = s_at m i j + F i j.

Definition delta (r c : nat) (x : R) : fm := fun i j => if ((i =? r) && (j =? c))%nat then x else 0.

Lemma sget_ok m i j : (i < s_h m)%nat -> (j < s_w m)%nat -> sget m i j = Ok (s_at m i j).
Proof. intros H1 H2. unfold sget, sin. rewrite (proj2 (Nat.ltb_lt _ _) H1), (proj2 (Nat.ltb_lt _ _) H2). auto. Qed.

Lemma sset_ok m i j x : (i < s_h m)%nat -> (j < s_w m)%nat ->
  sset m i j x = Ok (SMat (s_h m) (s_w m) (fun a b => if ((a =? i) && (b =? j))%nat then x else s_at m a b)).
Proof. intros H1 H2. unfold sset, sin. rewrite (proj2 (Nat.ltb_lt _ _) H1), (proj2 (Nat.ltb_lt _ _) H2). auto. Qed.

Lemma adds_sadd h w r c x : (r < h)%nat -> (c < w)%nat -> adds h w (fun m => sadd m r c x) (delta r c x).
Proof.
  intros Hr Hc m Hh Hw. unfold sadd. rewrite sget_ok by lia. cbn [obind]. rewrite sset_ok by lia.
  eexists. split; [reflexivity|]. cbn [s_h s_w s_at]. split; [auto|split; [auto|]]. intros i j. unfold delta.
  destruct (Nat.eqb_spec i r); destruct (Nat.eqb_spec j c); subst; simpl; ring.
Qed.

Lemma adds_ext h w f F G : adds h w f F -> (forall i j, F i j = G i j) -> adds h w f G.
Proof. intros H E m Hh Hw. destruct (H m Hh Hw) as (m' & A & B & C & D). exists m'. repeat split; auto. intros. rewrite D, E. auto. Qed.

Lemma adds_ok h w : adds h w (fun m => Ok m) (fun _ _ => 0).
Proof. intros m Hh Hw. exists m. repeat split; auto. intros. ring. Qed.

Lemma adds_bind h w f g F G : adds h w f F -> adds h w g G -> adds h w (fun m => let* m := f m in g m) (fun i j => F i j + G i j).
Proof.
  intros A B m Hh Hw. destruct (A m Hh Hw) as (m1 & E1 & H1 & W1 & X1). destruct (B m1 H1 W1) as (m2 & E2 & H2 & W2 & X2).
  exists m2. rewrite E1. cbn [obind]. repeat split; auto. intros. rewrite X2, X1. ring.
Qed.

Lemma adds_ofor h w n f F : (forall k, (k < n)%nat -> adds h w (fun m => f m k) (F k)) ->
  adds h w (fun m => ofor n f m) (fun i j => rsum n (fun k => F k i j)).
Proof.
  intros H m Hh Hw.
  destruct (ofor_inv n f (fun k m' => s_h m' = h /\ s_w m' = w /\ forall i j, s_at m' i j = s_at m i j + rsum k (fun k => F k i j)) m) as (m' & E & A & B & C).
  - repeat split; auto. intros. simpl. ring.
  - intros k m1 Hk (A & B & C). destruct (H k Hk m1 A B) as (m2 & E2 & A2 & B2 & C2). exists m2. repeat split; auto.
    intros i j. rewrite C2, C. simpl. ring.
  - exists m'. auto.
Qed.

Lemma adds_oforr h w a b f F : (a <= b)%nat -> (forall k, (a <= k < b)%nat -> adds h w (fun m => f m k) (F k)) ->
  adds h w (fun m => oforr a b f m) (fun i j => rsum (b - a) (fun k => F (a + k)%nat i j)).
Proof.
  intros Hab H m Hh Hw.
  destruct (oforr_inv a b f (fun k m' => s_h m' = h /\ s_w m' = w /\ forall i j, s_at m' i j = s_at m i j + rsum (k - a) (fun k => F (a + k)%nat i j)) m Hab)
    as (m' & E & A & B & C).
  - repeat split; auto. intros. rewrite Nat.sub_diag. simpl. ring.
  - intros k m1 Hk (A & B & C). destruct (H k Hk m1 A B) as (m2 & E2 & A2 & B2 & C2). exists m2. repeat split; auto.
    intros i j. rewrite C2, C. replace (S k - a)%nat with (S (k - a)) by lia. simpl. replace (a + (k - a))%nat with k by lia. ring.
  - exists m'. auto.
Qed.

(** A range that is empty because it ends before its start *)
Lemma oforr_empty {S} a b (f : S -> nat -> outcome S) s : (b <= a)%nat -> oforr a b f s = Ok s.
Proof. intros H. unfold oforr. replace (b - a)%nat with O by lia. auto. Qed.

(** ** Picking one term *)

Lemma pick1 n k (x : nat -> R) : rsum n (fun a => if (k =? a)%nat then x a else 0) = if (k <? n)%nat then x k else 0.
Proof.
  destruct (Nat.ltb_spec k n).
  - rewrite (rsum_single n k); [rewrite Nat.eqb_refl; auto|auto|]. intros i Hi N. destruct (Nat.eqb_spec k i); [lia|auto].
  - rewrite (rsum_ext n _ (fun _ => 0)), rsum_zero; auto. intros i Hi. destruct (Nat.eqb_spec k i); [lia|auto].
Qed.

Lemma pick_off n r k (x : nat -> R) : rsum n (fun a => if (k =? r + a)%nat then x a else 0) =
  if ((r <=? k) && (k <? r + n))%nat then x (k - r)%nat else 0.
Proof.
  destruct (Nat.leb_spec r k); cbn [andb].
  - rewrite (rsum_ext n _ (fun a => if (k - r =? a)%nat then x a else 0)).
    2:{ intros a _. destruct (Nat.eqb_spec k (r + a)); destruct (Nat.eqb_spec (k - r) a); auto; lia. }
    rewrite pick1. destruct (Nat.ltb_spec (k - r) n); destruct (Nat.ltb_spec k (r + n)); auto; lia.
  - rewrite (rsum_ext n _ (fun _ => 0)), rsum_zero; auto. intros a _. destruct (Nat.eqb_spec k (r + a)); [lia|auto].
Qed.

Lemma if_and (a b : bool) (x : R) : (if (a && b)%bool then x else 0) = if b then if a then x else 0 else 0.
Proof. destruct a, b; auto. Qed.

Lemma rsum_if (b : bool) n f : rsum n (fun k => if b then f k else 0) = if b then rsum n f else 0.
Proof. destruct b; auto. apply rsum_zero. Qed.

(** Index [d * n + a] of a vector with [n] entries for each component *)
Lemma divmod_of n d a : (a < n)%nat -> ((d * n + a) / n = d /\ (d * n + a) mod n = a)%nat.
Proof. intros H. split; [rewrite Nat.div_add_l, Nat.div_small; lia|rewrite Nat.add_comm, Nat.mod_add, Nat.mod_small; lia]. Qed.

Lemma divmod_lt n dim i : (i < dim * n)%nat -> (i / n < dim)%nat /\ (i mod n < n)%nat /\ i = (i / n * n + i mod n)%nat.
Proof.
  intros H. assert (n <> 0)%nat by lia. split; [apply Nat.div_lt_upper_bound; lia|]. split; [apply Nat.mod_upper_bound; auto|].
  rewrite Nat.mul_comm. apply Nat.div_mod. auto.
Qed.

Lemma pick2 dim n k (x : nat -> nat -> R) : (0 < n)%nat ->
  rsum dim (fun d => rsum n (fun a => if (k =? d * n + a)%nat then x d a else 0)) =
  if (k <? dim * n)%nat then x (k / n)%nat (k mod n)%nat else 0.
Proof.
  intros Hn. destruct (Nat.ltb_spec k (dim * n)).
  - destruct (divmod_lt n dim k) as (A & B & C); auto. rewrite (rsum_single dim (k / n)); auto.
    + rewrite (rsum_single n (k mod n)); auto.
      * rewrite <- C, Nat.eqb_refl. auto.
      * intros a Ha N. destruct (Nat.eqb_spec k (k / n * n + a)); [lia|auto].
    + intros d Hd N. rewrite (rsum_ext n _ (fun _ => 0)), rsum_zero; auto. intros a Ha.
      destruct (Nat.eqb_spec k (d * n + a)) as [E|]; auto. destruct (divmod_of n d a Ha) as [E1 _]. rewrite <- E in E1. lia.
  - rewrite (rsum_ext dim _ (fun _ => 0)), rsum_zero; auto. intros d Hd.
    rewrite (rsum_ext n _ (fun _ => 0)), rsum_zero; auto. intros a Ha. destruct (Nat.eqb_spec k (d * n + a)); [nia|auto].
Qed.

(** ** The final step in place *)

Definition fin_val (alpha : R) (e j : fm) (a b : nat) : R := alpha * e b a - e a b + j (Nat.max a b) (Nat.min a b).

Ltac fin_cases := repeat (match goal with
  | |- context[Nat.eqb ?a ?b] => destruct (Nat.eqb_spec a b)
  | |- context[Nat.ltb ?a ?b] => destruct (Nat.ltb_spec a b) end; cbn [andb orb]); try subst; try lia.

Lemma fin_diag_j_ok n alpha j e : s_h e = n -> s_w e = n -> s_h j = n -> s_w j = n ->
  exists e', fin_diag_j n alpha j e = Ok e' /\ s_h e' = n /\ s_w e' = n /\
    forall a b, (a < n)%nat -> (b < n)%nat -> s_at e' a b = fin_val alpha (s_at e) (s_at j) a b.
Proof.
  intros He Hw Hj Hjw. unfold fin_diag_j.
  match goal with |- context[ofor n ?f e] =>
    destruct (ofor_inv n f (fun i e' => s_h e' = n /\ s_w e' = n /\ forall a b, s_at e' a b =
      if (Nat.max a b <? i)%nat then fin_val alpha (s_at e) (s_at j) a b else s_at e a b) e) as (e' & E & A & B & C) end.
  - repeat split; auto.
  - intros i e1 Hi (A & B & C).
    match goal with |- context[ofor i ?f e1] =>
      destruct (ofor_inv i f (fun k e' => s_h e' = n /\ s_w e' = n /\ forall a b, s_at e' a b =
        if ((Nat.max a b <? i) || ((Nat.max a b =? i) && (Nat.min a b <? k)))%nat then fin_val alpha (s_at e) (s_at j) a b else s_at e a b) e1)
        as (e2 & E2 & A2 & B2 & C2) end.
    + repeat split; auto. intros a b. rewrite C. fin_cases; auto.
    + intros k e2 Hk (A2 & B2 & C2). rewrite !sget_ok by lia. cbn [obind]. rewrite sset_ok by lia. cbn [obind].
      rewrite sset_ok by (cbn [s_h s_w]; lia). eexists. split; [reflexivity|]. cbn [s_h s_w s_at]. split; [auto|split; [auto|]].
      intros a b. rewrite !C2. unfold fin_val. replace (Nat.max i k) with i by lia. replace (Nat.max k i) with i by lia.
      replace (Nat.min i k) with k by lia. replace (Nat.min k i) with k by lia. rewrite !Nat.ltb_irrefl, !Nat.eqb_refl.
      cbn [andb orb]. fin_cases; try reflexivity; try (replace (Nat.max i k) with i by lia; replace (Nat.min i k) with k by lia; reflexivity);
      try (replace (Nat.max k i) with i by lia; replace (Nat.min k i) with k by lia; reflexivity); try (f_equal; f_equal; lia).
    + rewrite E2. cbn [obind]. rewrite !sget_ok by lia. cbn [obind]. rewrite sset_ok by lia.
      eexists. split; [reflexivity|]. cbn [s_h s_w s_at]. split; [auto|split; [auto|]].
      intros a b. rewrite !C2. rewrite !Nat.max_id, !Nat.min_id, !Nat.ltb_irrefl. cbn [andb orb]. rewrite andb_false_r.
      fin_cases; auto; unfold fin_val; rewrite ?Nat.max_id, ?Nat.min_id; ring.
  - exists e'. repeat split; auto. intros a b Ha Hb. rewrite C. fin_cases. auto.
Qed.

Lemma fin_diag_0_ok n alpha e : s_h e = n -> s_w e = n ->
  exists e', fin_diag_0 n alpha e = Ok e' /\ s_h e' = n /\ s_w e' = n /\
    forall a b, (a < n)%nat -> (b < n)%nat -> s_at e' a b = fin_val alpha (s_at e) (fun _ _ => 0) a b.
Proof.
  intros He Hw. unfold fin_diag_0.
  match goal with |- context[ofor n ?f e] =>
    destruct (ofor_inv n f (fun i e' => s_h e' = n /\ s_w e' = n /\ forall a b, s_at e' a b =
      if (Nat.max a b <? i)%nat then fin_val alpha (s_at e) (fun _ _ => 0) a b else s_at e a b) e) as (e' & E & A & B & C) end.
  - repeat split; auto.
  - intros i e1 Hi (A & B & C).
    match goal with |- context[ofor i ?f e1] =>
      destruct (ofor_inv i f (fun k e' => s_h e' = n /\ s_w e' = n /\ forall a b, s_at e' a b =
        if ((Nat.max a b <? i) || ((Nat.max a b =? i) && (Nat.min a b <? k)))%nat then fin_val alpha (s_at e) (fun _ _ => 0) a b else s_at e a b) e1)
        as (e2 & E2 & A2 & B2 & C2) end.
    + repeat split; auto. intros a b. rewrite C. fin_cases; auto.
    + intros k e2 Hk (A2 & B2 & C2). rewrite !sget_ok by lia. cbn [obind]. rewrite sset_ok by lia. cbn [obind].
      rewrite sset_ok by (cbn [s_h s_w]; lia). eexists. split; [reflexivity|]. cbn [s_h s_w s_at]. split; [auto|split; [auto|]].
      intros a b. rewrite !C2. unfold fin_val. replace (Nat.max i k) with i by lia. replace (Nat.max k i) with i by lia.
      replace (Nat.min i k) with k by lia. replace (Nat.min k i) with k by lia. rewrite !Nat.ltb_irrefl, !Nat.eqb_refl.
      cbn [andb orb]. fin_cases; ring.
    + rewrite E2. cbn [obind]. rewrite !sget_ok by lia. cbn [obind]. rewrite sset_ok by lia.
      eexists. split; [reflexivity|]. cbn [s_h s_w s_at]. split; [auto|split; [auto|]].
      intros a b. rewrite !C2. rewrite !Nat.max_id, !Nat.min_id, !Nat.ltb_irrefl. cbn [andb orb]. rewrite andb_false_r.
      fin_cases; auto; unfold fin_val; ring.
  - exists e'. repeat split; auto. intros a b Ha Hb. rewrite C. fin_cases. auto.
Qed.

Lemma fin_off_j_ok n1 n2 alpha j e10 e01 : s_h e10 = n2 -> s_w e10 = n1 -> s_h e01 = n1 -> s_w e01 = n2 -> s_h j = n2 -> s_w j = n1 ->
  exists f10 f01, fin_off_j n1 n2 alpha j (e10, e01) = Ok (f10, f01) /\ s_h f10 = n2 /\ s_w f10 = n1 /\ s_h f01 = n1 /\ s_w f01 = n2 /\
    (forall i k, (i < n2)%nat -> (k < n1)%nat -> s_at f10 i k = alpha * s_at e01 k i - s_at e10 i k + s_at j i k) /\
    (forall i k, (i < n2)%nat -> (k < n1)%nat -> s_at f01 k i = alpha * s_at e10 i k - s_at e01 k i + s_at j i k).
Proof.
  intros H1 H2 H3 H4 H5 H6. unfold fin_off_j.
  match goal with |- context[ofor n2 ?f _] =>
    destruct (ofor_inv n2 f (fun r s => s_h (fst s) = n2 /\ s_w (fst s) = n1 /\ s_h (snd s) = n1 /\ s_w (snd s) = n2 /\
      (forall i k, (k < n1)%nat -> s_at (fst s) i k = if (i <? r)%nat then alpha * s_at e01 k i - s_at e10 i k + s_at j i k else s_at e10 i k) /\
      (forall i k, (k < n1)%nat -> s_at (snd s) k i = if (i <? r)%nat then alpha * s_at e10 i k - s_at e01 k i + s_at j i k else s_at e01 k i)) (e10, e01))
      as ([f10 f01] & E & A1 & A2 & A3 & A4 & A5 & A6) end.
  - cbn [fst snd]. repeat split; auto.
  - intros r [x10 x01] Hr (A1 & A2 & A3 & A4 & A5 & A6). cbn [fst snd] in *.
    match goal with |- context[ofor n1 ?f _] =>
      destruct (ofor_inv n1 f (fun c s => s_h (fst s) = n2 /\ s_w (fst s) = n1 /\ s_h (snd s) = n1 /\ s_w (snd s) = n2 /\
        (forall i k, (k < n1)%nat -> s_at (fst s) i k = if ((i <? r) || ((i =? r) && (k <? c)))%nat then alpha * s_at e01 k i - s_at e10 i k + s_at j i k else s_at e10 i k) /\
        (forall i k, (k < n1)%nat -> s_at (snd s) k i = if ((i <? r) || ((i =? r) && (k <? c)))%nat then alpha * s_at e10 i k - s_at e01 k i + s_at j i k else s_at e01 k i)) (x10, x01))
        as ([f10 f01] & E & B1 & B2 & B3 & B4 & B5 & B6) end.
    + cbn [fst snd]. repeat split; auto; intros i k Hk; rewrite ?A5, ?A6 by auto; fin_cases; auto.
    + intros c [y10 y01] Hc (B1 & B2 & B3 & B4 & B5 & B6). cbn [fst snd] in *.
      rewrite !sget_ok by lia. cbn [obind]. rewrite !sset_ok by lia. cbn [obind]. eexists. split; [reflexivity|].
      cbn [fst snd s_h s_w s_at]. repeat split; auto; intros i k Hk; rewrite ?B5, ?B6 by auto; rewrite ?Nat.ltb_irrefl, ?Nat.eqb_refl; cbn [andb orb]; fin_cases; reflexivity.
    + exists (f10, f01). cbn [fst snd] in *. split; [exact E|]. repeat split; auto; intros i k Hk; rewrite ?B5, ?B6 by auto; fin_cases; auto.
  - cbn [fst snd] in *. exists f10, f01. split; [exact E|]. repeat split; auto; intros i k Hi Hk; rewrite ?A5, ?A6 by auto; fin_cases; auto.
Qed.

Lemma fin_off_0_ok n1 n2 alpha e10 e01 : s_h e10 = n2 -> s_w e10 = n1 -> s_h e01 = n1 -> s_w e01 = n2 ->
  exists f10 f01, fin_off_0 n1 n2 alpha (e10, e01) = Ok (f10, f01) /\ s_h f10 = n2 /\ s_w f10 = n1 /\ s_h f01 = n1 /\ s_w f01 = n2 /\
    (forall i k, (i < n2)%nat -> (k < n1)%nat -> s_at f10 i k = alpha * s_at e01 k i - s_at e10 i k) /\
    (forall i k, (i < n2)%nat -> (k < n1)%nat -> s_at f01 k i = alpha * s_at e10 i k - s_at e01 k i).
Proof.
  intros H1 H2 H3 H4. unfold fin_off_0.
  match goal with |- context[ofor n2 ?f _] =>
    destruct (ofor_inv n2 f (fun r s => s_h (fst s) = n2 /\ s_w (fst s) = n1 /\ s_h (snd s) = n1 /\ s_w (snd s) = n2 /\
      (forall i k, (k < n1)%nat -> s_at (fst s) i k = if (i <? r)%nat then alpha * s_at e01 k i - s_at e10 i k else s_at e10 i k) /\
      (forall i k, (k < n1)%nat -> s_at (snd s) k i = if (i <? r)%nat then alpha * s_at e10 i k - s_at e01 k i else s_at e01 k i)) (e10, e01))
      as ([f10 f01] & E & A1 & A2 & A3 & A4 & A5 & A6) end.
  - cbn [fst snd]. repeat split; auto.
  - intros r [x10 x01] Hr (A1 & A2 & A3 & A4 & A5 & A6). cbn [fst snd] in *.
    match goal with |- context[ofor n1 ?f _] =>
      destruct (ofor_inv n1 f (fun c s => s_h (fst s) = n2 /\ s_w (fst s) = n1 /\ s_h (snd s) = n1 /\ s_w (snd s) = n2 /\
        (forall i k, (k < n1)%nat -> s_at (fst s) i k = if ((i <? r) || ((i =? r) && (k <? c)))%nat then alpha * s_at e01 k i - s_at e10 i k else s_at e10 i k) /\
        (forall i k, (k < n1)%nat -> s_at (snd s) k i = if ((i <? r) || ((i =? r) && (k <? c)))%nat then alpha * s_at e10 i k - s_at e01 k i else s_at e01 k i)) (x10, x01))
        as ([f10 f01] & E & B1 & B2 & B3 & B4 & B5 & B6) end.
    + cbn [fst snd]. repeat split; auto; intros i k Hk; rewrite ?A5, ?A6 by auto; fin_cases; auto.
    + intros c [y10 y01] Hc (B1 & B2 & B3 & B4 & B5 & B6). cbn [fst snd] in *.
      rewrite !sget_ok by lia. cbn [obind]. rewrite !sset_ok by lia. cbn [obind]. eexists. split; [reflexivity|].
      cbn [fst snd s_h s_w s_at]. repeat split; auto; intros i k Hk; rewrite ?B5, ?B6 by auto; rewrite ?Nat.ltb_irrefl, ?Nat.eqb_refl; cbn [andb orb]; fin_cases; reflexivity.
    + exists (f10, f01). cbn [fst snd] in *. split; [exact E|]. repeat split; auto; intros i k Hk; rewrite ?B5, ?B6 by auto; fin_cases; auto.
  - cbn [fst snd] in *. exists f10, f01. split; [exact E|]. repeat split; auto; intros i k Hi Hk; rewrite ?A5, ?A6 by auto; fin_cases; auto.
Qed.
