(** The reduced matrix of a solver whose elements are projections. *)
From Coq Require Import Reals List Bool Lia Lra Arith ZArith.
From Verif Require Import Outcome ListLemmas LaBase LinalgModel LinalgSpec BlockVec RomModel RomSpec RomProofs RomOpProofs MbModel MbSpec MbMiscProofs ItfModel ItfSpec ProbModel BcModel BcProofs BupModel BupSpec BupFormProofs BupRomProofs.
From Verif Require MbProperties BcSpec.
Import ListNotations.
Local Open Scope nat_scope.

Lemma omap_list_Q {A C} (f : A -> outcome C) (Q : A -> C -> Prop) l : (forall x, In x l -> exists y, f x = Ok y /\ Q x y) ->
  exists r, omap f l = Ok r /\ List.length r = List.length l /\ forall k da db, k < List.length l -> Q (nth k l da) (nth k r db).
Proof.
  induction l as [|x l IH]; intros H.
  - exists []. split; [reflexivity|]. split; [reflexivity|]. intros k da db Hk. cbn in Hk. lia.
  - destruct (H x (or_introl eq_refl)) as (y & E & Qy). destruct IH as (r & Er & Lr & Qr). { intros z Hz. apply H. right. auto. }
    exists (y :: r). cbn [omap]. rewrite E. cbn [obind]. rewrite Er. cbn [obind]. split; [reflexivity|]. split; [cbn; lia|].
    intros [|k] da db Hk; [exact Qy|]. cbn in Hk |- *. apply Qr. lia.
Qed.
Lemma omap_seq_Q {C} (f : nat -> outcome C) (Q : nat -> C -> Prop) n : (forall k, k < n -> exists y, f k = Ok y /\ Q k y) ->
  exists r, omap f (seq 0 n) = Ok r /\ List.length r = n /\ forall k db, k < n -> Q k (nth k r db).
Proof.
  intros H. destruct (omap_list_Q f Q (seq 0 n)) as (r & E & L & V).
  - intros k Hk. apply in_seq in Hk. apply H. lia.
  - rewrite seq_length in L. exists r. split; [exact E|]. split; [exact L|]. intros k db Hk. specialize (V k 0 db). rewrite seq_length, seq_nth in V by auto. apply V. auto.
Qed.
Lemma quad_ok {C} (f : nat -> nat -> outcome C) (Q : nat -> nat -> C -> Prop) : (forall i j, i < 2 -> j < 2 -> exists y, f i j = Ok y /\ Q i j y) ->
  exists l, quad f = Ok l /\ forall i j, i < 2 -> j < 2 -> exists y, quad_get l i j = Some y /\ Q i j y.
Proof.
  intros H. unfold quad. change [0; 1] with (seq 0 2).
  destruct (omap_seq_Q (fun i => omap (f i) (seq 0 2)) (fun i r => List.length r = 2 /\ forall j d, j < 2 -> Q i j (nth j r d)) 2) as (l & E & L & V).
  - intros i Hi. destruct (omap_seq_Q (f i) (Q i) 2) as (r & Er & Lr & Vr); [intros; apply H; auto|]. exists r. auto.
  - exists l. split; [exact E|]. intros i j Hi Hj. specialize (V i [] Hi). destruct V as (Lr & Vr). destruct (H i j Hi Hj) as (y0 & _ & _).
    exists (nth j (nth i l []) y0). split; [|apply Vr; auto]. unfold quad_get. rewrite (nth_error_nth' l []) by lia. apply nth_error_nth'. lia.
Qed.

Section Elems.
  Variables (s : romst) (dim : nat -> nat) (g : geometry) (types : list btype) (bdr : list (option coeff)) (cs : list mblocks) (bs : list (list mblocks)) (ps : list mblocks).
  Let h := rs_h s.
  Let nbk := if rh_sep h then rh_nvar h else 1.
  Hypotheses (B : bases_ok s dim) (G : geo_ok g) (Et : rh_types h = g_types g) (Ec : rh_ncomp h = ncomp g) (En : rh_nsub h = nsub g).
  Hypothesis Sz : BcSpec.sized (g_gattr g) types bdr.
  Variables (Ac : nat -> nat -> nat -> option fmat) (Ab : nat -> nat -> nat -> nat -> option fmat) (Ap : nat -> nat -> nat -> nat -> nat -> option fmat).
  Hypotheses (Lc : List.length cs = ncomp g) (Lb : List.length bs = ncomp g) (Lp : List.length ps = List.length (g_refs g)).
  Hypothesis EC : forall c, c < ncomp g -> mb_r (nth c cs no_blocks) = nbk /\ mb_c (nth c cs no_blocks) = nbk /\
    forall v v', v < nbk -> v' < nbk -> proj s dim (ref_place h c v) (ref_place h c v') (Ac c v v') (mb_get (nth c cs no_blocks) v v').
  Hypothesis EB : forall c, c < ncomp g -> List.length (nth c bs []) = List.length (attrs_of g c) /\ forall b, b < List.length (attrs_of g c) ->
    let X := nth b (nth c bs []) no_blocks in mb_r X = nbk /\ mb_c X = nbk /\
    forall v v', v < nbk -> v' < nbk -> proj s dim (ref_place h c v) (ref_place h c v') (Ab c b v v') (mb_get X v v').
  Hypothesis EP : forall k, k < List.length (g_refs g) -> let X := nth k ps no_blocks in let r := nth k (g_refs g) (ItfPort 0 0 []) in
    mb_r X = 2 * nbk /\ mb_c X = 2 * nbk /\
    forall i j v v', i < 2 -> j < 2 -> v < nbk -> v' < nbk ->
      proj s dim (ref_place h (side_mesh r i) v) (ref_place h (side_mesh r j) v') (Ap k i j v v') (mb_get X (i * nbk + v) (j * nbk + v')).
  Variable enf : Z -> bool.
  Hypothesis Enf : forall a, enf a = true <-> weak g types bdr a.

  Let a := bup_asm s g types bdr (cs, bs, ps).

  Lemma nbk_pos : 0 < nbk.
  Proof. destruct B as (_ & (_ & P & _) & _). unfold nbk. fold h in P. destruct (rh_sep h); lia. Qed.
  Lemma unk m v : unknown h m v <-> m < nsub g /\ v < nbk.
  Proof. unfold unknown, nbk. rewrite En. destruct (rh_sep h); split; intros (A1 & A2); split; auto; lia. Qed.
  Lemma ctype m : m < nsub g -> comp_of h m = type_of g m.
  Proof. intros _. unfold comp_of, type_of. rewrite Et. reflexivity. Qed.

  Lemma ports_len : List.length (as_ports a) = List.length (g_ports g).
  Proof. unfold a, bup_asm. cbn [as_ports]. rewrite map_length, combine_length. destruct G as (_ & _ & _ & _ & _ & _ & _ & _ & L & _). rewrite L. lia. Qed.
  Lemma ports_nth k : k < List.length (g_ports g) -> nth k (as_ports a) no_port = (ip_m1 (port_of g k), ip_m2 (port_of g k), nth k (g_ptype g) 0).
  Proof.
    intros Hk. unfold a, bup_asm. cbn [as_ports]. destruct G as (_ & _ & _ & _ & _ & _ & _ & _ & L & _).
    rewrite (nth_indep _ _ ((fun x : itf_port * nat => (ip_m1 (fst x), ip_m2 (fst x), snd x)) (ItfPort 0 0 [], 0))) by (rewrite map_length, combine_length; lia).
    rewrite (map_nth (fun x : itf_port * nat => (ip_m1 (fst x), ip_m2 (fst x), snd x))). rewrite combine_nth by auto. reflexivity.
  Qed.
  Lemma side_sub k i : k < List.length (g_ports g) -> i < 2 -> sub_of_side (nth k (as_ports a) no_port) i = side_mesh (port_of g k) i.
  Proof. intros Hk Hi. rewrite ports_nth by auto. destruct i as [|[|i]]; [| |lia]; reflexivity. Qed.
  Lemma port_type k : k < List.length (g_ports g) -> ptype (nth k (as_ports a) no_port) = nth k (g_ptype g) 0.
  Proof. intros Hk. rewrite ports_nth by auto. reflexivity. Qed.
  Lemma port_index P : In P (as_ports a) -> exists k, k < List.length (g_ports g) /\ P = nth k (as_ports a) no_port.
  Proof. intros H. destruct (In_nth _ _ no_port H) as (k & Hk & E). rewrite ports_len in Hk. exists k. auto. Qed.

  Lemma bup_asm_ok : asm_ok a.
  Proof.
    pose proof G as (Pn & La & Lg & Ty & Gc & Gr & Nd & _ & Lpt & Pk). pose proof B as (_ & W & _ & _ & Ti & _). destruct Sz as (S1 & S2). pose proof nbk_pos as NP.
    split; [exact W|]. split; [exact Ti|]. split; [cbn; fold h; lia|]. split; [cbn; fold h; lia|]. split; [cbn; fold h; lia|].
    split; [cbn; rewrite map_length; auto|]. split; [cbn; auto|].
    change (as_rom a) with h. change (as_bdr a) with bs. change (as_c2g a) with (g_c2g g). change (as_comp a) with cs. change (as_port a) with ps. fold nbk. rewrite En.
    split; [|split; [|split]].
    - intros m Hm. rewrite ctype by auto. destruct (EB (type_of g m) (Ty m Hm)) as (-> & _). apply (Gr m Hm).
    - intros m Hm. rewrite ctype by auto. destruct (EC (type_of g m) (Ty m Hm)) as (E1 & E2 & E3). split; [auto|]. split; [auto|]. intros i j X Hi Hj E.
      unfold basis_size. rewrite ctype by auto. eapply proj_size; eauto.
    - intros m b Hm Hb. rewrite ctype by auto. fold (row_of g m) in Hb. destruct (Gr m Hm) as (Lr & _). rewrite Lr in Hb.
      destruct (EB (type_of g m) (Ty m Hm)) as (_ & E). destruct (E b Hb) as (E1 & E2 & E3). split; [auto|]. split; [auto|]. intros i j X Hi Hj EX.
      unfold basis_size. rewrite ctype by auto. eapply proj_size; eauto.
    - intros P HP. apply port_index in HP as (k & Hk & ->). rewrite port_type, !side_sub by (auto; lia). destruct (Pk k Hk) as (Tk & Sk).
      destruct (Sk 0 ltac:(lia)) as (M0 & R0). destruct (Sk 1 ltac:(lia)) as (M1 & R1).
      split; [auto|]. split; [auto|]. split; [lia|]. destruct (EP _ Tk) as (E1 & E2 & E3). split; [auto|]. split; [auto|]. intros i j X Hi Hj EX.
      set (r := nth (nth k (g_ptype g) 0) (g_refs g) (ItfPort 0 0 [])) in *. fold (ref_of g k) in r.
      assert (SPL : forall i, i < 2 * nbk -> exists x v, x < 2 /\ v < nbk /\ i = x * nbk + v /\
         (if i <? nbk then basis_size h (side_mesh (port_of g k) 0) i else basis_size h (side_mesh (port_of g k) 1) (i - nbk)) = nth (ref_place h (side_mesh r x) v) (rh_nb h) 0).
      { intros z Hz. destruct (Nat.ltb_spec z nbk).
        - exists 0, z. split; [lia|]. split; [auto|]. split; [lia|]. unfold basis_size. rewrite ctype by auto. unfold r. rewrite R0. reflexivity.
        - exists 1, (z - nbk). split; [lia|]. split; [lia|]. split; [lia|]. unfold basis_size. rewrite ctype by auto. unfold r. rewrite R1. reflexivity. }
      destruct (SPL i Hi) as (x & v & Hx & Hv & Ei & ->). destruct (SPL j Hj) as (y & v' & Hy & Hv' & Ej & ->). rewrite Ei, Ej in EX.
      eapply proj_size; [|exact EX]. apply E3; auto.
  Qed.

  Definition elem_entry (m v m' v' i j : nat) : R :=
    (ind (m =? m')%nat (val (Ac (type_of g m) v v') i j + rsum (List.length (row_of g m)) (fun b => ind (enf (nth b (row_of g m) 0%Z)) (val (Ab (type_of g m) b v v') i j)))
     + rsum (List.length (g_ports g)) (fun k => rsum 2 (fun x => rsum 2 (fun y =>
         ind ((side_mesh (port_of g k) x =? m) && (side_mesh (port_of g k) y =? m'))%nat (val (Ap (nth k (g_ptype g) 0%nat) x y v v') i j)))))%R.

  Lemma essential_weak m b : m < nsub g -> b < List.length (row_of g m) -> enf (nth b (row_of g m) 0%Z) = true <-> essential a m b.
  Proof.
    intros Hm Hb. rewrite Enf. unfold weak, essential. change (as_c2g a) with (g_c2g g). fold (row_of g m). change (as_gattr a) with (g_gattr g).
    change (as_btype a) with types. change (as_bc a) with (map (fun c : option coeff => match c with Some _ => true | None => false end) bdr).
    pose proof G as (_ & _ & _ & _ & _ & _ & Nd & _). destruct Sz as (S1 & S2). split.
    - intros (k & Ek & N1 & N2). exists (nth b (row_of g m) 0%Z), k. split; [apply nth_error_nth'; auto|]. assert (Hk : k < List.length (g_gattr g)) by (apply nth_error_Some; congruence). split; [|split].
      + split; [auto|]. intros j Hj Ej. assert (j = k); [|lia]. apply (proj1 (NoDup_nth_error (g_gattr g)) Nd); [apply nth_error_Some; congruence|congruence].
      + rewrite (map_nth (fun c : option coeff => match c with Some _ => true | None => false end) bdr None k : nth k (map _ bdr) false = _). destruct (nth k bdr None); congruence.
      + auto.
    - intros (ga & k & E & (Ek & _) & N1 & N2). rewrite (nth_error_nth _ _ 0%Z E). exists k. split; [auto|]. split; [|auto].
      assert (Hk : k < List.length (g_gattr g)) by (apply nth_error_Some; congruence).
      rewrite (map_nth (fun c : option coeff => match c with Some _ => true | None => false end) bdr None k : nth k (map _ bdr) false = _) in N1. destruct (nth k bdr None); congruence.
  Qed.

  Lemma rom_reduces : exists Bm, assemble_rom_mat a = Ok Bm /\ reduces s dim elem_entry Bm.
  Proof.
    pose proof G as (Pn & La & Lg & Ty & Gc & Gr & Nd & _ & Lpt & Pk).
    destruct (MbProperties.C44_rom_matrix a (fun m b => enf (nth b (row_of g m) 0%Z)) bup_asm_ok) as (Bm & E & V).
    { intros m b Hm Hb. change (rh_nsub (as_rom a)) with (rh_nsub h) in Hm. rewrite En in Hm. apply essential_weak; auto. }
    exists Bm. split; [exact E|]. unfold reduces. fold h. cbn zeta. intros m v m' v' p q U U' Hp Hq. change (as_rom a) with h in V. destruct (V m v m' v' U U') as (_ & V').
    rewrite V'. rewrite (asm_entry_ok s dim a (fun m b => enf (nth b (row_of g m) 0%Z)) eq_refl Ac Ab Ap); auto.
    - apply rap_ext. intros i j _ _. unfold asm_entry, elem_entry. fold h. change (as_c2g a) with (g_c2g g). fold (row_of g m). apply unk in U. apply unk in U'. rewrite ctype by apply U. f_equal.
      rewrite ports_len. apply rsum_ext. intros k Hk. cbn zeta. apply rsum_ext. intros x Hx. apply rsum_ext. intros y Hy. rewrite !side_sub, port_type by auto. reflexivity.
    - intros m0 v0 v0' U0 U0'. apply unk in U0. apply unk in U0'. fold h. rewrite ctype by apply U0. apply EC; [apply Ty, U0|apply U0|apply U0'].
    - intros m0 b0 v0 v0' U0 U0' Hb. apply unk in U0. apply unk in U0'. fold h. change (as_c2g a) with (g_c2g g) in Hb. fold (row_of g m0) in Hb. rewrite ctype by apply U0.
      destruct (Gr m0 (proj1 U0)) as (Lr & _). destruct (EB (type_of g m0) (Ty m0 (proj1 U0))) as (_ & Q). destruct (Q b0 ltac:(lia)) as (_ & _ & Q'). apply Q'; tauto.
    - intros P i j v0 v0' HP Hi Hj U0 U0'. apply port_index in HP as (k & Hk & ->). fold h in U0, U0' |- *. rewrite !side_sub in * by auto. rewrite port_type by auto.
      apply unk in U0. apply unk in U0'. destruct (Pk k Hk) as (Tk & Sk). destruct (Sk i Hi) as (_ & Ri). destruct (Sk j Hj) as (_ & Rj). rewrite !ctype by tauto.
      destruct (EP _ Tk) as (_ & _ & E3). specialize (E3 i j v0 v0' Hi Hj (proj2 U0) (proj2 U0')). fold (ref_of g k) in E3. rewrite Ri, Rj in E3. exact E3.
  Qed.
End Elems.
