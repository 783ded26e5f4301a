(** Layout of the ROM unknowns. *)
From Coq Require Import Reals List Bool Lia Arith ZArith String.
From Verif Require Import Outcome ListLemmas LaBase LinalgModel LinalgSpec LinalgProofs BlockVec TagsModel CompProofs RomModel RomSpec.
Import ListNotations.
Local Open Scope nat_scope.

(** ** Block index *)

Lemma lin_lt a b n m : a < n -> b < m -> a * m + b < n * m.
Proof. intros. nia. Qed.
Lemma lin_inj a b a' b' m : b < m -> b' < m -> a * m + b = a' * m + b' -> a = a' /\ b = b'.
Proof.
  intros Hb Hb' E. assert (H : (a * m + b) / m = (a' * m + b') / m) by (f_equal; auto).
  rewrite !Nat.div_add_l, !Nat.div_small in H by lia. lia.
Qed.
Lemma lin_div a b m : b < m -> (a * m + b) / m = a.
Proof. intros. rewrite Nat.div_add_l, Nat.div_small by lia. lia. Qed.
Lemma lin_mod a b m : b < m -> (a * m + b) mod m = b.
Proof. intros. rewrite Nat.add_comm, Nat.mod_add, Nat.mod_small by lia. auto. Qed.
Lemma lin_onto k n m : k < n * m -> k / m < n /\ k mod m < m /\ k = k / m * m + k mod m.
Proof.
  intros H. assert (m <> 0) by (intros ->; lia). split; [apply Nat.div_lt_upper_bound; lia|].
  split; [apply Nat.mod_upper_bound; auto|]. rewrite Nat.mul_comm. apply Nat.div_mod. auto.
Qed.

Lemma num_blocks_blocks h : num_blocks h = blocks h.
Proof. unfold num_blocks, blocks. destruct (rh_sep h); lia. Qed.

Lemma place_lt h m v : unknown h m v -> place h m v < blocks h.
Proof.
  intros (Hm & Hv). unfold place, blocks. destruct (rh_sep h); [|lia].
  destruct (rh_ord h); [apply lin_lt; auto|]. rewrite (Nat.mul_comm (rh_nsub h)). apply lin_lt; auto.
Qed.

Lemma place_inj h m v m' v' : unknown h m v -> unknown h m' v' -> place h m v = place h m' v' -> m = m' /\ v = v'.
Proof.
  intros (Hm & Hv) (Hm' & Hv') E. unfold place in E. destruct (rh_sep h); [|lia].
  destruct (rh_ord h); apply lin_inj in E; auto. lia.
Qed.

Lemma place_onto h b : b < blocks h -> exists m v, unknown h m v /\ place h m v = b.
Proof.
  intros H. unfold blocks in H. unfold unknown, place. destruct (rh_sep h); [|exists b, 0; lia].
  destruct (rh_ord h).
  - destruct (lin_onto b _ _ H) as (A & B & C). exists (b / rh_nvar h), (b mod rh_nvar h). auto.
  - rewrite Nat.mul_comm in H. destruct (lin_onto b _ _ H) as (A & B & C). exists (b mod rh_nsub h), (b / rh_nsub h). auto.
Qed.

Definition by_domain (h : rom) : rom := Rom (rh_nsub h) (rh_nvar h) (rh_sep h) ByDomain (rh_types h) (rh_ncomp h) (rh_nb h).
Lemma fom_place_by_domain h m v : fom_place h m v = place (by_domain h) m v.
Proof. reflexivity. Qed.
Lemma fom_place_lt h m v : unknown h m v -> fom_place h m v < blocks h.
Proof. intros U. rewrite fom_place_by_domain. apply (place_lt (by_domain h)). exact U. Qed.
Lemma fom_place_inj h m v m' v' : unknown h m v -> unknown h m' v' -> fom_place h m v = fom_place h m' v' -> m = m' /\ v = v'.
Proof. intros U U' E. rewrite !fom_place_by_domain in E. apply (place_inj (by_domain h)) in E; auto. Qed.
Lemma fom_place_onto h b : b < blocks h -> exists m v, unknown h m v /\ fom_place h m v = b.
Proof. intros H. apply (place_onto (by_domain h)) in H. exact H. Qed.

Lemma ref_place_lt h c v : c < rh_ncomp h -> (if rh_sep h then v < rh_nvar h else v = 0) ->
  ref_place h c v < rh_ncomp h * (if rh_sep h then rh_nvar h else 1).
Proof. intros. unfold ref_place. destruct (rh_sep h); [apply lin_lt; auto|lia]. Qed.

Lemma block_index_place h m v : unknown h m v -> block_index h m (Z.of_nat v) = Ok (place h m v).
Proof.
  intros (Hm & Hv). unfold block_index, place. destruct (Z.ltb_spec (Z.of_nat v) 0); [lia|]. rewrite Nat2Z.id.
  destruct (rh_sep h); cbn [negb]; auto. destruct (rh_ord h); f_equal; lia.
Qed.

Lemma dom_var_place h m v : unknown h m v ->
  dom_var h (place h m v) = Ok (m, if rh_sep h then Z.of_nat v else (-1)%Z).
Proof.
  intros (Hm & Hv). unfold dom_var, place. destruct (rh_sep h); cbn [negb]; auto. destruct (rh_ord h).
  - destruct (Nat.eqb_spec (rh_nvar h) 0); [lia|]. cbn [negb oguard]. rewrite lin_div, lin_mod by auto. auto.
  - destruct (Nat.eqb_spec (rh_nsub h) 0); [lia|]. cbn [negb oguard]. rewrite lin_div, lin_mod by auto. auto.
Qed.

(** ** Offsets *)

Lemma tiles_offsets h pl size off : tiles h pl size off ->
  (forall b, b < blocks h -> exists m v, unknown h m v /\ pl m v = b) -> offsets off (blocks h) (sz off).
Proof.
  intros (L & Z & H) On. split; [auto|]. split; [auto|]. intros b Hb. destruct (On b Hb) as (m & v & U & <-).
  rewrite (H m v U). unfold sz. rewrite (H m v U). lia.
Qed.
Lemma tiles_sz h pl size off m v : tiles h pl size off -> unknown h m v -> sz off (pl m v) = size m v.
Proof. intros (L & Z & H) U. unfold sz. rewrite (H m v U). lia. Qed.

Lemma fits_wf h pl size b : fits h pl size b ->
  (forall k, k < blocks h -> exists m v, unknown h m v /\ pl m v = k) -> bv_wf b (blocks h) (sz (bv_off b)).
Proof.
  intros (T & L) On. pose proof (tiles_offsets _ _ _ _ T On) as O. split; auto.
  rewrite L. eapply offsets_nsum; eauto.
Qed.

(** Writing one entry of an array per index, at [S (p i)]. *)
Lemma owrite_fill n N (p F : nat -> nat) f l0 : List.length l0 = S N ->
  (forall i, i < n -> p i < N) -> (forall i j, i < n -> j < n -> p i = p j -> i = j) ->
  (forall l i, i < n -> List.length l = S N -> f l i = owrite l (p i + 1) (F i)) ->
  exists l, ofor n f l0 = Ok l /\ List.length l = S N /\ nth 0 l 0 = nth 0 l0 0 /\
    (forall i, i < n -> nth (S (p i)) l 0 = F i) /\
    (forall j, (forall i, i < n -> p i <> j) -> nth (S j) l 0 = nth (S j) l0 0).
Proof.
  intros L Hp Inj Hf.
  destruct (ofor_inv n f (fun k l => List.length l = S N /\ nth 0 l 0 = nth 0 l0 0 /\
    (forall i, i < k -> nth (S (p i)) l 0 = F i) /\
    (forall j, (forall i, i < k -> p i <> j) -> nth (S j) l 0 = nth (S j) l0 0)) l0) as (l & E & I).
  - split; [auto|]. split; [auto|]. split; [intros; lia|auto].
  - intros k l Hk (Ll & Z & Hd & Ho). rewrite Hf by auto. specialize (Hp k Hk) as Hpk.
    exists (upd l (S (p k)) (F k)). rewrite Nat.add_1_r. split; [apply owrite_ok; split; auto; lia|].
    split; [rewrite upd_length; auto|]. split; [rewrite nth_upd_ne by lia; auto|]. split.
    + intros i Hi. destruct (Nat.eq_dec i k) as [->|Ne]; [apply nth_upd_eq; lia|].
      rewrite nth_upd_ne; [apply Hd; lia|]. intros C. apply Ne. apply Inj; auto; lia.
    + intros j Hj. rewrite nth_upd_ne; [apply Ho; auto|]. intros C. apply (Hj k); auto.
  - exists l. auto.
Qed.

Lemma oread_nth {A} (l : list A) i d : i < List.length l -> oread l i = Ok (nth i l d).
Proof. intros H. unfold oread. rewrite (nth_error_nth' l d) by auto. reflexivity. Qed.

Lemma comp_offsets_sep nc nv nb : List.length nb = nc * nv ->
  exists l, ofor nc (fun '(cbo, idx) c =>
        ofor nv (fun '(cbo, idx) v =>
          let* n := oread nb idx in
          let* cbo := owrite cbo (idx + 1) n in Ok (cbo, idx + 1)) (cbo, idx)) (repeat 0 (nc * nv + 1), 0) = Ok (l, nc * nv) /\
    l = 0 :: nb.
Proof.
  intros L.
  set (I := fun k (s : list nat * nat) => snd s = k /\ List.length (fst s) = S (nc * nv) /\ nth 0 (fst s) 0 = 0 /\
     forall i, i < k -> nth (S i) (fst s) 0 = nth i nb 0).
  destruct (ofor_inv nc (fun '(cbo, idx) (c : nat) =>
        ofor nv (fun '(cbo, idx) (v : nat) =>
          let* n := oread nb idx in
          let* cbo := owrite cbo (idx + 1) n in Ok (cbo, idx + 1)) (cbo, idx)) (fun c => I (c * nv)) (repeat 0 (nc * nv + 1), 0))
    as ((l & idx) & E & (H1 & H2 & H3 & H4)).
  - split; [reflexivity|]. cbn [fst snd]. rewrite repeat_length. split; [lia|]. split; [rewrite Nat.add_1_r; reflexivity|]. intros; lia.
  - intros c (cbo & idx) Hc (H1 & H2 & H3 & H4). cbn [fst snd] in *.
    destruct (ofor_inv nv (fun '(cbo, idx) (v : nat) =>
          let* n := oread nb idx in
          let* cbo := owrite cbo (idx + 1) n in Ok (cbo, idx + 1)) (fun v => I (c * nv + v)) (cbo, idx)) as (s & E & Hs).
    + rewrite Nat.add_0_r. split; auto.
    + intros v (cbo' & idx') Hv (G1 & G2 & G3 & G4). cbn [fst snd] in *. subst idx'.
      pose proof (lin_lt c v nc nv Hc Hv) as B. rewrite (oread_nth nb _ 0) by lia. cbn [obind].
      eexists. rewrite (proj2 (owrite_ok cbo' _ (c * nv + v + 1) _)) by (split; [lia|reflexivity]). cbn [obind].
      split; [reflexivity|]. split; [cbn [snd]; lia|]. cbn [fst]. rewrite upd_length. split; [auto|].
      split; [rewrite nth_upd_ne by lia; auto|]. intros i Hi. rewrite Nat.add_1_r.
      destruct (Nat.eq_dec i (c * nv + v)) as [->|Ne]; [rewrite nth_upd_eq by lia; auto|].
      rewrite nth_upd_ne by lia. apply G4. lia.
    + exists s. split; [auto|]. replace (S c * nv) with (c * nv + nv) by lia. auto.
  - cbn [fst snd] in *. subst idx. exists l. split; [auto|].
    apply nth_ext with (d := 0) (d' := 0); [cbn [List.length]; lia|]. intros [|i] Hi; [auto|]. cbn [nth]. apply H4. lia.
Qed.

Lemma comp_offsets_plain n nb : List.length nb = n ->
  ofor n (fun cbo c => let* n := oread nb c in owrite cbo (c + 1) n) (repeat 0 (n + 1)) = Ok (0 :: nb).
Proof.
  intros L. destruct (owrite_fill n n (fun c => c) (fun c => nth c nb 0)
     (fun cbo c => let* n := oread nb c in owrite cbo (c + 1) n) (repeat 0 (n + 1))) as (l & E & Ll & Z & H & _); auto.
  - rewrite repeat_length. lia.
  - intros l i Hi _. rewrite (oread_nth nb i 0) by lia. reflexivity.
  - rewrite E. f_equal. apply nth_ext with (d := 0) (d' := 0); [cbn [List.length]; lia|].
    intros [|i] Hi; [rewrite Z, Nat.add_1_r; reflexivity|]. cbn [nth]. apply H. lia.
Qed.

Lemma psum_tiles h rbo : List.length rbo = S (blocks h) -> nth 0 rbo 0 = 0 ->
  (forall m v, unknown h m v -> nth (S (place h m v)) rbo 0 = basis_size h m v) ->
  tiles h (place h) (basis_size h) (psum 0 rbo).
Proof.
  intros L Z H. split; [rewrite psum_length; auto|]. split.
  - rewrite psum_nth by lia. unfold nsum. cbn. rewrite Z. auto.
  - intros m v U. pose proof (place_lt h m v U) as B. rewrite !psum_nth by lia. rewrite (nsum_S (S (place h m v))).
    rewrite (H m v U). lia.
Qed.

Lemma set_block_sizes_ok h : rom_wf h ->
  exists off coff nbasis, set_block_sizes h = Ok (off, coff, nbasis) /\
    tiles h (place h) (basis_size h) off /\
    coff = psum 0 (0 :: rh_nb h) /\ List.length nbasis = blocks h /\
    (forall m v, unknown h m v -> nth (place h m v) nbasis 0 = basis_size h m v).
Proof.
  intros (Hs & Hv & Lt & Ht & Ln).
  assert (K : exists rbo, List.length rbo = S (blocks h) /\ nth 0 rbo 0 = 0 /\
     (forall m v, unknown h m v -> nth (S (place h m v)) rbo 0 = basis_size h m v) /\
     set_block_sizes h = Ok (psum 0 rbo, psum 0 (0 :: rh_nb h), firstn (num_blocks h) (skipn 1 rbo))).
  { unfold set_block_sizes. destruct (rh_sep h) eqn:Sep.
    - destruct (comp_offsets_sep (rh_ncomp h) (rh_nvar h) (rh_nb h) Ln) as (l & E & ->).
      unfold num_ref_blocks. rewrite Sep. rewrite E. cbn [obind].
      destruct (ofor_inv (rh_nsub h) (fun rbo k =>
        let* c := oread (rh_types h) k in
        ofor (rh_nvar h) (fun rbo v =>
          let* idx := block_index h k (Z.of_nat v) in
          let* n := oread (rh_nb h) (c * rh_nvar h + v) in
          owrite rbo (idx + 1) n) rbo)
        (fun k rbo => List.length rbo = S (blocks h) /\ nth 0 rbo 0 = 0 /\
           forall m v, unknown h m v -> m < k -> nth (S (place h m v)) rbo 0 = basis_size h m v)
        (repeat 0 (num_blocks h + 1))) as (rbo & Er & (Lr & Zr & Hr)).
      + rewrite repeat_length, num_blocks_blocks. split; [lia|]. split; [rewrite Nat.add_1_r; reflexivity|]. intros; lia.
      + intros k rbo Hk (Lr & Zr & Hr). rewrite (oread_nth (rh_types h) k 0) by lia. cbn [obind].
        assert (U : forall v, v < rh_nvar h -> unknown h k v) by (intros; split; [auto|rewrite Sep; auto]).
        destruct (owrite_fill (rh_nvar h) (blocks h) (place h k) (basis_size h k) (fun rbo v =>
          let* idx := block_index h k (Z.of_nat v) in
          let* n := oread (rh_nb h) (nth k (rh_types h) 0 * rh_nvar h + v) in
          owrite rbo (idx + 1) n) rbo) as (l & El & Ll & Zl & Hl & Ol); auto.
        * intros i Hi. apply place_lt. auto.
        * intros i j Hi Hj Eij. apply place_inj in Eij; auto. lia.
        * intros l i Hi Hl. rewrite block_index_place by auto. cbn [obind].
          pose proof (lin_lt _ i _ _ (Ht k Hk) Hi) as B. unfold comp_of in B.
          rewrite (oread_nth (rh_nb h) _ 0) by lia. cbn [obind]. f_equal. unfold basis_size, ref_place, comp_of. rewrite Sep. auto.
        * exists l. split; [auto|]. split; [auto|]. split; [congruence|]. intros m v Um Hm.
          assert (C : m = k \/ m < k) by lia. destruct C as [->|C].
          -- apply Hl. destruct Um as (_ & Um). rewrite Sep in Um. auto.
          -- rewrite Ol; [apply Hr; auto|]. intros i Hi Ei. apply place_inj in Ei; auto. lia.
      + rewrite Er. cbn [obind]. exists rbo. split; [auto|]. split; [auto|]. split; [|auto].
        intros m v U. apply Hr; auto. apply U.
    - unfold num_ref_blocks. rewrite Sep. rewrite Nat.mul_1_r in Ln. rewrite comp_offsets_plain by auto. cbn [obind].
      assert (U : forall k, k < rh_nsub h -> unknown h k 0) by (intros; split; [auto|rewrite Sep; auto]).
      destruct (owrite_fill (rh_nsub h) (blocks h) (fun k => k) (fun k => basis_size h k 0) (fun rbo k =>
        let* c := oread (rh_types h) k in
        let* n := oread (rh_nb h) c in owrite rbo (k + 1) n) (repeat 0 (num_blocks h + 1))) as (l & El & Ll & Zl & Hl & Ol); auto.
      + rewrite repeat_length, num_blocks_blocks. lia.
      + intros i Hi. pose proof (place_lt h i 0 (U i Hi)) as B. unfold place in B. rewrite Sep in B. auto.
      + intros l i Hi _. rewrite (oread_nth (rh_types h) i 0) by lia. cbn [obind].
        specialize (Ht i Hi) as B. unfold comp_of in B. rewrite (oread_nth (rh_nb h) _ 0) by lia. cbn [obind].
        unfold basis_size, ref_place, comp_of. rewrite Sep. auto.
      + rewrite El. cbn [obind]. exists l. split; [auto|]. split; [rewrite Zl, Nat.add_1_r; reflexivity|]. split; [|auto].
        intros m v (Um & Uv). rewrite Sep in Uv. subst v. unfold place. rewrite Sep. apply Hl. auto. }
  destruct K as (rbo & L & Z & H & E). exists (psum 0 rbo), (psum 0 (0 :: rh_nb h)), (firstn (num_blocks h) (skipn 1 rbo)).
  split; [auto|]. split; [apply psum_tiles; auto|]. split; [auto|].
  destruct rbo as [|z rbo]; [cbn in L; lia|]. cbn [List.length] in L. cbn [skipn]. rewrite num_blocks_blocks, firstn_all2 by lia.
  split; [lia|]. intros m v U. exact (H m v U).
Qed.

(** ** Order of the blocks *)

Lemma by_domain_order h m v m' v' : rh_ord h = ByDomain -> unknown h m v -> unknown h m' v' ->
  m < m' \/ (m = m' /\ v < v') -> place h m v < place h m' v'.
Proof.
  intros O (Hm & Hv) (Hm' & Hv') C. unfold place. rewrite O. destruct (rh_sep h); [|lia].
  destruct C as [C|(-> & C)]; [|lia]. assert ((m + 1) * rh_nvar h <= m' * rh_nvar h) by (apply Nat.mul_le_mono_r; lia). lia.
Qed.
Lemma by_variable_order h m v m' v' : rh_ord h = ByVariable -> unknown h m v -> unknown h m' v' ->
  v < v' \/ (v = v' /\ m < m') -> place h m v < place h m' v'.
Proof.
  intros O (Hm & Hv) (Hm' & Hv') C. unfold place. rewrite O. destruct (rh_sep h); [|lia].
  destruct C as [C|(-> & C)]; [|lia]. assert ((v + 1) * rh_nsub h <= v' * rh_nsub h) by (apply Nat.mul_le_mono_r; lia). lia.
Qed.
