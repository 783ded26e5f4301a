(** Appending and reloading bases, basis sizes, ownership. *)
From Coq Require Import Reals List Bool Lia Arith ZArith String Lra.
From Verif Require Import Outcome ListLemmas LaBase LinalgModel LinalgSpec LinalgProofs BlockVec TagsModel CompProofs RomModel RomSpec RomProofs RomBasisProofs.
Import ListNotations.
Local Open Scope nat_scope.

(** ** Appending *)

Lemma dm_setsub_ok m jb a : dm_wf m -> dm_wf a -> dm_h a = dm_h m -> jb + dm_w a <= dm_w m ->
  exists m', dm_setsub m 0 jb a = Ok m' /\ dm_wf m' /\ dm_h m' = dm_h m /\ dm_w m' = dm_w m /\
    (forall i j, i < dm_h m -> j < dm_w a -> mget m' i (jb + j) = mget a i j) /\
    (forall i j, i < dm_h m -> j < jb \/ jb + dm_w a <= j -> mget m' i j = mget m i j).
Proof.
  intros Wm Wa Eh Hw. unfold dm_setsub.
  set (J := fun i0 j0 m' => dm_wf m' /\ dm_h m' = dm_h m /\ dm_w m' = dm_w m /\
    (forall i j, i < dm_h m -> j < dm_w a -> i < i0 \/ (i = i0 /\ j < j0) -> mget m' i (jb + j) = mget a i j) /\
    (forall i j, i < dm_h m -> j < jb \/ jb + dm_w a <= j -> mget m' i j = mget m i j)).
  destruct (ofor_inv (dm_h a) (fun m i => ofor (dm_w a) (fun m j => let* x := dm_get a i j in dm_put m (0 + i) (jb + j) x) m)
    (fun i => J i 0) m) as (m' & E & (J1 & J2 & J3 & J4 & J5)).
  - split; [auto|]. split; [auto|]. split; [auto|]. split; [intros; lia|auto].
  - intros i m1 Hi H1.
    destruct (ofor_inv (dm_w a) (fun m j => let* x := dm_get a i j in dm_put m (0 + i) (jb + j) x) (fun j => J i j) m1 H1) as (m2 & E & (K1 & K2 & K3 & K4 & K5)).
    + intros j m2 Hj (K1 & K2 & K3 & K4 & K5). unfold dm_get. rewrite oread_vnth by (apply mget_in; auto; lia). cbn [obind]. cbn [Nat.add].
      destruct (dm_put_ok m2 i (jb + j) (vnth (dm_buf a) (i + j * dm_h a)) K1) as (m3 & E3 & W3 & H3 & V3 & G3 & O3); try lia.
      exists m3. split; [exact E3|]. split; [auto|]. split; [congruence|]. split; [congruence|]. split.
      * intros i' j' Hi' Hj' C. destruct (Nat.eq_dec i' i) as [->|Ni].
        -- destruct (Nat.eq_dec j' j) as [->|Nj]; [exact G3|]. rewrite O3 by (try lia; intros C'; injection C'; lia). apply K4; lia.
        -- rewrite O3 by (try lia; intros C'; injection C'; lia). apply K4; auto; lia.
      * intros i' j' Hi' C. rewrite O3 by (try lia; intros C'; injection C'; lia). apply K5; auto.
    + exists m2. split; [auto|]. split; [auto|]. split; [auto|]. split; [auto|]. split; [|auto].
      intros i' j' Hi' Hj' C. apply K4; auto. lia.
  - exists m'. split; [exact E|]. split; [auto|]. split; [auto|]. split; [auto|]. split; [|auto]. intros i j Hi Hj. apply J4; auto. lia.
Qed.

Definition with_nb (h : rom) (nb : list nat) : rom := Rom (rh_nsub h) (rh_nvar h) (rh_sep h) (rh_ord h) (rh_types h) (rh_ncomp h) nb.

Lemma append_ok s dim idx mat : bases_ok s dim -> idx < List.length (rh_nb (rs_h s)) -> dm_wf mat -> dm_h mat = dim idx ->
  let n := nth idx (rh_nb (rs_h s)) 0 in
  let old := nth idx (rs_ref s) (DMat 0 0 []) in
  exists s', append_reference_basis s idx mat = Ok s' /\ bases_ok s' dim /\
    rs_h s' = with_nb (rs_h s) (upd (rh_nb (rs_h s)) idx (n + dm_w mat)) /\ rs_carom s' = rs_carom s /\
    (let new := nth idx (rs_ref s') (DMat 0 0 []) in
     (forall i j, i < dim idx -> j < n -> mget new i j = mget old i j) /\
     (forall i j, i < dim idx -> j < dm_w mat -> mget new i (n + j) = mget mat i j)) /\
    (forall b, b <> idx -> nth b (rs_ref s') (DMat 0 0 []) = nth b (rs_ref s) (DMat 0 0 [])).
Proof.
  intros B Hi Wm Hm n old. pose proof B as (Ld & W & L & R & T & Ldm & Dm). unfold append_reference_basis.
  rewrite Ld. rewrite num_ref_blocks_eq by auto. rewrite (proj2 (Nat.ltb_lt _ _) Hi). cbn [oassert].
  rewrite (oread_nth (rs_ref s) idx (DMat 0 0 [])) by lia. cbn [obind]. rewrite (oread_nth (rh_nb (rs_h s)) idx 0) by lia. cbn [obind].
  fold n old. destruct (R idx Hi) as (Wo & Ho & Vo). fold n old in Wo, Ho, Vo. rewrite Ho, Hm, Vo, !Nat.eqb_refl. cbn [oassert].
  destruct (dm_setsize_wf old (dim idx) (n + dm_w mat) Wo) as (W1 & H1 & V1).
  destruct (dm_setsub_ok (dm_setsize old (dim idx) (n + dm_w mat)) 0 old W1 Wo) as (r1 & E1 & Wr1 & Hr1 & Vr1 & G1 & _); try congruence; try lia.
  rewrite E1. cbn [obind].
  destruct (dm_setsub_ok r1 n mat Wr1 Wm) as (r2 & E2 & Wr2 & Hr2 & Vr2 & G2 & O2); try congruence; try lia.
  rewrite E2. cbn [obind].
  rewrite (proj2 (owrite_ok (rs_ref s) _ idx r2)) by (split; [lia|reflexivity]). cbn [obind].
  rewrite (proj2 (owrite_ok (rh_nb (rs_h s)) _ idx _)) by (split; [lia|reflexivity]). cbn [obind].
  fold (with_nb (rs_h s) (upd (rh_nb (rs_h s)) idx (n + dm_w mat))).
  set (h' := with_nb (rs_h s) (upd (rh_nb (rs_h s)) idx (n + dm_w mat))).
  assert (W' : rom_wf h').
  { destruct W as (A1 & A2 & A3 & A4 & A5). unfold rom_wf, h', comp_of. cbn [with_nb rh_nsub rh_nvar rh_types rh_ncomp rh_nb rh_sep].
    rewrite upd_length. repeat split; auto. }
  destruct (set_block_sizes_ok h' W') as (off & coff & nbasis & Es & T' & _). rewrite Es. cbn [obind].
  eexists. split; [reflexivity|]. cbn [rs_h rs_carom rs_ref].
  assert (Ln : List.length (rh_nb h') = List.length (rh_nb (rs_h s))) by (unfold h'; cbn [with_nb rh_nb]; apply upd_length).
  split; [|split; [reflexivity|split; [reflexivity|split; [cbv zeta; split|]]]].
  - unfold bases_ok. cbn [rs_loaded rs_h rs_ref rs_off rs_dom]. split; [auto|]. split; [auto|]. split; [rewrite upd_length, Ln; auto|].
    split; [|split; [exact T'|split; [exact Ldm|exact Dm]]].
    intros b Hb. rewrite Ln in Hb. cbv zeta. unfold h'. cbn [with_nb rh_nb]. destruct (Nat.eq_dec b idx) as [->|Nb].
    + rewrite !nth_upd_eq by lia. split; [auto|]. split; congruence.
    + rewrite !nth_upd_ne by auto. apply R; auto.
  - intros i j Hi' Hj. rewrite nth_upd_eq by lia. rewrite O2 by (try congruence; lia). apply (G1 i j); lia.
  - intros i j Hi' Hj. rewrite nth_upd_eq by lia. apply G2; try congruence; lia.
  - intros b Nb. apply nth_upd_ne; auto.
Qed.

(** ** Loading again *)

(** Loading a second time re-creates the bases from what the reader returned the first time. *)
Lemma reload_same s files files' s' : rs_loaded s = false -> load_reduced_basis files s = Ok s' ->
  load_reduced_basis files' s' = Ok s'.
Proof.
  unfold load_reduced_basis. intros Ln. rewrite Ln. intros H.
  apply obind_ok in H. destruct H as (ref & Er & H). apply obind_ok in H. destruct H as (dom & Ed & H). injection H as <-.
  cbn [rs_loaded rs_carom rs_h rs_off rs_coff rs_nbasis]. rewrite Er. cbn [obind]. rewrite Ed. reflexivity.
Qed.

(** ** Basis sizes *)

(** The entry of the tag list that counts for a tag: the first with that name. *)
Fixpoint first_named (name : string) (dict : list tag_entry) : option tag_entry :=
  match dict with
  | [] => None
  | e :: t => match fst e with Some n => if String.eqb n name then Some e else first_named name t | None => first_named name t end
  end.

Lemma look_up_first name d dict :
  look_up name d dict = match first_named name dict with Some (_, Some z) => z | _ => d end.
Proof.
  induction dict as [|[[n|] v] t IH]; cbn [look_up first_named fst]; auto.
  destruct (String.eqb n name); auto.
Qed.

Lemma first_sub_spec types c : forall k m, first_sub types c k = Some m <->
  k <= m /\ nth_error types (m - k) = Some c /\ forall i, i < m - k -> nth_error types i <> Some c.
Proof.
  induction types as [|t types IH]; intros k m; cbn [first_sub].
  - split; [discriminate|]. intros (_ & H & _). destruct (m - k); discriminate.
  - destruct (Nat.eqb_spec t c) as [->|N].
    + split.
      * intros [= <-]. rewrite Nat.sub_diag. cbn. repeat split; auto. intros; lia.
      * intros (H1 & H2 & H3). f_equal. destruct (Nat.eq_dec k m); auto. exfalso. apply (H3 0); [lia|auto].
    + rewrite IH. split.
      * intros (H1 & H2 & H3). split; [lia|]. replace (m - k) with (S (m - (k + 1))) by lia. split; [exact H2|].
        intros [|i] Hi; [cbn; congruence|]. apply H3. lia.
      * intros (H1 & H2 & H3). assert (k <> m). { intros ->. rewrite Nat.sub_diag in H2. cbn in H2. congruence. }
        split; [lia|]. replace (m - k) with (S (m - (k + 1))) in H2 by lia. split; [exact H2|].
        intros i Hi. apply (H3 (S i)). lia.
Qed.
Lemma first_sub_none types c k : first_sub types c k = None -> ~ In c types.
Proof.
  revert k. induction types as [|t types IH]; intros k; cbn [first_sub]; auto.
  destruct (Nat.eqb_spec t c); [discriminate|]. intros H [C|C]; [auto|]. eapply IH; eauto.
Qed.

(** Number of vectors configured for a tag. *)
Definition configured (default : Z) (dict : option (list tag_entry)) (tag : string) : Z :=
  match first_named tag (match dict with Some d => d | None => [] end) with Some (_, Some z) => z | _ => default end.

Lemma num_vdofs_fold off nvar m l : forall a d,
  ofold (fun a v => let* hi := oread off (m * nvar + v + 1) in let* lo := oread off (m * nvar + v) in Ok (a + (hi - lo))) l a = Ok d ->
  d = fold_left (fun a v => a + (nth (m * nvar + v + 1) off 0 - nth (m * nvar + v) off 0)) l a.
Proof.
  induction l as [|x l IH]; intros a d Ed; cbn [ofold fold_left] in *.
  - injection Ed as <-. auto.
  - apply obind_ok in Ed. destruct Ed as (a' & Ea & Ed). apply obind_ok in Ea. destruct Ea as (hi & Eh & Ea).
    apply obind_ok in Ea. destruct Ea as (lo & Elo & Ea). injection Ea as <-. apply oread_ok in Eh. apply oread_ok in Elo.
    rewrite (nth_error_nth _ _ 0 Eh), (nth_error_nth _ _ 0 Elo). apply IH. auto.
Qed.

Lemma parse_basis_ok comps vars sep types off default dict nb dims :
  parse_basis comps vars sep types off default dict = Ok (nb, dims) ->
  let nvar := List.length vars in
  let per := if sep then nvar else 1 in
  List.length nb = List.length comps * per /\ List.length dims = List.length comps * per /\
  forall c v, c < List.length comps -> v < per ->
    let b := c * per + v in
    let tag := print_tag (tag_for_component (nth c comps ""%string) (if sep then nth v vars ""%string else ""%string)) in
    0 < nth b nb 0 /\ Z.of_nat (nth b nb 0) = configured default dict tag /\ 0 < nth b dims 0 /\
    (exists m, nth_error types m = Some c /\ (forall i, i < m -> nth_error types i <> Some c) /\
       nth b dims 0 = if sep then nth (m * nvar + v + 1) off 0 - nth (m * nvar + v) off 0
                      else fold_left (fun a v => a + (nth (m * nvar + v + 1) off 0 - nth (m * nvar + v) off 0)) (seq 0 nvar) 0).
Proof.
  unfold parse_basis. intros H. apply oassert_ok in H. destruct H as (_ & H). apply oassert_ok in H. destruct H as (P & H).
  apply oassert_ok in H. destruct H as (_ & H). apply obind_ok in H. destruct H as (l & El & H).
  apply oassert_ok in H. destruct H as (Pos & H). injection H as <- <-. cbv zeta.
  set (nvar := List.length vars) in *. set (per := if sep then nvar else 1).
  replace (if sep then List.length comps * nvar else List.length comps) with (List.length comps * per) in * by (unfold per; destruct sep; lia).
  apply omap_ok in El. assert (Ll : List.length l = List.length comps * per).
  { rewrite <- (seq_length (List.length comps * per) 0). symmetry. clear - El. induction El; cbn; auto. }
  rewrite !map_length. split; [auto|]. split; [auto|]. intros c v Hc Hv.
  assert (Hb : c * per + v < List.length comps * per) by (apply lin_lt; auto).
  assert (Q : exists p, nth_error l (c * per + v) = Some p).
  { destruct (nth_error l (c * per + v)) eqn:E; [eauto|]. apply nth_error_None in E. lia. }
  destruct Q as (p & Ep).
  pose proof (proj2 (Forall2_nth_error _ _ _ El) (c * per + v) (c * per + v) p (nth_error_seq _ _ _ Hb) Ep) as Hp. cbv beta zeta in Hp.
  assert (Ec : (if sep then (c * per + v) / nvar else c * per + v) = c).
  { unfold per in *. destruct sep; [apply lin_div; auto|lia]. }
  rewrite Ec in Hp. rewrite (oread_nth comps c ""%string) in Hp by auto. cbn [obind] in Hp.
  assert (Ev : (if sep then oread vars ((c * per + v) mod nvar) else Ok ""%string) = Ok (if sep then nth v vars ""%string else ""%string)).
  { unfold per in *. destruct sep; auto. rewrite lin_mod by auto. apply oread_nth. auto. }
  rewrite Ev in Hp. cbn [obind] in Hp. rewrite look_up_first in Hp.
  fold (configured default dict (print_tag (tag_for_component (nth c comps ""%string) (if sep then nth v vars ""%string else ""%string)))) in Hp.
  apply oassert_ok in Hp. destruct Hp as (_ & Hp). destruct (first_sub types c 0) as [m|] eqn:Em; [|discriminate].
  apply obind_ok in Hp. destruct Hp as (d & Ed & Hp). injection Hp as <-.
  assert (Pb := proj1 (forallb_forall _ l) Pos _ (nth_error_In _ _ Ep)). cbn [fst snd] in Pb. apply andb_prop in Pb. destruct Pb as (P1 & P2).
  apply Z.ltb_lt in P1. apply Nat.ltb_lt in P2.
  rewrite (nth_error_nth _ _ 0 (map_nth_error (fun p : Z * nat => Z.to_nat (fst p)) _ _ Ep)). cbn [fst].
  rewrite (nth_error_nth _ _ 0 (map_nth_error snd _ _ Ep)). cbn [snd].
  split; [lia|]. split; [lia|]. split; [auto|]. exists m. apply first_sub_spec in Em. rewrite Nat.sub_0_r in Em.
  destruct Em as (_ & Em1 & Em2). split; [auto|]. split; [auto|].
  unfold per in *. destruct sep.
  - rewrite lin_mod in Ed by auto. apply obind_ok in Ed. destruct Ed as (hi & Eh & Ed). apply obind_ok in Ed. destruct Ed as (lo & Elo & Ed).
    injection Ed as <-. apply oread_ok in Eh. apply oread_ok in Elo. rewrite (nth_error_nth _ _ 0 Eh), (nth_error_nth _ _ 0 Elo). auto.
  - unfold num_vdofs, ofor in Ed. apply num_vdofs_fold in Ed. exact Ed.
Qed.

(** A component no subdomain uses stops the program. *)
Lemma parse_basis_unused comps vars sep types off default dict c r :
  c < List.length comps -> 0 < List.length vars -> ~ In c types ->
  parse_basis comps vars sep types off default dict <> Ok r.
Proof.
  intros Hc Hv Hn. destruct r as (nb, dims). intros H. apply parse_basis_ok in H. destruct H as (_ & _ & H).
  destruct (H c 0 Hc) as (_ & _ & _ & m & Em & _); [destruct sep; lia|]. apply nth_error_In in Em. auto.
Qed.
