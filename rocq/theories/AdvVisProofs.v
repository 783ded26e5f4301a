(** The flow drawn is the flow used. *)
From Coq Require Import Reals List Bool Lia Arith ZArith String.
From Verif Require Import Outcome ListLemmas LaBase LinalgModel BlockVec RomModel RomProofs MbModel ItfModel ProbModel BcModel BupModel AdvModel AdvSpec AdvProofs.
Import ListNotations.
Local Open Scope nat_scope.

Lemma omap_velocities {A B} (f : A -> outcome B) (P : A -> B -> Prop) l : (forall x, In x l -> exists y, f x = Ok y /\ P x y) ->
  exists ys, omap f l = Ok ys /\ List.length ys = List.length l /\ forall k x, nth_error l k = Some x -> exists y, nth_error ys k = Some y /\ P x y.
Proof.
  induction l as [|x l IH]; intros H.
  - exists []. split; [reflexivity|]. split; [reflexivity|]. intros [|k] x E; discriminate.
  - destruct (H x (or_introl eq_refl)) as (y & Ey & Py). destruct IH as (ys & E & Ln & V); [intros; apply H; right; auto|].
    exists (y :: ys). cbn [omap]. rewrite Ey. cbn [obind]. rewrite E. split; [reflexivity|]. split; [cbn; congruence|].
    intros [|k] z Ez; cbn in Ez |- *; [injection Ez as <-; eauto|apply V; auto].
Qed.

Lemma seq_at n m : m < n -> nth_error (seq 0 n) m = Some m.
Proof. intros H. rewrite (nth_error_nth' _ 0) by (rewrite seq_length; exact H). rewrite seq_nth by exact H. reflexivity. Qed.

Section Vis.
  Variables (c : acfg) (L : flows).
  Hypothesis FO : flows_ok c L.

  Definition agree (s : astate) : Prop :=
    forall n, a_cur s = Some n -> exists u, nth_error (a_solvers s) n = Some (Some (BVec (fl_off L) u)) /\ List.length u = last (fl_off L) 0 /\
      forall m, m < ac_nsub c -> advects s m (VelGrid (stokes_velocity L u m)).

  Lemma set_agree s g fp p s' : sound c L s -> adv_set c L g false fp p s = Ok s' -> agree s'.
  Proof.
    intros Sd E. unfold adv_set in E. apply obind_ok in E as (t & Et & E). apply obind_ok in E as (ps & Ep & E). injection E as <-.
    destruct (get_flow_sound c L FO g fp s Sd) as (_ & G). destruct (G t Et) as (_ & n & u & Ec & Es & Lu & A).
    intros n' En'. cbn [a_cur a_solvers] in *. assert (n' = n) as -> by congruence. exists u. auto.
  Qed.
  Lemma quiet_agree s o s' : agree s -> step c L s o = Ok s' -> (forall f m, o <> OFlow f m) -> sound c L s -> agree s'.
  Proof.
    intros A E N Sd. destruct o as [f m|g [|] fp p|]; cbn [step] in E.
    - destruct (N f m eq_refl).
    - unfold adv_set in E. cbn [obind] in E. apply obind_ok in E as (ps & _ & E). injection E as <-. exact A.
    - eapply set_agree; eauto.
    - unfold adv_build in E. apply obind_ok in E as (fs & _ & E). injection E as <-. exact A.
  Qed.
  Lemma flow_cur s f m s' : set_flow c f m s = Ok s' -> a_cur s' = a_cur s.
  Proof.
    intros E. unfold set_flow in E. apply oassert_ok in E as (_ & E). apply oassert_ok in E as (_ & E).
    assert (P : forall t k t', (let* fl := owrite (a_flow t) k (Some (List.length (a_coefs t))) in
      Ok (AState (a_coefs t ++ [Some (FFun f)]) fl (a_solvers t) (a_cur t) (a_forms t) (a_files t) (a_ps t))) = Ok t' -> a_cur t' = a_cur t).
    { intros t k t' H. apply obind_ok in H as (fl & _ & H). injection H as <-. reflexivity. }
    destruct (m =? -1)%Z; [|eapply P; eauto].
    unfold ofor in E. revert s E. generalize (seq 0 (ac_nsub c)) as l. induction l as [|k l IH]; intros s E; cbn [ofold] in E; [injection E as <-; reflexivity|].
    apply obind_ok in E as (t & Et & E). apply IH in E. apply P in Et. congruence.
  Qed.
  Lemma analytic_cur l : forall s s', (forall g fp p, ~ In (OSet g false fp p) l) -> ofold (step c L) l s = Ok s' -> a_cur s = None -> a_cur s' = None.
  Proof.
    induction l as [|o l IH]; intros s s' N E C; cbn [ofold] in E; [injection E as <-; exact C|].
    apply obind_ok in E as (t & Et & E). apply (IH t s'); auto; [intros g fp p H; apply (N g fp p); right; auto|].
    destruct o as [f m|g [|] fp p|]; cbn [step] in Et.
    - rewrite (flow_cur _ _ _ _ Et). exact C.
    - unfold adv_set in Et. cbn [obind] in Et. apply obind_ok in Et as (ps & _ & Et). injection Et as <-. exact C.
    - destruct (N g fp p). left. reflexivity.
    - unfold adv_build in Et. apply obind_ok in Et as (fs & _ & Et). injection Et as <-. exact C.
  Qed.
  Lemma unmixed_agree fs l s : files_ok fs -> exec c L fs l = Ok s -> unmixed l -> agree s.
  Proof.
    intros F E [N|(l1 & g & fp & p & l2 & -> & N)].
    - unfold exec in E. apply obind_ok in E as (s0 & E0 & E). intros n H. rewrite (analytic_cur l s0 s) in H; [discriminate|auto|auto|].
      unfold adv_new in E0. apply oassert_ok in E0 as (_ & E0). apply oassert_ok in E0 as (_ & E0). injection E0 as <-. reflexivity.
    - apply exec_app in E as (t & Et & E). cbn [ofold] in E. apply obind_ok in E as (t1 & E1 & E).
      pose proof (exec_sound c L FO fs l1 t F Et) as St. pose proof (step_sound c L FO t _ t1 St E1) as S1. apply set_agree in E1; auto.
      clear Et St t. revert t1 S1 E1 E. induction l2 as [|o l2 IH]; intros t1 S1 A1 E; cbn [ofold] in E; [injection E as <-; exact A1|].
      apply obind_ok in E as (t2 & E2 & E). apply (IH (fun f m H => N f m (or_intror H)) t2); auto; [eapply step_sound; eauto|].
      eapply quiet_agree; eauto. intros f m ->. apply (N f m). left. reflexivity.
  Qed.

  Lemma saved_all v k : vi_save v = true -> (vi_unified v || vis_check (ac_nsub c) v = true) -> (forall m, m < k -> vi_unified v = false -> vis_skip v m = false) ->
    vis_save (ac_nsub c) v (repeat true k) = Ok (seq 0 k).
  Proof.
    intros Sv Ck Sk. unfold vis_save. rewrite Sv, Ck. cbn [negb oassert]. rewrite repeat_length.
    destruct (ofor_inv k (fun saved m => if negb (vi_unified v) && vis_skip v m then Ok saved
      else let* c0 := oread (repeat true k) m in oassert c0 (Ok (saved ++ [m]))) (fun i x => x = seq 0 i) []) as (x & E & ->); [reflexivity| |exact E].
    intros i a Hi ->. exists (seq 0 (S i)). split; [|reflexivity].
    replace (negb (vi_unified v) && vis_skip v i) with false by (destruct (vi_unified v) eqn:Eu; cbn; [reflexivity|rewrite Sk; auto]).
    unfold oread. rewrite (nth_error_nth' _ true) by (rewrite repeat_length; exact Hi). rewrite nth_repeat. cbn [obind oassert]. rewrite seq_S. reflexivity.
  Qed.

  Lemma visual_ok s v colls (global : bool) : sound c L s -> agree s -> vi_save v = true -> 0 < ac_nsub c -> vis_init (ac_nsub c) v = Ok colls ->
    (if vi_unified v then global = true else vi_offset v = 0%Z /\ vi_interval v = 1%Z) -> (forall m, m < ac_nsub c -> exists b, advects s m b) ->
    exists fields, adv_visual c v colls global s = Ok (fields, seq 0 (List.length colls)) /\
      forall m b, m < ac_nsub c -> shows (vi_unified v) fields m b <-> advects s m b.
  Proof.
    intros Sd Ag Sv Np Ei Un Al.
    assert (Cl : colls = repeat true (if vi_unified v then 1 else ac_nsub c) /\ (vi_unified v || vis_check (ac_nsub c) v = true) /\ forall m, vi_unified v = false -> vis_skip v m = false).
    { unfold vis_init in Ei. rewrite Sv in Ei. cbn [negb] in Ei. destruct (vi_unified v); [injection Ei as <-; split; [reflexivity|split; [reflexivity|discriminate]]|].
      destruct Un as (Eo & Et). apply oassert_ok in Ei as (Ck & Ei). injection Ei as <-.
      assert (Sk : forall m, vis_skip v m = false). { intros m. unfold vis_skip. rewrite Eo, Et, Z.rem_1_r. rewrite (proj2 (Z.ltb_ge (Z.of_nat m) 0)) by lia. reflexivity. }
      split; [|split; auto]. clear -Sk. induction (ac_nsub c) as [|k IH]; [reflexivity|]. rewrite seq_S, map_app, IH. cbn [map Nat.add]. rewrite Sk. cbn. rewrite <- repeat_cons. reflexivity. }
    destruct Cl as (-> & Ck & Sk). set (k := if vi_unified v then 1 else ac_nsub c) in *. assert (Kp : 0 < k) by (unfold k; destruct (vi_unified v); lia).
    unfold adv_visual. rewrite Sv, repeat_length. cbn [negb]. replace (0 <? k) with true by (symmetry; apply Nat.ltb_lt; lia). cbn [oassert].
    replace (forallb (fun b => b) (repeat true k)) with true by (symmetry; clear; induction k; auto). cbn [oassert].
    set (draw := fun m => match a_cur s with Some n => _ | None => _ end).
    destruct (omap_velocities draw (advects s) (seq 0 (ac_nsub c))) as (fl & Ef & Lf & Vf).
    { intros m Hm. apply in_seq in Hm. unfold draw. destruct (a_cur s) as [n|] eqn:Ec.
      - destruct (Ag n Ec) as (u & Es & Lu & A). unfold oread. rewrite Es. cbn [obind]. replace (m * flow_nvar) with (2 * m) by (unfold flow_nvar; lia). rewrite (block_ok c L FO) by (auto; lia). cbn [obind].
        eexists. split; [reflexivity|]. apply A. lia.
      - destruct (Al m) as (b & (i & Ei' & _)); [lia|]. unfold oread at 1. rewrite Ei'. cbn [obind]. destruct (sound_advects c L FO s m i Sd Ei') as (b' & A & Ev). eauto. }
    rewrite Ef. cbn [obind]. rewrite seq_length in Lf.
    assert (Vf' : forall m, m < ac_nsub c -> exists b, nth_error fl m = Some b /\ advects s m b).
    { intros m Hm. apply Vf. apply seq_at. exact Hm. }
    assert (Sa : vis_save (ac_nsub c) v (repeat true k) = Ok (seq 0 k)) by (apply saved_all; auto).
    unfold shows. destruct (vi_unified v) eqn:Eu.
    - rewrite Un. cbn [oassert obind]. rewrite Sa. cbn [obind]. eexists. split; [reflexivity|]. intros m b Hm. destruct (Vf' m Hm) as (b' & Eb & Ab). split.
      + intros (fl' & Efl & En). injection Efl as <-. congruence.
      + intros A. exists fl. split; [reflexivity|]. rewrite Eb. f_equal. eapply advects_fun; eauto.
    - destruct (omap_velocities (fun m => oguard (m <? k) (let* x := oread fl m in Ok (m, [x]))) (fun m y => exists b, y = (m, [b]) /\ advects s m b) (seq 0 (ac_nsub c))) as (ys & Ey & Ly & Vy).
      { intros m Hm. apply in_seq in Hm. destruct (Vf' m) as (b & Eb & Ab); [lia|]. replace (m <? k) with true by (symmetry; apply Nat.ltb_lt; unfold k; lia). cbn [oguard]. unfold oread. rewrite Eb. cbn [obind].
        eexists. split; [reflexivity|]. eauto. }
      rewrite Ey. cbn [obind]. rewrite Sa. cbn [obind]. eexists. split; [reflexivity|]. rewrite seq_length in Ly. intros m b Hm. split.
      + intros H. apply In_nth_error in H as (j & Hj). assert (Hj' : j < ac_nsub c) by (rewrite <- Ly; apply nth_error_Some; congruence).
        destruct (Vy j j) as (y & Ey' & b' & -> & Ab); [apply seq_at; auto|].
        rewrite Hj in Ey'. injection Ey' as -> ->. exact Ab.
      + intros A. destruct (Vy m m) as (y & Ey' & b' & -> & Ab); [apply seq_at; auto|].
        rewrite (advects_fun s m b b' A Ab). eapply nth_error_In; eauto.
  Qed.
End Vis.
