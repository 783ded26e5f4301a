(** The functions of the predefined problems are the formulas of the specification. *)
From Coq Require Import Reals List Bool Lia Arith ZArith Ascii String Lra.
From Verif Require Import Outcome ListLemmas ConfigModel CompModel LaBase MbModel ProbModel ProbSpec ProbProofs.
Import ListNotations.
Local Open Scope string_scope.
Local Open Scope list_scope.
Local Open Scope R_scope.

Lemma fsum_rsum n f : fsum n f = rsum n f.
Proof. unfold fsum. induction n; [reflexivity|]. rewrite seq_S, fold_left_app, IHn. reflexivity. Qed.
Lemma wave_fsum n k x o : n = List.length x -> sin (2 * PI * (fsum n (fun d => k d * vnth x d) + o)) = wave k o x.
Proof. intros ->. rewrite fsum_rsum. reflexivity. Qed.
Lemma wave_ext k k' o x : (forall d, (d < List.length x)%nat -> k d = k' d) -> wave k o x = wave k' o x.
Proof. intros H. unfold wave. do 3 f_equal. apply rsum_ext. intros d Hd. rewrite H; auto. Qed.

Lemma unit_at_ok n i v : (i < n)%nat -> exists y, unit_at n i v = Ok y /\ is_vec n y (fun j => if (j =? i)%nat then v else 0).
Proof.
  intros H. exists (upd (repeat 0 n) i v). split; [apply owrite_ok; rewrite repeat_length; auto|]. split; [rewrite upd_length, repeat_length; auto|].
  intros j Hj. destruct (Nat.eqb_spec j i) as [->|N]; [apply vnth_upd_eq; rewrite repeat_length; auto|]. rewrite vnth_upd_ne by auto. unfold vnth. apply nth_repeat.
Qed.
Lemma is_vec_ext n y f f' : is_vec n y f -> (forall i, (i < n)%nat -> f i = f' i) -> is_vec n y f'.
Proof. intros (A & B) H. split; auto. intros i Hi. rewrite B; auto. Qed.
Lemma is_vec_map n f : is_vec n (map f (seq 0 n)) f.
Proof. split; [rewrite map_length, seq_length; auto|]. intros i Hi. unfold vnth. rewrite nth_map_seq; auto. Qed.

(** [par C j] puts the value of parameter [j] into the context. *)
Ltac par C j :=
  match type of C with configured ?n ?g ?l ?p ?g' =>
    let a := eval vm_compute in (nth j (pb_ptr (proto n)) "") in
    let k := eval vm_compute in (fst (nth j (table n) ("", 0))) in
    let E := fresh "P" in
    assert (E : g' a = value n l k) by exact (at_index n g l p g' C j a k _ eq_refl eq_refl)
  end.

Lemma frame_fields p q : frame p q -> pb_sbdr q = pb_sbdr p /\ pb_vbdr q = pb_vbdr p /\ pb_srhs q = pb_srhs p /\ pb_vrhs q = pb_vrhs p /\ pb_ic q = pb_ic p /\ pb_gs q = pb_gs p /\ pb_gv q = pb_gv p /\ pb_name q = pb_name p.
Proof. intros (a & b & c & ->). cbn. tauto. Qed.
Lemma configured_fields n g l p g' : configured n g l p g' -> pb_sbdr p = pb_sbdr (proto n) /\ pb_vbdr p = pb_vbdr (proto n) /\ pb_srhs p = pb_srhs (proto n) /\ pb_vrhs p = pb_vrhs (proto n) /\
  pb_ic p = pb_ic (proto n) /\ pb_gs p = pb_gs (proto n) /\ pb_gv p = pb_gv (proto n).
Proof. intros C. destruct (configured_ok _ _ _ _ _ C) as (_ & _ & F & _). destruct (frame_fields _ _ F) as (A1 & A2 & A3 & A4 & A5 & A6 & A7 & _). tauto. Qed.
Lemma plain n g l p g' : configured n g l p g' -> pb_kind (proto n) = KPlain -> p = proto n.
Proof.
  intros C K. destruct (configured_ok _ _ _ _ _ C) as (_ & _ & _ & _ & B & Z & _). destruct l; auto. specialize (B ltac:(discriminate)). unfold set_battr in B. rewrite K in B. congruence.
Qed.

(** ** Poisson *)

Lemma poisson0_rhs g l p g' : configured "poisson0" g l p g' -> let par := value "poisson0" l in
  exists f, pb_srhs p = Some f /\ forall x t, seval f g' x t = Ok (wave (fun _ => par "k") (par "offset") x).
Proof.
  intros C par. destruct (configured_fields _ _ _ _ _ C) as (_ & _ & -> & _). eexists. split; [reflexivity|]. intros x t. cbn [seval]. par C 0%nat. par C 1%nat. rewrite P, P0.
  unfold wave. rewrite fsum_rsum, rsum_scal. do 3 f_equal. fold par. ring.
Qed.

Lemma poisson_comp_funs g l p g' : configured "poisson_component" g l p g' -> let par := value "poisson_component" l in
  exists f b, pb_srhs p = Some f /\ pb_sbdr p = [Some b] /\ forall x t, (List.length x <= 3)%nat ->
    seval f g' x t = Ok (wave (fun d => par ("k" ++ index_key d)%string) (par "offset") x) /\
    seval b g' x t = Ok (wave (fun d => par ("bdr_k" ++ index_key d)%string) (par "bdr_offset") x).
Proof.
  intros C par. destruct (configured_fields _ _ _ _ _ C) as (-> & _ & -> & _). eexists _, _. split; [reflexivity|]. split; [reflexivity|]. intros x t L. cbn [seval].
  replace (List.length x <=? 3)%nat with true by (symmetry; apply Nat.leb_le; auto). unfold oassert.
  par C 0%nat. par C 1%nat. par C 2%nat. par C 3%nat. par C 4%nat. par C 5%nat. par C 6%nat. par C 7%nat.
  rewrite !(wave_fsum _ _ x) by reflexivity. rewrite P2, P6. split; f_equal; apply wave_ext; intros [|[|[|d]]] Hd; try lia; assumption.
Qed.
Lemma poisson_comp_bdr g l p g' : configured "poisson_component" g l p g' -> l <> [] -> let b := value "poisson_component" l "bdr_idx" in
  b < 4 /\ pb_types p = [BDirichlet] /\
  (b < 0 -> pb_battr p = [-1]%Z) /\ (0 <= b -> exists a, pb_battr p = [a] /\ IZR (a - 1) <= b < IZR a /\ (1 <= a <= 4)%Z).
Proof.
  intros C N b. destruct (configured_ok _ _ _ _ _ C) as (_ & _ & _ & _ & B & _). specialize (B N). destruct (rejected _ _ _ _ _ C) as (_ & R). specialize (R N eq_refl). fold b in R.
  destruct comp_ptr as (P1 & P2). pose proof (at_index _ _ _ _ _ C 8%nat _ _ _ P1 P2) as E. fold b in E. split; auto. unfold set_battr in B. cbn [pb_kind proto] in B.
  change (pb_kind (proto "poisson_component")) with KPoissonComp in B. cbv beta iota zeta in B. rewrite E in B. destruct (Rle_dec 0 b) as [L|L].
  - rewrite oguard_ok, oassert_ok in B. destruct B as (_ & B1 & B). injection B as <-. split; [reflexivity|]. split; [lra|]. intros _. exists (1 + Int_part b)%Z. split; [reflexivity|].
    apply andb_prop in B1 as (B1 & B2). apply Z.leb_le in B1, B2. split; [|lia]. destruct (base_Int_part b) as (Q1 & Q2). replace (1 + Int_part b - 1)%Z with (Int_part b) by lia. rewrite plus_IZR. lra.
  - injection B as <-. split; [reflexivity|]. split; [reflexivity|lra].
Qed.

(** Polar angle *)
Lemma atan_tan x : - (PI / 2) < x < PI / 2 -> atan (sin x / cos x) = x.
Proof. intros (A & B). apply (atan_tan x); lra. Qed.

Lemma angle_ok r th : 0 < r -> 0 <= th < 2 * PI -> let a := atan2 (r * sin th) (r * cos th) in (if Rlt_dec a 0 then a + 2 * PI else a) = th.
Proof.
  intros Hr (H0 & H1). pose proof PI_RGT_0 as Pp. cbv zeta. unfold atan2.
  assert (Q : forall s c, c <> 0 -> r * s / (r * c) = s / c) by (intros; field; split; lra).
  destruct (Rlt_le_dec th (PI / 2)) as [L1|L1].
  { assert (C : 0 < cos th) by (apply cos_gt_0; lra). destruct (Rlt_dec 0 (r * cos th)) as [_|N]; [|exfalso; apply N; nra]. rewrite Q by lra. rewrite atan_tan by lra. destruct (Rlt_dec th 0); lra. }
  destruct (Req_dec th (PI / 2)) as [->|L2].
  { rewrite cos_PI2, sin_PI2, Rmult_0_r. destruct (Rlt_dec 0 0) as [|_]; [lra|]. destruct (Rlt_dec 0 (r * 1)) as [_|N]; [|exfalso; apply N; lra]. destruct (Rlt_dec (PI / 2) 0); lra. }
  destruct (Rlt_le_dec th (3 * (PI / 2))) as [L3|L3].
  { assert (C : cos th < 0) by (apply cos_lt_0; lra). destruct (Rlt_dec 0 (r * cos th)) as [N|_]; [nra|]. destruct (Rlt_dec (r * cos th) 0) as [_|N]; [|exfalso; apply N; nra].
    rewrite Q by lra. assert (E : sin th / cos th = sin (th - PI) / cos (th - PI)).
    { rewrite sin_minus, cos_minus, sin_PI, cos_PI. field. lra. }
    rewrite E, atan_tan by lra. destruct (Rle_dec 0 (r * sin th)) as [S|S].
    - destruct (Rlt_dec (th - PI + PI) 0); lra.
    - assert (PI < th). { destruct (Rle_lt_dec th PI) as [K|K]; auto. exfalso. apply S. assert (0 <= sin th) by (apply sin_ge_0; lra). nra. }
      destruct (Rlt_dec (th - PI - PI) 0); lra. }
  destruct (Req_dec th (3 * (PI / 2))) as [->|L4].
  { rewrite cos_3PI2, sin_3PI2, Rmult_0_r. destruct (Rlt_dec 0 0) as [|_]; [lra|]. destruct (Rlt_dec 0 (r * -1)) as [N|_]; [lra|]. destruct (Rlt_dec (r * -1) 0) as [_|N]; [|exfalso; apply N; lra]. destruct (Rlt_dec (- PI / 2) 0); lra. }
  assert (C : 0 < cos th) by (replace (cos th) with (cos (th - 2 * PI)) by (rewrite cos_minus, sin_2PI, cos_2PI; ring); apply cos_gt_0; lra). destruct (Rlt_dec 0 (r * cos th)) as [_|N]; [|exfalso; apply N; nra].
  rewrite Q by lra. assert (E : sin th / cos th = sin (th - 2 * PI) / cos (th - 2 * PI)) by (rewrite sin_minus, cos_minus, sin_2PI, cos_2PI; field; lra).
  rewrite E, atan_tan by lra. destruct (Rlt_dec (th - 2 * PI) 0); lra.
Qed.

Lemma spiral_rhs g l p g' : configured "poisson_spiral" g l p g' -> let par := value "poisson_spiral" l in
  exists f, pb_srhs p = Some f /\ forall r th t, 0 < r -> 0 <= th < 2 * PI ->
    let d := spiral_distance (par "s" * par "L" / (4 * PI)) r th in
    seval f g' [par "L" / 2 + r * cos th; par "L" / 2 + r * sin th] t = Ok (exp (- (d * d) / (2 * (par "Lw" * par "Lw"))) * cos (2 * PI * par "k" * d)).
Proof.
  intros C par. destruct (configured_fields _ _ _ _ _ C) as (_ & _ & -> & _). eexists. split; [reflexivity|]. intros r th t Hr Ht d. cbn [seval]. unfold spiral.
  par C 0%nat. par C 1%nat. par C 2%nat. par C 3%nat. rewrite P, P0, P1, P2. fold par. clear P P0 P1 P2. cbn [List.length oguard Nat.leb].
  assert (X0 : vnth [par "L" / 2 + r * cos th; par "L" / 2 + r * sin th] 0 = par "L" / 2 + r * cos th) by reflexivity.
  assert (X1 : vnth [par "L" / 2 + r * cos th; par "L" / 2 + r * sin th] 1 = par "L" / 2 + r * sin th) by reflexivity.
  rewrite fsum_rsum. cbn [rsum]. rewrite X0, X1. clear X0 X1.
  replace (par "L" / 2 + r * cos th - / 2 * par "L") with (r * cos th) by lra. replace (par "L" / 2 + r * sin th - / 2 * par "L") with (r * sin th) by lra.
  replace (0 + r * cos th * (r * cos th) + r * sin th * (r * sin th)) with (r * r) by (pose proof (sin2_cos2 th) as S; unfold Rsqr in S; replace (0 + r * cos th * (r * cos th) + r * sin th * (r * sin th)) with (r * r * (sin th * sin th + cos th * cos th)) by ring; rewrite S; ring).
  rewrite sqrt_square by lra. rewrite (angle_ok r th Hr Ht). unfold spiral_N. cbn [seq fold_left]. cbv beta iota zeta. pose proof PI_RGT_0 as Pp.
  set (sl := par "s" * par "L" / (2 * PI * INR 2)).
  assert (Es : sl = par "s" * par "L" / (4 * PI)) by (unfold sl; cbn; field; lra).
  replace (r - sl * (th - 2 * PI) - 2 * PI * sl) with (r - sl * th) by ring. replace (r - sl * th - 2 * PI * sl) with (r - sl * (th + 2 * PI)) by ring.
  rewrite Es. change (Rmin (Rmin (Rabs (r - par "s" * par "L" / (4 * PI) * (th - 2 * PI))) (Rabs (r - par "s" * par "L" / (4 * PI) * th))) (Rabs (r - par "s" * par "L" / (4 * PI) * (th + 2 * PI)))) with d.
  f_equal. f_equal. f_equal. unfold Rdiv. rewrite !Rinv_mult. ring.
Qed.

(** ** Flow *)

Lemma viscosity n g l p g' : configured n g l p g' -> nth_error (table n) 0 = Some ("nu", 1) -> g' "flow_problem::nu" = value n l "nu".
Proof.
  intros C H. destruct (configured_ok _ _ _ _ _ C) as (Hn & _). eapply (at_index _ _ _ _ _ C 0%nat); [|exact H].
  cbn in Hn. repeat (destruct Hn as [<-|Hn]; [solve [reflexivity|exfalso; cbn in H; injection H; intros; discriminate]|]). destruct Hn.
Qed.

Lemma channel_funs g l p g' : configured "channel_flow" g l p g' -> let par := value "channel_flow" l in
  exists f, everywhere 5 (pb_vbdr p) f /\ pb_vrhs p = None /\ pb_battr p = [1; 2; 3; 4; 5]%Z /\ pb_types p = [BZero; BNeumann; BZero; BDirichlet; BZero] /\
    forall du x0 x t u, (2 <= List.length x)%nat -> exists y, veval f g' du x0 x t u = Ok y /\
      is_vec (List.length x) y (fun i => if (i =? 0)%nat then par "U" * (1 - Rsqr (2 * (vnth x 1 - par "x0") / par "L")) else 0).
Proof.
  intros C par. rewrite (plain _ _ _ _ _ C eq_refl). exists VChannel. split; [reflexivity|]. split; [reflexivity|]. split; [reflexivity|]. split; [reflexivity|].
  intros du x0 x t u L. cbn [veval]. replace (2 <=? List.length x)%nat with true by (symmetry; apply Nat.leb_le; auto). cbn [oguard]. par C 1%nat. par C 2%nat. par C 3%nat. rewrite P, P0, P1. fold par.
  destruct (unit_at_ok (List.length x) 0 (par "U" * (1 - 4 * ((vnth x 1 - par "x0") / par "L") * ((vnth x 1 - par "x0") / par "L"))) ltac:(lia)) as (y & A & B). exists y. split; auto.
  apply (is_vec_ext _ _ _ _ B). intros i _. destruct (i =? 0)%nat; auto. unfold Rsqr. f_equal. unfold Rdiv. ring.
Qed.

Lemma component_funs n g l p g' : In n ["component_flow"; "flow_past_array"; "advdiff_flow_past_array"] -> configured n g l p g' -> let par := value n l in
  exists f, everywhere 5 (pb_vbdr p) f /\ pb_vrhs p = None /\
    forall du x0 x t u, (List.length x <= 3)%nat -> List.length x0 = List.length x -> exists y, veval f g' du x0 x t u = Ok y /\
      is_vec (List.length x) y (component_velocity par du x0 x).
Proof.
  intros Hn C par. exists VComponent. destruct (configured_fields _ _ _ _ _ C) as (_ & -> & _ & -> & _).
  split; [destruct Hn as [<-|[<-|[<-|[]]]]; reflexivity|]. split; [destruct Hn as [<-|[<-|[<-|[]]]]; reflexivity|].
  assert (Tab : forall i, (i < 3)%nat -> g' (cell "component_flow::u0" i) = par ("u0_" ++ axis i)%string /\ g' (cell "component_flow::du" i) = par ("du_" ++ axis i)%string /\
     g' (cell "component_flow::offsets" i) = par ("offsets_" ++ axis i)%string /\ forall j, (j < 3)%nat -> g' (mcell "component_flow::k" j i) = par ("k_" ++ comp i ++ "_" ++ axis j)%string).
  { destruct Hn as [<-|[<-|[<-|[]]]];
    (par C 1%nat; par C 2%nat; par C 3%nat; par C 4%nat; par C 5%nat; par C 6%nat; par C 7%nat; par C 8%nat; par C 9%nat; par C 10%nat; par C 11%nat; par C 12%nat; par C 13%nat; par C 14%nat; par C 15%nat; par C 16%nat; par C 17%nat; par C 18%nat;
     intros [|[|[|i]]] Hi; try lia; (split; [assumption|split; [assumption|split; [assumption|intros [|[|[|j]]] Hj; try lia; assumption]]])). }
  intros du x0 x t u L L0. cbn [veval]. unfold component_ubdr. replace (List.length x <=? 3)%nat with true by (symmetry; apply Nat.leb_le; auto). cbn [oguard].
  unfold flux. rewrite L0, Nat.eqb_refl. cbn [oassert obind]. eexists. split; [reflexivity|]. eapply is_vec_ext; [apply is_vec_map|]. intros i Hi. cbv beta.
  unfold vnth at 1 3. rewrite !nth_map_seq by auto. cbn [Nat.add]. destruct (Tab i ltac:(lia)) as (T1 & T2 & T3 & T4). unfold component_velocity. rewrite T1, T2, T3, fsum_rsum. unfold wave.
  rewrite (rsum_ext _ _ (fun j => par ("k_" ++ comp i ++ "_" ++ axis j)%string * vnth x j)) by (intros j Hj; rewrite T4 by lia; reflexivity).
  f_equal; [f_equal; f_equal; f_equal; ring|ring].
Qed.

Lemma step_funs g l p g' : configured "backward_facing_step" g l p g' -> let par := value "backward_facing_step" l in
  exists f ic, everywhere 3 (pb_vbdr p) f /\ pb_vrhs p = None /\ pb_battr p = [1; 2; 3]%Z /\ pb_types p = [BDirichlet; BZero; BNeumann] /\ nth_error (pb_ic p) 0 = Some (Some ic) /\
    forall du x0 x t u, (2 <= List.length x)%nat ->
      (exists y, veval f g' du x0 x t u = Ok y /\ is_vec (List.length x) y (fun i => match i with
         | O => profile (par "u0") (par "y0") (par "y1") (vnth x 1)
         | 1%nat => step_wave par 0 (vnth x 1) t + step_wave par 1 (vnth x 1) t | _ => 0 end)) /\
      (exists y, veval ic g' du x0 x t u = Ok y /\ is_vec (List.length x) y (fun i => if (i =? 0)%nat then if Rlt_dec (vnth x 1) (par "y0") then 0 else profile (par "u0") (par "y0") (par "y1") (vnth x 1) else 0)).
Proof.
  intros C par. rewrite (plain _ _ _ _ _ C eq_refl). exists VStep, VStepU. do 5 (split; [reflexivity|]).
  intros du x0 x t u L. cbn [veval]. unfold step_ubdr. replace (2 <=? List.length x)%nat with true by (symmetry; apply Nat.leb_le; auto). cbn [oguard].
  par C 1%nat. par C 2%nat. par C 3%nat. change ("backward_facing_step::" ++ "y0")%string with "backward_facing_step::y0". change ("backward_facing_step::" ++ "y1")%string with "backward_facing_step::y1". change ("backward_facing_step::" ++ "u0")%string with "backward_facing_step::u0".
  rewrite P, P0, P1. fold par. assert (Pr : forall y, - par "u0" * parabola (par "y0") (par "y1") y = profile (par "u0") (par "y0") (par "y1") y) by (intros; unfold parabola, profile, Rdiv; ring).
  split.
  - destruct (unit_at_ok (List.length x) 0 (- par "u0" * parabola (par "y0") (par "y1") (vnth x 1)) ltac:(lia)) as (y & A & B). rewrite A. cbn [obind].
    match goal with |- context[ofor 2 ?f y] => destruct (ofor_inv 2 f (fun m z => is_vec (List.length x) z (fun i => match i with O => profile (par "u0") (par "y0") (par "y1") (vnth x 1) | 1%nat => rsum m (fun m => step_wave par m (vnth x 1) t) | _ => 0 end)) y) as (z & Ez & Hz) end.
    + apply (is_vec_ext _ _ _ _ B). intros [|[|i]] _; cbn; auto.
    + intros m z Hm (Lz & Hz).
      assert (Pm : g' (cell "backward_facing_step::amp" m) = par ("amp" ++ index_key m)%string /\ g' (cell "backward_facing_step::ky" m) = par ("ky" ++ index_key m)%string /\
                   g' (cell "backward_facing_step::freq" m) = par ("freq" ++ index_key m)%string /\ g' (cell "backward_facing_step::t_offset" m) = par ("t_offset" ++ index_key m)%string).
      { destruct m as [|[|m]]; [| |lia].
        - par C 4%nat. par C 5%nat. par C 6%nat. par C 7%nat. auto.
        - par C 8%nat. par C 9%nat. par C 10%nat. par C 11%nat. auto. }
      destruct Pm as (Q1 & Q2 & Q3 & Q4). change ("backward_facing_step::" ++ "amp")%string with "backward_facing_step::amp". change ("backward_facing_step::" ++ "ky")%string with "backward_facing_step::ky".
      change ("backward_facing_step::" ++ "freq")%string with "backward_facing_step::freq". change ("backward_facing_step::" ++ "t_offset")%string with "backward_facing_step::t_offset". rewrite Q1, Q2, Q3, Q4.
      destruct (Req_EM_T (par ("amp" ++ index_key m)%string) 0) as [Z|NZ].
      * exists z. split; auto. split; auto. intros [|[|i]] Hi; rewrite Hz by auto; auto. cbn [rsum]. unfold step_wave. rewrite Z. ring.
      * rewrite (oread_vnth z 1) by (rewrite Lz; lia). cbn [obind]. exists (upd z 1 (vnth z 1 + par ("amp" ++ index_key m)%string * sin (PI * par ("ky" ++ index_key m)%string * (vnth x 1 - par "y0") / (par "y1" - par "y0")) * sin (2 * PI * (par ("freq" ++ index_key m)%string * t + par ("t_offset" ++ index_key m)%string)))).
        split; [apply owrite_ok; split; auto; rewrite Lz; lia|]. split; [rewrite upd_length; auto|]. intros [|[|i]] Hi.
        -- rewrite vnth_upd_ne by lia. apply Hz; auto.
        -- rewrite vnth_upd_eq by (rewrite Lz; lia). rewrite Hz by auto. cbn [rsum]. unfold step_wave. f_equal. f_equal. f_equal. f_equal. unfold Rdiv. ring.
        -- rewrite vnth_upd_ne by lia. rewrite Hz by auto. reflexivity.
    + exists z. split; [exact Ez|]. apply (is_vec_ext _ _ _ _ Hz). intros [|[|i]] _; auto. cbn [rsum]. ring.
  - destruct (unit_at_ok (List.length x) 0 (if Rlt_dec (vnth x 1) (par "y0") then 0 else - par "u0" * parabola (par "y0") (par "y1") (vnth x 1)) ltac:(lia)) as (y & A & B).
    exists y. split; [exact A|]. apply (is_vec_ext _ _ _ _ B). intros i _. destruct (i =? 0)%nat; auto. destruct (Rlt_dec _ _); auto.
Qed.

Lemma lid_funs g l p g' : configured "lid_driven_cavity" g l p g' -> let par := value "lid_driven_cavity" l in
  exists f, everywhere 5 (pb_vbdr p) f /\ pb_vrhs p = None /\ pb_battr p = [1; 2; 3; 4; 5]%Z /\ pb_types p = [BDirichlet; BZero; BDirichlet; BZero; BZero] /\
    forall du x0 x t u, (1 <= List.length x)%nat -> exists y, veval f g' du x0 x t u = Ok y /\
      is_vec (List.length x) y (fun i => if (i =? 0)%nat then profile (par "u0") 0 (par "L") (vnth x 0) else 0).
Proof.
  intros C par. rewrite (plain _ _ _ _ _ C eq_refl). exists VLid. do 4 (split; [reflexivity|]).
  intros du x0 x t u L. cbn [veval]. replace (1 <=? List.length x)%nat with true by (symmetry; apply Nat.leb_le; auto). cbn [oguard]. par C 1%nat. par C 2%nat. rewrite P, P0. fold par.
  destruct (unit_at_ok (List.length x) 0 (4 / par "L" / par "L" * par "u0" * vnth x 0 * (par "L" - vnth x 0)) ltac:(lia)) as (y & A & B). exists y. split; auto.
  apply (is_vec_ext _ _ _ _ B). intros i _. destruct (i =? 0)%nat; auto. unfold profile, Rdiv. rewrite !Rminus_0_r. ring.
Qed.

Lemma force_funs n g l p g' : In n ["periodic_flow_past_array"; "force_driven_corner"] -> configured n g l p g' -> let par := value n l in
  exists f, pb_vrhs p = Some f /\ Forall (fun b => b = None) (pb_vbdr p) /\
    (n = "periodic_flow_past_array" -> pb_battr p = [5]%Z /\ pb_types p = [BZero]) /\
    (n = "force_driven_corner" -> pb_battr p = [1; 2; 3; 4; 5]%Z /\ pb_types p = [BZero; BZero; BNeumann; BNeumann; BZero]) /\
    forall du x0 x t u, exists y, veval f g' du x0 x t u = Ok y /\ is_vec 3 y (fun i => par ("f" ++ axis i)%string).
Proof.
  intros Hn C par. exists VForce.
  assert (E : p = proto n) by (apply (plain _ _ _ _ _ C); destruct Hn as [<-|[<-|[]]]; reflexivity). rewrite E.
  split; [destruct Hn as [<-|[<-|[]]]; reflexivity|]. split; [destruct Hn as [<-|[<-|[]]]; repeat constructor|]. split; [intros ->; split; reflexivity|]. split; [intros ->; split; reflexivity|].
  intros du x0 x t u. cbn [veval]. eexists. split; [reflexivity|]. eapply is_vec_ext; [apply is_vec_map|].
  destruct Hn as [<-|[<-|[]]]; par C 1%nat; par C 2%nat; par C 3%nat; intros [|[|[|i]]] Hi; try lia; assumption.
Qed.

Lemma qbdr_funs g l p g' : configured "advdiff_flow_past_array" g l p g' -> let par := value "advdiff_flow_past_array" l in
  exists f, everywhere 5 (pb_sbdr p) f /\ pb_srhs p = None /\
    forall x t, (List.length x <= 3)%nat -> seval f g' x t = Ok (par "q0" + par "dq" * wave (fun d => par ("qk_" ++ axis d)%string) (par "qoffset") x).
Proof.
  intros C par. destruct (configured_fields _ _ _ _ _ C) as (-> & _ & -> & _). exists SQbdr. split; [reflexivity|]. split; [reflexivity|]. intros x t L. cbn [seval].
  replace (List.length x <=? 3)%nat with true by (symmetry; apply Nat.leb_le; auto). unfold oassert.
  par C 19%nat. par C 20%nat. par C 21%nat. par C 22%nat. par C 23%nat. par C 24%nat. rewrite !(wave_fsum _ _ x) by reflexivity. rewrite P, P0, P1. fold par.
  do 3 f_equal. apply wave_ext. intros [|[|[|d]]] Hd; try lia; assumption.
Qed.

(** ** Elasticity *)

Lemma material n g l p g' : In n elastic -> configured n g l p g' -> exists a b, pb_gs p = [a; b] /\ forall x t, seval a g' x t = Ok (value n l "lambda") /\ seval b g' x t = Ok (value n l "mu").
Proof.
  intros Hn C. exists SLambda, SMu. destruct (configured_fields _ _ _ _ _ C) as (_ & _ & _ & _ & _ & -> & _). split; [cbn in Hn; repeat (destruct Hn as [<-|Hn]; [reflexivity|]); destruct Hn|].
  intros x t. cbn [seval]. enough (g' "linelast_problem::_lambda" = value n l "lambda" /\ g' "linelast_problem::_mu" = value n l "mu") as (-> & ->) by auto.
  cbn in Hn. destruct Hn as [<-|[<-|[<-|[<-|[<-|[<-|[]]]]]]].
  1-4: par C 1%nat; par C 2%nat; auto.
  - par C 16%nat; par C 17%nat; auto.
  - par C 0%nat; par C 1%nat; auto.
Qed.

Lemma last_unit d v : (1 <= d)%nat -> exists y, unit_at d (d - 1) v = Ok y /\ is_vec d y (last_only d v).
Proof.
  intros H. destruct (unit_at_ok d (d - 1) v ltac:(lia)) as (y & A & B). exists y. split; auto. apply (is_vec_ext _ _ _ _ B). intros i Hi. unfold last_only.
  destruct (Nat.eqb_spec i (d - 1)), (Nat.eqb_spec (S i) d); auto; lia.
Qed.

Lemma disp_funs n g l p g' : In n ["linelast_disp"; "linelast_disp_lattice"] -> configured n g l p g' -> let par := value n l in
  exists f, pb_vrhs p = None /\ (forall b, In (Some b) (pb_vbdr p) -> b = f) /\
    (n = "linelast_disp" -> pb_battr p = [1; 2; 3]%Z /\ pb_types p = [BDirichlet; BDirichlet; BZero] /\ pb_vbdr p = [Some f; Some f; None] /\ pb_gv p = [Some f]) /\
    (n = "linelast_disp_lattice" -> pb_battr p = [1; 2; 3; 4; 5]%Z /\ pb_types p = [BNeumann; BDirichlet; BNeumann; BDirichlet; BNeumann] /\ pb_vbdr p = [None; Some f; None; Some f; None] /\ pb_gv p = [None]) /\
    forall du x0 x t u, (1 <= List.length x)%nat -> (1 <= List.length u)%nat -> exists y, veval f g' du x0 x t u = Ok y /\
      is_vec (List.length u) y (last_only (List.length u) (- (par "rdisp_f" * vnth x 0 / 5))).
Proof.
  intros Hn C par. exists VDisp. assert (E : p = proto n) by (apply (plain _ _ _ _ _ C); destruct Hn as [<-|[<-|[]]]; reflexivity). rewrite E.
  split; [destruct Hn as [<-|[<-|[]]]; reflexivity|]. split; [destruct Hn as [<-|[<-|[]]]; cbn; intuition congruence|].
  split; [intros ->; repeat split; reflexivity|]. split; [intros ->; repeat split; reflexivity|]. intros du x0 x t u L Lu. cbn [veval].
  replace (1 <=? List.length x)%nat with true by (symmetry; apply Nat.leb_le; auto). replace (1 <=? List.length u)%nat with true by (symmetry; apply Nat.leb_le; auto). cbn [oguard].
  replace (g' "linelast_disp::rdisp_f") with (par "rdisp_f") by (destruct Hn as [<-|[<-|[]]]; par C 0%nat; symmetry; assumption).
  destruct (last_unit (List.length u) (- (2 / 10) * vnth x 0 * par "rdisp_f") Lu) as (y & A & B). exists y. split; auto. apply (is_vec_ext _ _ _ _ B). intros i _. unfold last_only. destruct (S i =? _)%nat; auto. field.
Qed.

Lemma lcantilever_funs g l p g' : configured "linelast_disp_lcantilever" g l p g' -> let par := value "linelast_disp_lcantilever" l in
  exists f, pb_vrhs p = None /\ pb_battr p = [1; 2; 3]%Z /\ pb_types p = [BDirichlet; BDirichlet; BNeumann] /\ pb_vbdr p = [Some f; Some f; None] /\ pb_gv p = [None] /\
    forall du x0 x t u, (1 <= List.length u <= List.length x)%nat -> exists y, veval f g' du x0 x t u = Ok y /\
      is_vec (List.length u) y (last_only (List.length u) (par "rdisp_f" * (5 - vnth x (List.length u - 1)) / 5)).
Proof.
  intros C par. rewrite (plain _ _ _ _ _ C eq_refl). exists VDispL. do 5 (split; [reflexivity|]). intros du x0 x t u L. cbn [veval].
  replace (1 <=? List.length u)%nat with true by (symmetry; apply Nat.leb_le; lia). cbn [oguard]. par C 0%nat. rewrite P. fold par. rewrite (oread_vnth x) by lia. cbn [obind].
  destruct (last_unit (List.length u) (- (2 / 10) * (vnth x (List.length u - 1) - 5) * par "rdisp_f") ltac:(lia)) as (y & A & B). exists y. split; auto. apply (is_vec_ext _ _ _ _ B). intros i _. unfold last_only. destruct (S i =? _)%nat; auto. field.
Qed.

Lemma cantilever_funs g l p g' : configured "linelast_force_cantilever" g l p g' -> let par := value "linelast_force_cantilever" l in
  exists f d, pb_vrhs p = None /\ pb_battr p = [1; 2; 3; 4; 5]%Z /\ pb_types p = [BNeumann; BNeumann; BNeumann; BDirichlet; BNeumann] /\ pb_vbdr p = [None; Some f; None; Some d; None] /\ pb_gv p = [None] /\
    forall du x0 x t u, (1 <= List.length u)%nat -> (exists y, veval f g' du x0 x t u = Ok y /\ is_vec (List.length u) y (last_only (List.length u) (- (par "rforce_f" / 100)))).
Proof.
  intros C par. rewrite (plain _ _ _ _ _ C eq_refl). exists VTip, VDisp. do 5 (split; [reflexivity|]). intros du x0 x t u L. cbn [veval].
  replace (1 <=? List.length u)%nat with true by (symmetry; apply Nat.leb_le; lia). cbn [oguard]. par C 0%nat. rewrite P. fold par.
  destruct (last_unit (List.length u) (- (1 / 100) * par "rforce_f") ltac:(lia)) as (y & A & B). exists y. split; auto. apply (is_vec_ext _ _ _ _ B). intros i _. unfold last_only. destruct (S i =? _)%nat; auto. field.
Qed.

Lemma frame_wind_funs g l p g' : configured "linelast_frame_wind" g l p g' -> let par := value "linelast_frame_wind" l in
  exists w d f, pb_vrhs p = Some f /\ pb_battr p = [1; 2; 3; 4; 3]%Z /\ pb_types p = [BNeumann; BNeumann; BNeumann; BDirichlet; BNeumann] /\ pb_vbdr p = [Some w; None; None; Some d; None] /\ pb_gv p = [None] /\
    forall du x0 x t u, (1 <= List.length u)%nat ->
      (exists y, veval w g' du x0 x t u = Ok y /\ is_vec (List.length u) y (fun i => if (i =? 0)%nat then par "qwind_f" else 0)) /\
      (exists y, veval d g' du x0 x t u = Ok y /\ is_vec (List.length u) y (fun _ => 0)) /\
      (exists y, veval f g' du x0 x t u = Ok y /\ is_vec (List.length u) y (last_only (List.length u) (- (par "density" * par "g")))).
Proof.
  intros C par. rewrite (plain _ _ _ _ _ C eq_refl). exists VWind, VFixed, VGravity. do 5 (split; [reflexivity|]). intros du x0 x t u L. cbn [veval].
  replace (1 <=? List.length u)%nat with true by (symmetry; apply Nat.leb_le; lia). cbn [oguard]. par C 2%nat. par C 3%nat. par C 4%nat. rewrite P, P0, P1. fold par. split; [apply unit_at_ok; lia|]. split.
  - eexists. split; [reflexivity|]. split; [apply repeat_length|]. intros i _. unfold vnth. apply nth_repeat.
  - destruct (last_unit (List.length u) (- par "density" * par "g") ltac:(lia)) as (y & A & B). exists y. split; auto. apply (is_vec_ext _ _ _ _ B). intros i _. unfold last_only. destruct (S i =? _)%nat; auto. ring.
Qed.

Lemma cw_disp_ok g sx sy cx cy px py (par : string -> R) x u : (2 <= List.length x)%nat -> (2 <= List.length u)%nat ->
  (forall k, In k [sx; sy; cx; cy; (px ++ "_amp")%string; (px ++ "_freq")%string; (px ++ "_offset")%string; (py ++ "_amp")%string; (py ++ "_freq")%string; (py ++ "_offset")%string] -> g ("linelast_cwtrain::" ++ k)%string = par k) ->
  exists y, cw_disp g sx sy cx cy px py x u = Ok y /\ is_vec (List.length u) y (fun i => match i with O => load par sx cx px (vnth x 0) (vnth u 0) | 1%nat => load par sy cy py (vnth x 1) (vnth u 1) | _ => vnth u i end).
Proof.
  intros Lx Lu H. unfold cw_disp. rewrite !H by (cbn; tauto). rewrite !(oread_vnth x) by lia. cbn [obind].
  match goal with |- context[if Rle_dec (/ 2) (par sx) then ?a else ?b] => assert (exists u1, (if Rle_dec (/ 2) (par sx) then a else b) = Ok u1 /\ is_vec (List.length u) u1 (fun i => match i with O => load par sx cx px (vnth x 0) (vnth u 0) | _ => vnth u i end)) as (u1 & E1 & L1 & H1) end.
  { unfold load, perturb. destruct (Rle_dec (/ 2) (par sx)).
    - eexists. split; [apply owrite_ok; split; [lia|reflexivity]|]. split; [rewrite upd_length; auto|]. intros [|i] Hi; [rewrite vnth_upd_eq by lia; reflexivity|rewrite vnth_upd_ne by lia; reflexivity].
    - eexists. split; [reflexivity|]. split; auto. intros [|i] Hi; reflexivity. }
  rewrite E1. cbn [obind]. unfold load in *. unfold perturb. destruct (Rle_dec (/ 2) (par sy)).
  - eexists. split; [apply owrite_ok; split; [rewrite L1; lia|reflexivity]|]. split; [rewrite upd_length; auto|]. intros [|[|i]] Hi.
    + rewrite vnth_upd_ne by lia. exact (H1 0%nat Hi).
    + rewrite vnth_upd_eq by (rewrite L1; lia). reflexivity.
    + rewrite vnth_upd_ne by lia. rewrite H1 by auto. reflexivity.
  - eexists. split; [reflexivity|]. split; auto. intros [|[|i]] Hi; rewrite H1 by auto; reflexivity.
Qed.

(** The parameters of the train problem that are its own variables. *)
Definition own (tab : list (string * R)) : list string := filter (fun k => negb (String.eqb k "lambda" || String.eqb k "mu")) (map fst tab).
Definition own_check (ptr : list string) (tab : list (string * R)) (pre : string) (j : nat) : bool :=
  let k := fst (nth j tab ("", 0)) in
  (String.eqb k "lambda" || String.eqb k "mu" || String.eqb (nth j ptr "") (pre ++ k)%string) && (j <? List.length ptr)%nat.
Lemma own_value ptr tab pre (g' : gvars) (val : string -> R) : (forall j a k d, nth_error ptr j = Some a -> nth_error tab j = Some (k, d) -> g' a = val k) ->
  forallb (own_check ptr tab pre) (seq 0 (List.length tab)) = true -> forall k, existsb (String.eqb k) (own tab) = true -> g' (pre ++ k)%string = val k.
Proof.
  intros C Chk k Hk. apply existsb_exists in Hk as (k' & Hk & E). apply String.eqb_eq in E. subst k'. unfold own in Hk. apply filter_In in Hk as (Hk & Hn). apply in_map_iff in Hk as ((k' & d) & E & Hk). cbn [fst] in E. subst k'.
  destruct (In_nth _ _ ("", 0) Hk) as (j & Hj & Ej). pose proof (proj1 (forallb_forall _ _) Chk j ltac:(apply in_seq; lia)) as Q. unfold own_check in Q. rewrite Ej in Q. cbn [fst] in Q.
  apply andb_prop in Q as (Q & Ql). apply negb_true_iff in Hn. rewrite Hn in Q. cbn [orb] in Q. apply String.eqb_eq in Q. rewrite <- Q.
  eapply (C j _ k d); [apply nth_error_nth'; apply Nat.ltb_lt; exact Ql|]. rewrite <- Ej. apply nth_error_nth'. exact Hj.
Qed.
Lemma cw_checked : forallb (own_check (pb_ptr (proto "linelast_cwtrain")) (table "linelast_cwtrain") "linelast_cwtrain::") (seq 0 (List.length (table "linelast_cwtrain"))) = true.
Proof. vm_compute. reflexivity. Qed.
Lemma cwtrain_value g l p g' : configured "linelast_cwtrain" g l p g' -> forall k, existsb (String.eqb k) (own (table "linelast_cwtrain")) = true -> g' ("linelast_cwtrain::" ++ k)%string = value "linelast_cwtrain" l k.
Proof. intros C. exact (own_value _ _ _ _ _ (at_index _ _ _ _ _ C) cw_checked). Qed.

Lemma cwtrain_funs g l p g' : configured "linelast_cwtrain" g l p g' -> let par := value "linelast_cwtrain" l in
  exists dn rt up lf bd, pb_vrhs p = None /\ pb_battr p = [1; 2; 3; 4; 5]%Z /\ pb_types p = [BNeumann; BNeumann; BNeumann; BDirichlet; BNeumann] /\
    pb_vbdr p = [Some dn; Some rt; Some up; Some lf; None] /\ pb_gv p = [Some bd] /\
    forall du x0 x t u, (2 <= List.length x)%nat -> (2 <= List.length u)%nat ->
      let is f sx sy cx cy px py := exists y, veval f g' du x0 x t u = Ok y /\
        is_vec (List.length u) y (fun i => match i with O => load par sx cx px (vnth x 0) (vnth u 0) | 1%nat => load par sy cy py (vnth x 1) (vnth u 1) | _ => vnth u i end) in
      is dn "dx" "dy" "d_fx" "d_fy" "xf" "yf" /\ is rt "rx" "ry" "r_fx" "r_fy" "xf" "yf" /\ is up "ux" "uy" "u_fx" "u_fy" "xf" "yf" /\
      is lf "lx" "ly" "l_ux" "l_uy" "xu" "yu" /\ is bd "bx" "by" "b_fx" "b_fy" "bxf" "byf".
Proof.
  intros C par. rewrite (plain _ _ _ _ _ C eq_refl). exists VDown, VRight, VUp, VLeft, VBody. do 5 (split; [reflexivity|]). intros du x0 x t u Lx Lu is. unfold is. cbn [veval].
  assert (P : forall k, existsb (String.eqb k) (own (table "linelast_cwtrain")) = true -> g' ("linelast_cwtrain::" ++ k)%string = par k) by (intros k Hk; apply (cwtrain_value _ _ _ _ C); auto).
  repeat split; (apply cw_disp_ok; auto; intros k Hk; apply P; cbn [In String.append] in Hk; repeat (destruct Hk as [<-|Hk]; [vm_compute; reflexivity|]); destruct Hk).
Qed.

(** ** Flow past an array *)

Definition sides (ux uy : R) (w : btype) : list btype :=
  [if Rlt_dec 0 uy then BDirichlet else BNeumann; if Rlt_dec 0 ux then BNeumann else BDirichlet;
   if Rlt_dec 0 uy then BNeumann else BDirichlet; if Rlt_dec 0 ux then BDirichlet else BNeumann; w].
Lemma flow_types_val g t w ux uy : g (cell "component_flow::u0" 0) = ux -> g (cell "component_flow::u0" 1) = uy ->
  List.length t = 5%nat -> nth 4 t BNone = w -> flow_types g t = Ok (sides ux uy w).
Proof.
  intros A B L E. destruct t as [|a [|b [|c [|d [|e [|]]]]]]; try discriminate. cbn in E. subst e. unfold flow_types, sides. rewrite A, B. destruct (Rlt_dec 0 ux), (Rlt_dec 0 uy); reflexivity.
Qed.
Lemma array_types n g l p g' : In n ["flow_past_array"; "advdiff_flow_past_array"] -> configured n g l p g' -> l <> [] ->
  let ux := value n l "u0_x" in let uy := value n l "u0_y" in
  pb_battr p = [1; 2; 3; 4; 5]%Z /\ pb_types p = sides ux uy (if String.eqb n "flow_past_array" then BZero else BNeumann) /\
  (n = "advdiff_flow_past_array" -> pb_flow p = sides ux uy BZero).
Proof.
  intros Hn C Nl ux uy. destruct (configured_ok _ _ _ _ _ C) as (_ & _ & _ & _ & B & _). specialize (B Nl).
  assert (Ex : g' (cell "component_flow::u0" 0) = ux /\ g' (cell "component_flow::u0" 1) = uy). { destruct Hn as [<-|[<-|[]]]; par C 1%nat; par C 2%nat; auto. }
  destruct Ex as (Ex & Ey). unfold set_battr in B. destruct Hn as [<-|[<-|[]]].
  - assert (K : pb_kind (proto "flow_past_array") = KFlowArray) by reflexivity. assert (A : pb_battr (proto "flow_past_array") = [1; 2; 3; 4; 5]%Z) by reflexivity.
    assert (T1 : List.length (pb_types (proto "flow_past_array")) = 5%nat) by reflexivity. assert (T2 : nth 4 (pb_types (proto "flow_past_array")) BNone = BZero) by reflexivity.
    generalize dependent (proto "flow_past_array"). intros q B K A T1 T2. rewrite K in B. rewrite (flow_types_val _ _ _ _ _ Ex Ey T1 T2) in B. cbn [obind] in B. injection B as <-.
    cbn [pb_battr pb_types with_types]. split; [exact A|]. split; [reflexivity|discriminate].
  - assert (K : pb_kind (proto "advdiff_flow_past_array") = KAdvDiff) by reflexivity. assert (A : pb_battr (proto "advdiff_flow_past_array") = [1; 2; 3; 4; 5]%Z) by reflexivity.
    assert (T1 : List.length (pb_types (proto "advdiff_flow_past_array")) = 5%nat) by reflexivity. assert (T2 : nth 4 (pb_types (proto "advdiff_flow_past_array")) BNone = BNeumann) by reflexivity.
    assert (F1 : List.length (pb_flow (proto "advdiff_flow_past_array")) = 5%nat) by reflexivity. assert (F2 : nth 4 (pb_flow (proto "advdiff_flow_past_array")) BNone = BZero) by reflexivity.
    generalize dependent (proto "advdiff_flow_past_array"). intros q B K A T1 T2 F1 F2. rewrite K in B. rewrite (flow_types_val _ _ _ _ _ Ex Ey T1 T2) in B. cbn [obind] in B.
    rewrite (flow_types_val _ _ _ _ _ Ex Ey F1 F2) in B. cbn [obind] in B. injection B as <-.
    cbn [pb_battr pb_types pb_flow with_types]. split; [exact A|]. split; [reflexivity|reflexivity].
Qed.
