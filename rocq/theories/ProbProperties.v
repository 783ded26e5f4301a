(** C64: parameters of the predefined problems. C65: sides of the flow past an array. *)
From Coq Require Import Reals List Bool Lia Arith ZArith Ascii String Lra.
From Verif Require Import Outcome ConfigModel CompModel LaBase MbModel ProbModel ProbSpec ProbProofs ProbFormulaProofs ProbExamples.
Import ListNotations.
Local Open Scope string_scope.
Local Open Scope list_scope.
Local Open Scope R_scope.

(** Every sequence of known settings is accepted, on every class of problem. The elasticity classes only take settings by name; the
    boundary of the Poisson component problem has to stay below 4. *)
Theorem C64_accepted : forall n g l, In n (map fst tables) ->
  (forall x, In x l -> known n x /\ (In n elastic -> exists k v, x = ByName k v)) ->
  (n = "poisson_component" -> forall l1 l2, l = l1 ++ l2 -> value n l1 "bdr_idx" < 4) ->
  exists p g', configured n g l p g'.
Proof. exact accepted. Qed.
Print Assumptions C64_accepted.

(** No other sequence is. *)
Theorem C64_rejected : forall n g l p g', configured n g l p g' ->
  In n (map fst tables) /\ (forall x, In x l -> known n x /\ (In n elastic -> exists k v, x = ByName k v)) /\
  (l <> [] -> n = "poisson_component" -> value n l "bdr_idx" < 4).
Proof.
  intros n g l p g' C. destruct (configured_ok _ _ _ _ _ C) as (Hn & _). destruct (rejected _ _ _ _ _ C). auto.
Qed.
Print Assumptions C64_rejected.

(** Unknown problems and unknown names stop the program. *)
Theorem C64_unknown : forall n g, (~ In n (map fst tables) -> init_problem n g = Abort) /\
  forall l p g' k v, configured n g l p g' -> ~ In k (map fst (table n)) -> set_param p g' k v = Abort.
Proof.
  intros n g. split.
  - intros H. unfold init_problem. repeat match goal with |- (if String.eqb n ?s then _ else _) = _ => destruct (String.eqb_spec n s) as [->|]; [exfalso; apply H; cbn; tauto|] end. reflexivity.
  - intros l p g' k v C Hk. destruct (configured_ok _ _ _ _ _ C) as (_ & W & F & _). pose proof (wf_map _ _ (frame_wf _ _ _ F W)) as M. unfold set_param.
    destruct (slookup (pb_map p) k) as [i|] eqn:E; auto. exfalso. apply Hk. apply M in E as (j & d & _ & E). apply in_map_iff. exists (k, d). split; auto. eapply nth_error_In; exact E.
Qed.
Print Assumptions C64_unknown.

(** Setting by index is setting by the names with these indices. *)
Theorem C64_by_index : forall n g l p g1 idx vals s, configured n g l p g1 -> ~ In n elastic -> known n (ByIndex idx vals) -> idx <> [] ->
  ofold apply (map (fun kv => ByName (fst kv) (snd kv)) (named n (ByIndex idx vals))) (p, g1) = Ok s -> set_params p g1 idx vals = Ok s.
Proof. exact by_index_ok. Qed.
Print Assumptions C64_by_index.

(** The entries of a single run are settings by name. *)
Theorem C64_single_run : forall n g l p g1 kvs p' g2, configured n g l p g1 ->
  (set_single_run p g1 (Some kvs) = Ok (p', g2) <-> ofold apply (map (fun kv => ByName (fst kv) (snd kv)) kvs) (p, g1) = Ok (p', g2)) /\
  (set_single_run p g1 (Some kvs) = Ok (p', g2) -> configured n g (l ++ map (fun kv => ByName (fst kv) (snd kv)) kvs) p' g2) /\
  set_single_run p g1 None = Abort.
Proof.
  intros n g l p g1 kvs p' g2 (s & A & B). assert (E : forall s0, ofold (fun s kv => set_param (fst s) (snd s) (fst kv) (snd kv)) kvs s0 = ofold apply (map (fun kv => ByName (fst kv) (snd kv)) kvs) s0).
  { clear. induction kvs as [|kv kvs IH]; intros s0; [reflexivity|]. cbn [ofold map apply]. destruct (set_param _ _ _ _); cbn [obind]; auto. }
  split; [unfold set_single_run; rewrite E; tauto|]. split; [|reflexivity]. unfold set_single_run. rewrite E. intros H. exists s. split; auto. rewrite ofold_app, B. exact H.
Qed.
Print Assumptions C64_single_run.

(** The elasticity problems do not record their number of parameters, so setting by index reads an uninitialised value. *)
Theorem C64_index_refuted : exists n g p g1 idx vals, configured n g [] p g1 /\ known n (ByIndex idx vals) /\ set_params p g1 idx vals = UB /\
  exists s, ofold apply (map (fun kv => ByName (fst kv) (snd kv)) (named n (ByIndex idx vals))) (p, g1) = Ok s.
Proof.
  destruct (accepted "linelast_disp" exq_g [] ltac:(cbn; tauto) ltac:(intros x []) ltac:(intros H; discriminate)) as (p & g1 & C).
  destruct (accepted "linelast_disp" exq_g [ByName "lambda" 2] ltac:(cbn; tauto) ltac:(intros x [<-|[]]; cbn; split; [tauto|eauto]) ltac:(intros H; discriminate)) as (p' & g' & s & C1 & C2).
  destruct C as (s' & D1 & D2). assert (s = s') by congruence. subst s'. cbn [ofold] in D2. injection D2 as ->.
  exists "linelast_disp", exq_g, p, g1, [1]%Z, [2]. split; [exists (p, g1); auto|]. split; [cbn; split; [reflexivity|]; split; [lia|]; intros i Hi; lia|].
  split; [|exists (p', g'); exact C2]. destruct (init_ok _ _ _ C1) as (E & _). cbn [fst] in E. subst p. reflexivity.
Qed.
Print Assumptions C64_index_refuted.

(** ** The functions a configured problem hands to the solver use the last values set. *)

Theorem C64_poisson0 : forall g l p g', configured "poisson0" g l p g' -> let par := value "poisson0" l in
  exists f, pb_srhs p = Some f /\ forall x t, seval f g' x t = Ok (wave (fun _ => par "k") (par "offset") x).
Proof. exact poisson0_rhs. Qed.
Print Assumptions C64_poisson0.

Theorem C64_poisson_component : forall g l p g', configured "poisson_component" g l p g' -> let par := value "poisson_component" l in
  (exists f b, pb_srhs p = Some f /\ pb_sbdr p = [Some b] /\ forall x t, (List.length x <= 3)%nat ->
     seval f g' x t = Ok (wave (fun d => par ("k" ++ index_key d)%string) (par "offset") x) /\
     seval b g' x t = Ok (wave (fun d => par ("bdr_k" ++ index_key d)%string) (par "bdr_offset") x)) /\
  (l <> [] -> let b := par "bdr_idx" in pb_types p = [BDirichlet] /\
     (b < 0 -> pb_battr p = [-1]%Z) /\ (0 <= b -> exists a, pb_battr p = [a] /\ IZR (a - 1) <= b < IZR a /\ (1 <= a <= 4)%Z)).
Proof.
  intros g l p g' C par. split; [exact (poisson_comp_funs _ _ _ _ C)|]. intros N. exact (proj2 (poisson_comp_bdr _ _ _ _ C N)).
Qed.
Print Assumptions C64_poisson_component.

(** Polar coordinates around the centre of the square *)
Theorem C64_poisson_spiral : forall g l p g', configured "poisson_spiral" g l p g' -> let par := value "poisson_spiral" l in
  exists f, pb_srhs p = Some f /\ forall r th t, 0 < r -> 0 <= th < 2 * PI ->
    let d := spiral_distance (par "s" * par "L" / (4 * PI)) r th in
    seval f g' [par "L" / 2 + r * cos th; par "L" / 2 + r * sin th] t = Ok (exp (- (d * d) / (2 * (par "Lw" * par "Lw"))) * cos (2 * PI * par "k" * d)).
Proof. exact spiral_rhs. Qed.
Print Assumptions C64_poisson_spiral.

Theorem C64_viscosity : forall n g l p g', configured n g l p g' -> nth_error (table n) 0 = Some ("nu", 1) -> g' "flow_problem::nu" = value n l "nu".
Proof. exact viscosity. Qed.
Print Assumptions C64_viscosity.

Theorem C64_channel : forall g l p g', configured "channel_flow" g l p g' -> let par := value "channel_flow" l in
  exists f, everywhere 5 (pb_vbdr p) f /\ pb_vrhs p = None /\ pb_battr p = [1; 2; 3; 4; 5]%Z /\ pb_types p = [BZero; BNeumann; BZero; BDirichlet; BZero] /\
    forall du x0 x t u, (2 <= List.length x)%nat -> exists y, veval f g' du x0 x t u = Ok y /\
      is_vec (List.length x) y (fun i => if (i =? 0)%nat then par "U" * (1 - Rsqr (2 * (vnth x 1 - par "x0") / par "L")) else 0).
Proof. exact channel_funs. Qed.
Print Assumptions C64_channel.

Theorem C64_component_flow : forall n g l p g', In n ["component_flow"; "flow_past_array"; "advdiff_flow_past_array"] -> configured n g l p g' -> let par := value n l in
  exists f, everywhere 5 (pb_vbdr p) f /\ pb_vrhs p = None /\
    forall du x0 x t u, (List.length x <= 3)%nat -> List.length x0 = List.length x -> exists y, veval f g' du x0 x t u = Ok y /\
      is_vec (List.length x) y (component_velocity par du x0 x).
Proof. exact component_funs. Qed.
Print Assumptions C64_component_flow.

Theorem C64_backward_step : forall g l p g', configured "backward_facing_step" g l p g' -> let par := value "backward_facing_step" l in
  exists f ic, everywhere 3 (pb_vbdr p) f /\ pb_vrhs p = None /\ pb_battr p = [1; 2; 3]%Z /\ pb_types p = [BDirichlet; BZero; BNeumann] /\ nth_error (pb_ic p) 0 = Some (Some ic) /\
    forall du x0 x t u, (2 <= List.length x)%nat ->
      (exists y, veval f g' du x0 x t u = Ok y /\ is_vec (List.length x) y (fun i => match i with
         | O => profile (par "u0") (par "y0") (par "y1") (vnth x 1)
         | 1%nat => step_wave par 0 (vnth x 1) t + step_wave par 1 (vnth x 1) t | _ => 0 end)) /\
      (exists y, veval ic g' du x0 x t u = Ok y /\ is_vec (List.length x) y (fun i => if (i =? 0)%nat then if Rlt_dec (vnth x 1) (par "y0") then 0 else profile (par "u0") (par "y0") (par "y1") (vnth x 1) else 0)).
Proof. exact step_funs. Qed.
Print Assumptions C64_backward_step.

(** Its initial pressure is zero. *)
Theorem C64_step_pressure : forall g l p g', configured "backward_facing_step" g l p g' ->
  exists ip, nth_error (pb_ic p) 1 = Some (Some ip) /\ List.length (pb_ic p) = 2%nat /\ forall du x0 x t u, veval ip g' du x0 x t u = Ok [0].
Proof. intros g l p g' C. rewrite (plain _ _ _ _ _ C eq_refl). exists VStepP. repeat split. Qed.
Print Assumptions C64_step_pressure.

Theorem C64_lid : forall g l p g', configured "lid_driven_cavity" g l p g' -> let par := value "lid_driven_cavity" l in
  exists f, everywhere 5 (pb_vbdr p) f /\ pb_vrhs p = None /\ pb_battr p = [1; 2; 3; 4; 5]%Z /\ pb_types p = [BDirichlet; BZero; BDirichlet; BZero; BZero] /\
    forall du x0 x t u, (1 <= List.length x)%nat -> exists y, veval f g' du x0 x t u = Ok y /\
      is_vec (List.length x) y (fun i => if (i =? 0)%nat then profile (par "u0") 0 (par "L") (vnth x 0) else 0).
Proof. exact lid_funs. Qed.
Print Assumptions C64_lid.

Theorem C64_force : forall n g l p g', In n ["periodic_flow_past_array"; "force_driven_corner"] -> configured n g l p g' -> let par := value n l in
  exists f, pb_vrhs p = Some f /\ Forall (fun b => b = None) (pb_vbdr p) /\
    (n = "periodic_flow_past_array" -> pb_battr p = [5]%Z /\ pb_types p = [BZero]) /\
    (n = "force_driven_corner" -> pb_battr p = [1; 2; 3; 4; 5]%Z /\ pb_types p = [BZero; BZero; BNeumann; BNeumann; BZero]) /\
    forall du x0 x t u, exists y, veval f g' du x0 x t u = Ok y /\ is_vec 3 y (fun i => par ("f" ++ axis i)%string).
Proof. exact force_funs. Qed.
Print Assumptions C64_force.

Theorem C64_concentration : forall g l p g', configured "advdiff_flow_past_array" g l p g' -> let par := value "advdiff_flow_past_array" l in
  exists f, everywhere 5 (pb_sbdr p) f /\ pb_srhs p = None /\
    forall x t, (List.length x <= 3)%nat -> seval f g' x t = Ok (par "q0" + par "dq" * wave (fun d => par ("qk_" ++ axis d)%string) (par "qoffset") x).
Proof. exact qbdr_funs. Qed.
Print Assumptions C64_concentration.

Theorem C64_material : forall n g l p g', In n elastic -> configured n g l p g' ->
  exists a b, pb_gs p = [a; b] /\ forall x t, seval a g' x t = Ok (value n l "lambda") /\ seval b g' x t = Ok (value n l "mu").
Proof. exact material. Qed.
Print Assumptions C64_material.

Theorem C64_displacement : forall n g l p g', In n ["linelast_disp"; "linelast_disp_lattice"] -> configured n g l p g' -> let par := value n l in
  exists f, pb_vrhs p = None /\ (forall b, In (Some b) (pb_vbdr p) -> b = f) /\
    (n = "linelast_disp" -> pb_battr p = [1; 2; 3]%Z /\ pb_types p = [BDirichlet; BDirichlet; BZero] /\ pb_vbdr p = [Some f; Some f; None] /\ pb_gv p = [Some f]) /\
    (n = "linelast_disp_lattice" -> pb_battr p = [1; 2; 3; 4; 5]%Z /\ pb_types p = [BNeumann; BDirichlet; BNeumann; BDirichlet; BNeumann] /\ pb_vbdr p = [None; Some f; None; Some f; None] /\ pb_gv p = [None]) /\
    forall du x0 x t u, (1 <= List.length x)%nat -> (1 <= List.length u)%nat -> exists y, veval f g' du x0 x t u = Ok y /\
      is_vec (List.length u) y (last_only (List.length u) (- (par "rdisp_f" * vnth x 0 / 5))).
Proof. exact disp_funs. Qed.
Print Assumptions C64_displacement.

Theorem C64_lcantilever : forall g l p g', configured "linelast_disp_lcantilever" g l p g' -> let par := value "linelast_disp_lcantilever" l in
  exists f, pb_vrhs p = None /\ pb_battr p = [1; 2; 3]%Z /\ pb_types p = [BDirichlet; BDirichlet; BNeumann] /\ pb_vbdr p = [Some f; Some f; None] /\ pb_gv p = [None] /\
    forall du x0 x t u, (1 <= List.length u <= List.length x)%nat -> exists y, veval f g' du x0 x t u = Ok y /\
      is_vec (List.length u) y (last_only (List.length u) (par "rdisp_f" * (5 - vnth x (List.length u - 1)) / 5)).
Proof. exact lcantilever_funs. Qed.
Print Assumptions C64_lcantilever.

(** The force sits on attribute 2; the displacement on attribute 4 belongs to another problem, see C64_cantilever_refuted. *)
Theorem C64_cantilever : forall g l p g', configured "linelast_force_cantilever" g l p g' -> let par := value "linelast_force_cantilever" l in
  exists f d, pb_vrhs p = None /\ pb_battr p = [1; 2; 3; 4; 5]%Z /\ pb_types p = [BNeumann; BNeumann; BNeumann; BDirichlet; BNeumann] /\ pb_vbdr p = [None; Some f; None; Some d; None] /\ pb_gv p = [None] /\
    forall du x0 x t u, (1 <= List.length u)%nat -> (exists y, veval f g' du x0 x t u = Ok y /\ is_vec (List.length u) y (last_only (List.length u) (- (par "rforce_f" / 100)))).
Proof. exact cantilever_funs. Qed.
Print Assumptions C64_cantilever.

(** The displacement of the cantilever depends on a variable that none of its parameters sets: two programs with the same settings
    fix it differently. *)
Theorem C64_cantilever_refuted : exists g1 g2 l p g1' g2' d x u y1 y2, configured "linelast_force_cantilever" g1 l p g1' /\ configured "linelast_force_cantilever" g2 l p g2' /\
  nth_error (pb_vbdr p) 3 = Some (Some d) /\ veval d g1' 0 [] x 0 u = Ok y1 /\ veval d g2' 0 [] x 0 u = Ok y2 /\ vnth y1 1 <> vnth y2 1.
Proof.
  set (g1 := gset exq_g "linelast_disp::rdisp_f" 1). exists exq_g, g1, [], (proto "linelast_force_cantilever").
  assert (A : forall g, exists g', configured "linelast_force_cantilever" g [] (proto "linelast_force_cantilever") g' /\ g' "linelast_disp::rdisp_f" = g "linelast_disp::rdisp_f").
  { intros g. eexists. split; [exists (proto "linelast_force_cantilever", snd (match init_problem "linelast_force_cantilever" g with Ok s => s | _ => (proto "linelast_force_cantilever", g) end)); split; reflexivity|]. reflexivity. }
  destruct (A exq_g) as (a & A1 & A2). destruct (A g1) as (b & B1 & B2). exists a, b, VDisp, [1; 0], [0; 0]. eexists _, _.
  split; [exact A1|]. split; [exact B1|]. split; [reflexivity|]. cbn [veval List.length oguard Nat.leb]. rewrite A2, B2. split; [reflexivity|]. split; [reflexivity|].
  unfold g1, gset, exq_g, vnth. cbn. intros H. lra.
Qed.
Print Assumptions C64_cantilever_refuted.

Theorem C64_frame_wind : forall g l p g', configured "linelast_frame_wind" g l p g' -> let par := value "linelast_frame_wind" l in
  exists w d f, pb_vrhs p = Some f /\ pb_battr p = [1; 2; 3; 4; 3]%Z /\ pb_types p = [BNeumann; BNeumann; BNeumann; BDirichlet; BNeumann] /\ pb_vbdr p = [Some w; None; None; Some d; None] /\ pb_gv p = [None] /\
    forall du x0 x t u, (1 <= List.length u)%nat ->
      (exists y, veval w g' du x0 x t u = Ok y /\ is_vec (List.length u) y (fun i => if (i =? 0)%nat then par "qwind_f" else 0)) /\
      (exists y, veval d g' du x0 x t u = Ok y /\ is_vec (List.length u) y (fun _ => 0)) /\
      (exists y, veval f g' du x0 x t u = Ok y /\ is_vec (List.length u) y (last_only (List.length u) (- (par "density" * par "g")))).
Proof. exact frame_wind_funs. Qed.
Print Assumptions C64_frame_wind.

(** [load] is the value the vector held before when the switch of a component is off. *)
Theorem C64_train : forall g l p g', configured "linelast_cwtrain" g l p g' -> let par := value "linelast_cwtrain" l in
  exists dn rt up lf bd, pb_vrhs p = None /\ pb_battr p = [1; 2; 3; 4; 5]%Z /\ pb_types p = [BNeumann; BNeumann; BNeumann; BDirichlet; BNeumann] /\
    pb_vbdr p = [Some dn; Some rt; Some up; Some lf; None] /\ pb_gv p = [Some bd] /\
    forall du x0 x t u, (2 <= List.length x)%nat -> (2 <= List.length u)%nat ->
      let is f sx sy cx cy px py := exists y, veval f g' du x0 x t u = Ok y /\
        is_vec (List.length u) y (fun i => match i with O => load par sx cx px (vnth x 0) (vnth u 0) | 1%nat => load par sy cy py (vnth x 1) (vnth u 1) | _ => vnth u i end) in
      is dn "dx" "dy" "d_fx" "d_fy" "xf" "yf" /\ is rt "rx" "ry" "r_fx" "r_fy" "xf" "yf" /\ is up "ux" "uy" "u_fx" "u_fy" "xf" "yf" /\
      is lf "lx" "ly" "l_ux" "l_uy" "xu" "yu" /\ is bd "bx" "by" "b_fx" "b_fy" "bxf" "byf".
Proof. exact cwtrain_funs. Qed.
Print Assumptions C64_train.

(** A side whose switches are off, as they are by default, has no value of its own: the result is whatever the vector held before. *)
Theorem C64_train_refuted : exists g l p g' d x u1 u2 y1 y2, configured "linelast_cwtrain" g l p g' /\ nth_error (pb_vbdr p) 3 = Some (Some d) /\ nth_error (pb_types p) 3 = Some BDirichlet /\
  veval d g' 0 [] x 0 u1 = Ok y1 /\ veval d g' 0 [] x 0 u2 = Ok y2 /\ vnth y1 0 <> vnth y2 0.
Proof.
  destruct (accepted "linelast_cwtrain" exq_g [] ltac:(cbn; tauto) ltac:(intros x []) ltac:(intros H; discriminate)) as (p & g' & C).
  destruct (cwtrain_funs _ _ _ _ C) as (dn & rt & up & lf & bd & _ & _ & T & B & _ & H).
  destruct (H 0 [] [0; 0] 0 [0; 0] ltac:(cbn; lia) ltac:(cbn; lia)) as (_ & _ & _ & (y1 & E1 & _ & V1) & _).
  destruct (H 0 [] [0; 0] 0 [1; 0] ltac:(cbn; lia) ltac:(cbn; lia)) as (_ & _ & _ & (y2 & E2 & _ & V2) & _).
  exists exq_g, [], p, g', lf, [0; 0], [0; 0], [1; 0], y1, y2. split; [exact C|]. split; [rewrite B; reflexivity|]. split; [rewrite T; reflexivity|]. split; [exact E1|]. split; [exact E2|].
  specialize (V1 0%nat ltac:(cbn; lia)). specialize (V2 0%nat ltac:(cbn; lia)). cbv beta iota in V1, V2. rewrite V1, V2. unfold load.
  assert (Z : value "linelast_cwtrain" [] "lx" = 0) by reflexivity. rewrite Z. destruct (Rle_dec (/ 2) 0); [lra|]. cbn. intros Q; lra.
Qed.
Print Assumptions C64_train_refuted.

(** ** C65 *)

(** Once a parameter has been set, whatever was set before: attribute 4 is the left side, 2 the right, 1 the bottom, 3 the top. *)
Theorem C65_sides : forall n g l p g', In n ["flow_past_array"; "advdiff_flow_past_array"] -> configured n g l p g' -> l <> [] ->
  let ux := value n l "u0_x" in let uy := value n l "u0_y" in
  (0 < ux -> type_of p 4 = Some BDirichlet /\ type_of p 2 = Some BNeumann) /\ (ux <= 0 -> type_of p 2 = Some BDirichlet /\ type_of p 4 = Some BNeumann) /\
  (0 < uy -> type_of p 1 = Some BDirichlet /\ type_of p 3 = Some BNeumann) /\ (uy <= 0 -> type_of p 3 = Some BDirichlet /\ type_of p 1 = Some BNeumann) /\
  type_of p 5 = Some (if String.eqb n "flow_past_array" then BZero else BNeumann) /\
  (n = "advdiff_flow_past_array" -> exists t, pb_flow p = firstn 4 (pb_types p) ++ [t] /\ t = BZero).
Proof.
  intros n g l p g' Hn C Nl ux uy. destruct (array_types n g l p g' Hn C Nl) as (A & T & F). fold ux uy in T, F. unfold type_of. rewrite A, T. unfold sides in *.
  split; [intros H; destruct (Rlt_dec 0 ux); [split; reflexivity|tauto]|]. split; [intros H; destruct (Rlt_dec 0 ux); [lra|split; reflexivity]|].
  split; [intros H; destruct (Rlt_dec 0 uy); [split; reflexivity|tauto]|]. split; [intros H; destruct (Rlt_dec 0 uy); [lra|split; reflexivity]|].
  split; [reflexivity|]. intros E. exists BZero. split; [rewrite (F E); reflexivity|reflexivity].
Qed.
Print Assumptions C65_sides.

(** A new problem has all four sides Dirichlet until a parameter is set. *)
Theorem C65_fresh_refuted : exists n g p g', In n ["flow_past_array"; "advdiff_flow_past_array"] /\ configured n g [] p g' /\
  forall a, In a [1; 2; 3; 4]%Z -> type_of p a = Some BDirichlet.
Proof.
  destruct (accepted "flow_past_array" exq_g [] ltac:(cbn; tauto) ltac:(intros x []) ltac:(intros H; discriminate)) as (p & g' & C).
  exists "flow_past_array", exq_g, p, g'. split; [cbn; tauto|]. split; [exact C|]. destruct (configured_ok _ _ _ _ _ C) as (_ & _ & _ & _ & _ & Z & _). rewrite (Z eq_refl).
  intros a Ha. cbn in Ha. repeat (destruct Ha as [<-|Ha]; [reflexivity|]). destruct Ha.
Qed.
Print Assumptions C65_fresh_refuted.
