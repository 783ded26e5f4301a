(** Model of src/parameterized_problem.cpp: the predefined problems, their parameters and their functions.

    Simplifications: the doubles of namespace [function_factory] are cells named by their C++ name, the entries of its vectors and
    matrices by name and index; floating point is exact; a pointer to a function is a name out of [sfun] or [vfun]; the complementary
    flux ([flow_problem::del_u], [flow_problem::x0]), which the solver sets, is an argument. *)
From Coq Require Import Reals List Bool Lia Arith ZArith Ascii String.
From Verif Require Import Outcome ConfigModel CompModel LaBase MbModel.
Import ListNotations.
Local Open Scope string_scope.
Local Open Scope list_scope.
Local Open Scope R_scope.

(** ** Global variables *)

Definition gvars := string -> R.
Definition gset (g : gvars) (a : string) (v : R) : gvars := fun x => if String.eqb a x then v else g x.
Definition gsets (l : list (string * R)) (g : gvars) : gvars := fold_left (fun g p => gset g (fst p) (snd p)) l g.
(** entry of a [Vector], of a [DenseMatrix] *)
Definition cell (v : string) (i : nat) : string := (v ++ "[" ++ index_key i ++ "]")%string.
Definition mcell (v : string) (i j : nat) : string := (v ++ "(" ++ index_key i ++ "," ++ index_key j ++ ")")%string.
(** [v = a] for a [Vector] of [n] entries *)
Definition all_of (n : nat) (v : string) (a : R) : list (string * R) := map (fun i => (cell v i, a)) (seq 0 n).

(** ** Functions *)

Inductive sfun := SPoisson0 | SCompRhs | SCompBdr | SSpiral | SLambda | SMu | SQbdr.
Inductive vfun := VChannel | VComponent | VStep | VStepU | VStepP | VLid | VForce | VDisp | VDispL | VTip | VWind | VGravity | VFixed
  | VLeft | VRight | VUp | VDown | VBody.

(** [for (d = 0; d < n; d++) tmp += f(d)] *)
Definition fsum (n : nat) (f : nat -> R) : R := fold_left (fun s d => s + f d) (seq 0 n) 0.

(** C's [atan2] *)
Definition atan2 (y x : R) : R :=
  if Rlt_dec 0 x then atan (y / x)
  else if Rlt_dec x 0 then (if Rle_dec 0 y then atan (y / x) + PI else atan (y / x) - PI)
  else if Rlt_dec 0 y then PI / 2 else if Rlt_dec y 0 then - PI / 2 else 0.

(** src/parameterized_problem.cpp:64-84 [poisson_spiral::rhs]; [N] is 2 (include/parameterized_problem.hpp:46) *)
Definition spiral_N : nat := 2.
Definition spiral (g : gvars) (x : vec) : outcome R :=
  let L := g "poisson_spiral::L" in let Lw := g "poisson_spiral::Lw" in
  oguard (2 <=? List.length x)%nat (
  let r := sqrt (fsum (List.length x) (fun d => (vnth x d - / 2 * L) * (vnth x d - / 2 * L))) in
  let theta := atan2 (vnth x 1 - / 2 * L) (vnth x 0 - / 2 * L) in
  let theta := if Rlt_dec theta 0 then theta + 2 * PI else theta in
  let slope := g "poisson_spiral::s" * L / (2 * PI * INR spiral_N) in
  let tmp := r - slope * (theta - 2 * PI) in
  let '(_, dist) := fold_left (fun p _ => let '(tmp, dist) := p in let tmp := tmp - 2 * PI * slope in (tmp, Rmin dist (Rabs tmp))) (seq 0 spiral_N) (tmp, Rabs tmp) in
  Ok (exp (- / 2 * dist * dist / Lw / Lw) * cos (2 * PI * g "poisson_spiral::k" * dist))).

(** src/parameterized_problem.cpp:20-28, 38-56, 64-84, 231-232, 303-311; [GeneralScalarFunction] *)
Definition seval (f : sfun) (g : gvars) (x : vec) (t : R) : outcome R :=
  match f with
  | SPoisson0 => Ok (sin (2 * PI * (fsum (List.length x) (vnth x) * g "poisson0::k" + g "poisson0::offset")))
  | SCompBdr => oassert (List.length x <=? 3)%nat (
      Ok (sin (2 * PI * (fsum (List.length x) (fun d => g (cell "poisson_component::bdr_k" d) * vnth x d) + g "poisson_component::bdr_offset"))))
  | SCompRhs => oassert (List.length x <=? 3)%nat (
      Ok (sin (2 * PI * (fsum (List.length x) (fun d => g (cell "poisson_component::k" d) * vnth x d) + g "poisson_component::offset"))))
  | SSpiral => spiral g x
  | SLambda => Ok (g "linelast_problem::_lambda")
  | SMu => Ok (g "linelast_problem::_mu")
  | SQbdr => oassert (List.length x <=? 3)%nat (
      Ok (g "advdiff_flow_past_array::q0" + g "advdiff_flow_past_array::dq"
          * sin (2 * PI * (fsum (List.length x) (fun d => g (cell "advdiff_flow_past_array::qk" d) * vnth x d) + g "advdiff_flow_past_array::qoffset"))))
  end.

(** src/parameterized_problem.cpp:94-108 [dir], [flux] *)
Definition flux (del_u : R) (x0 x : vec) : outcome vec :=
  oassert (List.length x0 =? List.length x)%nat (Ok (map (fun i => (vnth x i - vnth x0 i) * del_u) (seq 0 (List.length x)))).

(** src/parameterized_problem.cpp:128-145 [component_flow::ubdr] *)
Definition component_ubdr (g : gvars) (del_u : R) (x0 x : vec) : outcome vec :=
  let dim := List.length x in
  oguard (dim <=? 3)%nat (
  let y := map (fun i =>
    let kx := fsum dim (fun j => g (mcell "component_flow::k" j i) * vnth x j) in
    let kx := kx - g (cell "component_flow::offsets" i) in
    let kx := kx * (2 * PI) in
    g (cell "component_flow::u0" i) + g (cell "component_flow::du" i) * sin kx) (seq 0 dim) in
  let* d := flux del_u x0 x in
  Ok (map (fun i => vnth y i - vnth d i) (seq 0 dim))).

(** [y = 0.0; y(i) = v] for a vector of [n] entries *)
Definition unit_at (n i : nat) (v : R) : outcome vec := owrite (repeat 0 n) i v.
(** [4 / ygap / ygap * (y0 - x) * (y1 - x)] *)
Definition parabola (y0 y1 x : R) : R := 4 / (y1 - y0) / (y1 - y0) * (y0 - x) * (y1 - x).

(** src/parameterized_problem.cpp:155-171 [backward_facing_step::ubdr] *)
Definition step_ubdr (g : gvars) (x : vec) (t : R) : outcome vec :=
  let n k := ("backward_facing_step::" ++ k)%string in
  oguard (2 <=? List.length x)%nat (
  let* y := unit_at (List.length x) 0 (- g (n "u0") * parabola (g (n "y0")) (g (n "y1")) (vnth x 1)) in
  ofor 2 (fun y m =>
    if Req_EM_T (g (cell (n "amp") m)) 0 then Ok y
    else
      let* a := oread y 1 in
      owrite y 1 (a + g (cell (n "amp") m) * sin (PI * g (cell (n "ky") m) * (vnth x 1 - g (n "y0")) / (g (n "y1") - g (n "y0")))
                      * sin (2 * PI * (g (cell (n "freq") m) * t + g (cell (n "t_offset") m))))) y).

(** src/parameterized_problem.cpp:387-390 [perturb_func] *)
Definition perturb (x amp freq offset : R) : R := amp * sin (PI * freq * (x / 3 + 2 * offset)).
(** src/parameterized_problem.cpp:392-430: one of [left_disp], …: [u] keeps the entries that are switched off *)
Definition cw_disp (g : gvars) (sx sy cx cy px py : string) (x u : vec) : outcome vec :=
  let n k := ("linelast_cwtrain::" ++ k)%string in
  let go u i s c p :=
    if Rle_dec (/ 2) (g (n s)) then
      let* xi := oread x i in
      owrite u i (g (n c) + perturb xi (g (n (p ++ "_amp")%string)) (g (n (p ++ "_freq")%string)) (g (n (p ++ "_offset")%string)))
    else Ok u in
  let* u := go u 0%nat sx cx px in
  go u 1%nat sy cy py.

(** [GeneralVectorFunction]: src/parameterized_problem.cpp:114-122, 128-145, 155-189, 198-206, 216-221, 239-249, 259-263, 275-290, 392-430; [u] is what the vector held before *)
Definition veval (f : vfun) (g : gvars) (del_u : R) (x0 x : vec) (t : R) (u : vec) : outcome vec :=
  let dim := List.length x in let nu := List.length u in
  match f with
  | VChannel => oguard (2 <=? dim)%nat (
      let yc := (vnth x 1 - g "channel_flow::x0") / g "channel_flow::L" in
      unit_at dim 0 (g "channel_flow::U" * (1 - 4 * yc * yc)))
  | VComponent => component_ubdr g del_u x0 x
  | VStep => step_ubdr g x t
  | VStepU => oguard (2 <=? dim)%nat (
      let n k := ("backward_facing_step::" ++ k)%string in
      unit_at dim 0 (if Rlt_dec (vnth x 1) (g (n "y0")) then 0 else - g (n "u0") * parabola (g (n "y0")) (g (n "y1")) (vnth x 1)))
  | VStepP => Ok [0]
  | VLid => let L := g "lid_driven_cavity::L" in
      oguard (1 <=? dim)%nat (unit_at dim 0 (4 / L / L * g "lid_driven_cavity::u0" * vnth x 0 * (L - vnth x 0)))
  | VForce => Ok (map (fun i => g (cell "periodic_flow_past_array::f" i)) (seq 0 3))
  | VDisp => oguard (1 <=? dim)%nat (oguard (1 <=? nu)%nat (unit_at nu (nu - 1) (- (2 / 10) * vnth x 0 * g "linelast_disp::rdisp_f")))
  | VDispL => oguard (1 <=? nu)%nat (let* xl := oread x (nu - 1) in unit_at nu (nu - 1) (- (2 / 10) * (xl - 5) * g "linelast_disp::rdisp_f"))
  | VTip => oguard (1 <=? nu)%nat (unit_at nu (nu - 1) (- (1 / 100) * g "linelast_force::rforce_f"))
  | VWind => unit_at nu 0 (g "linelast_frame_wind::qwind_f")
  | VGravity => oguard (1 <=? nu)%nat (unit_at nu (nu - 1) (- g "linelast_frame_wind::density" * g "linelast_frame_wind::g"))
  | VFixed => Ok (repeat 0 nu)
  | VLeft => cw_disp g "lx" "ly" "l_ux" "l_uy" "xu" "yu" x u
  | VRight => cw_disp g "rx" "ry" "r_fx" "r_fy" "xf" "yf" x u
  | VUp => cw_disp g "ux" "uy" "u_fx" "u_fy" "xf" "yf" x u
  | VDown => cw_disp g "dx" "dy" "d_fx" "d_fy" "xf" "yf" x u
  | VBody => cw_disp g "bx" "by" "b_fx" "b_fy" "bxf" "byf" x u
  end.

(** ** Problems *)

(** Which [SetParams] and [SetBattr] the class has *)
Inductive pkind := KPlain | KPoissonComp | KFlowArray | KAdvDiff.
(** include/parameterized_problem.hpp:221-265; [pb_num] is [None] while [param_num] is uninitialized; [pb_flow] are the boundary types
    of the flow problem an advection problem owns (include/parameterized_problem.hpp:411-424) *)
Record problem := Prob { pb_name : string; pb_kind : pkind; pb_num : option nat; pb_map : list (string * Z); pb_ptr : list string;
  pb_battr : list Z; pb_types : list btype; pb_sbdr : list (option sfun); pb_vbdr : list (option vfun);
  pb_srhs : option sfun; pb_vrhs : option vfun; pb_ic : list (option vfun); pb_gs : list sfun; pb_gv : list (option vfun);
  pb_flow : list btype }.

(** src/parameterized_problem.cpp:427-438 *)
Definition base_problem (name : string) : problem :=
  Prob name KPlain None [] [] [-1]%Z [BNone] [None] [None] None None [] [] [] [].

(** [param_map[k] = i] in turn *)
Definition name_params (l : list (string * nat)) (m : list (string * Z)) : list (string * Z) :=
  fold_left (fun m p => sinsert m (fst p) (Z.of_nat (snd p))) l m.
(** [param_ptr.SetSize(n)], [param_ptr[i] = &a] in turn; an entry not set is a wild pointer, "" *)
Definition point_params (n : nat) (l : list (nat * string)) : outcome (list string) :=
  ofold (fun q p => owrite q (fst p) (snd p)) l (repeat "" n).
(** names and addresses of the parameters, in the order of their indices *)
Definition ordered (l : list (string * string)) : list (string * nat) * list (nat * string) :=
  (combine (map fst l) (seq 0 (List.length l)), combine (seq 0 (List.length l)) (map snd l)).

Definition with_params (p : problem) (num : option nat) (names : list (string * nat)) (ptrs : list string) : problem :=
  Prob (pb_name p) (pb_kind p) num (name_params names (pb_map p)) ptrs (pb_battr p) (pb_types p) (pb_sbdr p) (pb_vbdr p)
       (pb_srhs p) (pb_vrhs p) (pb_ic p) (pb_gs p) (pb_gv p) (pb_flow p).
Definition with_kind (p : problem) (k : pkind) : problem :=
  Prob (pb_name p) k (pb_num p) (pb_map p) (pb_ptr p) (pb_battr p) (pb_types p) (pb_sbdr p) (pb_vbdr p)
       (pb_srhs p) (pb_vrhs p) (pb_ic p) (pb_gs p) (pb_gv p) (pb_flow p).
Definition with_bdr (p : problem) (battr : list Z) (types : list btype) (sb : list (option sfun)) (vb : list (option vfun)) : problem :=
  Prob (pb_name p) (pb_kind p) (pb_num p) (pb_map p) (pb_ptr p) battr types sb vb
       (pb_srhs p) (pb_vrhs p) (pb_ic p) (pb_gs p) (pb_gv p) (pb_flow p).
Definition with_funs (p : problem) (srhs : option sfun) (vrhs : option vfun) (ic : list (option vfun)) (gs : list sfun) (gv : list (option vfun)) : problem :=
  Prob (pb_name p) (pb_kind p) (pb_num p) (pb_map p) (pb_ptr p) (pb_battr p) (pb_types p) (pb_sbdr p) (pb_vbdr p)
       srhs vrhs ic gs gv (pb_flow p).
Definition with_types (p : problem) (types flow : list btype) : problem :=
  Prob (pb_name p) (pb_kind p) (pb_num p) (pb_map p) (pb_ptr p) (pb_battr p) types (pb_sbdr p) (pb_vbdr p)
       (pb_srhs p) (pb_vrhs p) (pb_ic p) (pb_gs p) (pb_gv p) flow.

(** src/parameterized_problem.cpp:568-592 *)
Definition poisson0 (n : string) (g : gvars) : outcome (problem * gvars) :=
  let p := base_problem n in
  let p := with_bdr p [-1]%Z [BZero] [None] [None] in
  let p := with_funs p (Some SPoisson0) None [] [] [] in
  let g := gsets [("poisson0::k", 1); ("poisson0::offset", 0)] g in
  let* ptrs := point_params 2 [(0%nat, "poisson0::k"); (1%nat, "poisson0::offset")] in
  Ok (with_params p (Some 2%nat) [("k", 0%nat); ("offset", 1%nat)] ptrs, g).

(** src/parameterized_problem.cpp:598-635 *)
Definition poisson_component (n : string) (g : gvars) : outcome (problem * gvars) :=
  let p := with_bdr (base_problem n) [-1]%Z [BDirichlet] [Some SCompBdr] [None] in
  let p := with_funs p (Some SCompRhs) None [] [] [] in
  let g := gsets (all_of 3 "poisson_component::k" 0 ++ [("poisson_component::offset", 1 / 10)] ++ all_of 3 "poisson_component::bdr_k" 0
                  ++ [("poisson_component::bdr_offset", 0); ("poisson_component::bdr_idx", -1)]) g in
  let names := flat_map (fun d => [(("k" ++ index_key d)%string, d); (("bdr_k" ++ index_key d)%string, (d + 4)%nat)]) (seq 0 3)
               ++ [("offset", 3%nat); ("bdr_offset", 7%nat); ("bdr_idx", 8%nat)] in
  let* ptrs := point_params 9 (flat_map (fun d => [(d, cell "poisson_component::k" d); ((d + 4)%nat, cell "poisson_component::bdr_k" d)]) (seq 0 3)
               ++ [(3%nat, "poisson_component::offset"); (7%nat, "poisson_component::bdr_offset"); (8%nat, "poisson_component::bdr_idx")]) in
  Ok (with_kind (with_params p (Some 9%nat) names ptrs) KPoissonComp, g).

(** src/parameterized_problem.cpp:665-692 *)
Definition poisson_spiral (n : string) (g : gvars) : outcome (problem * gvars) :=
  let p := with_bdr (base_problem n) [-1]%Z [BZero] [None] [None] in
  let p := with_funs p (Some SSpiral) None [] [] [] in
  let g := gsets [("poisson_spiral::L", 1); ("poisson_spiral::Lw", 2 / 10); ("poisson_spiral::k", 1); ("poisson_spiral::s", 6 / 10)] g in
  let (names, ptrs) := ordered [("L", "poisson_spiral::L"); ("Lw", "poisson_spiral::Lw"); ("k", "poisson_spiral::k"); ("s", "poisson_spiral::s")] in
  let* ptrs := point_params 4 ptrs in
  Ok (with_params p (Some 4%nat) names ptrs, g).

(** [battr[b] = b+1], five boundaries *)
Definition five : list Z := map (fun b => (Z.of_nat b + 1)%Z) (seq 0 5).

(** src/parameterized_problem.cpp:698-732 *)
Definition channel_flow (n : string) (g : gvars) : outcome (problem * gvars) :=
  let p := with_bdr (base_problem n) five [BZero; BNeumann; BZero; BDirichlet; BZero] [None] (repeat (Some VChannel) 5) in
  let g := gsets [("flow_problem::nu", 1); ("channel_flow::L", 1); ("channel_flow::U", 1); ("channel_flow::x0", / 2)] g in
  let (names, ptrs) := ordered [("nu", "flow_problem::nu"); ("L", "channel_flow::L"); ("U", "channel_flow::U"); ("x0", "channel_flow::x0")] in
  let* ptrs := point_params 4 ptrs in
  Ok (with_params p (Some 4%nat) names ptrs, g).

(** src/parameterized_problem.cpp:758-763 *)
Definition xc (i : nat) : string := nth i ["_x"; "_y"; "_z"] "".
Definition uc (i : nat) : string := nth i ["_u"; "_v"; "_w"] "".
(** src/parameterized_problem.cpp:734-790 *)
Definition component_flow (n : string) (g : gvars) : outcome (problem * gvars) :=
  let p := with_bdr (base_problem n) five [BDirichlet; BDirichlet; BDirichlet; BDirichlet; BZero] [None] (repeat (Some VComponent) 5) in
  let g := gsets ([("flow_problem::nu", 1)] ++ all_of 3 "component_flow::u0" 0 ++ all_of 3 "component_flow::du" 1 ++ all_of 3 "component_flow::offsets" 0
                  ++ flat_map (fun j => map (fun i => (mcell "component_flow::k" j i, 1)) (seq 0 3)) (seq 0 3)) g in
  let names := ("nu", 0%nat) :: flat_map (fun i =>
    [(("u0" ++ xc i)%string, (i + 1)%nat); (("du" ++ xc i)%string, (i + 4)%nat); (("offsets" ++ xc i)%string, (i + 7)%nat)]
    ++ map (fun j => (("k" ++ uc i ++ xc j)%string, (10 + 3 * i + j)%nat)) (seq 0 3)) (seq 0 3) in
  let* ptrs := point_params (1 + 3 * 3 + 3 * 3) ((0%nat, "flow_problem::nu") :: flat_map (fun i =>
    [((1 + i)%nat, cell "component_flow::u0" i); ((4 + i)%nat, cell "component_flow::du" i); ((7 + i)%nat, cell "component_flow::offsets" i)]
    ++ map (fun j => ((10 + 3 * i + j)%nat, mcell "component_flow::k" j i)) (seq 0 3)) (seq 0 3)) in
  Ok (with_params p (Some (1 + 3 * 3 + 3 * 3)%nat) names ptrs, g).
(** src/parameterized_problem.cpp:796-798 *)
Definition flow_past_array (n : string) (g : gvars) : outcome (problem * gvars) :=
  let* (p, g) := component_flow n g in Ok (with_kind p KFlowArray, g).

(** src/parameterized_problem.cpp:841-909 *)
Definition backward_facing_step (n : string) (g : gvars) : outcome (problem * gvars) :=
  let b k := ("backward_facing_step::" ++ k)%string in
  let p := with_bdr (base_problem n) [1; 2; 3]%Z [BDirichlet; BZero; BNeumann] [None] (repeat (Some VStep) 3) in
  let p := with_funs p None None [Some VStepU; Some VStepP] [] [] in
  let g := gsets ([("flow_problem::nu", 1); (b "y0", 0); (b "y1", 1); (b "u0", 1)] ++ all_of 2 (b "amp") 0 ++ all_of 2 (b "ky") 0
                  ++ all_of 2 (b "freq") 0 ++ all_of 2 (b "t_offset") 0) g in
  let names := [("nu", 0%nat); ("y0", 1%nat); ("y1", 2%nat); ("u0", 3%nat)] ++ flat_map (fun m =>
    [(("amp" ++ index_key m)%string, (4 + m * 4)%nat); (("ky" ++ index_key m)%string, (5 + m * 4)%nat);
     (("freq" ++ index_key m)%string, (6 + m * 4)%nat); (("t_offset" ++ index_key m)%string, (7 + m * 4)%nat)]) (seq 0 2) in
  let* ptrs := point_params (4 + 2 * 4) ([(0%nat, "flow_problem::nu"); (1%nat, b "y0"); (2%nat, b "y1"); (3%nat, b "u0")] ++ flat_map (fun m =>
    [((4 + m * 4)%nat, cell (b "amp") m); ((5 + m * 4)%nat, cell (b "ky") m);
     ((6 + m * 4)%nat, cell (b "freq") m); ((7 + m * 4)%nat, cell (b "t_offset") m)]) (seq 0 2)) in
  Ok (with_params p (Some (4 + 2 * 4)%nat) names ptrs, g).

(** src/parameterized_problem.cpp:915-954 *)
Definition lid_driven_cavity (n : string) (g : gvars) : outcome (problem * gvars) :=
  let p := with_bdr (base_problem n) five [BDirichlet; BZero; BDirichlet; BZero; BZero] [None] (repeat (Some VLid) 5) in
  let g := gsets [("flow_problem::nu", 1); ("lid_driven_cavity::u0", 1); ("lid_driven_cavity::L", 1)] g in
  let (names, ptrs) := ordered [("nu", "flow_problem::nu"); ("u0", "lid_driven_cavity::u0"); ("L", "lid_driven_cavity::L")] in
  let* ptrs := point_params 3 ptrs in
  Ok (with_params p (Some 3%nat) names ptrs, g).

(** src/parameterized_problem.cpp:958-988 *)
Definition periodic_flow_past_array (n : string) (g : gvars) : outcome (problem * gvars) :=
  let p := with_bdr (base_problem n) [5]%Z [BZero] [None] [None] in
  let p := with_funs p None (Some VForce) [] [] [] in
  let g := gsets (("flow_problem::nu", 1) :: all_of 3 "periodic_flow_past_array::f" 0) g in
  let f := cell "periodic_flow_past_array::f" in
  let* ptrs := point_params 4 ((0%nat, "flow_problem::nu") :: map (fun i => ((1 + i)%nat, f i)) (seq 0 3)) in
  Ok (with_params p (Some 4%nat) [("nu", 0%nat); ("fx", 1%nat); ("fy", 2%nat); ("fz", 3%nat)] ptrs, g).
(** src/parameterized_problem.cpp:994-1008 *)
Definition force_driven_corner (n : string) (g : gvars) : outcome (problem * gvars) :=
  let* (p, g) := periodic_flow_past_array n g in
  Ok (with_bdr p five [BZero; BZero; BNeumann; BNeumann; BZero] (pb_sbdr p) (repeat None 5), g).

(** src/parameterized_problem.cpp:1014-1053 *)
Definition linelast_disp (n : string) (g : gvars) : outcome (problem * gvars) :=
  let p := with_bdr (base_problem n) [1; 2; 3]%Z [BDirichlet; BDirichlet; BZero] [None] [Some VDisp; Some VDisp; None] in
  let p := with_funs p None None [] [SLambda; SMu] [Some VDisp] in
  let g := gsets [("linelast_disp::rdisp_f", 1); ("linelast_problem::_lambda", 1); ("linelast_problem::_mu", 1)] g in
  let (names, ptrs) := ordered [("rdisp_f", "linelast_disp::rdisp_f"); ("lambda", "linelast_problem::_lambda"); ("mu", "linelast_problem::_mu")] in
  let* ptrs := point_params 3 ptrs in
  Ok (with_params p (pb_num p) names ptrs, g).
(** src/parameterized_problem.cpp:1056-1096 *)
Definition linelast_lcantilever (n : string) (g : gvars) : outcome (problem * gvars) :=
  let p := with_bdr (base_problem n) [1; 2; 3]%Z [BDirichlet; BDirichlet; BNeumann] [None] [Some VDispL; Some VDispL; None] in
  let p := with_funs p None None [] [SLambda; SMu] [None] in
  let g := gsets [("linelast_disp::rdisp_f", 1); ("linelast_problem::_lambda", 1); ("linelast_problem::_mu", 1)] g in
  let (names, ptrs) := ordered [("rdisp_f", "linelast_disp::rdisp_f"); ("lambda", "linelast_problem::_lambda"); ("mu", "linelast_problem::_mu")] in
  let* ptrs := point_params 3 ptrs in
  Ok (with_params p (pb_num p) names ptrs, g).
(** src/parameterized_problem.cpp:1098-1152 *)
Definition linelast_lattice (n : string) (g : gvars) : outcome (problem * gvars) :=
  let p := with_bdr (base_problem n) five [BNeumann; BDirichlet; BNeumann; BDirichlet; BNeumann] [None] [None; Some VDisp; None; Some VDisp; None] in
  let p := with_funs p None None [] [SLambda; SMu] [None] in
  let g := gsets [("linelast_disp::rdisp_f", 1); ("linelast_problem::_lambda", 1); ("linelast_problem::_mu", 1)] g in
  let (names, ptrs) := ordered [("rdisp_f", "linelast_disp::rdisp_f"); ("lambda", "linelast_problem::_lambda"); ("mu", "linelast_problem::_mu")] in
  let* ptrs := point_params 3 ptrs in
  Ok (with_params p (pb_num p) names ptrs, g).
(** src/parameterized_problem.cpp:1155-1209 *)
Definition linelast_cantilever (n : string) (g : gvars) : outcome (problem * gvars) :=
  let p := with_bdr (base_problem n) five [BNeumann; BNeumann; BNeumann; BDirichlet; BNeumann] [None] [None; Some VTip; None; Some VDisp; None] in
  let p := with_funs p None None [] [SLambda; SMu] [None] in
  let g := gsets [("linelast_force::rforce_f", 1); ("linelast_problem::_lambda", 1); ("linelast_problem::_mu", 1)] g in
  let (names, ptrs) := ordered [("rforce_f", "linelast_force::rforce_f"); ("lambda", "linelast_problem::_lambda"); ("mu", "linelast_problem::_mu")] in
  let* ptrs := point_params 3 ptrs in
  Ok (with_params p (pb_num p) names ptrs, g).
(** src/parameterized_problem.cpp:1211-1273 *)
Definition linelast_frame_wind (n : string) (g : gvars) : outcome (problem * gvars) :=
  let p := with_bdr (base_problem n) [1; 2; 3; 4; 3]%Z [BNeumann; BNeumann; BNeumann; BDirichlet; BNeumann] [None] [Some VWind; None; None; Some VFixed; None] in
  let p := with_funs p None (Some VGravity) [] [SLambda; SMu] [None] in
  let g := gsets [("linelast_problem::_lambda", 3846153846); ("linelast_problem::_mu", 769230769); ("linelast_frame_wind::qwind_f", 500);
                  ("linelast_frame_wind::density", 785 / 10); ("linelast_frame_wind::g", 981 / 100)] g in
  let (names, ptrs) := ordered [("lambda", "linelast_problem::_lambda"); ("mu", "linelast_problem::_mu"); ("qwind_f", "linelast_frame_wind::qwind_f");
                                ("density", "linelast_frame_wind::density"); ("g", "linelast_frame_wind::g")] in
  let* ptrs := point_params 5 ptrs in
  Ok (with_params p (pb_num p) names ptrs, g).
(** src/parameterized_problem.cpp:1323-1500 *)
Definition cw_zero : list string := ["lx"; "ly"; "rx"; "ry"; "dx"; "dy"; "ux"; "uy"; "bx"; "by"; "l_ux"; "l_uy"; "r_fx"; "r_fy"; "u_fx"; "u_fy"; "d_fx"; "d_fy"; "b_fx"; "b_fy"].
Definition cw_perturb : list string := ["xu"; "yu"; "xf"; "yf"; "bxf"; "byf"].
Definition cw_order : list string := ["l_ux"; "l_uy"; "r_fx"; "r_fy"; "u_fx"; "u_fy"; "d_fx"; "d_fy"; "lx"; "ly"; "rx"; "ry"; "dx"; "dy"; "ux"; "uy"; "lambda"; "mu";
  "xu_amp"; "xu_freq"; "xu_offset"; "xf_amp"; "xf_freq"; "xf_offset"; "yu_amp"; "yu_freq"; "yu_offset"; "yf_amp"; "yf_freq"; "yf_offset";
  "b_fx"; "b_fy"; "bxf_amp"; "bxf_freq"; "bxf_offset"; "byf_amp"; "byf_freq"; "byf_offset"; "bx"; "by"].
Definition linelast_cwtrain (n : string) (g : gvars) : outcome (problem * gvars) :=
  let c k := ("linelast_cwtrain::" ++ k)%string in
  let p := with_bdr (base_problem n) five [BNeumann; BNeumann; BNeumann; BDirichlet; BNeumann] [None] [Some VDown; Some VRight; Some VUp; Some VLeft; None] in
  let p := with_funs p None None [] [SLambda; SMu] [Some VBody] in
  let g := gsets (map (fun k => (c k, 0)) cw_zero
                  ++ map (fun k => (c (k ++ "_amp")%string, 1)) cw_perturb ++ map (fun k => (c (k ++ "_freq")%string, 1)) cw_perturb
                  ++ map (fun k => (c (k ++ "_offset")%string, 0)) cw_perturb ++ [("linelast_problem::_lambda", 1); ("linelast_problem::_mu", 1)]) g in
  let (names, ptrs) := ordered (map (fun k => (k, if String.eqb k "lambda" then "linelast_problem::_lambda"
                                                  else if String.eqb k "mu" then "linelast_problem::_mu" else c k)) cw_order) in
  let* ptrs := point_params 40 ptrs in
  Ok (with_params p (pb_num p) names ptrs, g).

(** src/parameterized_problem.cpp:1279-1316: the flow problem it owns is built second, on the same variables *)
Definition advdiff_flow_past_array (n : string) (g : gvars) : outcome (problem * gvars) :=
  let a k := ("advdiff_flow_past_array::" ++ k)%string in
  let* (p, g) := flow_past_array n g in
  let* (f, g) := flow_past_array n g in
  let p := with_bdr p (pb_battr p) [BDirichlet; BDirichlet; BDirichlet; BDirichlet; BNeumann] (repeat (Some SQbdr) 5) (pb_vbdr p) in
  let p := with_types p (pb_types p) (pb_types f) in
  match pb_num p, pb_num f with
  | Some np, Some p0 =>
      let g := gsets ([(a "q0", 1); (a "dq", 1 / 10); (a "qoffset", 0)] ++ all_of 3 (a "qk") 0) g in
      Ok (with_kind (with_params p (Some (np + (1 + 1 + 1 + 3))%nat)
            [("q0", p0); ("dq", (p0 + 1)%nat); ("qoffset", (p0 + 2)%nat); ("qk_x", (p0 + 3)%nat); ("qk_y", (p0 + 4)%nat); ("qk_z", (p0 + 5)%nat)]
            (pb_ptr p ++ [a "q0"; a "dq"; a "qoffset"] ++ map (fun j => cell (a "qk") j) (seq 0 3))) KAdvDiff, g)
  | _, _ => UB
  end.

(** src/parameterized_problem.cpp:483-562 [InitParameterizedProblem] for the problem named in the configuration *)
Definition init_problem (n : string) (g : gvars) : outcome (problem * gvars) :=
  if String.eqb n "poisson0" then poisson0 n g
  else if String.eqb n "poisson_component" then poisson_component n g
  else if String.eqb n "poisson_spiral" then poisson_spiral n g
  else if String.eqb n "channel_flow" then channel_flow n g
  else if String.eqb n "component_flow" then component_flow n g
  else if String.eqb n "flow_past_array" then flow_past_array n g
  else if String.eqb n "backward_facing_step" then backward_facing_step n g
  else if String.eqb n "lid_driven_cavity" then lid_driven_cavity n g
  else if String.eqb n "force_driven_corner" then force_driven_corner n g
  else if String.eqb n "periodic_flow_past_array" then periodic_flow_past_array n g
  else if String.eqb n "linelast_disp" then linelast_disp n g
  else if String.eqb n "linelast_disp_lcantilever" then linelast_lcantilever n g
  else if String.eqb n "linelast_disp_lattice" then linelast_lattice n g
  else if String.eqb n "linelast_force_cantilever" then linelast_cantilever n g
  else if String.eqb n "linelast_cwtrain" then linelast_cwtrain n g
  else if String.eqb n "linelast_frame_wind" then linelast_frame_wind n g
  else if String.eqb n "advdiff_flow_past_array" then advdiff_flow_past_array n g
  else Abort.

(** ** Setting parameters *)

(** [*param_ptr[i] = v]: a wild index or pointer is undefined *)
Definition assign (p : problem) (g : gvars) (i : Z) (v : R) : outcome gvars :=
  oguard (0 <=? i)%Z (let* a := oread (pb_ptr p) (Z.to_nat i) in oguard (negb (String.eqb a "")) (Ok (gset g a v))).

(** src/parameterized_problem.cpp:812-835 [FlowPastArray::SetBattr] on the types [t] *)
Definition flow_types (g : gvars) (t : list btype) : outcome (list btype) :=
  let* t := if Rlt_dec 0 (g (cell "component_flow::u0" 0))
    then let* t := owrite t 3 BDirichlet in owrite t 1 BNeumann
    else let* t := owrite t 1 BDirichlet in owrite t 3 BNeumann in
  if Rlt_dec 0 (g (cell "component_flow::u0" 1))
    then let* t := owrite t 0 BDirichlet in owrite t 2 BNeumann
    else let* t := owrite t 2 BDirichlet in owrite t 0 BNeumann.

(** [SetBattr]: src/parameterized_problem.cpp:637-647 for PoissonComponent (the conversion to int is undefined beyond its range), 812-835, include/parameterized_problem.hpp:423-427 *)
Definition set_battr (p : problem) (g : gvars) : outcome problem :=
  match pb_kind p with
  | KPlain => Ok p
  | KPoissonComp =>
      let b := g "poisson_component::bdr_idx" in
      if Rle_dec 0 b then
        let a := (1 + Int_part b)%Z in
        oguard (a <=? 2147483647)%Z (oassert ((1 <=? a) && (a <=? 4))%Z (Ok (with_bdr p [a] (pb_types p) (pb_sbdr p) (pb_vbdr p))))
      else Ok (with_bdr p [-1]%Z (pb_types p) (pb_sbdr p) (pb_vbdr p))
  | KFlowArray => let* t := flow_types g (pb_types p) in Ok (with_types p t (pb_flow p))
  | KAdvDiff => let* t := flow_types g (pb_types p) in let* f := flow_types g (pb_flow p) in Ok (with_types p t f)
  end.

(** src/parameterized_problem.cpp:440-449, 649-653, 799-803 [SetParams(key, value)] *)
Definition set_param (p : problem) (g : gvars) (key : string) (v : R) : outcome (problem * gvars) :=
  match slookup (pb_map p) key with
  | None => Abort
  | Some i => let* g := assign p g i v in let* p := set_battr p g in Ok (p, g)
  end.

(** src/parameterized_problem.cpp:451-458, 655-659, 805-809 [SetParams(indexes, values)] *)
Definition set_params (p : problem) (g : gvars) (idx : list Z) (vals : vec) : outcome (problem * gvars) :=
  match pb_num p with
  | None => UB
  | Some n =>
      oassert (List.length idx <=? n)%nat (oassert (List.length idx =? List.length vals)%nat (
      let* g := ofold (fun g iv => assign p g (fst iv) (snd iv)) (combine idx vals) g in
      let* p := set_battr p g in Ok (p, g)))
  end.

(** src/parameterized_problem.cpp:460-481 [SetSingleRun]: [l] are the entries of the dictionary [single_run/<name>] *)
Definition set_single_run (p : problem) (g : gvars) (l : option (list (string * R))) : outcome (problem * gvars) :=
  match l with
  | None => Abort
  | Some l => ofold (fun s kv => set_param (fst s) (snd s) (fst kv) (snd kv)) l (p, g)
  end.
