(** What a user knows of the predefined problems: names of the parameters, defaults, formulas. *)
From Coq Require Import Reals List Bool Lia Arith ZArith Ascii String.
From Verif Require Import Outcome ConfigModel LaBase MbModel ProbModel.
Import ListNotations.
Local Open Scope string_scope.
Local Open Scope list_scope.
Local Open Scope R_scope.

(** Parameters in the order of their indices, with their defaults. *)
Definition flow_array_table : list (string * R) :=
  [("nu", 1); ("u0_x", 0); ("u0_y", 0); ("u0_z", 0); ("du_x", 1); ("du_y", 1); ("du_z", 1); ("offsets_x", 0); ("offsets_y", 0); ("offsets_z", 0);
   ("k_u_x", 1); ("k_u_y", 1); ("k_u_z", 1); ("k_v_x", 1); ("k_v_y", 1); ("k_v_z", 1); ("k_w_x", 1); ("k_w_y", 1); ("k_w_z", 1)].
Definition tables : list (string * list (string * R)) :=
  [("poisson0", [("k", 1); ("offset", 0)]);
   ("poisson_component", [("k0", 0); ("k1", 0); ("k2", 0); ("offset", 1 / 10); ("bdr_k0", 0); ("bdr_k1", 0); ("bdr_k2", 0); ("bdr_offset", 0); ("bdr_idx", -1)]);
   ("poisson_spiral", [("L", 1); ("Lw", 2 / 10); ("k", 1); ("s", 6 / 10)]);
   ("channel_flow", [("nu", 1); ("L", 1); ("U", 1); ("x0", / 2)]);
   ("component_flow", flow_array_table);
   ("flow_past_array", flow_array_table);
   ("backward_facing_step", [("nu", 1); ("y0", 0); ("y1", 1); ("u0", 1); ("amp0", 0); ("ky0", 0); ("freq0", 0); ("t_offset0", 0);
                             ("amp1", 0); ("ky1", 0); ("freq1", 0); ("t_offset1", 0)]);
   ("lid_driven_cavity", [("nu", 1); ("u0", 1); ("L", 1)]);
   ("force_driven_corner", [("nu", 1); ("fx", 0); ("fy", 0); ("fz", 0)]);
   ("periodic_flow_past_array", [("nu", 1); ("fx", 0); ("fy", 0); ("fz", 0)]);
   ("linelast_disp", [("rdisp_f", 1); ("lambda", 1); ("mu", 1)]);
   ("linelast_disp_lcantilever", [("rdisp_f", 1); ("lambda", 1); ("mu", 1)]);
   ("linelast_disp_lattice", [("rdisp_f", 1); ("lambda", 1); ("mu", 1)]);
   ("linelast_force_cantilever", [("rforce_f", 1); ("lambda", 1); ("mu", 1)]);
   ("linelast_cwtrain", [("l_ux", 0); ("l_uy", 0); ("r_fx", 0); ("r_fy", 0); ("u_fx", 0); ("u_fy", 0); ("d_fx", 0); ("d_fy", 0);
      ("lx", 0); ("ly", 0); ("rx", 0); ("ry", 0); ("dx", 0); ("dy", 0); ("ux", 0); ("uy", 0); ("lambda", 1); ("mu", 1);
      ("xu_amp", 1); ("xu_freq", 1); ("xu_offset", 0); ("xf_amp", 1); ("xf_freq", 1); ("xf_offset", 0);
      ("yu_amp", 1); ("yu_freq", 1); ("yu_offset", 0); ("yf_amp", 1); ("yf_freq", 1); ("yf_offset", 0);
      ("b_fx", 0); ("b_fy", 0); ("bxf_amp", 1); ("bxf_freq", 1); ("bxf_offset", 0); ("byf_amp", 1); ("byf_freq", 1); ("byf_offset", 0); ("bx", 0); ("by", 0)]);
   ("linelast_frame_wind", [("lambda", 3846153846); ("mu", 769230769); ("qwind_f", 500); ("density", 785 / 10); ("g", 981 / 100)]);
   ("advdiff_flow_past_array", flow_array_table ++ [("q0", 1); ("dq", 1 / 10); ("qoffset", 0); ("qk_x", 0); ("qk_y", 0); ("qk_z", 0)])].

Fixpoint assoc {A} (l : list (string * A)) (k : string) : option A :=
  match l with [] => None | (k', v) :: t => if String.eqb k' k then Some v else assoc t k end.
Definition table (n : string) : list (string * R) := match assoc tables n with Some t => t | None => [] end.
(** The elasticity problems do not record how many parameters they have. *)
Definition elastic : list string :=
  ["linelast_disp"; "linelast_disp_lcantilever"; "linelast_disp_lattice"; "linelast_force_cantilever"; "linelast_cwtrain"; "linelast_frame_wind"].

(** The two ways to set parameters, and the names they set. *)
Inductive setting := ByName (k : string) (v : R) | ByIndex (idx : list Z) (vals : vec).
Definition key_of (n : string) (i : Z) : string := fst (nth (Z.to_nat i) (table n) ("", 0)).
Definition named (n : string) (s : setting) : list (string * R) :=
  match s with ByName k v => [(k, v)] | ByIndex idx vals => combine (map (key_of n) idx) vals end.
(** The last value set under a name, or the default. *)
Definition value (n : string) (l : list setting) (k : string) : R :=
  fold_left (fun v kv => if String.eqb (fst kv) k then snd kv else v) (flat_map (named n) l) (match assoc (table n) k with Some d => d | None => 0 end).

(** Settings applied to a new problem. *)
Definition apply (s : problem * gvars) (x : setting) : outcome (problem * gvars) :=
  match x with ByName k v => set_param (fst s) (snd s) k v | ByIndex idx vals => set_params (fst s) (snd s) idx vals end.
Definition configured (n : string) (g : gvars) (l : list setting) (p : problem) (g' : gvars) : Prop :=
  exists s, init_problem n g = Ok s /\ ofold apply l s = Ok (p, g').

(** Settings a problem knows: names of the table, indices within it. *)
Definition known (n : string) (s : setting) : Prop :=
  match s with
  | ByName k _ => In k (map fst (table n))
  | ByIndex idx vals => List.length idx = List.length vals /\ (List.length idx <= List.length (table n))%nat /\
      forall i, In i idx -> (0 <= i < Z.of_nat (List.length (table n)))%Z
  end.

(** ** Formulas *)

Definition axis (d : nat) : string := nth d ["x"; "y"; "z"] "".
Definition comp (i : nat) : string := nth i ["u"; "v"; "w"] "".
(** [sin 2 pi (k . x + offset)] *)
Definition wave (k : nat -> R) (offset : R) (x : vec) : R := sin (2 * PI * (rsum (List.length x) (fun d => k d * vnth x d) + offset)).
(** Velocity of the component flow, corrected by the complementary flux. *)
Definition component_velocity (par : string -> R) (del_u : R) (x0 x : vec) (i : nat) : R :=
  par ("u0_" ++ axis i)%string
  + par ("du_" ++ axis i)%string * wave (fun j => par ("k_" ++ comp i ++ "_" ++ axis j)%string) (- par ("offsets_" ++ axis i)%string) x
  - del_u * (vnth x i - vnth x0 i).
(** Inflow profile vanishing at [y0] and [y1], with maximum [u]. *)
Definition profile (u y0 y1 y : R) : R := 4 * u * ((y - y0) / (y1 - y0)) * ((y1 - y) / (y1 - y0)).
Definition step_wave (par : string -> R) (m : nat) (y t : R) : R :=
  let q k := par (k ++ index_key m)%string in
  q "amp" * sin (PI * q "ky" * ((y - par "y0") / (par "y1" - par "y0"))) * sin (2 * PI * (q "freq" * t + q "t_offset")).
(** Distance to the nearest of three turns of the spiral [rho = slope * angle] *)
Definition spiral_distance (slope r theta : R) : R :=
  Rmin (Rmin (Rabs (r - slope * (theta - 2 * PI))) (Rabs (r - slope * theta))) (Rabs (r - slope * (theta + 2 * PI))).
(** A sinusoidal load, applied when its switch is on. *)
Definition load (par : string -> R) (sw c p : string) (x before : R) : R :=
  if Rle_dec (/ 2) (par sw) then par c + par (p ++ "_amp")%string * sin (PI * par (p ++ "_freq")%string * (x / 3 + 2 * par (p ++ "_offset")%string)) else before.

(** A vector with the entries [f]. *)
Definition is_vec (n : nat) (y : vec) (f : nat -> R) : Prop := List.length y = n /\ forall i, (i < n)%nat -> vnth y i = f i.
(** only the last of [d] entries, the vertical one, is [v] *)
Definition last_only (d : nat) (v : R) (i : nat) : R := if (S i =? d)%nat then v else 0.
(** [f] everywhere on the boundary list *)
Definition everywhere {A} (n : nat) (l : list (option A)) (f : A) : Prop := l = repeat (Some f) n.

(** Type of the boundary with attribute [a]. *)
Definition type_of (p : problem) (a : Z) : option btype :=
  match attr_find (pb_battr p) a 0 with Some i => nth_error (pb_types p) i | None => None end.
