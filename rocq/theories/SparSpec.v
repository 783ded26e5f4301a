(** What it means that a sample has its own parameter values. *)
From Coq Require Import ZArith List String Ascii Reals Lia.
From Verif Require Import Outcome ConfigModel ConfigSpec SparModel.
Import ListNotations.
Open Scope Z_scope.

(** The value of a parameter at point [i] of [n] equally spaced points (equally spaced logarithms with the
    logarithmic scale); the only point of a parameter with one point is the smallest value; integers are spaced by
    the whole part of the spacing. *)
Inductive point_value (enc_double : R -> string) (enc_int : Z -> string) (fmt : string -> Z -> string) (n i : Z) :
  param -> string -> Prop :=
| pv_linear k lo hi v : 0 <= i < n -> (v = if n =? 1 then lo else lo + IZR i * (hi - lo) / IZR (n - 1))%R ->
    point_value enc_double enc_int fmt n i (DoubleP k false lo hi) (enc_double v)
| pv_log k lo hi v : 0 <= i < n -> (0 < lo -> 0 < hi -> 0 < v /\
    ln v = if n =? 1 then ln lo else ln lo + IZR i * (ln hi - ln lo) / IZR (n - 1))%R ->
    point_value enc_double enc_int fmt n i (DoubleP k true lo hi) (enc_double v)
| pv_integer k lo hi d : 0 <= i < n -> (n = 1 \/ d = Z.quot (hi - lo) (n - 1)) ->
    point_value enc_double enc_int fmt n i (IntegerP k lo hi) (enc_int (lo + i * d))
| pv_filename k f lo hi d : 0 <= i < n -> (n = 1 \/ d = Z.quot (hi - lo) (n - 1)) ->
    point_value enc_double enc_int fmt n i (FilenameP k f lo hi) (fmt f (lo + i * d)).

(** The value of a parameter drawn at fraction [u] of the way from the smallest to the largest value (of the way
    between their logarithms), or at the whole number drawn. *)
Inductive drawn_value (enc_double : R -> string) (enc_int : Z -> string) (fmt : string -> Z -> string) (u : R) (z : Z) :
  param -> string -> Prop :=
| dv_linear k lo hi v : (v - lo = u * (hi - lo))%R -> drawn_value enc_double enc_int fmt u z (DoubleP k false lo hi) (enc_double v)
| dv_log k lo hi v : (0 < lo -> 0 < hi -> 0 < v /\ ln v - ln lo = u * (ln hi - ln lo))%R ->
    drawn_value enc_double enc_int fmt u z (DoubleP k true lo hi) (enc_double v)
| dv_integer k lo hi : drawn_value enc_double enc_int fmt u z (IntegerP k lo hi) (enc_int z)
| dv_filename k f lo hi : drawn_value enc_double enc_int fmt u z (FilenameP k f lo hi) (fmt f z).

(** The options named by the parameters: well-formed keys, none the same as or above another. *)
Definition separate_keys (params : list param) (paths : list (list string)) : Prop :=
  Forall2 (fun p q => par_key p = join slash q /\ segments slash q) params paths /\
  forall a b p q, nth_error paths a = Some p -> nth_error paths b = Some q -> a <> b -> unrelated p q.

(** Samples run one after the other by the same process, each changing the configuration left by the one before. *)
Inductive runs_of (step : Z -> tree -> outcome tree) : list Z -> tree -> tree -> Prop :=
| runs_nil t : runs_of step [] t t
| runs_snoc l s t t1 t2 : runs_of step l t t1 -> step s t1 = Ok t2 -> runs_of step (l ++ [s])%list t t2.
