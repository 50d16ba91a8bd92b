(** IEEE-754 binary64 as used by the C++ code ([double], round to nearest even).
    Every operation is Flocq's; nothing is approximated.  Assumption about the build,
    recorded in DESIGN.md: SSE2 doubles, no -ffast-math, no FMA contraction. *)
From Coq Require Import ZArith Bool.
From Flocq Require Import Core BinarySingleNaN.
From Verif Require Import Base.
Local Open Scope Z_scope.

Definition f64 := binary_float 53 1024.

Global Instance prec53 : Prec_gt_0 53 := eq_refl.
Global Instance prec53_lt_1024 : Prec_lt_emax 53 1024 := eq_refl.

Definition fadd : f64 -> f64 -> f64 := Bplus mode_NE.
Definition fsub : f64 -> f64 -> f64 := Bminus mode_NE.
Definition fmul : f64 -> f64 -> f64 := Bmult mode_NE.
Definition fdiv : f64 -> f64 -> f64 := Bdiv mode_NE.
Definition fsqrt : f64 -> f64 := Bsqrt mode_NE.
Definition fopp : f64 -> f64 := Bopp.
Definition fltb : f64 -> f64 -> bool := Bltb.
Definition fleb : f64 -> f64 -> bool := Bleb.
Definition feqb : f64 -> f64 -> bool := Beqb.

(** [static_cast<double>(z)] for an integer [z]: nearest double. *)
Definition f_of_Z (z : Z) : f64 := binary_normalize 53 1024 _ _ mode_NE z 0 false.

(** [static_cast<int32_t>(x)]: truncation; undefined when the truncated value does not fit
    (and for infinities and NaN). *)
Definition f_to_i32 (x : f64) : res Z :=
  if is_finite x then
    let z := Btrunc x in if in_i32 z then Ok z else UB BadCast
  else UB BadCast.

(** [std::round]: nearest integer, halves away from zero. *)
Definition fround : f64 -> f64 := Bnearbyint mode_NA.

(** The double nearest to a decimal literal m * 2^e (already rounded by the compiler). *)
Definition f_lit (m e : Z) : f64 := binary_normalize 53 1024 _ _ mode_NE m e false.

(** [1e-6] : the nearest double is 4722366482869645 * 2^-72. *)
Definition f_1em6 : f64 := f_lit 4722366482869645 (-72).
(** [1e6] *)
Definition f_1e6 : f64 := f_of_Z 1000000.
Definition f_0 : f64 := f_of_Z 0.
Definition f_1 : f64 := f_of_Z 1.
