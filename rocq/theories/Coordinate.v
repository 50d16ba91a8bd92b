(** Model of [types/coordinate/coordinate.cpp] and [types/orientation/orientation.hpp].
    Line numbers refer to coordinate.cpp unless another file is named. *)
From Coq Require Import ZArith Bool List.
From Verif Require Import Base F64.
Local Open Scope Z_scope.

(** coordinate.hpp: the two [int32_t] fields, in microdegrees.  That the fields fit 32 bits
    is not part of the type: see [coord_i32]. *)
Record coord := mkC { lon : Z; lat : Z }.

Definition coord_i32 (c : coord) : Prop :=
  INT32_MIN <= lon c <= INT32_MAX /\ INT32_MIN <= lat c <= INT32_MAX.

(** orientation.hpp: [NO_ORIENTATION] (0) is never produced by the modelled code. *)
Inductive orientation := CLOCKWISE | COUNTER_CLOCKWISE | COLLINEAR.

Definition orientation_eqb (a b : orientation) : bool :=
  match a, b with
  | CLOCKWISE, CLOCKWISE | COUNTER_CLOCKWISE, COUNTER_CLOCKWISE | COLLINEAR, COLLINEAR => true
  | _, _ => false
  end.

(** lines 13, 18-20: [DEGREES_TO_MICRODEGREES] and the constructor from degrees *)
Definition degrees_to_microdegrees (x : f64) : res Z := f_to_i32 (fmul f_1e6 x).
Definition coord_of_degrees (longitude latitude : f64) : res coord :=
  a <- degrees_to_microdegrees longitude ;;
  b <- degrees_to_microdegrees latitude ;;
  Ok (mkC a b).

(** lines 14, 31-33: [MICRODEGREES_TO_DEGREES] and the getters *)
Definition microdegrees_to_degrees (z : Z) : f64 := fmul f_1em6 (f_of_Z z).
Definition get_longitude (c : coord) : f64 := microdegrees_to_degrees (lon c).
Definition get_latitude (c : coord) : f64 := microdegrees_to_degrees (lat c).

(** lines 43-46 *)
Definition coord_eqb (a b : coord) : bool := (lon a =? lon b) && (lat a =? lat b).

(** lines 50-53 *)
Definition coord_add (a b : coord) : res coord :=
  x <- i32 (lon a + lon b) ;; y <- i32 (lat a + lat b) ;; Ok (mkC x y).

(** line 55 *)
Definition coord_neg (a : coord) : res coord :=
  x <- i32 (- lon a) ;; y <- i32 (- lat a) ;; Ok (mkC x y).

(** line 57: this object plus the negated [other] *)
Definition coord_sub (a b : coord) : res coord :=
  n <- coord_neg b ;; coord_add a n.

(** lines 59-62: [int32 * double] converts the integer to double *)
Definition coord_mul (a : coord) (s : f64) : res coord :=
  x <- f_to_i32 (fround (fmul (f_of_Z (lon a)) s)) ;;
  y <- f_to_i32 (fround (fmul (f_of_Z (lat a)) s)) ;;
  Ok (mkC x y).

(** line 64 *)
Definition coord_div (a : coord) (s : f64) : res coord := coord_mul a (fdiv f_1 s).

(** lines 75-82 *)
Definition dot_md (a b : coord) : res Z :=
  p <- i64 (lon a * lon b) ;; q <- i64 (lat a * lat b) ;; i64 (p + q).

(** lines 93-96 *)
Definition cross_md (a b : coord) : res Z :=
  p <- i64 (lon a * lat b) ;; q <- i64 (lon b * lat a) ;; i64 (p - q).

(** lines 98-103 *)
Definition magnitude_squared (a : coord) : f64 :=
  fadd (fmul (get_longitude a) (get_longitude a)) (fmul (get_latitude a) (get_latitude a)).

(** lines 105-110 *)
Definition magnitude_squared_md (a : coord) : res Z :=
  p <- i64 (lon a * lon a) ;; q <- i64 (lat a * lat a) ;; i64 (p + q).

(** line 112 *)
Definition magnitude (a : coord) : f64 := fsqrt (magnitude_squared a).

(** the three-way decision of lines 117-123 *)
Definition orientation_of_sign (z : Z) : orientation :=
  if z <? 0 then CLOCKWISE else if 0 <? z then COUNTER_CLOCKWISE else COLLINEAR.

(** lines 114-124 *)
Definition vector_orientation (a b : coord) : res orientation :=
  c <- cross_md a b ;; Ok (orientation_of_sign c).

(** lines 126-128 *)
Definition parallel (a b : coord) : res bool :=
  o <- vector_orientation a b ;; Ok (orientation_eqb o COLLINEAR).

(** lines 130-142 *)
Definition scalar_multiple_factor (a b : coord) : res (option f64) :=
  par <- parallel a b ;;
  if negb par then Ok None
  else if (lon a =? 0) && (lat a =? 0) then Ok (Some f_0)
  else if lon a =? 0 then Ok (Some (fdiv (f_of_Z (lat b)) (f_of_Z (lat a))))
  else Ok (Some (fdiv (f_of_Z (lon b)) (f_of_Z (lon a)))).

(** [std::optional<double>::value] *)
Definition opt_value {A} (o : option A) : res A :=
  match o with Some x => Ok x | None => Throw BadOptional end.

(** lines 144-153; [std::atan2] is an oracle.  [2 * M_PI] is 884279719003555 * 2^-47. *)
Definition f_two_pi : f64 := f_lit 884279719003555 (-47).
Definition angle_to_horizontal (atan2 : Z -> Z -> f64) (a : coord) : f64 :=
  let arctan := atan2 (lat a) (lon a) in
  if fltb arctan f_0 then fadd arctan f_two_pi else arctan.

(** lines 159-163 (the debug print is dropped) *)
Definition coord_normalize (a : coord) : res coord := coord_div a (magnitude a).

(** Bit operations on [size_t]. *)
Definition shl64 (x n : Z) : Z := u64 (x * 2 ^ n).
Definition shr64 (x n : Z) : Z := x / 2 ^ n.
Definition hash_const : Z := 2654435769.   (* 0x9e3779b9 *)
Definition hash_combine (seed h : Z) : Z :=
  Z.lxor seed (u64 (h + hash_const + shl64 seed 6 + shr64 seed 2)).

(** lines 175-182; [std::hash<int32_t>] of libstdc++ is the sign-extending conversion *)
Definition hash_coord (c : coord) : Z := hash_combine (u64 (lat c)) (u64 (lon c)).

Definition coord_dec (a b : coord) : {a = b} + {a <> b}.
Proof. decide equality; apply Z.eq_dec. Defined.
