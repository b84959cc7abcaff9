(** The floating-point operations used by src/pane/printing_options.rs, on the
    standard library's specification of IEEE 754 ([f32]: 24 bits of precision,
    maximal exponent 128). *)
From Coq Require Export Floats.SpecFloat.
From Verif Require Export Machine.

Set Implicit Arguments.

(** A Rust [f32].  (NaN payloads are not distinguished.) *)
Definition f32 : Type := spec_float.

(** Every [f32] is in canonical form. *)
Definition is_f32 (x : f32) : Prop := valid_binary 24 128 x = true.

(** [n as f32] for an unsigned integer: round to nearest, ties to even. *)
Definition f32_of_uint (n : N) : f32 := binary_normalize 24 128 (Z.of_N n) 0 false.

(** [x * y] *)
Definition f32_mul (x y : f32) : f32 := SFmul 24 128 x y.

(** [x <= y] *)
Definition f32_le (x y : f32) : bool := SFleb x y.

Definition f32_zero : f32 := S754_zero false.
Definition f32_one : f32 := S754_finite false 8388608 (-23).

(** [f32::round(x) as u32].  [round] goes to the nearest integer, ties away from
    zero, and its result is an integer; [as u32] saturates, and gives 0 for NaN.
    Simplification: one step instead of two. *)
Definition f32_round_to_u32 (x : f32) : N :=
  match x with
  | S754_nan | S754_zero _ | S754_infinity true | S754_finite true _ _ => 0
  | S754_infinity false => U32 - 1
  | S754_finite false m e =>
      let n := match e with
               | Z0 => Npos m
               | Zpos e' => Npos m * 2 ^ Npos e'
               | Zneg e' => (2 * Npos m + 2 ^ Npos e') / (2 * 2 ^ Npos e')
               end in
      N.min n (U32 - 1)
  end%N.
