(** * The operations on [f64] that the crate uses

    The model of every function in the crate is written once, over an abstract
    bundle of operations [arith], and read three ways:

    - [Float.Ieee.ieee P]: IEEE-754 binary64 as implemented by Rust (Flocq's
      [binary_float 53 1024], NaN payloads included), over an arbitrary
      platform [P] that supplies the libm functions, the NaN payloads and the
      build profile.  This is the reading in which claims about the program
      are made.
    - [Float.Exact.exact P]: exact real arithmetic, for claims about the
      algorithm (recurrences, Wronskians, functional equations).

    A field's comment names the Rust operation it stands for. *)

From Coq Require Import ZArith.
From Verif.Model Require Import Base.

Record arith : Type := Arith {
  F : Type;
  (** decimal literal such as [0.5] or [1e-8] *)
  lit : dec -> F;
  (** [n as f64] for an integer [n] *)
  of_int : Z -> F;
  (** [x as uN] / [x as iN]: truncation, saturating to [lo..hi], NaN to 0 *)
  to_int : Z -> Z -> F -> Z;
  add : F -> F -> F;
  sub : F -> F -> F;
  mul : F -> F -> F;
  div : F -> F -> F;
  (** unary [-x] and [x.abs()] *)
  neg : F -> F;
  abs : F -> F;
  sqrt : F -> F;
  floor : F -> F;
  (** [x.trunc()] *)
  trunc : F -> F;
  (** comparisons [<], [<=], [==]; all false on NaN *)
  lt : F -> F -> bool;
  le : F -> F -> bool;
  eq : F -> F -> bool;
  is_nan : F -> bool;
  is_infinite : F -> bool;
  is_sign_positive : F -> bool;
  (** [f64::NAN], [f64::INFINITY] *)
  nan : F;
  infinity : F;
  (** [f64::EPSILON], [f64::MIN_POSITIVE] *)
  epsilon : F;
  min_positive : F;
  (** [x.copysign(y)] *)
  copysign : F -> F -> F;
  (** [x.max(y)], [x.min(y)]: a NaN operand is ignored *)
  fmax : F -> F -> F;
  fmin : F -> F -> F;
  (** libm *)
  exp : F -> F;
  ln : F -> F;
  sin : F -> F;
  cos : F -> F;
  sinh : F -> F;
  cosh : F -> F;
  powf : F -> F -> F;
  (** [num_complex::Complex64::exp] on (re, im) *)
  cexp : F * F -> F * F;
  (** [x.mul_add(a, b)], the fused operation *)
  fused_mul_add : F -> F -> F -> F;
  (** is the crate compiled with [target_feature = "fma"]? *)
  has_fma : bool;
  (** is the crate compiled with integer overflow checks (debug profile)? *)
  checks : bool;
  (** [utils::frexp] and [utils::ldexp]; the IEEE reading uses the model of
      the crate's own bit-level code *)
  frexp : F -> F * Z;
  ldexp : F -> Z -> res F;
}.

Arguments lit {_} _%dec.
Arguments of_int {_} _%Z.
Arguments to_int {_} _%Z _%Z _.
Arguments add {_} _ _.
Arguments sub {_} _ _.
Arguments mul {_} _ _.
Arguments div {_} _ _.
Arguments neg {_} _.
Arguments abs {_} _.
Arguments sqrt {_} _.
Arguments floor {_} _.
Arguments trunc {_} _.
Arguments lt {_} _ _.
Arguments le {_} _ _.
Arguments eq {_} _ _.
Arguments is_nan {_} _.
Arguments is_infinite {_} _.
Arguments is_sign_positive {_} _.
Arguments nan {_}.
Arguments infinity {_}.
Arguments epsilon {_}.
Arguments min_positive {_}.
Arguments copysign {_} _ _.
Arguments fmax {_} _ _.
Arguments fmin {_} _ _.
Arguments exp {_} _.
Arguments ln {_} _.
Arguments sin {_} _.
Arguments cos {_} _.
Arguments sinh {_} _.
Arguments cosh {_} _.
Arguments powf {_} _ _.
Arguments cexp {_} _.
Arguments fused_mul_add {_} _ _ _.
Arguments has_fma {_}.
Arguments checks {_}.
Arguments frexp {_} _.
Arguments ldexp {_} _ _%Z.

Declare Scope f64_scope.
Delimit Scope f64_scope with f.
Bind Scope f64_scope with F.

(** Rust operators.  [x > y] is [y < x]; both are false when either side is
    NaN, exactly as in Rust. *)
Notation "x + y" := (add x y) : f64_scope.
Notation "x - y" := (sub x y) : f64_scope.
Notation "x * y" := (mul x y) : f64_scope.
Notation "x / y" := (div x y) : f64_scope.
Notation "- x" := (neg x) : f64_scope.
Notation "x < y" := (lt x y) : f64_scope.
Notation "x <= y" := (le x y) : f64_scope.
Notation "x > y" := (lt y x) (only parsing) : f64_scope.
Notation "x >= y" := (le y x) (only parsing) : f64_scope.
Notation "x == y" := (eq x y) (at level 70) : f64_scope.
Notation "$ d" := (lit d) (at level 0, d constr at level 0) : f64_scope.

Section Derived.
  Context {A : arith}.
  Local Open Scope f64_scope.

  (** std: [x.powi(2)].  Rust leaves the rounding of [powi] unspecified; for
      the constant exponents 2 and 3 used in the crate both LLVM's expansion
      and compiler-rt's [__powidf2] give these products. *)
  Definition powi2 (x : F A) : F A := x * x.
  Definition powi3 (x : F A) : F A := x * (x * x).

  (** std: [x.recip()] *)
  Definition recip (x : F A) : F A := $1.0 / x.

  (** std: [x.fract()] *)
  Definition fract (x : F A) : F A := x - trunc x.

  (** std: [x.clamp(lo, hi)] *)
  Definition clamp (lo hi x : F A) : F A :=
    let x := if x < lo then lo else x in
    if x > hi then hi else x.

  (** [x as usize] (64-bit targets), [x as u64], [x as u32], [x as i32],
      [x as isize] *)
  Definition as_usize (x : F A) : Z := to_int 0 (2 ^ 64 - 1) x.
  Definition as_u64 (x : F A) : Z := to_int 0 (2 ^ 64 - 1) x.
  Definition as_u32 (x : F A) : Z := to_int 0 (2 ^ 32 - 1) x.
  Definition as_i32 (x : F A) : Z := to_int (- 2 ^ 31) (2 ^ 31 - 1) x.
  Definition as_isize (x : F A) : Z := to_int (- 2 ^ 63) (2 ^ 63 - 1) x.
End Derived.

Section Constants.
  Context {A : arith}.
  Local Open Scope f64_scope.

  (** src/lib.rs:36 [EPS] *)
  Definition EPS : F A := epsilon.
  (** src/lib.rs:37 [FPMIN] *)
  Definition FPMIN : F A := min_positive / EPS.
  (** src/lib.rs:38 [INV_SQRT_PI] *)
  Definition INV_SQRT_PI : F A := $0.564_189_583_547_756_3.
  (** core::f64::consts (PI, FRAC_2_SQRT_PI, FRAC_1_SQRT_2, FRAC_2_PI,
      FRAC_PI_4), decimal text as in the Rust standard library *)
  Definition PI : F A := $3.14159265358979323846264338327950288.
  Definition FRAC_2_SQRT_PI : F A := $1.12837916709551257389615890312154517.
  Definition FRAC_1_SQRT_2 : F A := $0.707106781186547524400844362104849039.
  Definition FRAC_2_PI : F A := $0.636619772367581343075535053490057448.
  Definition FRAC_PI_4 : F A := $0.785398163397448309615660845819875721.
End Constants.
