(* Binary64 arithmetic on bit patterns.  Used wherever the code computes with C++ double values
   (src/common/Variant.cpp:185-320, src/reader/Aggregator.cpp, src/reader/Preprocessor.cpp).
   The operations are those of Coq.Floats.SpecFloat (round to nearest even, 53 bits, emax 1024),
   i.e. IEEE-754 double precision.  Simplification: all NaNs are mapped to one quiet NaN. *)
From Verif Require Import Base VariantModel.
From Coq Require Import SpecFloat ZArith.
Open Scope N_scope.

Definition fprec : Z := 53.
Definition femax : Z := 1024.
(* bit pattern -> value *)
Definition b2f (bits : N) : spec_float :=
  match dbl bits with
  | DNan => S754_nan
  | DInf s => S754_infinity s
  | DFin s N0 _ => S754_zero s
  | DFin s (Npos m) e => S754_finite s m e
  end.
Definition sbit (s : bool) : N := if s then 9223372036854775808 else 0.
(* value -> bit pattern *)
Definition f2b (f : spec_float) : N :=
  match f with
  | S754_zero s => sbit s
  | S754_infinity s => sbit s + 9218868437227405312
  | S754_nan => 9221120237041090560
  | S754_finite s m e =>
      if N.pos m <? 4503599627370496 then sbit s + N.pos m
      else sbit s + (Z.to_N (e + 1075) mod 2048) * 4503599627370496 + N.pos m mod 4503599627370496
  end.
Definition dadd (a b : N) : N := f2b (SFadd fprec femax (b2f a) (b2f b)).
Definition dsub (a b : N) : N := f2b (SFsub fprec femax (b2f a) (b2f b)).
Definition dmul (a b : N) : N := f2b (SFmul fprec femax (b2f a) (b2f b)).
Definition ddiv (a b : N) : N := f2b (SFdiv fprec femax (b2f a) (b2f b)).
(* a < b, false if one is NaN; dcmp is the sign of the exact difference *)
Definition dltb (a b : N) : bool := (dcmp (dbl a) (dbl b) <? 0)%Z.
(* conversion of an integer, round to nearest even *)
Definition d_of_Z (z : Z) : N := f2b (binary_normalize fprec femax z 0 false).
Global Arguments dadd : simpl never.
Global Arguments dsub : simpl never.
Global Arguments dmul : simpl never.
Global Arguments ddiv : simpl never.
Global Arguments dltb : simpl never.
Global Arguments d_of_Z : simpl never.

Example float_examples :
  dadd 4607182418800017408 4611686018427387904 = 4613937818241073152 (* 1+2=3 *)
  /\ d_of_Z 3 = 4613937818241073152 /\ ddiv 4613937818241073152 4611686018427387904 = 4609434218613702656 (* 3/2 *)
  /\ dadd 4591870180066957722 4596373779694328218 = 4599075939470750516 (* 0.1+0.2 = 0.30000000000000004 *)
  /\ dltb 4591870180066957722 4596373779694328218 = true.
Proof. vm_compute. repeat split. Qed.
