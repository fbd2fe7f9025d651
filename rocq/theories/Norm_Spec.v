(* The numbers which single precision patterns denote. *)
From Verif Require Import Util.
Open Scope Z_scope.

(* A finite float with pattern i has the value fval i * 2^-149; exponent field e, fraction m. *)
Definition f_exp (i : Z) : Z := (i / 2 ^ 23) mod 256.
Definition f_frac (i : Z) : Z := i mod 2 ^ 23.
Definition f_neg (i : Z) : bool := 2 ^ 31 <=? i.
Definition f_finite (i : Z) : Prop := 0 <= i < 2 ^ 32 /\ f_exp i < 255.
Definition f_mag (i : Z) : Z := if f_exp i =? 0 then f_frac i else (2 ^ 23 + f_frac i) * 2 ^ (f_exp i - 1).
Definition fval (i : Z) : Z := if f_neg i then - f_mag i else f_mag i.
(* 2^e as a multiple of 2^-149 *)
Definition two_to (e : Z) : Z := 2 ^ (e + 149).
